(** Property C133: launches of CUDA kernels, and element-wise operations. *)
From Coq Require Import List Arith ZArith Bool Lia Permutation.
From Verif Require Import Base IndexSpec LayoutModel ViewSpec LayoutProofs KernelModel TensorModel TensorSpec KernelProofs TensorProofs.
From Verif Require Import TileModel TileSpec TileProofs4 LaunchModel LaunchSpec LaunchProofs LaunchProofs2.
Import ListNotations.

(** Under every schedule that comes to its end, every element is worked on
    exactly once: up to 2^31 elements with a counter of 32 bits, ... *)
Theorem C133_once_partial :
  (forall n sched, (Z.of_nat n <= 2 ^ 31)%Z -> over (execute Short n sched) -> each_once (log (execute Short n sched)) n) /\
  (forall n sched, (Z.of_nat n < 2 ^ 32)%Z -> over (execute Once n sched) -> each_once (log (execute Once n sched)) n) /\
  (forall n sched, (Z.of_nat n mod 2 ^ 32 <= 2 ^ 32 - 256)%Z -> over (execute Long n sched) -> each_once (log (execute Long n sched)) n).
Proof.
  split; [exact short_once|]. split; [exact once_once|]. intros n sched N. apply long_once.
  unfold as_u32. pose proof (Z.mod_pos_bound (Z.of_nat n) (2 ^ 32) ltac:(lia)). lia.
Qed.
Print Assumptions C133_once_partial.

(** ... and at least once, and no other, up to 2^32 - 256. *)
Theorem C133_each_partial : forall n sched, (Z.of_nat n <= 2 ^ 32 - 256)%Z -> over (execute Short n sched) ->
  each (log (execute Short n sched)) n.
Proof. exact short_each. Qed.
Print Assumptions C133_each_partial.

(** The threads end: whatever has happened, they can go on to the end. *)
Theorem C133_ends_partial :
  (forall n sched, (Z.of_nat n <= 2 ^ 32 - 256)%Z -> exists more, over (execute Short n (sched ++ more))) /\
  (forall n sched, exists more, over (execute Once n (sched ++ more))) /\
  (forall n sched, (Z.of_nat n mod 2 ^ 32 <= 2 ^ 32 - 256)%Z -> exists more, over (execute Long n (sched ++ more))).
Proof.
  split; [|split].
  - intros n sched N. apply can_end. intros t _. now apply short_ends.
  - intros n sched. apply can_end. intros t _. apply once_ends.
  - intros n sched N. apply can_end. intros t _. apply long_ends.
    unfold as_u32. pose proof (Z.mod_pos_bound (Z.of_nat n) (2 ^ 32) ltac:(lia)). lia.
Qed.
Print Assumptions C133_ends_partial.

(** Moving the threads in turn ends. *)
Theorem C133_turns : ending in_turn.
Proof. exact in_turn_ending. Qed.
Print Assumptions C133_turns.

(** C133 is false for more elements: the threads never end, an element is worked
    on twice, or the last one never. *)
Theorem C133_many_refuted :
  (forall n sched, (2 ^ 32 - 256 < Z.of_nat n)%Z -> ~ over (execute Short n sched)) /\
  (forall n sched, (2 ^ 32 - 256 < Z.of_nat n mod 2 ^ 32)%Z -> ~ over (execute Long n sched)) /\
  (forall n sched, (2 ^ 31 < Z.of_nat n <= 2 ^ 32 - 256)%Z -> over (execute Short n sched) -> ~ each_once (log (execute Short n sched)) n) /\
  (forall n sched, (2 ^ 32 <= Z.of_nat n)%Z -> over (execute Once n sched) -> ~ In (n - 1) (log (execute Once n sched))).
Proof.
  split; [exact short_never|]. split; [|split; [exact short_again|exact once_misses]].
  intros n sched N. apply long_never.
  unfold as_u32. pose proof (Z.mod_pos_bound (Z.of_nat n) (2 ^ 32) ltac:(lia)). lia.
Qed.
Print Assumptions C133_many_refuted.

(** An element-wise operation gives [f] of the elements, whatever lay in the
    output buffer, under every schedule that comes to its end. *)
Theorem C133_binary_partial : forall A C B sched (f : A -> C -> B) (a : tensor A) (b : tensor C) s out,
  ending sched -> good a -> good b -> tshape a = s -> tshape b = s -> (Z.of_nat (nelem s) <= 2 ^ 32 - 256)%Z ->
  (Z.of_nat (length (tstore a)) <= 2 ^ 32)%Z -> (Z.of_nat (length (tstore b)) <= 2 ^ 32)%Z -> length out = nelem s ->
  exists r, cuda_binary sched f (tstore a) (tstore b) out (binary_metadata (tlay a) (tlay b) (tlay a)) = Some r /\
    length r = nelem s /\
    forall i, valid s i -> exists x y, elem a i = Some x /\ elem b i = Some y /\ nth_error r (ravel s i) = Some (f x y).
Proof. exact cuda_binary_spec. Qed.
Print Assumptions C133_binary_partial.

Theorem C133_unary_partial : forall A B sched (f : A -> B) (a : tensor A) out,
  ending sched -> good a -> (Z.of_nat (nelem (tshape a)) <= 2 ^ 32 - 256)%Z ->
  (Z.of_nat (length (tstore a)) <= 2 ^ 32)%Z -> length out = nelem (tshape a) ->
  exists r, cuda_unary sched f (tstore a) out (unary_metadata (tlay a) (tlay a)) = Some r /\ length r = nelem (tshape a) /\
    forall i, valid (tshape a) i -> exists x, elem a i = Some x /\ nth_error r (ravel (tshape a) i) = Some (f x).
Proof. exact cuda_unary_spec. Qed.
Print Assumptions C133_unary_partial.

(** It is false of a small view into a tensor of more than 2^32 elements: its
    position is cut to 32 bits.  Every second element from element 2^32 on: *)
Definition far : nat := Z.to_nat (2 ^ 32).
Definition far_view : layout := mkLayout [2] [2] far.
Lemma far_u32 : forall q, (Z.of_nat q < 2 ^ 32)%Z -> as_u32 (far + q) = q.
Proof.
  intros q Q. unfold as_u32, far. rewrite Nat2Z.inj_add, Z2Nat.id by lia.
  rewrite <- (Z.mul_1_l (2 ^ 32)) at 1. rewrite Z.add_comm, Z_mod_plus_full, Z.mod_small by lia. lia.
Qed.
Theorem C133_far_refuted : forall A B sched (f : A -> B) (st : list A) out x0 x2,
  ending sched -> length st = far + 3 -> length out = 2 -> nth_error st 0 = Some x0 -> nth_error st 2 = Some x2 ->
  good (mkT st far_view) /\ elem (mkT st far_view) [0] = nth_error st far /\
  cuda_unary sched f st out (unary_metadata far_view far_view) = Some [f x0; f x2].
Proof.
  intros A B sched f st out x0 x2 E L LO X0 X2.
  assert (U0 : as_u32 (far + 0) = 0) by (apply far_u32; lia).
  assert (U2 : as_u32 (far + 2) = 2) by (apply far_u32; lia).
  unfold far_view in *. generalize dependent far. intros far L U0 U2. split; [|split].
  - split; [reflexivity|]. intros i V. cbn in V. destruct i as [|i [|]]; try tauto. unfold addr. cbn [loffset lstrides dot tstore tlay].
    rewrite L. assert (i < 2) by (cbn in V; tauto). lia.
  - unfold elem, addr. cbn [tstore tlay loffset lstrides dot]. f_equal. lia.
  - destruct (unary_md (mkLayout [2] [2] far) eq_refl) as (E0 & E1 & E2 & E3 & E4).
    unfold cuda_unary. rewrite E0. cbn [obind]. rewrite E1. cbn [obind]. rewrite E2. cbn [obind]. rewrite E3. cbn [obind].
    rewrite E4. cbn [obind]. clear E0 E1 E2 E3 E4. cbn [lshape lstrides loffset]. change (nelem [2]) with 2.
    change (c_is_contiguous [2] [2]) with false. cbv iota.
    set (body := fun i => let? p := _ in _).
    assert (B0 : body 0 = Some (f x0)).
    { unfold body. change (strided32 0 [2] [2]) with (Some 0). cbn [obind]. rewrite U0, X0. reflexivity. }
    assert (B1 : body 1 = Some (f x2)).
    { unfold body. change (strided32 1 [2] [2]) with (Some 2). cbn [obind]. rewrite U2, X2. reflexivity. }
    destruct (elementwise_total B sched 2 body out E ltac:(lia) LO) as (r & R & LR & N).
    { intros [|[|i]] I; [congruence|congruence|lia]. }
    rewrite R. destruct r as [|a [|b [|]]]; try discriminate LR.
    pose proof (N 0 ltac:(lia)) as N0. pose proof (N 1 ltac:(lia)) as N1. cbn [nth_error] in N0, N1. congruence.
Qed.
Print Assumptions C133_far_refuted.

(** ** Examples *)
(** 300 elements: 512 threads; the threads from the last to the first, and then
    again, until they have returned *)
Definition backwards : list nat := rev (seq 0 512) ++ rev (seq 0 512).
Example C133_ex_launch : launched 300 = 512 /\ forallb (fun o => match o with None => true | Some _ => false end) (at_ (execute Short 300 backwards)) = true /\
  log (execute Short 300 backwards) = rev (seq 0 300).
Proof. split; [reflexivity|]. split; vm_compute; reflexivity. Qed.

(** a sum of a transposed and a plain matrix through [C133_binary_partial] *)
Example C133_ex_binary :
  let a := mkT [1; 2; 3; 4; 5; 6]%Z (mkLayout [2; 3] [1; 2] 0) in
  let b := mkT [10; 20; 30; 40; 50; 60]%Z (from_shape [2; 3]) in
  exists r, cuda_binary in_turn Z.add (tstore a) (tstore b) (repeat None 6) (binary_metadata (tlay a) (tlay b) (tlay a)) = Some r /\
    nth_error r 1 = Some 23%Z.
Proof.
  intros a b.
  destruct (C133_binary_partial Z Z Z in_turn Z.add a b [2; 3] (repeat None 6)) as (r & E & _ & D).
  - exact C133_turns.
  - split; [reflexivity|]. intros i V. destruct i as [|i [|j [|]]]; cbn in V; try tauto. unfold addr. cbn. lia.
  - now apply from_shape_good.
  - reflexivity.
  - reflexivity.
  - vm_compute. discriminate.
  - vm_compute. discriminate.
  - vm_compute. discriminate.
  - reflexivity.
  - exists r. split; [exact E|]. destruct (D [0; 1]) as (x & y & X & Y & R); [cbn; lia|].
    cbn in X, Y. injection X as <-. injection Y as <-. cbn in R. exact R.
Qed.
