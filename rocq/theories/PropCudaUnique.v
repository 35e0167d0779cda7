(** C141: unique on CUDA. *)
From Coq Require Import List Arith ZArith Bool Lia Permutation.
From Verif Require Import Base IndexSpec LayoutModel ViewSpec LayoutProofs TensorModel TensorSpec TensorProofs.
From Verif Require Import LaunchModel CudaNonzeroProofs CudaUniqueModel CudaUniqueProofs3.
Import ListNotations.

(** Every launch comes to its end. *)
Definition launches_end (sched : launch -> nat -> list nat) : Prop :=
  forall l n, (Z.of_nat n <= 2 ^ 31)%Z -> over (execute Long n (sched l n)).
Lemma upward_ends : launches_end (fun _ => upward).
Proof. intros l n C. apply upward_log. lia. Qed.
Lemma downward_ends : launches_end (fun _ => downward).
Proof. intros l n C. apply downward_log. lia. Qed.
Lemma z_asym : forall a b, (a <? b)%Z = true -> (b <? a)%Z = false.
Proof. intros a b. rewrite Z.ltb_lt, Z.ltb_ge. lia. Qed.
Lemma z_neg : forall a b c, (a <? b)%Z = false -> (b <? c)%Z = false -> (a <? c)%Z = false.
Proof. intros a b c. rewrite !Z.ltb_ge. lia. Qed.
Lemma z_same : forall a b, (a =? b)%Z = negb (a <? b)%Z && negb (b <? a)%Z.
Proof. intros a b. destruct (Z.eqb_spec a b), (Z.ltb_spec a b), (Z.ltb_spec b a); cbn; lia. Qed.

(** The bitonic sort of values with their positions: for every power of two and every
    schedule of every step, the pairs are rearranged and the values are in order. *)
Theorem C141_sort : forall (A : Type) (lt : A -> A -> bool) sched,
  (forall a b, lt a b = true -> lt b a = false) ->
  (forall a b c, lt a b = false -> lt b c = false -> lt a c = false) ->
  launches_end sched ->
  forall m (vs : list A) ps, (Z.of_nat (2 ^ m) <= 2 ^ 31)%Z -> length vs = 2 ^ m -> length ps = 2 ^ m ->
  exists vs' ps', bitonic_outer lt sched (S (2 ^ m)) (2 ^ m) 2 (vs, ps) = Some (vs', ps') /\
    length vs' = 2 ^ m /\ length ps' = 2 ^ m /\
    Permutation (combine vs' ps') (combine vs ps) /\
    forall i j x y, i < j -> nth_error vs' i = Some x -> nth_error vs' j = Some y -> lt y x = false.
Proof.
  intros A lt sched H1 H2 H3 m [|a vs] ps C LV LP; [pose proof (Nat.pow_nonzero 2 m); cbn in LV; lia|].
  exact (bitonic_sorts lt lt a a sched H1 H2 H3 m (a :: vs) ps C LV LP).
Qed.
Print Assumptions C141_sort.
Example C141_sort_example :
  launches_end (fun _ => downward) /\ (Z.of_nat (2 ^ 3) <= 2 ^ 31)%Z /\
  bitonic_outer Z.ltb (fun _ => downward) 9 8 2 ([5; 3; 5; 8; -3; 9; 1; 0]%Z, [0; 1; 2; 3; 4; 5; 6; 7]) =
  Some ([-3; 0; 1; 3; 5; 5; 8; 9]%Z, [4; 7; 6; 1; 2; 0; 3; 5]).
Proof. split; [exact downward_ends|]. split; [cbn; lia|]. vm_compute. reflexivity. Qed.

(** unique: the values are strictly increasing and occur in the input, the inverse maps
    each element to the equal value, the counts are the numbers of equal elements; under
    every schedule.  Missing: views that are not contiguous, and sizes that are not a power
    of two with elements that are not below the padding (refuted below). *)
Theorem C141_unique_partial : forall (A : Type) (lt same : A -> A -> bool) (top z : A) sched,
  (forall a b, lt a b = true -> lt b a = false) ->
  (forall a b c, lt a b = false -> lt b c = false -> lt a c = false) ->
  (forall a b, same a b = negb (lt a b) && negb (lt b a)) ->
  launches_end sched ->
  forall t : tensor A, good t -> is_contiguous (tlay t) = true -> (Z.of_nat (nelem (tshape t)) <= 2 ^ 31)%Z ->
  (forall i y, valid (tshape t) i -> elem t i = Some y -> lt y top = true) \/ (exists m, nelem (tshape t) = 2 ^ m) ->
  exists vs inv cs m, cuda_t_unique lt same top z sched t = Ok (vs, inv, cs) /\
    good vs /\ good inv /\ good cs /\
    tshape vs = [m] /\ tshape inv = [nelem (tshape t)] /\ tshape cs = [m] /\
    (forall r r' x y, r < r' -> r' < m -> elem vs [r] = Some x -> elem vs [r'] = Some y -> lt x y = true) /\
    (forall r, r < m -> exists i x, valid (tshape t) i /\ elem t i = Some x /\ elem vs [r] = Some x) /\
    (forall i x, valid (tshape t) i -> elem t i = Some x ->
       exists r y, r < m /\ elem inv [ravel (tshape t) i] = Some r /\ elem vs [r] = Some y /\ same x y = true) /\
    (forall r y, r < m -> elem vs [r] = Some y ->
       elem cs [r] = Some (length (filter (fun i => match elem t i with Some x => same x y | None => false end)
         (all_idx (tshape t))))).
Proof.
  intros A lt same top z sched H1 H2 H3 H4 t G C N B. apply cuda_t_unique_spec; auto.
  destruct B as [B|[m B]]; [left; exact B|right]. unfold next_power. rewrite B. now rewrite Nat.log2_up_pow2 by lia.
Qed.
Print Assumptions C141_unique_partial.
Example C141_unique_example :
  cuda_t_unique Z.ltb Z.eqb 127%Z 0%Z (fun _ => downward) (mkT [0; 5; -3; 5; 8; -3; 9]%Z (mkLayout [2; 3] [3; 1] 1)) =
  Ok (mkT [-3; 5; 8; 9]%Z (from_shape [4]), mkT [1; 0; 1; 2; 0; 3] (from_shape [6]), mkT [2; 2; 1; 1] (from_shape [4])).
Proof. vm_compute. reflexivity. Qed.
Example C141_unique_hyps :
  let t := mkT [0; 5; -3; 5; 8; -3; 9]%Z (mkLayout [2; 3] [3; 1] 1) in
  launches_end (fun _ => downward) /\ good t /\ is_contiguous (tlay t) = true /\ (Z.of_nat (nelem (tshape t)) <= 2 ^ 31)%Z /\
  forall i y, valid (tshape t) i -> elem t i = Some y -> (y <? 127)%Z = true.
Proof.
  split; [exact downward_ends|]. split; [|split; [reflexivity|split; [now vm_compute|]]].
  - split; [reflexivity|]. intros [|a [|b [|c i]]] V; cbn in V; try tauto. destruct V as (V1 & V2 & _).
    destruct a as [|[|a]]; destruct b as [|[|[|b]]]; first [exfalso; lia|vm_compute; lia].
  - intros [|a [|b [|c i]]] y V; cbn in V; try tauto. destruct V as (V1 & V2 & _).
    destruct a as [|[|a]]; destruct b as [|[|[|b]]]; first [exfalso; lia|intro E; injection E as <-; reflexivity].
Qed.

(** An element above the padding (infinity in f32, where the padding is 3.4e38) writes
    outside the buffer of the inverse, for every size that is not a power of two. *)
Theorem C141_large_refuted : forall (A : Type) (lt same : A -> A -> bool) (top z : A) sched,
  (forall a b, lt a b = true -> lt b a = false) ->
  (forall a b c, lt a b = false -> lt b c = false -> lt a c = false) ->
  launches_end sched ->
  forall (t : tensor A) i y, good t -> is_contiguous (tlay t) = true ->
  (Z.of_nat (nelem (tshape t)) <= 2 ^ 31)%Z -> (forall m, nelem (tshape t) <> 2 ^ m) ->
  valid (tshape t) i -> elem t i = Some y -> lt top y = true ->
  cuda_t_unique lt same top z sched t = Panic.
Proof.
  intros A lt same top z sched H1 H2 H3 t i y G C N P V E B. apply (cuda_t_unique_large lt same top z sched H1 H2 H3 t i y); auto.
  pose proof (next_power_ge (nelem (tshape t))) as GE. specialize (P (Nat.log2_up (nelem (tshape t)))). unfold next_power in *. lia.
Qed.
Print Assumptions C141_large_refuted.
(** f32 without NaN: integers and infinity *)
Definition inf_lt (a b : option Z) : bool :=
  match a, b with Some x, Some y => (x <? y)%Z | Some _, None => true | None, _ => false end.
Definition inf_eq (a b : option Z) : bool := negb (inf_lt a b) && negb (inf_lt b a).
Example C141_large_example :
  (forall a b, inf_lt a b = true -> inf_lt b a = false) /\
  (forall a b c, inf_lt a b = false -> inf_lt b c = false -> inf_lt a c = false) /\
  inf_lt (Some (34 * 10 ^ 37)%Z) None = true /\
  cuda_t_unique inf_lt inf_eq (Some (34 * 10 ^ 37)%Z) (Some 0%Z) (fun _ => upward) (mkT [Some 1%Z; None; Some 2%Z] (from_shape [3])) = Panic.
Proof.
  split; [intros [a|] [b|]; cbn; auto using z_asym|]. split; [|split; [reflexivity|vm_compute; reflexivity]].
  intros [a|] [b|] [c|]; cbn; auto; try discriminate. apply z_neg.
Qed.

(** So does an element equal to the padding, here 255 of u8. *)
Theorem C141_max_refuted : forall sched, launches_end sched ->
  cuda_t_unique Z.ltb Z.eqb 255%Z 0%Z sched (mkT [1; 2; 255]%Z (from_shape [3])) = Panic.
Proof.
  intros sched H. apply (cuda_t_unique_out Z.ltb Z.eqb 255%Z 0%Z sched z_asym z_neg H _ 2).
  - apply from_shape_good. reflexivity.
  - reflexivity.
  - now vm_compute.
  - vm_compute. lia.
  - vm_compute. lia.
Qed.
Print Assumptions C141_max_refuted.

(** The strides are not read: the transposed matrix 4 2 / 3 1 is taken for 4 3 / 2 1, and
    the inverse of its element 2 is the place of 3. *)
Theorem C141_view_refuted : forall sched, launches_end sched ->
  let t := mkT [4; 3; 2; 1]%Z (mkLayout [2; 2] [1; 2] 0) in
  exists vs inv cs r, cuda_t_unique Z.ltb Z.eqb 255%Z 0%Z sched t = Ok (vs, inv, cs) /\
    elem t [0; 1] = Some 2%Z /\ elem inv [ravel (tshape t) [0; 1]] = Some r /\ elem vs [r] = Some 3%Z.
Proof.
  intros sched H t. set (t' := mkT [4; 3; 2; 1]%Z (from_shape [2; 2])).
  destruct (cuda_t_unique_spec Z.ltb Z.eqb 255%Z 0%Z sched z_asym z_neg H z_same t') as (vs & inv & cs & m & E & _ & _ & _ & _ & _ & _ & _ & _ & I & _).
  - apply from_shape_good. reflexivity.
  - reflexivity.
  - now vm_compute.
  - right. reflexivity.
  - destruct (I [0; 1] 3%Z) as (r & y & _ & R & Y & S1); [cbn; lia|reflexivity|]. apply Z.eqb_eq in S1. subst y.
    exists vs, inv, cs, r. split; [exact E|]. split; [reflexivity|]. split; [exact R|exact Y].
Qed.
Print Assumptions C141_view_refuted.
