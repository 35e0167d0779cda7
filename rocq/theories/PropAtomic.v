(** C131: the atomic updates of the CUDA kernels. *)
From Coq Require Import List Arith ZArith Bool Lia Permutation.
From Verif Require Import Base EncodeModel AtomicModel AtomicSpec AtomicProofs.
Import ListNotations.
Open Scope Z_scope.

(** Under every schedule that lets all threads return, the calls have taken
    effect one after the other in some order, each on the element it addresses
    and on no other.  Missing: the eight bit floats. *)
Theorem C131_order_partial : forall d l c g f cs m sched,
  lane_of d = Some l -> eight_bit_float d = false -> words d m ->
  Forall (fun e => placed d m (addr e)) cs ->
  (forall x e, In e cs -> 0 <= x < 2 ^ bits d -> 0 <= f x (value e) < 2 ^ bits d) ->
  all_returned (run l g (hardware c d) f cs sched (start cs m)) ->
  exists order, Permutation order cs /\
    forall a, placed d m a ->
      element d (memory (run l g (hardware c d) f cs sched (start cs m))) a
      = in_turn f order a (element d m a).
Proof.
  intros d l c g f cs m sched L E. exact (atomic_linear d l g _ f cs m sched (conj L E)).
Qed.
Print Assumptions C131_order_partial.

(** So sums of integers are the sums, whatever the schedule ... *)
Theorem C131_sum : forall d signed l g cs m sched,
  integer d = Some signed -> lane_of d = Some l -> words d m ->
  Forall (fun e => placed d m (addr e)) cs ->
  let s := run l g (hardware Add d) (integer_change Add signed (bits d)) cs sched (start cs m) in
  all_returned s ->
  forall a, placed d m a ->
    element d (memory s) a = (element d m a + total cs a) mod 2 ^ bits d.
Proof.
  intros d signed l g cs m sched I L. refine (atomic_sum d l g _ signed cs m sched (conj L _)).
  destruct d; discriminate I || reflexivity.
Qed.
Print Assumptions C131_sum.

(** ... and greatest and least elements are those of all the values. *)
Theorem C131_extreme : forall c d signed l g cs m sched, c <> Add ->
  integer d = Some signed -> lane_of d = Some l -> words d m ->
  Forall (fun e => placed d m (addr e) /\ 0 <= value e < 2 ^ bits d) cs ->
  let s := run l g (hardware c d) (integer_change c signed (bits d)) cs sched (start cs m) in
  all_returned s ->
  forall a, placed d m a ->
    extreme c (key signed d) (candidates cs a (element d m a)) (element d (memory s) a).
Proof.
  intros c d signed l g cs m sched N I L W.
  refine (atomic_extreme c signed d l g _ cs m sched (conj L _) W N).
  destruct d; discriminate I || reflexivity.
Qed.
Print Assumptions C131_extreme.

(** No thread waits for ever: one that moves more often than there are threads
    has returned, whatever the others do. *)
Theorem C131_returns : forall l g hw f cs m sched i, (i < length cs)%nat ->
  (length cs < moves i sched)%nat ->
  nth_error (places (run l g hw f cs sched (start cs m))) i = Some After.
Proof. exact atomic_returns. Qed.
Print Assumptions C131_returns.

(** C131 is false for the eight bit floats.  Adding 1.0 (bits 56) to the element
    at address 1 of four zeros sets the element at address 0, and leaves in
    element 1 the byte [g] that lay behind the sum on the stack. *)
Theorem C131_f8_refuted : forall d g f, eight_bit_float d = true -> 0 <= g < 256 -> f 0 56 = 56 ->
  lane_of d = Some L8f /\ words d [0] /\ placed d [0] 1 /\
  let s := run L8f g (hardware Add d) f [{| addr := 1; value := 56 |}] [0%nat; 0%nat]
               (start [{| addr := 1; value := 56 |}] [0]) in
  all_returned s /\ element d [0] 0 = 0 /\ element d (memory s) 0 = 56 /\ element d (memory s) 1 = g.
Proof.
  intros d g f E G F.
  assert (H : hardware Add d = false) by (destruct d; try discriminate E; reflexivity).
  rewrite H. destruct (eight_bit_wrong d g f E G F) as (A & B & C).
  split; [destruct d; try discriminate E; reflexivity|].
  split; [unfold words; constructor; [|constructor]; split; [lia|apply Z.pow_pos_nonneg; lia]|].
  split; [destruct d; try discriminate E; (split; [reflexivity|cbn; lia])|].
  intros s. split; [exact A|]. split; [destruct d; try discriminate E; reflexivity|]. split; assumption.
Qed.
Print Assumptions C131_f8_refuted.

(** Three threads on two bytes of one word; the second finds the word changed
    and goes round again. *)
Example C131_ex :
  let cs := [{| addr := 1; value := 200 |}; {| addr := 2; value := 3 |}; {| addr := 1; value := 100 |}] in
  let m := [4278255873] in   (* bytes 1, 1, 1, 255 *)
  let s := run L8 0 (hardware Add U8) (integer_change Add false 8) cs [0; 1; 2; 0; 1; 1; 2; 2]%nat (start cs m) in
  words U8 m /\ Forall (fun e => placed U8 m (addr e)) cs /\ all_returned s /\
  map (element U8 (memory s)) [0; 1; 2; 3]%nat = [1; 45; 4; 255] /\
  map (total cs) [0; 1; 2; 3]%nat = [0; 300; 3; 0] /\
  moves 1 [0; 1; 2; 0; 1; 1; 2; 2]%nat = 3%nat /\
  places (run L8 0 false (integer_change Add false 8) cs [0; 1; 0; 1]%nat (start cs m))
  = [After; Loop 4278307073; Before] /\
  map (element I8 (memory (run L8 0 (hardware Max I8) (integer_change Max true 8) cs
                            [0; 0; 2; 2; 1; 1]%nat (start cs m)))) [0; 1; 2; 3]%nat = [1; 100; 3; 255].
Proof.
  cbn zeta. split; [repeat constructor; cbn; lia|].
  split; [repeat constructor; cbn; lia|]. split; [repeat constructor|].
  repeat split; vm_compute; reflexivity.
Qed.
