(** Property C139: nonzero on CUDA. *)
From Coq Require Import List Arith ZArith Bool Lia Permutation.
From Verif Require Import Base IndexSpec LayoutModel ViewSpec LayoutProofs KernelModel TensorModel TensorSpec TensorProofs ScanModel CountModel CountProofs.
From Verif Require Import LaunchModel CudaNonzeroModel CudaNonzeroProofs.
Import ListNotations.

(** The indices of the non-zero elements of any view, each once, under every schedule
    of the two launches.  Missing: their order, rank above 16, more than 2^32-256 elements. *)
Theorem C139_rows_partial : forall (A : Type) (nz : A -> bool) sched sched' (t : tensor A), good t -> length (tshape t) <= 16 ->
  (Z.of_nat (nelem (tshape t)) <= 2 ^ 32 - 256)%Z ->
  over (execute Long (nelem (tshape t)) (sched (nelem (tshape t)))) ->
  over (execute Long (nelem (tshape t)) (sched' (nelem (tshape t)))) ->
  let rows := filter (fun i => match elem t i with Some x => nz x | None => false end) (all_idx (tshape t)) in
  exists r rows', cuda_t_nonzero nz sched sched' t = Ok r /\ good r /\ tshape r = [length rows; length (tshape t)] /\
    Permutation rows' rows /\
    forall n i d x, nth_error rows' n = Some i -> nth_error i d = Some x -> elem r [n; d] = Some x.
Proof.
  intros A nz sched sched' t G R N O O'. destruct (cuda_t_nonzero_spec nz sched sched' t G R N O O') as (P & r & E1 & E2 & E3 & _ & E4).
  exists r, (found nz sched' t). split; [exact E1|]. split; [exact E2|]. split; [change (tshape r) with (lshape (tlay r)); now rewrite E3|]. auto.
Qed.
Print Assumptions C139_rows_partial.

(** When the threads come in ascending order it is what the CPU gives. *)
Theorem C139_ascending_partial : forall (A : Type) (nz : A -> bool) sched (t : tensor A), good t -> length (tshape t) <= 16 ->
  (Z.of_nat (nelem (tshape t)) <= 2 ^ 32 - 256)%Z ->
  over (execute Long (nelem (tshape t)) (sched (nelem (tshape t)))) ->
  over (execute Long (nelem (tshape t)) (upward (nelem (tshape t)))) /\
  exists r, cuda_t_nonzero nz sched upward t = Ok r /\ t_nonzero nz t = Ok r.
Proof. exact cuda_t_nonzero_ascending. Qed.
Print Assumptions C139_ascending_partial.

Example C139_ex :  (* the view of C70_nonzero_example *)
  let t := mkT [9; 0; 4; 5; 0; 0; 7] (mkLayout [2; 3] [1; 2] 1) in
  good t /\ cuda_t_nonzero (fun x => negb (x =? 0)) upward upward t = Ok (mkT [0;1; 1;0; 1;2] (from_shape [3; 2])) /\
  cuda_t_nonzero (fun x => negb (x =? 0)) upward downward t = Ok (mkT [1;2; 1;0; 0;1] (from_shape [3; 2])).
Proof.
  intro t.
  assert (G : good t).
  { split; [reflexivity|]. intros i V. destruct i as [|x [|y [|? ?]]]; cbn in V; try tauto. cbn. lia. }
  split; [exact G|].
  assert (N : (Z.of_nat (nelem (tshape t)) <= 2 ^ 32 - 256)%Z) by now vm_compute.
  assert (R : length (tshape t) <= 16) by (cbn; lia).
  split.
  - destruct (C139_ascending_partial nat (fun x => negb (x =? 0)) upward t G R N (proj1 (upward_log _ N))) as (_ & r & -> & H).
    rewrite <- H. reflexivity.
  - destruct (cuda_t_nonzero_spec (fun x => negb (x =? 0)) upward downward t G R N (proj1 (upward_log _ N)) (proj1 (downward_log _ N)))
      as (_ & [st l] & -> & _ & E3 & E4 & _).
    rewrite found_downward in E4 by exact N. cbn [tlay tstore] in E3, E4. rewrite E3, E4. reflexivity.
Qed.

(** C139 is false of the order, the one in which the threads come to the counter: for
    every tensor with two or more non-zero elements the same call gives two different
    tensors under two schedules. *)
Theorem C139_order_refuted : forall (A : Type) (nz : A -> bool) (t : tensor A), good t -> length (tshape t) <= 16 ->
  (Z.of_nat (nelem (tshape t)) <= 2 ^ 32 - 256)%Z ->
  2 <= length (filter (fun i => match elem t i with Some x => nz x | None => false end) (all_idx (tshape t))) ->
  over (execute Long (nelem (tshape t)) (upward (nelem (tshape t)))) /\
  over (execute Long (nelem (tshape t)) (downward (nelem (tshape t)))) /\
  exists r r' d, cuda_t_nonzero nz upward upward t = Ok r /\ cuda_t_nonzero nz upward downward t = Ok r' /\ elem r [0; d] <> elem r' [0; d].
Proof. exact cuda_t_nonzero_orders. Qed.
Print Assumptions C139_order_refuted.

(** C139 is false of rank above 16, where the CPU goes up to 32: no row is ever given. *)
Theorem C139_rank_refuted : forall (A : Type) (nz : A -> bool) sched sched' (t : tensor A) r,
  wf_layout (tlay t) -> 16 < length (tshape t) -> nelem (tshape t) <> 0 ->
  cuda_t_nonzero nz sched sched' t = Ok r -> tstore r = [].
Proof. exact cuda_t_nonzero_rank. Qed.
Print Assumptions C139_rank_refuted.
Example C139_rank_ex : t_nonzero (fun x => negb (x =? 0)) (mkT [1] (from_shape (repeat 1 17))) = Ok (mkT (repeat 0 17) (from_shape [1; 17])).
Proof. reflexivity. Qed.
