(** C142: compress on CUDA. *)
From Coq Require Import List Arith ZArith Bool Lia.
From Verif Require Import Base IndexSpec LayoutModel ViewSpec LayoutProofs KernelModel KernelProofs TensorModel TensorSpec
  TensorProofs ScanModel SortModel EinsumModel CountModel CountProofs CountProofs3 LaunchModel LaunchSpec LaunchProofs LaunchProofs2 CudaIndexProofs2
  CudaCompressModel CudaCompressProofs.
Import ListNotations.

(** Without an axis: the elements of the flattened tensor at which the condition holds, in
    order, under every schedule.  Missing: conditions that are views (refuted below). *)
Theorem C142_flat_partial : forall (A : Type) sched, ending sched -> forall (t : tensor A) bs, good t ->
  length bs = nelem (tshape t) -> (Z.of_nat (nelem (tshape t)) <= 2 ^ 32 - 256)%Z ->
  let cond := mkT bs (from_shape [nelem (tshape t)]) in
  exists r, cuda_t_compress sched t cond None = Ok r /\ good r /\ tshape r = [length (true_positions cond)] /\
    forall k p, nth_error (true_positions cond) k = Some p -> elem r [k] = elem t (unravel (tshape t) p).
Proof. intros A sched EN t bs. exact (cuda_flat_spec sched EN t bs). Qed.
Print Assumptions C142_flat_partial.
(** With an axis: the slices at which the condition holds, in order, for every rank. *)
Theorem C142_axis_partial : forall (A : Type) sched, ending sched -> forall (t : tensor A) bs a, good t ->
  axis_ok (length (tshape t)) a ->
  length bs = nth (axis_of (length (tshape t)) a) (tshape t) 0 -> (Z.of_nat (length bs) <= 2 ^ 32 - 256)%Z ->
  let cond := mkT bs (from_shape [length bs]) in
  let ax := axis_of (length (tshape t)) a in
  exists r, cuda_t_compress sched t cond (Some a) = Ok r /\ good r /\
    tshape r = upd (tshape t) ax (length (true_positions cond)) /\
    forall i k p, valid (tshape r) i -> nth_error i ax = Some k -> nth_error (true_positions cond) k = Some p ->
      elem r i = elem t (upd i ax p).
Proof. intros A sched EN t bs a. exact (cuda_axis_spec sched EN t bs a). Qed.
Print Assumptions C142_axis_partial.
Example C142_hyps : let t := mkT [1; 2; 3; 4; 5; 6] (mkLayout [3; 2] [1; 3] 0) in
  ending swift /\ good t /\ axis_ok (length (tshape t)) (-2) /\ (Z.of_nat (nelem (tshape t)) <= 2 ^ 32 - 256)%Z.
Proof.
  split; [exact swift_ending|]. split; [|split; [unfold axis_ok; cbn; lia|now vm_compute]].
  split; [reflexivity|]. intros [|a [|b [|c i]]] V; cbn in V; try tauto. destruct V as (V1 & V2 & _).
  destruct a as [|[|[|a]]]; destruct b as [|[|b]]; first [exfalso; lia|vm_compute; lia].
Qed.
Example C142_flat_example :
  cuda_t_compress swift (mkT [1; 2; 3; 4; 5; 6] (mkLayout [3; 2] [1; 3] 0))
    (mkT [true; false; false; true; true; false] (from_shape [6])) None = Ok (mkT [1; 5; 3] (from_shape [3])).
Proof. vm_compute. reflexivity. Qed.
Example C142_axis_example :
  cuda_t_compress swift (mkT [1; 2; 3; 4; 5; 6] (mkLayout [3; 2] [1; 3] 0))
    (mkT [true; false; true] (from_shape [3])) (Some (-2)%Z) = Ok (mkT [1; 4; 3; 6] (from_shape [2; 2])) /\
  cuda_t_compress swift (mkT [1; 2; 3; 4; 5; 6] (mkLayout [3; 2] [1; 3] 0))
    (mkT [false; true] (from_shape [2])) (Some 1%Z) = Ok (mkT [4; 5; 6] (from_shape [3; 1])).
Proof. split; vm_compute; reflexivity. Qed.
Example C142_rejected :
  cuda_t_compress swift (mkT [1; 2] (from_shape [2])) (mkT [true; false] (from_shape [2])) (Some 1%Z) = Err EAxis /\
  cuda_t_compress swift (mkT [1; 2] (from_shape [2])) (mkT [true; false] (from_shape [2])) (Some (-2)%Z) = Err EAxis /\
  cuda_t_compress swift (mkT [1; 2] (from_shape [2])) (mkT [true; false; true] (from_shape [3])) (Some 0%Z) = Err EInternal /\
  cuda_t_compress swift (mkT [1; 2] (from_shape [2])) (mkT [true] (from_shape [1])) None = Err EInternal /\
  cuda_t_compress swift (mkT [1; 2] (from_shape [2])) (mkT [true; false] (from_shape [1; 2])) None = Err EInternal.
Proof. repeat split. Qed.

(** Nothing selected: an empty tensor, with nothing launched. *)
Theorem C142_none : forall (A : Type) sched (t : tensor A) bs,
  length bs = nelem (tshape t) -> (forall b, In b bs -> b = false) ->
  cuda_t_compress sched t (mkT bs (from_shape [length bs])) None = Ok (mkT [] (from_shape [0])).
Proof.
  intros A sched t bs L F. unfold cuda_t_compress. cbn [tlay from_shape lshape length Nat.eqb negb tstore].
  change (lshape (from_shape [length bs])) with [length bs]. cbn [length Nat.eqb negb].
  replace (nelem [length bs]) with (length bs) by (unfold nelem; simpl; lia).
  change (lshape (tlay t)) with (tshape t). rewrite L, Nat.eqb_refl. cbn [negb bind]. rewrite Nat.ltb_irrefl.
  replace (count_occ bool_dec bs true) with 0; [reflexivity|]. symmetry. apply count_occ_not_In. intro I. now apply F in I.
Qed.
Print Assumptions C142_none.

(** A condition that views a part of a longer storage panics when it is copied. *)
Theorem C142_view_refuted : forall (A : Type) sched (t : tensor A) (cond : tensor bool),
  length (tshape cond) = 1 -> nelem (tshape cond) = nelem (tshape t) -> nelem (tshape cond) < length (tstore cond) ->
  cuda_t_compress sched t cond None = Panic.
Proof.
  intros A sched t cond R N L. unfold cuda_t_compress. change (lshape (tlay cond)) with (tshape cond).
  change (lshape (tlay t)) with (tshape t). rewrite R, N. cbn [Nat.eqb negb]. rewrite Nat.eqb_refl. cbn [negb bind].
  rewrite <- N. now rewrite (proj2 (Nat.ltb_lt _ _) L).
Qed.
Print Assumptions C142_view_refuted.
Example C142_view_example : let cond := mkT [true; false] (mkLayout [1] [1] 1) in
  good cond /\ elem cond [0] = Some false /\ cuda_t_compress swift (mkT [7] (from_shape [1])) cond None = Panic.
Proof.
  split; [|split; reflexivity]. split; [reflexivity|]. intros i V. destruct i as [|x [|? ?]]; simpl in V; try tauto. unfold addr. simpl. lia.
Qed.

(** A condition that repeats the cells of a shorter storage, as an expanded one does, is
    read outside its buffer. *)
Lemma loop_undefined : forall X S (step : X -> S -> option S) ks k, In k ks -> (forall s, step k s = None) ->
  forall s, loopO step ks s = None.
Proof.
  intros X S step. induction ks as [|k' ks IH]; intros k I H s; (destruct I as [I | I] || destruct I); cbn [loopO].
  - subst. now rewrite H.
  - destruct (step k' s); [|reflexivity]. now apply (IH k).
Qed.
Theorem C142_expanded_refuted : forall (A : Type) sched, ending sched -> forall (t : tensor A) (cond : tensor bool),
  good t -> length (tshape cond) = 1 -> nelem (tshape cond) = nelem (tshape t) ->
  (Z.of_nat (nelem (tshape t)) <= 2 ^ 32 - 256)%Z ->
  length (tstore cond) < nelem (tshape cond) -> In true (tstore cond) ->
  cuda_t_compress sched t cond None = Panic.
Proof.
  intros A sched EN t cond G R N C L T. unfold cuda_t_compress. change (lshape (tlay cond)) with (tshape cond).
  change (lshape (tlay t)) with (tshape t). rewrite R, N. cbn [Nat.eqb negb]. rewrite Nat.eqb_refl. cbn [negb bind].
  rewrite N in L. rewrite (proj2 (Nat.ltb_ge _ _)) by lia.
  pose proof (proj1 (count_occ_In bool_dec _ _) T) as P.
  destruct (count_occ bool_dec (tstore cond) true) as [|k] eqn:K; [lia|]. cbn [Nat.eqb].
  unfold cuda_compress, compress_metadata. rewrite read_view_app by exact (proj1 G). cbn [obind].
  set (n := nelem (tshape t)) in *.
  change (v_rest _) with [n; 0; 0]. change (read_n 3 [n; 0; 0]) with (Some ([n; 0; 0], @nil nat)). cbn [obind nth Nat.eqb].
  rewrite (loop_undefined _ _ _ _ (length (tstore cond))); [reflexivity| |].
  - apply (short_each n (sched n) C (EN n C)). lia.
  - intro s. unfold flat_turn. rewrite (proj2 (nth_error_None _ _)) by lia. reflexivity.
Qed.
Print Assumptions C142_expanded_refuted.
Example C142_expanded_example : let cond := mkT [true] (mkLayout [2] [0] 0) in
  good cond /\ elem cond [1] = Some true /\ cuda_t_compress swift (mkT [7; 8] (from_shape [2])) cond None = Panic.
Proof.
  split; [|split; [reflexivity|vm_compute; reflexivity]]. split; [reflexivity|]. intros i V. destruct i as [|x [|? ?]]; simpl in V; try tauto. unfold addr. simpl. lia.
Qed.
