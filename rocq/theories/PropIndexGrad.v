(** C107: the gradient rules of gather, index_select, scatter, scatter_add, topk and slice, on the real numbers.
    [named n d ix t j] is the element of [t] at [j] with coordinate [d] replaced by the position index [ix] names
    on an axis of [n] elements, 0 if it names none. *)
From Coq Require Import List Arith ZArith Bool Lia Reals Lra.
From Verif Require Import Base IndexSpec LayoutModel ViewSpec LayoutProofs BcastProofs KernelModel TensorModel TensorSpec KernelProofs TensorProofs ElementwiseProofs ReduceModel MoveModel MoveProofs3 SelectModel IndexModel IndexProofs IndexProofs2 SortModel SortProofs DenSpec.
From Verif Require Import ConvReal MoveGradModel IndexGradModel IndexGradProofs IndexGradProofs2.
Import ListNotations.
Open Scope nat_scope.

(** Excluded: an element gathered twice ([once]), negative axes, rank above 32, and index tensors excluded in C31. *)
Theorem C107_gather_partial : forall z max min s a (idx : tensor Z) n (g : tensor R), axis_ok (length s) a -> (0 <= a)%Z -> length s <= 32 ->
  let d := axis_of (length s) a in
  nth_error s d = Some n -> good idx -> plain_layout idx -> length (tshape idx) = length s ->
  (forall k x y, k <> d -> nth_error (tshape idx) k = Some x -> nth_error s k = Some y -> x <= y) ->
  once n d idx -> good g -> tshape g = tshape idx ->
  exists gx, vjp_pick 0%R Rplus max min s a idx g = Ok gx /\ tshape gx = s /\
    forall t, good t -> tshape t = s -> exists y, t_gather 0%R z t a idx = Ok y /\ tshape y = tshape g /\ pairing g y = pairing gx t.
Proof. exact vjp_gather_adjoint. Qed.
Print Assumptions C107_gather_partial.

(** The first axis only, and no element selected twice. *)
Theorem C107_select_partial : forall z max min n l (idx : tensor Z) m (g : tensor R), S (length l) <= 32 ->
  good idx -> plain_layout idx -> tshape idx = [m] ->
  (forall p q k, p < m -> q < m -> names n (ixof idx [p]) k -> names n (ixof idx [q]) k -> p = q) ->
  good g -> tshape g = m :: l ->
  exists gx, vjp_pick 0%R Rplus max min (n :: l) 0 idx g = Ok gx /\ tshape gx = n :: l /\
    forall t, good t -> tshape t = n :: l -> exists y, t_index_select 0%R z t 0 idx = Ok y /\ tshape y = tshape g /\ pairing g y = pairing gx t.
Proof. exact vjp_select_adjoint. Qed.
Print Assumptions C107_select_partial.

(** Excluded: two source elements for one position, negative axes, rank above 32, a source of another shape than the
    indices, empty tensors, gradients starting inside their storage (C18). *)
Theorem C107_scatter_partial : forall e z max min s a (idx : tensor Z) n (g : tensor R), env_ok e -> axis_ok (length s) a -> (0 <= a)%Z -> length s <= 32 ->
  let d := axis_of (length s) a in
  nth_error s d = Some n -> good idx -> plain_layout idx -> length (tshape idx) = length s ->
  (forall k x y, k <> d -> nth_error (tshape idx) k = Some x -> nth_error s k = Some y -> x <= y) ->
  once n d idx -> good g -> usable g -> tshape g = s -> all_pos s ->
  exists gs gv, vjp_scatter z 0%R 1%R Rplus Rmult max min e s a idx g = Ok (gs, gv) /\ tshape gs = s /\ tshape gv = tshape idx /\
    forall t src, good t -> plain_layout t -> tshape t = s -> good src -> tshape src = tshape idx ->
      exists r, t_scatter Rplus max min Scatter t a idx src = Ok r /\ tshape r = s /\ pairing g r = (pairing gs t + pairing gv src)%R.
Proof. exact vjp_scatter_adjoint. Qed.
Print Assumptions C107_scatter_partial.

(** The rule is right for the documented operation, which adds every source element to its position; the operation
    that runs keeps the last one (C63). *)
Theorem C107_scatter_add_partial : forall z s a (idx : tensor Z) n (g : tensor R), axis_ok (length s) a -> (0 <= a)%Z ->
  let d := axis_of (length s) a in
  nth_error s d = Some n -> good idx -> plain_layout idx -> length (tshape idx) = length s ->
  (forall k x y, k <> d -> nth_error (tshape idx) k = Some x -> nth_error s k = Some y -> x <= y) ->
  good g -> tshape g = s ->
  exists gv, vjp_scatter_add z 0%R a idx g = Ok (g, gv) /\ tshape gv = tshape idx /\
    forall t src r, tshape t = s -> tshape src = tshape idx -> tshape r = s ->
      (forall i, valid s i -> val r i = (val t i + Sum (all_idx (tshape idx)) (fun j => if landsb n d (ixof idx j) j i then val src j else 0))%R) ->
      pairing g r = (pairing g t + pairing gv src)%R.
Proof. exact vjp_scatter_add_adjoint. Qed.
Print Assumptions C107_scatter_add_partial.

(** Along the last axis of contiguous tensors (C33); for all inputs of which topk takes the same positions. *)
Theorem C107_topk_partial : forall K (gt : K -> K -> bool),
  (forall a b, gt a b = true -> gt b a = false) ->
  (forall a b c, gt a b = false -> gt b c = false -> gt a c = false) ->
  forall (key : R -> K) qsort z max min (t : tensor R) s n k a lg st v ix (g : tensor R), qsort_ok K qsort -> good t ->
  is_contiguous (tlay t) = true -> tshape t = s ++ [n] -> axis_ok (length (tshape t)) a ->
  axis_of (length (tshape t)) a = length s -> 0 < k -> k <= n -> 0 < nelem s -> S (length s) <= 32 ->
  t_topk key gt qsort z t k a lg st = Ok (v, ix) -> good g -> tshape g = s ++ [k] ->
  exists gx, vjp_topk 0%R Rplus max min (tshape t) a ix g = Ok gx /\ tshape gx = tshape t /\
    forall t' v', good t' -> is_contiguous (tlay t') = true -> tshape t' = s ++ [n] ->
      t_topk key gt qsort z t' k a lg st = Ok (v', ix) -> tshape v' = tshape g /\ pairing g v' = pairing gx t'.
Proof. exact vjp_topk_adjoint. Qed.
Print Assumptions C107_topk_partial.

(** The first axis only; excluded are negative steps and a start before the first element. *)
Theorem C107_slice_partial : forall z max min n l start end_ step (g : tensor R), S (length l) <= 32 -> (0 < step)%Z -> (- Z.of_nat n <= start)%Z ->
  shape_rel (VSlice 0 start end_ step) (n :: l) (tshape g) -> good g ->
  exists gx, vjp_slice 0%R Rplus max min (n :: l) 0 start end_ step g = Ok gx /\ tshape gx = n :: l /\
    forall t, good t -> tshape t = n :: l -> exists y, t_view z (VSlice 0 start end_ step) t = Ok y /\ tshape y = tshape g /\ pairing g y = pairing gx t.
Proof. exact vjp_slice_adjoint. Qed.
Print Assumptions C107_slice_partial.

(** With a negative step the rule is right for the documented operation; the slice that runs reads other elements
    (C04).  Excluded is a start behind the last element. *)
Theorem C107_slice_back_partial : forall max min n l start end_ step (g : tensor R), S (length l) <= 32 -> (step < 0)%Z -> (start < Z.of_nat n)%Z ->
  shape_rel (VSlice 0 start end_ step) (n :: l) (tshape g) -> good g ->
  exists gx, vjp_slice 0%R Rplus max min (n :: l) 0 start end_ step g = Ok gx /\ tshape gx = n :: l /\
    forall t y, tshape t = n :: l -> tshape y = tshape g ->
      (forall i, valid (tshape y) i -> exists j, index_rel (VSlice 0 start end_ step) (n :: l) (tshape y) i j /\ elem y i = elem t j) ->
      pairing g y = pairing gx t.
Proof. exact vjp_slice_back. Qed.
Print Assumptions C107_slice_back_partial.

(** inner product of contiguous tensors of integers *)
Definition inner (a b : tensor Z) : Z := fold_right Z.add 0%Z (map (fun p => (fst p * snd p)%Z) (combine (tstore a) (tstore b))).
Definition zt (s : list nat) (l : list Z) : tensor Z := mkT l (from_shape s).
Definition z_pick := vjp_pick 0%Z Z.add Z.max Z.min.
Definition z_slice := vjp_slice 0%Z Z.add Z.max Z.min.

(** An element gathered twice gets only the last of its gradients: 7 instead of 5 + 7. *)
Theorem C107_repeated_refuted : exists y gx,
  t_gather 0%Z 0%Z (zt [2] [1; 2]%Z) 0%Z (zt [2] [0; 0]%Z) = Ok y /\
  z_pick [2] 0%Z (zt [2] [0; 0]%Z) (zt [2] [5; 7]%Z) = Ok gx /\
  inner (zt [2] [5; 7]%Z) y = 12%Z /\ inner gx (zt [2] [1; 2]%Z) = 7%Z.
Proof. do 2 eexists. repeat split; reflexivity. Qed.
Print Assumptions C107_repeated_refuted.

(** The axis -1 of gather is read as axis 0 by the rule. *)
Theorem C107_negative_axis_refuted : exists y gx,
  t_gather 0%Z 0%Z (zt [2; 2] [1; 2; 3; 4]%Z) (-1)%Z (zt [2; 1] [1; 1]%Z) = Ok y /\
  z_pick [2; 2] (-1)%Z (zt [2; 1] [1; 1]%Z) (zt [2; 1] [5; 7]%Z) = Ok gx /\
  inner (zt [2; 1] [5; 7]%Z) y = 38%Z /\ inner gx (zt [2; 2] [1; 2; 3; 4]%Z) = 21%Z.
Proof. do 2 eexists. repeat split; reflexivity. Qed.
Print Assumptions C107_negative_axis_refuted.

(** Along the second axis the list of indices is read with the coordinate of the first: index_select and slice. *)
Theorem C107_second_axis_refuted : exists y gx y' gx',
  t_index_select 0%Z 0%Z (zt [2; 2] [1; 2; 3; 4]%Z) 1%Z (zt [2] [1; 0]%Z) = Ok y /\
  z_pick [2; 2] 1%Z (zt [2] [1; 0]%Z) (zt [2; 2] [5; 6; 7; 8]%Z) = Ok gx /\
  inner (zt [2; 2] [5; 6; 7; 8]%Z) y = 68%Z /\ inner gx (zt [2; 2] [1; 2; 3; 4]%Z) = 36%Z /\
  t_view 0%Z (VSlice 1 0 (Some 2%Z) 1) (zt [2; 3] [1; 2; 3; 4; 5; 6]%Z) = Ok y' /\ tshape y' = [2; 2] /\ elem y' [1; 0] = Some 4%Z /\
  z_slice [2; 3] 1%Z 0%Z (Some 2%Z) 1%Z (zt [2; 2] [5; 6; 7; 8]%Z) = Ok gx' /\ elem gx' [1; 0] = Some 0%Z.
Proof. do 4 eexists. repeat split; reflexivity. Qed.
Print Assumptions C107_second_axis_refuted.

(** The first column of three rows: the rule reads behind its one index.  A negative axis, a start before the first
    element: a panic and an error where the slice itself works. *)
Theorem C107_slice_fails_refuted :
  (exists y, t_view 0%Z (VSlice 1 0 (Some 1%Z) 1) (zt [3; 2] [1; 2; 3; 4; 5; 6]%Z) = Ok y /\ tshape y = [3; 1]) /\
  z_slice [3; 2] 1%Z 0%Z (Some 1%Z) 1%Z (zt [3; 1] [5; 6; 7]%Z) = Panic /\
  (exists y, t_view 0%Z (VSlice (-1) 0 (Some 2%Z) 1) (zt [3] [1; 2; 3]%Z) = Ok y /\ tshape y = [2]) /\
  z_slice [3] (-1)%Z 0%Z (Some 2%Z) 1%Z (zt [2] [5; 6]%Z) = Panic /\
  (exists y, t_view 0%Z (VSlice 0 (-4) (Some 2%Z) 1) (zt [3] [1; 2; 3]%Z) = Ok y /\ tshape y = [2]) /\
  z_slice [3] 0%Z (-4)%Z (Some 2%Z) 1%Z (zt [2] [5; 6]%Z) = Err EInternal.
Proof. repeat split; try reflexivity; eexists; split; reflexivity. Qed.
Print Assumptions C107_slice_fails_refuted.

(** Two source elements for one position: only the last is in the result, both get its gradient. *)
Theorem C107_scatter_repeated_refuted : exists r gs gv,
  t_scatter Z.add Z.max Z.min Scatter (zt [2] [1; 2]%Z) 0%Z (zt [2] [0; 0]%Z) (zt [2] [3; 4]%Z) = Ok r /\
  vjp_scatter 0%Z 0%Z 1%Z Z.add Z.mul Z.max Z.min e1 [2] 0%Z (zt [2] [0; 0]%Z) (zt [2] [5; 7]%Z) = Ok (gs, gv) /\
  inner (zt [2] [5; 7]%Z) r = 34%Z /\ Z.add (inner gs (zt [2] [1; 2]%Z)) (inner gv (zt [2] [3; 4]%Z)) = 49%Z.
Proof. do 3 eexists. repeat split; reflexivity. Qed.
Print Assumptions C107_scatter_repeated_refuted.

(** scatter_max: where self is kept it gets its gradient twice, where the source is taken self still gets it. *)
Theorem C107_scatter_max_refuted :
  let rule t := vjp_scatter_max 0%Z 0%Z 1%Z Z.add Z.sub Z.mul Z.max Z.min Z.geb e1 t 0%Z (zt [1] [0]%Z) (zt [1] [3]%Z) (zt [2] [5; 7]%Z) in
  rule (zt [2] [9; 2]%Z) = Ok (zt [2] [10; 7]%Z, zt [1] [0]%Z) /\
  rule (zt [2] [1; 2]%Z) = Ok (zt [2] [5; 7]%Z, zt [1] [5]%Z).
Proof. split; reflexivity. Qed.
Print Assumptions C107_scatter_max_refuted.

(** The rule of index_put runs index_put, which reads out of bounds (C64). *)
Theorem C107_index_put_refuted :
  vjp_index_put 0%Z 0%Z 1%Z Z.mul e1 [3] 0%Z (zt [1] [0]%Z) (zt [3] [5; 7; 9]%Z) = Panic.
Proof. reflexivity. Qed.
Print Assumptions C107_index_put_refuted.

Example C107_gather_ex : (* 2 x 3, along the second axis *)
  z_pick [2; 3] 1%Z (zt [2; 2] [2; 0; -1; 1]%Z) (zt [2; 2] [5; 6; 7; 8]%Z) = Ok (zt [2; 3] [6; 0; 5; 0; 8; 7]%Z).
Proof. reflexivity. Qed.
Example C107_gather_hyp : once 3 1 (zt [2; 2] [2; 0; -1; 1]%Z).
Proof.
  intros j j' k V V'. apply in_all_idx in V, V'. cbn in V, V'.
  assert (E : forall a b c, elem (zt [2; 2] [2; 0; -1; 1]%Z) [a; b] = Some c -> ixof (zt [2; 2] [2; 0; -1; 1]%Z) [a; b] = c) by (intros a b c X; unfold ixof; now rewrite X).
  destruct V as [<-|[<-|[<-|[<-|[]]]]]; destruct V' as [<-|[<-|[<-|[<-|[]]]]]; rewrite ?(E 0 0 2%Z eq_refl), ?(E 0 1 0%Z eq_refl), ?(E 1 0 (-1)%Z eq_refl), ?(E 1 1 1%Z eq_refl); intros [K H] [K' H'] U; cbn in U; first [reflexivity|exfalso; first [discriminate U|lia]].
Qed.
Example C107_select_ex :
  z_pick [3; 2] 0%Z (zt [2] [2; -3]%Z) (zt [2; 2] [5; 6; 7; 8]%Z) = Ok (zt [3; 2] [7; 8; 0; 0; 5; 6]%Z).
Proof. reflexivity. Qed.
Example C107_slice_ex :
  z_slice [5; 1] 0%Z (-4)%Z None 2%Z (zt [2; 1] [5; 6]%Z) = Ok (zt [5; 1] [0; 5; 0; 6; 0]%Z).
Proof. reflexivity. Qed.
Example C107_slice_hyp : shape_rel (VSlice 0 (-4) None 2) [5; 1] [2; 1].
Proof.
  cbn [shape_rel]. split; [unfold axis_ok; cbn; lia|]. split; [reflexivity|]. split; [intros [|[|k]] N; try reflexivity; vm_compute in N; congruence|].
  exists 5, 2. split; [reflexivity|]. split; [reflexivity|]. split; [lia|]. change (2 >? 0)%Z with true. unfold py_count, py_start, py_stop. change (2 >? 0)%Z with true. change (-4 <? 0)%Z with true. cbv iota. split; [lia|]. intros; lia.
Qed.
Example C107_scatter_ex :
  vjp_scatter 0%Z 0%Z 1%Z Z.add Z.mul Z.max Z.min e1 [3] 0%Z (zt [2] [2; 0]%Z) (zt [3] [5; 6; 7]%Z) = Ok (zt [3] [0; 6; 0]%Z, zt [2] [7; 5]%Z).
Proof. reflexivity. Qed.
Example C107_topk_ex : (* the positions 2 and 0 of a row, 1 and 2 of the other; the hypotheses on topk are those of C33 *)
  vjp_topk 0%Z Z.add Z.max Z.min [2; 3] (-1)%Z (zt [2; 2] [2; 0; 1; 2]%Z) (zt [2; 2] [5; 6; 7; 8]%Z) = Ok (zt [2; 3] [6; 0; 5; 0; 7; 8]%Z).
Proof. reflexivity. Qed.
Example C107_scatter_add_ex :
  vjp_scatter_add 0%Z 0%Z 1%Z (zt [2; 2] [2; 2; 0; 9]%Z) (zt [2; 3] [1; 2; 3; 4; 5; 6]%Z) = Ok (zt [2; 3] [1; 2; 3; 4; 5; 6]%Z, zt [2; 2] [3; 3; 4; 0]%Z).
Proof. reflexivity. Qed.
Example C107_slice_back_ex : (* 3, 2, 1, 0 and 3, 1 of four elements *)
  z_slice [4] 0%Z (-1)%Z None (-1)%Z (zt [4] [5; 6; 7; 8]%Z) = Ok (zt [4] [8; 7; 6; 5]%Z) /\
  z_slice [4; 1] 0%Z 3%Z (Some 0%Z) (-2)%Z (zt [2; 1] [5; 6]%Z) = Ok (zt [4; 1] [0; 6; 0; 5]%Z).
Proof. split; reflexivity. Qed.
