(** Properties C31 (index_select, gather), C63 (scatter family), C64
    (index_put). *)
From Coq Require Import List Arith ZArith Lia Bool Permutation.
From Verif Require Import Base IndexSpec LayoutModel ViewSpec LayoutProofs.
From Verif Require Import KernelModel TensorModel TensorSpec TensorProofs.
From Verif Require Import ScanModel MoveModel MoveProofs3 IndexModel IndexProofs IndexProofs2.
Import ListNotations.

(* ---------- C31 ---------- *)

(** At coordinate [j] along the axis, [index_select] has the slice named by
    index [j] of the index tensor; a zero slice when it names none.  Excluded:
    index tensors that are not contiguous at offset 0. *)
Theorem C31_index_select_partial : forall A (zero z d0 : A) (t : tensor A) a (idx : tensor Z) n,
  good t -> good idx -> plain_layout idx -> axis_ok (length (tshape t)) a ->
  let d := axis_of (length (tshape t)) a in
  nth_error (tshape t) d = Some n ->
  exists r, t_index_select zero z t a idx = Ok r /\ good r /\
    tlay r = from_shape (upd (tshape t) d (nelem (tshape idx))) /\
    forall i ix, valid (tshape r) i -> elem idx (unravel (tshape idx) (nth d i 0)) = Some ix ->
      (forall k, names n ix k -> elem r i = elem t (upd i d k)) /\
      ((forall k, ~ names n ix k) -> elem r i = Some zero).
Proof. exact t_index_select_spec. Qed.
Print Assumptions C31_index_select_partial.

Example C31_ex_select :  (* a transposed 2x3 input, indices 2, -3 and an invalid 5 *)
  t_index_select 0%Z 7%Z (mkT [1;4;2;5;3;6]%Z (mkLayout [2;3] [1;2] 0)) (-1)%Z
    (mkT [2;-3;5]%Z (from_shape [3]))
  = Ok (mkT [3;1;0; 6;4;0]%Z (from_shape [2;3])).
Proof. reflexivity. Qed.

(** The index storage is read without its layout: the view [2] of [0,1,2]
    selects element 0; and an axis out of range panics. *)
Theorem C31_index_view_refuted :
  let t := mkT [10;20;30]%Z (from_shape [3]) in
  let idx := mkT [0;1;2]%Z (mkLayout [1] [1] 2) in
  good t /\ good idx /\ elem idx [0] = Some 2%Z /\
  exists r, t_index_select 0%Z 0%Z t 0%Z idx = Ok r /\ elem r [0] = Some 10%Z /\ elem t [2] = Some 30%Z.
Proof.
  repeat split; try reflexivity.
  - intros [|a [|b i]] H; inversion H; subst; cbn; lia.
  - intros [|a [|b i]] H; inversion H; subst; cbn; lia.
  - eexists. repeat split; reflexivity.
Qed.
Print Assumptions C31_index_view_refuted.
Theorem C31_bad_axis_refuted :
  t_index_select 0%Z 0%Z (mkT [10]%Z (from_shape [1])) 1%Z (mkT [0]%Z (from_shape [1])) = Panic.
Proof. reflexivity. Qed.
Print Assumptions C31_bad_axis_refuted.

(** [gather] has at [i] the input element whose coordinate along the axis is
    named by the index tensor at [i].  Excluded: index tensors that are not
    contiguous at offset 0, of another rank, or larger than the input off the
    axis. *)
Theorem C31_gather_partial : forall A (zero z d0 : A) (t : tensor A) a (idx : tensor Z) n,
  good t -> good idx -> plain_layout idx -> axis_ok (length (tshape t)) a ->
  let d := axis_of (length (tshape t)) a in
  nth_error (tshape t) d = Some n -> length (tshape idx) = length (tshape t) ->
  (forall k x y, k <> d -> nth_error (tshape idx) k = Some x -> nth_error (tshape t) k = Some y -> x <= y) ->
  exists r, t_gather zero z t a idx = Ok r /\ good r /\ tshape r = tshape idx /\
    forall i ix, elem idx i = Some ix -> valid (tshape idx) i ->
      (forall k, names n ix k -> elem r i = elem t (upd i d k)) /\
      ((forall k, ~ names n ix k) -> elem r i = Some zero).
Proof. exact t_gather_spec. Qed.
Print Assumptions C31_gather_partial.

Example C31_ex_gather :
  t_gather 0%Z 7%Z (mkT [1;4;2;5;3;6]%Z (mkLayout [2;3] [1;2] 0)) 1%Z
    (mkT [2;0;-1;1]%Z (from_shape [2;2]))
  = Ok (mkT [3;1;6;5]%Z (from_shape [2;2])).
Proof. reflexivity. Qed.

(** The result is given the layout of the index tensor although its storage is
    row-major: with a transposed index tensor elements change places. *)
Theorem C31_gather_layout_refuted :
  let t := mkT [1;2;3;4]%Z (from_shape [2;2]) in
  let idx := mkT [0;0;1;1]%Z (mkLayout [2;2] [1;2] 0) in
  elem idx [0;1] = Some 1%Z /\ elem t [1;1] = Some 4%Z /\
  exists r, t_gather 0%Z 0%Z t 0%Z idx = Ok r /\ elem r [0;1] = Some 1%Z.
Proof. repeat split. eexists. split; reflexivity. Qed.
Print Assumptions C31_gather_layout_refuted.
(** Index shapes are not checked against the input: reads out of bounds. *)
Theorem C31_gather_shape_refuted :
  t_gather 0%Z 0%Z (mkT [1]%Z (from_shape [1;1])) 0%Z (mkT [0;0]%Z (from_shape [1;2])) = Panic /\
  t_gather 0%Z 0%Z (mkT [1;2;3;4]%Z (from_shape [2;2])) 0%Z (mkT [0]%Z (from_shape [1])) = Panic.
Proof. split; reflexivity. Qed.
Print Assumptions C31_gather_shape_refuted.

(* ---------- C63 ---------- *)

Section C63.
Variables (A : Type) (d0 : A).

(** [landsb] decides "source element [j], whose index is [ix], belongs to
    position [i]". *)
Theorem C63_lands : forall n d ix j i, d < length j ->
  landsb n d ix j i = true <-> exists k, names n ix k /\ i = upd j d k.
Proof. exact landsb_iff. Qed.

(** Each of the four kernels, whatever it combines with ([f]): position [i]
    ends up with the input element combined, in row-major source order, with
    exactly the source elements belonging to it, each once.  [ixat] and [val]
    are the contents of the index and source tensors. *)
Theorem C63_kernel_partial : forall (f : A -> A -> A) input indices src out l il sl d n ixat val,
  wf_layout l -> in_bounds (length input) l -> wf_layout il -> wf_layout sl ->
  length (lshape il) = length (lshape l) -> length (lshape sl) = length (lshape l) ->
  length (lshape l) <= 32 -> nth_error (lshape l) d = Some n ->
  (forall k x y, k <> d -> nth_error (lshape sl) k = Some x -> nth_error (lshape l) k = Some y -> x <= y) ->
  (forall j, valid (lshape sl) j -> nth_error indices (addr il j) = Some (ixat j)) ->
  (forall j, valid (lshape sl) j -> nth_error src (addr sl j) = Some (val j)) ->
  nelem (lshape l) <= length out ->
  exists out', scatter_kernel f input indices src out (scatter_metadata l il sl d) = Some out' /\
    length out' = length out /\
    forall i x, valid (lshape l) i -> nth_error input (addr l i) = Some x ->
      nth_error out' (ravel (lshape l) i) =
      Some (fold_left f (map val (filter (fun j => landsb n d (ixat j) j i) (all_idx (lshape sl)))) x).
Proof. exact (scatter_kernel_spec A d0). Qed.

(** The order of the updates does not matter when they commute (adding,
    maximum, minimum). *)
Theorem C63_order : forall (f : A -> A -> A), (forall x a b, f (f x a) b = f (f x b) a) ->
  forall (hit : list nat -> bool) (val : list nat -> A) js js' x, Permutation js js' ->
  fold_left f (map val (filter hit js)) x = fold_left f (map val (filter hit js')) x.
Proof.
  intros f H hit val js js' x P. apply fold_perm; auto. apply Permutation_map.
  induction P as [|y l l' P IH|y y' l|]; cbn [filter]; auto.
  - destruct (hit y); auto.
  - destruct (hit y), (hit y'); auto. apply perm_swap.
  - eapply Permutation_trans; eauto.
Qed.

(** [scatter] keeps the last source element belonging to a position, the input
    element when there is none; no other operation's result is claimed, since
    all four run this kernel.  Excluded: self not contiguous at offset 0, rank
    above 32, index or source of another rank, source larger than self off the
    axis. *)
Theorem C63_scatter_partial : forall (add max min : A -> A -> A) (t : tensor A) a (idx : tensor Z) (src : tensor A) n ixat val,
  good t -> good idx -> good src -> plain_layout t -> axis_ok (length (tshape t)) a ->
  let d := axis_of (length (tshape t)) a in
  nth_error (tshape t) d = Some n -> length (tshape t) <= 32 ->
  length (tshape idx) = length (tshape t) -> length (tshape src) = length (tshape t) ->
  (forall k x y, k <> d -> nth_error (tshape src) k = Some x -> nth_error (tshape t) k = Some y -> x <= y) ->
  (forall j, valid (tshape src) j -> elem idx j = Some (ixat j)) ->
  (forall j, valid (tshape src) j -> elem src j = Some (val j)) ->
  exists r, t_scatter add max min Scatter t a idx src = Ok r /\ good r /\ tlay r = tlay t /\
    forall i x, valid (tshape t) i -> elem t i = Some x ->
      elem r i = Some (last (map val (filter (fun j => landsb n d (ixat j) j i) (all_idx (tshape src)))) x).
Proof.
  intros add max min t a idx src n ixat val H1 H2 H3 H4 H5 d H6 H7 H8 H9 H10 H11 H12.
  destruct (t_scatter_spec A d0 add max min Scatter t a idx src n ixat val) as [r [E [G [L H]]]]; auto.
  exists r. repeat split; auto; try apply G. intros i x V Hx. rewrite (H i x V Hx). cbn [scatter_kernel_of scatter_combine].
  now rewrite fold_last.
Qed.
End C63.
Print Assumptions C63_lands.
Print Assumptions C63_kernel_partial.
Print Assumptions C63_order.
Print Assumptions C63_scatter_partial.

(** The accumulating kernel on integers: the sum of the input element and of
    the source elements belonging to it. *)
Theorem C63_add_sum : forall vs x, fold_left Z.add vs x = (x + fold_right Z.add 0 vs)%Z.
Proof. induction vs as [|v vs IH]; intros x; cbn [fold_left fold_right]; [lia|]. rewrite IH. lia. Qed.
Print Assumptions C63_add_sum.

Example C63_ex_kernel :  (* duplicates accumulate; -1 is the last row; 9 names nothing *)
  scatter_kernel Z.add [1;2;3]%Z [0;-1;0;9]%Z [10;20;30;40]%Z [0;0;0]%Z
    (scatter_metadata (from_shape [3]) (from_shape [4]) (from_shape [4]) 0)
  = Some [41;2;23]%Z.
Proof. reflexivity. Qed.
Example C63_ex_scatter :
  t_scatter Z.add Z.max Z.min Scatter (mkT [1;2;3;4;5;6]%Z (from_shape [2;3])) 1%Z
    (mkT [2;2;-3;1]%Z (from_shape [2;2])) (mkT [10;30;20;40]%Z (mkLayout [2;2] [1;2] 0))
  = Ok (mkT [1;2;20;30;40;6]%Z (from_shape [2;3])).
Proof. reflexivity. Qed.

(** [scatter_add] on the CPU overwrites: adding 5 and 7 at position 0 gives 7,
    not 12; the same for maximum and minimum. *)
Theorem C63_scatter_add_refuted : forall A (add max min : A -> A -> A) op (t : tensor A) a idx src,
  t_scatter add max min op t a idx src = t_scatter add max min Scatter t a idx src.
Proof. reflexivity. Qed.
Print Assumptions C63_scatter_add_refuted.
Example C63_ex_add :
  t_scatter Z.add Z.max Z.min ScatterAdd (mkT [0;0]%Z (from_shape [2])) 0%Z
    (mkT [0;0]%Z (from_shape [2])) (mkT [5;7]%Z (from_shape [2]))
  = Ok (mkT [7;0]%Z (from_shape [2])).
Proof. reflexivity. Qed.

(** A transposed self: the storage is rewritten row-major under the old
    strides, so an element no source belongs to changes. *)
Theorem C63_layout_refuted :
  let t := mkT [1;2;3;4]%Z (mkLayout [2;2] [1;2] 0) in
  exists r, t_scatter Z.add Z.max Z.min Scatter t 0%Z (mkT [0]%Z (from_shape [1;1])) (mkT [9]%Z (from_shape [1;1])) = Ok r /\
    elem t [0;1] = Some 3%Z /\ elem r [0;1] = Some 2%Z.
Proof. eexists. repeat split; reflexivity. Qed.
Print Assumptions C63_layout_refuted.
(** Source shapes are not checked: a source wider than self spills into the
    next row. *)
Theorem C63_shape_refuted :
  t_scatter Z.add Z.max Z.min Scatter (mkT [1;2;3;4]%Z (from_shape [2;2])) 0%Z
    (mkT [0;0;0]%Z (from_shape [1;3])) (mkT [7;8;9]%Z (from_shape [1;3]))
  = Ok (mkT [7;8;9;4]%Z (from_shape [2;2])).
Proof. reflexivity. Qed.
Print Assumptions C63_shape_refuted.

(* ---------- C64 ---------- *)

(** The kernel, given metadata in the order it documents: a position whose
    coordinate along the axis is named by an index gets the element of [values]
    for the first such index, every other keeps the input element.  Missing: the
    metadata the tensor layer builds has another order (refuted below), and with
    duplicate indices the first wins. *)
Theorem C64_kernel_partial : forall A (d0 : A) (input : list A) indices (values out : list A) l vl d n,
  wf_layout l -> in_bounds (length input) l -> wf_layout vl -> in_bounds (length values) vl ->
  nth_error (lshape l) d = Some n -> lshape vl = upd (lshape l) d (length indices) ->
  length out = nelem (lshape l) ->
  exists out', index_put_kernel input indices values out
                 ([nelem (lshape l); length (lshape l)] ++ lshape l ++ lstrides l ++ lstrides vl
                  ++ [loffset l; loffset vl; d; length indices]) = Some out' /\
    length out' = length out /\
    forall i, valid (lshape l) i ->
      (forall m, m < length indices -> names n (nth m indices 0%Z) (nth d i 0) ->
         (forall m', m' < m -> ~ names n (nth m' indices 0%Z) (nth d i 0)) ->
         nth_error out' (ravel (lshape l) i) = nth_error values (addr vl (upd i d m))) /\
      ((forall m, m < length indices -> ~ names n (nth m indices 0%Z) (nth d i 0)) ->
         nth_error out' (ravel (lshape l) i) = nth_error input (addr l i)).
Proof. exact index_put_kernel_spec. Qed.
Print Assumptions C64_kernel_partial.

Example C64_ex_kernel :  (* 3x2 input, rows 2 and 0 replaced *)
  index_put_kernel [1;2;3;4;5;6]%Z [-1;0]%Z [10;20;30;40]%Z [0;0;0;0;0;0]%Z
    ([6;2] ++ [3;2] ++ [2;1] ++ [2;1] ++ [0;0;0;2])
  = Some [30;40;3;4;10;20]%Z.
Proof. reflexivity. Qed.

(** [index_put(0, [0], [99])] on [10,20,30] reads input[1..3], one element out
    of bounds. *)
Theorem C64_metadata_refuted :
  t_index_put (mkT [10;20;30]%Z (from_shape [3])) 0%Z (mkT [0]%Z (from_shape [1])) (mkT [99]%Z (from_shape [1]))
  = Panic.
Proof. reflexivity. Qed.
Print Assumptions C64_metadata_refuted.

(** The two orders differ at every rank: where the kernel expects the strides of
    [values] the metadata has the input offset and the shape of [values]. *)
Theorem C64_orders_refuted : forall l vl d m n, wf_layout l -> wf_layout vl ->
  length (lshape vl) = length (lshape l) -> 0 < length (lshape l) ->
  index_put_metadata l vl d m n <>
  [n; length (lshape l)] ++ lshape l ++ lstrides l ++ lstrides vl ++ [loffset l; loffset vl; d; m].
Proof.
  intros l vl d m n Hw Hv HL H0 E. apply (f_equal (@length nat)) in E.
  unfold index_put_metadata in E. unfold wf_layout in Hw, Hv. repeat rewrite app_length in E. cbn [length] in E. lia.
Qed.
Print Assumptions C64_orders_refuted.

(** And when the shifted reads stay in bounds the wrong data is used: row 0 of a
    2x1 tensor should become 9. *)
Theorem C64_wrong_data_refuted :
  exists r, t_index_put (mkT [1;2;3;4;5;6]%Z (mkLayout [2;1] [1;1] 0)) 0%Z (mkT [0]%Z (from_shape [1])) (mkT [9]%Z (from_shape [1;1])) = Ok r /\
  elem r [0;0] <> Some 9%Z.
Proof. eexists. split; [vm_compute; reflexivity|]. vm_compute. discriminate. Qed.
Print Assumptions C64_wrong_data_refuted.
