(** Properties C01-C07, C09-C11: shapes, layouts and views. *)
From Coq Require Import List Arith ZArith Lia Bool Permutation.
From Verif Require Import Base IndexSpec LayoutModel ViewSpec LayoutProofs LayoutProofs2 BcastProofs.
From Verif Require Import LayoutRefute.
Import ListNotations.

(** C01. *)
Theorem C01_fresh_row_major : forall s : shape,
  let l := from_shape s in
  shape_size s = nelem s /\
  (forall i, valid s i -> addr l i < nelem s) /\
  (forall i j, valid s i -> valid s j -> addr l i = addr l j -> i = j) /\
  (forall p, p < nelem s -> exists i, valid s i /\ addr l i = p) /\
  (forall i j, valid s i -> valid s j -> (lex_lt i j <-> addr l i < addr l j)).
Proof. exact fresh_row_major. Qed.
Print Assumptions C01_fresh_row_major.

Example C01_ex : addr (from_shape [2;3;4]) [1;2;3] = 23 /\ valid [2;3;4] [1;2;3].
Proof. split; [reflexivity|simpl; lia]. Qed.

(** C02.  Every operation may also fail; only successful chains matter. *)
Theorem C02_views_in_bounds : forall s os l,
  regular_chain (from_shape s) os -> apply_views (from_shape s) os = Ok l ->
  forall i, valid (lshape l) i -> addr l i < nelem s.
Proof. exact views_chain_in_bounds. Qed.
Print Assumptions C02_views_in_bounds.

Example C02_ex :
  apply_views (from_shape [2;3;4])
    [VSlice 1 1 None 2; VPermute [2;0;1]%Z; VBroadcast [5;4;2;1]] =
  Ok (mkLayout [5;4;2;1] [0;1;12;8] 4).
Proof. reflexivity. Qed.
Example C02_ex_regular :
  regular_chain (from_shape [2;3;4])
    [VSlice 1 1 None 2; VPermute [2;0;1]%Z; VBroadcast [5;4;2;1]].
Proof.
  intros pre o post l1 E _.
  destruct pre as [|p1 [|p2 [|p3 pre]]]; simpl in E; inversion E; subst; simpl; auto; try lia.
  destruct pre; discriminate.
Qed.

(** C03, one operation: right shape, right element, and the operand index is
    the only one the rule allows. *)
Theorem C03_view_selects_right_element : forall o l l',
  wf_layout l -> regular o (lshape l) -> apply_view l o = Ok l' ->
  shape_rel o (lshape l) (lshape l') /\
  forall i, valid (lshape l') i ->
  exists j, index_rel o (lshape l) (lshape l') i j /\ valid (lshape l) j /\
            addr l' i = addr l j /\
            forall j', valid (lshape l) j' -> index_rel o (lshape l) (lshape l') i j' -> j' = j.
Proof. exact view_selects. Qed.
Print Assumptions C03_view_selects_right_element.

(** C03, acceptance: an operation succeeds whenever the rule gives it a shape
    (reshape, flatten, squeeze and unsqueeze of a layout need a contiguous operand). *)
Theorem C03_view_accepts : forall o l s',
  wf_layout l -> regular o (lshape l) ->
  (wants_contiguous o = true -> is_contiguous l = true) ->
  shape_rel o (lshape l) s' ->
  exists l', apply_view l o = Ok l' /\ lshape l' = s'.
Proof. exact apply_view_total. Qed.
Print Assumptions C03_view_accepts.

(** C03, composition. *)
Theorem C03_view_chain : forall os l l',
  wf_layout l -> regular_chain l os -> apply_views l os = Ok l' ->
  forall i, valid (lshape l') i ->
  exists j, chain_rel os (lshape l) (lshape l') i j /\ valid (lshape l) j /\
            addr l' i = addr l j.
Proof. exact view_chain_selects. Qed.
Print Assumptions C03_view_chain.

Example C03_ex :
  apply_view (from_shape [5]) (VSlice 0 (-4) (Some (-1)%Z) 2) = Ok (mkLayout [2] [2] 1) /\
  index_rel (VSlice 0 (-4) (Some (-1)%Z) 2) [5] [2] [1] [3].
Proof.
  split; [reflexivity|]. vm_compute. split; auto. split.
  - intros [|k] Hk; [now elim Hk|]. now destruct k.
  - exists 5, 1, 3. repeat split; auto.


Qed.

(** C04 is false: slicing [0..5) backwards from the last element is accepted,
    has five elements, and its second element lies outside the storage. *)
Theorem C04_negative_step_refuted :
  ~ (forall l a start e step l',
       wf_layout l -> (step < 0)%Z -> slice l a start e step = Ok l' ->
       forall i, valid (lshape l') i ->
       exists j, index_rel (VSlice a start e step) (lshape l) (lshape l') i j /\
                 valid (lshape l) j /\ addr l' i = addr l j).
Proof. exact negative_step_refuted. Qed.
Print Assumptions C04_negative_step_refuted.

Theorem C04_negative_step_out_of_bounds_refuted :
  exists l', slice (from_shape [5]) 0 4 None (-1) = Ok l' /\
  lshape l' = [5] /\ valid (lshape l') [1] /\ ~ addr l' [1] < nelem [5].
Proof. exact negative_step_oob. Qed.
Print Assumptions C04_negative_step_out_of_bounds_refuted.

(** What does hold for a start inside the axis: the number of elements is
    Python's, and the first selected element is right.  Missing: every element
    after the first. *)
Theorem C04_negative_step_partial : forall l a start e step l' d,
  wf_layout l -> (step < 0)%Z ->
  nth_error (lshape l) (axis_of (length (lshape l)) a) = Some d ->
  (- Z.of_nat d <= start < Z.of_nat d)%Z ->
  slice l a start e step = Ok l' ->
  shape_rel (VSlice a start e step) (lshape l) (lshape l') /\
  forall i, valid (lshape l') i -> nth_error i (axis_of (length (lshape l)) a) = Some 0 ->
  exists j, index_rel (VSlice a start e step) (lshape l) (lshape l') i j /\
            valid (lshape l) j /\ addr l' i = addr l j.
Proof. exact negative_step_partial. Qed.
Print Assumptions C04_negative_step_partial.

Example C04_partial_ex : slice (from_shape [5]) 0 4 (Some 0%Z) (-2) = Ok (mkLayout [2] [2] 4).
Proof. reflexivity. Qed.

(** C05. *)
Theorem C05_permute_accepts : forall l axes, wf_layout l ->
  ((exists l', permute l axes = Ok l') <->
   Forall (axis_ok (length (lshape l))) axes /\
   Permutation (map (axis_of (length (lshape l))) axes) (seq 0 (length (lshape l)))).
Proof. exact permute_accepts. Qed.
Print Assumptions C05_permute_accepts.

Theorem C05_permute_inverse : forall l axes l', wf_layout l -> permute l axes = Ok l' ->
  (exists inv, inverse_axes (length (lshape l)) axes inv) /\
  forall inv, inverse_axes (length (lshape l)) axes inv -> permute l' inv = Ok l.
Proof. exact permute_inverse_thm. Qed.
Print Assumptions C05_permute_inverse.

Theorem C05_transpose_involutive : forall l a b l', wf_layout l -> transpose l a b = Ok l' ->
  transpose l' a b = Ok l.
Proof. exact transpose_twice. Qed.
Print Assumptions C05_transpose_involutive.

Example C05_ex :
  permute (from_shape [2;3;4]) [-1;0;1]%Z = Ok (mkLayout [4;2;3] [1;12;4] 0) /\
  permute (mkLayout [4;2;3] [1;12;4] 0) [1;2;0]%Z = Ok (from_shape [2;3;4]) /\
  permute (from_shape [2;3;4]) [0;1;-2]%Z = Err EInternal.
Proof. repeat split. Qed.

(** C06. *)
Theorem C06_reshape : forall l s, wf_layout l -> is_contiguous l = true ->
  ((exists l', reshape l s = Ok l') <-> nelem s = nelem (lshape l)) /\
  forall l', reshape l s = Ok l' ->
    lshape l' = s /\
    (forall k, k < nelem s -> addr l' (unravel s k) = addr l (unravel (lshape l) k)) /\
    reshape l' (lshape l) = Ok l.
Proof. exact reshape_thm. Qed.
Print Assumptions C06_reshape.

Example C06_ex : reshape (mkLayout [2;6] [6;1] 7) [3;4] = Ok (mkLayout [3;4] [4;1] 7).
Proof. reflexivity. Qed.

(** C07 is false when an axis is named twice: [1,5].squeeze([0,0]) is accepted
    and drops the axis of size 5. *)
Theorem C07_squeeze_refuted :
  ~ (forall l dims l', wf_layout l -> squeeze l dims = Ok l' ->
     nelem (lshape l') = nelem (lshape l)).
Proof. exact squeeze_refuted. Qed.
Print Assumptions C07_squeeze_refuted.

Theorem C07_squeeze_partial : forall l dims l',
  wf_layout l -> NoDup (map (axis_of (length (lshape l))) dims) -> squeeze l dims = Ok l' ->
  nelem (lshape l') = nelem (lshape l) /\
  shape_rel (VSqueeze dims) (lshape l) (lshape l') /\
  forall k, k < nelem (lshape l) ->
    addr l' (unravel (lshape l') k) = addr l (unravel (lshape l) k).
Proof. exact squeeze_partial. Qed.
Print Assumptions C07_squeeze_partial.

Theorem C07_unsqueeze_squeeze : forall l d l', wf_layout l -> unsqueeze l d = Ok l' ->
  squeeze l' [d] = Ok l.
Proof. exact unsqueeze_squeeze. Qed.
Print Assumptions C07_unsqueeze_squeeze.

Example C07_ex : squeeze (from_shape [1;5;1;2]) [0;-2]%Z = Ok (from_shape [5;2]) /\
  unsqueeze (from_shape [5;2]) (-1) = Ok (from_shape [5;2;1]).
Proof. repeat split. Qed.

(** C09 is false: [3] with [2,3] is refused although it broadcasts to [2,3];
    [3] with [1,3] gives [3,3] instead of [1,3]. *)
Theorem C09_broadcast_shape_refuted :
  ~ (forall a b r, all_pos a -> all_pos b -> (broadcast_shape a b = Some r <-> bcast a b r)).
Proof. exact broadcast_shape_refuted. Qed.
Print Assumptions C09_broadcast_shape_refuted.

Theorem C09_broadcast_shape_wrong_refuted :
  broadcast_shape [3] [2;3] = None /\ bcast [3] [2;3] [2;3] /\
  broadcast_shape [3] [1;3] = Some [3;3] /\ bcast [3] [1;3] [1;3].
Proof. exact broadcast_shape_wrong. Qed.
Print Assumptions C09_broadcast_shape_wrong_refuted.

(** Missing: operands of different rank, and zero-size axes. *)
Theorem C09_broadcast_shape_partial : forall a b r, length a = length b ->
  all_pos a -> all_pos b ->
  (broadcast_shape a b = Some r <-> bcast a b r).
Proof. exact broadcast_shape_same_rank. Qed.
Print Assumptions C09_broadcast_shape_partial.

Example C09_partial_ex : broadcast_shape [4;1;3] [1;5;3] = Some [4;5;3] /\
  all_pos [4;1;3] /\ all_pos [1;5;3].
Proof. split; [reflexivity|]. split; repeat constructor. Qed.

(** C10. *)
Theorem C10_contiguity_exact : forall l, wf_layout l ->
  (is_contiguous l = true <-> lstrides l = lstrides (from_shape (lshape l))) /\
  (is_contiguous l = true -> forall k, k < nelem (lshape l) ->
     addr l (unravel (lshape l) k) = loffset l + k).
Proof. exact contiguity_exact. Qed.
Print Assumptions C10_contiguity_exact.

(** the strides of a fresh layout, said without the code's loop: stride [k] is
    the product of the dimensions to the right of [k] *)
Theorem C10_fresh_strides : forall s k, k < length s ->
  nth_error (lstrides (from_shape s)) k = Some (nelem (skipn (S k) s)).
Proof. exact fresh_strides. Qed.
Print Assumptions C10_fresh_strides.

Example C10_ex : is_contiguous (mkLayout [2;3] [3;1] 5) = true /\
  is_contiguous (mkLayout [3;2] [1;3] 0) = false.
Proof. split; reflexivity. Qed.

(** C11. *)
Theorem C11_normalize_axis : forall s a k,
  normalize_axis s a = Some k <->
  (- Z.of_nat (length s) <= a < Z.of_nat (length s))%Z /\
  Z.of_nat k = (if (a <? 0)%Z then a + Z.of_nat (length s) else a)%Z.
Proof. exact normalize_axis_thm. Qed.
Print Assumptions C11_normalize_axis.

Theorem C11_dim_size : forall l a,
  layout_dim_size l a = shape_dim_size (lshape l) a /\
  shape_dim_size (lshape l) a =
    match normalize_axis (lshape l) a with Some k => nth_error (lshape l) k | None => None end.
Proof. exact dim_size_thm. Qed.
Print Assumptions C11_dim_size.

(** Spelling an axis [a] or [a - n] makes no difference. *)
Theorem C11_spelling : forall l (a b : nat) start e step (axes axes' : list Z),
  let n := length (lshape l) in
  let neg (k m : nat) := (Z.of_nat k - Z.of_nat m)%Z in
  let spell (x y : Z) := exists k, k < n /\
      (x = Z.of_nat k \/ x = neg k n) /\ (y = Z.of_nat k \/ y = neg k n) in
  (a < n -> b < n ->
     transpose l (Z.of_nat a) (Z.of_nat b) = transpose l (neg a n) (neg b n) /\
     transpose l (Z.of_nat a) (Z.of_nat b) = transpose l (neg a n) (Z.of_nat b)) /\
  (a < n -> slice l (Z.of_nat a) start e step = slice l (neg a n) start e step) /\
  (a < S n -> unsqueeze l (Z.of_nat a) = unsqueeze l (neg a (S n))) /\
  (Forall2 spell axes axes' ->
     permute l axes = permute l axes' /\ squeeze l axes = squeeze l axes').
Proof. exact axis_spelling. Qed.
Print Assumptions C11_spelling.

(** Axes outside the range are refused by every operation. *)
Theorem C11_bad_axis_refused : forall l a, wf_layout l ->
  (~ axis_ok (length (lshape l)) a ->
     (forall b l', transpose l a b <> Ok l') /\ (forall b l', transpose l b a <> Ok l') /\
     (forall axes l', In a axes -> permute l axes <> Ok l') /\
     (forall dims l', In a dims -> squeeze l dims <> Ok l') /\
     (forall start e step l', slice l a start e step <> Ok l')) /\
  (~ axis_ok (S (length (lshape l))) a -> forall l', unsqueeze l a <> Ok l').
Proof. exact bad_axis_refused. Qed.
Print Assumptions C11_bad_axis_refused.

Example C11_ex : normalize_axis [2;3;4] (-1) = Some 2 /\ normalize_axis [2;3;4] 3 = None /\
  normalize_axis [2;3;4] (-4) = None.
Proof. repeat split. Qed.
