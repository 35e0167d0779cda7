(** C39, C40, C84, C85: gradient rules of sum, mean, transpose, permute, reshape and broadcast. *)
From Coq Require Import List Arith ZArith Bool Lia Permutation.
From Verif Require Import Base IndexSpec LayoutModel ViewSpec KernelModel KernelProofs TensorModel TensorSpec
  TensorProofs ReduceModel ReduceSpec ReduceProofs ShapeGradModel ShapeGradSpec ShapeGradProofs ShapeGradProofs2 ShapeGradProofs3.
Import ListNotations.

Local Ltac nodup := vm_compute; repeat (apply NoDup_cons; [simpl; lia|]); apply NoDup_nil.

(* ================ C39 ================ *)

(** keep_dim, or the reduced axes are the leading ones.
    Missing: other axes without keep_dim (refuted below). *)
Theorem C39_sum_partial : forall A (z : A) s ds keep g, good g -> tshape g = rshape keep ds s ->
  (keep = false -> leading ds (length s)) ->
  exists r, v_sum z s g = Ok r /\ good r /\ tshape r = s /\
    forall i, valid s i -> valid (tshape g) (rproj keep ds i) /\ elem r i = elem g (rproj keep ds i).
Proof. exact v_sum_spec. Qed.
Print Assumptions C39_sum_partial.

Theorem C39_mean_partial : forall A e (z : A) scale s dims ds keep g, env_ok e -> good g -> offset_read (tlay g) ->
  ds = (match dims with [] => seq 0 (length s) | _ => dims end) -> Forall (fun d => d < length s) ds ->
  tshape g = rshape keep ds s -> (keep = false -> leading ds (length s)) ->
  exists r, v_mean e z scale s dims g = Ok r /\ good r /\ tshape r = s /\
    forall i, valid s i ->
      elem r i = option_map (scale (fold_left Nat.mul (extents ds s) 1)) (elem g (rproj keep ds i)).
Proof. exact v_mean_spec. Qed.
Print Assumptions C39_mean_partial.

(** A square matrix summed along its last axis: the gradient is transposed. *)
Theorem C39_square_refuted :
  let g := mkT [10; 20] (from_shape [2]) in
  tshape g = rshape false [1] [2;2] /\
  exists r, v_sum 0 [2;2] g = Ok r /\ elem r [0;1] = Some 20 /\ elem g (rproj false [1] [0;1]) = Some 10.
Proof. simpl. split; auto. eexists. split; [reflexivity|]. split; reflexivity. Qed.
Print Assumptions C39_square_refuted.

(** Other shapes: backward() fails. *)
Theorem C39_shape_refuted :
  let g := mkT [10; 20] (from_shape [2]) in
  tshape g = rshape false [1] [2;3] /\ v_sum 0 [2;3] g = Err EShape /\
  v_mean (seq_env 1 1) 0 (fun _ x => x) [2;3] [1] g = Err EShape.
Proof. simpl. split; auto. Qed.
Print Assumptions C39_shape_refuted.

(** Concrete instances: summing the leading axes, and the last one kept. *)
Example C39_ex_leading : let g := mkT [10; 20; 30] (from_shape [3]) in
  tshape g = rshape false [0] [2;3] /\ leading [0] 2 /\
  exists r, v_sum 0 [2;3] g = Ok r /\ elem r [1;2] = Some 30.
Proof. split; [reflexivity|]. split; [exists 1; split; [lia|]; simpl; intro j; lia|]. eexists. split; reflexivity. Qed.
Example C39_ex_keep : let g := mkT [10; 20] (from_shape [2;1]) in
  tshape g = rshape true [1] [2;3] /\
  exists r, v_mean (seq_env 1 1) 0 (fun n x => x * n) [2;3] [1] g = Ok r /\ elem r [1;2] = Some 60.
Proof. split; [reflexivity|]. eexists. split; reflexivity. Qed.

(* ================ C40 ================ *)

(** Transposing the last two axes, named in either order.  Missing: other axes. *)
Theorem C40_transpose_partial : forall A (z : A) a b s g n, good g -> n = length s ->
  shape_rel (VTranspose a b) s (tshape g) ->
  (axis_of n a = n - 2 /\ axis_of n b = n - 1) \/ (axis_of n a = n - 1 /\ axis_of n b = n - 2) ->
  exists r, v_transpose z s g = Ok r /\ good r /\ tshape r = s /\
    forall i j, valid s i -> index_rel (VTranspose a b) s (tshape g) j i -> length j = n -> elem r i = elem g j.
Proof. exact v_transpose_spec. Qed.
Print Assumptions C40_transpose_partial.

(** Other axes: the last two are swapped all the same, giving a gradient of
    another shape, or one of the right shape with entries swapped. *)
Theorem C40_transpose_shape_refuted :
  let g := mkT (seq 0 24) (from_shape [3;2;4]) in
  shape_rel (VTranspose 0 1) [2;3;4] (tshape g) /\
  exists r, v_transpose 0 [2;3;4] g = Ok r /\ tshape r = [3;4;2].
Proof.
  split.
  - simpl. repeat split; try lia. intros [|[|[|k]]] Hk; simpl; auto; lia.
  - eexists. split; reflexivity.
Qed.
Print Assumptions C40_transpose_shape_refuted.
Theorem C40_transpose_value_refuted :
  let g := mkT (seq 0 8) (from_shape [2;2;2]) in
  shape_rel (VTranspose 0 1) [2;2;2] (tshape g) /\
  index_rel (VTranspose 0 1) [2;2;2] (tshape g) [1;0;0] [0;1;0] /\
  exists r, v_transpose 0 [2;2;2] g = Ok r /\ elem r [0;1;0] = Some 1 /\ elem g [1;0;0] = Some 4.
Proof.
  split; [|split].
  - simpl. repeat split; try lia. intros [|[|[|k]]] Hk; simpl; auto; lia.
  - simpl. split; auto. intros [|[|[|k]]] Hk; simpl; auto; lia.
  - eexists. split; [reflexivity|]. split; reflexivity.
Qed.
Print Assumptions C40_transpose_value_refuted.

(** Pairwise different sizes and axes that are their own inverse.
    Missing: everything else (refuted below). *)
Theorem C40_permute_partial : forall A (z : A) axes s g, good g -> shape_rel (VPermute axes) s (tshape g) ->
  NoDup s ->
  (forall k, k < length s -> nth (nth k (map (axis_of (length s)) axes) 0) (map (axis_of (length s)) axes) 0 = k) ->
  exists r, v_permute z s g = Ok r /\ good r /\ tshape r = s /\
    forall i j, valid s i -> index_rel (VPermute axes) s (tshape g) j i -> length j = length s -> elem r i = elem g j.
Proof. exact @v_permute_involution. Qed.
Print Assumptions C40_permute_partial.

(** Identity axes, any sizes. *)
Theorem C40_identity_partial : forall A (z : A) axes s g, good g -> shape_rel (VPermute axes) s (tshape g) ->
  map (axis_of (length s)) axes = seq 0 (length s) ->
  exists r, v_permute z s g = Ok r /\ good r /\ tshape r = s /\ forall i, valid s i -> elem r i = elem g i.
Proof. exact @v_permute_identity. Qed.
Print Assumptions C40_identity_partial.

(** With pairwise different sizes, axes that are not their own inverse always
    give a gradient of the wrong shape: the axes are applied again. *)
Theorem C40_permute_refuted : forall A (z : A) axes s g, good g -> shape_rel (VPermute axes) s (tshape g) ->
  NoDup s ->
  (exists k, k < length s /\ nth (nth k (map (axis_of (length s)) axes) 0) (map (axis_of (length s)) axes) 0 <> k) ->
  exists r, v_permute z s g = Ok r /\ tshape r <> s.
Proof.
  intros A z axes s g Hg Hr Hs (k & Hk & Hne). destruct (v_permute_distinct z axes s g Hg Hr Hs) as (r & Er & _).
  exists r. split; auto. intro E. apply Hne. exact (v_permute_only_involution z axes s g Hg Hr Hs r Er E k Hk).
Qed.
Print Assumptions C40_permute_refuted.

(** Equal sizes: the permutation cannot be guessed. *)
Theorem C40_permute_equal_refuted :
  let g := mkT [1;2;3;4] (from_shape [2;2]) in
  shape_rel (VPermute [1;0]%Z) [2;2] (tshape g) /\ index_rel (VPermute [1;0]%Z) [2;2] (tshape g) [1;0] [0;1] /\
  exists r, v_permute 0 [2;2] g = Ok r /\ elem r [0;1] = Some 2 /\ elem g [1;0] = Some 3.
Proof.
  split; [|split].
  - simpl. split; auto. split; [repeat constructor; unfold axis_ok; simpl; lia|].
    split; [nodup|]. split; auto.
    intros [|[|[|k]]] a H; simpl in H; try discriminate; injection H as <-; reflexivity.
  - simpl. split; auto. intros [|[|[|k]]] a H; simpl in H; try discriminate; injection H as <-; reflexivity.
  - eexists. split; [reflexivity|]. split; reflexivity.
Qed.
Print Assumptions C40_permute_equal_refuted.

(** Concrete instances. *)
Example C40_ex_transpose : let g := mkT (seq 0 6) (from_shape [3;2]) in
  shape_rel (VTranspose (-2) (-1)) [2;3] (tshape g) /\
  exists r, v_transpose 9 [2;3] g = Ok r /\ tshape r = [2;3] /\ elem r [1;2] = elem g [2;1].
Proof.
  split.
  - simpl. repeat split; try (unfold axis_ok; simpl; lia). intros [|[|k]] Hk; simpl; auto; lia.
  - eexists. split; [reflexivity|]. split; reflexivity.
Qed.
Example C40_ex_permute : let g := mkT (seq 0 24) (from_shape [4;3;2]) in
  shape_rel (VPermute [2;1;0]%Z) [2;3;4] (tshape g) /\ NoDup [2;3;4] /\
  (forall k, k < 3 -> nth (nth k [2;1;0] 0) [2;1;0] 0 = k) /\
  exists r, v_permute 9 [2;3;4] g = Ok r /\ tshape r = [2;3;4] /\ elem r [1;2;3] = elem g [3;2;1].
Proof.
  split; [|split; [|split]].
  - simpl. split; auto. split; [repeat constructor; unfold axis_ok; simpl; lia|].
    split; [nodup|]. split; auto.
    intros [|[|[|[|k]]]] a H; simpl in H; try discriminate; injection H as <-; reflexivity.
  - nodup.
  - intros [|[|[|k]]] Hk; simpl; auto; lia.
  - eexists. split; [reflexivity|]. split; reflexivity.
Qed.
Example C40_ex_cycle : let g := mkT (seq 0 24) (from_shape [3;4;2]) in
  shape_rel (VPermute [1;2;0]%Z) [2;3;4] (tshape g) /\
  exists r, v_permute 9 [2;3;4] g = Ok r /\ tshape r = [4;2;3].
Proof.
  split.
  - simpl. split; auto. split; [repeat constructor; unfold axis_ok; simpl; lia|].
    split; [nodup|]. split; auto.
    intros [|[|[|[|k]]]] a H; simpl in H; try discriminate; injection H as <-; reflexivity.
  - eexists. split; reflexivity.
Qed.

(* ================ C84 ================ *)

(** The gradient of a reshape, flatten, squeeze or unsqueeze has the operand's
    shape, and every entry is the gradient of the result element it became. *)
Theorem C84_reshape : forall A (z : A) o s g, good g ->
  (match o with VReshape _ | VFlatten | VSqueeze _ | VUnsqueeze _ => True | _ => False end) ->
  nelem s = nelem (tshape g) ->
  exists r, v_reshape z s g = Ok r /\ good r /\ tshape r = s /\
    forall i j, valid s i -> valid (tshape g) j -> index_rel o s (tshape g) j i -> elem r i = elem g j.
Proof. exact v_reshape_spec. Qed.
Print Assumptions C84_reshape.
Example C84_ex : let g := mkT (seq 0 6) (mkLayout [3;2] [1;3] 0) in
  index_rel (VReshape [3;2]) [6] (tshape g) [1;1] [3] /\
  exists r, v_reshape 9 [6] g = Ok r /\ elem r [3] = Some 4 /\ elem g [1;1] = Some 4.
Proof. split; [reflexivity|]. eexists. split; [reflexivity|]. split; reflexivity. Qed.

(* ================ C85 ================ *)

(** Broadcasting: each operand entry receives the sum of the gradients of its
    copies, in the operand's shape.  Sizes positive, rank at most 16, and an
    exact addition (any commutative monoid). *)
Theorem C85_broadcast_partial : forall A (zero : A) add,
  (forall x y, add x y = add y x) -> (forall x y w, add x (add y w) = add (add x y) w) -> (forall x, add zero x = x) ->
  forall s g, good g -> shape_rel (VBroadcast (tshape g)) s (tshape g) ->
  Forall (lt 0) (tshape g) -> length (tshape g) <= 16 ->
  exists r, v_broadcast zero add s g = Ok r /\ good r /\ tshape r = s /\
    forall i, valid s i -> exists v, elem r i = Some v /\ sums zero add (elem g) (copies s (tshape g) i) v.
Proof. exact @v_broadcast_spec. Qed.
Print Assumptions C85_broadcast_partial.

(** The same for the implicit broadcasting of the binary operations. *)
Theorem C85_operand_partial : forall A (zero : A) add,
  (forall x y, add x y = add y x) -> (forall x y w, add x (add y w) = add (add x y) w) -> (forall x, add zero x = x) ->
  forall s g, good g -> shape_rel (VBroadcast (tshape g)) s (tshape g) ->
  Forall (lt 0) (tshape g) -> length (tshape g) <= 16 ->
  exists r, sum_to_shape zero add s g = Ok r /\ good r /\ tshape r = s /\
    forall i, valid s i -> exists v, elem r i = Some v /\ sums zero add (elem g) (copies s (tshape g) i) v.
Proof. exact @sum_to_shape_spec. Qed.
Print Assumptions C85_operand_partial.

(** No copies (broadcasting to an axis of size 0): the gradient is not a sum of
    zeros, the operation fails or returns another shape. *)
Theorem C85_empty_refuted :
  let g := mkT (@nil Z) (from_shape [0;2]) in
  shape_rel (VBroadcast (tshape g)) [1;2] (tshape g) /\
  ~ exists r, sum_to_shape 0%Z Z.add [1;2] g = Ok r /\ tshape r = [1;2].
Proof.
  split.
  - simpl. split; auto. exists [], [0;2]. split; [reflexivity|]. constructor; [right; reflexivity|]. constructor; [left; reflexivity|constructor].
  - intros (r & E & Es). vm_compute in E. injection E as <-. discriminate.
Qed.
Print Assumptions C85_empty_refuted.

Example C85_ex : let g := mkT [1;2;3;4;5;6;7;8;9;10;11;12]%Z (from_shape [2;2;3]) in
  shape_rel (VBroadcast (tshape g)) [2;1] (tshape g) /\
  copies [2;1] (tshape g) [1;0] = [[0;1;0];[0;1;1];[0;1;2];[1;1;0];[1;1;1];[1;1;2]] /\
  exists r, sum_to_shape 0%Z Z.add [2;1] g = Ok r /\ elem r [1;0] = Some 48%Z.
Proof.
  split; [|split].
  - simpl. split; auto. exists [2], [2;3]. split; [reflexivity|]. constructor; [left; reflexivity|]. constructor; [right; reflexivity|constructor].
  - vm_compute. reflexivity.
  - eexists. split; reflexivity.
Qed.
