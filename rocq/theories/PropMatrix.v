(** Property C36: matrix products.  [dot_at zero add mul a b ia ib K r] says that
    [r] is the sum, in increasing order of [k < K], of the products of the
    elements of [a] at [ia k] and of [b] at [ib k].  The additions are made in
    that order on every path, so the statements hold for floating point too. *)
From Coq Require Import List Arith ZArith Lia Bool.
From Verif Require Import Base IndexSpec LayoutModel ViewSpec LayoutProofs BcastProofs.
From Verif Require Import KernelModel TensorModel TensorSpec KernelProofs TensorProofs ElementwiseProofs.
From Verif Require Import MatrixModel MatrixProofs MatrixProofs2 MatrixProofs3 MatrixProofs4.
Import ListNotations.

(** [Tensor::matmul] for the dtypes of ops_matrix.c, and for f32 and f64 *)
Definition matmul_c {A} (zero : A) add mul z e :=
  t_matmul zero add mul z (fun l r => dot_kernel zero add mul l r e) (fun l r => matmul_kernel zero add mul l r e) e.
Definition matmul_f {A} (zero : A) add mul z e :=
  t_matmul zero add mul z (fun l r => dot_blas zero add mul l r e) (fun l r => matmul_blas zero add mul l r e) e.

(** ** ops_matrix.c *)
Theorem C36_matrices_partial : forall A (zero : A) add mul z e (a b : tensor A) M K N, mat_env_ok e ->
  good a -> good b -> tshape a = [M; K] -> tshape b = [K; N] ->
  exists r, matmul_c zero add mul z e a b = Ok r /\ good r /\ tshape r = [M; N] /\
    forall i j, i < M -> j < N -> dot_at zero add mul a b (fun k => [i; k]) (fun k => [k; j]) K (elem r [i; j]).
Proof.
  intros A zero add mul z e a b M K N He Ga Gb Sa Sb.
  unfold matmul_c, t_matmul. fold (tshape a) (tshape b). rewrite Sa, Sb. now apply dot_2d_spec.
Qed.
Print Assumptions C36_matrices_partial.

Lemma matmul_dispatch : forall A (zero : A) add mul z dotk matk e (a b : tensor A) lb rb M K K' N,
  tshape a = lb ++ [M; K] -> tshape b = rb ++ [K'; N] -> lb <> [] \/ rb <> [] ->
  t_matmul zero add mul z dotk matk e a b = t_matmul_batched z matk a b.
Proof.
  intros A zero add mul z dotk matk e a b lb rb M K K' N Sa Sb H. unfold t_matmul. fold (tshape a) (tshape b).
  rewrite Sa, Sb. destruct lb as [|x [|y [|? ?]]], rb as [|p [|q [|? ?]]]; cbn [app]; auto; destruct H; congruence.
Qed.

Theorem C36_batched_partial : forall A (zero : A) add mul z e (a b : tensor A) lb rb bsh M K N, mat_env_ok e ->
  good a -> good b -> tshape a = lb ++ [M; K] -> tshape b = rb ++ [K; N] -> lb <> [] \/ rb <> [] ->
  all_pos lb -> all_pos rb -> bcast lb rb bsh -> length bsh <= 16 ->
  exists r, matmul_c zero add mul z e a b = Ok r /\ good r /\ tshape r = bsh ++ [M; N] /\
    forall bi i j, valid bsh bi -> i < M -> j < N ->
      dot_at zero add mul a b (fun k => bidx lb bi ++ [i; k]) (fun k => bidx rb bi ++ [k; j]) K (elem r (bi ++ [i; j])).
Proof.
  intros A zero add mul z e a b lb rb bsh M K N He Ga Gb Sa Sb Hd Pa Pb HB H16.
  unfold matmul_c. rewrite (matmul_dispatch _ _ _ _ _ _ _ _ a b lb rb M K K N); auto. now apply batched_spec.
Qed.
Print Assumptions C36_batched_partial.

Theorem C36_matrix_vector_partial : forall A (zero : A) add mul z e (a b : tensor A) M K, mat_env_ok e ->
  good a -> good b -> tshape a = [M; K] -> tshape b = [K] ->
  exists r, matmul_c zero add mul z e a b = Ok r /\ good r /\ tshape r = [M] /\
    forall i, i < M -> dot_at zero add mul a b (fun k => [i; k]) (fun k => [k]) K (elem r [i]).
Proof. intros. apply mat_vec_gen; auto. intros. apply dot_2d_spec; auto. Qed.
Print Assumptions C36_matrix_vector_partial.

Theorem C36_vector_matrix_partial : forall A (zero : A) add mul z e (a b : tensor A) K N, mat_env_ok e ->
  good a -> good b -> tshape a = [K] -> tshape b = [K; N] ->
  exists r, matmul_c zero add mul z e a b = Ok r /\ good r /\ tshape r = [N] /\
    forall j, j < N -> dot_at zero add mul a b (fun k => [k]) (fun k => [k; j]) K (elem r [j]).
Proof. intros. apply vec_mat_gen; auto. intros. apply dot_2d_spec; auto. Qed.
Print Assumptions C36_vector_matrix_partial.

(** Two vectors (any dtype): not for a contiguous left view with an offset. *)
Theorem C36_vector_vector_partial : forall A (zero : A) add mul z dotk matk e (a b : tensor A) K, env_ok e ->
  good a -> good b -> tshape a = [K] -> tshape b = [K] -> 0 < K ->
  (loffset (tlay a) = 0 \/ is_contiguous (tlay a) = false) ->
  exists r, t_matmul zero add mul z dotk matk e a b = Ok r /\ tshape r = [] /\
    dot_at zero add mul a b (fun k => [k]) (fun k => [k]) K (elem r []).
Proof. intros. now apply vec_vec. Qed.
Print Assumptions C36_vector_vector_partial.

(** ** f32 and f64, through BLAS *)
Theorem C36_blas_matrices_partial : forall A (zero : A) add mul z e (a b : tensor A) M K N, mat_env_ok e -> 1 <= K ->
  good a -> good b -> tshape a = [M; K] -> tshape b = [K; N] ->
  blas_ok M K (nth 0 (lstrides (tlay a)) 0) (nth 1 (lstrides (tlay a)) 0) ->
  blas_ok K N (nth 0 (lstrides (tlay b)) 0) (nth 1 (lstrides (tlay b)) 0) ->
  exists r, matmul_f zero add mul z e a b = Ok r /\ good r /\ tshape r = [M; N] /\
    forall i j, i < M -> j < N -> dot_at zero add mul a b (fun k => [i; k]) (fun k => [k; j]) K (elem r [i; j]).
Proof.
  intros A zero add mul z e a b M K N He HK Ga Gb Sa Sb Oa Ob.
  unfold matmul_f, t_matmul. fold (tshape a) (tshape b). rewrite Sa, Sb. now apply dot_2d_blas.
Qed.
Print Assumptions C36_blas_matrices_partial.

(** row-major matrices and their transposes qualify *)
Theorem C36_blas_row_major : forall rows cols, blas_ok rows cols cols 1.
Proof. intros. left. auto. Qed.
Theorem C36_blas_transposed : forall rows cols, blas_ok rows cols 1 rows.
Proof.
  intros. unfold blas_ok. destruct (Nat.eqb_spec rows 1) as [->|H]; [right; auto|]. cbn. left. auto.
Qed.

Theorem C36_blas_batched_partial : forall A (zero : A) add mul z e (a b : tensor A) lb rb bsh M K N, mat_env_ok e -> 1 <= K ->
  good a -> good b -> tshape a = lb ++ [M; K] -> tshape b = rb ++ [K; N] -> lb <> [] \/ rb <> [] ->
  all_pos lb -> all_pos rb -> bcast lb rb bsh -> length bsh <= 1 ->
  exists r, matmul_f zero add mul z e a b = Ok r /\ good r /\ tshape r = bsh ++ [M; N] /\
    forall bi i j, valid bsh bi -> i < M -> j < N ->
      dot_at zero add mul a b (fun k => bidx lb bi ++ [i; k]) (fun k => bidx rb bi ++ [k; j]) K (elem r (bi ++ [i; j])).
Proof.
  intros A zero add mul z e a b lb rb bsh M K N He HK Ga Gb Sa Sb Hd Pa Pb HB H16.
  unfold matmul_f. rewrite (matmul_dispatch _ _ _ _ _ _ _ _ a b lb rb M K K N); auto. now apply batched_blas.
Qed.
Print Assumptions C36_blas_batched_partial.

Theorem C36_blas_matrix_vector_partial : forall A (zero : A) add mul z e (a b : tensor A) M K, mat_env_ok e -> 1 <= K ->
  good a -> good b -> tshape a = [M; K] -> tshape b = [K] ->
  blas_ok M K (nth 0 (lstrides (tlay a)) 0) (nth 1 (lstrides (tlay a)) 0) ->
  exists r, matmul_f zero add mul z e a b = Ok r /\ good r /\ tshape r = [M] /\
    forall i, i < M -> dot_at zero add mul a b (fun k => [i; k]) (fun k => [k]) K (elem r [i]).
Proof.
  intros. apply mat_vec_gen; auto. intros b' G S [o L]. apply dot_2d_blas; auto. rewrite L. cbn. left. auto.
Qed.
Print Assumptions C36_blas_matrix_vector_partial.

Theorem C36_blas_vector_matrix_partial : forall A (zero : A) add mul z e (a b : tensor A) K N, mat_env_ok e -> 1 <= K ->
  good a -> good b -> tshape a = [K] -> tshape b = [K; N] ->
  blas_ok K N (nth 0 (lstrides (tlay b)) 0) (nth 1 (lstrides (tlay b)) 0) ->
  exists r, matmul_f zero add mul z e a b = Ok r /\ good r /\ tshape r = [N] /\
    forall j, j < N -> dot_at zero add mul a b (fun k => [k]) (fun k => [k; j]) K (elem r [j]).
Proof.
  intros. apply vec_mat_gen; auto. intros a' G S [o L]. apply dot_2d_blas; auto. rewrite L. cbn. left. auto.
Qed.
Print Assumptions C36_blas_vector_matrix_partial.

(** ** inner sizes that differ are an error *)
Theorem C36_mismatch_rejected : forall A (zero : A) add mul z dotk matk e (a b : tensor A) lb rb M K K' N,
  tshape a = lb ++ [M; K] -> tshape b = rb ++ [K'; N] -> K <> K' ->
  t_matmul zero add mul z dotk matk e a b = Err EShape.
Proof.
  intros A zero add mul z dotk matk e a b lb rb M K K' N Sa Sb H.
  assert (C : (lb = [] /\ rb = []) \/ (lb <> [] \/ rb <> [])).
  { destruct lb; [destruct rb; [left; auto|right; right; discriminate]|right; left; discriminate]. }
  destruct C as [[-> ->]|C].
  - unfold t_matmul, t_dot_2d. fold (tshape a) (tshape b). rewrite Sa, Sb. cbn. now apply Nat.eqb_neq in H as ->.
  - rewrite (matmul_dispatch _ _ _ _ _ _ _ _ a b lb rb M K K' N); auto. unfold t_matmul_batched. fold (tshape a) (tshape b).
    assert (LA : length (tshape a) = length lb + 2) by (rewrite Sa, app_length; reflexivity).
    assert (LB : length (tshape b) = length rb + 2) by (rewrite Sb, app_length; reflexivity).
    replace (length (tshape a) <? 2) with false by (symmetry; apply Nat.ltb_ge; lia).
    replace (length (tshape b) <? 2) with false by (symmetry; apply Nat.ltb_ge; lia). cbn [orb].
    assert (A2 : nth (length (tshape a) - 1) (tshape a) 0 = K) by (rewrite Sa; apply nth_error_nth, last2).
    assert (B1 : nth (length (tshape b) - 2) (tshape b) 0 = K') by (rewrite Sb; apply nth_error_nth, last2).
    rewrite A2, B1. now apply Nat.eqb_neq in H as ->.
Qed.
Print Assumptions C36_mismatch_rejected.

(** ** Where the statement fails *)
Definition mt (d : list Z) (s : list nat) : tensor Z := mkT d (from_shape s).
Definition mz e := @matmul_f Z 0%Z Z.add Z.mul 0%Z e.

(** f32/f64 with two batch axes: the batch strides are taken in the wrong order.
    With batch shape [2;2] entries (0,1) and (1,0) of the left operand are
    exchanged; with [2;3] the operands are read out of bounds. *)
Theorem C36_blas_batch_axes_refuted :
  ~ (forall e (a b : tensor Z) lb rb bsh M K N, mat_env_ok e -> 1 <= K ->
      good a -> good b -> tshape a = lb ++ [M; K] -> tshape b = rb ++ [K; N] -> lb <> [] \/ rb <> [] ->
      all_pos lb -> all_pos rb -> bcast lb rb bsh -> length bsh <= 16 ->
      exists r, mz e a b = Ok r /\ forall bi i j, valid bsh bi -> i < M -> j < N ->
        dot_at 0%Z Z.add Z.mul a b (fun k => bidx lb bi ++ [i; k]) (fun k => bidx rb bi ++ [k; j]) K (elem r (bi ++ [i; j]))).
Proof.
  intro H. specialize (H (seq_env 1 1) (mt [1; 2; 3; 4]%Z [2; 2; 1; 1]) (mt [1; 1; 1; 1]%Z [2; 2; 1; 1])
    [2; 2] [2; 2] [2; 2] 1 1 1).
  destruct H as [r [E H]]; try reflexivity; auto.
  - apply seq_mat_env_ok. auto.
  - apply from_shape_good. cbn. auto.
  - apply from_shape_good. cbn. auto.
  - left. discriminate.
  - repeat constructor. - repeat constructor.
  - apply bcast_idem.
  - cbn. lia.
  - vm_compute in E. inversion E; subst r. clear E.
    destruct (H [0; 1] 0 0) as [fa [fb [F1 [F2 F3]]]]; [cbn; lia|lia|lia|].
    specialize (F1 0 ltac:(lia)). specialize (F2 0 ltac:(lia)). vm_compute in F1, F2, F3.
    inversion F1 as [X1]. inversion F2 as [X2]. rewrite <- X1, <- X2 in F3. discriminate.
Qed.
Print Assumptions C36_blas_batch_axes_refuted.

Theorem C36_blas_out_of_bounds_refuted : exists a b : tensor Z, good a /\ good b /\
  tshape a = [2; 3; 1; 1] /\ tshape b = [2; 3; 1; 1] /\ mz (seq_env 1 1) a b = Panic.
Proof.
  exists (mt [1; 2; 3; 4; 5; 6]%Z [2; 3; 1; 1]), (mt [1; 2; 3; 4; 5; 6]%Z [2; 3; 1; 1]).
  split; [apply from_shape_good; cbn; auto|]. split; [apply from_shape_good; cbn; auto|]. vm_compute. auto.
Qed.
Print Assumptions C36_blas_out_of_bounds_refuted.

(** f32/f64: a row broadcast to two rows (stride 0) is read as if the rows were
    stored one after the other. *)
Theorem C36_blas_broadcast_refuted : exists v a b : tensor Z, good v /\ good b /\ t_broadcast 0%Z v [2; 2] = Ok a /\
  tshape b = [2; 1] /\ mz (seq_env 1 1) a b = Panic.
Proof.
  exists (mt [5; 7]%Z [1; 2]). eexists. exists (mt [1; 1]%Z [2; 1]).
  split; [apply from_shape_good; cbn; auto|]. split; [apply from_shape_good; cbn; auto|].
  split; [vm_compute; reflexivity|]. vm_compute. auto.
Qed.
Print Assumptions C36_blas_broadcast_refuted.

(** f32/f64: with an empty inner dimension the result should be all zeros, but
    BLAS is called with leading dimension 0 and computes nothing. *)
Theorem C36_blas_empty_inner_refuted : exists a b : tensor Z, good a /\ good b /\ tshape a = [2; 0] /\ tshape b = [0; 2] /\
  mz (seq_env 1 1) a b = Panic /\
  exists r, matmul_c 0%Z Z.add Z.mul 0%Z (seq_env 1 1) a b = Ok r /\ tstore r = [0; 0; 0; 0]%Z.
Proof.
  exists (mt [] [2; 0]), (mt [] [0; 2]). split; [apply from_shape_good; cbn; auto|]. split; [apply from_shape_good; cbn; auto|].
  split; auto. split; auto. split; [vm_compute; auto|]. eexists. split; vm_compute; reflexivity.
Qed.
Print Assumptions C36_blas_empty_inner_refuted.

(** every dtype: a contiguous left vector starting inside its storage *)
Theorem C36_vector_offset_refuted : exists v a b : tensor Z, good v /\ good b /\
  t_view 0%Z (VSlice 0%Z 1%Z None 1%Z) v = Ok a /\ good a /\ tshape a = [2] /\ tshape b = [2] /\
  matmul_c 0%Z Z.add Z.mul 0%Z (seq_env 1 1) a b = Panic.
Proof.
  exists (mt [1; 2; 3]%Z [3]). eexists. exists (mt [1; 1]%Z [2]).
  split; [apply from_shape_good; cbn; auto|]. split; [apply from_shape_good; cbn; auto|].
  split; [vm_compute; reflexivity|].
  split; [split; [vm_compute; reflexivity|]|]; [|vm_compute; auto].
  intros [|x [|? ?]] V; cbn in V; try tauto. unfold addr. cbn. lia.
Qed.
Print Assumptions C36_vector_offset_refuted.

(** every dtype: batch sizes 0 and 1 broadcast to 0, but the product is refused *)
Theorem C36_empty_batch_refuted : exists a b : tensor Z, good a /\ good b /\ tshape a = [0] ++ [1; 1] /\ tshape b = [1] ++ [1; 1] /\
  bcast [0] [1] [0] /\ matmul_c 0%Z Z.add Z.mul 0%Z (seq_env 1 1) a b = Err EShape.
Proof.
  exists (mt [] [0; 1; 1]), (mt [9]%Z [1; 1; 1]). split; [apply from_shape_good; cbn; auto|]. split; [apply from_shape_good; cbn; auto|].
  split; auto. split; auto. split; [|vm_compute; auto].
  split; auto. intros [|[|k]]; unfold bcast_dim; cbn; auto.
Qed.
Print Assumptions C36_empty_batch_refuted.

(** ** Examples *)
Example C36_ex_matrices : exists r, matmul_c 0%Z Z.add Z.mul 0%Z (seq_env 4 1)
    (mt [1; 2; 3; 4; 5; 6]%Z [2; 3]) (mt [1; 0; 0; 1; 1; 1]%Z [3; 2]) = Ok r /\
  tstore r = [4; 5; 10; 11]%Z.
Proof. eexists. split; vm_compute; reflexivity. Qed.
Example C36_ex_transposed : exists v r, t_view 0%Z (VTranspose 0%Z 1%Z) (mt [1; 4; 2; 5; 3; 6]%Z [3; 2]) = Ok v /\
  mz (seq_env 1 1) v (mt [1; 0; 0; 1; 1; 1]%Z [3; 2]) = Ok r /\ tstore r = [4; 5; 10; 11]%Z.
Proof. eexists. eexists. split; [vm_compute; reflexivity|]. split; vm_compute; reflexivity. Qed.
Example C36_ex_batched : exists r, mz (seq_env 1 1) (mt [1; 2; 3; 4; 5; 6; 7; 8]%Z [2; 2; 2]) (mt [0; 1; 1; 0]%Z [1; 2; 2]) = Ok r /\
  tshape r = [2; 2; 2] /\ tstore r = [2; 1; 4; 3; 6; 5; 8; 7]%Z.
Proof. eexists. split; [vm_compute; reflexivity|]. split; vm_compute; reflexivity. Qed.
Example C36_ex_hyps : good (mt [1; 2; 3; 4; 5; 6; 7; 8]%Z [2; 2; 2]) /\ bcast [2] [1] [2] /\ mat_env_ok (seq_env 4 1).
Proof.
  split; [apply from_shape_good; cbn; auto|]. split; [|apply seq_mat_env_ok; auto].
  split; auto. intros [|[|k]]; unfold bcast_dim; cbn; auto.
Qed.
