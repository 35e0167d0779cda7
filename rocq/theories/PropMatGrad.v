(** C104: the gradient rules of matrix products, on the real numbers (rounding is not modelled).
    [nudge A i t] is [A] with [t] added to entry [i]; [paired] is the sum of all entries of the product times the
    incoming gradient [G], so the gradient of an entry is the derivative of [paired] along that entry. *)
From Coq Require Import List Arith ZArith Lia Bool Reals Lra.
From Verif Require Import Base IndexSpec LayoutModel ViewSpec LayoutProofs LayoutProofs2 KernelModel TensorModel TensorSpec EncodeModel KernelProofs TensorProofs ElementwiseProofs BcastProofs MatrixModel MatrixProofs3.
From Verif Require Import NumModel DenSpec DenProofs NnModel NnSpec NnProofs LayerModel LayerSpec LayerProofs LayerProofs2 AttnSpec AttnProofs PropNn PropLayer.
From Verif Require Import LinSpec LinProofs LinProofs5 LinGradProofs PropLin MatGradModel MatGradSpec MatGradProofs.
Import ListNotations.
Open Scope nat_scope.

(** Products of matrices and of stacks of matrices with broadcasting.  With BLAS (F32 and F64): at most one batch
    axis, and the gradient of a product of two matrices has strides BLAS can express. *)
Theorem C104_product_partial : forall e blas a b g d lb rb s m k n A B G, mat_env_ok e -> allowed NoBool d = true -> bcast lb rb s ->
  xden a d (lb ++ [m; k]) (fun i => Fin (A i)) -> xden b d (rb ++ [k; n]) (fun i => Fin (B i)) -> xden g d (s ++ [m; n]) (fun i => Fin (G i)) ->
  (s = [] -> fit blas g) -> length s <= (if by_blas blas d then 1 else 14) ->
  exists ga gb, product_vjp e blas a b g = Ok (ga, gb) /\ xdtype ga = d /\ xdtype gb = d /\ xshape ga = lb ++ [m; k] /\ xshape gb = rb ++ [k; n] /\
    (forall i, valid (lb ++ [m; k]) i -> exists x, elem (xdata ga) i = Some (Fin x) /\
       derivable_pt_lim (fun t => paired s lb rb m k n G (nudge A i t) B) 0%R x) /\
    (forall i, valid (rb ++ [k; n]) i -> exists x, elem (xdata gb) i = Some (Fin x) /\
       derivable_pt_lim (fun t => paired s lb rb m k n G A (nudge B i t)) 0%R x).
Proof.
  intros e blas a b g d lb rb s m k n A B G Hm C BC Xa Xb Xg F L.
  destruct (product_vjp_ok e Hm blas a b g d lb rb s m k n A B G C BC Xa Xb Xg F L) as (ga & gb & E & D1 & D2 & S1 & S2 & H1 & H2).
  exists ga, gb. do 5 (split; [assumption|]). split; intros i V; eexists.
  - split; [apply H1, V|apply paired_left].
  - split; [apply H2, V|apply paired_right].
Qed.
Print Assumptions C104_product_partial.

(** The gradient of (a @ b).sum over the first axis: broadcast back to the shape of the product it has
    strides [0; 1], and BLAS reads its rows behind the end of its storage. *)
Theorem C104_blas_refuted : exists g,
  x_view (VBroadcast [2; 2]) (xt [2] [1; 1]%R) = Ok g /\
  product_vjp e1 true (xt [2; 1] [1; 2]%R) (xt [1; 2] [3; 4]%R) g = Panic /\
  (exists p, product_vjp e1 false (xt [2; 1] [1; 2]%R) (xt [1; 2] [3; 4]%R) g = Ok p).
Proof.
  eexists. split; [reflexivity|]. split; [reflexivity|]. eexists. reflexivity.
Qed.
Print Assumptions C104_blas_refuted.

(** one 1 x 1 matrix times a stack of two: its gradient is the sum 5 * 3 + 7 * 4 over the stack *)
Example C104_example : exists ga gb,
  product_vjp e1 true (xt [1; 1] [2]%R) (xt [2; 1; 1] [3; 4]%R) (xt [2; 1; 1] [5; 7]%R) = Ok (ga, gb) /\ xshape ga = [1; 1] /\
  elem (xdata ga) [0; 0] = Some (Fin 43%R) /\ elem (xdata gb) [1; 0; 0] = Some (Fin 14%R).
Proof.
  destruct (C104_product_partial e1 true (xt [1; 1] [2]%R) (xt [2; 1; 1] [3; 4]%R) (xt [2; 1; 1] [5; 7]%R) F32 [] [2] [2] 1 1 1
    (fun i => nth (ravel [1; 1] i) [2]%R 0%R) (fun i => nth (ravel [2; 1; 1] i) [3; 4]%R 0%R) (fun i => nth (ravel [2; 1; 1] i) [5; 7]%R 0%R) e1_mat eq_refl)
    as (ga & gb & E & _ & _ & S & _ & HA & HB).
  - split; [reflexivity|]. intros [|[|k]]; unfold bcast_dim; cbn; auto.
  - exact (xt_den [1; 1] [2]%R eq_refl ltac:(repeat constructor)).
  - exact (xt_den [2; 1; 1] [3; 4]%R eq_refl ltac:(repeat constructor)).
  - exact (xt_den [2; 1; 1] [5; 7]%R eq_refl ltac:(repeat constructor)).
  - discriminate.
  - cbn. lia.
  - exists ga, gb. split; [exact E|]. split; [exact S|]. split.
    + destruct (HA [0; 0] ltac:(cbn; auto)) as (x & -> & D). do 2 f_equal. apply (uniqueness_limite _ _ _ _ D).
      apply (affine_derivative _ 86%R). intros t. lazy -[IZR Rplus Rminus Rdiv INR Ropp Rmult Rinv]. lra.
    + destruct (HB [1; 0; 0] ltac:(cbn; auto)) as (x & -> & D). do 2 f_equal. apply (uniqueness_limite _ _ _ _ D).
      apply (affine_derivative _ 86%R). intros t. lazy -[IZR Rplus Rminus Rdiv INR Ropp Rmult Rinv]. lra.
Qed.
(** a 1 x 2 matrix times a 2 x 1 matrix, without BLAS *)
Example C104_matrix_example : exists ga gb,
  product_vjp e1 false (xt [1; 2] [1; 2]%R) (xt [2; 1] [3; 4]%R) (xt [1; 1] [5]%R) = Ok (ga, gb) /\
  elem (xdata ga) [0; 1] = Some (Fin 20%R) /\ elem (xdata gb) [1; 0] = Some (Fin 10%R).
Proof.
  destruct (C104_product_partial e1 false (xt [1; 2] [1; 2]%R) (xt [2; 1] [3; 4]%R) (xt [1; 1] [5]%R) F32 [] [] [] 1 2 1
    (fun i => nth (ravel [1; 2] i) [1; 2]%R 0%R) (fun i => nth (ravel [2; 1] i) [3; 4]%R 0%R) (fun i => nth (ravel [1; 1] i) [5]%R 0%R) e1_mat eq_refl)
    as (ga & gb & E & _ & _ & S & _ & HA & HB).
  - apply bcast_idem.
  - exact (xt_den [1; 2] [1; 2]%R eq_refl ltac:(repeat constructor)).
  - exact (xt_den [2; 1] [3; 4]%R eq_refl ltac:(repeat constructor)).
  - exact (xt_den [1; 1] [5]%R eq_refl ltac:(repeat constructor)).
  - intros _ H. discriminate H.
  - cbn. lia.
  - exists ga, gb. split; [exact E|]. split.
    + destruct (HA [0; 1] ltac:(cbn; auto)) as (x & -> & D). do 2 f_equal. apply (uniqueness_limite _ _ _ _ D).
      apply (affine_derivative _ 55%R). intros t. lazy -[IZR Rplus Rminus Rdiv INR Ropp Rmult Rinv]. lra.
    + destruct (HB [1; 0] ltac:(cbn; auto)) as (x & -> & D). do 2 f_equal. apply (uniqueness_limite _ _ _ _ D).
      apply (affine_derivative _ 55%R). intros t. lazy -[IZR Rplus Rminus Rdiv INR Ropp Rmult Rinv]. lra.
Qed.
