(** Gradients of determinant, inverse and trace (tensor/gradient/vjp_linalg.rs). *)
From Coq Require Import List Arith ZArith Bool Reals.
From Verif Require Import Base LayoutModel ViewSpec KernelModel TensorModel EncodeModel NumModel NnModel LayerModel LinModel LinModel2.
Import ListNotations.
Open Scope nat_scope.

Section Rules.
Variables (e : env) (blas : bool).
(** vjp_linalg.rs L17-47 *)
Definition det_vjp (a out g : xtensor) : outcome xtensor :=
  do ia <- x_inv a ;
  do iat <- x_view (VTranspose (-2) (-1)) ia ;
  do sc <- x_mul e g out ;
  do s1 <- x_view (VUnsqueeze (-1)) sc ;
  do s2 <- x_view (VUnsqueeze (-1)) s1 ;
  x_mul e iat s2.
(** L48-68 *)
Definition inv_vjp (out g : xtensor) : outcome xtensor :=
  do iat <- x_view (VTranspose (-2) (-1)) out ;
  do tmp <- x_matmul e blas iat g ;
  do r <- x_matmul e blas tmp iat ;
  x_neg e r.
(** tensor/creation.rs L310-332 [eye_nm] *)
Definition x_eye (d : dtype) (n m : nat) : xtensor :=
  mkX d (mkT (map (fun k => if k / m =? k mod m then Fin 1 else Fin 0) (seq 0 (n * m))) (from_shape [n; m])).
(** L69-96 *)
Definition trace_vjp (a g : xtensor) : outcome xtensor :=
  let n := nth (length (xshape a) - 1) (xshape a) 0 in
  do s1 <- x_view (VUnsqueeze (-1)) g ;
  do s2 <- x_view (VUnsqueeze (-1)) s1 ;
  x_mul e (x_eye (xdtype a) n n) s2.
End Rules.
