(** Gradients of matrix products: tensor/gradient/vjp_matrix.rs, and the broadcasts recorded by
    tensor/ops/matrix.rs for products of stacks.

    Simplification: the two gradients of one recorded operation are a pair; elements are exact ([NumModel]). *)
From Coq Require Import List Arith ZArith Bool Reals.
From Verif Require Import Base LayoutModel KernelModel TensorModel EncodeModel MatrixModel ShapeGradModel NumModel NnModel LayerModel.
Import ListNotations.
Open Scope nat_scope.

(** tensor/ops/reduce.rs L20-48; vjp_utils.rs L187-190 *)
Definition x_sum_to_shape (target : shape) (a : xtensor) : outcome xtensor :=
  do t <- sum_to_shape (Fin 0) xadd target (xdata a) ; Ok (mkX (xdtype a) t).
(** vjp_shape.rs L43-69 *)
Definition x_unbroadcast (s : shape) (g : xtensor) : outcome xtensor :=
  do t <- v_broadcast (Fin 0) xadd s (xdata g) ; Ok (mkX (xdtype g) t).

Section Rules.
Variables (e : env) (blas : bool).
(** tensor/ops/matrix.rs L228-301 [dot]: as [matmul] for ranks 1 and 2, an error otherwise *)
Definition x_dot (a b : xtensor) : outcome xtensor :=
  if negb (same_dtype (xdtype a) (xdtype b)) then Err EDType
  else if negb (allowed NoBool (xdtype a)) then Err EDType
  else match xshape a, xshape b with
  | [_], [_] | [_; _], [_] | [_], [_; _] | [_; _], [_; _] => x_matmul e blas a b
  | _, _ => Err EInternal
  end.
(** vjp_matrix.rs L17-45 *)
Definition matmul_vjp (a b g : xtensor) : outcome (xtensor * xtensor) :=
  do bt <- x_view (VTranspose (-2) (-1)) b ;
  do ga_raw <- x_matmul e blas g bt ;
  do at_ <- x_view (VTranspose (-2) (-1)) a ;
  do gb_raw <- x_matmul e blas at_ g ;
  do ga <- x_sum_to_shape (xshape a) ga_raw ;
  do gb <- x_sum_to_shape (xshape b) gb_raw ;
  Ok (ga, gb).
(** vjp_matrix.rs L46-66 *)
Definition dot_vjp (a b g : xtensor) : outcome (xtensor * xtensor) :=
  do bt <- x_view (VTranspose (-2) (-1)) b ;
  do ga <- x_dot g bt ;
  do at_ <- x_view (VTranspose (-2) (-1)) a ;
  do gb <- x_dot at_ g ;
  Ok (ga, gb).
(** The rules in the order of the tape for [a.matmul(&b)] of operands with at least two axes: matrix.rs
    L85-87 records a [Dot] of two matrices; L153-224 broadcasts both operands, recorded as
    [Broadcast], and records the [Matmul] of the results. *)
Definition product_vjp (a b g : xtensor) : outcome (xtensor * xtensor) :=
  let sa := xshape a in
  let sb := xshape b in
  if (length sa =? 2) && (length sb =? 2) then dot_vjp a b g
  else
    match mat_batch sa sb with
    | None => Err EShape
    | Some bsh =>
      do a' <- x_view (VBroadcast (bsh ++ skipn (length sa - 2) sa)) a ;
      do b' <- x_view (VBroadcast (bsh ++ skipn (length sb - 2) sb)) b ;
      do p <- matmul_vjp a' b' g ;
      do ga <- x_unbroadcast sa (fst p) ;
      do gb <- x_unbroadcast sb (snd p) ;
      Ok (ga, gb)
    end.
End Rules.
