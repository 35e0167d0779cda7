(** Gradient rules of the reductions: tensor/gradient/vjp_reduce.rs (sum and mean are in ShapeGradModel).

    Simplifications: as in NnModel; 1/N and 2/N, f32 divisions in the code, are exact. *)
From Coq Require Import List Arith ZArith Bool Reals.
From Verif Require Import Base LayoutModel ViewSpec KernelModel TensorModel ReduceModel EncodeModel NumModel NnModel LayerModel AttnModel ShapeGradModel RedModel.
Import ListNotations.
Open Scope nat_scope.

Section Rules.
Variable e : env.
(** tensor/ops/cmp.rs L10-49, L91: a BOOL tensor *)
Definition x_eq (a b : xtensor) : outcome xtensor :=
  if negb (same_dtype (xdtype a) (xdtype b)) then Err EDType
  else do t <- t_binary e (Fin 0) (Fin 0) (Fin 0) (fun x y => xbool (xeqb x y)) (xdata a) (xdata b) ; Ok (mkX BOOL t).
Definition x_recip := x_unary e Floats (fun x => xdiv (Fin 1) x).

(** [out] the result of the reduction, [a] its operand, [dims] the reduced axes (never empty but for rank 0) *)
Variables (a out g : xtensor) (dims : list nat).
Let s := xshape a.
Let bc (t : xtensor) : outcome xtensor := x_view (VBroadcast s) t.
(** vjp_reduce.rs L28-33 *)
Let rd := v_reduce_dims s dims.
(** vjp_reduce.rs L45-48, L81-84, L99-102: [dims()[dim]] panics out of range *)
Definition reduce_elements : outcome nat :=
  do ns <- ub (mapO (nth_error s) rd) ; Ok (fold_left Nat.mul ns 1).

(** vjp_reduce.rs L56-65 *)
Definition vjp_prod : outcome xtensor :=
  do o <- bc out ; do der <- x_div e o a ; do gb <- bc g ; x_mul e der gb.
(** L66-75 *)
Definition vjp_norm : outcome xtensor :=
  do o <- bc out ; do der <- x_div e a o ; do gb <- bc g ; x_mul e der gb.
(** L76-91 *)
Definition vjp_var : outcome xtensor :=
  do m <- x_mean a (map Z.of_nat rd) false ;
  do mb <- bc m ;
  do diff <- x_sub e a mb ;
  do n <- reduce_elements ;
  do der <- x_mul_scalar e diff (xdtype a, xdiv (Fin 2) (nat_x n)) ;
  do gb <- bc g ;
  x_mul e der gb.
(** L92-109 *)
Definition vjp_std : outcome xtensor :=
  do m <- x_mean a (map Z.of_nat rd) false ;
  do mb <- bc m ;
  do diff <- x_sub e a mb ;
  do o <- bc out ;
  do n <- reduce_elements ;
  do q <- x_div e diff o ;
  do der <- x_mul_scalar e q (xdtype a, xdiv (Fin 1) (nat_x n)) ;
  do gb <- bc g ;
  x_mul e der gb.
(** L110-131 *)
Definition vjp_max : outcome xtensor :=
  do o <- bc out ;
  do mask <- x_eq a o ;
  do mf <- x_to_dtype e (xdtype g) mask ;
  do count <- x_sum mf (map Z.of_nat rd) true ;
  do cb <- bc count ;
  do gb <- bc g ;
  do mg <- x_mul e gb mf ;
  x_div e mg cb.
(** L132-143 *)
Definition vjp_logsum : outcome xtensor :=
  do sum <- x_exp e out ; do sb <- bc sum ; do der <- x_recip sb ; do gb <- bc g ; x_mul e der gb.
(** L144-156 *)
Definition vjp_logsumexp : outcome xtensor :=
  do ex <- x_exp e a ; do sum <- x_exp e out ; do sb <- bc sum ; do soft <- x_div e ex sb ; do gb <- bc g ; x_mul e soft gb.
End Rules.
