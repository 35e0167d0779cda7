(** Determinant, inverse, trace and solve of float tensors (tensor/ops/linalg.rs), with [NumModel.xr]
    for the numbers.  Simplifications as in LinModel.v and LayerModel.v. *)
From Coq Require Import List Arith ZArith Bool Reals.
From Verif Require Import Base LayoutModel ViewSpec KernelModel TensorModel EncodeModel NumModel NnModel LayerModel LinModel.
Import ListNotations.
Open Scope nat_scope.

Definition xquot (a b : xr) : option xr := Some (xdiv a b).
(** ops_linalg.c L279-288: F32 and F64 use DET_OP with the test of L139, the other floats do not *)
Definition below (d : dtype) (v : xr) : bool :=
  (same_dtype d F32 || same_dtype d F64) && xltb v (Fin (1 / 10 ^ 15)%R).
(** tensor/ops/linalg.rs L23-91; valid.rs L267-272 *)
Definition x_det (a : xtensor) : outcome xtensor :=
  if negb (allowed NoBool (xdtype a)) then Err EDType
  else do t <- t_det (Fin 0) (Fin 1) xadd xsub xmul xquot xneg xltb (below (xdtype a)) (xdata a) ; Ok (mkX (xdtype a) t).
(** L110-173 *)
Definition x_inv (a : xtensor) : outcome xtensor :=
  if negb (allowed NoBool (xdtype a)) then Err EDType
  else do t <- t_inv (Fin 0) (Fin 1) xadd xsub xmul xquot xneg xltb (xdata a) ; Ok (mkX (xdtype a) t).
(** L188-256 *)
Definition x_trace (a : xtensor) : outcome xtensor :=
  if negb (allowed NoBool (xdtype a)) then Err EDType
  else do t <- t_trace (Fin 0) xadd (xdata a) ; Ok (mkX (xdtype a) t).

Section Solve.
Variables (e : env) (blas : bool).
(** L277-289 *)
Definition x_solve (a b : xtensor) : outcome xtensor :=
  do ia <- x_inv a ;
  if length (xshape b) =? 1 then
    do bc <- x_view (VUnsqueeze (-1)) b ;
    do xc <- x_matmul e blas ia bc ;
    x_view (VSqueeze [(-1)%Z]) xc
  else x_matmul e blas ia b.
End Solve.

(** ** Integer types
    Signed w-bit integers: results are reduced into range, which is what C does for int8_t and int16_t (the
    arithmetic is done in int); for int32_t and int64_t an overflow is undefined instead. *)
Definition wrap (w : Z) (z : Z) : Z := ((z + 2 ^ (w - 1)) mod 2 ^ w - 2 ^ (w - 1))%Z.
(** a division by zero is undefined *)
Definition iquot (w a b : Z) : option Z := if (b =? 0)%Z then None else Some (wrap w (Z.quot a b)).
Definition iadd (w a b : Z) : Z := wrap w (a + b).
Definition isub (w a b : Z) : Z := wrap w (a - b).
Definition imul (w a b : Z) : Z := wrap w (a * b).
Definition ineg (w a : Z) : Z := wrap w (- a).
(** ops_linalg.c L139: [(TYPE)1e-15] is 0 *)
Definition i_det (w : Z) : tensor Z -> outcome (tensor Z) :=
  t_det 0%Z 1%Z (iadd w) (isub w) (imul w) (iquot w) (ineg w) Z.ltb (fun v => (v <? 0)%Z).
Definition i_inv (w : Z) : tensor Z -> outcome (tensor Z) :=
  t_inv 0%Z 1%Z (iadd w) (isub w) (imul w) (iquot w) (ineg w) Z.ltb.
