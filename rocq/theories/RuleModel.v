(** Model of the element-wise operations and their gradient rules, one element at
    a time, over the reals:
    - forward: /repo/crates/hodu_cpu_kernels/kernels/math_utils.h L60-230,
      kernels/ops_unary.c L470-806 and kernels/ops_binary.c L397-405 (f32 versions),
      the dispatch lists of /repo/crates/hodu_cpu_kernels/src/kernels/ops_unary.rs
      and the DType checks of /repo/crates/hodu_core/src/utils/valid.rs L91-245;
    - rules: /repo/crates/hodu_core/src/tensor/gradient/vjp_unary.rs,
      vjp_binary.rs, vjp_utils.rs.

    Simplifications: arithmetic is exact and the C library functions are the
    mathematical ones; a result that is infinite or not a number in IEEE arithmetic
    is [NaN], and any arithmetic with it is [NaN] again; constants given to f32
    precision (ln 2, ln 10, 2/sqrt pi, SELU's) stand for the number they
    approximate, the two that differ as f32 (0.7978845608 and 0.797885) do not.
    Tensors of one element, so sum_to_shape is the identity. *)
From Coq Require Import Reals List ZArith Bool.
From Verif Require Import Base.
Import ListNotations.
Open Scope R_scope.

(** An element: of a float tensor, of a BOOL tensor (comparison masks). *)
Inductive el := Fl (x : R) | NaN | Bo (b : bool).

Definition Rgtb (x y : R) : bool := if Rlt_dec y x then true else false.
Definition Rgeb (x y : R) : bool := if Rle_dec y x then true else false.
Definition Reqb (x y : R) : bool := if Req_EM_T x y then true else false.

(** floorf, ceilf, roundf (half away from zero), truncation *)
Definition Rfloor (x : R) : R := IZR (Int_part x).
Definition Rceil (x : R) : R := - Rfloor (- x).
Definition Rtrunc (x : R) : R := if Rle_dec 0 x then Rfloor x else - Rfloor (- x).
Definition Rround (x : R) : R := if Rle_dec 0 x then Rfloor (x + / 2) else - Rfloor (- x + / 2).
(** fmodf *)
Definition Rfmod (x y : R) : R := x - Rtrunc (x / y) * y.

(** ** Tensor operations used by kernels and rules *)

(** binary.rs L12-83 with valid.rs L92-110: both operands must have the same dtype,
    and BOOL is refused *)
Definition arith (f : R -> R -> el) (a b : el) : outcome el :=
  match a, b with
  | Bo _, _ | _, Bo _ => Err EDType
  | Fl x, Fl y => Ok (f x y)
  | _, _ => Ok NaN
  end.
Definition t_add := arith (fun x y => Fl (x + y)).
Definition t_sub := arith (fun x y => Fl (x - y)).
Definition t_mul := arith (fun x y => Fl (x * y)).
Definition t_div := arith (fun x y => if Reqb y 0 then NaN else Fl (x / y)).

(** math_utils.h powf_opt L61-93 *)
Definition is_int (y : R) : bool := Reqb (Rfloor y) y.
Definition pow_opt (x y : R) : el :=
  if Reqb y 0 then Fl 1
  else if Reqb x 0 then (if Rgtb y 0 then Fl 0 else NaN)
  else if Reqb x 1 then Fl 1
  else if Reqb y 1 then Fl x
  else if is_int y && Rgeb y 0 && Rgtb 32 y then Fl (x ^ Z.to_nat (Int_part y))
  else if is_int y && Rgtb 0 y && Rgtb y (-32) then Fl (1 / x ^ Z.to_nat (Int_part (- y)))
  else if Rgtb 0 x then NaN
  else Fl (Rpower x y).
Definition t_pow := arith pow_opt.

(** unary.rs; valid.rs L150-213: BOOL is refused *)
Definition un (f : R -> el) (a : el) : outcome el :=
  match a with Bo _ => Err EDType | NaN => Ok NaN | Fl x => Ok (f x) end.
Definition k_neg x := Fl (- x).
Definition k_abs x := Fl (Rabs x).
Definition k_sign x := Fl (if Rgtb x 0 then 1 else if Rgtb 0 x then -1 else 0).
Definition k_softsign x := Fl (x / (1 + Rabs x)).
Definition k_square x := Fl (x * x).
Definition k_sqrt x := if Rgtb 0 x then NaN else Fl (sqrt x).
Definition k_recip x := if Reqb x 0 then NaN else Fl (1 / x).
Definition k_relu x := Fl (if Rgtb x 0 then x else 0).
Definition sigmoid x := 1 / (1 + exp (- x)).
Definition k_sigmoid x := Fl (sigmoid x).
Definition hardsigmoid x := Rmax 0 (Rmin 1 ((x + 3) / 6)).
Definition k_hardsigmoid x := Fl (hardsigmoid x).
Definition gelu_c (c x : R) := 0.5 * x * (1 + tanh (c * (x + 0.044715 * x * x * x))).
Definition k_gelu x := Fl (gelu_c 0.7978845608 x).
Definition softplus x := ln (1 + exp x).
Definition k_softplus x := Fl (softplus x).
Definition k_silu x := Fl (x / (1 + exp (- x))).
Definition k_hardsilu x := Fl (x * hardsigmoid x).
Definition k_mish x := Fl (x * tanh (softplus x)).
Definition selu_alpha := 1.6732632423543772848170429916717.
Definition selu_scale := 1.0507009873554804934193349852946.
Definition k_selu x := Fl (selu_scale * (if Rgtb x 0 then x else selu_alpha * (exp x - 1))).
Definition k_celu x := Fl (Rmax 0 x + Rmin 0 (exp x - 1)).
Definition k_sin x := Fl (sin x).
Definition k_cos x := Fl (cos x).
(** math_utils.h tanf_opt L131-146 *)
Definition tan_reduce (x : R) : R :=
  let x1 := Rfmod x (2 * PI) in
  if Rgtb x1 PI then x1 - 2 * PI else if Rgtb (- PI) x1 then x1 + 2 * PI else x1.
Definition tan_eps : R := 1 / 1000000.
Definition k_tan x :=
  let r := tan_reduce x in
  Fl (if Rgtb tan_eps (Rabs (Rabs r - PI / 2))
      then (if Rgtb r 0 then 1000000 else -1000000)
      else sin r / cos r).
Definition k_asin x := if Rgtb (Rabs x) 1 then NaN else Fl (asin x).
Definition k_acos x := if Rgtb (Rabs x) 1 then NaN else Fl (acos x).
Definition k_atan x := Fl (atan x).
Definition k_sinh x := Fl (sinh x).
Definition k_cosh x := Fl (cosh x).
Definition k_tanh x := Fl (tanh x).
Definition k_asinh x := Fl (arcsinh x).
Definition k_acosh x := if Rgtb 1 x then NaN else Fl (ln (x + sqrt (x * x - 1))).
Definition k_atanh x := if Rgeb (Rabs x) 1 then NaN else Fl (/ 2 * ln ((1 + x) / (1 - x))).
Definition k_exp x := Fl (exp x).
Definition k_exp2 x := Fl (Rpower 2 x).
Definition k_exp10 x := Fl (exp (x * ln 10)).
Definition k_ln x := if Rgtb x 0 then Fl (ln x) else NaN.
Definition k_log2 x := if Rgtb x 0 then Fl (ln x / ln 2) else NaN.
Definition k_log10 x := if Rgtb x 0 then Fl (ln x / ln 10) else NaN.
Definition k_ceil x := Fl (Rceil x).
Definition k_floor x := Fl (Rfloor x).
Definition k_round x := Fl (Rround x).

(** cmp.rs cmp_scalar_op L52-86 / cmp_op L10-49: BOOL result; NaN compares false *)
Definition cmp_s (f : R -> R -> bool) (a : el) (c : R) : outcome el :=
  match a with Bo _ => Err EDType | NaN => Ok (Bo false) | Fl x => Ok (Bo (f x c)) end.
Definition cmp_t (f : R -> R -> bool) (a b : el) : outcome el :=
  match a, b with
  | Bo _, _ | _, Bo _ => Err EDType
  | Fl x, Fl y => Ok (Bo (f x y))
  | _, _ => Ok (Bo false)
  end.
Definition gt_s := cmp_s Rgtb.
Definition ge_s := cmp_s Rgeb.
Definition lt_s := cmp_s (fun x c => Rgtb c x).
Definition le_s := cmp_s (fun x c => Rgeb c x).
(** cast_memory.rs to_dtype L11-38, to the gradient's (float) dtype *)
Definition to_float (a : el) : el := match a with Bo true => Fl 1 | Bo false => Fl 0 | _ => a end.

(** unary_scalar_op L103-164; valid.rs L227-252 *)
Definition add_s (a : el) (c : R) := un (fun x => Fl (x + c)) a.
Definition sub_s (a : el) (c : R) := un (fun x => Fl (x - c)) a.
Definition mul_s (a : el) (c : R) := un (fun x => Fl (x * c)) a.
Definition pow_s (a : el) (c : R) := un (fun x => pow_opt x c) a.

(** vjp_utils.rs create_ones_like_tensor / create_zeros_like_tensor *)
Definition ones_like (a : el) : outcome el := match a with Bo _ => Ok (Bo true) | _ => Ok (Fl 1) end.
Definition zeros_like (a : el) : outcome el := match a with Bo _ => Ok (Bo false) | _ => Ok (Fl 0) end.

(** ** Unary operations *)
Inductive unary_op :=
  | Neg | Abs | Sign | Softsign | Square | Sqrt | Recip
  | Relu | Sigmoid | HardSigmoid | Gelu | Softplus | Silu | HardSilu | Mish | Selu | Celu
  | Sin | Cos | Tan | Asin | Acos | Atan
  | Sinh | Cosh | Tanh | Asinh | Acosh | Atanh
  | Exp | Exp2 | Exp10 | Ln | Log2 | Log10
  | Ceil | Floor | Round | Erf.

Section Rules.
(** erff of the C library; what is used of it is stated where it is used. *)
Variable erf : R -> R.

(** ops_unary.rs L86-127: kernel "hodu_cpu_{op}_{dtype}", for a float dtype *)
Definition kernel (o : unary_op) : R -> el :=
  match o with
  | Neg => k_neg | Abs => k_abs | Sign => k_sign | Softsign => k_softsign | Square => k_square
  | Sqrt => k_sqrt | Recip => k_recip | Relu => k_relu | Sigmoid => k_sigmoid
  | HardSigmoid => k_hardsigmoid | Gelu => k_gelu | Softplus => k_softplus | Silu => k_silu
  | HardSilu => k_hardsilu | Mish => k_mish | Selu => k_selu | Celu => k_celu
  | Sin => k_sin | Cos => k_cos | Tan => k_tan | Asin => k_asin | Acos => k_acos | Atan => k_atan
  | Sinh => k_sinh | Cosh => k_cosh | Tanh => k_tanh | Asinh => k_asinh | Acosh => k_acosh
  | Atanh => k_atanh | Exp => k_exp | Exp2 => k_exp2 | Exp10 => k_exp10
  | Ln => k_ln | Log2 => k_log2 | Log10 => k_log10
  | Ceil => k_ceil | Floor => k_floor | Round => k_round
  | Erf => fun x => Fl (erf x)
  end.
Definition u_forward (o : unary_op) (x : el) : outcome el := un (kernel o) x.

(** vjp_unary.rs L10-437.  [inp], [out] and [g] are the operand, the result and the
    incoming gradient. *)
Definition u_vjp (o : unary_op) (inp out g : el) : outcome el :=
  match o with
  | Neg => un k_neg g
  | Abs => do s <- un k_sign inp ; t_mul g s
  | Sign => zeros_like inp
  | Softsign =>
      do a <- un k_abs inp ; do o1 <- ones_like inp ; do p <- t_add o1 a ;
      do d <- t_mul p p ; do r <- un k_recip d ; t_mul g r
  | Square => do t <- t_add inp inp ; t_mul g t
  | Relu => do m <- gt_s inp 0 ; t_mul g (to_float m)
  | Sigmoid => do o1 <- ones_like out ; do m <- t_sub o1 out ; do d <- t_mul out m ; t_mul g d
  | HardSigmoid =>
      do a <- gt_s out 0 ; do b <- lt_s out 1 ; do i <- t_mul a b ;
      do d <- mul_s i (1 / 6) ; t_mul g d
  | Gelu =>
      do x2 <- t_mul inp inp ;
      do x3 <- t_mul x2 inp ; do cx3 <- mul_s x3 0.044715 ; do p <- t_add inp cx3 ;
      do z <- mul_s p 0.797885 ;
      do tz <- un k_tanh z ;
      do o1 <- ones_like inp ; do p1 <- t_add o1 tz ; do first <- mul_s p1 0.5 ;
      do tz2 <- t_mul tz tz ; do o2 <- ones_like inp ; do sech <- t_sub o2 tz2 ;
      do c3 <- mul_s x2 (3 * 0.044715) ; do o3 <- ones_like inp ; do p3 <- t_add o3 c3 ;
      do dz <- mul_s p3 0.797885 ;
      do xh <- mul_s inp 0.5 ; do st <- t_mul xh sech ; do second <- t_mul st dz ;
      do d <- t_add first second ; t_mul g d
  | Silu =>
      do s <- un k_sigmoid inp ; do o1 <- ones_like inp ; do m <- t_sub o1 s ;
      do xm <- t_mul inp m ; do p <- t_add o1 xm ; do d <- t_mul s p ; t_mul g d
  | HardSilu =>
      do h <- un k_hardsigmoid inp ; do a <- gt_s h 0 ; do b <- lt_s h 1 ; do i <- t_mul a b ;
      do xi <- t_mul inp i ; do xd <- mul_s xi (1 / 6) ; do d <- t_add h xd ; t_mul g d
  | Mish =>
      do e <- un k_exp inp ; do o1 <- ones_like inp ; do p <- t_add o1 e ; do sp <- un k_ln p ;
      do t <- un k_tanh sp ; do s <- un k_sigmoid inp ;
      do t2 <- t_mul t t ; do o2 <- ones_like inp ; do sech <- t_sub o2 t2 ;
      do ss <- t_mul sech s ; do xs <- t_mul inp ss ; do d <- t_add t xs ; t_mul g d
  | Selu =>
      do mp <- gt_s inp 0 ; do mn <- le_s inp 0 ;
      do pd <- mul_s (to_float mp) selu_scale ;
      do e <- un k_exp inp ; do ae <- mul_s e selu_alpha ; do sae <- mul_s ae selu_scale ;
      do nd <- t_mul (to_float mn) sae ; do d <- t_add pd nd ; t_mul g d
  | Celu =>
      do mp <- gt_s inp 0 ; do mn <- le_s inp 0 ;
      do e <- un k_exp inp ; do nd <- t_mul (to_float mn) e ;
      do d <- t_add (to_float mp) nd ; t_mul g d
  | Sin => do c <- un k_cos inp ; t_mul g c
  | Cos => do s <- un k_sin inp ; do n <- un k_neg s ; t_mul g n
  | Tan => do t2 <- t_mul out out ; do d <- add_s t2 1 ; t_mul g d
  | Asin =>
      do x2 <- t_mul inp inp ; do m <- sub_s x2 1 ; do n <- un k_neg m ;
      do s <- un k_sqrt n ; do d <- un k_recip s ; t_mul g d
  | Acos =>
      do x2 <- t_mul inp inp ; do m <- sub_s x2 1 ; do n <- un k_neg m ;
      do s <- un k_sqrt n ; do r <- un k_recip s ; do d <- un k_neg r ; t_mul g d
  | Atan => do x2 <- t_mul inp inp ; do p <- add_s x2 1 ; do d <- un k_recip p ; t_mul g d
  | Sinh => do c <- un k_cosh inp ; t_mul g c
  | Cosh => do s <- un k_sinh inp ; t_mul g s
  | Tanh => do t2 <- t_mul out out ; do o1 <- ones_like inp ; do d <- t_sub o1 t2 ; t_mul g d
  | Asinh =>
      do x2 <- t_mul inp inp ; do p <- add_s x2 1 ; do s <- un k_sqrt p ;
      do d <- un k_recip s ; t_mul g d
  | Acosh =>
      do x2 <- t_mul inp inp ; do p <- sub_s x2 1 ; do s <- un k_sqrt p ;
      do d <- un k_recip s ; t_mul g d
  | Atanh =>
      do x2 <- t_mul inp inp ; do p <- sub_s x2 1 ; do n <- un k_neg p ;
      do d <- un k_recip n ; t_mul g d
  | Ln => do d <- un k_recip inp ; t_mul g d
  | Log10 => do p <- mul_s inp (ln 10) ; do d <- un k_recip p ; t_mul g d
  | Log2 => do p <- mul_s inp (ln 2) ; do d <- un k_recip p ; t_mul g d
  | Exp => t_mul g out
  | Exp10 => do d <- mul_s out (ln 10) ; t_mul g d
  | Exp2 => do d <- mul_s out (ln 2) ; t_mul g d
  | Softplus => do s <- un k_sigmoid inp ; t_mul g s
  | Recip => do x2 <- t_mul inp inp ; do r <- un k_recip x2 ; do n <- un k_neg r ; t_mul g n
  | Sqrt => do r <- un k_recip out ; do d <- mul_s r 0.5 ; t_mul g d
  | Ceil | Floor | Round => zeros_like inp
  | Erf =>
      do x2 <- t_mul inp inp ; do n <- un k_neg x2 ; do e <- un k_exp n ;
      do d <- mul_s e (2 / sqrt PI) ; t_mul g d
  end.
End Rules.

(** ** Operations with a scalar *)
Inductive scalar_op :=
  | AddScalar | SubScalar | MulScalar | DivScalar | RemScalar | PowScalar
  | MaximumScalar | MinimumScalar | LeakyRelu | Elu | Prelu.

(** ops_unary.rs (hodu_cpu_kernels) dispatch_unary_scalar L270-300 and the list
    scalar_ops L318-322: a name that is not listed panics.  The scalar has the
    tensor's dtype (hodu_core be_cpu/storage/ops_unary.rs L267-300: otherwise an
    error). *)
Definition s_kernel (o : scalar_op) (c x : R) : outcome el :=
  match o with
  | AddScalar => Ok (Fl (x + c))
  | SubScalar => Ok (Fl (x - c))
  | MulScalar => Ok (Fl (x * c))
  | DivScalar => Ok (if Reqb c 0 then NaN else Fl (x / c))
  | PowScalar => Ok (pow_opt x c)
  | MaximumScalar => Ok (Fl (if Rgtb x c then x else c))
  | MinimumScalar => Ok (Fl (if Rgtb c x then x else c))
  | RemScalar | LeakyRelu | Elu | Prelu => Panic
  end.

(** f32::EPSILON *)
Definition epsilon : R := / 8388608.

(** vjp_unary.rs L441-620 *)
Definition s_vjp (o : scalar_op) (c : R) (inp out g : el) : outcome el :=
  match o with
  | AddScalar | SubScalar | RemScalar => Ok g
  | MulScalar => mul_s g c
  | DivScalar => if Rgtb epsilon (Rabs c) then Err EInternal else mul_s g (1 / c)
  | PowScalar => do p <- pow_s inp (c - 1) ; do d <- mul_s p c ; t_mul g d
  | MaximumScalar => do m <- ge_s inp c ; t_mul g (to_float m)
  | MinimumScalar => do m <- le_s inp c ; t_mul g (to_float m)
  | LeakyRelu =>
      do mp <- gt_s inp 0 ; do mn <- le_s inp 0 ; do a <- mul_s (to_float mn) c ;
      do t <- t_add (to_float mp) a ; t_mul g t
  | Elu =>
      do mp <- gt_s inp 0 ; do mn <- le_s inp 0 ; do e <- un k_exp inp ; do ae <- mul_s e c ;
      do n <- t_mul (to_float mn) ae ; do t <- t_add (to_float mp) n ; t_mul g t
  | Prelu =>
      do mp <- gt_s inp 0 ; do mn <- le_s inp 0 ; do o1 <- ones_like inp ; do a <- mul_s o1 c ;
      do n <- t_mul (to_float mn) a ; do t <- t_add (to_float mp) n ; t_mul g t
  end.

(** ** Binary operations *)
Inductive binary_op := Add | Sub | Mul | Div | Rem | Pow | Maximum | Minimum.

Definition b_kernel (o : binary_op) (x y : R) : el :=
  match o with
  | Add => Fl (x + y)
  | Sub => Fl (x - y)
  | Mul => Fl (x * y)
  | Div => if Reqb y 0 then NaN else Fl (x / y)
  | Rem => if Reqb y 0 then NaN else Fl (Rfmod x y)
  | Pow => pow_opt x y
  | Maximum => Fl (if Rgtb x y then x else y)
  | Minimum => Fl (if Rgtb y x then x else y)
  end.

(** vjp_binary.rs L9-118 *)
Definition b_vjp (o : binary_op) (a b out g : el) : outcome (el * el) :=
  match o with
  | Add => Ok (g, g)
  | Sub => do n <- un k_neg g ; Ok (g, n)
  | Mul => do ga <- t_mul g b ; do gb <- t_mul g a ; Ok (ga, gb)
  | Div =>
      do ga <- t_div g b ; do b2 <- t_mul b b ; do ma <- t_mul g a ; do q <- t_div ma b2 ;
      do gb <- un k_neg q ; Ok (ga, gb)
  | Rem =>
      do q <- t_div a b ; do f <- un k_floor q ; do m <- t_mul g f ; do gb <- un k_neg m ; Ok (g, gb)
  | Pow =>
      do y1 <- sub_s b 1 ; do p <- t_pow a y1 ; do yp <- t_mul b p ; do ga <- t_mul g yp ;
      do l <- un k_ln a ; do ol <- t_mul out l ; do gb <- t_mul g ol ; Ok (ga, gb)
  | Maximum =>
      do ma <- cmp_t Rgeb a b ; do mb <- cmp_t Rgtb b a ;
      do ga <- t_mul g (to_float ma) ; do gb <- t_mul g (to_float mb) ; Ok (ga, gb)
  | Minimum =>
      do ma <- cmp_t (fun x y => Rgeb y x) a b ; do mb <- cmp_t (fun x y => Rgtb y x) b a ;
      do ga <- t_mul g (to_float ma) ; do gb <- t_mul g (to_float mb) ; Ok (ga, gb)
  end.
