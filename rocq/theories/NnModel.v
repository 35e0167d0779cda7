(** Tensors with their dtype, softmax and the losses: tensor/ops/normalization.rs,
    crates/hodu_nn/src/losses/*.rs, utils/valid.rs L50-388 (the dtype checks).

    Simplifications: elements are exact ([NumModel]): no rounding, so the reduced
    floating-point types behave as reals, and the results for integer tensors mean
    nothing (every function below ends in an error for those, as proved); the
    operations are eager, on one device, without gradient. *)
From Coq Require Import List Arith ZArith Bool Reals.
From Verif Require Import Base IndexSpec LayoutModel KernelModel TensorModel EncodeModel.
From Verif Require Import ReduceModel SelectModel IndexModel NumModel.
Import ListNotations.
Open Scope nat_scope.

(** types/dtype.rs L100-130 *)
Definition is_float (d : dtype) : bool :=
  match d with F8E4M3 | F8E5M2 | BF16 | F16 | F32 | F64 => true | _ => false end.
Definition is_uint (d : dtype) : bool :=
  match d with U8 | U16 | U32 | U64 => true | _ => false end.
Definition is_bool (d : dtype) : bool := match d with BOOL => true | _ => false end.
Definition same_dtype (a b : dtype) : bool := tag a =? tag b.

(** valid.rs L91-388 [validate_dtype_for_op]: the dtypes an operation accepts *)
Inductive accepts := AllTypes | NoBool | Signed | Floats.
Definition allowed (c : accepts) (d : dtype) : bool :=
  match c with
  | AllTypes => true
  | NoBool => negb (is_bool d)
  | Signed => negb (is_bool d) && negb (is_uint d)
  | Floats => is_float d
  end.

Record xtensor := mkX { xdtype : dtype; xdata : tensor xr }.
Definition xshape (t : xtensor) : shape := lshape (tlay (xdata t)).
Definition xscalar : Type := dtype * xr.
Definition fin (r : R) : xr := Fin r.
Definition nat_x (n : nat) : xr := Fin (INR n).

Section Nn.
Variable e : env.

(** tensor/ops/binary.rs L13-82: [validate_same_dtype], then [validate_dtype_for_op] *)
Definition x_binary (c : accepts) (f : xr -> xr -> xr) (a b : xtensor) : outcome xtensor :=
  if negb (same_dtype (xdtype a) (xdtype b)) then Err EDType
  else if negb (allowed c (xdtype a)) then Err EDType
  else do t <- t_binary e (Fin 0) (Fin 0) (Fin 0) f (xdata a) (xdata b) ; Ok (mkX (xdtype a) t).
Definition x_add := x_binary NoBool xadd.
Definition x_sub := x_binary NoBool xsub.
Definition x_mul := x_binary NoBool xmul.
Definition x_div := x_binary Floats xdiv.
Definition x_maximum := x_binary NoBool xmax.

(** tensor/ops/unary.rs L14-70 *)
Definition x_unary (c : accepts) (f : xr -> xr) (a : xtensor) : outcome xtensor :=
  if negb (allowed c (xdtype a)) then Err EDType
  else do t <- t_unary e (Fin 0) f (xdata a) ; Ok (mkX (xdtype a) t).
Definition x_neg := x_unary Signed xneg.
Definition x_abs := x_unary Signed xabs.
Definition x_square := x_unary NoBool xsq.
Definition x_sqrt := x_unary Floats xsqrt.
Definition x_exp := x_unary Floats xexp.
Definition x_ln := x_unary Floats xln.

(** tensor/ops/unary.rs L72-130 and be_cpu/storage/ops_unary.rs L11-100: the scalar
    must have the dtype of the tensor *)
Definition x_scalar (c : accepts) (f : xr -> xr -> xr) (a : xtensor) (s : xscalar) : outcome xtensor :=
  if negb (allowed c (xdtype a)) then Err EDType
  else if negb (same_dtype (fst s) (xdtype a)) then Err EDType
  else do t <- t_unary e (Fin 0) (fun v => f v (snd s)) (xdata a) ; Ok (mkX (xdtype a) t).
Definition x_add_scalar := x_scalar NoBool xadd.
Definition x_sub_scalar := x_scalar NoBool xsub.
Definition x_mul_scalar := x_scalar NoBool xmul.
Definition x_div_scalar := x_scalar Floats xdiv.
Definition x_max_scalar := x_scalar NoBool xmax.
(** the power is only ever 2 here: math_utils.h L61-93 multiplies *)
Definition x_pow2_scalar := x_scalar Floats (fun v _ => xsq v).

(** tensor/ops/cmp.rs L90-160 and ops_unary.rs L223-300: a BOOL tensor *)
Definition x_cmp_scalar (c : accepts) (f : xr -> xr -> bool) (a : xtensor) (s : xscalar) : outcome xtensor :=
  if negb (allowed c (xdtype a)) then Err EDType
  else if negb (same_dtype (fst s) (xdtype a)) then Err EDType
  else do t <- t_unary e (Fin 0) (fun v => xbool (f v (snd s))) (xdata a) ; Ok (mkX BOOL t).
Definition x_le_scalar := x_cmp_scalar NoBool xleb.
Definition x_lt_scalar := x_cmp_scalar NoBool xltb.
Definition x_eq_scalar := x_cmp_scalar AllTypes xeqb.
(** tensor/ops/unary.rs [logical_not]: a BOOL tensor *)
Definition x_not (a : xtensor) : outcome xtensor :=
  do t <- t_unary e (Fin 0) (fun v => xbool (xeqb v (Fin 0))) (xdata a) ; Ok (mkX BOOL t).

(** tensor/ops/reduce.rs L137-235 *)
Definition x_reduce (c : accepts) (init : xr) (f : xr -> xr -> xr) (fin : nat -> xr -> xr)
    (a : xtensor) (dims : list Z) (keep : bool) : outcome xtensor :=
  if negb (allowed c (xdtype a)) then Err EDType
  else do t <- t_reduce init (plain f) fin (Fin 0) (xdata a) dims keep ; Ok (mkX (xdtype a) t).
Definition x_sum := x_reduce NoBool (Fin 0) xadd (fun _ b => b).
(** starts at -INFINITY (ops_reduce.c L355-460) *)
Definition x_max := x_reduce NoBool NInf xmax (fun _ b => b).
Definition x_mean := x_reduce Floats (Fin 0) xadd (fun n b => xdiv b (nat_x n)).
(** reduce.rs L15, L56 *)
Definition x_sum_all (a : xtensor) := x_sum a [] false.
Definition x_mean_all (a : xtensor) := x_mean a [] false.

(** creation.rs L140-165: [zeros_like], [ones_like] *)
Definition x_full_like (v : R) (a : xtensor) : xtensor :=
  mkX (xdtype a) (t_full (xshape a) (Fin v)).

(** normalization.rs L8-12: the axis; [(ndim + dim) as u32], as a [Scalar], becomes
    i32::MAX when negative *)
Definition soft_axis (ndim : nat) (dim : Z) : Z :=
  if (dim <? 0)%Z
  then (if (Z.of_nat ndim + dim <? 0)%Z then 2147483647%Z else (Z.of_nat ndim + dim)%Z)
  else dim.

(** normalization.rs L4-21 *)
Definition x_softmax (x : xtensor) (dim : Z) : outcome xtensor :=
  let d := soft_axis (length (xshape x)) dim in
  do max_val <- x_max x [d] true ;
  do shifted <- x_sub x max_val ;
  do exp_vals <- x_exp shifted ;
  do sum_exp <- x_sum exp_vals [d] true ;
  x_div exp_vals sum_exp.
(** normalization.rs L23-41 *)
Definition x_log_softmax (x : xtensor) (dim : Z) : outcome xtensor :=
  let d := soft_axis (length (xshape x)) dim in
  do max_val <- x_max x [d] true ;
  do shifted <- x_sub x max_val ;
  do exp_vals <- x_exp shifted ;
  do sum_exp <- x_sum exp_vals [d] true ;
  do log_sum_exp <- x_ln sum_exp ;
  x_sub shifted log_sum_exp.

(** mse.rs L13-22; [num_elements] is converted to the dtype of the tensor *)
Definition mse_loss (pred target : xtensor) : outcome xtensor :=
  do diff <- x_sub pred target ;
  do squared <- x_pow2_scalar diff (xdtype diff, Fin 2) ;
  do s <- x_sum_all squared ;
  x_div_scalar s (xdtype squared, nat_x (shape_size (xshape squared))).

(** [shape[0]]: panics for rank 0 *)
Definition dim0 (t : xtensor) : outcome nat := idx_or_panic (xshape t) 0.

(** mae.rs L13-22; [Scalar::new] of a usize is a U32 (scalar.rs) *)
Definition mae_loss (pred target : xtensor) : outcome xtensor :=
  do diff <- x_sub pred target ;
  do abs_diff <- x_abs diff ;
  do n <- dim0 pred ;
  do s <- x_sum_all abs_diff ;
  x_div_scalar s (U32, nat_x n).

(** huber.rs L15-37 *)
Definition huber_loss (delta : xscalar) (pred target : xtensor) : outcome xtensor :=
  do diff <- x_sub pred target ;
  do abs_diff <- x_abs diff ;
  do sq <- x_pow2_scalar diff (xdtype diff, Fin 2) ;
  do quadratic <- x_div_scalar sq (xdtype diff, Fin 2) ;
  do l1 <- x_mul_scalar abs_diff delta ;
  do linear <- x_sub_scalar l1 (fst delta, xdiv (xsq (snd delta)) (Fin 2)) ;
  do mask <- x_le_scalar abs_diff delta ;
  do p <- x_mul mask quadratic ;
  do inv <- x_not mask ;
  do q <- x_mul inv linear ;
  do loss <- x_add p q ;
  do n <- dim0 pred ;
  do s <- x_sum_all loss ;
  x_div_scalar s (xdtype diff, nat_x n).

(** smooth_l1.rs L36-55; [beta] is converted to the dtype of [pred] *)
Definition smooth_l1_loss (beta : xr) (pred target : xtensor) : outcome xtensor :=
  let d := xdtype pred in
  do diff <- x_sub pred target ;
  do abs_diff <- x_abs diff ;
  do sq <- x_square diff ;
  do h <- x_mul_scalar sq (d, Fin (/ 2)) ;
  do quadratic <- x_div_scalar h (d, beta) ;
  do linear <- x_sub_scalar abs_diff (d, xmul beta (Fin (/ 2))) ;
  do mask <- x_lt_scalar abs_diff (d, beta) ;
  do p <- x_mul mask quadratic ;
  do inv <- x_not mask ;
  do q <- x_mul inv linear ;
  do loss <- x_add p q ;
  x_mean_all loss.

(** cosine_embedding.rs L36-74; [eps] is 1e-8 in the dtype of [x1] *)
Definition cosine_loss (margin eps : xr) (x1 x2 y : xtensor) : outcome xtensor :=
  let d := xdtype x1 in
  do m <- x_mul x1 x2 ;
  do dot_product <- x_sum m [(-1)%Z] false ;
  do s1 <- x_square x1 ;
  do n1 <- x_sum s1 [(-1)%Z] false ;
  do norm1 <- x_sqrt n1 ;
  do s2 <- x_square x2 ;
  do n2 <- x_sum s2 [(-1)%Z] false ;
  do norm2 <- x_sqrt n2 ;
  do np <- x_mul norm1 norm2 ;
  do norm_product <- x_add_scalar np (d, eps) ;
  do cos_sim <- x_div dot_product norm_product ;
  do c1 <- x_mul_scalar cos_sim (d, Fin (-1)) ;
  do loss_positive <- x_add_scalar c1 (d, Fin 1) ;
  do c2 <- x_sub_scalar cos_sim (d, margin) ;
  do loss_negative <- x_max_scalar c2 (d, Fin 0) ;
  do mask <- x_eq_scalar y (d, Fin 1) ;
  do p <- x_mul mask loss_positive ;
  do inv <- x_not mask ;
  do q <- x_mul inv loss_negative ;
  do loss <- x_add p q ;
  x_mean_all loss.

(** kl_div.rs L33-53; the divisor is an f32 *)
Definition kl_div_loss (log_target : bool) (input target : xtensor) : outcome xtensor :=
  do loss <- (if log_target
    then do target_prob <- x_exp target ;
         do d <- x_sub target input ;
         x_mul target_prob d
    else do l <- x_ln target ;
         do target_log_target <- x_mul target l ;
         do target_input <- x_mul target input ;
         x_sub target_log_target target_input) ;
  do s <- x_sum_all loss ;
  do n <- dim0 input ;
  x_div_scalar s (F32, nat_x n).

(** selection.rs L27-36 [clamp]; the comparison refuses a bound of another dtype *)
Definition xarith : arith xr := mkArith (Fin 0) (Fin 1) xadd xsub xmul.
Definition x_clamp (a : xtensor) (lo hi : xscalar) : outcome xtensor :=
  if is_bool (xdtype a) then Err EDType
  else if negb (same_dtype (fst lo) (xdtype a)) || negb (same_dtype (fst hi) (xdtype a))
  then Err EDType
  else do t <- t_clamp e xarith xltb (xdata a) (snd lo) (snd hi) ; Ok (mkX (xdtype a) t).

(** binary_cross_entropy.rs L30-55 *)
Definition bce_loss (epsilon : xscalar) (pred target : xtensor) : outcome xtensor :=
  do pc <- x_clamp pred epsilon (fst epsilon, xsub (Fin 1) (snd epsilon)) ;
  do log_pred <- x_ln pc ;
  do first_term <- x_mul target log_pred ;
  do one_minus_target <- x_sub (x_full_like 1 target) target ;
  do one_minus_pred <- x_sub (x_full_like 1 pc) pc ;
  do log_one_minus_pred <- x_ln one_minus_pred ;
  do second_term <- x_mul one_minus_target log_one_minus_pred ;
  do s <- x_add first_term second_term ;
  do bce <- x_neg s ;
  x_mean_all bce.

(** binary_cross_entropy.rs L67-83 *)
Definition bce_logits_loss (logits target : xtensor) : outcome xtensor :=
  do max_val <- x_maximum logits (x_full_like 0 logits) ;
  do a <- x_abs logits ;
  do neg_abs <- x_neg a ;
  do ex <- x_exp neg_abs ;
  do ex1 <- x_add_scalar ex (xdtype neg_abs, Fin 1) ;
  do log_term <- x_ln ex1 ;
  do target_term <- x_mul logits target ;
  do d <- x_sub max_val target_term ;
  do loss <- x_add d log_term ;
  x_mean_all loss.

(** nll.rs L27-45: [log_probs.gather(dim, target.unsqueeze(-1)).squeeze(-1)], negated,
    averaged; class numbers are integers *)
Definition nll_loss (dim : Z) (log_probs : xtensor) (target : tensor Z) : outcome xtensor :=
  let rank := Z.of_nat (length (xshape log_probs)) in
  let gather_dim := if (dim <? 0)%Z then (rank + dim)%Z else dim in
  do tu <- t_view 0%Z (VUnsqueeze (-1)) target ;
  do g <- t_gather (Fin 0) (Fin 0) (xdata log_probs) gather_dim tu ;
  do sq <- t_view (Fin 0) (VSqueeze [(-1)%Z]) g ;
  do nll <- x_neg (mkX (xdtype log_probs) sq) ;
  x_mean_all nll.
(** cross_entropy.rs L27-48 *)
Definition cross_entropy_loss (dim : Z) (logits : xtensor) (target : tensor Z) : outcome xtensor :=
  do log_probs <- x_log_softmax logits dim ;
  nll_loss dim log_probs target.
End Nn.
