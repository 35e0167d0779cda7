(** Reductions other than sum, mean, max and arg: kernels/ops_reduce.c L803-2183 and tensor/ops/reduce.rs L55-118.

    Simplifications: the index loops are those of [reduce_kernel]; as there, the vectorised loops of f32 and f64
    are left out; no fused multiply-add; on [xr] the arithmetic is exact (see NumModel). *)
From Coq Require Import List Arith ZArith Bool Reals.
From Verif Require Import Base LayoutModel KernelModel TensorModel ReduceModel EncodeModel NumModel NnModel RuleModel.
Import ListNotations.
Open Scope nat_scope.

Section Generic.
Variable A : Type.
Variables (zero one : A) (add sub mul div : A -> A -> A) (sqrt_ : A -> A) (of_nat : nat -> A).

(** ops_reduce.c L803-816 *)
Definition t_prod_of (t : tensor A) (dims : list Z) (keep : bool) : outcome (tensor A) :=
  t_reduce one (plain mul) (fun _ b => b) zero t dims keep.
(** ops_reduce.c L857-858, L905-906: both sums in one loop *)
Definition moments (p : A * A) (v : A) : A * A := (add (fst p) v, add (snd p) (mul v v)).
(** ops_reduce.c L1111-1112 (L1325-1326 in the f32 version) *)
Definition variance (n : nat) (p : A * A) : A :=
  let mean := div (fst p) (of_nat n) in sub (div (snd p) (of_nat n)) (mul mean mean).
(** ops_reduce.c L1033-1114 *)
Definition t_var (t : tensor A) (dims : list Z) (keep : bool) : outcome (tensor A) :=
  t_reduce (zero, zero) (plain moments) variance zero t dims keep.
(** ops_reduce.c L831-913 *)
Definition t_std (t : tensor A) (dims : list Z) (keep : bool) : outcome (tensor A) :=
  t_reduce (zero, zero) (plain moments) (fun n p => sqrt_ (variance n p)) zero t dims keep.
(** ops_reduce.c L1518-1597 *)
Definition t_norm2 (t : tensor A) (dims : list Z) (keep : bool) : outcome (tensor A) :=
  t_reduce zero (plain (fun b v => add b (mul v v))) (fun _ b => sqrt_ b) zero t dims keep.
End Generic.
Arguments t_var {A}. Arguments t_std {A}. Arguments t_norm2 {A}. Arguments t_prod_of {A}. Arguments moments {A}. Arguments variance {A}.

(** ops_reduce.c L2129-2170: the largest value (from [lo], L2182-2183, the lowest number), then the sum.  Both
    loops visit the same elements in the same order; they are collected in a list first. *)
Definition lse (lo : R) (vs : list xr) : xr :=
  let m := fold_left (fun acc v => if xltb acc v then v else acc) vs (Fin lo) in
  let s := fold_left (fun acc v => xadd acc (xexp (xsub v m))) vs (Fin 0) in
  xadd m (xln s).

Section Real.
Variables (e : env) (lo : R).
(** reduce.rs L137-235 with valid.rs L276-301 *)
Definition x_red (c : accepts) (f : tensor xr -> outcome (tensor xr)) (a : xtensor) : outcome xtensor :=
  if negb (allowed c (xdtype a)) then Err EDType
  else do t <- f (xdata a) ; Ok (mkX (xdtype a) t).
Definition x_prod (a : xtensor) (dims : list Z) (keep : bool) : outcome xtensor :=
  x_red NoBool (fun t => t_prod_of (Fin 0) (Fin 1) xmul t dims keep) a.
Definition x_var (a : xtensor) (dims : list Z) (keep : bool) : outcome xtensor :=
  x_red Floats (fun t => t_var (Fin 0) xadd xsub xmul xdiv nat_x t dims keep) a.
Definition x_std (a : xtensor) (dims : list Z) (keep : bool) : outcome xtensor :=
  x_red Floats (fun t => t_std (Fin 0) xadd xsub xmul xdiv xsqrt nat_x t dims keep) a.
Definition x_norm2 (a : xtensor) (dims : list Z) (keep : bool) : outcome xtensor :=
  x_red Floats (fun t => t_norm2 (Fin 0) xadd xmul xsqrt t dims keep) a.
(** ops_reduce.c L793-800 and L585-790: from +infinity *)
Definition x_min := x_reduce NoBool PInf xmin (fun _ b => b).
(** ops_reduce.c L1938-1953 *)
Definition x_logsum := x_reduce Floats (Fin 0) xadd (fun _ b => xln b).
Definition x_logsumexp (a : xtensor) (dims : list Z) (keep : bool) : outcome xtensor :=
  x_red Floats (fun t => t_reduce [] (plain (fun b v => b ++ [v])) (fun _ b => lse lo b) (Fin 0) t dims keep) a.
(** reduce.rs L106-108 *)
Definition x_l1_norm (a : xtensor) (dims : list Z) (keep : bool) : outcome xtensor :=
  do b <- x_abs e a ; x_sum b dims keep.
(** math_utils.h L61-93 on finite values *)
Definition xpow (a b : xr) : xr :=
  match a, b with
  | Fin x, Fin y => match pow_opt x y with Fl r => Fin r | _ => Nan end
  | _, _ => Nan
  end.
(** reduce.rs L87-100, for a float tensor and a float [p]; scalar.rs L936-943 [to_i32] drops the fraction *)
Definition x_norm (p : R) (a : xtensor) (dims : list Z) (keep : bool) : outcome xtensor :=
  if Reqb (Rtrunc p) 1 then x_l1_norm a dims keep
  else if Reqb (Rtrunc p) 2 then x_norm2 a dims keep
  else
    do b <- x_abs e a ;
    do c <- x_scalar e Floats xpow b (xdtype a, Fin p) ;
    do d <- x_sum c dims keep ;
    x_scalar e Floats xpow d (xdtype a, xdiv (Fin 1) (Fin p)).
End Real.
