(** Floating-point numbers with exact arithmetic: a real number, an infinity or
    NaN, combined as IEEE 754 prescribes.

    Simplifications: no rounding, no overflow to infinity, no underflow; there is
    one zero, which divides like +0.  The C library functions (expf, logf, ...)
    are the mathematical functions, with their IEEE special cases. *)
From Coq Require Import Reals.
Open Scope R_scope.

Inductive xr := Fin (r : R) | PInf | NInf | Nan.

Definition Rltb (x y : R) : bool := if Rlt_dec x y then true else false.

Definition xneg (a : xr) : xr :=
  match a with Fin x => Fin (- x) | PInf => NInf | NInf => PInf | Nan => Nan end.
Definition xadd (a b : xr) : xr :=
  match a, b with
  | Nan, _ | _, Nan => Nan
  | PInf, NInf | NInf, PInf => Nan
  | PInf, _ | _, PInf => PInf
  | NInf, _ | _, NInf => NInf
  | Fin x, Fin y => Fin (x + y)
  end.
Definition xsub (a b : xr) : xr := xadd a (xneg b).
(** an infinity times [x] *)
Definition xscale (x : R) : xr :=
  if Rltb 0 x then PInf else if Rltb x 0 then NInf else Nan.
Definition xmul (a b : xr) : xr :=
  match a, b with
  | Nan, _ | _, Nan => Nan
  | Fin x, Fin y => Fin (x * y)
  | PInf, Fin x | Fin x, PInf => xscale x
  | NInf, Fin x | Fin x, NInf => xneg (xscale x)
  | PInf, PInf | NInf, NInf => PInf
  | PInf, NInf | NInf, PInf => NInf
  end.
Definition xdiv (a b : xr) : xr :=
  match a, b with
  | Nan, _ | _, Nan => Nan
  | Fin x, Fin y => if Req_EM_T y 0 then xscale x else Fin (x / y)
  | Fin _, _ => Fin 0
  | PInf, Fin y => if Rltb y 0 then NInf else PInf
  | NInf, Fin y => if Rltb y 0 then PInf else NInf
  | _, _ => Nan
  end.
Definition xabs (a : xr) : xr :=
  match a with Fin x => Fin (Rabs x) | PInf | NInf => PInf | Nan => Nan end.
Definition xexp (a : xr) : xr :=
  match a with Fin x => Fin (exp x) | PInf => PInf | NInf => Fin 0 | Nan => Nan end.
Definition xln (a : xr) : xr :=
  match a with
  | Fin x => if Rltb 0 x then Fin (ln x) else if Rltb x 0 then Nan else NInf
  | PInf => PInf
  | NInf | Nan => Nan
  end.
Definition xsqrt (a : xr) : xr :=
  match a with
  | Fin x => if Rltb x 0 then Nan else Fin (sqrt x)
  | PInf => PInf
  | NInf | Nan => Nan
  end.
(** [x * x]; also [powf_opt(x, 2)], math_utils.h L61-93, which squares *)
Definition xsq (a : xr) : xr := xmul a a.

(** [a < b]; false when either is NaN *)
Definition xltb (a b : xr) : bool :=
  match a, b with
  | Nan, _ | _, Nan => false
  | Fin x, Fin y => Rltb x y
  | NInf, NInf => false
  | NInf, _ => true
  | _, NInf => false
  | PInf, _ => false
  | _, PInf => true
  end.
Definition xeqb (a b : xr) : bool :=
  match a, b with
  | Fin x, Fin y => if Req_EM_T x y then true else false
  | PInf, PInf | NInf, NInf => true
  | _, _ => false
  end.
(** [a <= b] *)
Definition xleb (a b : xr) : bool := (xltb a b || xeqb a b)%bool.
(** utils.h L41 [MAXIMUM], ops_reduce.c L11 [MAX]: [(a) > (b) ? (a) : (b)] *)
Definition xmax (a b : xr) : xr := if xltb b a then a else b.
Definition xmin (a b : xr) : xr := if xltb a b then a else b.
(** BOOL values are stored as 0 and 1 *)
Definition xbool (b : bool) : xr := Fin (if b then 1 else 0).
