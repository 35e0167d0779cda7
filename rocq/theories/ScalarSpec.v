(** What a conversion of a scalar to an integer type has to give, independently of the code. *)
From Coq Require Import ZArith SpecFloat.
From Verif Require Import ScalarModel.
Open Scope Z_scope.

Definition fits (t : ity) (n : Z) : Prop := lowest t <= n <= highest t.
(** the number of the type that is closest to [n]: [n] itself if it fits *)
Definition closest (t : ity) (n r : Z) : Prop := fits t r /\ forall r', fits t r' -> Z.abs (r - n) <= Z.abs (r' - n).
(** the value of a finite float in units of 2^-1074 (every binary32 and binary64 is a multiple) *)
Definition units (x : spec_float) : option Z :=
  match x with
  | S754_zero _ => Some 0
  | S754_finite s m e => Some ((if s then -1 else 1) * (Z.pos m * 2 ^ (e + 1074)))
  | _ => None
  end.
(** [n] is [v] with the fraction dropped *)
Definition drops (v n : Z) : Prop :=
  0 <= n * v /\ Z.abs n * 2 ^ 1074 <= Z.abs v < (Z.abs n + 1) * 2 ^ 1074.
Definition float_becomes (t : ity) (x : spec_float) (r : Z) : Prop :=
  match x with
  | S754_nan => r = 0
  | S754_infinity s => r = if s then lowest t else highest t
  | _ => exists v n, units x = Some v /\ drops v n /\ closest t n r
  end.
(** The scalars that exist: an integer within its type, a float of its format. *)
Definition valid_scalar (s : scalar) : Prop :=
  match s with
  | Bool _ => True
  | Int t n => fits t n
  | Flt f x => valid_binary (prec f) (emax f) x = true
  end.
Definition becomes (t : ity) (s : scalar) (r : Z) : Prop :=
  match s with
  | Bool b => r = if b then 1 else 0
  | Int _ n => closest t n r
  | Flt _ x => float_becomes t x r
  end.
(** The result of an operation on integers, without a width; division and remainder are towards zero. *)
Definition exact_result (o : op) (a b : Z) : option Z :=
  match o with
  | Add => Some (a + b) | Sub => Some (a - b) | Mul => Some (a * b)
  | Div => if b =? 0 then None else Some (Z.quot a b)
  | Rem => if b =? 0 then None else Some (Z.rem a b)
  end.
