(** One element of the integer operations of the CPU kernels (crates/hodu_cpu_kernels/kernels): ops_binary.c,
    ops_unary.c, ops_bitwise.c.  The loops around them are [binary_kernel] and [unary_kernel] of KernelModel.
    [None] is undefined behaviour of C; int has 32 bits. *)
From Coq Require Import ZArith Bool SpecFloat.
From Verif Require Import ScalarModel.
Open Scope Z_scope.

(** C11 6.3.1.1: operands narrower than int are computed with as int *)
Definition promoted (t : ity) : ity := match t with U8 | U16 | I8 | I16 => I32 | _ => t end.
Definition is_signed (t : ity) : bool := lowest t <? 0.
Definition in_range (t : ity) (r : Z) : bool := (lowest t <=? r) && (r <=? highest t).
(** the result [r] of an operator, assigned to a [t]: signed overflow is undefined (6.5p5), unsigned arithmetic and the
    assignment cut *)
Definition c_result (t : ity) (r : Z) : option Z :=
  if is_signed (promoted t) && negb (in_range (promoted t) r) then None else Some (cut t r).

(** ops_binary.c L647-805: add, sub, mul, div, rem *)
Definition c_add (t : ity) (x y : Z) : option Z := c_result t (x + y).
Definition c_sub (t : ity) (x y : Z) : option Z :=
  if is_signed t then c_result t (x - y) else if y <? x then c_result t (x - y) else Some 0.
Definition c_mul (t : ity) (x y : Z) : option Z := c_result t (x * y).
Definition c_div (t : ity) (x y : Z) : option Z := if negb (y =? 0) then c_result t (Z.quot x y) else Some 0.
(** [x % y] is undefined when [x / y] is (6.5.5p6) *)
Definition c_rem (t : ity) (x y : Z) : option Z :=
  if negb (y =? 0) then match c_result t (Z.quot x y) with Some _ => c_result t (Z.rem x y) | None => None end else Some 0.
(** utils.h L41-42 MAXIMUM, MINIMUM *)
Definition c_maximum (x y : Z) : Z := if y <? x then x else y.
Definition c_minimum (x y : Z) : Z := if x <? y then x else y.

(** math_utils.h L38-61 ipow_i64, ipow_u64: the loop squares the base once more after the last bit of the exponent *)
Fixpoint ipow_loop (w : ity) (e : positive) (base result : Z) : option Z :=
  match e with
  | xH => match c_result w (result * base), c_result w (base * base) with Some r, Some _ => Some r | _, _ => None end
  | xO e' => match c_result w (base * base) with Some b => ipow_loop w e' b result | None => None end
  | xI e' => match c_result w (result * base), c_result w (base * base) with
             | Some r, Some b => ipow_loop w e' b r | _, _ => None end
  end.
Definition ipow (w : ity) (base e : Z) : option Z :=
  match e with Zneg _ => Some 0 | Z0 => Some 1 | Zpos p => ipow_loop w p base 1 end.
(** L652, L673, L694, L715; L740, L761, L782, L803 *)
Definition c_pow (t : ity) (x y : Z) : option Z :=
  option_map (cut t) (ipow (if is_signed t then I64 else U64) x y).

(** ops_unary.c L1553-1736: neg, abs, sign, square, sqrt, recip *)
Definition c_neg (t : ity) (x : Z) : option Z := c_result t (- x).
Definition c_abs (t : ity) (x : Z) : option Z := if is_signed t then if x <? 0 then c_result t (- x) else Some x else Some x.
Definition c_sign (x : Z) : Z := if 0 <? x then 1 else if x <? 0 then -1 else 0.
Definition c_square (t : ity) (x : Z) : option Z := c_result t (x * x).
(** sqrtf for 8 to 32 bits, sqrt for 64; the root of the magnitude; [-x] overflows for the least int or long *)
Definition wide (t : ity) : fty := match t with U64 | I64 => F64 | _ => F32 end.
Definition c_sqrt (t : ity) (x : Z) : option Z :=
  if is_signed t && (x <? 0) && negb (in_range (promoted t) (- x)) then None
  else c_cast t (Flt (wide t) (SFsqrt (prec (wide t)) (emax (wide t)) (of_z (wide t) (Z.abs x)))).
Definition c_recip (t : ity) (x : Z) : option Z :=
  if negb (x =? 0) then c_cast t (Flt (wide t) (SFdiv (prec (wide t)) (emax (wide t)) (of_z (wide t) 1) (of_z (wide t) x))) else Some 0.

(** math_utils.h L64-93 powf_opt and L95-123 pow_opt with an exponent that is an integer: [None] is what calls powf
    or is NaN.  pow_scalar (ops_unary.c L1565 etc.) converts both operands to float. *)
Fixpoint fpow_loop (f : fty) (e : positive) (base result : spec_float) : spec_float :=
  let mul := SFmul (prec f) (emax f) in
  match e with
  | xH => mul result base
  | xO e' => fpow_loop f e' (mul base base) result
  | xI e' => fpow_loop f e' (mul base base) (mul result base)
  end.
Definition fpow (f : fty) (base : spec_float) (e : Z) : option spec_float :=
  if e =? 0 then Some (of_z f 1)
  else if SFeqb base (S754_zero false) then Some (if 0 <? e then S754_zero false else S754_infinity false)
  else if SFeqb base (of_z f 1) then Some (of_z f 1)
  else if e =? 1 then Some base
  else match e with
       | Zpos p => if e <? 32 then Some (fpow_loop f p base (of_z f 1)) else None
       | Zneg p => if -32 <? e then Some (SFdiv (prec f) (emax f) (of_z f 1) (if Pos.eqb p 1 then base else fpow_loop f p base (of_z f 1))) else None
       | Z0 => None
       end.
Definition c_pow_scalar (t : ity) (x y : Z) : option Z :=
  match fpow (wide t) (of_z (wide t) x) y with Some r => c_cast t (Flt (wide t) r) | None => None end.

(** ops_bitwise.c L270-371.  Shifts, C11 6.5.7: the amount must be less than the width of the promoted left operand;
    a left shift of a signed operand is undefined unless it is not negative and the result fits; a right shift of a
    negative number is arithmetic (as every compiler does). *)
Definition c_and (t : ity) (x y : Z) : Z := cut t (Z.land x y).
Definition c_or (t : ity) (x y : Z) : Z := cut t (Z.lor x y).
Definition c_xor (t : ity) (x y : Z) : Z := cut t (Z.lxor x y).
Definition c_not (t : ity) (x : Z) : Z := cut t (Z.lnot x).
Definition width (t : ity) : Z := match t with U8 | I8 => 8 | U16 | I16 => 16 | U32 | I32 => 32 | U64 | I64 => 64 end.
Definition c_shl (t : ity) (x y : Z) : option Z :=
  if (y <? 0) || (width (promoted t) <=? y) then None
  else if is_signed (promoted t) && (x <? 0) then None
  else c_result t (Z.shiftl x y).
Definition c_shr (t : ity) (x y : Z) : option Z :=
  if (y <? 0) || (width (promoted t) <=? y) then None else Some (cut t (Z.shiftr x y)).
