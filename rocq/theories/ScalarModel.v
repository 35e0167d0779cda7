(** Scalars and their conversions to integers: crates/hodu_core/src/scalar.rs.  All feature flags are on; usize and
    isize have 64 bits.  A float is a [spec_float] of binary32 or binary64; the 16- and 8-bit floats go through
    [to_f32] of an external crate (L695-699 etc.) and appear here as their binary32 values. *)
From Coq Require Import ZArith Bool SpecFloat.
Open Scope Z_scope.

Inductive ity := U8 | U16 | U32 | U64 | I8 | I16 | I32 | I64.
Definition lowest (t : ity) : Z :=
  match t with U8 | U16 | U32 | U64 => 0 | I8 => - 2 ^ 7 | I16 => - 2 ^ 15 | I32 => - 2 ^ 31 | I64 => - 2 ^ 63 end.
Definition highest (t : ity) : Z :=
  match t with
  | U8 => 2 ^ 8 - 1 | U16 => 2 ^ 16 - 1 | U32 => 2 ^ 32 - 1 | U64 => 2 ^ 64 - 1
  | I8 => 2 ^ 7 - 1 | I16 => 2 ^ 15 - 1 | I32 => 2 ^ 31 - 1 | I64 => 2 ^ 63 - 1
  end.
(** [n as t] between integers: cut to the width of [t] *)
Definition cut (t : ity) (n : Z) : Z := (n - lowest t) mod (highest t - lowest t + 1) + lowest t.

(** The two widths of floats; [x as t] from a float: NaN is 0, the others towards zero and saturated *)
Inductive fty := F32 | F64.
Definition prec (f : fty) : Z := match f with F32 => 24 | F64 => 53 end.
Definition emax (f : fty) : Z := match f with F32 => 128 | F64 => 1024 end.
Definition of_z (f : fty) (n : Z) : spec_float := binary_normalize (prec f) (emax f) n 0 false.
Definition toward_zero (x : spec_float) : Z :=
  match x with
  | S754_finite s m e => (if s then Z.opp else fun v => v) (if 0 <=? e then Z.pos m * 2 ^ e else Z.pos m / 2 ^ (- e))
  | _ => 0
  end.
Definition float_as (t : ity) (x : spec_float) : Z :=
  match x with
  | S754_nan => 0
  | S754_infinity s => if s then lowest t else highest t
  | _ => Z.min (highest t) (Z.max (lowest t) (toward_zero x))
  end.
(** f32::clamp, f64::clamp: NaN stays; [x.max(0.0)] of NaN is 0.0 *)
Definition fclamp (x lo hi : spec_float) : spec_float :=
  let x := if SFltb x lo then lo else x in if SFltb hi x then hi else x.
Definition fmax0 (x : spec_float) : spec_float :=
  match x with S754_nan => S754_zero false | _ => if SFltb x (S754_zero false) then S754_zero false else x end.

Inductive scalar := Bool (b : bool) | Int (t : ity) (n : Z) | Flt (f : fty) (x : spec_float).

(** The arms of to_u8 L686-718, to_u16 L721-752, to_u32 L755-786, to_u64 L790-820, to_i8 L858-890, to_i16 L893-924,
    to_i32 L927-958 and to_i64 L962-992 for integers: [x as T], [x.min(T::MAX as S) as T], [x.max(0) as T] or
    [x.clamp(T::MIN as S, T::MAX as S) as T]. *)
Inductive arm := Keep | Min | Max0 | Clamp.
Definition int_arm (target source : ity) : arm :=
  match target, source with
  | U8, U8 => Keep | U8, (U16 | U32 | U64) => Min | U8, I8 => Max0 | U8, (I16 | I32 | I64) => Clamp
  | U16, (U8 | U16) => Keep | U16, (U32 | U64) => Min | U16, (I8 | I16) => Max0 | U16, (I32 | I64) => Clamp
  | U32, (U8 | U16 | U32) => Keep | U32, U64 => Min | U32, (I8 | I16 | I32) => Max0 | U32, I64 => Clamp
  | U64, (U8 | U16 | U32 | U64) => Keep | U64, (I8 | I16 | I32 | I64) => Max0
  | I8, (U8 | U16 | U32 | U64) => Min | I8, I8 => Keep | I8, (I16 | I32 | I64) => Clamp
  | I16, U8 => Keep | I16, (U16 | U32 | U64) => Min | I16, (I8 | I16) => Keep | I16, (I32 | I64) => Clamp
  | I32, (U8 | U16) => Keep | I32, (U32 | U64) => Min | I32, (I8 | I16 | I32) => Keep | I32, I64 => Clamp
  | I64, (U8 | U16 | U32) => Keep | I64, U64 => Min | I64, (I8 | I16 | I32 | I64) => Keep
  end.
(** The same functions for floats. *)
Definition float_arm (target : ity) (source : fty) : arm :=
  match target, source with
  | (U8 | U16 | U32 | I8 | I16), _ => Clamp
  | U64, _ => Max0
  | I32, F32 => Keep | I32, F64 => Clamp
  | I64, _ => Keep
  end.
(** [T::MAX as S], an integer conversion *)
Definition convert_int (target source : ity) (n : Z) : Z :=
  match int_arm target source with
  | Keep => cut target n
  | Min => cut target (Z.min n (cut source (highest target)))
  | Max0 => cut target (Z.max n 0)
  | Clamp => cut target (Z.min (cut source (highest target)) (Z.max (cut source (lowest target)) n))
  end.
Definition convert_float (target : ity) (source : fty) (x : spec_float) : Z :=
  match float_arm target source with
  | Keep => float_as target x
  | Min => float_as target x (* does not occur *)
  | Max0 => float_as target (fmax0 x)
  | Clamp => float_as target (fclamp x (of_z source (lowest target)) (of_z source (highest target)))
  end.
Definition to_integer (target : ity) (s : scalar) : Z :=
  match s with
  | Bool b => if b then 1 else 0
  | Int t n => convert_int target t n
  | Flt f x => convert_float target f x
  end.
(** to_usize L824-854 and to_isize L996-1026 *)
Definition to_usize (s : scalar) : Z :=
  match s with
  | Bool b => if b then 1 else 0
  | Int (U8 | U16 | U32 | U64) n => cut U64 n
  | Int _ n => cut U64 (Z.max n 0)
  | Flt _ x => float_as U64 (fmax0 x)
  end.
Definition to_isize (s : scalar) : Z :=
  match s with
  | Bool b => if b then 1 else 0
  | Int U64 n => cut I64 (Z.min n (cut U64 (highest I64)))
  | Int _ n => cut I64 n
  | Flt _ x => float_as I64 x
  end.
(** to_bool L478-503: [x != 0] *)
Definition to_bool (s : scalar) : bool :=
  match s with Bool b => b | Int _ n => negb (n =? 0) | Flt _ x => negb (SFeqb x (S754_zero false)) end.

(** to_dtype L391-421, the targets that are integers: a scalar of the type already is returned as it is *)
Definition ity_eqb (a b : ity) : bool :=
  match a, b with U8, U8 | U16, U16 | U32, U32 | U64, U64 | I8, I8 | I16, I16 | I32, I32 | I64, I64 => true | _, _ => false end.
Definition to_dtype (target : ity) (s : scalar) : scalar :=
  match s with
  | Int t n => if ity_eqb t target then s else Int target (to_integer target s)
  | _ => Int target (to_integer target s)
  end.

(** from_usize L310-335 and from_isize L337-361 (integer targets); From<usize> L1139-1144 and From<isize> L1188-1193 *)
Definition from_usize (target : ity) (n : Z) : scalar := Int target (cut target n).
Definition from_isize (target : ity) (n : Z) : scalar := Int target (cut target n).
Definition into_usize (n : Z) : scalar := Int U32 (cut U32 n).
Definition into_isize (n : Z) : scalar := Int I32 (cut I32 n).

(** Arithmetic, L1195-1353: both of one type, everything else panics ([None]).  [checked] is whether the overflow
    checks of Rust are on (they are in debug builds); off, the result is cut. *)
Inductive op := Add | Sub | Mul | Div | Rem.
Definition settle (checked : bool) (t : ity) (r : Z) : option Z :=
  if (lowest t <=? r) && (r <=? highest t) then Some r else if checked then None else Some (cut t r).
(** division by zero and MIN / -1, MIN % -1 panic in every build *)
Definition int_op (checked : bool) (o : op) (t : ity) (a b : Z) : option Z :=
  match o with
  | Add => settle checked t (a + b)
  | Sub => settle checked t (a - b)
  | Mul => settle checked t (a * b)
  | Div => if b =? 0 then None else if (a =? lowest t) && (b =? -1) then None else Some (Z.quot a b)
  | Rem => if b =? 0 then None else if (a =? lowest t) && (b =? -1) then None else Some (Z.rem a b)
  end.
Definition bool_op (o : op) (a b : bool) : bool :=
  match o with Add => a || b | Sub => a && negb b | Mul | Div | Rem => a && b end.
Definition float_op (o : op) (f : fty) (a b : spec_float) : option spec_float :=
  match o with
  | Add => Some (SFadd (prec f) (emax f) a b)
  | Sub => Some (SFsub (prec f) (emax f) a b)
  | Mul => Some (SFmul (prec f) (emax f) a b)
  | Div => Some (SFdiv (prec f) (emax f) a b)
  | Rem => None (* fmod: not modelled *)
  end.
Definition fty_eqb (a b : fty) : bool := match a, b with F32, F32 | F64, F64 => true | _, _ => false end.
Definition arith (checked : bool) (o : op) (a b : scalar) : option scalar :=
  match a, b with
  | Bool x, Bool y => Some (Bool (bool_op o x y))
  | Int t x, Int u y => if ity_eqb t u then option_map (Int t) (int_op checked o t x y) else None
  | Flt f x, Flt g y => if fty_eqb f g then option_map (Flt f) (float_op o f x y) else None
  | _, _ => None
  end.
(** powi L1356-1387 of integers: [a.pow(exp as u32)], the exponent is cut.  iN::pow multiplies by squaring and checks
    every product; the base is squared only when more bits follow, so the products are powers of smaller exponents
    and one of them is out of range exactly when the result is ([|a| >= 2]). *)
Definition powi_int (checked : bool) (t : ity) (a e : Z) : option Z := settle checked t (a ^ cut U32 e).
(** sqrt L1389-1414 of integers: through f32 *)
Definition sqrt_int (t : ity) (a : Z) : Z :=
  float_as t (fclamp (SFsqrt 24 128 (of_z F32 a)) (of_z F32 0) (of_z F32 (highest t))).

(** One element of the cast kernels (crates/hodu_cpu_kernels/kernels/ops_cast.c L105-388) with an integer target: a C
    cast.  Between integers it cuts (for signed targets as every compiler does); from a float it is undefined
    ([None]) when the value without its fraction does not fit, C11 6.3.1.4. *)
Definition c_cast (target : ity) (s : scalar) : option Z :=
  match s with
  | Bool b => Some (if b then 1 else 0)
  | Int _ n => Some (cut target n)
  | Flt _ x =>
    match x with
    | S754_nan | S754_infinity _ => None
    | _ => let n := toward_zero x in if (lowest target <=? n) && (n <=? highest target) then Some n else None
    end
  end.
