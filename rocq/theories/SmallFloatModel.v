(** The 16- and 8-bit floats of the CPU kernels: t_bf16.h, t_f16.h, t_f8e4m3.h and t_f8e5m2.h of
    crates/hodu_cpu_kernels/kernels.  [float] is an IEEE binary32, here [spec_float] with 24 bits and exponents
    below 128; its operations are those of Coq.Floats.SpecFloat (round to nearest, ties to even). *)
From Coq Require Import ZArith Bool SpecFloat.
Open Scope Z_scope.

Notation f32 := spec_float.
Definition fadd : f32 -> f32 -> f32 := SFadd 24 128.
Definition fsub : f32 -> f32 -> f32 := SFsub 24 128.
Definition fmul : f32 -> f32 -> f32 := SFmul 24 128.
Definition fdiv : f32 -> f32 -> f32 := SFdiv 24 128.
(** ldexpf and frexpf; (float)n of a small integer; the constant [n * 2^e] *)
Definition ldexpf (x : f32) (e : Z) : f32 := SFldexp 24 128 x e.
Definition frexpf (x : f32) : f32 * Z := SFfrexp 24 128 x.
Definition const (n e : Z) : f32 := binary_normalize 24 128 n e false.
Definition of_int (n : Z) : f32 := const n 0.
(** (int)x: towards zero (the values that occur here are within the range of int) *)
Definition to_int (x : f32) : Z :=
  match x with
  | S754_finite s m e => (if s then Z.opp else fun v => v) (if 0 <=? e then Z.pos m * 2 ^ e else Z.pos m / 2 ^ (- e))
  | _ => 0
  end.
Definition isnan (x : f32) : bool := match x with S754_nan => true | _ => false end.
Definition isinf (x : f32) : bool := match x with S754_infinity _ => true | _ => false end.

(** t_bf16.h L28-33: a bf16 is the upper half of the bits of a float *)
Definition bf16_to_bits (v : Z) : Z := Z.shiftl v 16.
(** t_bf16.h L35-39 *)
Definition bits_to_bf16 (bits : Z) : Z := Z.shiftr bits 16.

(** The other three formats differ in constants only. *)
Record small := { mbits : Z; (* bits of the mantissa *) ebits : Z; (* bits of the exponent *) bias : Z;
  nan_code : Z; over_code : Z; vmax : f32; (* above: overflow *) vmin : f32 (* below: zero *) }.
Definition top (f : small) : Z := 2 ^ ebits f - 1.
Definition sign_at (f : small) : Z := mbits f + ebits f.

(** t_f16.h L27-46, t_f8e4m3.h L27-50, t_f8e5m2.h L27-50.  [code] is unsigned, so the shifts are divisions;
    [* (sign ? -1.0f : 1.0f)] of the subnormals is a product. *)
Definition small_to_float (f : small) (code : Z) : f32 :=
  let sign := Z.land (Z.shiftr code (sign_at f)) 1 =? 1 in
  let exp := Z.land (Z.shiftr code (mbits f)) (top f) in
  let mant := Z.land code (2 ^ mbits f - 1) in
  if exp =? top f then if mant =? 0 then S754_infinity sign else S754_nan
  else if exp =? 0 then
    if mant =? 0 then S754_zero sign
    else fmul (ldexpf (fdiv (of_int mant) (of_int (2 ^ mbits f))) (1 - bias f)) (of_int (if sign then -1 else 1))
  else let r := ldexpf (fadd (of_int 1) (fdiv (of_int mant) (of_int (2 ^ mbits f)))) (exp - bias f) in
       if sign then SFopp r else r.

(** t_f16.h L48-77, t_f8e4m3.h L52-85, t_f8e5m2.h L52-85.  The disjunction is of an unsigned and two int: a negative
    [mant_bits] is converted to unsigned, and the result is cut to the width of the format. *)
Definition float_to_small (f : small) (v : f32) : Z :=
  if SFeqb v (S754_zero false) then 0
  else if isnan v then nan_code f
  else
    let sign := if SFltb v (S754_zero false) then 1 else 0 in
    let v := SFabs v in
    if isinf v || SFltb (vmax f) v then Z.lor (Z.shiftl sign (sign_at f)) (over_code f)
    else if SFltb v (vmin f) then Z.shiftl sign (sign_at f)
    else
      let '(mant, e) := frexpf v in
      let exp := e + (bias f - 1) in
      let finish (mant : f32) (exp : Z) :=
        let b := to_int (fadd (fmul (fsub (fmul mant (of_int 2)) (of_int 1)) (of_int (2 ^ mbits f))) (const 1 (-1))) in
        let b := if 2 ^ mbits f - 1 <? b then 2 ^ mbits f - 1 else b in
        Z.lor (Z.lor (Z.shiftl sign (sign_at f)) (Z.shiftl exp (mbits f))) b mod 2 ^ (sign_at f + 1) in
      if exp <=? 0 then finish (ldexpf mant exp) 0
      else if top f <=? exp then Z.lor (Z.shiftl sign (sign_at f)) (over_code f)
      else finish mant exp.

(** t_f16.h L11, L52, L57-59 *)
Definition F16 : small := {| mbits := 10; ebits := 5; bias := 15; nan_code := 32256; over_code := 31744; vmax := const 65504 0; vmin := const 1 (-14) |}.
(** t_f8e4m3.h L11, L56, L61-67 *)
Definition F8E4M3 : small := {| mbits := 3; ebits := 4; bias := 7; nan_code := 127; over_code := 127; vmax := const 448 0; vmin := const 1 (-9) |}.
(** t_f8e5m2.h L11, L56, L61-67 *)
Definition F8E5M2 : small := {| mbits := 2; ebits := 5; bias := 15; nan_code := 127; over_code := 127; vmax := const 57344 0; vmin := const 1 (-16) |}.
