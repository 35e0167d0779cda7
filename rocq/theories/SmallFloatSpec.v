(** What a float is worth, in units of 2^-149 (every finite binary32 is a multiple of that). *)
From Coq Require Import ZArith SpecFloat.
Open Scope Z_scope.

Definition worth (x : spec_float) : option Z :=
  match x with
  | S754_zero _ => Some 0
  | S754_finite s m e => Some ((if s then -1 else 1) * (Z.pos m * 2 ^ (e + 149)))
  | _ => None
  end.
(** The number that a code of a format with [M] bits of mantissa, [E] bits of exponent and the bias [B] stands for,
    by IEEE 754; the codes of the greatest exponent are infinite or NaN. *)
Definition stands_for (M E B code : Z) : option Z :=
  let s := code / 2 ^ (M + E) in
  let e := code / 2 ^ M mod 2 ^ E in
  let m := code mod 2 ^ M in
  if e =? 2 ^ E - 1 then None
  else Some ((if s =? 1 then -1 else 1) * ((if e =? 0 then m else 2 ^ M + m) * 2 ^ (Z.max e 1 - B - M + 149))).
(** The code of a format is a nearest one to the number [v]. *)
Definition nearest (M E B : Z) (v : Z) (code : Z) : Prop :=
  exists w, stands_for M E B code = Some w /\
    forall c w', 0 <= c < 2 ^ (M + E + 1) -> stands_for M E B c = Some w' -> Z.abs (w - v) <= Z.abs (w' - v).
