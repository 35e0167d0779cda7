(** C118, C119: the integer operations of the CPU kernels. *)
From Coq Require Import ZArith Bool Lia.
From Verif Require Import ScalarModel ScalarSpec ScalarProofs2 IntOpModel IntOpSpec IntOpProofs.
Open Scope Z_scope.

(** C118: a result that fits is exact. *)
Theorem C118_exact_partial : forall t x y, fits t x -> fits t y ->
  (fits t (x + y) -> c_add t x y = Some (x + y)) /\ (fits t (x - y) -> c_sub t x y = Some (x - y)) /\
  (fits t (x * y) -> c_mul t x y = Some (x * y)) /\
  (y <> 0 -> ~ (x = lowest t /\ y = -1) -> c_div t x y = Some (Z.quot x y) /\ c_rem t x y = Some (Z.rem x y)) /\
  c_maximum x y = Z.max x y /\ c_minimum x y = Z.min x y.
Proof.
  intros t x y Fx Fy. split; [intro; apply c_result_fit; assumption|]. split; [intro; apply sub_fit; assumption|].
  split; [intro; apply c_result_fit; assumption|]. split; [|apply max_spec].
  intros Y N. split; [apply div_spec|apply rem_spec]; assumption.
Qed.
Print Assumptions C118_exact_partial.
Example C118_exact_ex : c_add I8 100 27 = Some 127 /\ c_mul U16 255 257 = Some 65535 /\ c_div I32 (-7) 2 = Some (-3) /\ c_rem I32 (-7) 2 = Some (-1).
Proof. repeat split; reflexivity. Qed.
(** Where they are defined, sums and products are right modulo 2^w; so are signed differences, and unsigned ones
    saturate at 0. *)
Theorem C118_modular_partial : forall t x y r, fits t x -> fits t y ->
  (c_add t x y = Some r -> modular t (x + y) r) /\ (c_mul t x y = Some r -> modular t (x * y) r) /\
  (c_sub t x y = Some r -> if is_signed t then modular t (x - y) r else r = Z.max 0 (x - y)).
Proof.
  intros t x y r Fx Fy. split; [apply add_spec|]. split; [apply mul_spec|]. apply sub_spec; assumption.
Qed.
Print Assumptions C118_modular_partial.
Example C118_modular_ex : c_add U8 200 100 = Some 44 /\ c_mul I8 100 100 = Some 16 /\ c_sub U32 3 5 = Some 0 /\ c_sub I8 (-128) 1 = Some 127.
Proof. repeat split; reflexivity. Qed.
(** They are defined for all operands of u8, u32, u64, i8, i16, and for u16 with a product below 2^31. *)
Theorem C118_defined_partial : forall t x y, fits t x -> fits t y -> t <> I32 -> t <> I64 ->
  c_add t x y <> None /\ c_sub t x y <> None /\ ((t = U16 -> x * y <= highest I32) -> c_mul t x y <> None).
Proof.
  intros t x y Fx Fy N1 N2. split; [apply add_defined; assumption|]. split; [apply sub_defined; assumption|].
  intro H. apply mul_defined; assumption.
Qed.
Print Assumptions C118_defined_partial.
(** The product of two u16 is computed as int and overflows it: 65535 * 65535 is undefined, as are the sums, products
    and quotients of i32 and i64 that do not fit. *)
Theorem C118_undefined_refuted :
  fits U16 65535 /\ c_mul U16 65535 65535 = None /\ c_square U16 65535 = None /\
  c_add I32 (2 ^ 31 - 1) 1 = None /\ c_neg I32 (- 2 ^ 31) = None /\ c_div I32 (- 2 ^ 31) (-1) = None /\ c_rem I64 (- 2 ^ 63) (-1) = None.
Proof. unfold fits. cbn. repeat split; try reflexivity; lia. Qed.
Print Assumptions C118_undefined_refuted.
(** A division by zero gives 0, without an error; the unsigned difference is not the inverse of the sum, which wraps. *)
Theorem C118_saturation_refuted :
  (forall t x, c_div t x 0 = Some 0 /\ c_rem t x 0 = Some 0) /\
  (exists x y s, fits U8 x /\ fits U8 y /\ c_add U8 x y = Some s /\ c_sub U8 s y <> Some x) /\
  c_abs I8 (-128) = Some (-128).
Proof.
  split; [intros; split; reflexivity|]. split; [|reflexivity]. exists 200, 100, 44. unfold fits. cbn. repeat split; try lia. discriminate.
Qed.
Print Assumptions C118_saturation_refuted.
(** Powers: exact modulo 2^w for unsigned types; for signed ones a power that fits is exact in i8, i16 and i32. *)
Theorem C118_pow_partial : forall t x e, fits t x -> 0 <= e ->
  (is_signed t = false -> exists r, c_pow t x e = Some r /\ modular t (x ^ e) r) /\
  ((t = I8 \/ t = I16 \/ t = I32) -> fits t (x ^ e) -> c_pow t x e = Some (x ^ e)).
Proof.
  intros t x e Fx He. split; [intro; apply pow_unsigned; assumption|]. intros HT F. apply pow_small_fit; assumption.
Qed.
Print Assumptions C118_pow_partial.
Example C118_pow_ex : c_pow U8 3 7 = Some 139 /\ c_pow I16 (-3) 9 = Some (-19683).
Proof. split; reflexivity. Qed.
(** For i64 exactly: the loop squares once more than it needs, and is undefined when that square does not fit. *)
Theorem C118_pow64_partial : forall x e, fits I64 x ->
  ipow I64 x (Zpos e) = if last_square x e <=? highest I64 then Some (x ^ Zpos e) else None.
Proof. exact ipow_i64. Qed.
Print Assumptions C118_pow64_partial.
Theorem C118_pow_refuted :
  fits I64 (2 ^ 32) /\ c_pow I64 2 32 = None /\ (* 2^32 fits *)
  c_pow I32 1 (-1) = Some 0 /\ (* 1/1 is 1 *)
  c_pow I8 3 64 = None.
Proof. unfold fits. split; [cbn; lia|]. repeat split; vm_compute; reflexivity. Qed.
Print Assumptions C118_pow_refuted.
(** pow_scalar goes through float: exact for u8 results that fit, not for i32, and undefined out of range. *)
Theorem C118_pow_scalar_partial : forall x y, fits U8 x -> fits U8 y -> fits U8 (x ^ y) -> c_pow_scalar U8 x y = Some (x ^ y).
Proof. exact pow_scalar_u8. Qed.
Print Assumptions C118_pow_scalar_partial.
Theorem C118_pow_scalar_refuted :
  c_pow_scalar I32 4097 2 = Some 16785408 /\ c_pow I32 4097 2 = Some 16785409 /\
  c_pow_scalar U8 16 2 = None /\ c_pow U8 16 2 = Some 0.
Proof. repeat split; vm_compute; reflexivity. Qed.
Print Assumptions C118_pow_scalar_refuted.
Theorem C118_unary_partial : forall t x, fits t x ->
  (fits t (- x) -> c_neg t x = Some (- x)) /\ (fits t (Z.abs x) -> c_abs t x = Some (Z.abs x)) /\
  c_sign x = Z.sgn x /\ (forall r, c_square t x = Some r -> modular t (x * x) r).
Proof.
  intros t x F. split; [apply neg_spec|]. split; [apply abs_spec; exact F|]. split; [apply sign_spec|apply square_spec].
Qed.
Print Assumptions C118_unary_partial.
Theorem C118_root_partial :
  (forall x, fits U8 x -> c_sqrt U8 x = Some (Z.sqrt x) /\ c_recip U8 x = Some (if x =? 0 then 0 else Z.quot 1 x)) /\
  (forall x, fits I8 x -> c_sqrt I8 x = Some (Z.sqrt (Z.abs x)) /\ c_recip I8 x = Some (if x =? 0 then 0 else Z.quot 1 x)).
Proof. split; [exact small_u8|exact small_i8]. Qed.
Print Assumptions C118_root_partial.
(** The root of a negative number is that of its magnitude (0 for a scalar), of the largest u32 and u64 one too much. *)
Theorem C118_root_refuted :
  c_sqrt I8 (-4) = Some 2 /\ sqrt_int I8 (-4) = 0 /\ c_sqrt U32 (2 ^ 32 - 1) = Some (Z.sqrt (2 ^ 32 - 1) + 1) /\
  c_sqrt U64 (2 ^ 64 - 1) = Some (Z.sqrt (2 ^ 64 - 1) + 1).
Proof. repeat split; vm_compute; reflexivity. Qed.
Print Assumptions C118_root_refuted.

(** C119: the bitwise operations compute every bit. *)
Theorem C119_logic : forall t x y,
  (let r := c_and t x y in fits t r /\ forall i, 0 <= i < width t -> Z.testbit r i = Z.testbit x i && Z.testbit y i) /\
  (let r := c_or t x y in fits t r /\ forall i, 0 <= i < width t -> Z.testbit r i = Z.testbit x i || Z.testbit y i) /\
  (let r := c_xor t x y in fits t r /\ forall i, 0 <= i < width t -> Z.testbit r i = xorb (Z.testbit x i) (Z.testbit y i)) /\
  (let r := c_not t x in fits t r /\ forall i, 0 <= i < width t -> Z.testbit r i = negb (Z.testbit x i)).
Proof.
  intros t x y. split; [exact (and_spec t x y)|]. split; [exact (or_spec t x y)|]. split; [exact (xor_spec t x y)|exact (not_spec t x)].
Qed.
Print Assumptions C119_logic.
Example C119_logic_ex : c_and I8 (-4) 7 = 4 /\ c_not U8 1 = 254 /\ c_xor U16 65535 255 = 65280 /\ c_or I32 (-8) 3 = -5.
Proof. repeat split; reflexivity. Qed.
(** A shift to the right by less than the width divides, rounding down. *)
Theorem C119_right : forall t x y, fits t x -> 0 <= y < width t -> c_shr t x y = Some (x / 2 ^ y).
Proof. exact shr_spec. Qed.
Print Assumptions C119_right.
(** A shift to the left multiplies modulo 2^w where it is defined: for unsigned types whenever the amount is less than
    the width, for all types when the operand is not negative and the result fits. *)
Theorem C119_left_partial : forall t x y,
  (forall r, c_shl t x y = Some r -> 0 <= y /\ modular t (x * 2 ^ y) r) /\
  (is_signed t = false -> fits t x -> 0 <= y < width t -> c_shl t x y <> None) /\
  (0 <= x -> 0 <= y < width t -> fits t (x * 2 ^ y) -> c_shl t x y = Some (x * 2 ^ y)).
Proof.
  intros t x y. split; [intro; apply shl_spec|]. split; [apply shl_defined|apply shl_fit].
Qed.
Print Assumptions C119_left_partial.
Example C119_left_ex : c_shl U8 200 4 = Some 128 /\ c_shl I32 5 3 = Some 40 /\ c_shr I8 (-7) 1 = Some (-4).
Proof. repeat split; reflexivity. Qed.
(** Otherwise it is undefined: negative operands, results that do not fit, and amounts of the width or more. *)
Theorem C119_shift_refuted :
  c_shl I32 (-1) 1 = None /\ c_shl I32 1 31 = None /\ c_shl U32 1 32 = None /\ c_shr U32 1 32 = None /\
  c_shl U16 65535 16 = None /\ c_shl U8 1 (-1) = None /\ c_shl U8 1 8 = Some 0.
Proof. repeat split; reflexivity. Qed.
Print Assumptions C119_shift_refuted.
