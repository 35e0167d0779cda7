(** C115-C117: scalars. *)
From Coq Require Import ZArith Bool Lia SpecFloat.
From Verif Require Import ScalarModel ScalarSpec ScalarProofs ScalarProofs2.
Open Scope Z_scope.

(** C115: a scalar converted to an integer type is the closest number of that type, with the fraction of a float
    dropped and NaN read as 0; and there is only one such number. *)
Theorem C115_saturates : forall t s, valid_scalar s ->
  becomes t s (to_integer t s) /\ forall r, becomes t s r -> r = to_integer t s.
Proof.
  intros t s V. pose proof (to_integer_spec t s V) as B. split; [exact B|].
  intros r H. exact (becomes_unique t s r _ H B).
Qed.
Print Assumptions C115_saturates.
Example C115_saturates_ex :
  to_integer U8 (Int I32 300) = 255 /\ to_integer U8 (Int I32 (-5)) = 0 /\
  to_integer U32 (Flt F32 (of_z F32 (2 ^ 40))) = 4294967295 /\ to_integer I8 (Flt F64 (binary_normalize 53 1024 (-7) (-1) false)) = -3 /\
  to_integer I64 (Flt F64 S754_nan) = 0 /\ valid_scalar (Flt F32 (of_z F32 (2 ^ 40))).
Proof. vm_compute. repeat split; reflexivity. Qed.

Theorem C115_sizes : forall s, valid_scalar s -> becomes U64 s (to_usize s) /\ becomes I64 s (to_isize s).
Proof. intros s V. split; [exact (to_usize_spec s V)|exact (to_isize_spec s V)]. Qed.
Print Assumptions C115_sizes.
Example C115_sizes_ex : to_usize (Int I8 (-3)) = 0 /\ to_isize (Int U64 (2 ^ 64 - 1)) = 2 ^ 63 - 1.
Proof. vm_compute. split; reflexivity. Qed.

Theorem C115_dtype : forall t s, valid_scalar s ->
  (exists r, to_dtype t s = Int t r /\ becomes t s r /\ valid_scalar (to_dtype t s)) /\ to_dtype t (to_dtype t s) = to_dtype t s.
Proof. intros t s V. split; [exact (to_dtype_spec t s V)|exact (to_dtype_idem t s)]. Qed.
Print Assumptions C115_dtype.
(** A number that both types hold survives the way there and back; and larger numbers never become smaller ones. *)
Theorem C115_back : forall t u n, fits u n -> fits t n -> to_dtype u (to_dtype t (Int u n)) = Int u n.
Proof. exact to_dtype_back. Qed.
Print Assumptions C115_back.
Theorem C115_monotone : forall t u n n', fits u n -> fits u n' -> n <= n' -> to_integer t (Int u n) <= to_integer t (Int u n').
Proof. exact to_dtype_mono. Qed.
Print Assumptions C115_monotone.
Example C115_back_ex : to_dtype I16 (to_dtype U8 (Int I16 200)) = Int I16 200 /\ to_dtype I16 (to_dtype U8 (Int I16 (-1))) = Int I16 0.
Proof. vm_compute. split; reflexivity. Qed.
Theorem C115_bool : forall s, valid_scalar s -> (to_bool s = false <->
  match s with Bool b => b = false | Int _ n => n = 0 | Flt _ x => units x = Some 0 end).
Proof. exact to_bool_spec. Qed.
Print Assumptions C115_bool.
Example C115_bool_ex : to_bool (Flt F32 S754_nan) = true /\ to_bool (Flt F32 (S754_zero true)) = false.
Proof. split; reflexivity. Qed.

(** The constructors from usize and isize cut instead: right for numbers that fit, wrong for others. *)
Theorem C115_from_partial : forall t n, fits t n -> from_usize t n = Int t n /\ from_isize t n = Int t n.
Proof. exact from_fit. Qed.
Print Assumptions C115_from_partial.
Theorem C115_from_refuted :
  exists n r, fits U64 n /\ from_usize U8 n = Int U8 r /\ ~ closest U8 n r /\ to_dtype U8 (Int U64 n) <> from_usize U8 n.
Proof.
  exists 300, 44. repeat split; try (cbn; lia); try (vm_compute; discriminate).
  intro C. apply closest_eq in C. vm_compute in C. discriminate.
Qed.
Print Assumptions C115_from_refuted.
Theorem C115_into_partial : forall n, (fits U32 n -> into_usize n = Int U32 n) /\ (fits I32 n -> into_isize n = Int I32 n).
Proof. exact into_fit. Qed.
Print Assumptions C115_into_partial.
(** [Scalar::from(1usize << 32)] is 0, and [Scalar::from(1isize << 31)] is negative. *)
Theorem C115_into_refuted : fits U64 (2 ^ 32) /\ into_usize (2 ^ 32) = Int U32 0 /\ fits I64 (2 ^ 31) /\ into_isize (2 ^ 31) = Int I32 (- 2 ^ 31).
Proof. unfold fits. vm_compute. repeat split; discriminate. Qed.
Print Assumptions C115_into_refuted.

(** C116: arithmetic on two integers of one type gives the exact result whenever that fits. *)
Theorem C116_exact_partial : forall c o t a b r, fits t a -> fits t b -> exact_result o a b = Some r -> fits t r ->
  ~ (o = Rem /\ a = lowest t /\ b = -1) -> arith c o (Int t a) (Int t b) = Some (Int t r).
Proof. exact arith_exact. Qed.
Print Assumptions C116_exact_partial.
Example C116_exact_ex : arith true Mul (Int I16 (-123)) (Int I16 200) = Some (Int I16 (-24600)) /\ arith false Rem (Int I8 (-7)) (Int I8 3) = Some (Int I8 (-1)).
Proof. split; reflexivity. Qed.
Theorem C116_valid : forall c o t a b s, fits t a -> fits t b -> arith c o (Int t a) (Int t b) = Some s -> exists r, s = Int t r /\ fits t r.
Proof. exact arith_valid. Qed.
Print Assumptions C116_valid.
Theorem C116_wraps_partial : forall o t a b r, (o = Add \/ o = Sub \/ o = Mul) -> exact_result o a b = Some r ->
  exists k, arith false o (Int t a) (Int t b) = Some (Int t (r + k * (highest t - lowest t + 1))).
Proof. exact arith_wraps. Qed.
Print Assumptions C116_wraps_partial.
Example C116_wraps_ex : arith false Mul (Int U8 20) (Int U8 20) = Some (Int U8 (400 + -1 * 256)).
Proof. reflexivity. Qed.
Theorem C116_mixed_refuted : forall c o t u a b, t <> u -> arith c o (Int t a) (Int u b) = None.
Proof. exact arith_mixed. Qed.
Print Assumptions C116_mixed_refuted.
(** Overflow: a panic in one build and a wrong number in the other; division by zero and MIN / -1 panic in both,
    MIN % -1 although its result is 0. *)
Theorem C116_overflow_refuted :
  arith true Add (Int U8 255) (Int U8 1) = None /\ arith false Add (Int U8 255) (Int U8 1) = Some (Int U8 0) /\
  (forall c, arith c Div (Int I32 1) (Int I32 0) = None /\ arith c Div (Int I32 (- 2 ^ 31)) (Int I32 (-1)) = None /\
             arith c Rem (Int I32 (- 2 ^ 31)) (Int I32 (-1)) = None /\ exact_result Rem (- 2 ^ 31) (-1) = Some 0).
Proof. repeat split; reflexivity. Qed.
Print Assumptions C116_overflow_refuted.
(** Booleans: 1 % 1 is 1, and 1 / 0 and 1 % 0 are 0. *)
Theorem C116_bool_refuted : forall c, arith c Rem (Bool true) (Bool true) = Some (Bool true) /\ exact_result Rem 1 1 = Some 0 /\
  arith c Div (Bool true) (Bool false) = Some (Bool false) /\ exact_result Div 1 0 = None.
Proof. intros c. repeat split; reflexivity. Qed.
Print Assumptions C116_bool_refuted.
Theorem C116_powi_partial : forall c t a e, 0 <= e <= highest I32 -> fits t (a ^ e) -> powi_int c t a e = Some (a ^ e).
Proof. exact powi_exact. Qed.
Print Assumptions C116_powi_partial.
Example C116_powi_ex : powi_int true I32 (-3) 5 = Some (-243).
Proof. reflexivity. Qed.
Theorem C116_powi_refuted : powi_int true I32 2 (-1) = None /\ powi_int false I32 2 (-1) = Some 0.
Proof. exact powi_negative. Qed.
Print Assumptions C116_powi_refuted.
Theorem C116_sqrt_partial : (forall a, fits U8 a -> sqrt_int U8 a = Z.sqrt a) /\ (forall a, fits I8 a -> 0 <= a -> sqrt_int I8 a = Z.sqrt a).
Proof. split; [exact sqrt_u8|exact sqrt_i8]. Qed.
Print Assumptions C116_sqrt_partial.
(** The root of the largest u32 is 65535, not 65536; a negative number has the root 0. *)
Theorem C116_sqrt_refuted : sqrt_int U32 (2 ^ 32 - 1) = 65536 /\ Z.sqrt (2 ^ 32 - 1) = 65535 /\ sqrt_int I8 (-4) = 0.
Proof. repeat split; vm_compute; reflexivity. Qed.
Print Assumptions C116_sqrt_refuted.

(** C117: the cast of a tensor element agrees with the conversion of a scalar when the number fits. *)
Theorem C117_int_partial : forall t u n, fits u n -> fits t n -> c_cast t (Int u n) = Some (to_integer t (Int u n)).
Proof. exact cast_int. Qed.
Print Assumptions C117_int_partial.
Theorem C117_bool : forall t b, c_cast t (Bool b) = Some (to_integer t (Bool b)).
Proof. reflexivity. Qed.
Print Assumptions C117_bool.
Theorem C117_float_partial : forall t f x, valid_binary (prec f) (emax f) x = true ->
  (forall r, c_cast t (Flt f x) = Some r -> r = to_integer t (Flt f x)) /\
  (forall v n, units x = Some v -> drops v n -> (c_cast t (Flt f x) <> None <-> fits t n)).
Proof.
  intros t f x V. split; [intros r H; exact (cast_float t f x r V H)|].
  intros v n U D. exact (cast_defined t f x v n V U D).
Qed.
Print Assumptions C117_float_partial.
Example C117_float_ex : c_cast I16 (Flt F32 (S754_finite true 12345678 (-10))) = Some (-12056) /\ to_integer I16 (Flt F32 (S754_finite true 12345678 (-10))) = -12056.
Proof. vm_compute. split; reflexivity. Qed.
(** Otherwise they differ: the kernel gives 44 where the scalar gives 255; 200 becomes -56 and not 127; -1 the largest
    u32; and the float 300 to u8, NaN and infinities are undefined in the kernel. *)
Theorem C117_refuted :
  c_cast U8 (Int I32 300) = Some 44 /\ to_integer U8 (Int I32 300) = 255 /\
  c_cast I8 (Int U8 200) = Some (-56) /\ to_integer I8 (Int U8 200) = 127 /\
  c_cast U32 (Int I8 (-1)) = Some 4294967295 /\ to_integer U32 (Int I8 (-1)) = 0 /\
  c_cast U8 (Flt F32 (of_z F32 300)) = None /\ to_integer U8 (Flt F32 (of_z F32 300)) = 255 /\
  c_cast I32 (Flt F32 S754_nan) = None /\ to_integer I32 (Flt F32 S754_nan) = 0.
Proof. vm_compute. repeat split; reflexivity. Qed.
Print Assumptions C117_refuted.
