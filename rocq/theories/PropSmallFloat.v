(** C114: the 16- and 8-bit floats. *)
From Coq Require Import ZArith Bool SpecFloat Lia List.
From Verif Require Import SmallFloatModel SmallFloatSpec SmallFloatProofs SmallFloatProofs2.
Import ListNotations.
Open Scope Z_scope.

(** Reading a code gives the number it stands for in IEEE 754. *)
Theorem C114_read : (forall c, 0 <= c < 2 ^ 16 -> worth (small_to_float F16 c) = stands_for 10 5 15 c) /\
  (forall c, 0 <= c < 2 ^ 8 -> worth (small_to_float F8E5M2 c) = stands_for 2 5 15 c) /\
  (forall c, 0 <= c < 2 ^ 8 -> worth (small_to_float F8E4M3 c) = stands_for 3 4 7 c) /\
  (forall c, 0 <= c -> stands_for 23 8 127 (bf16_to_bits c) = stands_for 7 8 127 c).
Proof.
  split; [intros c; exact (decode F16 c wellformed_f16)|]. split; [intros c; exact (decode F8E5M2 c wellformed_f8e5m2)|]. split; [intros c; exact (decode F8E4M3 c wellformed_f8e4m3)|]. exact bf16_read.
Qed.
Print Assumptions C114_read.

(** Writing a float, for the three formats of the first argument: where the exponent is a normal one of the format,
    the number not above the limit of the format, and rounding does not reach the next power of two, the code is a nearest one.
    Missing: the other numbers (refuted below); ties go away from zero. *)
Theorem C114_nearest_partial : forall f (s : bool) m e, In f [F16; F8E4M3; F8E5M2] -> 2 ^ 23 <= Z.pos m < 2 ^ 24 ->
  1 <= e + 23 + bias f < 2 ^ ebits f - 1 -> SFltb (vmax f) (S754_finite false m e) = false ->
  Z.pos m < 2 ^ 24 - 2 ^ (22 - mbits f) ->
  nearest (mbits f) (ebits f) (bias f) ((if s then -1 else 1) * (Z.pos m * 2 ^ (e + 149))) (float_to_small f (S754_finite s m e)).
Proof.
  intros f s m e I B K V R. assert (L : SFltb (S754_finite false m e) (vmin f) = false).
  { destruct I as [<-|[<-|[<-|[]]]].
    - change (bias F16) with 15 in K. change (vmin F16) with (S754_finite false 8388608 (-37)). apply ltb_false. lia.
    - change (bias F8E4M3) with 7 in K. change (vmin F8E4M3) with (S754_finite false 8388608 (-32)). apply ltb_false. lia.
    - change (bias F8E5M2) with 15 in K. change (vmin F8E5M2) with (S754_finite false 8388608 (-39)). apply ltb_false. lia. }
  assert (W : wellformed f) by (destruct I as [<-|[<-|[<-|[]]]]; [exact wellformed_f16|exact wellformed_f8e4m3|exact wellformed_f8e5m2]). destruct W as (HM & HE & HB & _).
  apply encode_nearest; auto; try lia. unfold rounded. apply Z.div_lt_upper_bound; [apply Z.pow_pos_nonneg; lia|]. rewrite <- Z.pow_add_r by lia.
  replace (23 - mbits f + mbits f) with 23 by lia. change (2 ^ 24) with (2 ^ 23 + 2 ^ 23) in R. lia.
Qed.
Print Assumptions C114_nearest_partial.
(** Every code with a normal exponent is read and written back unchanged; every bf16 is. *)
Theorem C114_roundtrip_partial : forall f c, In f [F16; F8E4M3; F8E5M2] -> 0 <= c < 2 ^ (sign_at f + 1) ->
  1 <= c / 2 ^ mbits f mod 2 ^ ebits f < 2 ^ ebits f - 1 -> float_to_small f (small_to_float f c) = c.
Proof.
  intros f c [<-|[<-|[<-|[]]]] C K.
  - apply roundtrip_normal; [exact wellformed_f16|exact limits_f16|exact C|exact K].
  - apply roundtrip_normal; [exact wellformed_f8e4m3|exact limits_f8e4m3|exact C|exact K].
  - apply roundtrip_normal; [exact wellformed_f8e5m2|exact limits_f8e5m2|exact C|exact K].
Qed.
Print Assumptions C114_roundtrip_partial.
Theorem C114_bf16_roundtrip : forall v, bits_to_bf16 (bf16_to_bits v) = v.
Proof. intros v. unfold bits_to_bf16, bf16_to_bits. rewrite Z.shiftr_shiftl_l by lia. apply Z.shiftl_0_r. Qed.
Print Assumptions C114_bf16_roundtrip.
(** Writing a bf16 rounds towards zero: the magnitude shrinks by less than the unit of the last place. *)
Theorem C114_bf16_partial : forall b w v, 0 <= b -> stands_for 7 8 127 (bits_to_bf16 b) = Some w -> stands_for 23 8 127 b = Some v ->
  Z.abs w <= Z.abs v < Z.abs w + 2 ^ 16 * 2 ^ (Z.max (b / 2 ^ 23 mod 2 ^ 8) 1 - 1).
Proof.
  intros b w v B W V. unfold bits_to_bf16 in W. rewrite Z.shiftr_div_pow2 in W by lia. set (c := b / 2 ^ 16) in *.
  assert (C : 0 <= c) by (apply Z.div_pos; lia). pose proof (Z.mod_pos_bound b (2 ^ 16) ltac:(lia)) as L.
  assert (E : b = c * 2 ^ 16 + b mod 2 ^ 16) by (rewrite Z.mul_comm; apply Z.div_mod; lia).
  destruct (bf16_write c (b mod 2 ^ 16) w C L W) as (_ & P & S & _). rewrite <- E, V in S. apply some_inj in S.
  destruct (bf16_parts c (b mod 2 ^ 16) C L) as (_ & X & _). rewrite <- E in X. rewrite X.
  set (u := 2 ^ (Z.max (c / 2 ^ 7 mod 2 ^ 8) 1 - 1)) in *. assert (U : 0 < u) by (apply Z.pow_pos_nonneg; lia). clearbody u.
  assert (Y : 0 <= b mod 2 ^ 16 * u < 2 ^ 16 * u) by nia. generalize dependent (b mod 2 ^ 16 * u). intros y S Y. generalize dependent (2 ^ 16 * u). intros. destruct (c / 2 ^ 15 =? 1); lia.
Qed.
Print Assumptions C114_bf16_partial.
(** ... so that in the upper half of every step the next code is strictly nearer. *)
Theorem C114_bf16_refuted : forall v lo w, 0 <= v < 2 ^ 16 - 1 -> 2 ^ 15 < lo < 2 ^ 16 -> v mod 2 ^ 15 < 32639 ->
  stands_for 23 8 127 (v * 2 ^ 16 + lo) = Some w -> ~ nearest 7 8 127 w (bits_to_bf16 (v * 2 ^ 16 + lo)).
Proof.
  intros v lo w V L N W (x & X1 & X2). destruct (bf16_write v lo x) as (E & P & S & T); try lia.
  { unfold bits_to_bf16 in X1. rewrite Z.shiftr_div_pow2 in X1 by lia. replace ((v * 2 ^ 16 + lo) / 2 ^ 16) with v in X1; [exact X1|]. apply (Z.div_unique _ _ _ lo); [left; lia|ring]. }
  specialize (X2 (v + 1) _ ltac:(change (2 ^ (7 + 8 + 1)) with (2 ^ 16); lia) (T N)). rewrite W in S. apply some_inj in S. subst w.
  set (u := 2 ^ (Z.max (v / 2 ^ 7 mod 2 ^ 8) 1 - 1)) in *. assert (U : 0 < u) by (apply Z.pow_pos_nonneg; lia). clearbody u. clear - X2 U L.
  change (2 ^ 15) with 32768 in *. change (2 ^ 16) with 65536 in *. destruct (v / 32768 =? 1); nia.
Qed.
Print Assumptions C114_bf16_refuted.
(** A NaN whose payload is in the lower half becomes an infinity. *)
Theorem C114_bf16_nan_refuted : forall p, 0 < p < 2 ^ 16 -> stands_for 23 8 127 (32640 * 2 ^ 16 + p) = None /\ (32640 * 2 ^ 16 + p) mod 2 ^ 23 <> 0 /\
  bits_to_bf16 (32640 * 2 ^ 16 + p) = 32640 /\ 32640 mod 2 ^ 7 = 0.
Proof.
  intros p P. destruct (bf16_parts 32640 p) as (_ & E2 & E3); try lia. split; [|split; [|split; [|reflexivity]]].
  - unfold stands_for. rewrite E2. reflexivity.
  - rewrite E3. change (32640 mod 2 ^ 7) with 0. lia.
  - unfold bits_to_bf16. rewrite Z.shiftr_div_pow2 by lia. symmetry. apply (Z.div_unique _ _ _ p); [left; lia|ring].
Qed.
Print Assumptions C114_bf16_nan_refuted.

(** Just below a power of two the mantissa is cut off and not carried: a strictly nearer code exists. *)
Theorem C114_carry_refuted : forall f (s : bool) m e, In f [F16; F8E4M3; F8E5M2] -> 2 ^ 24 - 2 ^ (22 - mbits f) < Z.pos m < 2 ^ 24 ->
  1 <= e + 23 + bias f -> e + 24 + bias f < 2 ^ ebits f - 1 ->
  ~ nearest (mbits f) (ebits f) (bias f) ((if s then -1 else 1) * (Z.pos m * 2 ^ (e + 149))) (float_to_small f (S754_finite s m e)).
Proof.
  intros f s m e I B K0 K. assert (LL : SFltb (vmax f) (S754_finite false m e) = false /\ SFltb (S754_finite false m e) (vmin f) = false).
  { destruct I as [<-|[<-|[<-|[]]]].
    - change (bias F16) with 15 in *. change (2 ^ ebits F16 - 1) with 31 in K. change (2 ^ 24 - 2 ^ (22 - mbits F16)) with 16773120 in B. change (vmax F16) with (S754_finite false 16769024 (-8)). change (vmin F16) with (S754_finite false 8388608 (-37)). split; apply ltb_false; lia.
    - change (bias F8E4M3) with 7 in *. change (2 ^ ebits F8E4M3 - 1) with 15 in K. change (2 ^ 24 - 2 ^ (22 - mbits F8E4M3)) with 16252928 in B. change (vmax F8E4M3) with (S754_finite false 14680064 (-15)). change (vmin F8E4M3) with (S754_finite false 8388608 (-32)). split; apply ltb_false; lia.
    - change (bias F8E5M2) with 15 in *. change (2 ^ ebits F8E5M2 - 1) with 31 in K. change (2 ^ 24 - 2 ^ (22 - mbits F8E5M2)) with 15728640 in B. change (vmax F8E5M2) with (S754_finite false 14680064 (-8)). change (vmin F8E5M2) with (S754_finite false 8388608 (-39)). split; apply ltb_false; lia. }
  destruct LL as [L1 L2]. assert (W : wellformed f) by (destruct I as [<-|[<-|[<-|[]]]]; [exact wellformed_f16|exact wellformed_f8e4m3|exact wellformed_f8e5m2]). destruct W as (HM & HE & HB & _).
  apply encode_carry; auto; try lia. split; [|lia]. assert (2 ^ (22 - mbits f) <= 2 ^ 21) by (apply Z.pow_le_mono_r; lia). change (2 ^ 21) with 2097152 in H. change (2 ^ 23) with 8388608. change (2 ^ 24) with 16777216 in B. lia.
Qed.
Print Assumptions C114_carry_refuted.
(** f16: every number below the least normal one becomes zero; none of the 2046 subnormal codes survives. *)
Theorem C114_subnormal_refuted : (forall s m e, SFltb (S754_finite false m e) (const 1 (-14)) = true -> float_to_small F16 (S754_finite s m e) = if s then 2 ^ 15 else 0) /\
  stands_for 10 5 15 (2 ^ 15) = Some 0 /\ stands_for 10 5 15 0 = Some 0 /\
  forall c, 1 <= c < 2 ^ 10 -> float_to_small F16 (small_to_float F16 c) = 0 /\ float_to_small F16 (small_to_float F16 (2 ^ 15 + c)) = 2 ^ 15.
Proof.
  split; [|split; [reflexivity|split; [reflexivity|]]].
  - intros s m e H. unfold float_to_small. change (vmin F16) with (const 1 (-14)). cbn [SFabs]. rewrite H. change (vmax F16) with (S754_finite false 16769024 (-8)).
    change (const 1 (-14)) with (S754_finite false 8388608 (-37)) in H. apply ltb_finite in H. rewrite (ltb_false 16769024 (-8) m e) by lia. destruct s; reflexivity.
  - intros c H. assert (K : (c =? 0) || ((float_to_small F16 (small_to_float F16 c) =? 0) && (float_to_small F16 (small_to_float F16 (2 ^ 15 + c)) =? 2 ^ 15)) = true).
    { apply (all_bits_ok 10 (fun c => (c =? 0) || ((float_to_small F16 (small_to_float F16 c) =? 0) && (float_to_small F16 (small_to_float F16 (2 ^ 15 + c)) =? 2 ^ 15)))); [vm_cast_no_check (eq_refl true)|change (2 ^ Z.of_nat 10) with (2 ^ 10); lia]. }
    rewrite (proj2 (Z.eqb_neq c 0)) in K by lia. cbn [orb] in K. apply andb_prop in K. destruct K as [K1 K2]. split; now apply Z.eqb_eq.
Qed.
Print Assumptions C114_subnormal_refuted.
(** 8 bits: no subnormal code survives either; the three least ones of f8e4m3 and the least one of f8e5m2 become NaN. *)
Theorem C114_f8_subnormal_refuted :
  map (fun c => float_to_small F8E4M3 (small_to_float F8E4M3 c)) [1; 2; 3; 4; 5; 6; 7] = [251; 253; 255; 0; 2; 4; 6] /\
  map (small_to_float F8E4M3) [251; 253; 255] = [S754_nan; S754_nan; S754_nan] /\
  map (fun c => float_to_small F8E5M2 (small_to_float F8E5M2 c)) [1; 2; 3] = [255; 0; 2] /\ small_to_float F8E5M2 255 = S754_nan.
Proof. repeat split; vm_compute; reflexivity. Qed.
Print Assumptions C114_f8_subnormal_refuted.
(** Too large a number becomes NaN in the 8-bit formats (f8e4m3: from 256 on, although the file states the limit 448; the codes of 256 to 448 are read as infinite or NaN). *)
Theorem C114_overflow_refuted :
  (forall s m e, 2 ^ 23 <= Z.pos m < 2 ^ 24 -> -15 <= e -> float_to_small F8E4M3 (S754_finite s m e) = if s then 255 else 127) /\
  (forall s, float_to_small F8E4M3 (S754_infinity s) = (if s then 255 else 127) /\ float_to_small F8E5M2 (S754_infinity s) = if s then 255 else 127) /\
  (forall s m e, SFltb (const 57344 0) (S754_finite false m e) = true -> float_to_small F8E5M2 (S754_finite s m e) = if s then 255 else 127) /\
  small_to_float F8E4M3 127 = S754_nan /\ small_to_float F8E4M3 255 = S754_nan /\ small_to_float F8E5M2 127 = S754_nan /\ small_to_float F8E5M2 255 = S754_nan /\
  map (small_to_float F8E4M3) [120; 121; 122; 123; 124; 125; 126] = [S754_infinity false; S754_nan; S754_nan; S754_nan; S754_nan; S754_nan; S754_nan] /\
  float_to_small F16 (const 65505 0) = 31744 /\ small_to_float F16 31744 = S754_infinity false /\ worth (small_to_float F16 31743) = Some (65504 * 2 ^ 149).
Proof.
  repeat split; try reflexivity.
  - intros s m e B E. unfold float_to_small. assert (C1 : SFeqb (S754_finite s m e) (S754_zero false) = false) by (destruct s; reflexivity). rewrite C1. cbn [isnan].
    assert (C2 : SFltb (S754_finite s m e) (S754_zero false) = s) by (destruct s; reflexivity). rewrite C2. cbn [SFabs isinf orb].
    destruct (SFltb (vmax F8E4M3) (S754_finite false m e)) eqn:V; [destruct s; reflexivity|].
    change (vmin F8E4M3) with (S754_finite false 8388608 (-32)). rewrite ltb_false by lia. unfold frexpf, SFfrexp.
    assert (D : Z.pos (digits2_pos m) = 24) by (rewrite digits_log, (Z.log2_unique (Z.pos m) 23); lia).
    assert (D' : digits2_pos m = 24%positive) by congruence. rewrite D'. change (Z.to_pos 24 <=? 24)%positive with true. cbv iota zeta.
    change (bias F8E4M3) with 7. change (top F8E4M3) with 15. rewrite (proj2 (Z.leb_gt _ _)) by lia. rewrite (proj2 (Z.leb_le 15 _)) by lia. destruct s; reflexivity.
  - destruct s; reflexivity.
  - destruct s; reflexivity.
  - intros s m e V. unfold float_to_small. cbn [SFabs]. change (vmax F8E5M2) with (const 57344 0). rewrite V. destruct s; reflexivity.
Qed.
Print Assumptions C114_overflow_refuted.
(** The sign of zero is lost, and halves are rounded away from zero and not to even. *)
Theorem C114_ties_refuted : (forall f, In f [F16; F8E4M3; F8E5M2] -> float_to_small f (S754_zero true) = 0) /\
  float_to_small F16 (const 2049 (-11)) = 15361 /\ Z.even 15361 = false /\ worth (const 2049 (-11)) = Some (2049 * 2 ^ 138) /\ worth (small_to_float F16 15361) = Some (2050 * 2 ^ 138) /\ worth (small_to_float F16 15360) = Some (2048 * 2 ^ 138).
Proof. split; [intros f [<-|[<-|[<-|[]]]]; reflexivity|]. repeat split; vm_compute; reflexivity. Qed.
Print Assumptions C114_ties_refuted.

(** pi *)
Example C114_nearest_ex : float_to_small F16 (S754_finite false 13176795 (-22)) = 16968 /\ nearest 10 5 15 (13176795 * 2 ^ 127) 16968.
Proof.
  assert (E : float_to_small F16 (S754_finite false 13176795 (-22)) = 16968) by (vm_compute; reflexivity). split; [exact E|]. rewrite <- E.
  apply (C114_nearest_partial F16 false 13176795 (-22)); [now left|lia|cbn; lia|vm_compute; reflexivity|vm_compute; reflexivity].
Qed.
Example C114_roundtrip_ex : float_to_small F8E4M3 (small_to_float F8E4M3 57) = 57 /\ worth (small_to_float F8E4M3 57) = Some (9 * 2 ^ 146).
Proof. split; [apply C114_roundtrip_partial; [right; now left|cbn; lia|cbn; lia]|vm_compute; reflexivity]. Qed.
(** 1.9999 (just below 2) as f16 is 1.999, not 2 *)
Example C114_carry_ex : float_to_small F16 (S754_finite true 16775000 (-23)) = 49151 /\ ~ nearest 10 5 15 (- (16775000 * 2 ^ 126)) 49151.
Proof.
  assert (E : float_to_small F16 (S754_finite true 16775000 (-23)) = 49151) by (vm_compute; reflexivity). split; [exact E|]. rewrite <- E.
  apply (C114_carry_refuted F16 true 16775000 (-23)); [now left|vm_compute; split; reflexivity|cbn; lia|cbn; lia].
Qed.
Example C114_bf16_ex : bits_to_bf16 (16256 * 2 ^ 16 + 65535) = 16256 /\ stands_for 7 8 127 16256 = Some (2 ^ 149) /\ stands_for 7 8 127 16257 = Some (129 * 2 ^ 142).
Proof. repeat split; vm_compute; reflexivity. Qed.
