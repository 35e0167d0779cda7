(** Conversions of scalars to integers saturate. *)
From Coq Require Import ZArith Bool Lia SpecFloat.
From Verif Require Import ScalarModel ScalarSpec.
Open Scope Z_scope.

Definition clampz (t : ity) (n : Z) : Z := Z.min (highest t) (Z.max (lowest t) n).
Lemma range_order : forall t, lowest t <= 0 < highest t.
Proof. intros []; cbn; lia. Qed.
Lemma clampz_closest : forall t n, closest t n (clampz t n).
Proof. intros t n. pose proof (range_order t). unfold closest, fits, clampz. split; [|intros r' H']; lia. Qed.
Lemma closest_eq : forall t n r, closest t n r -> r = clampz t n.
Proof.
  intros t n r [F C]. pose proof (range_order t). unfold fits, clampz in *.
  specialize (C (Z.min (highest t) (Z.max (lowest t) n))). lia.
Qed.
Lemma cut_fits : forall t n, fits t n -> cut t n = n.
Proof. intros t n F. unfold cut, fits in *. rewrite Z.mod_small by lia. lia. Qed.
Lemma cut_range : forall t n, fits t (cut t n).
Proof.
  intros t n. unfold cut, fits. pose proof (range_order t).
  pose proof (Z.mod_pos_bound (n - lowest t) (highest t - lowest t + 1)). lia.
Qed.

Theorem convert_int_spec : forall t s n, fits s n -> convert_int t s n = clampz t n.
Proof.
  intros t s n F. unfold fits in F.
  destruct t, s; unfold convert_int, int_arm;
    repeat match goal with
    | |- context [cut ?a (lowest ?b)] => rewrite (cut_fits a (lowest b)) by (unfold fits; cbn; lia)
    | |- context [cut ?a (highest ?b)] => rewrite (cut_fits a (highest b)) by (unfold fits; cbn; lia)
    end; rewrite cut_fits; unfold fits, clampz in *; cbn [lowest highest] in *; lia.
Qed.

(** Floats *)
Section order.
Variables p em : Z.
Hypothesis Hp : 1 < p.
Definition size (m : positive) (e K : Z) : Z := Z.pos m * 2 ^ (e + K).

Lemma digits_bounds : forall m, 2 ^ (Z.pos (digits2_pos m) - 1) <= Z.pos m < 2 ^ Z.pos (digits2_pos m).
Proof.
  induction m as [m IH|m IH|]; cbn [digits2_pos].
  - rewrite Pos2Z.inj_succ. unfold Z.succ. replace (Z.pos (digits2_pos m) + 1 - 1) with (Z.pos (digits2_pos m) - 1 + 1) by lia.
    rewrite !Z.pow_add_r by lia. lia.
  - rewrite Pos2Z.inj_succ. unfold Z.succ. replace (Z.pos (digits2_pos m) + 1 - 1) with (Z.pos (digits2_pos m) - 1 + 1) by lia.
    rewrite !Z.pow_add_r by lia. lia.
  - cbn. lia.
Qed.
Lemma canonical_facts : forall m e, canonical_mantissa p em m e = true ->
  Z.pos (digits2_pos m) <= p /\ SpecFloat.emin p em <= e /\ (SpecFloat.emin p em < e -> Z.pos (digits2_pos m) = p).
Proof. intros m e H. apply Zeq_bool_eq in H. unfold fexp in H. lia. Qed.
Lemma size_lt : forall K m1 e1 m2 e2, canonical_mantissa p em m1 e1 = true -> canonical_mantissa p em m2 e2 = true ->
  0 <= e1 + K -> e1 < e2 -> size m1 e1 K < size m2 e2 K.
Proof.
  intros K m1 e1 m2 e2 C1 C2 HK He.
  destruct (canonical_facts _ _ C1) as [D1 [E1 _]]. destruct (canonical_facts _ _ C2) as [D2 [E2 F2]].
  specialize (F2 ltac:(lia)). pose proof (digits_bounds m1) as [_ B1]. pose proof (digits_bounds m2) as [B2 _].
  rewrite F2 in B2. unfold size.
  assert (U : Z.pos m1 < 2 ^ p).
  { eapply Z.lt_le_trans; [exact B1|]. apply Z.pow_le_mono_r; lia. }
  apply Z.lt_le_trans with (2 ^ p * 2 ^ (e1 + K)).
  - apply Z.mul_lt_mono_pos_r; [apply Z.pow_pos_nonneg; lia|exact U].
  - apply Z.le_trans with (2 ^ (p - 1) * 2 ^ (e2 + K)).
    + rewrite <- !Z.pow_add_r by lia. apply Z.pow_le_mono_r; lia.
    + apply Z.mul_le_mono_nonneg_r; [apply Z.pow_nonneg; lia|exact B2].
Qed.
Definition amount (K : Z) (x : spec_float) : Z :=
  match x with S754_finite s m e => (if s then -1 else 1) * size m e K | _ => 0 end.
Definition finite (x : spec_float) : Prop := match x with S754_zero _ | S754_finite _ _ _ => True | _ => False end.
Lemma size_pos : forall m e K, 0 <= e + K -> 0 < size m e K.
Proof. intros. unfold size. apply Z.mul_pos_pos; [lia|apply Z.pow_pos_nonneg; lia]. Qed.
Lemma ltb_amount : forall K x y, finite x -> finite y -> valid_binary p em x = true -> valid_binary p em y = true ->
  0 <= SpecFloat.emin p em + K -> SFltb x y = true <-> amount K x < amount K y.
Proof.
  intros K [s|s| |s m e] [s'|s'| |s' m' e'] Fx Fy Vx Vy HK; try contradiction; unfold SFltb, SFcompare; cbn [amount].
  - split; [discriminate|lia].
  - unfold valid_binary, bounded in Vy. apply andb_prop in Vy as [C' _].
    destruct (canonical_facts _ _ C') as [_ [E' _]]. pose proof (size_pos m' e' K ltac:(lia)).
    destruct s'; split; try discriminate; try reflexivity; lia.
  - unfold valid_binary, bounded in Vx. apply andb_prop in Vx as [C _].
    destruct (canonical_facts _ _ C) as [_ [E _]]. pose proof (size_pos m e K ltac:(lia)).
    destruct s; split; try discriminate; try reflexivity; lia.
  - unfold valid_binary, bounded in Vx, Vy. apply andb_prop in Vx as [C _]. apply andb_prop in Vy as [C' _].
    destruct (canonical_facts _ _ C) as [_ [E _]]. pose proof (size_pos m e K ltac:(lia)) as P.
    destruct (canonical_facts _ _ C') as [_ [E' _]]. pose proof (size_pos m' e' K ltac:(lia)) as P'.
    assert (L : (e < e' -> size m e K < size m' e' K) /\ (e' < e -> size m' e' K < size m e K)).
    { split; intro; apply size_lt; auto; lia. }
    assert (Q : e = e' -> (size m e K < size m' e' K <-> Z.pos m < Z.pos m') /\ (size m' e' K < size m e K <-> Z.pos m' < Z.pos m)).
    { intros ->. unfold size. pose proof (Z.pow_pos_nonneg 2 (e' + K) ltac:(lia) ltac:(lia)).
      split; symmetry; apply Z.mul_lt_mono_pos_r; assumption. }
    destruct s, s'.
    + destruct (Z.compare_spec e e') as [HE|HE|HE].
      * specialize (Q HE). change (Pos.compare_cont Eq m m') with (m ?= m')%positive.
        destruct (Pos.compare_spec m m') as [HM|HM|HM]; cbn [CompOpp]; split; intro H; try discriminate; try reflexivity; lia.
      * split; [discriminate|lia].
      * split; [lia|reflexivity].
    + split; [lia|reflexivity].
    + split; [discriminate|lia].
    + destruct (Z.compare_spec e e') as [HE|HE|HE].
      * specialize (Q HE). change (Pos.compare_cont Eq m m') with (m ?= m')%positive.
        destruct (Pos.compare_spec m m') as [HM|HM|HM]; split; intro H; try discriminate; try reflexivity; lia.
      * split; [lia|reflexivity].
      * split; [discriminate|lia].
Qed.
End order.

Lemma toward_zero_drops : forall K x, finite x -> (match x with S754_finite _ _ e => 0 <= e + K | _ => True end) -> 0 <= K ->
  let n := toward_zero x in let v := amount K x in
  0 <= n * v /\ Z.abs n * 2 ^ K <= Z.abs v < (Z.abs n + 1) * 2 ^ K.
Proof.
  intros K x F E HK. assert (PK : 0 < 2 ^ K) by (apply Z.pow_pos_nonneg; lia). destruct x as [s|s| |s m e]; try contradiction.
  - cbn [toward_zero amount]. cbn [Z.abs]. lia.
  - cbn [toward_zero amount]. cbv zeta. unfold size.
    set (a := if 0 <=? e then Z.pos m * 2 ^ e else Z.pos m / 2 ^ (- e)).
    assert (A : 0 <= a /\ a * 2 ^ K <= Z.pos m * 2 ^ (e + K) < (a + 1) * 2 ^ K).
    { unfold a. destruct (Z.leb_spec 0 e).
      - rewrite Z.pow_add_r by lia. assert (0 < 2 ^ e) by (apply Z.pow_pos_nonneg; lia).
        split; [apply Z.mul_nonneg_nonneg; lia|]. rewrite Z.mul_assoc. lia.
      - assert (PE : 0 < 2 ^ (- e)) by (apply Z.pow_pos_nonneg; lia).
        assert (PF : 0 < 2 ^ (e + K)) by (apply Z.pow_pos_nonneg; lia).
        assert (D : 2 ^ K = 2 ^ (- e) * 2 ^ (e + K)) by (rewrite <- Z.pow_add_r by lia; f_equal; lia).
        rewrite D. pose proof (Z.div_mod (Z.pos m) (2 ^ (- e)) ltac:(lia)) as DM.
        pose proof (Z.mod_pos_bound (Z.pos m) (2 ^ (- e)) PE) as MB.
        split; [apply Z.div_pos; lia|]. rewrite !Z.mul_assoc. split.
        + apply Z.mul_le_mono_nonneg_r; lia.
        + apply Z.mul_lt_mono_pos_r; lia. }
    clearbody a. destruct A as [A0 [A1 A2]].
    assert (PM : 0 <= Z.pos m * 2 ^ (e + K)) by (apply Z.mul_nonneg_nonneg; [lia|apply Z.pow_nonneg; lia]).
    generalize dependent (Z.pos m * 2 ^ (e + K)). intros w A1 A2 PM. clear -A0 A1 A2 PM.
    assert (0 <= a * w) by (apply Z.mul_nonneg_nonneg; lia).
    destruct s.
    + replace (-1 * w) with (- w) by lia. rewrite !Z.abs_opp, !Z.abs_eq by lia. lia.
    + replace (1 * w) with w by lia. rewrite !Z.abs_eq by lia. lia.
Qed.
(** A float below an integer that is not positive is at most it after dropping; a float above one not negative at least. *)
Lemma drops_low : forall P v n c, 0 < P -> 0 <= n * v -> Z.abs n * P <= Z.abs v < (Z.abs n + 1) * P -> c <= 0 -> v < c * P -> n <= c.
Proof.
  intros P v n c HP S [L U] HC HV. assert (c * P <= 0) by (apply Z.mul_nonpos_nonneg; lia).
  assert (N : n <= 0) by (apply Z.nlt_ge; intro N; pose proof (Z.mul_pos_neg n v N ltac:(lia)); lia).
  apply Z.nlt_ge. intro C. assert (Z.abs n + 1 <= - c) by lia.
  pose proof (Z.mul_le_mono_nonneg_r (Z.abs n + 1) (- c) P ltac:(lia) ltac:(lia)). lia.
Qed.
Lemma drops_high : forall P v n c, 0 < P -> 0 <= n * v -> Z.abs n * P <= Z.abs v < (Z.abs n + 1) * P -> 0 <= c -> c * P < v -> c <= n.
Proof.
  intros P v n c HP S [L U] HC HV. assert (0 <= c * P) by (apply Z.mul_nonneg_nonneg; lia).
  assert (N : 0 <= n) by (apply Z.nlt_ge; intro N; pose proof (Z.mul_neg_pos n v N ltac:(lia)); lia).
  apply Z.nlt_ge. intro C. assert (Z.abs n + 1 <= c) by lia.
  pose proof (Z.mul_le_mono_nonneg_r (Z.abs n + 1) c P ltac:(lia) ltac:(lia)). lia.
Qed.

Lemma valid_exponent : forall f x, valid_binary (prec f) (emax f) x = true ->
  match x with S754_finite _ _ e => 0 <= e + 1074 | _ => True end.
Proof.
  intros f x V. destruct x as [| | |s m e]; auto. unfold valid_binary, bounded in V. apply andb_prop in V as [C _].
  apply canonical_facts in C as [_ [E _]]. destruct f; cbn in E; lia.
Qed.
Lemma finite_units : forall x, finite x -> units x = Some (amount 1074 x).
Proof. intros [| | |s m e] F; try contradiction; reflexivity. Qed.

Lemma float_as_spec : forall t f x, valid_binary (prec f) (emax f) x = true -> float_becomes t x (float_as t x).
Proof.
  intros t f x V. pose proof (valid_exponent _ _ V) as E. destruct x as [s|s| |s m e]; cbn [float_becomes float_as]; auto.
  - exists 0, 0. split; [reflexivity|]. split; [|apply clampz_closest].
    assert (0 < 2 ^ 1074) by (apply Z.pow_pos_nonneg; lia). unfold drops. cbn [Z.abs]. lia.
  - exists (amount 1074 (S754_finite s m e)), (toward_zero (S754_finite s m e)). split; [reflexivity|]. split.
    + exact (toward_zero_drops 1074 (S754_finite s m e) I E ltac:(lia)).
    + apply clampz_closest.
Qed.
(** The bounds as floats: the lower is exact, the upper not below, and it converts back to the bound. *)
Definition bounds_ok (t : ity) (f : fty) : Prop :=
  finite (of_z f (lowest t)) /\ finite (of_z f (highest t)) /\
  valid_binary (prec f) (emax f) (of_z f (lowest t)) = true /\ valid_binary (prec f) (emax f) (of_z f (highest t)) = true /\
  amount 1074 (of_z f (lowest t)) = lowest t * 2 ^ 1074 /\ highest t * 2 ^ 1074 <= amount 1074 (of_z f (highest t)) /\
  float_as t (of_z f (lowest t)) = lowest t /\ float_as t (of_z f (highest t)) = highest t.
Lemma bounds : forall t f, bounds_ok t f.
Proof. intros [] []; unfold bounds_ok; repeat split; try (vm_compute; exact I); try (vm_compute; reflexivity); vm_compute; discriminate. Qed.
Lemma emin_units : forall f, 0 <= SpecFloat.emin (prec f) (emax f) + 1074.
Proof. intros []; cbn; lia. Qed.
Lemma prec_big : forall f, 1 < prec f. Proof. intros []; cbn; lia. Qed.

Lemma inf_ltb : forall s y, finite y -> SFltb (S754_infinity s) y = s /\ SFltb y (S754_infinity s) = negb s.
Proof. intros s [s'|s'| |s' m e] F; try contradiction; destruct s; try destruct s'; split; reflexivity. Qed.

Lemma clamp_spec : forall t f x, valid_binary (prec f) (emax f) x = true ->
  float_becomes t x (float_as t (fclamp x (of_z f (lowest t)) (of_z f (highest t)))).
Proof.
  intros t f x V. destruct (bounds t f) as [FL [FH [VL [VH [AL [AH [BL BH]]]]]]].
  pose proof (range_order t) as R. assert (P : 0 < 2 ^ 1074) by (apply Z.pow_pos_nonneg; lia).
  pose proof (prec_big f) as PB. pose proof (emin_units f) as EU.
  remember (of_z f (lowest t)) as lo eqn:Elo. remember (of_z f (highest t)) as hi eqn:Ehi. clear Elo Ehi.
  assert (LH : SFltb hi lo = false).
  { apply not_true_is_false. intro T. apply (ltb_amount (prec f) (emax f) PB 1074) in T; auto.
    assert (highest t * 2 ^ 1074 < lowest t * 2 ^ 1074) as T' by lia. apply Z.mul_lt_mono_pos_r in T'; lia. }
  unfold fclamp. destruct x as [s|s| |s m e] eqn:EX.
  2: { destruct (inf_ltb s lo FL) as [-> I1]. destruct (inf_ltb s hi FH) as [I2 I3]. destruct s; cbn [float_becomes].
       - rewrite LH. exact BL.
       - rewrite I3. exact BH. }
  2: { cbn. destruct hi; reflexivity. }
  all: assert (FX : finite x) by (rewrite EX; exact I); rewrite <- EX in V |- *;
    pose proof (valid_exponent _ _ V) as E;
    pose proof (toward_zero_drops 1074 x FX E ltac:(lia)) as D; cbv zeta in D; destruct D as [D1 D2];
    assert (G : forall r, closest t (toward_zero x) r -> float_becomes t x r)
      by (intros r Hr; rewrite EX; cbn [float_becomes]; rewrite <- EX; exists (amount 1074 x), (toward_zero x);
          split; [apply finite_units; assumption|split; [split; assumption|exact Hr]]);
    pose proof (clampz_closest t (toward_zero x)) as CC;
    destruct (SFltb x lo) eqn:L1;
    [ rewrite LH, BL; apply G;
      apply (ltb_amount (prec f) (emax f) PB 1074) in L1; auto; rewrite AL in L1;
      pose proof (drops_low _ _ _ (lowest t) P D1 D2 ltac:(lia) L1);
      replace (lowest t) with (clampz t (toward_zero x)) at 1 by (unfold clampz; lia); exact CC
    | destruct (SFltb hi x) eqn:L2;
      [ rewrite BH; apply G;
        apply (ltb_amount (prec f) (emax f) PB 1074) in L2; auto;
        pose proof (drops_high _ _ _ (highest t) P D1 D2 ltac:(lia) ltac:(lia));
        replace (highest t) with (clampz t (toward_zero x)) at 1 by (unfold clampz; lia); exact CC
      | exact (float_as_spec t f x V) ] ].
Qed.
Lemma max0_spec : forall t f x, lowest t = 0 -> valid_binary (prec f) (emax f) x = true -> float_becomes t x (float_as t (fmax0 x)).
Proof.
  intros t f x T0 V. pose proof (range_order t) as R. assert (P : 0 < 2 ^ 1074) by (apply Z.pow_pos_nonneg; lia).
  assert (Z0 : float_as t (S754_zero false) = 0) by (cbn; lia).
  unfold fmax0. destruct x as [s|s| |s m e] eqn:EX.
  - exact (float_as_spec t f _ V).
  - destruct s; cbn; [rewrite T0|reflexivity]. lia.
  - exact Z0.
  - destruct s.
    + cbn [SFltb SFcompare]. unfold SFltb. cbn [SFcompare].
      pose proof (toward_zero_drops 1074 x) as D. rewrite EX in D. specialize (D I (valid_exponent _ _ V) ltac:(lia)).
      cbv zeta in D. destruct D as [D1 D2]. pose proof (size_pos m e 1074 (valid_exponent _ _ V)) as SP.
      assert (N : toward_zero (S754_finite true m e) <= 0).
      { apply (drops_low _ _ _ 0 P D1 D2 ltac:(lia)). cbn [amount]. lia. }
      cbn [float_becomes]. exists (amount 1074 (S754_finite true m e)), (toward_zero (S754_finite true m e)).
      split; [reflexivity|]. split; [split; assumption|]. rewrite Z0.
      pose proof (clampz_closest t (toward_zero (S754_finite true m e))) as CC.
      assert (EQ : clampz t (toward_zero (S754_finite true m e)) = 0) by (clear - N T0 R; unfold clampz; lia).
      rewrite EQ in CC. exact CC.
    + exact (float_as_spec t f _ V).
Qed.
Theorem convert_float_spec : forall t f x, valid_binary (prec f) (emax f) x = true -> float_becomes t x (convert_float t f x).
Proof.
  intros t f x V. unfold convert_float.
  destruct t, f; cbn [float_arm]; first [exact (clamp_spec _ F32 _ V)|exact (clamp_spec _ F64 _ V)
    |exact (max0_spec U64 F32 x eq_refl V)|exact (max0_spec U64 F64 x eq_refl V)|exact (float_as_spec _ F32 _ V)|exact (float_as_spec _ F64 _ V)].
Qed.
Theorem to_integer_spec : forall t s, valid_scalar s -> becomes t s (to_integer t s).
Proof.
  intros t [b|u n|f x] V; cbn [becomes to_integer].
  - reflexivity.
  - rewrite convert_int_spec by exact V. apply clampz_closest.
  - exact (convert_float_spec t f x V).
Qed.
Lemma closest_unique : forall t n r r', closest t n r -> closest t n r' -> r = r'.
Proof. intros. rewrite (closest_eq t n r), (closest_eq t n r'); auto. Qed.
