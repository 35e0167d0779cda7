(** Arithmetic of binary32 on small integers: exact sums, differences and products, and the quotient to nearest. *)
From Coq Require Import ZArith Bool SpecFloat Lia.
From Verif Require Import ScalarModel SmallFloatProofs JsonModel JsonProofs.
From Verif Require ScalarProofs.
Open Scope Z_scope.

(* ---------- rounding with a remainder ---------- *)

(** [m] is [num / den] without its fraction, [l] tells where the fraction lies. *)
Definition inb (m : Z) (l : location) (num den : Z) : Prop :=
  0 < den /\ m * den <= num < (m + 1) * den /\
  match l with
  | loc_Exact => num = m * den
  | loc_Inexact c => num <> m * den /\ c = (2 * num ?= (2 * m + 1) * den)
  end.
Lemma new_location_inb n d : 0 <= n -> 0 < d -> inb (n / d) (new_location d (n mod d)) n d.
Proof.
  intros N D. pose proof (Z.div_mod n d ltac:(lia)) as E. pose proof (Z.mod_pos_bound n d D) as B.
  set (q := n / d) in *. set (r := n mod d) in *. clearbody q r. split; [auto|]. split; [nia|].
  assert (X : (2 * n ?= (2 * q + 1) * d) = (2 * r ?= d)).
  { subst n. replace (2 * (d * q + r)) with (2 * r + 2 * q * d) by ring. replace ((2 * q + 1) * d) with (d + 2 * q * d) by ring.
    destruct (Z.compare_spec (2 * r) d); [apply Z.compare_eq_iff|apply Z.compare_lt_iff|apply Z.compare_gt_iff]; lia. }
  unfold new_location, new_location_even, new_location_odd. destruct (Z.even d) eqn:Ev; destruct (Zeq_bool r 0) eqn:R.
  - apply Zeq_bool_eq in R. nia.
  - apply Zeq_bool_neq in R. split; [nia|]. now symmetry.
  - apply Zeq_bool_eq in R. nia.
  - apply Zeq_bool_neq in R. split; [nia|]. rewrite X. assert (O : d <> 2 * r) by (intros ->; rewrite Z.even_mul in Ev; discriminate).
    destruct (Z.compare_spec (2 * r + 1) d), (Z.compare_spec (2 * r) d); try reflexivity; lia.
Qed.
Lemma shr_1_inb r num den : 0 <= shr_m r -> inb (shr_m r) (loc_of_shr_record r) num den ->
  0 <= shr_m (shr_1 r) /\ inb (shr_m (shr_1 r)) (loc_of_shr_record (shr_1 r)) num (2 * den).
Proof.
  destruct r as [m r s]. cbn [shr_m]. intros M (D & B & L).
  assert (P : exists p b, 0 <= p /\ m = 2 * p + (if b : bool then 1 else 0) /\ shr_1 {| shr_m := m; shr_r := r; shr_s := s |} = {| shr_m := p; shr_r := b; shr_s := r || s |}).
  { destruct m as [|[q|q|]|q]; try lia.
    - exists 0, false. repeat split; lia.
    - exists (Z.pos q), true. repeat split; lia.
    - exists (Z.pos q), false. repeat split; lia.
    - exists 0, true. repeat split; lia. }
  destruct P as (p & b & Pp & Pm & ->). cbn [shr_m]. split; auto. split; [lia|]. split; [destruct b; nia|].
  cbn [loc_of_shr_record] in *.
  destruct b, r, s; cbn [loc_of_shr_record orb] in *;
    try (destruct L as [L1 L2]; symmetry in L2; first [apply Z.compare_lt_iff in L2 | apply Z.compare_gt_iff in L2 | apply Z.compare_eq_iff in L2]);
    try (split; [nia|]; symmetry; first [apply Z.compare_gt_iff; nia | apply Z.compare_lt_iff; nia | apply Z.compare_eq_iff; nia]); nia.
Qed.
Lemma iter_inb p : forall r num den, 0 <= shr_m r -> inb (shr_m r) (loc_of_shr_record r) num den ->
  0 <= shr_m (SpecFloat.iter_pos shr_1 p r) /\
  inb (shr_m (SpecFloat.iter_pos shr_1 p r)) (loc_of_shr_record (SpecFloat.iter_pos shr_1 p r)) num (den * 2 ^ Z.pos p).
Proof.
  induction p; intros r num den M I; cbn [SpecFloat.iter_pos].
  - destruct (shr_1_inb r num den M I) as [M1 I1]. destruct (IHp _ _ _ M1 I1) as [M2 I2]. destruct (IHp _ _ _ M2 I2) as [M3 I3]. split; auto.
    replace (den * 2 ^ Z.pos p~1) with (2 * den * 2 ^ Z.pos p * 2 ^ Z.pos p); auto.
    replace (Z.pos p~1) with (Z.pos p + Z.pos p + 1) by lia. rewrite !Z.pow_add_r by lia. ring.
  - destruct (IHp _ _ _ M I) as [M2 I2]. destruct (IHp _ _ _ M2 I2) as [M3 I3]. split; auto.
    replace (den * 2 ^ Z.pos p~0) with (den * 2 ^ Z.pos p * 2 ^ Z.pos p); auto.
    replace (Z.pos p~0) with (Z.pos p + Z.pos p) by lia. rewrite !Z.pow_add_r by lia. ring.
  - rewrite Z.mul_comm. change (2 ^ 1) with 2. now apply shr_1_inb.
Qed.
Lemma rne_inb m l num den : inb m l num den -> let n := round_nearest_even m l in
  m <= n <= m + 1 /\ - den <= 2 * (n * den - num) <= den.
Proof.
  intros (D & B & L). unfold round_nearest_even. destruct l as [|c]; [lia|]. destruct L as [_ ->].
  destruct (Z.compare_spec (2 * num) ((2 * m + 1) * den)); [destruct (Z.even m)| |]; nia.
Qed.
Lemma loc_record m l : loc_of_shr_record (shr_record_of_loc m l) = l /\ shr_m (shr_record_of_loc m l) = m.
Proof. destruct l as [|[]]; split; reflexivity. Qed.

(** binary32, at least 24 digits, not close to the limits of the exponent: the result is a number of 24 digits at most
    half a unit away. *)
Lemma aux_round s q e l num den : 0 < q -> inb q l num den -> 24 <= Zdigits2 q -> -149 <= Zdigits2 q + e - 24 <= 103 ->
  let n := Zdigits2 q - 24 in
  exists M m e', binary_round_aux 24 128 s q e l = S754_finite s m e' /\
    2 ^ 23 <= M <= 2 ^ 24 /\ - (den * 2 ^ n) <= 2 * (M * (den * 2 ^ n) - num) <= den * 2 ^ n /\
    e + n <= e' /\ M = Z.pos m * 2 ^ (e' - (e + n)) /\ 2 ^ 23 <= Z.pos m < 2 ^ 24.
Proof.
  intros Q0 I Dg Eb n.
  assert (Qb : 2 ^ (Zdigits2 q - 1) <= q < 2 ^ Zdigits2 q).
  { rewrite zdigits_log by lia. pose proof (Z.log2_spec q Q0). replace (Z.log2 q + 1 - 1) with (Z.log2 q) by lia.
    replace (Z.log2 q + 1) with (Z.succ (Z.log2 q)) by lia. lia. }
  assert (N0 : 0 <= n) by (unfold n; lia). assert (P0 : 0 < 2 ^ n) by (apply Z.pow_pos_nonneg; lia).
  unfold binary_round_aux, shr_fexp. assert (F : fexp 24 128 (Zdigits2 q + e) - e = n) by (unfold fexp, n; change (emin 24 128) with (-149); lia).
  rewrite F. destruct (loc_record q l) as [L1 L2].
  assert (H : exists r, shr (shr_record_of_loc q l) e n = (r, e + n) /\ 0 <= shr_m r /\ inb (shr_m r) (loc_of_shr_record r) num (den * 2 ^ n)).
  { destruct n as [|p|p] eqn:En; try lia; unfold shr.
    - exists (shr_record_of_loc q l). rewrite Z.add_0_r. split; [reflexivity|]. rewrite L1, L2. change (2 ^ 0) with 1. rewrite Z.mul_1_r. split; [lia|auto].
    - eexists. split; [reflexivity|]. apply iter_inb; rewrite ?L1, ?L2; auto; lia. }
  destruct H as (r & -> & Rm & Ri). pose proof (rne_inb _ _ _ _ Ri) as R. cbv zeta in R. set (M := round_nearest_even (shr_m r) (loc_of_shr_record r)) in *.
  destruct R as [R1 R2].
  assert (Mb : 2 ^ 23 <= shr_m r < 2 ^ 24).
  { destruct I as (D & B & _). destruct Ri as (D' & B' & _).
    assert (Qn : 2 ^ 23 * 2 ^ n <= q < 2 ^ 24 * 2 ^ n).
    { rewrite <- !Z.pow_add_r by lia. replace (23 + n) with (Zdigits2 q - 1) by (unfold n; lia). replace (24 + n) with (Zdigits2 q) by (unfold n; lia). exact Qb. }
    set (W := 2 ^ n) in *. clearbody W M. clear - Qn B B' D P0. set (x := shr_m r) in *. clearbody x. split.
    - assert (2 ^ 23 * (den * W) < (x + 1) * (den * W)); [|nia].
      assert (2 ^ 23 * W * den <= q * den) by nia. lia.
    - assert (x * (den * W) < 2 ^ 24 * (den * W)); [|nia].
      assert ((q + 1) * den <= 2 ^ 24 * W * den) by nia. lia. }
  assert (MB : 2 ^ 23 <= M <= 2 ^ 24) by lia.
  assert (Dm : M < 2 ^ 24 -> Zdigits2 M = 24).
  { intros H. rewrite zdigits_log by lia. rewrite (Z.log2_unique M 23); [reflexivity|lia|]. change (2 ^ Z.succ 23) with (2 ^ 24). lia. }
  exists M. destruct (Z.eq_dec M (2 ^ 24)) as [E|E].
  - exists 8388608%positive, (e + n + 1). rewrite E. change (Zdigits2 (2 ^ 24)) with 25.
    replace (fexp 24 128 (25 + (e + n)) - (e + n)) with 1 by (unfold fexp; change (emin 24 128) with (-149); unfold n; lia).
    cbn [shr_record_of_loc shr SpecFloat.iter_pos shr_1 shr_m]. change (2 ^ 24) with 16777216. cbn [shr_1 shr_m].
    destruct (Z.leb_spec (e + n + 1) (128 - 24)) as [_|X]; [|unfold n in X; lia].
    split; [reflexivity|]. rewrite E in R2. change (2 ^ 24) with 16777216 in R2. split; [lia|]. split; [lia|]. split; [lia|].
    replace (e + n + 1 - (e + n)) with 1 by lia. lia.
  - exists (Z.to_pos M), (e + n). rewrite Dm by lia.
    replace (fexp 24 128 (24 + (e + n)) - (e + n)) with 0 by (unfold fexp; change (emin 24 128) with (-149); unfold n; lia).
    cbn [shr_record_of_loc shr shr_m]. destruct M as [|p|p]; try lia. destruct (Z.leb_spec (e + n) (128 - 24)) as [_|X]; [|unfold n in X; lia].
    split; [reflexivity|]. split; [lia|]. split; [lia|]. split; [lia|]. rewrite Z.sub_diag, Z.mul_1_r. cbn [Z.to_pos]. split; lia.
Qed.

(* ---------- integers of at most 24 digits ---------- *)

Definition tiny (n : Z) : Prop := Z.abs n < 2 ^ 24.
Definition fz (n : Z) : spec_float := of_z F32 n.
Definition form (p n : Z) : spec_float :=
  if n =? 0 then S754_zero false
  else let d := Zdigits2 (Z.abs n) in S754_finite (n <? 0) (Z.to_pos (Z.abs n * 2 ^ (p - d))) (d - p).
Lemma digits_tiny n : n <> 0 -> tiny n -> 1 <= Zdigits2 (Z.abs n) <= 24 /\ 2 ^ (Zdigits2 (Z.abs n) - 1) <= Z.abs n < 2 ^ Zdigits2 (Z.abs n).
Proof.
  intros N T. rewrite zdigits_log by lia. pose proof (Z.log2_spec (Z.abs n) ltac:(lia)) as L. pose proof (Z.log2_nonneg (Z.abs n)).
  assert (Z.log2 (Z.abs n) < 24) by (apply Z.log2_lt_pow2; [lia|exact T]). replace (Z.log2 (Z.abs n) + 1 - 1) with (Z.log2 (Z.abs n)) by lia.
  replace (Z.log2 (Z.abs n) + 1) with (Z.succ (Z.log2 (Z.abs n))) by lia. lia.
Qed.
Lemma norm_form f n k b : tiny n -> n <> 0 -> 0 <= k -> binary_normalize (prec f) (emax f) (n * 2 ^ k) (- k) b = form (prec f) n.
Proof.
  intros T N K. destruct (digits_tiny n N T) as [D B]. unfold form. destruct (Z.eqb_spec n 0); [lia|]. cbv zeta.
  set (d := Zdigits2 (Z.abs n)) in *. assert (P : 0 < 2 ^ k) by (apply Z.pow_pos_nonneg; lia).
  assert (X : forall q s, Z.pos q = Z.abs n * 2 ^ k -> binary_round (prec f) (emax f) s q (- k) = S754_finite s (Z.to_pos (Z.abs n * 2 ^ (prec f - d))) (d - prec f)).
  { intros q s Q. rewrite (round_value (prec f) (emax f) s (Z.abs n) k (- k) q (d - prec f)); auto; try lia.
    - f_equal. f_equal. f_equal. f_equal. lia.
    - unfold fexp. fold d. destruct f; cbn [prec emax]; [change (emin 24 128) with (-149)|change (emin 53 1024) with (-1074)]; lia.
    - destruct f; cbn [prec]; lia.
    - destruct f; cbn [prec emax]; lia. }
  unfold binary_normalize. destruct (n * 2 ^ k) as [|q|q] eqn:E; [nia| |]; destruct (Z.ltb_spec n 0); try nia; apply X; nia.
Qed.
Lemma of_z_form f n : tiny n -> of_z f n = form (prec f) n.
Proof.
  intros T. destruct (Z.eq_dec n 0) as [->|N]; [reflexivity|]. unfold of_z. rewrite <- (norm_form f n 0 false); auto; try lia.
  now rewrite Z.mul_1_r.
Qed.
Lemma fz_form n : tiny n -> fz n = form 24 n.
Proof. exact (of_z_form F32 n). Qed.
Lemma aligned a ez : a <> 0 -> tiny a -> ez <= Zdigits2 (Z.abs a) - 24 ->
  cond_Zopp (a <? 0) (Z.pos (fst (shl_align (Z.to_pos (Z.abs a * 2 ^ (24 - Zdigits2 (Z.abs a)))) (Zdigits2 (Z.abs a) - 24) ez))) = a * 2 ^ (- ez).
Proof.
  intros N T E. destruct (digits_tiny a N T) as [D B]. set (d := Zdigits2 (Z.abs a)) in *.
  rewrite align_pos by lia. assert (P : 0 < 2 ^ (24 - d)) by (apply Z.pow_pos_nonneg; lia).
  rewrite Z2Pos.id by (apply Z.mul_pos_pos; lia). rewrite <- Z.mul_assoc, <- Z.pow_add_r by lia.
  replace (24 - d + (d - 24 - ez)) with (- ez) by lia. unfold cond_Zopp. destruct (Z.ltb_spec a 0); [rewrite Z.abs_neq by lia|rewrite Z.abs_eq by lia]; lia.
Qed.
Lemma add_fz a b : tiny a -> tiny b -> tiny (a + b) -> SFadd 24 128 (fz a) (fz b) = fz (a + b).
Proof.
  intros A B C. destruct (Z.eq_dec a 0) as [->|Na]; [|destruct (Z.eq_dec b 0) as [->|Nb]].
  - change (fz 0) with (S754_zero false). rewrite Z.add_0_l. rewrite fz_form by auto. unfold form. destruct (Z.eqb_spec b 0); reflexivity.
  - change (fz 0) with (S754_zero false). rewrite Z.add_0_r. rewrite fz_form by auto. unfold form. destruct (Z.eqb_spec a 0); reflexivity.
  - rewrite !(fz_form a), !(fz_form b) by auto. unfold form. destruct (Z.eqb_spec a 0), (Z.eqb_spec b 0); try lia. cbv zeta. unfold SFadd. cbv zeta.
    destruct (digits_tiny a Na A) as [Da _], (digits_tiny b Nb B) as [Db _].
    set (ez := Z.min _ _). rewrite !aligned by (auto; unfold ez; lia). rewrite <- Z.mul_add_distr_r.
    destruct (Z.eq_dec (a + b) 0) as [E|E]; [rewrite E; reflexivity|]. rewrite fz_form by auto.
    change (form 24 (a + b)) with (form (prec F32) (a + b)).
    rewrite <- (norm_form F32 (a + b) (- ez) false); auto; [|unfold ez; lia]. now rewrite Z.opp_involutive.
Qed.
Lemma sub_fz a b : tiny a -> tiny b -> tiny (a - b) -> SFsub 24 128 (fz a) (fz b) = fz (a - b).
Proof.
  intros A B C. destruct (Z.eq_dec b 0) as [->|Nb].
  - change (fz 0) with (S754_zero false). rewrite Z.sub_0_r. rewrite fz_form by auto. unfold form. destruct (Z.eqb_spec a 0); reflexivity.
  - assert (O : fz (- b) = SFopp (fz b)).
    { rewrite !fz_form by (auto; unfold tiny in *; lia). unfold form. destruct (Z.eqb_spec b 0), (Z.eqb_spec (- b) 0); try lia. cbv zeta.
      rewrite Z.abs_opp. cbn [SFopp]. f_equal. destruct (Z.ltb_spec b 0), (Z.ltb_spec (- b) 0); try lia; reflexivity. }
    replace (a - b) with (a + - b) by lia. rewrite <- add_fz, O; unfold tiny in *; try lia.
    rewrite (fz_form a), (fz_form b) by auto. unfold form. destruct (Z.eqb_spec a 0), (Z.eqb_spec b 0); try lia; cbv zeta; try reflexivity.
    cbn [SFopp]. unfold SFsub, SFadd. cbv zeta. f_equal. unfold cond_Zopp. destruct (b <? 0); cbn [negb]; lia.
Qed.

Definition some_zero (x : spec_float) : Prop := match x with S754_zero _ => True | _ => False end.
Lemma mul_fz a b : tiny a -> tiny b -> tiny (a * b) -> a * b <> 0 -> SFmul 24 128 (fz a) (fz b) = fz (a * b).
Proof.
  intros A B C N. assert (Na : a <> 0) by nia. assert (Nb : b <> 0) by nia.
  destruct (digits_tiny a Na A) as [Da Ba], (digits_tiny b Nb B) as [Db Bb], (digits_tiny _ N C) as [Dc Bc].
  rewrite !fz_form by auto. unfold form. destruct (Z.eqb_spec a 0), (Z.eqb_spec b 0), (Z.eqb_spec (a * b) 0); try lia. cbv zeta.
  set (da := Zdigits2 (Z.abs a)) in *. set (db := Zdigits2 (Z.abs b)) in *. set (dc := Zdigits2 (Z.abs (a * b))) in *.
  assert (Pa : 0 < 2 ^ (24 - da)) by (apply Z.pow_pos_nonneg; lia). assert (Pb : 0 < 2 ^ (24 - db)) by (apply Z.pow_pos_nonneg; lia).
  assert (Pc : 0 < 2 ^ (24 - dc)) by (apply Z.pow_pos_nonneg; lia).
  unfold SFmul. rewrite Pos2Z.inj_mul, !Z2Pos.id by (apply Z.mul_pos_pos; lia).
  assert (da + db <= dc + 1).
  { destruct (Z_le_gt_dec (da + db) (dc + 1)) as [|G]; auto. exfalso.
    assert (H : 2 ^ dc <= 2 ^ (da - 1 + (db - 1))) by (apply Z.pow_le_mono_r; lia). rewrite (Z.pow_add_r 2 (da - 1) (db - 1)) in H by lia.
    rewrite Z.abs_mul in Bc. assert (0 <= 2 ^ (da - 1)) by (apply Z.pow_nonneg; lia). assert (0 <= 2 ^ (db - 1)) by (apply Z.pow_nonneg; lia).
    pose proof (Z.mul_le_mono_nonneg (2 ^ (da - 1)) (Z.abs a) (2 ^ (db - 1)) (Z.abs b)). lia. }
  replace (Z.abs a * 2 ^ (24 - da) * (Z.abs b * 2 ^ (24 - db))) with (Z.abs (a * b) * 2 ^ (24 - dc) * 2 ^ (24 + dc - da - db)).
  2:{ rewrite Z.abs_mul. replace (Z.abs a * 2 ^ (24 - da) * (Z.abs b * 2 ^ (24 - db))) with (Z.abs a * Z.abs b * (2 ^ (24 - da) * 2 ^ (24 - db))) by ring.
      rewrite <- Z.mul_assoc, <- !Z.pow_add_r by lia. do 2 f_equal. lia. }
  rewrite aux_gen.
  - f_equal; [|lia]. clear - n n0. destruct (Z.ltb_spec a 0), (Z.ltb_spec b 0), (Z.ltb_spec (a * b) 0); cbn; try reflexivity; nia.
  - apply Z.mul_pos_pos; lia.
  - lia.
  - rewrite zdigits_mul by lia. fold dc. unfold fexp. change (emin 24 128) with (-149). lia.
  - lia.
Qed.
Lemma mul_fz_zero a b : tiny a -> tiny b -> a * b = 0 -> some_zero (SFmul 24 128 (fz a) (fz b)).
Proof.
  intros A B E. rewrite !fz_form by auto. unfold form. destruct (Z.eqb_spec a 0), (Z.eqb_spec b 0); cbv zeta; cbn; auto. nia.
Qed.
Lemma add_some_zero a z : tiny a -> some_zero z -> SFadd 24 128 (fz a) z = fz a.
Proof. intros A Z. destruct z as [s| | |]; try contradiction. rewrite fz_form by auto. unfold form. destruct (Z.eqb_spec a 0), s; reflexivity. Qed.
Lemma term_fz a h i : tiny a -> tiny h -> tiny i -> tiny (h * i) -> tiny (a + h * i) ->
  SFadd 24 128 (fz a) (SFmul 24 128 (fz h) (fz i)) = fz (a + h * i).
Proof.
  intros A H I P S. destruct (Z.eq_dec (h * i) 0) as [E|E].
  - rewrite add_some_zero, E, Z.add_0_r; auto. now apply mul_fz_zero.
  - rewrite mul_fz, add_fz; auto.
Qed.
(** The value of a small integer in binary32, and its comparison. *)
Lemma fz_valid n : tiny n -> ScalarProofs.finite (fz n) /\ valid_binary 24 128 (fz n) = true.
Proof.
  intros T. rewrite fz_form by auto. unfold form. destruct (Z.eqb_spec n 0); [split; [exact I|reflexivity]|]. cbv zeta. split; [exact I|].
  destruct (digits_tiny n n0 T) as [D B]. set (d := Zdigits2 (Z.abs n)) in *. unfold valid_binary, bounded, canonical_mantissa.
  assert (P : 0 < 2 ^ (24 - d)) by (apply Z.pow_pos_nonneg; lia).
  assert (E : Z.pos (digits2_pos (Z.to_pos (Z.abs n * 2 ^ (24 - d)))) = 24).
  { change (Z.pos (digits2_pos (Z.to_pos (Z.abs n * 2 ^ (24 - d))))) with (Zdigits2 (Z.pos (Z.to_pos (Z.abs n * 2 ^ (24 - d))))).
    rewrite Z2Pos.id by (apply Z.mul_pos_pos; lia). rewrite zdigits_mul by lia. fold d. lia. }
  rewrite E. unfold fexp. change (emin 24 128) with (-149). apply andb_true_intro. split; [apply Zeq_is_eq_bool; lia|apply Z.leb_le; lia].
Qed.
Lemma fz_amount K n : 24 <= K -> tiny n -> ScalarProofs.amount K (fz n) = n * 2 ^ K.
Proof.
  intros HK T. rewrite fz_form by auto. unfold form. destruct (Z.eqb_spec n 0); [subst; reflexivity|]. cbv zeta.
  destruct (digits_tiny n n0 T) as [D B]. set (d := Zdigits2 (Z.abs n)) in *. cbn [ScalarProofs.amount]. unfold ScalarProofs.size.
  assert (P : 0 < 2 ^ (24 - d)) by (apply Z.pow_pos_nonneg; lia).
  rewrite Z2Pos.id by (apply Z.mul_pos_pos; lia). rewrite <- Z.mul_assoc, <- Z.pow_add_r by lia. replace (24 - d + (d - 24 + K)) with K by lia.
  destruct (Z.ltb_spec n 0); [rewrite Z.abs_neq by lia|rewrite Z.abs_eq by lia]; lia.
Qed.
Lemma ltb_fz a b : tiny a -> tiny b -> SFltb (fz a) (fz b) = (a <? b).
Proof.
  intros A B. destruct (fz_valid a A) as [A1 A2], (fz_valid b B) as [B1 B2].
  pose proof (ScalarProofs.ltb_amount 24 128 ltac:(lia) 149 (fz a) (fz b) A1 B1 A2 B2 ltac:(discriminate)) as H.
  rewrite !fz_amount in H by (auto; lia). assert (0 < 2 ^ 149) by reflexivity.
  destruct (SFltb (fz a) (fz b)), (Z.ltb_spec a b); try reflexivity; [apply proj1 in H; specialize (H eq_refl)|apply proj2 in H; apply H]; nia.
Qed.
Lemma leb_ltb x y : ScalarProofs.finite x -> ScalarProofs.finite y -> SFleb x y = negb (SFltb y x).
Proof.
  intros X Y. unfold SFleb, SFltb. destruct x as [sx|sx| |sx mx ex], y as [sy|sy| |sy my ey]; try contradiction; cbn [SFcompare]; try (destruct sx); try (destruct sy); try reflexivity.
  - rewrite (Z.compare_antisym ex ey). destruct (ex ?= ey); cbn [CompOpp]; try reflexivity.
    change (Pos.compare_cont Eq my mx) with (Pos.compare my mx). change (Pos.compare_cont Eq mx my) with (Pos.compare mx my).
    rewrite (Pos.compare_antisym mx my). destruct (Pos.compare mx my); reflexivity.
  - rewrite (Z.compare_antisym ex ey). destruct (ex ?= ey); cbn [CompOpp]; try reflexivity.
    change (Pos.compare_cont Eq my mx) with (Pos.compare my mx). change (Pos.compare_cont Eq mx my) with (Pos.compare mx my).
    rewrite (Pos.compare_antisym mx my). destruct (Pos.compare mx my); reflexivity.
Qed.
Lemma leb_fz a b : tiny a -> tiny b -> SFleb (fz a) (fz b) = (a <=? b).
Proof.
  intros A B. destruct (fz_valid a A) as [A1 A2], (fz_valid b B) as [B1 B2]. rewrite leb_ltb, ltb_fz by auto. symmetry. apply Z.leb_antisym.
Qed.
Lemma eqb_fz_zero a : tiny a -> SFeqb (fz a) (S754_zero false) = (a =? 0).
Proof. intros A. rewrite fz_form by auto. unfold form. destruct (Z.eqb_spec a 0); [reflexivity|]. cbv zeta. cbn. destruct (a <? 0); reflexivity. Qed.
Lemma toward_zero_fz a : tiny a -> toward_zero (fz a) = a.
Proof.
  intros A. destruct (fz_valid a A) as [A1 A2].
  pose proof (ScalarProofs.toward_zero_drops 24 (fz a) A1) as H. cbv zeta in H. rewrite fz_amount in H by (auto; lia).
  destruct H as [H1 H2]; [|lia|].
  - rewrite fz_form by auto. unfold form. destruct (Z.eqb_spec a 0); cbv zeta; auto. destruct (digits_tiny a n A). lia.
  - rewrite Z.abs_mul, (Z.abs_eq (2 ^ 24)) in H2 by lia. change (2 ^ 24) with 16777216 in *. nia.
Qed.

(* ---------- the quotient of two integers ---------- *)

Lemma div_fz a b : a <> 0 -> b <> 0 -> tiny a -> tiny b ->
  exists M F m e, SFdiv 24 128 (fz a) (fz b) = S754_finite (xorb (a <? 0) (b <? 0)) m e /\
    0 <= F /\ Z.abs b < 2 ^ (F + 1) /\ - Z.abs b <= 2 * (M * Z.abs b - Z.abs a * 2 ^ F) <= Z.abs b /\
    - F <= e /\ M = Z.pos m * 2 ^ (e + F) /\ 2 ^ 23 <= Z.pos m < 2 ^ 24.
Proof.
  intros Na Nb A B. destruct (digits_tiny a Na A) as [Da Ba], (digits_tiny b Nb B) as [Db Bb].
  rewrite !fz_form by auto. unfold form. destruct (Z.eqb_spec a 0) as [?|_], (Z.eqb_spec b 0) as [?|_]; try lia. cbv zeta.
  set (da := Zdigits2 (Z.abs a)) in *. set (db := Zdigits2 (Z.abs b)) in *.
  assert (Pa : 0 < 2 ^ (24 - da)) by (apply Z.pow_pos_nonneg; lia). assert (Pb : 0 < 2 ^ (24 - db)) by (apply Z.pow_pos_nonneg; lia).
  set (ma := Z.abs a * 2 ^ (24 - da)). set (mb := Z.abs b * 2 ^ (24 - db)).
  assert (Ma : 0 < ma) by (apply Z.mul_pos_pos; lia). assert (Mb : 0 < mb) by (apply Z.mul_pos_pos; lia).
  assert (Ga : Zdigits2 ma = 24) by (unfold ma; rewrite zdigits_mul by lia; fold da; lia).
  assert (Gb : Zdigits2 mb = 24) by (unfold mb; rewrite zdigits_mul by lia; fold db; lia).
  pose proof (digits24 ma 24 Ma Ga) as Ra. pose proof (digits24 mb 24 Mb Gb) as Rb. change (24 - 1) with 23 in Ra, Rb.
  unfold SFdiv, SFdiv_core_binary. rewrite !Z2Pos.id by auto. rewrite Ga, Gb.
  replace (fexp 24 128 (24 + (da - 24) - (24 + (db - 24)))) with (da - db - 24) by (unfold fexp; change (emin 24 128) with (-149); lia).
  replace (Z.min (da - db - 24) (da - 24 - (db - 24))) with (da - db - 24) by lia.
  replace (da - 24 - (db - 24) - (da - db - 24)) with 24 by lia. cbv zeta. cbn beta iota.
  rewrite Z.shiftl_mul_pow2 by lia. set (x := ma * 2 ^ 24).
  pose proof (Z.div_mod x mb ltac:(lia)) as E. pose proof (Z.mod_pos_bound x mb Mb) as Rm.
  replace (Z.div_eucl x mb) with (x / mb, x mod mb) by (unfold Z.div, Z.modulo; destruct (Z.div_eucl x mb); reflexivity).
  cbn beta iota. pose proof (new_location_inb x mb ltac:(unfold x; lia) Mb) as I. set (q := x / mb) in *.
  assert (Q : 2 ^ 23 <= q < 2 ^ 25) by (unfold x in *; clearbody q ma mb; clear - E Rm Ra Rb; change (2 ^ 23) with 8388608 in *; change (2 ^ 24) with 16777216 in *; change (2 ^ 25) with 33554432 in *; nia).
  assert (G : 24 <= Zdigits2 q <= 25).
  { rewrite zdigits_log by lia. destruct (Z_lt_le_dec q (2 ^ 24)).
    - rewrite (Z.log2_unique q 23); [lia|lia|]. change (2 ^ Z.succ 23) with (2 ^ 24). lia.
    - rewrite (Z.log2_unique q 24); [lia|lia|]. change (2 ^ Z.succ 24) with (2 ^ 25). lia. }
  destruct (aux_round (xorb (a <? 0) (b <? 0)) q (da - db - 24) _ x mb ltac:(lia) I ltac:(lia) ltac:(lia)) as (M & m & e & R1 & R2 & R3 & R4 & R5 & R6).
  set (n := Zdigits2 q - 24) in *. exists M, (24 + db - da - n), m, e. split; [exact R1|].
  assert (F0 : 0 <= 24 + db - da - n) by (unfold n; lia). split; [exact F0|].
  split. { eapply Z.lt_le_trans; [apply Bb|]. apply Z.pow_le_mono_r; [lia|]. unfold n; lia. }
  split; [|split; [lia|split; [|exact R6]]].
  - assert (X1 : mb * 2 ^ n = Z.abs b * 2 ^ (24 - db + n)) by (unfold mb; rewrite <- Z.mul_assoc, <- Z.pow_add_r by (unfold n; lia); reflexivity).
    assert (X2 : x = Z.abs a * 2 ^ (24 + db - da - n) * 2 ^ (24 - db + n)).
    { unfold x, ma. rewrite <- !Z.mul_assoc, <- !Z.pow_add_r by (unfold n; lia). do 2 f_equal. lia. }
    rewrite X1, X2 in R3. assert (P : 0 < 2 ^ (24 - db + n)) by (apply Z.pow_pos_nonneg; unfold n; lia).
    set (W := 2 ^ (24 - db + n)) in *. set (V := Z.abs a * 2 ^ (24 + db - da - n)) in *. clearbody W V. clear - R3 P. nia.
  - rewrite R5. do 2 f_equal. lia.
Qed.
Lemma div_exact a b c : a = c * b -> c <> 0 -> b <> 0 -> tiny a -> tiny b -> SFdiv 24 128 (fz a) (fz b) = fz c.
Proof.
  intros E Nc Nb A B. assert (Na : a <> 0) by nia. assert (C : tiny c) by (unfold tiny in *; rewrite E, Z.abs_mul in A; nia).
  destruct (div_fz a b Na Nb A B) as (M & F & m & e & R & F0 & _ & R1 & R2 & R3 & R4). rewrite R.
  assert (P : 0 < 2 ^ F) by (apply Z.pow_pos_nonneg; lia).
  assert (X : M = Z.abs c * 2 ^ F).
  { rewrite E, Z.abs_mul in R1. assert (K : 2 * (M * Z.abs b - Z.abs c * Z.abs b * 2 ^ F) = 2 * (M - Z.abs c * 2 ^ F) * Z.abs b) by ring.
    rewrite K in R1. set (y := M - Z.abs c * 2 ^ F) in *. assert (y = 0); [|lia]. clearbody y. clear - R1 Nb. nia. }
  destruct (digits_tiny c Nc C) as [Dc Bc]. rewrite fz_form by auto. unfold form. destruct (Z.eqb_spec c 0); [lia|]. cbv zeta. set (d := Zdigits2 (Z.abs c)) in *.
  assert (Y : e = d - 24).
  { assert (Y1 : Zdigits2 M = 24 + (e + F)).
    { rewrite R3, zdigits_mul by lia. f_equal. rewrite zdigits_log by lia. rewrite (Z.log2_unique (Z.pos m) 23); [lia|lia|]. change (2 ^ Z.succ 23) with (2 ^ 24). lia. }
    rewrite X, zdigits_mul in Y1 by lia. fold d in Y1. lia. }
  assert (Z1 : Z.pos m = Z.abs c * 2 ^ (24 - d)).
  { rewrite X in R3. replace F with ((24 - d) + (e + F)) in R3 at 1 by lia. rewrite Z.pow_add_r, Z.mul_assoc in R3 by lia.
    apply Z.mul_cancel_r in R3; auto. apply Z.pow_nonzero; lia. }
  f_equal; [|rewrite <- Z1; reflexivity|exact Y].
  rewrite E. clear - Nc Nb. destruct (Z.ltb_spec (c * b) 0), (Z.ltb_spec b 0), (Z.ltb_spec c 0); cbn; try reflexivity; nia.
Qed.
