(** Proofs about the 16- and 8-bit floats: which code is the nearest. *)
From Coq Require Import ZArith Bool SpecFloat Lia Psatz List.
From Verif Require Import SmallFloatModel SmallFloatSpec SmallFloatProofs.
Open Scope Z_scope.

Lemma div_nearest f h b j : 0 < h -> 0 <= f -> b = (f + h) / (2 * h) -> Z.abs (2 * h * b - f) <= Z.abs (2 * h * j - f).
Proof.
  intros H F ->. pose proof (Z.div_mod (f + h) (2 * h) ltac:(lia)) as D. pose proof (Z.mod_pos_bound (f + h) (2 * h) ltac:(lia)) as M.
  set (b := (f + h) / (2 * h)) in *. destruct (Z_lt_le_dec j b) as [L|L]; [|destruct (Z.eq_dec j b) as [->|N]; [lia|]]; nia.
Qed.
(** the number of a packed code *)
Lemma stands_pack f (s : bool) k b : 1 <= mbits f -> 1 <= ebits f -> 1 <= k < top f -> 0 <= b < 2 ^ mbits f ->
  ieee f (pack f s k b) = Some ((if s then -1 else 1) * ((2 ^ mbits f + b) * 2 ^ (k - bias f - mbits f + 149))).
Proof.
  intros HM HE K B. unfold ieee, stands_for, pack, sign_at, top in *. set (P := 2 ^ mbits f) in *. set (Q := 2 ^ ebits f) in *.
  assert (SA : 2 ^ (mbits f + ebits f) = P * Q) by (unfold P, Q; rewrite Z.pow_add_r by lia; ring). rewrite SA.
  set (g := if s then 1 else 0). assert (G : 0 <= g <= 1) by (unfold g; destruct s; lia).
  assert (E1 : (g * (P * Q) + k * P + b) / P = g * Q + k) by (symmetry; apply (Z.div_unique _ _ _ b); [left; lia|ring]).
  assert (E2 : (g * (P * Q) + k * P + b) mod P = b) by (symmetry; apply (Z.mod_unique _ _ (g * Q + k)); [left; lia|ring]).
  assert (E3 : (g * (P * Q) + k * P + b) / (P * Q) = g) by (symmetry; apply (Z.div_unique _ _ _ (k * P + b)); [left; nia|ring]).
  assert (E4 : (g * Q + k) mod Q = k) by (symmetry; apply (Z.mod_unique _ _ g); [left; lia|ring]).
  rewrite E1, E2, E3, E4. rewrite (proj2 (Z.eqb_neq _ _)) by lia. rewrite (proj2 (Z.eqb_neq k 0)) by lia. rewrite Z.max_l by lia.
  assert (E5 : (if g =? 1 then -1 else 1) = (if s then -1 else 1)) by (unfold g; destruct s; reflexivity). now rewrite E5.
Qed.
(** any number of the format is a multiple of the unit of a binade, or below that binade *)
Lemma stands_grid f c w k : 1 <= mbits f -> 1 <= ebits f -> 0 <= c -> bias f + mbits f <= 149 -> 1 <= k -> ieee f c = Some w ->
  (exists j, w = j * 2 ^ (k - bias f - mbits f + 149)) \/ Z.abs w <= 2 ^ mbits f * 2 ^ (k - bias f - mbits f + 149).
Proof.
  intros HM HE C HB K. unfold ieee, stands_for. destruct (_ =? _); [discriminate|]. intros E. injection E as <-.
  set (ex := c / 2 ^ mbits f mod 2 ^ ebits f). set (sg := if _ =? 1 then -1 else 1). assert (SG : sg = 1 \/ sg = -1) by (unfold sg; destruct (_ =? 1); auto).
  pose proof (Z.mod_pos_bound c (2 ^ mbits f) ltac:(apply Z.pow_pos_nonneg; lia)) as MB.
  set (w := if ex =? 0 then c mod 2 ^ mbits f else 2 ^ mbits f + c mod 2 ^ mbits f). assert (W : 0 <= w < 2 * 2 ^ mbits f) by (unfold w; destruct (ex =? 0); lia).
  destruct (Z_lt_le_dec (Z.max ex 1) k) as [L|L].
  - right. replace (k - bias f - mbits f + 149) with ((Z.max ex 1 - bias f - mbits f + 149) + 1 + (k - Z.max ex 1 - 1)) by lia.
    set (x := Z.max ex 1 - bias f - mbits f + 149). assert (X : 0 <= x) by (unfold x; lia). clearbody x.
    rewrite (Z.pow_add_r 2 (x + 1)), (Z.pow_add_r 2 x) by lia. set (a := 2 ^ x). assert (A : 0 < a) by (apply Z.pow_pos_nonneg; lia).
    assert (B : 1 <= 2 ^ (k - Z.max ex 1 - 1)) by (change 1 with (2 ^ 0) at 1; apply Z.pow_le_mono_r; lia). change (2 ^ 1) with 2.
    transitivity (w * a); [destruct SG as [-> | ->]; nia|]. transitivity (2 ^ mbits f * (a * 2)); nia.
  - left. exists (sg * w * 2 ^ (Z.max ex 1 - k)). replace (Z.max ex 1 - bias f - mbits f + 149) with ((Z.max ex 1 - k) + (k - bias f - mbits f + 149)) by lia.
    rewrite (Z.pow_add_r 2 (Z.max ex 1 - k)) by lia. ring.
Qed.

Lemma encode_nearest f (s : bool) m e : 1 <= mbits f <= 10 -> 2 <= ebits f -> bias f + mbits f <= 100 -> 2 ^ 23 <= Z.pos m < 2 ^ 24 -> 1 <= e + 23 + bias f < top f ->
  SFltb (vmax f) (S754_finite false m e) = false -> SFltb (S754_finite false m e) (vmin f) = false -> rounded f m < 2 ^ mbits f ->
  nearest (mbits f) (ebits f) (bias f) ((if s then -1 else 1) * (Z.pos m * 2 ^ (e + 149))) (float_to_small f (S754_finite s m e)).
Proof.
  intros HM HE HB B K X1 X2 HR. rewrite encode_normal by auto. rewrite Z.min_r by lia.
  assert (P : 0 < 2 ^ mbits f) by (apply Z.pow_pos_nonneg; lia).
  set (h := 2 ^ (22 - mbits f)). assert (Hh : 0 < h) by (apply Z.pow_pos_nonneg; lia).
  assert (H2 : 2 ^ (23 - mbits f) = 2 * h) by (unfold h; replace (23 - mbits f) with (1 + (22 - mbits f)) by lia; now rewrite Z.pow_add_r by lia).
  assert (HP : 2 ^ mbits f * (2 * h) = 2 ^ 23) by (rewrite <- H2, <- Z.pow_add_r by lia; f_equal; lia).
  set (fr := Z.pos m - 2 ^ 23). assert (F : 0 <= fr) by (unfold fr; lia).
  assert (Rb : rounded f m = (fr + h) / (2 * h)) by (unfold rounded; rewrite H2; reflexivity).
  assert (R0 : 0 <= rounded f m) by (rewrite Rb; apply Z.div_pos; lia).
  set (b := rounded f m) in *. set (k := e + 23 + bias f) in *.
  set (u := 2 ^ (e + 149)). assert (U : 0 < u) by (apply Z.pow_pos_nonneg; lia).
  assert (GU : 2 ^ (k - bias f - mbits f + 149) = 2 * h * u).
  { rewrite <- H2. unfold u. rewrite <- Z.pow_add_r by lia. f_equal. unfold k. lia. }
  exists ((if s then -1 else 1) * ((2 ^ mbits f + b) * (2 * h * u))). split; [rewrite <- GU; apply stands_pack; lia|].
  intros c w' C Hw. assert (SG : (if s then -1 else 1) = 1 \/ (if s then -1 else 1) = -1) by (destruct s; auto). set (sg := if s then -1 else 1) in *.
  assert (E1 : Z.abs (sg * ((2 ^ mbits f + b) * (2 * h * u)) - sg * (Z.pos m * u)) = Z.abs (2 * h * b - fr) * u).
  { rewrite <- (Z.abs_eq u) at 3 by lia. rewrite <- Z.abs_mul. replace (sg * ((2 ^ mbits f + b) * (2 * h * u)) - sg * (Z.pos m * u)) with (sg * ((2 * h * b - fr) * u)).
    - rewrite Z.abs_mul. destruct SG as [-> | ->]; lia.
    - replace (Z.pos m) with (2 ^ mbits f * (2 * h) + fr) by (unfold fr; lia). ring. }
  rewrite E1. assert (E2 : Z.abs (w' - sg * (Z.pos m * u)) = Z.abs (sg * w' - Z.pos m * u)) by (destruct SG as [-> | ->]; lia). rewrite E2.
  destruct (stands_grid f c w' k) as [(j & J)|L]; try lia; [exact Hw| |].
  - rewrite GU in J. pose proof (div_nearest fr h b (sg * j - 2 ^ mbits f) Hh F Rb) as D.
    assert (E3 : sg * w' - Z.pos m * u = (2 * h * (sg * j - 2 ^ mbits f) - fr) * u) by (rewrite J; replace (Z.pos m) with (2 ^ mbits f * (2 * h) + fr) by (unfold fr; lia); ring).
    rewrite E3, Z.abs_mul, (Z.abs_eq u) by lia. apply Z.mul_le_mono_nonneg_r; lia.
  - rewrite GU in L. pose proof (div_nearest fr h b 0 Hh F Rb) as D. rewrite Z.mul_0_r in D.
    assert (L' : sg * w' <= 2 ^ 23 * u) by (rewrite <- HP; destruct SG as [-> | ->]; lia).
    assert (E4 : Z.pos m * u = 2 ^ 23 * u + fr * u) by (unfold fr; ring). assert (FU : 0 <= fr * u) by (apply Z.mul_nonneg_nonneg; [exact F|apply Z.lt_le_incl, U]).
    transitivity (fr * u).
    + apply Z.mul_le_mono_nonneg_r; [apply Z.lt_le_incl, U|]. clear - D F. lia.
    + rewrite E4. clear - L' FU. generalize dependent (2 ^ 23 * u). intros. lia.
Qed.
(** Rounding up to the next power of two is cut off: a code that is strictly nearer exists. *)
Lemma encode_carry f (s : bool) m e : 1 <= mbits f <= 10 -> 2 <= ebits f -> bias f + mbits f <= 100 -> 2 ^ 23 <= Z.pos m < 2 ^ 24 -> 1 <= e + 23 + bias f -> e + 24 + bias f < top f ->
  SFltb (vmax f) (S754_finite false m e) = false -> SFltb (S754_finite false m e) (vmin f) = false -> 2 ^ 24 - 2 ^ (22 - mbits f) < Z.pos m ->
  ~ nearest (mbits f) (ebits f) (bias f) ((if s then -1 else 1) * (Z.pos m * 2 ^ (e + 149))) (float_to_small f (S754_finite s m e)).
Proof.
  intros HM HE HB B K0 K X1 X2 HR. rewrite encode_normal by (auto; lia).
  assert (P : 0 < 2 ^ mbits f) by (apply Z.pow_pos_nonneg; lia).
  set (h := 2 ^ (22 - mbits f)) in *. assert (Hh : 0 < h) by (apply Z.pow_pos_nonneg; lia).
  assert (H2 : 2 ^ (23 - mbits f) = 2 * h) by (unfold h; replace (23 - mbits f) with (1 + (22 - mbits f)) by lia; now rewrite Z.pow_add_r by lia).
  assert (HP : 2 ^ mbits f * (2 * h) = 2 ^ 23) by (rewrite <- H2, <- Z.pow_add_r by lia; f_equal; lia).
  assert (Rb : rounded f m = 2 ^ mbits f).
  { unfold rounded. fold h. rewrite H2. symmetry. apply (Z.div_unique _ _ _ (Z.pos m - 2 ^ 24 + h)); [left; lia|]. rewrite (Z.mul_comm (2 * h)), HP. lia. }
  rewrite Rb, Z.min_l by lia. set (k := e + 23 + bias f) in *.
  set (u := 2 ^ (e + 149)). assert (U : 0 < u) by (apply Z.pow_pos_nonneg; lia).
  assert (GU : 2 ^ (k - bias f - mbits f + 149) = 2 * h * u) by (rewrite <- H2; unfold u; rewrite <- Z.pow_add_r by lia; f_equal; unfold k; lia).
  assert (GU' : 2 ^ (k + 1 - bias f - mbits f + 149) = 2 * (2 * h * u)) by (rewrite <- GU, <- Z.pow_succ_r by lia; f_equal; lia).
  intros (w & W1 & W2). assert (KT : 1 <= k < top f) by lia.
  pose proof (stands_pack f s k (2 ^ mbits f - 1) ltac:(lia) ltac:(lia) KT ltac:(lia)) as S1. unfold ieee in S1. rewrite W1 in S1. injection S1 as ->.
  pose proof (stands_pack f s (k + 1) 0 ltac:(lia) ltac:(lia) ltac:(lia) ltac:(lia)) as S2. unfold ieee in S2.
  assert (PE : 0 < 2 ^ ebits f) by (apply Z.pow_pos_nonneg; lia).
  assert (C : 0 <= pack f s (k + 1) 0 < 2 ^ (mbits f + ebits f + 1)).
  { unfold pack, sign_at, top in *. rewrite !Z.pow_add_r by lia. change (2 ^ 1) with 2. destruct s; nia. }
  specialize (W2 _ _ C S2). rewrite GU, GU' in W2. change (2 ^ 24) with (2 * 2 ^ 23) in *.
  assert (SG : (if s then -1 else 1) = 1 \/ (if s then -1 else 1) = -1) by (destruct s; auto). set (sg := if s then -1 else 1) in *.
  assert (E1 : (2 ^ mbits f + (2 ^ mbits f - 1)) * (2 * h * u) = (2 * 2 ^ 23 - 2 * h) * u) by (rewrite <- HP; ring).
  assert (E2 : (2 ^ mbits f + 0) * (2 * (2 * h * u)) = (2 * 2 ^ 23) * u) by (rewrite <- HP; ring). rewrite E1, E2 in W2.
  rewrite <- !Z.mul_sub_distr_l, !Z.abs_mul in W2. assert (AS : Z.abs sg = 1) by (destruct SG as [-> | ->]; reflexivity). rewrite AS, !Z.mul_1_l in W2.
  rewrite <- !Z.mul_sub_distr_r, !Z.abs_mul, (Z.abs_eq u) in W2 by lia. apply Z.mul_le_mono_pos_r in W2; [|exact U]. lia.
Qed.

(** ** Round trips *)
Lemma ltb_finite m1 e1 m2 e2 : SFltb (S754_finite false m1 e1) (S754_finite false m2 e2) = true <-> e1 < e2 \/ e1 = e2 /\ Z.pos m1 < Z.pos m2.
Proof.
  unfold SFltb, SFcompare. destruct (Z.compare_spec e1 e2) as [E|L|G].
  - change (Pos.compare_cont Eq m1 m2) with (Pos.compare m1 m2). destruct (Pos.compare_spec m1 m2); split; intros X; try discriminate; try lia; reflexivity.
  - split; [lia|reflexivity].
  - split; [discriminate|lia].
Qed.
Lemma ltb_false m1 e1 m2 e2 : ~ (e1 < e2 \/ e1 = e2 /\ Z.pos m1 < Z.pos m2) -> SFltb (S754_finite false m1 e1) (S754_finite false m2 e2) = false.
Proof. intros N. destruct (SFltb _ _) eqn:E; [|reflexivity]. apply ltb_finite in E. contradiction. Qed.
(** the numbers of the format with a normal exponent pass the two comparisons *)
Definition limits (f : small) : Prop := forall p e j, 2 ^ 23 <= Z.pos p < 2 ^ 24 -> 1 <= e + 23 + bias f < top f -> Z.pos p = j * 2 ^ (23 - mbits f) ->
  SFltb (vmax f) (S754_finite false p e) = false /\ SFltb (S754_finite false p e) (vmin f) = false.
Lemma limits_f16 : limits F16.
Proof.
  intros p e j B K J. change (2 ^ (23 - mbits F16)) with 8192 in J. change (bias F16) with 15 in K. change (top F16) with 31 in K. change (2 ^ 23) with 8388608 in B. change (2 ^ 24) with 16777216 in B.
  change (vmax F16) with (S754_finite false 16769024 (-8)). change (vmin F16) with (S754_finite false 8388608 (-37)). split; apply ltb_false; lia.
Qed.
Lemma limits_f8e4m3 : limits F8E4M3.
Proof.
  intros p e j B K J. change (2 ^ (23 - mbits F8E4M3)) with 1048576 in J. change (bias F8E4M3) with 7 in K. change (top F8E4M3) with 15 in K. change (2 ^ 23) with 8388608 in B. change (2 ^ 24) with 16777216 in B.
  change (vmax F8E4M3) with (S754_finite false 14680064 (-15)). change (vmin F8E4M3) with (S754_finite false 8388608 (-32)). split; apply ltb_false; lia.
Qed.
Lemma limits_f8e5m2 : limits F8E5M2.
Proof.
  intros p e j B K J. change (2 ^ (23 - mbits F8E5M2)) with 2097152 in J. change (bias F8E5M2) with 15 in K. change (top F8E5M2) with 31 in K. change (2 ^ 23) with 8388608 in B. change (2 ^ 24) with 16777216 in B.
  change (vmax F8E5M2) with (S754_finite false 14680064 (-8)). change (vmin F8E5M2) with (S754_finite false 8388608 (-39)). split; apply ltb_false; lia.
Qed.
Lemma roundtrip_normal f c : wellformed f -> limits f -> 0 <= c < 2 ^ (sign_at f + 1) -> 1 <= c / 2 ^ mbits f mod 2 ^ ebits f < top f ->
  float_to_small f (small_to_float f c) = c.
Proof.
  intros WF LM C K. destruct (decode_normal f c WF C K) as (p & E & P). rewrite E. destruct WF as (HM & HE & HB & _).
  set (ex := c / 2 ^ mbits f mod 2 ^ ebits f) in *. set (mt := c mod 2 ^ mbits f) in *.
  assert (PM : 0 < 2 ^ mbits f) by (apply Z.pow_pos_nonneg; lia). assert (PE : 0 < 2 ^ ebits f) by (apply Z.pow_pos_nonneg; lia).
  assert (MT : 0 <= mt < 2 ^ mbits f) by (now apply Z.mod_pos_bound).
  set (h := 2 ^ (22 - mbits f)). assert (Hh : 0 < h) by (apply Z.pow_pos_nonneg; lia).
  assert (H2 : 2 ^ (23 - mbits f) = 2 * h) by (unfold h; replace (23 - mbits f) with (1 + (22 - mbits f)) by lia; now rewrite Z.pow_add_r by lia).
  assert (HP : 2 ^ mbits f * (2 * h) = 2 ^ 23) by (rewrite <- H2, <- Z.pow_add_r by lia; f_equal; lia).
  assert (PB : 2 ^ 23 <= Z.pos p < 2 ^ 24) by (rewrite P, H2; change (2 ^ 24) with (2 ^ 23 + 2 ^ 23); rewrite <- HP; nia).
  assert (KE : ex - bias f - 23 + 23 + bias f = ex) by lia.
  destruct (LM p (ex - bias f - 23) (2 ^ mbits f + mt)) as [L1 L2]; [exact PB|rewrite KE; exact K|rewrite P, H2, <- HP; ring|].
  rewrite encode_normal by (auto; rewrite ?KE; lia || assumption). rewrite KE.
  assert (R : rounded f p = mt).
  { unfold rounded. fold h. rewrite H2, P, H2. symmetry. apply (Z.div_unique _ _ _ h); [left; lia|ring]. }
  rewrite R, Z.min_r by lia. unfold pack.
  assert (SA : 2 ^ sign_at f = 2 ^ mbits f * 2 ^ ebits f) by (unfold sign_at; rewrite Z.pow_add_r by lia; ring).
  assert (D1 : c = 2 ^ mbits f * (c / 2 ^ mbits f) + mt) by (apply Z.div_mod; lia).
  assert (D2 : c / 2 ^ mbits f = 2 ^ ebits f * (c / 2 ^ mbits f / 2 ^ ebits f) + ex) by (apply Z.div_mod; lia).
  rewrite Z.div_div, <- SA in D2 by lia.
  assert (C1 : (if c / 2 ^ sign_at f =? 1 then 1 else 0) = c / 2 ^ sign_at f).
  { rewrite Z.pow_add_r in C by (unfold sign_at; lia). change (2 ^ 1) with 2 in C. assert (0 < 2 ^ sign_at f) by (rewrite SA; nia).
    assert (0 <= c / 2 ^ sign_at f < 2) by (split; [apply Z.div_pos; lia|apply Z.div_lt_upper_bound; lia]). destruct (Z.eqb_spec (c / 2 ^ sign_at f) 1); lia. }
  rewrite C1. rewrite D1 at 2. rewrite D2 at 1. rewrite SA. ring.
Qed.

(** ** bf16 *)
Lemma bf16_parts v lo : 0 <= v -> 0 <= lo < 2 ^ 16 -> let b := v * 2 ^ 16 + lo in
  b / 2 ^ 31 = v / 2 ^ 15 /\ b / 2 ^ 23 = v / 2 ^ 7 /\ b mod 2 ^ 23 = (v mod 2 ^ 7) * 2 ^ 16 + lo.
Proof.
  intros V L b. assert (E : b / 2 ^ 16 = v) by (symmetry; apply (Z.div_unique _ _ _ lo); [left; lia|unfold b; ring]).
  split; [|split].
  - change (2 ^ 31) with (2 ^ 16 * 2 ^ 15). rewrite <- Z.div_div by lia. now rewrite E.
  - change (2 ^ 23) with (2 ^ 16 * 2 ^ 7). rewrite <- Z.div_div by lia. now rewrite E.
  - symmetry. apply (Z.mod_unique _ _ (v / 2 ^ 7)).
    + left. pose proof (Z.mod_pos_bound v (2 ^ 7)). change (2 ^ 23) with (2 ^ 7 * 2 ^ 16). nia.
    + unfold b. rewrite (Z.div_mod v (2 ^ 7)) at 1 by lia. change (2 ^ 23) with (2 ^ 7 * 2 ^ 16). ring.
Qed.
Lemma bf16_read v : 0 <= v -> stands_for 23 8 127 (bf16_to_bits v) = stands_for 7 8 127 v.
Proof.
  intros V. unfold bf16_to_bits. rewrite Z.shiftl_mul_pow2 by lia. destruct (bf16_parts v 0 V ltac:(lia)) as (E1 & E2 & E3). rewrite Z.add_0_r in *.
  unfold stands_for. change (23 + 8) with 31. change (7 + 8) with 15. rewrite E1, E2, E3. set (e := v / 2 ^ 7 mod 2 ^ 8) in *. destruct (e =? _); [reflexivity|]. do 2 f_equal.
  replace (Z.max e 1 - 127 - 7 + 149) with (16 + (Z.max e 1 - 127 - 23 + 149)) by lia. rewrite (Z.pow_add_r 2 16) by lia. destruct (e =? 0); change (2 ^ 23) with (2 ^ 7 * 2 ^ 16); ring.
Qed.
(** the number of a float and of its truncation *)
Lemma some_inj {A} (a b : A) : Some a = Some b -> a = b.
Proof. congruence. Qed.
Lemma bf16_write v lo w : 0 <= v -> 0 <= lo < 2 ^ 16 -> stands_for 7 8 127 v = Some w ->
  let s := if v / 2 ^ 15 =? 1 then -1 else 1 in let u := 2 ^ (Z.max (v / 2 ^ 7 mod 2 ^ 8) 1 - 1) in
  bits_to_bf16 (v * 2 ^ 16 + lo) = v /\ 0 <= s * w /\ stands_for 23 8 127 (v * 2 ^ 16 + lo) = Some (w + s * (lo * u)) /\
  ((v mod 2 ^ 15) < 32639 -> stands_for 7 8 127 (v + 1) = Some (w + s * (2 ^ 16 * u))).
Proof.
  intros V L W s u. split; [|split; [|split]].
  - unfold bits_to_bf16. rewrite Z.shiftr_div_pow2 by lia. symmetry. apply (Z.div_unique _ _ _ lo); [left; lia|ring].
  - unfold stands_for in W. change (7 + 8) with 15 in W. destruct (_ =? 2 ^ 8 - 1); [discriminate|]. apply some_inj in W. subst w. fold s.
    assert (X : 0 <= (if v / 2 ^ 7 mod 2 ^ 8 =? 0 then v mod 2 ^ 7 else 2 ^ 7 + v mod 2 ^ 7) * 2 ^ (Z.max (v / 2 ^ 7 mod 2 ^ 8) 1 - 127 - 7 + 149)).
    { apply Z.mul_nonneg_nonneg; [|apply Z.pow_nonneg; lia]. pose proof (Z.mod_pos_bound v (2 ^ 7)). destruct (_ =? 0); lia. }
    generalize dependent ((if v / 2 ^ 7 mod 2 ^ 8 =? 0 then v mod 2 ^ 7 else 2 ^ 7 + v mod 2 ^ 7) * 2 ^ (Z.max (v / 2 ^ 7 mod 2 ^ 8) 1 - 127 - 7 + 149)). intros x X.
    unfold s. destruct (_ =? 1); lia.
  - destruct (bf16_parts v lo V L) as (E1 & E2 & E3). unfold stands_for in *. change (23 + 8) with 31. change (7 + 8) with 15 in W. rewrite E1, E2, E3.
    set (e := v / 2 ^ 7 mod 2 ^ 8) in *. destruct (e =? _); [discriminate|]. apply some_inj in W. subst w. f_equal. fold s.
    replace (Z.max e 1 - 127 - 7 + 149) with (16 + (Z.max e 1 - 1)) by lia. replace (Z.max e 1 - 127 - 23 + 149) with (Z.max e 1 - 1) by lia. rewrite (Z.pow_add_r 2 16) by lia. fold u.
    destruct (e =? 0); change (2 ^ 23) with (2 ^ 7 * 2 ^ 16); ring.
  - intros N. unfold stands_for in *. change (7 + 8) with 15 in *. set (e := v / 2 ^ 7 mod 2 ^ 8) in *. set (m := v mod 2 ^ 7) in *.
    assert (M : 0 <= m < 128) by (apply (Z.mod_pos_bound v 128); lia). assert (EB : 0 <= e < 256) by (apply (Z.mod_pos_bound _ 256); lia).
    assert (D1 : v = 128 * (v / 2 ^ 7) + m) by (apply (Z.div_mod v 128); lia).
    assert (D2 : v / 2 ^ 7 = 256 * (v / 2 ^ 15) + e).
    { unfold e. change (2 ^ 15) with (2 ^ 7 * 2 ^ 8). rewrite <- Z.div_div by lia. apply (Z.div_mod _ 256); lia. }
    assert (D3 : v mod 2 ^ 15 = 128 * e + m) by (symmetry; apply (Z.mod_unique _ _ (v / 2 ^ 15)); [left; change (2 ^ 15) with 32768; lia|change (2 ^ 15) with 32768 in *; lia]).
    rewrite D3 in N. set (g := v / 2 ^ 15) in *. assert (E0 : (e =? 2 ^ 8 - 1) = false) by (apply Z.eqb_neq; change (2 ^ 8 - 1) with 255; lia). rewrite E0 in W. apply some_inj in W. subst w. fold s.
    assert (G : (v + 1) / 2 ^ 15 = g) by (symmetry; apply (Z.div_unique _ _ _ (128 * e + m + 1)); [left; change (2 ^ 15) with 32768; lia|change (2 ^ 15) with 32768; lia]). rewrite G. fold s.
    destruct (Z.eq_dec m 127) as [M7|M7].
    + assert (A1 : (v + 1) / 2 ^ 7 = v / 2 ^ 7 + 1) by (symmetry; apply (Z.div_unique _ _ _ 0); [left; lia|change (2 ^ 7) with 128 in *; lia]).
      assert (A2 : (v + 1) mod 2 ^ 7 = 0) by (symmetry; apply (Z.mod_unique _ _ (v / 2 ^ 7 + 1)); [left; lia|change (2 ^ 7) with 128 in *; lia]).
      assert (A3 : (v / 2 ^ 7 + 1) mod 2 ^ 8 = e + 1) by (symmetry; apply (Z.mod_unique _ _ g); [left; change (2 ^ 8) with 256; lia|change (2 ^ 8) with 256; lia]).
      rewrite A1, A2, A3. assert (E1 : (e + 1 =? 2 ^ 8 - 1) = false) by (apply Z.eqb_neq; change (2 ^ 8 - 1) with 255; lia). rewrite E1.
      rewrite (proj2 (Z.eqb_neq (e + 1) 0)) by lia. f_equal. rewrite M7. unfold u. replace (Z.max e 1 - 127 - 7 + 149) with (16 + (Z.max e 1 - 1)) by lia.
      rewrite (Z.pow_add_r 2 16) by lia. destruct (Z.eqb_spec e 0) as [Z0|Z0].
      * rewrite Z0. change (Z.max (0 + 1) 1 - 127 - 7 + 149) with (16 + 0). change (Z.max 0 1 - 1) with 0. change (2 ^ (16 + 0)) with (2 ^ 16). change (2 ^ 0) with 1. change (2 ^ 7) with 128. ring.
      * replace (Z.max (e + 1) 1 - 127 - 7 + 149) with (1 + (16 + (Z.max e 1 - 1))) by lia. rewrite (Z.pow_add_r 2 1), (Z.pow_add_r 2 16) by lia. change (2 ^ 7) with 128. change (2 ^ 1) with 2. ring.
    + assert (A1 : (v + 1) / 2 ^ 7 = v / 2 ^ 7) by (symmetry; apply (Z.div_unique _ _ _ (m + 1)); [left; change (2 ^ 7) with 128; lia|change (2 ^ 7) with 128 in *; lia]).
      assert (A2 : (v + 1) mod 2 ^ 7 = m + 1) by (symmetry; apply (Z.mod_unique _ _ (v / 2 ^ 7)); [left; change (2 ^ 7) with 128; lia|change (2 ^ 7) with 128 in *; lia]).
      rewrite A1, A2. fold e. rewrite E0. f_equal. unfold u. replace (Z.max e 1 - 127 - 7 + 149) with (16 + (Z.max e 1 - 1)) by lia. rewrite (Z.pow_add_r 2 16) by lia. destruct (e =? 0); ring.
Qed.
