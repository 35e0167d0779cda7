(** Proofs about the 16- and 8-bit floats: the arithmetic of the conversions is exact. *)
From Coq Require Import ZArith Bool SpecFloat Lia Psatz List.
From Verif Require Import SmallFloatModel SmallFloatSpec.
Import ListNotations.
Open Scope Z_scope.

Lemma digits_log p : Z.pos (digits2_pos p) = Z.log2 (Z.pos p) + 1.
Proof.
  induction p; cbn [digits2_pos]; try reflexivity; rewrite Pos2Z.inj_succ, IHp.
  - change (Z.pos p~1) with (2 * Z.pos p + 1). rewrite Z.log2_succ_double by lia. lia.
  - change (Z.pos p~0) with (2 * Z.pos p). rewrite Z.log2_double by lia. lia.
Qed.
Lemma zdigits_log m : 0 < m -> Zdigits2 m = Z.log2 m + 1.
Proof. destruct m; try lia. intros _. apply digits_log. Qed.
Lemma zdigits_mul m k : 0 < m -> 0 <= k -> Zdigits2 (m * 2 ^ k) = Zdigits2 m + k.
Proof. intros P K. assert (0 < 2 ^ k) by (apply Z.pow_pos_nonneg; lia). rewrite !zdigits_log, Z.log2_mul_pow2 by nia. lia. Qed.

Lemma shr_exact p : forall m, 0 < m ->
  SpecFloat.iter_pos shr_1 p {| shr_m := m * 2 ^ Z.pos p; shr_r := false; shr_s := false |} = {| shr_m := m; shr_r := false; shr_s := false |}.
Proof.
  assert (E1 : forall m, 0 < m -> shr_1 {| shr_m := m * 2; shr_r := false; shr_s := false |} = {| shr_m := m; shr_r := false; shr_s := false |}).
  { intros m P. destruct m; try lia. cbn. rewrite Pos.mul_comm. reflexivity. }
  induction p; intros m P; cbn [SpecFloat.iter_pos].
  - replace (m * 2 ^ Z.pos p~1) with (((m * 2 ^ Z.pos p) * 2 ^ Z.pos p) * 2).
    + assert (0 < 2 ^ Z.pos p) by (apply Z.pow_pos_nonneg; lia). rewrite E1 by nia. rewrite IHp by nia. now apply IHp.
    + replace (Z.pos p~1) with (Z.pos p + Z.pos p + 1) by lia. rewrite !Z.pow_add_r by lia. ring.
  - replace (m * 2 ^ Z.pos p~0) with ((m * 2 ^ Z.pos p) * 2 ^ Z.pos p).
    + assert (0 < 2 ^ Z.pos p) by (apply Z.pow_pos_nonneg; lia). rewrite IHp by nia. now apply IHp.
    + replace (Z.pos p~0) with (Z.pos p + Z.pos p) by lia. rewrite !Z.pow_add_r by lia. ring.
  - change (2 ^ 1) with 2. now apply E1.
Qed.

Lemma shr_fexp_exact m k e : 0 < m -> 0 <= k -> fexp 24 128 (Zdigits2 m + k + e) = e + k ->
  shr_fexp 24 128 (m * 2 ^ k) e loc_Exact = ({| shr_m := m; shr_r := false; shr_s := false |}, e + k).
Proof.
  intros P K F. unfold shr_fexp. rewrite zdigits_mul by auto. rewrite F. replace (e + k - e) with k by lia. cbn [shr_record_of_loc].
  destruct k as [|p|p]; try lia; unfold shr.
  - rewrite Z.mul_1_r, Z.add_0_r. reflexivity.
  - now rewrite shr_exact.
Qed.
Lemma aux_exact s m k e : 0 < m -> 0 <= k -> fexp 24 128 (Zdigits2 m + k + e) = e + k -> e + k <= 104 ->
  binary_round_aux 24 128 s (m * 2 ^ k) e loc_Exact = S754_finite s (Z.to_pos m) (e + k).
Proof.
  intros P K F B. unfold binary_round_aux. rewrite shr_fexp_exact by auto. cbn [shr_m loc_of_shr_record round_nearest_even].
  pose proof (shr_fexp_exact m 0 (e + k) P ltac:(lia)) as E. rewrite Z.mul_1_r in E. rewrite E by (replace (Zdigits2 m + 0 + (e + k)) with (Zdigits2 m + k + e) by lia; lia).
  cbn [shr_m]. rewrite Z.add_0_r. destruct m; try lia. change (128 - 24) with 104. destruct (Z.leb_spec (e + k) 104); [reflexivity|lia].
Qed.
(** A number of at most 24 bits times a power of two is not rounded. *)
Lemma round_exact s n j e q : 0 < n < 2 ^ 24 -> 0 <= j -> -149 <= e + j <= 80 -> Z.pos q = n * 2 ^ j ->
  exists m e', binary_round 24 128 s q e = S754_finite s m e' /\ e' <= e + j /\ Z.pos m = n * 2 ^ (e + j - e').
Proof.
  intros N J B Q. unfold binary_round. set (d := Zdigits2 n).
  assert (D : Z.pos (digits2_pos q) = d + j).
  { change (Z.pos (digits2_pos q)) with (Zdigits2 (Z.pos q)). rewrite Q. apply zdigits_mul; lia. }
  assert (D1 : 1 <= d <= 24).
  { unfold d. rewrite zdigits_log by lia. pose proof (Z.log2_nonneg n). assert (Z.log2 n < 24) by (apply Z.log2_lt_pow2; lia). lia. }
  rewrite D. set (t := fexp 24 128 (d + j + e)). assert (T : t = Z.max (d + j + e - 24) (-149)) by reflexivity. unfold shl_align.
  destruct (Z_lt_le_dec t e) as [L|L].
  - destruct (t - e) as [|r|r] eqn:R; try lia.
    assert (SH : Z.pos (shift_pos r q) = Z.pos q * 2 ^ Z.pos r) by (now rewrite shift_pos_correct, Z.pow_pos_fold, Z.mul_comm).
    assert (C : Z.pos (shift_pos r q) = n * 2 ^ (e + j - t)).
    { rewrite SH, Q. replace (e + j - t) with (j + Z.pos r) by lia. rewrite Z.pow_add_r by lia. ring. }
    pose proof (aux_exact s (Z.pos (shift_pos r q)) 0 t ltac:(lia) ltac:(lia)) as A. rewrite Z.mul_1_r in A. rewrite A.
    + exists (shift_pos r q), t. rewrite Z.add_0_r. split; [reflexivity|]. split; [lia|assumption].
    + rewrite C, zdigits_mul by lia. fold d. unfold fexp. change (emin 24 128) with (-149). lia.
    + lia.
  - assert (E : (match t - e with Z.neg d0 => (shift_pos d0 q, t) | _ => (q, e) end) = (q, e)) by (destruct (t - e) eqn:R; [reflexivity|reflexivity|lia]).
    rewrite E. set (m := n * 2 ^ (e + j - t)). assert (P2 : 0 < 2 ^ (e + j - t)) by (apply Z.pow_pos_nonneg; lia).
    assert (C : Z.pos q = m * 2 ^ (t - e)).
    { unfold m. rewrite Q, <- Z.mul_assoc, <- Z.pow_add_r by lia. do 2 f_equal. lia. }
    assert (M : 0 < m) by (unfold m; nia). rewrite C, aux_exact; try lia.
    + exists (Z.to_pos m), t. replace (e + (t - e)) with t by lia. split; [reflexivity|]. split; [lia|]. rewrite Z2Pos.id by lia. reflexivity.
    + unfold m. rewrite zdigits_mul by lia. fold d. unfold fexp. change (emin 24 128) with (-149). lia.
Qed.

Lemma two_const : of_int 2 = S754_finite false 8388608 (-22). Proof. reflexivity. Qed.
Lemma one_const : of_int 1 = S754_finite false 8388608 (-23). Proof. reflexivity. Qed.
Lemma half_const : const 1 (-1) = S754_finite false 8388608 (-24). Proof. reflexivity. Qed.
Lemma pow_const M : 1 <= M <= 10 -> of_int (2 ^ M) = S754_finite false 8388608 (M - 23).
Proof.
  intros H. assert (C : M = 1 \/ M = 2 \/ M = 3 \/ M = 4 \/ M = 5 \/ M = 6 \/ M = 7 \/ M = 8 \/ M = 9 \/ M = 10) by lia.
  repeat (destruct C as [->|C]; [reflexivity|]). subst. reflexivity.
Qed.
(** a product with a power of two, of a normal number *)
Lemma mul_pow s m e k : 2 ^ 23 <= Z.pos m < 2 ^ 24 -> -149 <= e + k <= 80 ->
  fmul (S754_finite s m e) (S754_finite false 8388608 (k - 23)) = S754_finite s m (e + k).
Proof.
  intros B K. unfold fmul, SFmul. rewrite xorb_false_r. change (Z.pos (m * 8388608)) with (Z.pos m * 2 ^ 23).
  assert (D : Zdigits2 (Z.pos m) = 24) by (rewrite zdigits_log by lia; rewrite (Z.log2_unique (Z.pos m) 23); lia).
  rewrite aux_exact; try lia.
  - change (Z.to_pos (Z.pos m)) with m. f_equal. lia.
  - rewrite D. unfold fexp. change (emin 24 128) with (-149). lia.
Qed.
Lemma align_pos m e z : z <= e -> Z.pos (fst (shl_align m e z)) = Z.pos m * 2 ^ (e - z).
Proof.
  intros H. unfold shl_align. destruct (z - e) as [|r|r] eqn:R; try lia.
  - replace (e - z) with 0 by lia. cbn [fst]. lia.
  - cbn [fst]. rewrite shift_pos_correct, Z.pow_pos_fold, Z.mul_comm. do 2 f_equal. lia.
Qed.
Lemma digits24 m d : 0 < m -> Zdigits2 m = d -> 2 ^ (d - 1) <= m < 2 ^ d.
Proof. intros P <-. rewrite zdigits_log by lia. replace (Z.log2 m + 1 - 1) with (Z.log2 m) by lia. pose proof (Z.log2_spec m P). rewrite <- Z.add_1_r in H. exact H. Qed.

(** The bits of the mantissa: [m - 2^23] divided by [2^(23 - M)], rounded half up. *)
Lemma mantissa_bits m M : 2 ^ 23 <= Z.pos m < 2 ^ 24 -> 1 <= M <= 10 ->
  to_int (fadd (fmul (fsub (fmul (S754_finite false m (-24)) (of_int 2)) (of_int 1)) (of_int (2 ^ M))) (const 1 (-1))) =
  (Z.pos m - 2 ^ 23 + 2 ^ (22 - M)) / 2 ^ (23 - M).
Proof.
  intros B HM. rewrite two_const, one_const, half_const, pow_const by auto.
  change (-22) with (1 - 23) at 1. rewrite mul_pow by lia. change (-24 + 1) with (-23).
  set (f := Z.pos m - 2 ^ 23). assert (F : 0 <= f < 2 ^ 23) by (unfold f; lia).
  assert (S1 : fsub (S754_finite false m (-23)) (S754_finite false 8388608 (-23)) = binary_normalize 24 128 f (-23) false).
  { unfold fsub, SFsub. rewrite Z.min_id. cbn [cond_Zopp]. rewrite !align_pos by lia. f_equal. unfold f. change (-23 - -23) with 0. lia. }
  rewrite S1. assert (P1 : 0 < 2 ^ (22 - M)) by (apply Z.pow_pos_nonneg; lia).
  assert (P2 : 2 ^ (23 - M) = 2 * 2 ^ (22 - M)) by (replace (23 - M) with (1 + (22 - M)) by lia; now rewrite Z.pow_add_r by lia).
  destruct f as [|q|q] eqn:Ef; try lia.
  - cbn [binary_normalize]. change (fmul (S754_zero false) (S754_finite false 8388608 (M - 23))) with (S754_zero false).
    change (fadd (S754_zero false) (S754_finite false 8388608 (-24))) with (S754_finite false 8388608 (-24)).
    change (to_int (S754_finite false 8388608 (-24))) with 0. symmetry. apply Z.div_small. lia.
  - cbn [binary_normalize]. destruct (round_exact false (Z.pos q) 0 (-23) q) as (p & e & R & Le & Pe); try lia.
    change (-23 + 0) with (-23) in *.
    assert (Np : 2 ^ 23 <= Z.pos p < 2 ^ 24 /\ -46 <= e <= -24).
    { unfold binary_round in R. revert R. set (d := Zdigits2 (Z.pos q)). change (Z.pos (digits2_pos q)) with d.
      assert (D1 : 1 <= d <= 23) by (unfold d; rewrite zdigits_log by lia; pose proof (Z.log2_nonneg (Z.pos q)); assert (Z.log2 (Z.pos q) < 23) by (apply Z.log2_lt_pow2; lia); lia).
      assert (T : fexp 24 128 (d + -23) = d - 47) by (unfold fexp; change (emin 24 128) with (-149); lia). rewrite T. unfold shl_align.
      destruct (d - 47 - -23) as [|r|r] eqn:Hr; try lia.
      assert (SH : Z.pos (shift_pos r q) = Z.pos q * 2 ^ Z.pos r) by (now rewrite shift_pos_correct, Z.pow_pos_fold, Z.mul_comm).
      assert (D2 : Zdigits2 (Z.pos (shift_pos r q)) = 24) by (rewrite SH, zdigits_mul by lia; fold d; lia).
      pose proof (aux_exact false (Z.pos (shift_pos r q)) 0 (d - 47) ltac:(lia) ltac:(lia)) as A. rewrite Z.mul_1_r in A. rewrite A.
      - intros R. clearbody d. injection R as R1 R2. split; [|lia]. rewrite <- R1. now apply (digits24 _ 24).
      - rewrite D2. unfold fexp. change (emin 24 128) with (-149). lia.
      - lia. }
    rewrite R. rewrite mul_pow by lia. unfold fadd, SFadd.
    set (z := Z.min (e + M) (-24)). cbn [cond_Zopp]. rewrite !align_pos by lia.
    set (n := Z.pos q + 2 ^ (22 - M)).
    assert (P3 : 2 ^ (22 - M) <= 2 ^ 21) by (apply Z.pow_le_mono_r; lia). change (2 ^ 21) with 2097152 in P3. change (2 ^ 23) with 8388608 in F.
    assert (N0 : 0 < n < 16777216) by (unfold n; lia).
    assert (N : Z.pos p * 2 ^ (e + M - z) + 8388608 * 2 ^ (-24 - z) = n * 2 ^ (M - 23 - z)).
    { unfold n. rewrite Z.mul_add_distr_r. f_equal.
      - rewrite Pe, <- Z.mul_assoc, <- Z.pow_add_r by lia. do 2 f_equal. lia.
      - change 8388608 with (2 ^ 23). rewrite <- !Z.pow_add_r by lia. f_equal. lia. }
    rewrite N. clearbody n. assert (P4 : 0 < 2 ^ (M - 23 - z)) by (apply Z.pow_pos_nonneg; lia).
    destruct (n * 2 ^ (M - 23 - z)) as [|w|w] eqn:W; try (pose proof (Z.mul_pos_pos n _ (proj1 N0) P4); lia). cbn [binary_normalize].
    destruct (round_exact false n (M - 23 - z) z w) as (p2 & e2 & R2 & L2 & E2); [change (2 ^ 24) with 16777216; lia|lia|lia|now symmetry|].
    rewrite R2. replace (z + (M - 23 - z)) with (M - 23) in * by lia. unfold to_int. rewrite (proj2 (Z.leb_gt _ _)) by lia.
    rewrite E2. replace (- e2) with ((23 - M) + (M - 23 - e2)) by lia. rewrite (Z.pow_add_r 2 (23 - M)) by lia. apply Z.div_mul_cancel_r; apply Z.pow_nonzero; lia.
Qed.

(** ** All codes of [k] bits *)
Fixpoint all_bits (k : nat) (P : Z -> bool) : bool :=
  match k with
  | O => P 0
  | S k => all_bits k (fun z => P (2 * z)) && all_bits k (fun z => P (2 * z + 1))
  end.
Lemma all_bits_ok k : forall P, all_bits k P = true -> forall z, 0 <= z < 2 ^ Z.of_nat k -> P z = true.
Proof.
  induction k; intros P H z B.
  - change (2 ^ Z.of_nat 0) with 1 in B. replace z with 0 by lia. exact H.
  - cbn [all_bits] in H. apply andb_prop in H. destruct H as [H0 H1]. rewrite Nat2Z.inj_succ, Z.pow_succ_r in B by lia.
    assert (E : z = 2 * (z / 2) + z mod 2) by (apply Z.div_mod; lia). pose proof (Z.mod_pos_bound z 2 ltac:(lia)) as M.
    assert (M01 : z mod 2 = 0 \/ z mod 2 = 1) by lia. destruct M01 as [M0|M1].
    + rewrite E, M0, Z.add_0_r. apply (IHk _ H0). lia.
    + rewrite E, M1. apply (IHk _ H1). lia.
Qed.
Definition same (a b : option Z) : bool := match a, b with Some x, Some y => x =? y | None, None => true | _, _ => false end.
Lemma same_eq a b : same a b = true -> a = b.
Proof. destruct a, b; cbn; try discriminate; auto. intros H. apply Z.eqb_eq in H. congruence. Qed.
Definition ieee (f : small) (code : Z) : option Z := stands_for (mbits f) (ebits f) (bias f) code.
(** the parts of a code *)
Lemma parts f c : 1 <= mbits f -> 1 <= ebits f -> 0 <= c < 2 ^ (sign_at f + 1) ->
  Z.land (Z.shiftr c (sign_at f)) 1 = c / 2 ^ sign_at f /\ Z.land (Z.shiftr c (mbits f)) (top f) = c / 2 ^ mbits f mod 2 ^ ebits f /\
  Z.land c (2 ^ mbits f - 1) = c mod 2 ^ mbits f.
Proof.
  intros HM HE C. unfold top. rewrite !Z.shiftr_div_pow2 by (unfold sign_at; lia). 
  assert (L : forall x n, 0 <= n -> Z.land x (2 ^ n - 1) = x mod 2 ^ n) by (intros x n N; rewrite <- Z.land_ones, Z.ones_equiv by lia; reflexivity).
  rewrite !L by lia. split; [|auto]. change 1 with (2 ^ 1 - 1) at 1. rewrite L by lia. change (2 ^ 1) with 2. rewrite Z.pow_add_r in C by (unfold sign_at; lia). change (2 ^ 1) with 2 in C.
  assert (0 < 2 ^ sign_at f) by (apply Z.pow_pos_nonneg; unfold sign_at; lia). apply Z.mod_small. split; [apply Z.div_pos; lia|apply Z.div_lt_upper_bound; lia].
Qed.
(** the two computations that depend on the mantissa only *)
Definition normal_ok (f : small) (mt : Z) : bool :=
  match fadd (of_int 1) (fdiv (of_int mt) (of_int (2 ^ mbits f))) with
  | S754_finite s p e => negb s && (e =? -23) && (Z.pos p =? 2 ^ 23 + mt * 2 ^ (23 - mbits f))
  | _ => false
  end.
Definition subnormal_ok (f : small) (mt : Z) : bool :=
  (mt =? 0) || let x := ldexpf (fdiv (of_int mt) (of_int (2 ^ mbits f))) (1 - bias f) in
  same (worth (fmul x (of_int 1))) (Some (mt * 2 ^ (1 - bias f - mbits f + 149))) && same (worth (fmul x (of_int (-1)))) (Some (- (mt * 2 ^ (1 - bias f - mbits f + 149)))).
Definition wellformed (f : small) : Prop := 1 <= mbits f <= 10 /\ 2 <= ebits f <= 5 /\ 7 <= bias f <= 15 /\
  forall mt, 0 <= mt < 2 ^ mbits f -> normal_ok f mt = true /\ subnormal_ok f mt = true.
Lemma wellformed_f16 : wellformed F16.
Proof.
  split; [cbn; lia|]. split; [cbn; lia|]. split; [cbn; lia|]. intros mt H. split; revert mt H.
  - apply (all_bits_ok 10 (normal_ok F16)). vm_cast_no_check (eq_refl true).
  - apply (all_bits_ok 10 (subnormal_ok F16)). vm_cast_no_check (eq_refl true).
Qed.
Lemma wellformed_f8e4m3 : wellformed F8E4M3.
Proof.
  split; [cbn; lia|]. split; [cbn; lia|]. split; [cbn; lia|]. intros mt H. split; revert mt H.
  - apply (all_bits_ok 3 (normal_ok F8E4M3)). vm_cast_no_check (eq_refl true).
  - apply (all_bits_ok 3 (subnormal_ok F8E4M3)). vm_cast_no_check (eq_refl true).
Qed.
Lemma wellformed_f8e5m2 : wellformed F8E5M2.
Proof.
  split; [cbn; lia|]. split; [cbn; lia|]. split; [cbn; lia|]. intros mt H. split; revert mt H.
  - apply (all_bits_ok 2 (normal_ok F8E5M2)). vm_cast_no_check (eq_refl true).
  - apply (all_bits_ok 2 (subnormal_ok F8E5M2)). vm_cast_no_check (eq_refl true).
Qed.
Lemma canonical_round s q e : 2 ^ 23 <= Z.pos q < 2 ^ 24 -> -149 <= e <= 80 -> binary_round 24 128 s q e = S754_finite s q e.
Proof.
  intros B E. unfold binary_round. assert (D : Zdigits2 (Z.pos q) = 24) by (rewrite zdigits_log by lia; rewrite (Z.log2_unique (Z.pos q) 23); lia).
  change (Z.pos (digits2_pos q)) with (Zdigits2 (Z.pos q)). rewrite D. unfold shl_align, fexp. change (emin 24 128) with (-149).
  replace (Z.max (24 + e - 24) (-149) - e) with 0 by lia. pose proof (aux_exact s (Z.pos q) 0 e ltac:(lia) ltac:(lia)) as A. rewrite Z.mul_1_r, !Z.add_0_r in A.
  apply A; [|lia]. rewrite D. unfold fexp. change (emin 24 128) with (-149). lia.
Qed.
(** the float of a code with a normal exponent *)
Lemma decode_normal f c : wellformed f -> 0 <= c < 2 ^ (sign_at f + 1) -> 1 <= c / 2 ^ mbits f mod 2 ^ ebits f < top f ->
  exists p, small_to_float f c = S754_finite (c / 2 ^ sign_at f =? 1) p (c / 2 ^ mbits f mod 2 ^ ebits f - bias f - 23) /\
    Z.pos p = 2 ^ 23 + (c mod 2 ^ mbits f) * 2 ^ (23 - mbits f).
Proof.
  intros (HM & HE & HB & W) C K. destruct (parts f c) as (P1 & P2 & P3); auto; try lia. unfold small_to_float. rewrite P1, P2, P3.
  set (ex := c / 2 ^ mbits f mod 2 ^ ebits f) in *. set (mt := c mod 2 ^ mbits f). rewrite (proj2 (Z.eqb_neq _ _)) by lia. rewrite (proj2 (Z.eqb_neq ex 0)) by lia.
  assert (MT : 0 <= mt < 2 ^ mbits f) by (apply Z.mod_pos_bound, Z.pow_pos_nonneg; lia). destruct (W mt MT) as [N _]. unfold normal_ok in N.
  destruct (fadd _ _) as [| | |sp p e]; try discriminate. rewrite !andb_true_iff, !Z.eqb_eq, negb_true_iff in N. destruct N as [[N1 N2] N3]. subst sp e.
  assert (H2 : 2 ^ mbits f * 2 ^ (23 - mbits f) = 2 ^ 23) by (rewrite <- Z.pow_add_r by lia; f_equal; lia).
  assert (PB : 2 ^ 23 <= Z.pos p < 2 ^ 24).
  { rewrite N3. change (2 ^ 24) with (2 ^ 23 + 2 ^ 23). rewrite <- H2. assert (0 < 2 ^ (23 - mbits f)) by (apply Z.pow_pos_nonneg; lia). nia. }
  exists p. split; [|exact N3]. assert (T : top f < 32).
  { unfold top. assert (2 ^ ebits f <= 2 ^ 5) by (apply Z.pow_le_mono_r; lia). change (2 ^ 5) with 32 in H. lia. }
  unfold ldexpf, SFldexp. rewrite canonical_round by lia. replace (-23 + (ex - bias f)) with (ex - bias f - 23) by lia.
  destruct (c / 2 ^ sign_at f =? 1); reflexivity.
Qed.
Lemma decode f c : wellformed f -> 0 <= c < 2 ^ (sign_at f + 1) -> worth (small_to_float f c) = ieee f c.
Proof.
  intros WF C. pose proof WF as (HM & HE & HB & W). unfold ieee, stands_for. destruct (parts f c) as (P1 & P2 & P3); auto; try lia. fold (sign_at f). fold (top f).
  assert (PE : 0 < 2 ^ ebits f) by (apply Z.pow_pos_nonneg; lia). pose proof (Z.mod_pos_bound (c / 2 ^ mbits f) (2 ^ ebits f) PE) as EB.
  assert (MT : 0 <= c mod 2 ^ mbits f < 2 ^ mbits f) by (apply Z.mod_pos_bound, Z.pow_pos_nonneg; lia).
  destruct (Z.eqb_spec (c / 2 ^ mbits f mod 2 ^ ebits f) (top f)) as [E|N].
  - unfold small_to_float. rewrite P1, P2, P3, (proj2 (Z.eqb_eq _ _) E). now destruct (c mod 2 ^ mbits f =? 0).
  - destruct (Z.eqb_spec (c / 2 ^ mbits f mod 2 ^ ebits f) 0) as [E0|N0].
    + unfold small_to_float. rewrite P1, P2, P3, (proj2 (Z.eqb_neq _ _) N), E0. cbn [Z.eqb]. change (Z.max 0 1) with 1. set (mt := c mod 2 ^ mbits f) in *.
      destruct (Z.eqb_spec mt 0) as [M0|M0].
      * cbn [worth]. rewrite M0. f_equal. ring.
      * destruct (W mt MT) as [_ S]. unfold subnormal_ok in S. rewrite (proj2 (Z.eqb_neq _ _) M0) in S. cbn [orb] in S. apply andb_prop in S. destruct S as [S1 S2].
        apply same_eq in S1. apply same_eq in S2. destruct (c / 2 ^ sign_at f =? 1); [rewrite S2|rewrite S1]; f_equal; ring.
    + destruct (decode_normal f c WF C) as (p & E & P); [unfold top in *; lia|]. rewrite E. cbn [worth]. do 2 f_equal. rewrite P. set (ex := c / 2 ^ mbits f mod 2 ^ ebits f) in *. rewrite Z.max_l by lia.
      replace (ex - bias f - mbits f + 149) with ((23 - mbits f) + (ex - bias f - 23 + 149)) by lia. rewrite (Z.pow_add_r 2 (23 - mbits f)) by lia.
      replace (2 ^ 23) with (2 ^ mbits f * 2 ^ (23 - mbits f)) by (rewrite <- Z.pow_add_r by lia; f_equal; lia). ring.
Qed.

(** ** The code of a normal number *)
Lemma lor_add a b k : 0 <= k -> 0 <= b < 2 ^ k -> Z.lor (a * 2 ^ k) b = a * 2 ^ k + b.
Proof.
  intros K B. assert (L : Z.land (a * 2 ^ k) b = 0).
  { apply Z.bits_inj'. intros i Hi. rewrite Z.land_spec, Z.bits_0. destruct (Z_lt_le_dec i k) as [I|I].
    - rewrite Z.mul_pow2_bits_low by lia. reflexivity.
    - destruct (Z.eq_dec b 0) as [->|N]; [now rewrite Z.bits_0, andb_false_r|].
      rewrite (Z.bits_above_log2 b i); [apply andb_false_r|lia|]. assert (Z.log2 b < k) by (apply Z.log2_lt_pow2; lia). lia. }
  rewrite Z.add_nocarry_lxor by exact L. symmetry. now apply Z.lxor_lor.
Qed.
Definition rounded (f : small) (m : positive) : Z := (Z.pos m - 2 ^ 23 + 2 ^ (22 - mbits f)) / 2 ^ (23 - mbits f).
Definition pack (f : small) (s : bool) (exp mant : Z) : Z := (if s then 1 else 0) * 2 ^ sign_at f + exp * 2 ^ mbits f + mant.
Lemma encode_normal f s m e : 1 <= mbits f <= 10 -> 2 <= ebits f -> 2 ^ 23 <= Z.pos m < 2 ^ 24 -> 1 <= e + 23 + bias f < top f ->
  SFltb (vmax f) (S754_finite false m e) = false -> SFltb (S754_finite false m e) (vmin f) = false ->
  float_to_small f (S754_finite s m e) = pack f s (e + 23 + bias f) (Z.min (2 ^ mbits f - 1) (rounded f m)).
Proof.
  intros HM HE B K X1 X2. unfold float_to_small.
  assert (C1 : SFeqb (S754_finite s m e) (S754_zero false) = false) by (destruct s; reflexivity). rewrite C1. cbn [isnan].
  assert (C2 : SFltb (S754_finite s m e) (S754_zero false) = s) by (destruct s; reflexivity). rewrite C2. cbn [SFabs]. rewrite X1, X2. cbn [isinf orb].
  unfold frexpf, SFfrexp. assert (D : Z.pos (digits2_pos m) = 24).
  { rewrite digits_log, (Z.log2_unique (Z.pos m) 23); lia. }
  assert (D' : digits2_pos m = 24%positive) by congruence. rewrite D'. change (Z.to_pos 24 <=? 24)%positive with true. cbv iota.
  replace (e + 24 + (bias f - 1)) with (e + 23 + bias f) by lia. rewrite (proj2 (Z.leb_gt _ _)) by lia. rewrite (proj2 (Z.leb_gt (top f) _)) by lia.
  rewrite mantissa_bits by auto. fold (rounded f m). cbv zeta.
  assert (P : 0 < 2 ^ mbits f) by (apply Z.pow_pos_nonneg; lia).
  assert (R0 : 0 <= rounded f m) by (unfold rounded; apply Z.div_pos; [|apply Z.pow_pos_nonneg; lia]; pose proof (Z.pow_nonneg 2 (22 - mbits f)); lia).
  assert (MN : (if 2 ^ mbits f - 1 <? rounded f m then 2 ^ mbits f - 1 else rounded f m) = Z.min (2 ^ mbits f - 1) (rounded f m)) by (destruct (Z.ltb_spec (2 ^ mbits f - 1) (rounded f m)); lia).
  rewrite MN. set (b := Z.min (2 ^ mbits f - 1) (rounded f m)). assert (B0 : 0 <= b < 2 ^ mbits f) by (unfold b; lia).
  set (k := e + 23 + bias f) in *. set (g := if s then 1 else 0). assert (G : 0 <= g <= 1) by (unfold g; destruct s; lia).
  assert (PE : 0 < 2 ^ ebits f) by (apply Z.pow_pos_nonneg; lia). unfold top in K.
  assert (SA : 2 ^ sign_at f = 2 ^ ebits f * 2 ^ mbits f) by (unfold sign_at; rewrite Z.pow_add_r by lia; ring).
  rewrite !Z.shiftl_mul_pow2 by (unfold sign_at; lia). rewrite (lor_add g) by (unfold sign_at in *; nia).
  replace (g * 2 ^ sign_at f + k * 2 ^ mbits f) with ((g * 2 ^ ebits f + k) * 2 ^ mbits f) by (rewrite SA; ring). rewrite lor_add by lia.
  unfold pack. fold g. rewrite SA. rewrite Z.mod_small; [ring|]. replace (2 ^ (sign_at f + 1)) with (2 * (2 ^ ebits f * 2 ^ mbits f)) by (rewrite Z.pow_add_r, SA by (unfold sign_at; lia); ring). nia.
Qed.
