(** The integer operations of the kernels compute the exact result modulo 2^w where they are defined. *)
From Coq Require Import ZArith Bool Lia SpecFloat List.
From Verif Require Import ScalarModel ScalarSpec ScalarProofs ScalarProofs2 IntOpModel IntOpSpec.
Open Scope Z_scope.

Lemma range_width : forall t, highest t - lowest t + 1 = 2 ^ width t.
Proof. intros []; reflexivity. Qed.
Lemma cut_mod : forall t n, cut t n mod 2 ^ width t = n mod 2 ^ width t.
Proof.
  intros t n. unfold cut. rewrite range_width. assert (P : 2 ^ width t <> 0) by (destruct t; discriminate).
  rewrite <- Z.add_mod_idemp_l by exact P. rewrite Z.mod_mod by exact P. rewrite Z.add_mod_idemp_l by exact P. f_equal. lia.
Qed.
Lemma cut_unique : forall t a b, fits t a -> fits t b -> a mod 2 ^ width t = b mod 2 ^ width t -> a = b.
Proof.
  intros t a b Fa Fb E. rewrite <- (cut_fits t a Fa), <- (cut_fits t b Fb). unfold cut. rewrite range_width. f_equal.
  rewrite Zminus_mod, E, <- Zminus_mod. reflexivity.
Qed.
Lemma in_range_fits : forall t r, in_range t r = true <-> fits t r.
Proof. intros. unfold in_range, fits. rewrite andb_true_iff, !Z.leb_le. reflexivity. Qed.

Lemma modular_fit : forall t e r, modular t e r -> fits t e -> r = e.
Proof. intros t e r [F M] Fe. exact (cut_unique t r e F Fe M). Qed.
Lemma cut_modular : forall t n, modular t n (cut t n).
Proof. intros. split; [apply cut_range|apply cut_mod]. Qed.

Lemma c_result_spec : forall t e r, c_result t e = Some r -> modular t e r.
Proof.
  intros t e r H. unfold c_result in H. destruct (is_signed (promoted t) && negb (in_range (promoted t) e)); [discriminate|].
  injection H as <-. apply cut_modular.
Qed.
Lemma c_result_defined : forall t e, c_result t e <> None <-> (lowest (promoted t) = 0 \/ fits (promoted t) e).
Proof.
  intros t e. unfold c_result. rewrite <- in_range_fits.
  destruct t; cbn [promoted is_signed lowest]; destruct (in_range _ e); cbn; split; intro H; try discriminate; auto; try tauto; destruct H as [H|H]; discriminate.
Qed.
Lemma fits_promoted : forall t n, fits t n -> fits (promoted t) n.
Proof. intros t n F. unfold fits in *. destruct t; cbn in *; lia. Qed.
Lemma c_result_fit : forall t e, fits t e -> c_result t e = Some e.
Proof.
  intros t e F. destruct (c_result t e) as [r|] eqn:E.
  - f_equal. exact (modular_fit t e r (c_result_spec t e r E) F).
  - exfalso. apply (proj2 (c_result_defined t e)) in E; [exact E|]. right. apply fits_promoted. exact F.
Qed.

Theorem add_spec : forall t x y r, c_add t x y = Some r -> modular t (x + y) r.
Proof. intros. apply c_result_spec. assumption. Qed.
Theorem mul_spec : forall t x y r, c_mul t x y = Some r -> modular t (x * y) r.
Proof. intros. apply c_result_spec. assumption. Qed.
(** Which of them are always defined: all but i32, i64, and the product of u16. *)
Lemma add_defined : forall t x y, fits t x -> fits t y -> t <> I32 -> t <> I64 -> c_add t x y <> None.
Proof.
  intros t x y Fx Fy N1 N2. apply c_result_defined. unfold fits in *.
  destruct t; cbn in *; try (left; reflexivity); try congruence; right; lia.
Qed.
Lemma mul_defined : forall t x y, fits t x -> fits t y -> t <> I32 -> t <> I64 -> (t = U16 -> x * y <= highest I32) -> c_mul t x y <> None.
Proof.
  intros t x y Fx Fy N1 N2 HU. apply c_result_defined. unfold fits in *.
  destruct t; cbn in *; try (left; reflexivity); try congruence; right.
  - nia.
  - specialize (HU eq_refl). split; [|exact HU]. pose proof (Z.mul_nonneg_nonneg x y). lia.
  - nia.
  - nia.
Qed.
Theorem sub_spec : forall t x y r, fits t x -> fits t y -> c_sub t x y = Some r ->
  if is_signed t then modular t (x - y) r else r = Z.max 0 (x - y).
Proof.
  intros t x y r Fx Fy H. unfold c_sub in H. destruct (is_signed t) eqn:S; [apply c_result_spec; exact H|].
  destruct (Z.ltb_spec y x).
  - assert (F : fits t (x - y)). { unfold fits in *. destruct t; cbn in *; try discriminate; lia. }
    rewrite c_result_fit in H by exact F. injection H as <-. lia.
  - injection H as <-. lia.
Qed.
Lemma sub_defined : forall t x y, fits t x -> fits t y -> t <> I32 -> t <> I64 -> c_sub t x y <> None.
Proof.
  intros t x y Fx Fy N1 N2. unfold c_sub. destruct (is_signed t) eqn:S.
  - apply c_result_defined. unfold fits in *. destruct t; cbn in *; try discriminate; try congruence; right; lia.
  - destruct (y <? x); [|discriminate]. apply c_result_defined. unfold fits in *. destruct t; cbn in *; try discriminate; try (left; reflexivity); right; lia.
Qed.
(** a result that fits is exact (saturation or not) *)
Lemma sub_fit : forall t x y, fits t (x - y) -> c_sub t x y = Some (x - y).
Proof.
  intros t x y F. unfold c_sub. rewrite c_result_fit by exact F. destruct (is_signed t) eqn:S; [reflexivity|].
  destruct (Z.ltb_spec y x); [reflexivity|]. unfold fits in F. f_equal. destruct t; cbn in *; try discriminate; lia.
Qed.
Theorem div_spec : forall t x y, fits t x -> fits t y -> y <> 0 -> ~ (x = lowest t /\ y = -1) -> c_div t x y = Some (Z.quot x y).
Proof.
  intros t x y Fx Fy Y N. unfold c_div. apply Z.eqb_neq in Y as Y'. rewrite Y'. cbn. apply c_result_fit. apply quot_fits; assumption.
Qed.
Theorem rem_spec : forall t x y, fits t x -> fits t y -> y <> 0 -> ~ (x = lowest t /\ y = -1) -> c_rem t x y = Some (Z.rem x y).
Proof.
  intros t x y Fx Fy Y N. unfold c_rem. apply Z.eqb_neq in Y as Y'. rewrite Y'. cbn.
  rewrite c_result_fit by (apply quot_fits; assumption). apply c_result_fit. apply rem_fits; assumption.
Qed.
Lemma max_spec : forall x y, c_maximum x y = Z.max x y /\ c_minimum x y = Z.min x y.
Proof. intros. unfold c_maximum, c_minimum. destruct (Z.ltb_spec y x), (Z.ltb_spec x y); lia. Qed.

(** Powers *)
Lemma u64_result : forall r, c_result U64 r = Some (cut U64 r).
Proof. reflexivity. Qed.
Lemma cut_mul : forall t a b, cut t (cut t a * b) = cut t (a * b).
Proof.
  intros t a b. apply (cut_unique t); try apply cut_range. rewrite !cut_mod.
  rewrite Z.mul_mod by (destruct t; discriminate). rewrite cut_mod. rewrite <- Z.mul_mod by (destruct t; discriminate). reflexivity.
Qed.
Lemma cut_mul_r : forall t a b, cut t (a * cut t b) = cut t (a * b).
Proof. intros. rewrite Z.mul_comm, cut_mul, Z.mul_comm. reflexivity. Qed.
Lemma cut_pow : forall t a e, 0 <= e -> cut t (cut t a ^ e) = cut t (a ^ e).
Proof.
  intros t a e H. revert e H. apply natlike_ind; [reflexivity|]. intros e He IH.
  rewrite !Z.pow_succ_r by exact He. rewrite cut_mul, <- cut_mul_r, IH, cut_mul_r. reflexivity.
Qed.
Lemma ipow_u64_loop : forall e b r, ipow_loop U64 e b r = Some (cut U64 (r * b ^ Zpos e)).
Proof.
  induction e as [e IH|e IH|]; intros b r; cbn [ipow_loop]; rewrite ?u64_result.
  - rewrite IH. f_equal. rewrite <- cut_mul_r, cut_pow, cut_mul_r by lia. rewrite cut_mul.
    rewrite Pos2Z.inj_xI, Z.pow_add_r, Z.pow_mul_r, Z.pow_1_r by lia. rewrite <- Z.pow_2_r. f_equal. ring.
  - rewrite IH. f_equal. rewrite <- cut_mul_r, cut_pow, cut_mul_r by lia.
    rewrite Pos2Z.inj_xO, Z.pow_mul_r by lia. rewrite <- Z.pow_2_r. reflexivity.
  - rewrite Z.pow_1_r. reflexivity.
Qed.
Lemma ipow_u64 : forall b e, 0 <= e -> exists r, ipow U64 b e = Some r /\ modular U64 (b ^ e) r.
Proof.
  intros b [|e|e] H; cbn [ipow].
  - exists 1. split; [reflexivity|]. apply cut_modular.
  - exists (cut U64 (b ^ Zpos e)). split; [|apply cut_modular]. rewrite ipow_u64_loop. f_equal. f_equal. lia.
  - lia.
Qed.
Lemma i64_result : forall r, c_result I64 r = if in_range I64 r then Some r else None.
Proof.
  intros r. unfold c_result. cbn [promoted is_signed lowest]. destruct (in_range I64 r) eqn:E; [|reflexivity].
  apply in_range_fits in E. cbn. rewrite cut_fits by exact E. reflexivity.
Qed.
Lemma in_range_abs : forall a b, in_range I64 b = true -> Z.abs a <= Z.abs b -> Z.abs a <= highest I64 \/ Z.abs b = 2 ^ 63.
Proof. intros a b E. apply in_range_fits in E. unfold fits in E. cbn in *. lia. Qed.
Lemma square_ge : forall b, 0 <= b * b /\ Z.abs b <= b * b. Proof. intros. nia. Qed.
Lemma pow_pos_le : forall b n m, b <> 0 -> 0 <= n <= m -> Z.abs b ^ n <= Z.abs b ^ m.
Proof. intros. apply Z.pow_le_mono_r; lia. Qed.
Lemma last_square_step : forall b e, last_square (b * b) e = last_square b (xI e) /\ last_square (b * b) e = last_square b (xO e).
Proof.
  intros b e. unfold last_square. cbn [Pos.size]. rewrite Pos2Z.inj_succ. rewrite Z.pow_succ_r by lia.
  rewrite Z.pow_mul_r by (try apply Z.pow_nonneg; lia). rewrite Z.pow_2_r. split; reflexivity.
Qed.
Lemma size_gt : forall e, Zpos e < 2 ^ Zpos (Pos.size e).
Proof.
  induction e as [e IH|e IH|]; cbn [Pos.size]; rewrite ?Pos2Z.inj_succ, ?Z.pow_succ_r by lia; lia.
Qed.
Lemma last_square_ge : forall b e, b * b <= last_square b e.
Proof.
  intros b e. unfold last_square. set (k := 2 ^ Zpos (Pos.size e)).
  assert (E : exists j, k = 2 * j /\ 1 <= j).
  { exists (2 ^ (Zpos (Pos.size e) - 1)). unfold k. split.
    - rewrite <- Z.pow_succ_r by lia. f_equal. lia.
    - pose proof (Z.pow_pos_nonneg 2 (Zpos (Pos.size e) - 1) ltac:(lia) ltac:(lia)). lia. }
  destruct E as [j [-> J]]. rewrite Z.pow_mul_r, Z.pow_2_r by lia.
  replace (b * b) with ((b * b) ^ 1) at 1 by lia.
  destruct (Z.eq_dec b 0) as [->|B]; [rewrite !Z.pow_0_l by lia; lia|]. apply Z.pow_le_mono_r; nia.
Qed.
(** The signed loop: with a result so far of magnitude at most that of ... everything fits when the last square does. *)
Lemma ipow_i64_loop : forall e b r, r = 0 \/ (1 <= Z.abs r /\ Z.abs r <= Z.max 1 (Z.abs b)) -> last_square b e <= highest I64 -> fits I64 r -> fits I64 b ->
  ipow_loop I64 e b r = Some (r * b ^ Zpos e).
Proof.
  induction e as [e IH|e IH|]; intros b r HR HL FR FB.
  - pose proof (last_square_ge b (xI e)) as G. assert (FS : fits I64 (b * b)) by (unfold fits; cbn in *; nia).
    assert (FP : fits I64 (r * b)) by (unfold fits; cbn in *; nia).
    cbn [ipow_loop]. rewrite !i64_result. rewrite (proj2 (in_range_fits _ _) FS), (proj2 (in_range_fits _ _) FP).
    rewrite IH; [| |rewrite (proj1 (last_square_step b e)); exact HL|exact FP|exact FS].
    + f_equal. rewrite Pos2Z.inj_xI, Z.pow_add_r, Z.pow_mul_r, Z.pow_1_r by lia. rewrite <- Z.pow_2_r. ring.
    + destruct (Z.eq_dec (r * b) 0); [left; assumption|right]. nia.
  - pose proof (last_square_ge b (xO e)) as G. assert (FS : fits I64 (b * b)) by (unfold fits; cbn in *; nia).
    cbn [ipow_loop]. rewrite !i64_result. rewrite (proj2 (in_range_fits _ _) FS).
    rewrite IH; [| |rewrite (proj2 (last_square_step b e)); exact HL|exact FR|exact FS].
    + f_equal. rewrite Pos2Z.inj_xO, Z.pow_mul_r by lia. rewrite <- Z.pow_2_r. reflexivity.
    + destruct HR as [HR|HR]; [left; exact HR|right]. nia.
  - pose proof (last_square_ge b xH) as G. assert (FS : fits I64 (b * b)) by (unfold fits; cbn in *; nia).
    assert (FP : fits I64 (r * b)) by (unfold fits; cbn in *; nia).
    cbn [ipow_loop]. rewrite !i64_result. rewrite (proj2 (in_range_fits _ _) FS), (proj2 (in_range_fits _ _) FP). rewrite Z.pow_1_r. reflexivity.
Qed.
Lemma ipow_i64_undefined : forall e b r, highest I64 < last_square b e -> fits I64 b -> ipow_loop I64 e b r = None.
Proof.
  induction e as [e IH|e IH|]; intros b r H F; cbn [ipow_loop]; rewrite !i64_result.
  - destruct (in_range I64 (r * b)); [|reflexivity]. destruct (in_range I64 (b * b)) eqn:E; [|reflexivity].
    apply IH; [rewrite (proj1 (last_square_step b e)); exact H|apply in_range_fits; exact E].
  - destruct (in_range I64 (b * b)) eqn:E; [|reflexivity].
    apply IH; [rewrite (proj2 (last_square_step b e)); exact H|apply in_range_fits; exact E].
  - assert (E : in_range I64 (b * b) = false).
    { apply not_true_is_false. intro E. apply in_range_fits in E. unfold last_square in H. cbn [Pos.size] in H.
      change (2 ^ 1) with 2 in H. rewrite Z.pow_2_r in H. unfold fits in E. lia. }
    rewrite E. destruct (in_range I64 (r * b)); reflexivity.
Qed.
Theorem ipow_i64 : forall b e, fits I64 b ->
  ipow I64 b (Zpos e) = if last_square b e <=? highest I64 then Some (b ^ Zpos e) else None.
Proof.
  intros b e F. cbn [ipow]. destruct (Z.leb_spec (last_square b e) (highest I64)).
  - rewrite ipow_i64_loop; [f_equal; lia| |assumption| |exact F].
    + right. lia.
    + unfold fits. cbn. lia.
  - apply ipow_i64_undefined; assumption.
Qed.
(** A power of an i8, i16 or i32 that fits is computed. *)
Lemma pow_small_fit : forall t x e, (t = I8 \/ t = I16 \/ t = I32) -> fits t x -> 0 <= e -> fits t (x ^ e) -> c_pow t x e = Some (x ^ e).
Proof.
  intros t x [|e|e] HT Fx He F; [| |lia].
  - unfold c_pow. cbn [ipow option_map]. change (x ^ 0) with 1 in *. rewrite cut_fits by exact F. reflexivity.
  - unfold c_pow. assert (S : is_signed t = true) by (destruct HT as [-> | [-> | ->]]; reflexivity). rewrite S.
    assert (F64 : fits I64 x) by (unfold fits in *; destruct HT as [-> | [-> | ->]]; cbn in *; lia).
    rewrite ipow_i64 by exact F64.
    assert (L : last_square x e <= highest I64).
    { assert (A : Z.abs (x ^ Zpos e) <= 2 ^ 31) by (unfold fits in F; destruct HT as [-> | [-> | ->]]; cbn in *; lia).
      unfold last_square. set (k := Pos.size e).
      assert (K : 2 ^ Zpos k <= 2 * Zpos e).
      { unfold k. pose proof (Pos.size_le e) as SL. assert (E1 : Zpos (2 ^ Pos.size e) <= Zpos (e~0)) by lia.
        rewrite Pos2Z.inj_pow in E1. lia. }
      apply Z.le_trans with (Z.abs x ^ 2 ^ Zpos k).
      { assert (AP : Z.abs (x ^ 2 ^ Zpos k) = Z.abs x ^ 2 ^ Zpos k) by (apply Z.abs_pow). lia. }
      destruct (Z.eq_dec x 0) as [->|X].
      { rewrite Z.abs_0, Z.pow_0_l; [cbn; lia|apply Z.pow_pos_nonneg; lia]. }
      apply Z.le_trans with (Z.abs x ^ (2 * Zpos e)).
      { apply Z.pow_le_mono_r; lia. }
      rewrite Z.mul_comm, Z.pow_mul_r by lia. rewrite <- Z.abs_pow. rewrite Z.pow_2_r.
      pose proof (Z.abs_nonneg (x ^ Zpos e)) as A0. generalize dependent (Z.abs (x ^ Zpos e)). intros q A A0.
      transitivity (2 ^ 31 * 2 ^ 31); [apply Z.mul_le_mono_nonneg; lia|]. cbn. lia. }
    apply Z.leb_le in L. rewrite L. cbn [option_map]. rewrite cut_fits by exact F. reflexivity.
Qed.
Lemma modular_narrow : forall t n r, is_signed t = false -> modular U64 n r -> modular t n (cut t r).
Proof.
  intros t n r S [F M]. split; [apply cut_range|]. rewrite cut_mod.
  assert (D : exists k, 2 ^ 64 = 2 ^ width t * k /\ 0 < k).
  { exists (2 ^ (64 - width t)). destruct t; cbn in S; try discriminate; cbn; split; lia. }
  destruct D as [k [D K]]. change (width U64) with 64 in M. rewrite D in M.
  assert (P : 0 < 2 ^ width t) by (destruct t; reflexivity).
  rewrite !Z.rem_mul_r in M by lia. 
  rewrite <- (Z.mod_mod r (2 ^ width t)), <- (Z.mod_mod n (2 ^ width t)) by lia.
  apply f_equal with (f := fun v => v mod 2 ^ width t) in M.
  rewrite !(Z.mul_comm (2 ^ width t)), !Z.mod_add in M by lia. exact M.
Qed.
Theorem pow_unsigned : forall t x e, is_signed t = false -> 0 <= e -> exists r, c_pow t x e = Some r /\ modular t (x ^ e) r.
Proof.
  intros t x e S He. destruct (ipow_u64 x e He) as [r [E M]]. exists (cut t r). unfold c_pow. rewrite S, E.
  split; [reflexivity|]. apply modular_narrow; assumption.
Qed.

(** One operand *)
Lemma neg_spec : forall t x, fits t (- x) -> c_neg t x = Some (- x).
Proof. intros. apply c_result_fit. assumption. Qed.
Lemma abs_spec : forall t x, fits t x -> fits t (Z.abs x) -> c_abs t x = Some (Z.abs x).
Proof.
  intros t x Fx F. unfold c_abs. destruct (is_signed t) eqn:S.
  - destruct (Z.ltb_spec x 0).
    + rewrite Z.abs_neq in * by lia. apply c_result_fit. exact F.
    + rewrite Z.abs_eq by lia. reflexivity.
  - rewrite Z.abs_eq; [reflexivity|]. unfold fits in Fx. destruct t; cbn in *; try discriminate; lia.
Qed.
Lemma sign_spec : forall x, c_sign x = Z.sgn x.
Proof. intros [|p|p]; reflexivity. Qed.
Lemma square_spec : forall t x r, c_square t x = Some r -> modular t (x * x) r.
Proof. intros. apply c_result_spec. assumption. Qed.

(** Bits *)
Definition same_bits (t : ity) (r n : Z) : Prop := fits t r /\ forall i, 0 <= i < width t -> Z.testbit r i = Z.testbit n i.
Lemma modular_bits : forall t n r, modular t n r -> same_bits t r n.
Proof.
  intros t n r [F M]. split; [exact F|]. intros i [I1 I2].
  rewrite <- (Z.mod_pow2_bits_low r (width t) i) by exact I2. rewrite M. apply Z.mod_pow2_bits_low. exact I2.
Qed.
Lemma and_spec : forall t x y, let r := c_and t x y in fits t r /\ forall i, 0 <= i < width t -> Z.testbit r i = Z.testbit x i && Z.testbit y i.
Proof.
  intros t x y. cbv zeta. destruct (modular_bits _ _ _ (cut_modular t (Z.land x y))) as [F B]. split; [exact F|].
  intros i H. unfold c_and. rewrite B by exact H. apply Z.land_spec.
Qed.
Lemma or_spec : forall t x y, let r := c_or t x y in fits t r /\ forall i, 0 <= i < width t -> Z.testbit r i = Z.testbit x i || Z.testbit y i.
Proof.
  intros t x y. cbv zeta. destruct (modular_bits _ _ _ (cut_modular t (Z.lor x y))) as [F B]. split; [exact F|].
  intros i H. unfold c_or. rewrite B by exact H. apply Z.lor_spec.
Qed.
Lemma xor_spec : forall t x y, let r := c_xor t x y in fits t r /\ forall i, 0 <= i < width t -> Z.testbit r i = xorb (Z.testbit x i) (Z.testbit y i).
Proof.
  intros t x y. cbv zeta. destruct (modular_bits _ _ _ (cut_modular t (Z.lxor x y))) as [F B]. split; [exact F|].
  intros i H. unfold c_xor. rewrite B by exact H. apply Z.lxor_spec.
Qed.
Lemma not_spec : forall t x, let r := c_not t x in fits t r /\ forall i, 0 <= i < width t -> Z.testbit r i = negb (Z.testbit x i).
Proof.
  intros t x. cbv zeta. destruct (modular_bits _ _ _ (cut_modular t (Z.lnot x))) as [F B]. split; [exact F|].
  intros i H. unfold c_not. rewrite B by exact H. apply Z.lnot_spec. lia.
Qed.
Lemma shl_spec : forall t x y r, c_shl t x y = Some r -> 0 <= y /\ modular t (x * 2 ^ y) r.
Proof.
  intros t x y r H. unfold c_shl in H. destruct (Z.ltb_spec y 0); [discriminate|].
  destruct (Z.leb_spec (width (promoted t)) y); [discriminate|]. cbn in H.
  destruct (is_signed (promoted t) && (x <? 0)); [discriminate|]. split; [lia|].
  rewrite Z.shiftl_mul_pow2 in H by lia. apply c_result_spec. exact H.
Qed.
(** a left shift by less than the width: always defined for unsigned types *)
Lemma shl_defined : forall t x y, is_signed t = false -> fits t x -> 0 <= y < width t -> c_shl t x y <> None.
Proof.
  intros t x y HT F [Y1 Y2]. unfold c_shl.
  assert (W : width t <= width (promoted t)) by (destruct t; cbn; lia).
  destruct (Z.ltb_spec y 0); [lia|]. destruct (Z.leb_spec (width (promoted t)) y); [lia|]. cbn.
  assert (X : 0 <= x) by (unfold fits in F; destruct t; cbn in HT, F; try discriminate; lia).
  destruct (Z.ltb_spec x 0); [lia|]. rewrite andb_false_r. apply c_result_defined.
  destruct t; try discriminate; cbn [promoted lowest]; try (left; reflexivity); right;
    rewrite Z.shiftl_mul_pow2 by lia; unfold fits in *; cbn in F, Y2.
  - assert (1 <= 2 ^ y <= 2 ^ 7). { split; [pose proof (Z.pow_pos_nonneg 2 y); lia|apply Z.pow_le_mono_r; lia]. }
    generalize dependent (2 ^ y). intros p Hp. cbn. nia.
  - assert (1 <= 2 ^ y <= 2 ^ 15). { split; [pose proof (Z.pow_pos_nonneg 2 y); lia|apply Z.pow_le_mono_r; lia]. }
    generalize dependent (2 ^ y). intros p Hp. cbn. nia.
Qed.
Lemma shl_fit : forall t x y, 0 <= x -> 0 <= y < width t -> fits t (x * 2 ^ y) -> c_shl t x y = Some (x * 2 ^ y).
Proof.
  intros t x y X [Y1 Y2] F. unfold c_shl. assert (W : width t <= width (promoted t)) by (destruct t; cbn; lia).
  destruct (Z.ltb_spec y 0); [lia|]. destruct (Z.leb_spec (width (promoted t)) y); [lia|]. cbn.
  destruct (Z.ltb_spec x 0); [lia|]. rewrite andb_false_r. rewrite Z.shiftl_mul_pow2 by lia. apply c_result_fit. exact F.
Qed.
Lemma shr_spec : forall t x y, fits t x -> 0 <= y < width t -> c_shr t x y = Some (x / 2 ^ y).
Proof.
  intros t x y F [Y1 Y2]. unfold c_shr. assert (W : width t <= width (promoted t)) by (destruct t; cbn; lia).
  destruct (Z.ltb_spec y 0); [lia|]. destruct (Z.leb_spec (width (promoted t)) y); [lia|]. cbn.
  rewrite Z.shiftr_div_pow2 by lia. f_equal. apply cut_fits. unfold fits in *.
  assert (P : 0 < 2 ^ y) by (apply Z.pow_pos_nonneg; lia). pose proof (range_order t). split.
  - apply Z.div_le_lower_bound; [exact P|]. nia.
  - apply Z.div_le_upper_bound; [exact P|]. nia.
Qed.
(** 8-bit types, all values *)
Lemma small_u8 : forall x, fits U8 x -> c_sqrt U8 x = Some (Z.sqrt x) /\ c_recip U8 x = Some (if x =? 0 then 0 else Z.quot 1 x).
Proof.
  intros a F.
  assert (A : forallb (fun x => match c_sqrt U8 x, c_recip U8 x with Some a, Some b => (a =? Z.sqrt x) && (b =? if x =? 0 then 0 else Z.quot 1 x) | _, _ => false end) (up_to 256) = true) by (vm_compute; reflexivity).
  rewrite forallb_forall in A. specialize (A a). assert (I : In a (up_to 256)) by (apply up_to_in; unfold fits in F; cbn in F; lia).
  specialize (A I). destruct (c_sqrt U8 a), (c_recip U8 a); try discriminate. apply andb_prop in A as [A1 A2].
  apply Z.eqb_eq in A1, A2. subst. split; reflexivity.
Qed.
Lemma small_i8 : forall x, fits I8 x -> c_sqrt I8 x = Some (Z.sqrt (Z.abs x)) /\ c_recip I8 x = Some (if x =? 0 then 0 else Z.quot 1 x).
Proof.
  intros a F.
  assert (A : forallb (fun n => let x := n - 128 in match c_sqrt I8 x, c_recip I8 x with Some a, Some b => (a =? Z.sqrt (Z.abs x)) && (b =? if x =? 0 then 0 else Z.quot 1 x) | _, _ => false end) (up_to 256) = true) by (vm_compute; reflexivity).
  rewrite forallb_forall in A. specialize (A (a + 128)). assert (I : In (a + 128) (up_to 256)) by (apply up_to_in; unfold fits in F; cbn in F; lia).
  specialize (A I). replace (a + 128 - 128) with a in A by lia. cbv zeta in A.
  destruct (c_sqrt I8 a), (c_recip I8 a); try discriminate. apply andb_prop in A as [A1 A2].
  apply Z.eqb_eq in A1, A2. subst. split; reflexivity.
Qed.
(** the power with a scalar exponent of an u8, when the result fits *)
Lemma pow_scalar_u8 : forall x y, fits U8 x -> fits U8 y -> fits U8 (x ^ y) -> c_pow_scalar U8 x y = Some (x ^ y).
Proof.
  intros x y Fx Fy F.
  assert (A : forallb (fun x => forallb (fun y => if (x ^ y <=? 255) then match c_pow_scalar U8 x y with Some r => r =? x ^ y | None => false end else true) (up_to 256)) (up_to 2) = true) by (vm_compute; reflexivity).
  assert (B : forallb (fun x => forallb (fun y => if (x ^ y <=? 255) then match c_pow_scalar U8 x y with Some r => r =? x ^ y | None => false end else true) (up_to 8)) (up_to 256) = true) by (vm_compute; reflexivity).
  assert (G : (if (x ^ y <=? 255) then match c_pow_scalar U8 x y with Some r => r =? x ^ y | None => false end else true) = true).
  { unfold fits in *. cbn [lowest highest] in *. destruct (Z.lt_ge_cases x 2) as [X|X].
    - rewrite forallb_forall in A. specialize (A x (up_to_in 2 x ltac:(lia))). cbv beta in A.
      rewrite forallb_forall in A. exact (A y (up_to_in 256 y ltac:(lia))).
    - destruct (Z.lt_ge_cases y 8) as [Y|Y].
      + rewrite forallb_forall in B. specialize (B x (up_to_in 256 x ltac:(lia))). cbv beta in B.
        rewrite forallb_forall in B. exact (B y (up_to_in 8 y ltac:(lia))).
      + exfalso. clear A B. assert (2 ^ 8 <= x ^ y); [|lia].
        transitivity (2 ^ y); [apply Z.pow_le_mono_r; lia|apply Z.pow_le_mono_l; lia]. }
  unfold fits in F. cbn [lowest highest] in F. change (2 ^ 8 - 1) with 255 in F. destruct (Z.leb_spec (x ^ y) 255); [|lia].
  destruct (c_pow_scalar U8 x y); [|discriminate]. apply Z.eqb_eq in G. subst. reflexivity.
Qed.
