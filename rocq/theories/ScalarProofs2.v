(** Further facts about scalars: arithmetic, powers, roots, and the casts of the kernels. *)
From Coq Require Import ZArith Bool Lia SpecFloat List.
From Verif Require Import ScalarModel ScalarSpec ScalarProofs.
Import ListNotations.
Open Scope Z_scope.

Lemma ity_eqb_eq : forall a b, ity_eqb a b = true <-> a = b.
Proof. intros [] []; cbn; split; intro; try discriminate; reflexivity. Qed.
Lemma becomes_fits : forall t s r, valid_scalar s -> becomes t s r -> fits t r.
Proof.
  intros t [b|u n|f x] r V H; cbn [becomes] in H; pose proof (range_order t) as R.
  - subst r. destruct b; unfold fits; destruct t; cbn; lia.
  - exact (proj1 H).
  - destruct x as [s|s| |s m e]; cbn [float_becomes] in H.
    + destruct H as [v [n [_ [_ C]]]]. exact (proj1 C).
    + subst r. unfold fits. destruct s; lia.
    + subst r. unfold fits. lia.
    + destruct H as [v [n [_ [_ C]]]]. exact (proj1 C).
Qed.
Lemma drops_unique : forall v n n', drops v n -> drops v n' -> n = n'.
Proof.
  intros v n n' [S1 [L1 U1]] [S2 [L2 U2]]. assert (P : 0 < 2 ^ 1074) by (apply Z.pow_pos_nonneg; lia).
  generalize dependent (2 ^ 1074). intros P L1 U1 L2 U2 HP.
  assert (A : Z.abs n = Z.abs n').
  { assert (Z.abs n * P < (Z.abs n' + 1) * P) as X by lia. apply Z.mul_lt_mono_pos_r in X; [|exact HP].
    assert (Z.abs n' * P < (Z.abs n + 1) * P) as Y by lia. apply Z.mul_lt_mono_pos_r in Y; [|exact HP]. lia. }
  destruct (Z.eq_dec n 0); [lia|]. assert (1 <= Z.abs n) by lia.
  assert (P <= Z.abs v) by (eapply Z.le_trans; [|exact L1]; transitivity (1 * P); [lia|apply Z.mul_le_mono_nonneg_r; lia]).
  assert (0 < Z.abs v) by lia. clear L1 U1 L2 U2.
  destruct (Z.abs_eq_or_opp n) as [E|E], (Z.abs_eq_or_opp n') as [E'|E']; nia.
Qed.
(** There is one right result only. *)
Lemma becomes_unique : forall t s r r', becomes t s r -> becomes t s r' -> r = r'.
Proof.
  intros t [b|u n|f x] r r' H H'; cbn [becomes] in *.
  - congruence.
  - exact (closest_unique t n r r' H H').
  - destruct x as [s|s| |s m e]; cbn [float_becomes] in *; try congruence.
    + destruct H as [v [n [U [D C]]]], H' as [v' [n' [U' [D' C']]]]. assert (v = v') by congruence. subst v'.
      rewrite (drops_unique v n' n D' D) in C'. exact (closest_unique t n r r' C C').
    + destruct H as [v [n [U [D C]]]], H' as [v' [n' [U' [D' C']]]]. assert (v = v') by congruence. subst v'.
      rewrite (drops_unique v n' n D' D) in C'. exact (closest_unique t n r r' C C').
Qed.

Lemma to_usize_spec : forall s, valid_scalar s -> becomes U64 s (to_usize s).
Proof.
  intros s V. assert (E : to_usize s = to_integer U64 s) by (destruct s as [|[]|[]]; reflexivity).
  rewrite E. apply to_integer_spec. exact V.
Qed.
Lemma to_isize_spec : forall s, valid_scalar s -> becomes I64 s (to_isize s).
Proof.
  intros s V. assert (E : to_isize s = to_integer I64 s) by (destruct s as [|[]|[]]; reflexivity).
  rewrite E. apply to_integer_spec. exact V.
Qed.
Lemma closest_self : forall t n, fits t n -> closest t n n.
Proof. intros t n F. split; [exact F|]. intros. lia. Qed.
Lemma to_dtype_spec : forall t s, valid_scalar s ->
  exists r, to_dtype t s = Int t r /\ becomes t s r /\ valid_scalar (to_dtype t s).
Proof.
  intros t s V. assert (G : becomes t s (to_integer t s)) by (apply to_integer_spec; exact V).
  destruct s as [b|u n|f x]; cbn [to_dtype].
  - eexists. split; [reflexivity|]. split; [exact G|]. exact (becomes_fits t _ _ V G).
  - destruct (ity_eqb u t) eqn:E.
    + apply ity_eqb_eq in E. subst u. exists n. split; [reflexivity|]. split; [apply closest_self; exact V|exact V].
    + eexists. split; [reflexivity|]. split; [exact G|]. exact (becomes_fits t _ _ V G).
  - eexists. split; [reflexivity|]. split; [exact G|]. exact (becomes_fits t _ _ V G).
Qed.
Lemma to_dtype_idem : forall t s, to_dtype t (to_dtype t s) = to_dtype t s.
Proof.
  intros t s. assert (T : ity_eqb t t = true) by (apply ity_eqb_eq; reflexivity).
  destruct s as [b|u n|f x]; cbn [to_dtype]; try rewrite T; try reflexivity.
  destruct (ity_eqb u t) eqn:E; cbn [to_dtype]; [rewrite E|rewrite T]; reflexivity.
Qed.
Lemma to_dtype_fit : forall t u n, fits u n -> fits t n -> to_dtype t (Int u n) = Int t n.
Proof.
  intros t u n Fu Ft. cbn [to_dtype]. destruct (ity_eqb u t) eqn:E.
  - apply ity_eqb_eq in E. subst. reflexivity.
  - cbn [to_integer]. rewrite convert_int_spec by exact Fu. f_equal. unfold clampz, fits in *. lia.
Qed.
Lemma to_dtype_back : forall t u n, fits u n -> fits t n -> to_dtype u (to_dtype t (Int u n)) = Int u n.
Proof. intros t u n Fu Ft. rewrite to_dtype_fit by assumption. apply to_dtype_fit; assumption. Qed.
Lemma to_dtype_mono : forall t u n n', fits u n -> fits u n' -> n <= n' -> convert_int t u n <= convert_int t u n'.
Proof. intros. rewrite !convert_int_spec by assumption. unfold clampz. lia. Qed.
Lemma to_bool_spec : forall s, valid_scalar s -> (to_bool s = false <->
  match s with Bool b => b = false | Int _ n => n = 0 | Flt _ x => units x = Some 0 end).
Proof.
  intros [b|t n|f x] V; cbn [to_bool].
  - reflexivity.
  - rewrite negb_false_iff, Z.eqb_eq. reflexivity.
  - cbn [valid_scalar] in V. pose proof (valid_exponent _ _ V) as E. rewrite negb_false_iff.
    destruct x as [s|s| |s m e]; unfold SFeqb; cbn [SFcompare units].
    + split; reflexivity.
    + destruct s; split; discriminate.
    + split; discriminate.
    + pose proof (size_pos m e 1074 E) as P. unfold size in P. destruct s; split; intro H; try discriminate; apply f_equal with (f := fun o => match o with Some v => v | None => 0 end) in H; lia.
Qed.
(** The wrapping constructors are right for the numbers that fit. *)
Lemma from_fit : forall t n, fits t n -> from_usize t n = Int t n /\ from_isize t n = Int t n.
Proof. intros t n F. unfold from_usize, from_isize. rewrite cut_fits by exact F. split; reflexivity. Qed.
Lemma into_fit : forall n, (fits U32 n -> into_usize n = Int U32 n) /\ (fits I32 n -> into_isize n = Int I32 n).
Proof. intros n. unfold into_usize, into_isize. split; intro F; rewrite cut_fits by exact F; reflexivity. Qed.

(** Arithmetic *)
Lemma settle_fit : forall c t r, fits t r -> settle c t r = Some r.
Proof. intros c t r [L U]. unfold settle. apply Z.leb_le in L, U. rewrite L, U. reflexivity. Qed.
Lemma settle_nofit : forall t r, ~ fits t r -> settle true t r = None /\ settle false t r = Some (cut t r).
Proof.
  intros t r F. unfold settle, fits in *. destruct (lowest t <=? r) eqn:L, (r <=? highest t) eqn:U; cbn; auto.
  apply Z.leb_le in L, U. lia.
Qed.
Lemma quot_fits : forall t a b, fits t a -> fits t b -> b <> 0 -> ~ (a = lowest t /\ b = -1) -> fits t (Z.quot a b).
Proof.
  intros t a b [L U] FB HB HN. unfold fits in *. pose proof (range_order t).
  assert (Q : Z.abs (Z.quot a b) <= Z.abs a).
  { rewrite Z.quot_div by exact HB.
    assert (D : 0 <= Z.abs a / Z.abs b <= Z.abs a).
    { split; [apply Z.div_pos; lia|]. apply Z.div_le_upper_bound; [lia|].
      transitivity (1 * Z.abs a); [lia|]. apply Z.mul_le_mono_nonneg_r; lia. }
    destruct (Z.abs a / Z.abs b) eqn:ED; destruct a, b; cbn; cbn in D; lia. }
  destruct (Z.eq_dec b (-1)) as [->|B1].
  - replace (Z.quot a (-1)) with (- a). 2: { change (-1) with (- (1)). rewrite Z.quot_opp_r, Z.quot_1_r by lia. reflexivity. }
    assert (a <> lowest t) by (intro; apply HN; auto). destruct t; cbn in *; lia.
  - destruct (Z.eq_dec a (lowest t)) as [->|A1].
    + destruct (Z.eq_dec (lowest t) 0) as [E0|E0]; [rewrite E0 in *; destruct b; cbn; lia|].
      assert (Z.abs (Z.quot (lowest t) b) <= highest t \/ Z.quot (lowest t) b = lowest t) as [X|X]; [|lia|lia].
      destruct (Z.eq_dec b 1) as [->|B2]; [right; apply Z.quot_1_r|left].
      rewrite Z.quot_div by exact HB.
      assert (D : 0 <= Z.abs (lowest t) / Z.abs b <= highest t).
      { split; [apply Z.div_pos; lia|]. apply Z.div_le_upper_bound; [lia|].
        transitivity (2 * highest t); [destruct t; cbn in *; lia|]. apply Z.mul_le_mono_nonneg_r; lia. }
      destruct (Z.abs (lowest t) / Z.abs b) eqn:ED; destruct (lowest t), b; cbn; cbn in D; lia.
    + assert (lowest t = 0 -> 0 <= Z.quot a b) by (intro Z0; apply Z.quot_pos; lia).
      destruct t; cbn in *; lia.
Qed.
Lemma rem_fits : forall t a b, fits t a -> fits t b -> b <> 0 -> fits t (Z.rem a b).
Proof.
  intros t a b [L U] FB HB. unfold fits in *.
  destruct (Z.le_ge_cases 0 a) as [A|A].
  - pose proof (Z.rem_bound_abs a b HB). pose proof (Z.rem_nonneg a b HB A). pose proof (Z.rem_le a (Z.abs b) A ltac:(lia)).
    rewrite Z.rem_abs_r in H1 by exact HB. pose proof (range_order t). lia.
  - pose proof (Z.rem_nonpos a b HB A). pose proof (Z.rem_le (- a) (Z.abs b) ltac:(lia) ltac:(lia)) as X.
    rewrite Z.rem_abs_r, Z.rem_opp_l in X by exact HB. pose proof (range_order t). lia.
Qed.
(** An operation on two integers of one type: exact when the exact result fits (but MIN % -1, which panics). *)
Theorem arith_exact : forall c o t a b r, fits t a -> fits t b -> exact_result o a b = Some r -> fits t r ->
  ~ (o = Rem /\ a = lowest t /\ b = -1) ->
  arith c o (Int t a) (Int t b) = Some (Int t r).
Proof.
  intros c o t a b r Fa Fb E Fr HN. cbn [arith]. rewrite (proj2 (ity_eqb_eq t t) eq_refl).
  destruct o; cbn [int_op exact_result] in *.
  1-3: injection E as <-; rewrite settle_fit by exact Fr; reflexivity.
  - destruct (b =? 0) eqn:B; [discriminate|]. injection E as <-.
    destruct ((a =? lowest t) && (b =? -1)) eqn:M; [|reflexivity].
    apply andb_prop in M as [M1 M2]. apply Z.eqb_eq in M1, M2. subst a b. exfalso.
    change (-1) with (- (1)) in Fr. rewrite Z.quot_opp_r, Z.quot_1_r in Fr by lia.
    unfold fits in *. destruct t; cbn in *; lia.
  - destruct (b =? 0) eqn:B; [discriminate|]. injection E as <-.
    destruct ((a =? lowest t) && (b =? -1)) eqn:M; [|reflexivity].
    apply andb_prop in M as [M1 M2]. apply Z.eqb_eq in M1, M2. exfalso. apply HN. auto.
Qed.
(** Whatever the builds return is a scalar of the type. *)
Theorem arith_valid : forall c o t a b s, fits t a -> fits t b -> arith c o (Int t a) (Int t b) = Some s ->
  exists r, s = Int t r /\ fits t r.
Proof.
  intros c o t a b s Fa Fb H. cbn [arith] in H. rewrite (proj2 (ity_eqb_eq t t) eq_refl) in H.
  assert (S : forall r r', settle c t r = Some r' -> fits t r').
  { intros r r' E. unfold settle in E. destruct ((lowest t <=? r) && (r <=? highest t)) eqn:B.
    - injection E as <-. apply andb_prop in B as [B1 B2]. apply Z.leb_le in B1, B2. split; assumption.
    - destruct c; [discriminate|]. injection E as <-. apply cut_range. }
  destruct (int_op c o t a b) as [r|] eqn:E; [|discriminate]. cbn [option_map] in H. injection H as <-.
  exists r. split; [reflexivity|]. destruct o; cbn [int_op] in E; try exact (S _ _ E).
  - destruct (b =? 0) eqn:B; [discriminate|]. destruct ((a =? lowest t) && (b =? -1)) eqn:M; [discriminate|].
    injection E as <-. apply Z.eqb_neq in B. apply quot_fits; auto. intros [-> ->].
    rewrite Z.eqb_refl in M. discriminate.
  - destruct (b =? 0) eqn:B; [discriminate|]. destruct ((a =? lowest t) && (b =? -1)) eqn:M; [discriminate|].
    injection E as <-. apply Z.eqb_neq in B. apply rem_fits; auto.
Qed.
(** Without the checks the result of +, -, * is congruent to the exact one. *)
Theorem arith_wraps : forall o t a b r, (o = Add \/ o = Sub \/ o = Mul) -> exact_result o a b = Some r ->
  exists k, arith false o (Int t a) (Int t b) = Some (Int t (r + k * (highest t - lowest t + 1))).
Proof.
  intros o t a b r HO E.
  assert (S : exists k, settle false t r = Some (r + k * (highest t - lowest t + 1))).
  { unfold settle. destruct ((lowest t <=? r) && (r <=? highest t)).
    - exists 0. f_equal. lia.
    - exists (- ((r - lowest t) / (highest t - lowest t + 1))). f_equal. unfold cut.
      pose proof (range_order t). pose proof (Z.div_mod (r - lowest t) (highest t - lowest t + 1) ltac:(lia)).
      generalize dependent ((r - lowest t) / (highest t - lowest t + 1)). intros q Hq.
      set (w := highest t - lowest t + 1) in *. rewrite Z.mul_opp_l. rewrite (Z.mul_comm q w). lia. }
  destruct S as [k S]. exists k. cbn [arith]. rewrite (proj2 (ity_eqb_eq t t) eq_refl).
  destruct HO as [HO | [HO | HO]]; subst o; cbn [exact_result] in E; injection E as <-; cbn [int_op]; rewrite S; reflexivity.
Qed.
(** Operands of different types: always a panic. *)
Theorem arith_mixed : forall c o t u a b, t <> u -> arith c o (Int t a) (Int u b) = None.
Proof.
  intros c o t u a b H. cbn [arith]. destruct (ity_eqb t u) eqn:E; [|reflexivity]. apply ity_eqb_eq in E. contradiction.
Qed.
(** Powers *)
Theorem powi_exact : forall c t a e, 0 <= e <= highest I32 -> fits t (a ^ e) -> powi_int c t a e = Some (a ^ e).
Proof.
  intros c t a e [E1 E2] F. unfold powi_int. rewrite cut_fits by (unfold fits; cbn in *; lia). apply settle_fit. exact F.
Qed.
(** A negative exponent is read as one of at least 2^31: 2^-1 is a panic with the checks, and 0 without. *)
Theorem powi_negative : powi_int true I32 2 (-1) = None /\ powi_int false I32 2 (-1) = Some 0.
Proof.
  unfold powi_int. replace (cut U32 (-1)) with (32 + 4294967263) by reflexivity. rewrite Z.pow_add_r by lia.
  assert (P : 0 < 2 ^ 4294967263) by (apply Z.pow_pos_nonneg; lia).
  generalize dependent (2 ^ 4294967263). intros q P.
  assert (N : ~ fits I32 (2 ^ 32 * q)) by (unfold fits; cbn [highest lowest]; lia).
  destruct (settle_nofit _ _ N) as [-> ->]. split; [reflexivity|]. f_equal. unfold cut. cbn [lowest highest].
  replace (2 ^ 31 - 1 - - 2 ^ 31 + 1) with (2 ^ 32) by reflexivity.
  replace (2 ^ 32 * q - - 2 ^ 31) with (2 ^ 31 + q * 2 ^ 32) by lia. rewrite Z.mod_add by lia. reflexivity.
Qed.
(** Roots of the 8-bit integers, by going through all of them *)
Definition up_to (n : nat) : list Z := List.map Z.of_nat (seq 0 n).
Lemma up_to_in : forall n z, 0 <= z < Z.of_nat n -> In z (up_to n).
Proof.
  intros n z H. unfold up_to. apply in_map_iff. exists (Z.to_nat z). split; [lia|]. apply in_seq. lia.
Qed.
Lemma sqrt_u8 : forall a, fits U8 a -> sqrt_int U8 a = Z.sqrt a.
Proof.
  intros a F. assert (A : forallb (fun a => sqrt_int U8 a =? Z.sqrt a) (up_to 256) = true) by (vm_compute; reflexivity).
  rewrite forallb_forall in A. apply Z.eqb_eq, A, up_to_in. unfold fits in F. cbn in F. lia.
Qed.
Lemma sqrt_i8 : forall a, fits I8 a -> 0 <= a -> sqrt_int I8 a = Z.sqrt a.
Proof.
  intros a F P. assert (A : forallb (fun a => sqrt_int I8 a =? Z.sqrt a) (up_to 128) = true) by (vm_compute; reflexivity).
  rewrite forallb_forall in A. apply Z.eqb_eq, A, up_to_in. unfold fits in F. cbn in F. lia.
Qed.

(** The casts of the kernels agree with the conversions of scalars when the number fits. *)
Lemma cast_int : forall t u n, fits u n -> fits t n -> c_cast t (Int u n) = Some (to_integer t (Int u n)).
Proof.
  intros t u n Fu Ft. cbn [c_cast to_integer]. rewrite convert_int_spec, cut_fits by assumption.
  f_equal. unfold clampz, fits in *. lia.
Qed.
Lemma cast_float : forall t f x r, valid_binary (prec f) (emax f) x = true -> c_cast t (Flt f x) = Some r ->
  r = to_integer t (Flt f x).
Proof.
  intros t f x r V H. apply (becomes_unique t (Flt f x)); [|exact (to_integer_spec t (Flt f x) V)].
  cbn [becomes c_cast] in *. pose proof (valid_exponent _ _ V) as E.
  assert (G : finite x -> (if (lowest t <=? toward_zero x) && (toward_zero x <=? highest t) then Some (toward_zero x) else None) = Some r ->
    exists v n, units x = Some v /\ drops v n /\ closest t n r).
  { intros FX W. destruct ((lowest t <=? toward_zero x) && (toward_zero x <=? highest t)) eqn:B; [|discriminate].
    injection W as <-. apply andb_prop in B as [B1 B2]. apply Z.leb_le in B1, B2.
    exists (amount 1074 x), (toward_zero x). split; [apply finite_units; exact FX|]. split.
    - exact (toward_zero_drops 1074 x FX E ltac:(lia)).
    - apply closest_self. split; assumption. }
  destruct x as [s|s| |s m e]; cbn [float_becomes]; try discriminate; apply G; auto; exact I.
Qed.
(** ... and the cast of a float is defined exactly when the value without its fraction fits. *)
Lemma cast_defined : forall t f x v n, valid_binary (prec f) (emax f) x = true -> units x = Some v -> drops v n ->
  (c_cast t (Flt f x) <> None <-> fits t n).
Proof.
  intros t f x v n V U D. pose proof (valid_exponent _ _ V) as E.
  assert (FX : finite x) by (destruct x; cbn in U; try discriminate; exact I).
  rewrite (finite_units x FX) in U. injection U as <-.
  assert (T : toward_zero x = n).
  { apply (drops_unique (amount 1074 x)); [|exact D]. exact (toward_zero_drops 1074 x FX E ltac:(lia)). }
  assert (C : c_cast t (Flt f x) = if (lowest t <=? n) && (n <=? highest t) then Some n else None).
  { destruct x; try contradiction; cbn [c_cast]; rewrite T; reflexivity. }
  rewrite C. unfold fits. destruct (Z.leb_spec (lowest t) n), (Z.leb_spec n (highest t)); cbn; split; intro X; try lia; try discriminate; try congruence.
Qed.
