(** Proofs about arange and linspace. *)
From Coq Require Import List ZArith Bool SpecFloat Lia.
From Verif Require Import Base ScalarModel SmallFloatProofs JsonProofs FloatIntProofs SeqModel SeqSpec.
Import ListNotations.
Open Scope Z_scope.

Lemma refloat_small f g n : tiny n -> refloat g (of_z f n) = of_z g n.
Proof.
  intros T. rewrite !of_z_form by auto. unfold form. destruct (Z.eqb_spec n 0) as [|N]; [reflexivity|]. cbv zeta. cbn [refloat].
  destruct (digits_tiny n N T) as [D B]. set (d := Zdigits2 (Z.abs n)) in *.
  assert (K : 0 <= prec f - d) by (destruct f; cbn [prec]; lia). assert (P : 0 < 2 ^ (prec f - d)) by (apply Z.pow_pos_nonneg; lia).
  rewrite (round_value (prec g) (emax g) (n <? 0) (Z.abs n) (prec f - d) (d - prec f) _ (d - prec g)); try lia.
  - do 4 f_equal. lia.
  - unfold fexp. fold d. destruct g; cbn [prec emax]; [change (emin 24 128) with (-149)|change (emin 53 1024) with (-1074)]; lia.
  - destruct g; cbn [prec]; lia.
  - destruct g; cbn [prec emax]; lia.
Qed.
Lemma to_f32_small k n : tiny n -> holds k n -> to_f32 (integer k n) = fz n.
Proof.
  intros T H. destruct k as [|t|[]]; cbn [integer to_f32 holds] in *.
  - unfold fz. destruct (Z.eqb_spec n 0); cbn [negb]; [now subst|]. replace n with 1 by lia. reflexivity.
  - reflexivity.
  - reflexivity.
  - now apply (refloat_small F64 F32).
Qed.
Lemma cast_small k n : tiny n -> holds k n -> cast_to k (fz n) = Some (integer k n).
Proof.
  intros T H. destruct k as [|t|f]; cbn [cast_to integer holds] in *.
  - now rewrite eqb_fz_zero.
  - unfold c_cast. rewrite toward_zero_fz by auto.
    destruct (Z.leb_spec (lowest t) n), (Z.leb_spec n (highest t)); try lia. cbn [andb].
    destruct (fz_valid n T) as [F _]. destruct (fz n); try contradiction; reflexivity.
  - do 2 f_equal. destruct f; [reflexivity|]. now apply (refloat_small F32 F64).
Qed.
Lemma cast_all_map {A} k (f : A -> spec_float) g l : (forall i, In i l -> cast_to k (f i) = Some (g i)) -> cast_all k (map f l) = Ok (map g l).
Proof.
  induction l as [|i l IH]; intros H; [reflexivity|]. cbn [map cast_all]. rewrite H by (left; reflexivity).
  rewrite IH by (intros; apply H; now right). reflexivity.
Qed.
Lemma joint_kind s1 s2 s3 : (if is_float s1 then kind_of s1 else if is_float s2 then kind_of s2 else if is_float s3 then kind_of s3 else kind_of s1) =
  joint [kind_of s1; kind_of s2; kind_of s3].
Proof. destruct s1, s2, s3; reflexivity. Qed.
Lemma joint_kind2 s1 s2 : (if is_float s1 then kind_of s1 else if is_float s2 then kind_of s2 else kind_of s1) = joint [kind_of s1; kind_of s2].
Proof. destruct s1, s2; reflexivity. Qed.
Lemma kind_of_integer k n : kind_of (integer k n) = k.
Proof. destruct k; reflexivity. Qed.
Lemma holds_between k a b n : holds k a -> holds k b -> Z.min a b <= n <= Z.max a b -> holds k n.
Proof. destruct k; cbn [holds]; lia. Qed.

(** The number of terms: the quotient, rounded to the nearest, has the ceiling of the quotient. *)
Lemma ceil_div a b c : 0 < a * b -> tiny a -> tiny b -> (c - 1) * Z.abs b < Z.abs a <= c * Z.abs b ->
  ceil_usize (SFdiv 24 128 (fz a) (fz b)) = c.
Proof.
  intros P A B C. assert (Na : a <> 0) by nia. assert (Nb : b <> 0) by nia.
  destruct (div_fz a b Na Nb A B) as (M & F & m & e & R & F0 & R0 & R1 & R2 & R3 & R4). rewrite R.
  replace (xorb (a <? 0) (b <? 0)) with false by (destruct (Z.ltb_spec a 0), (Z.ltb_spec b 0); try reflexivity; nia).
  assert (PF : 0 < 2 ^ F) by (apply Z.pow_pos_nonneg; lia).
  assert (X : (c - 1) * 2 ^ F < M <= c * 2 ^ F).
  { rewrite Z.pow_add_r in R0 by lia. change (2 ^ 1) with 2 in R0. set (W := 2 ^ F) in *. clearbody W.
    set (x := Z.abs a) in *. set (y := Z.abs b) in *. assert (0 < y) by lia. clearbody x y. clear - C R0 R1 PF H. split.
    - assert (2 * (c - 1) * y * W < 2 * M * y); [|nia]. assert (((c - 1) * y + 1) * W <= x * W) by nia. nia.
    - assert (x * W <= c * y * W) by nia. assert (2 * (M - c * W) * y <= y) by nia. nia. }
  assert (Y : ceiling (S754_finite false m e) = - (- M / 2 ^ F)).
  { cbn [ceiling]. destruct (Z.leb_spec 0 e).
    - rewrite R3, Z.pow_add_r, Z.mul_assoc by lia. rewrite <- Z.mul_opp_l, Z.div_mul by lia. lia.
    - f_equal. rewrite R3. replace (2 ^ F) with (2 ^ (- e) * 2 ^ (e + F)) by (rewrite <- Z.pow_add_r by lia; f_equal; lia).
      rewrite <- Z.mul_opp_l, Z.div_mul_cancel_r; auto; apply Z.pow_nonzero; lia. }
  assert (Z1 : - (- M / 2 ^ F) = c).
  { rewrite <- (Z.div_unique (- M) (2 ^ F) (- c) (c * 2 ^ F - M)); nia. }
  assert (C1 : 0 < c <= 2 ^ 24) by (unfold tiny in A; set (x := Z.abs a) in *; assert (0 < x) by lia; set (y := Z.abs b) in *; assert (0 < y) by lia; clearbody x y; clear - A C H H0; nia).
  unfold ceil_usize. rewrite Y, Z1. lia.
Qed.
Lemma ceil_exists x y : 0 < x -> 0 < y -> exists c, (c - 1) * y < x <= c * y.
Proof. intros X Y. exists (- (- x / y)). pose proof (Z.div_mod (- x) y ltac:(lia)). pose proof (Z.mod_pos_bound (- x) y Y). nia. Qed.

Theorem arange_small ka kb kh a b h : tiny a -> tiny b -> tiny h -> tiny (b - a) -> holds ka a -> holds kb b -> holds kh h ->
  let k := joint [ka; kb; kh] in holds k a -> holds k b ->
  (before b h a -> exists l, arange (integer ka a) (integer kb b) (integer kh h) = Ok (map (integer k) l) /\ sequence a b h l) /\
  (~ before b h a -> arange (integer ka a) (integer kb b) (integer kh h) = Err EInternal).
Proof.
  intros A B H D Ha Hb Hh k Ka Kb. unfold arange. rewrite joint_kind, !kind_of_integer. fold k.
  rewrite !to_f32_small by auto. rewrite eqb_fz_zero by auto. change (S754_zero false) with (fz 0).
  rewrite !ltb_fz, !leb_fz by (auto; reflexivity). unfold before. split.
  - intros Q. destruct (Z.eqb_spec h 0); [lia|].
    replace ((0 <? h) && (b <=? a) || (h <? 0) && (a <=? b)) with false
      by (destruct (Z.ltb_spec 0 h), (Z.leb_spec b a), (Z.ltb_spec h 0), (Z.leb_spec a b); try reflexivity; lia).
    rewrite sub_fz by auto. destruct (ceil_exists (Z.abs (b - a)) (Z.abs h) ltac:(lia) ltac:(lia)) as [c C].
    rewrite (ceil_div (b - a) h c) by (auto; nia).
    assert (C1 : 0 < c <= 2 ^ 24) by (unfold tiny in D; set (x := Z.abs (b - a)) in *; assert (0 < x) by lia; set (y := Z.abs h) in *; assert (0 < y) by lia; clearbody x y; clear - D C H0 H1; nia).
    unfold terms. destruct (Z.leb_spec (4 * c) (2 ^ 63 - 1)); [|lia]. cbn [bind].
    set (f := fun i => a + h * Z.of_nat i). exists (map f (seq 0 (Z.to_nat c))).
    assert (In1 : forall i, (i < Z.to_nat c)%nat -> Z.abs (h * Z.of_nat i) < Z.abs (b - a) /\ (0 < h -> a <= f i < b) /\ (h < 0 -> b < f i <= a) /\ Z.of_nat i < c).
    { intros i Hi. assert (I2 : 0 <= Z.of_nat i <= c - 1) by lia. unfold f. set (j := Z.of_nat i) in *. clearbody j. rewrite Z.abs_mul, (Z.abs_eq j) by lia.
      assert (Z.abs h * j < Z.abs (b - a)) by (clear - C I2; nia). split; auto. split; [|split; [|lia]].
      - intros. destruct Q as [Q|Q]; [|lia]. rewrite Z.abs_eq in * by lia. rewrite (Z.abs_eq (b - a)) in * by lia. nia.
      - intros. destruct Q as [Q|Q]; [lia|]. rewrite Z.abs_neq in * by lia. rewrite (Z.abs_neq (b - a)) in * by lia. nia. }
    split.
    + rewrite map_map. apply cast_all_map. intros i Hi. apply in_seq in Hi. destruct (In1 i ltac:(lia)) as (I1 & I2 & I3 & I4).
      assert (Tf : tiny (f i)) by (unfold tiny in *; lia). unfold term. change (of_z F32 (Z.of_nat i)) with (fz (Z.of_nat i)).
      rewrite term_fz; auto; try (unfold tiny in *; lia).
      apply cast_small; auto. apply (holds_between k a b); auto. fold (f i). lia.
    + intros i. destruct (lt_dec i (Z.to_nat c)) as [L|L].
      * rewrite (map_nth_error f i (seq 0 (Z.to_nat c)) (d := i)).
        -- destruct (In1 i L) as (I1 & I2 & I3 & I4). unfold before. split; [unfold f; lia|]. lia.
        -- rewrite nth_error_nth' with (d := O) by (rewrite seq_length; lia). now rewrite seq_nth.
      * rewrite (proj2 (nth_error_None _ i)) by (rewrite map_length, seq_length; lia).
        assert (I2 : c <= Z.of_nat i) by lia. set (j := Z.of_nat i) in *. clearbody j. unfold before.
        assert (Z.abs (b - a) <= Z.abs h * j) by (clear - C I2; nia). destruct Q as [Q|Q].
        -- rewrite !Z.abs_eq in H1 by lia. lia.
        -- rewrite !Z.abs_neq in H1 by lia. lia.
  - intros Q. destruct (Z.eqb_spec h 0); [reflexivity|].
    replace ((0 <? h) && (b <=? a) || (h <? 0) && (a <=? b)) with true; [reflexivity|].
    destruct (Z.ltb_spec 0 h), (Z.leb_spec b a), (Z.ltb_spec h 0), (Z.leb_spec a b); try reflexivity; lia.
Qed.

Lemma terms_length n a h l : terms n a h = Ok l -> 0 <= n -> Z.of_nat (length l) = n.
Proof.
  unfold terms. destruct (Z.leb_spec (4 * n) (2 ^ 63 - 1)); [|discriminate]. intros E N. injection E as <-. rewrite map_length, seq_length. lia.
Qed.
Lemma cast_all_length k l : forall r, cast_all k l = Ok r -> length r = length l.
Proof.
  induction l as [|x l IH]; intros r; cbn [cast_all]; [now intros [= <-]|]. destruct (cast_to k x); [|discriminate].
  destruct (cast_all k l) as [ys| |] eqn:E; cbn [bind]; try discriminate. intros [= <-]. cbn [length]. f_equal. now apply IH.
Qed.
Theorem linspace_length a b n l : 0 <= n -> linspace a b n = Ok l -> Z.of_nat (length l) = n.
Proof.
  unfold linspace. intros N. destruct (Z.eqb_spec n 0); [discriminate|]. destruct (Z.eqb_spec n 1).
  - cbn [bind]. intros E. apply cast_all_length in E. rewrite E. cbn. lia.
  - destruct (terms n _ _) as [ys| |] eqn:T; cbn [bind]; try discriminate. intros E. apply cast_all_length in E. rewrite E. now apply terms_length in T.
Qed.
Theorem linspace_small ka kb a b n : tiny a -> tiny b -> tiny (b - a) -> holds ka a -> holds kb b ->
  let k := joint [ka; kb] in holds k a -> holds k b -> 0 <= n -> tiny (n - 1) -> (2 <= n -> (n - 1 | b - a)) ->
  if n =? 0 then linspace (integer ka a) (integer kb b) n = Err EInternal
  else exists l, linspace (integer ka a) (integer kb b) n = Ok (map (integer k) l) /\ evenly a b n l.
Proof.
  intros A B D Ha Hb k Ka Kb N T Dv. unfold linspace. rewrite joint_kind2, !kind_of_integer. fold k. rewrite !to_f32_small by auto.
  destruct (Z.eqb_spec n 0); [reflexivity|]. destruct (Z.eqb_spec n 1) as [->|N1].
  - exists [a]. cbn [bind cast_all map]. rewrite cast_small by auto. split; [reflexivity|]. split; [reflexivity|].
    intros i x E. destruct i; cbn in E; [injection E as <-; lia|destruct i; discriminate].
  - destruct (Dv ltac:(lia)) as [c C]. rewrite sub_fz by auto. change (of_z F32 (n - 1)) with (fz (n - 1)).
    assert (S : SFdiv 24 128 (fz (b - a)) (fz (n - 1)) = fz c).
    { destruct (Z.eq_dec c 0) as [Ec|Ec].
      - replace (b - a) with 0 by lia. subst c. change (fz 0) with (S754_zero false). rewrite fz_form by auto. unfold form.
        destruct (Z.eqb_spec (n - 1) 0); [lia|]. cbv zeta. cbn. destruct (Z.ltb_spec (n - 1) 0); [lia|reflexivity].
      - apply div_exact; auto. lia. }
    rewrite S. unfold terms. unfold tiny in T. destruct (Z.leb_spec (4 * n) (2 ^ 63 - 1)); [|lia]. cbn [bind].
    set (f := fun i => a + c * Z.of_nat i). exists (map f (seq 0 (Z.to_nat n))). split.
    + rewrite map_map. apply cast_all_map. intros i Hi. apply in_seq in Hi. assert (I2 : 0 <= Z.of_nat i <= n - 1) by lia.
      assert (X : (0 <= c -> a <= f i <= b) /\ (c <= 0 -> b <= f i <= a) /\ Z.abs (c * Z.of_nat i) <= Z.abs (b - a) /\ Z.abs c <= Z.abs (b - a)).
      { unfold f. set (j := Z.of_nat i) in *. clearbody j. rewrite C, !Z.abs_mul. rewrite (Z.abs_eq j), (Z.abs_eq (n - 1)) by lia. clear - C I2 N N1 n0. repeat split; intros; nia. }
      destruct X as (X1 & X2 & X3 & X4). assert (Tf : tiny (f i)) by (unfold tiny in *; lia). unfold term. change (of_z F32 (Z.of_nat i)) with (fz (Z.of_nat i)).
      rewrite term_fz; auto; try (unfold tiny in *; lia).
      apply cast_small; auto. apply (holds_between k a b); auto. fold (f i). lia.
    + split; [rewrite map_length, seq_length; lia|]. intros i x E.
      assert (L : (i < Z.to_nat n)%nat) by (rewrite <- (seq_length (Z.to_nat n) 0), <- (map_length f); apply nth_error_Some; rewrite E; discriminate).
      rewrite (map_nth_error f i (seq 0 (Z.to_nat n)) (d := i)) in E
        by (rewrite nth_error_nth' with (d := O) by (rewrite seq_length; lia); now rewrite seq_nth).
      injection E as <-. unfold f. split; [rewrite C; ring|]. intros ->. cbn. lia.
Qed.
