From Coq Require Import String Ascii.
From Coq Require Import List NArith ZArith Bool Lia.
From Coq Require Import ZifyBool ZifyN ZifyNat.
From Verif Require Import Base IndexSpec LayoutModel KernelModel TensorModel EncodeModel EncodeProofs RpcModel CliModel.
Import ListNotations.
Local Open Scope string_scope.
Local Open Scope list_scope.

Infix "^^" := String.append (at level 60, right associativity).

Lemma app_assoc_s : forall a b c : string, (a ^^ b) ^^ c = a ^^ (b ^^ c).
Proof. induction a; intros; cbn; congruence. Qed.
Lemma app_nil_s : forall a : string, a ^^ "" = a.
Proof. induction a; cbn; congruence. Qed.

(* ---------- decimal numerals ---------- *)

Definition digit_char (d : N) : ascii := ascii_of_N (48 + d).
(** the decimal numeral of [n], most significant digit first *)
Fixpoint dec_fuel (f : nat) (n : N) : string :=
  match f with
  | 0 => ""
  | S f' => if (n <? 10)%N then String (digit_char n) ""
            else dec_fuel f' (n / 10) ^^ String (digit_char (n mod 10)) ""
  end.
Definition dec (n : N) : string := dec_fuel (S (N.to_nat (N.log2 n))) n.

Lemma digit_digit_char : forall d, (d < 10)%N -> digit (digit_char d) = Some d.
Proof.
  intros d H. unfold digit, digit_char. rewrite N_ascii_embedding by lia.
  replace ((48 <=? 48 + d) && (48 + d <=? 57))%N with true by lia. f_equal. lia.
Qed.

Lemma digits_app : forall a b acc, digits acc (a ^^ b) =
  match digits acc a with Some v => digits v b | None => None end.
Proof.
  induction a as [|c a IH]; intros b acc; cbn; [reflexivity|].
  destruct (digit c); [apply IH|reflexivity].
Qed.

Lemma digits_dec_fuel : forall f n, (n < 2 ^ N.of_nat f)%N -> digits 0 (dec_fuel f n) = Some n.
Proof.
  induction f as [|f IH]; intros n H.
  - cbn in *. f_equal. lia.
  - cbn [dec_fuel]. destruct (N.ltb_spec n 10) as [E|E].
    + cbn [digits]. rewrite digit_digit_char by lia. reflexivity.
    + rewrite digits_app, IH.
      * cbn [digits]. rewrite digit_digit_char by (apply N.mod_lt; lia).
        f_equal. symmetry. rewrite N.mul_comm. rewrite (N.div_mod n 10) at 1 by lia. lia.
      * rewrite Nat2N.inj_succ, N.pow_succ_r' in H.
        assert (n / 10 * 10 <= n)%N by (rewrite N.mul_comm; apply N.mul_div_le; lia). lia.
Qed.

Lemma dec_value : forall n, digits 0 (dec n) = Some n.
Proof.
  intro n. apply digits_dec_fuel. destruct (N.eq_dec n 0) as [->|Hn]; [reflexivity|].
  rewrite Nat2N.inj_succ, N2Nat.id. apply N.log2_spec. lia.
Qed.

Lemma dec_fuel_head : forall f n, (0 < f)%nat -> (n < 2 ^ N.of_nat f)%N -> exists d r, (d < 10)%N /\ dec_fuel f n = String (digit_char d) r.
Proof.
  induction f as [|f IH]; intros n Hf H; [lia|].
  cbn [dec_fuel]. destruct (N.ltb_spec n 10) as [E|E]; [eauto|].
  destruct f as [|f]; [cbn in H; lia|].
  destruct (IH (n / 10)%N) as (d & r & Hd & ->); [lia| |].
  - rewrite Nat2N.inj_succ, N.pow_succ_r' in H.
    assert (n / 10 * 10 <= n)%N by (rewrite N.mul_comm; apply N.mul_div_le; lia). lia.
  - eexists _, _. split; [exact Hd|]. reflexivity.
Qed.
Lemma dec_head : forall n, exists d r, (d < 10)%N /\ dec n = String (digit_char d) r.
Proof.
  intro n. apply dec_fuel_head; [lia|]. destruct (N.eq_dec n 0) as [->|Hn]; [reflexivity|].
  rewrite Nat2N.inj_succ, N2Nat.id. apply N.log2_spec. lia.
Qed.

Lemma digit_char_not : forall d c, (d < 10)%N -> (N_of_ascii c < 48 \/ 57 < N_of_ascii c)%N -> digit_char d <> c.
Proof.
  intros d c Hd Hc E. unfold digit_char in E. subst c. rewrite N_ascii_embedding in Hc by lia. lia.
Qed.

Lemma parse_uint_dec : forall bound n, (n < bound)%N -> parse_uint bound (dec n) = Some n.
Proof.
  intros bound n H. unfold parse_uint. destruct (dec_head n) as (d & r & Hd & E).
  assert (B : match dec n with String "+"%char r => r | _ => dec n end = dec n).
  { rewrite E. assert (digit_char d <> "+"%char) by (apply digit_char_not; [auto|left; reflexivity]).
    destruct (digit_char d) as [[] [] [] [] [] [] [] []]; try reflexivity. congruence. }
  rewrite B, dec_value. rewrite E at 1. cbn [String.eqb].
  replace (n <? bound)%N with true by lia. reflexivity.
Qed.

(** the parts of a version *)
Fixpoint no_char (c : ascii) (s : string) : Prop :=
  match s with EmptyString => True | String d r => d <> c /\ no_char c r end.

Lemma split_on_plain : forall c a, no_char c a -> split_on c a = [a].
Proof.
  induction a as [|d a IH]; intro H; [reflexivity|]. destruct H as [H1 H2].
  cbn. destruct (Ascii.eqb_spec c d); [congruence|]. rewrite IH by auto. reflexivity.
Qed.
Lemma split_on_app : forall c a b, no_char c a -> split_on c (a ^^ String c b) = a :: split_on c b.
Proof.
  induction a as [|d a IH]; intros b H.
  - cbn. rewrite Ascii.eqb_refl. reflexivity.
  - destruct H as [H1 H2]. cbn. destruct (Ascii.eqb_spec c d); [congruence|]. rewrite IH by auto. reflexivity.
Qed.

Lemma no_char_app : forall c a b, no_char c (a ^^ b) <-> no_char c a /\ no_char c b.
Proof. induction a; intros; cbn; [tauto|]. rewrite IHa. tauto. Qed.

Lemma dec_no_char : forall c n, (N_of_ascii c < 48 \/ 57 < N_of_ascii c)%N -> no_char c (dec n).
Proof.
  intros c n Hc. unfold dec. generalize (S (N.to_nat (N.log2 n))). intro f. revert n.
  induction f as [|f IH]; intro n; cbn [dec_fuel]; [exact I|].
  destruct (N.ltb_spec n 10).
  - split; [apply digit_char_not; auto|exact I].
  - apply no_char_app. split; [apply IH|]. split; [|exact I]. apply digit_char_not; auto. apply N.mod_lt. lia.
Qed.

Definition semver (a b c : N) : string := dec a ^^ "." ^^ dec b ^^ "." ^^ dec c.
Lemma semver_parts : forall a b c, (a < 2 ^ 32)%N -> (b < 2 ^ 32)%N -> (c < 2 ^ 32)%N ->
  filter_parse (split_on "."%char (semver a b c)) = [a; b; c].
Proof.
  intros a b c Ha Hb Hc. unfold semver.
  change ("." ^^ dec b ^^ "." ^^ dec c) with (String "."%char (dec b ^^ String "."%char (dec c))).
  rewrite !split_on_app, split_on_plain by (apply dec_no_char; left; reflexivity).
  unfold filter_parse. cbn [flat_map]. rewrite !parse_uint_dec by auto. reflexivity.
Qed.
Lemma short_parts : forall a b, (a < 2 ^ 32)%N -> (b < 2 ^ 32)%N ->
  filter_parse (split_on "."%char (dec a ^^ "." ^^ dec b)) = [a; b] /\
  filter_parse (split_on "."%char (dec a)) = [a].
Proof.
  intros a b Ha Hb.
  change ("." ^^ dec b) with (String "."%char (dec b)).
  rewrite !split_on_app, !split_on_plain by (apply dec_no_char; left; reflexivity).
  unfold filter_parse. cbn [flat_map]. rewrite !parse_uint_dec by auto. auto.
Qed.

(** the numbers read off a version *)
Definition read_version (s : string) : N * N :=
  let p := filter_parse (split_on "."%char s) in (nth 0 p 0%N, nth 1 p 0%N).
Definition compat (v w : N * N) : Prop := fst v = fst w /\ (fst v = 0%N -> snd v = snd w).
Lemma compatible_iff : forall v w, is_protocol_compatible v w = true <-> compat (read_version v) (read_version w).
Proof.
  intros v w. unfold is_protocol_compatible, compat, read_version. cbn [fst snd].
  set (a := nth 0 (filter_parse (split_on "." v)) 0%N). set (b := nth 1 (filter_parse (split_on "." v)) 0%N).
  set (c := nth 0 (filter_parse (split_on "." w)) 0%N). set (d := nth 1 (filter_parse (split_on "." w)) 0%N).
  clearbody a b c d.
  destruct ((a =? 0)%N || (c =? 0)%N) eqn:E; lia.
Qed.
Lemma compat_equiv : (forall v, compat v v) /\ (forall v w, compat v w -> compat w v)
  /\ (forall u v w, compat u v -> compat v w -> compat u w).
Proof.
  unfold compat. split; [|split].
  - auto.
  - intros v w [A B]. split; [auto|]. intro E. symmetry. apply B. congruence.
  - intros u v w [A B] [C D]. split; [congruence|]. intro E. rewrite (B E). apply D. congruence.
Qed.

(* ---------- strings ---------- *)

Lemma strip_prefix_iff : forall p s r, strip_prefix p s = Some r <-> s = p ^^ r.
Proof.
  induction p as [|a p IH]; intros s r; cbn.
  - split; congruence.
  - destruct s as [|b s]; [split; discriminate|].
    destruct (Ascii.eqb_spec a b) as [->|H]; [rewrite IH|]; split; intro E; try congruence.
Qed.
Lemma starts_with_iff : forall s p, starts_with s p = true <-> exists r, s = p ^^ r.
Proof.
  intros s p. unfold starts_with. destruct (strip_prefix p s) as [r|] eqn:E; split; intro H; try discriminate; auto.
  - exists r. now apply strip_prefix_iff.
  - destruct H as [r H]. apply strip_prefix_iff in H. congruence.
Qed.
Lemma rev_app_s : forall a b, rev_str (a ^^ b) = rev_str b ^^ rev_str a.
Proof.
  induction a as [|c a IH]; intro b; cbn; [now rewrite app_nil_s|].
  rewrite IH. apply app_assoc_s.
Qed.
Lemma rev_rev_s : forall a, rev_str (rev_str a) = a.
Proof. induction a as [|c a IH]; cbn; [reflexivity|]. rewrite rev_app_s, IH. reflexivity. Qed.
Lemma ends_with_iff : forall s p, ends_with s p = true <-> exists r, s = r ^^ p.
Proof.
  intros s p. unfold ends_with. rewrite starts_with_iff. split; intros [r H].
  - exists (rev_str r). rewrite <- (rev_rev_s s), H, rev_app_s, rev_rev_s. reflexivity.
  - exists (rev_str r). rewrite H, rev_app_s. reflexivity.
Qed.
Lemma strip_suffix_iff : forall p s r, strip_suffix p s = Some r <-> s = r ^^ p.
Proof.
  intros p s r. unfold strip_suffix. destruct (strip_prefix (rev_str p) (rev_str s)) as [q|] eqn:E; cbn.
  - apply strip_prefix_iff in E. assert (s = rev_str q ^^ p).
    { rewrite <- (rev_rev_s s), E, rev_app_s, rev_rev_s. reflexivity. }
    split; intro H'; [congruence|]. f_equal.
    assert (rev_str p ^^ q = rev_str p ^^ rev_str r) by (rewrite <- E, H', rev_app_s; reflexivity).
    assert (q = rev_str r).
    { clear -H0. induction (rev_str p); cbn in H0; [auto|]. inversion H0; auto. }
    subst q. apply rev_rev_s.
  - split; [discriminate|]. intros ->. exfalso.
    assert (strip_prefix (rev_str p) (rev_str (r ^^ p)) = Some (rev_str r)) by (apply strip_prefix_iff, rev_app_s).
    congruence.
Qed.

(* ---------- glob ---------- *)

(** '*' matches any sequence of characters, every other character itself *)
Inductive glob : string -> string -> Prop :=
| glob_nil : glob "" ""
| glob_char : forall c p h, c <> "*"%char -> glob p h -> glob (String c p) (String c h)
| glob_star : forall x p h, glob p h -> glob (String "*"%char p) (x ^^ h).

Lemma glob_plain : forall p h, no_char "*"%char p -> (glob p h <-> h = p).
Proof.
  induction p as [|c p IH]; intros h H; split; intro E.
  - now inversion E.
  - subst. constructor.
  - destruct H as [H1 H2]. inversion E; subst; [|congruence]. f_equal. now apply IH.
  - destruct H as [H1 H2]. subst. constructor; auto. now apply IH.
Qed.
Lemma glob_prefix_star : forall p h, no_char "*"%char p -> (glob (String "*"%char p) h <-> exists x, h = x ^^ p).
Proof.
  intros p h H. split.
  - intro E. inversion E; subst; [congruence|]. apply glob_plain in H1; [|exact H]. subst. eauto.
  - intros [x ->]. constructor. now apply glob_plain.
Qed.
Lemma glob_suffix_star : forall p h, no_char "*"%char p -> (glob (p ^^ "*") h <-> exists x, h = p ^^ x).
Proof.
  induction p as [|c p IH]; intros h H.
  - cbn. split.
    + eauto.
    + intros [x ->]. rewrite <- (app_nil_s x). constructor. constructor.
  - destruct H as [H1 H2]. cbn. split.
    + intro E. inversion E; subst; [|congruence]. apply IH in H5; auto. destruct H5 as [x ->]. eauto.
    + intros [x ->]. cbn. constructor; auto. apply IH; eauto.
Qed.

Lemma no_star_strip_prefix : forall p, no_char "*"%char p -> strip_prefix "*" p = None.
Proof.
  intros p H. destruct (strip_prefix "*" p) as [r|] eqn:E; [|reflexivity].
  apply strip_prefix_iff in E. subst. destruct H. congruence.
Qed.
Lemma no_star_strip_suffix : forall p, no_char "*"%char p -> strip_suffix "*" p = None.
Proof.
  intros p H. destruct (strip_suffix "*" p) as [r|] eqn:E; [|reflexivity].
  apply strip_suffix_iff in E. subst. apply no_char_app in H. destruct H as [_ [H _]]. congruence.
Qed.

Lemma host_plain : forall h p, no_char "*"%char p -> (host_matches_pattern h p = true <-> glob p h).
Proof.
  intros h p H. unfold host_matches_pattern.
  destruct (String.eqb_spec p "*") as [->|_]; [destruct H; congruence|].
  rewrite no_star_strip_prefix, no_star_strip_suffix, glob_plain by auto.
  apply String.eqb_eq.
Qed.
Lemma host_prefix_star : forall h p, no_char "*"%char p ->
  (host_matches_pattern h (String "*"%char p) = true <-> glob (String "*"%char p) h).
Proof.
  intros h p H. unfold host_matches_pattern. rewrite glob_prefix_star by auto.
  destruct (String.eqb_spec (String "*" p) "*") as [E|_].
  - inversion E; subst. split; auto. intros _. exists h. now rewrite app_nil_s.
  - cbn [strip_prefix]. rewrite Ascii.eqb_refl. apply ends_with_iff.
Qed.
Lemma host_suffix_star : forall h p, no_char "*"%char p ->
  (host_matches_pattern h (p ^^ "*") = true <-> glob (p ^^ "*") h).
Proof.
  intros h p H. unfold host_matches_pattern. rewrite glob_suffix_star by auto.
  destruct (String.eqb_spec (p ^^ "*") "*") as [E|E].
  - destruct p as [|c p]; [split; [intros _; exists h|]; reflexivity|]. inversion E; subst. destruct H as [H _]; congruence.
  - destruct (strip_prefix "*" (p ^^ "*")) as [r|] eqn:Es.
    { apply strip_prefix_iff in Es. destruct p as [|c p]; [exfalso; apply E; reflexivity|]. inversion Es; subst. destruct H as [H _]; congruence. }
    assert (Ss : strip_suffix "*" (p ^^ "*") = Some p) by now apply strip_suffix_iff.
    rewrite Ss. apply starts_with_iff.
Qed.

(* ---------- devices ---------- *)

Fixpoint is_ascii (s : string) : Prop :=
  match s with EmptyString => True | String c r => (N_of_ascii c < 128)%N /\ is_ascii r end.

Lemma is_ascii_app : forall a b, is_ascii (a ^^ b) <-> is_ascii a /\ is_ascii b.
Proof. induction a; intros; cbn; [tauto|]. rewrite IHa. tauto. Qed.

Lemma digit_ascii : forall c d, digit c = Some d -> (48 <= N_of_ascii c <= 57)%N.
Proof. intros c d H. unfold digit in H. destruct (_ && _)%bool eqn:E in H; [|discriminate]. lia. Qed.

Lemma digits_chars : forall s acc v, digits acc s = Some v -> is_ascii s /\ to_lowercase s = s.
Proof.
  induction s as [|c s IH]; intros acc v H; cbn in *; [auto|].
  destruct (digit c) eqn:E; [|discriminate]. apply digit_ascii in E.
  destruct (IH _ _ H) as [I1 I2]. split; [split; [lia|auto]|]. rewrite I2. f_equal.
  unfold lower_ascii. unfold nat_of_ascii.
  replace ((65 <=? N.to_nat (N_of_ascii c))%nat && (N.to_nat (N_of_ascii c) <=? 90)%nat) with false by lia. reflexivity.
Qed.
Lemma parse_uint_chars : forall b s v, parse_uint b s = Some v -> is_ascii s /\ to_lowercase s = s.
Proof.
  intros b s v H. unfold parse_uint in H.
  destruct (match s with String "+"%char r => r | _ => s end =? "") eqn:E; [discriminate|].
  destruct (digits 0 match s with String "+"%char r => r | _ => s end) as [w|] eqn:D; [|discriminate].
  apply digits_chars in D. destruct s as [|c s]; [auto|].
  destruct (Ascii.eqb_spec c "+"%char) as [->|Hc].
  - cbn in *. destruct D as [D1 D2]. rewrite D2. split; [split; [lia|auto]|reflexivity].
  - assert (X : match String c s with String "+"%char r => r | _ => String c s end = String c s).
    { destruct c as [[] [] [] [] [] [] [] []]; try reflexivity. congruence. }
    rewrite X in D. exact D.
Qed.

Lemma lower_app : forall a b, to_lowercase (a ^^ b) = to_lowercase a ^^ to_lowercase b.
Proof. induction a; intros; cbn; congruence. Qed.

Section Device.
Variable lower : string -> string.
Hypothesis lower_idem : forall s, lower (lower s) = lower s.
Hypothesis lower_ascii_only : forall s, is_ascii s -> lower s = to_lowercase s.

Lemma lower_index : forall p idx b v, is_ascii p -> to_lowercase p = p -> parse_uint b idx = Some v -> lower (p ^^ idx) = p ^^ idx.
Proof.
  intros p idx b v Hp Hl H. apply parse_uint_chars in H. destruct H as [H1 H2].
  rewrite lower_ascii_only by (apply is_ascii_app; auto). rewrite lower_app, Hl, H2. reflexivity.
Qed.

Lemma ascii_lit : is_ascii "cuda::" /\ is_ascii "cuda:" /\ is_ascii "cuda::0" /\ is_ascii "rocm::0".
Proof. repeat split; reflexivity. Qed.

Lemma parse_device_lower : forall s d, parse_device lower s = Some d -> lower d = d.
Proof.
  intros s d H. unfold parse_device in H.
  destruct (existsb _ _); [inversion H; apply lower_idem|].
  destruct (starts_with (lower s) "cuda").
  - destruct (lower s =? "cuda"); [inversion H; apply lower_ascii_only, ascii_lit|].
    destruct (strip_prefix "cuda::" (lower s)) as [idx|].
    + destruct (parse_uint _ idx); inversion H. apply lower_idem.
    + destruct (strip_prefix "cuda:" (lower s)) as [idx|]; [|discriminate].
      destruct (parse_uint _ idx) eqn:E; inversion H.
      apply (lower_index "cuda::" idx (2 ^ 64) n); auto. apply ascii_lit.
  - destruct (starts_with (lower s) "rocm").
    + destruct (lower s =? "rocm"); [inversion H; apply lower_ascii_only, ascii_lit|].
      destruct (strip_prefix "rocm::" (lower s)) as [idx|]; [|discriminate].
      destruct (parse_uint _ idx); inversion H. apply lower_idem.
    + inversion H. apply lower_idem.
Qed.

Lemma parse_device_fixed : forall d, lower d = d -> (forall s, parse_device lower s = Some d -> True) ->
  parse_device lower d = parse_device (fun x => x) d.
Proof. intros d H _. unfold parse_device. rewrite H. reflexivity. Qed.

Lemma parse_cuda2 : forall idx v, parse_uint (2 ^ 64) idx = Some v ->
  parse_device lower ("cuda::" ^^ idx) = Some ("cuda::" ^^ idx).
Proof.
  intros idx v H. unfold parse_device.
  rewrite (lower_index "cuda::" idx (2 ^ 64) v) by (auto; apply ascii_lit).
  cbn [String.append existsb String.eqb Ascii.eqb Bool.eqb orb].
  cbn [starts_with strip_prefix Ascii.eqb Bool.eqb]. rewrite H. reflexivity.
Qed.
Lemma parse_cuda1 : forall idx v, parse_uint (2 ^ 64) idx = Some v ->
  parse_device lower ("cuda:" ^^ idx) = Some ("cuda::" ^^ idx).
Proof.
  intros idx v H. unfold parse_device.
  rewrite (lower_index "cuda:" idx (2 ^ 64) v) by (auto; apply ascii_lit).
  assert (E0 : existsb (String.eqb ("cuda:" ^^ idx)) ["cpu"; "metal"; "vulkan"; "webgpu"] = false) by reflexivity.
  assert (E1 : starts_with ("cuda:" ^^ idx) "cuda" = true) by reflexivity.
  assert (E2 : ("cuda:" ^^ idx =? "cuda") = false) by reflexivity.
  assert (E3 : strip_prefix "cuda::" ("cuda:" ^^ idx) = None).
  { destruct (strip_prefix "cuda::" ("cuda:" ^^ idx)) as [r|] eqn:E; [|reflexivity]. apply strip_prefix_iff in E.
    cbn in E. injection E as ->. cbn in H. discriminate. }
  assert (E4 : strip_prefix "cuda:" ("cuda:" ^^ idx) = Some idx) by now apply strip_prefix_iff.
  rewrite E0, E1, E2, E3, E4, H. reflexivity.
Qed.

Lemma parse_device_idem : forall s d, parse_device lower s = Some d -> parse_device lower d = Some d.
Proof.
  intros s d H. pose proof (parse_device_lower s d H) as Hl. unfold parse_device in H.
  destruct (existsb _ _) eqn:E0.
  { inversion H; subst. unfold parse_device. rewrite Hl, E0. reflexivity. }
  destruct (starts_with (lower s) "cuda") eqn:E1.
  - destruct (lower s =? "cuda") eqn:E2.
    + inversion H; subst. change "cuda::0" with ("cuda::" ^^ "0"). apply (parse_cuda2 "0" 0%N). reflexivity.
    + destruct (strip_prefix "cuda::" (lower s)) as [idx|] eqn:E3.
      * destruct (parse_uint _ idx) eqn:E4; inversion H; subst.
        apply strip_prefix_iff in E3. rewrite E3. eapply parse_cuda2; eauto.
      * destruct (strip_prefix "cuda:" (lower s)) as [idx|]; [|discriminate].
        destruct (parse_uint _ idx) eqn:E4; inversion H; subst. eapply parse_cuda2; eauto.
  - destruct (starts_with (lower s) "rocm") eqn:E2.
    + destruct (lower s =? "rocm") eqn:E3.
      * inversion H; subst. unfold parse_device. rewrite Hl. reflexivity.
      * destruct (strip_prefix "rocm::" (lower s)) as [idx|] eqn:E4; [|discriminate].
        destruct (parse_uint _ idx) eqn:E5; inversion H; subst.
        unfold parse_device. rewrite Hl, E0, E1, E2, E3, E4, E5. reflexivity.
    + inversion H; subst. unfold parse_device. rewrite Hl, E0, E1, E2. reflexivity.
Qed.
End Device.

Lemma split_colons_none : forall s v b, parse_uint b s = Some v -> split_colons s = None.
Proof.
  assert (D : forall s acc v, digits acc s = Some v -> split_colons s = None).
  { induction s as [|c s IH]; intros acc v H; [reflexivity|]. cbn in H.
    destruct (digit c) eqn:E; [|discriminate]. apply digit_ascii in E. specialize (IH _ _ H).
    assert (c <> ":"%char) by (intro; subst; cbn in E; lia).
    cbn. rewrite IH. destruct c as [[] [] [] [] [] [] [] []]; try reflexivity. congruence. }
  intros s v b H. unfold parse_uint in H.
  destruct (match s with String "+"%char r => r | _ => s end =? ""); [discriminate|].
  destruct (digits 0 match s with String "+"%char r => r | _ => s end) as [w|] eqn:Dw; [|discriminate].
  apply D in Dw. destruct s as [|c s]; [reflexivity|].
  destruct (Ascii.eqb_spec c "+"%char) as [->|Hc].
  - cbn in *. rewrite Dw. reflexivity.
  - assert (X : match String c s with String "+"%char r => r | _ => String c s end = String c s).
    { destruct c as [[] [] [] [] [] [] [] []]; try reflexivity. congruence. }
    rewrite X in Dw. exact Dw.
Qed.

Lemma device_id_cuda : forall idx v, parse_uint (2 ^ 64) idx = Some v ->
  parse_device_id ("cuda::" ^^ idx) = Some v /\ device_type ("cuda::" ^^ idx) = "cuda".
Proof.
  intros idx v H. unfold parse_device_id, device_type.
  assert (E : split_colons ("cuda::" ^^ idx) = Some ("cuda", idx)) by reflexivity.
  rewrite E. split; [|reflexivity]. rewrite (split_colons_none _ _ _ H). exact H.
Qed.
