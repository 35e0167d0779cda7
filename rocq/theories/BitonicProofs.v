(** The bitonic sorting network on sequences without end: first on booleans, then, by the
    images under all thresholds, on any strict weak order. *)
From Coq Require Import List Arith ZArith Bool Lia ZifyBool.
Import ListNotations.

(** [true] exactly on, or exactly off, one interval *)
Definition bitonic (g : nat -> bool) (n : nat) : Prop :=
  exists c x y, x <= y /\ forall r, r < n -> g r = xorb c ((x <=? r) && (r <? y)).

Lemma half_clean : forall g n, bitonic g (n + n) ->
  bitonic (fun r => g r && g (n + r)) n /\ bitonic (fun r => g r || g (n + r)) n /\
  forall r r', r < n -> r' < n -> g r && g (n + r) = true -> g r' || g (n + r') = true.
Proof.
  intros g n (c & x & y & XY & H).
  assert (E : forall r, r < n -> g r = xorb c ((x <=? r) && (r <? y)) /\ g (n + r) = xorb c ((x <=? n + r) && (n + r <? y)))
    by (intros r R; split; apply H; lia).
  assert (EM : exists x' y', x' <= y' /\ forall r, r < n ->
    ((x <=? r) && (r <? y)) && ((x <=? n + r) && (n + r <? y)) = ((x' <=? r) && (r <? y'))).
  { destruct (Nat.le_gt_cases (x + n) y); [exists x, (y - n)|exists 0, 0]; split; try lia. }
  assert (OR : exists d x' y', x' <= y' /\ forall r, r < n ->
    ((x <=? r) && (r <? y)) || ((x <=? n + r) && (n + r <? y)) = xorb d ((x' <=? r) && (r <? y'))).
  { destruct (Nat.le_gt_cases y n); [exists false, x, y; split; lia|].
    destruct (Nat.le_gt_cases n x); [exists false, (x - n), (y - n); split; lia|].
    destruct (Nat.le_gt_cases (x + n) y); [exists true, 0, 0; split; lia|].
    exists true, (y - n), x. split; lia. }
  destruct EM as (x1 & y1 & L1 & A1). destruct OR as (d & x2 & y2 & L2 & A2).
  assert (NB : forall a b, xorb true a && xorb true b = xorb true (a || b)) by (intros [] []; reflexivity).
  assert (NO : forall a b, xorb true a || xorb true b = xorb true (a && b)) by (intros [] []; reflexivity).
  split; [|split].
  - destruct c.
    + exists (negb d), x2, y2. split; [exact L2|]. intros r R. destruct (E r R) as [-> ->]. rewrite NB, A2 by exact R.
      now destruct d, ((x2 <=? r) && (r <? y2)).
    + exists false, x1, y1. split; [exact L1|]. intros r R. destruct (E r R) as [-> ->]. rewrite !xorb_false_l, A1 by exact R. reflexivity.
  - destruct c.
    + exists true, x1, y1. split; [exact L1|]. intros r R. destruct (E r R) as [-> ->]. rewrite NO, A1 by exact R. reflexivity.
    + exists d, x2, y2. split; [exact L2|]. intros r R. destruct (E r R) as [-> ->]. rewrite !xorb_false_l, A2 by exact R. reflexivity.
  - intros r r' R R'. destruct (E r R) as [-> ->]. destruct (E r' R') as [-> ->].
    destruct c; lia.
Qed.

(** ** Indices *)
Lemma land_bit : forall i t, (Nat.land i (2 ^ t) =? 0) = negb (Nat.testbit i t).
Proof.
  intros i t. destruct (Nat.testbit i t) eqn:B; cbn [negb].
  - apply Nat.eqb_neq. intro Z. assert (Nat.testbit (Nat.land i (2 ^ t)) t = true) as Q
      by (rewrite Nat.land_spec, B, Nat.pow2_bits_true; reflexivity). rewrite Z, Nat.bits_0 in Q. discriminate.
  - apply Nat.eqb_eq. apply Nat.bits_inj. intro n. rewrite Nat.land_spec, Nat.bits_0, Nat.pow2_bits_eqb.
    destruct (t =? n) eqn:Q; [|apply andb_false_r]. apply Nat.eqb_eq in Q. subst. now rewrite B.
Qed.
Lemma bit_div : forall i t, Nat.testbit i t = Nat.odd (i / 2 ^ t).
Proof. intros. rewrite Nat.testbit_odd, Nat.shiftr_div_pow2. reflexivity. Qed.
Definition flip (t i : nat) : nat := Nat.lxor i (2 ^ t).
Lemma flip_flip : forall t i, flip t (flip t i) = i.
Proof. intros. unfold flip. rewrite Nat.lxor_assoc, Nat.lxor_nilpotent. apply Nat.lxor_0_r. Qed.
Lemma flip_clear : forall t i, Nat.testbit i t = false -> flip t i = i + 2 ^ t.
Proof.
  intros t i B. unfold flip. symmetry. apply Nat.add_nocarry_lxor. pose proof (land_bit i t) as L. rewrite B in L.
  now apply Nat.eqb_eq in L.
Qed.
Section Block.
Variables t u r : nat.
Hypothesis R : r < 2 ^ t.
Lemma low_bit : Nat.testbit (u * 2 ^ S t + r) t = false.
Proof.
  rewrite bit_div. rewrite Nat.pow_succ_r'. replace (u * (2 * 2 ^ t) + r) with (r + 2 * u * 2 ^ t) by lia.
  rewrite Nat.div_add by lia. rewrite Nat.div_small by exact R. cbn [Nat.add]. now rewrite Nat.odd_mul.
Qed.
Lemma high_bit : Nat.testbit (u * 2 ^ S t + (2 ^ t + r)) t = true.
Proof.
  rewrite bit_div. rewrite Nat.pow_succ_r'. replace (u * (2 * 2 ^ t) + (2 ^ t + r)) with (r + (1 + 2 * u) * 2 ^ t) by lia.
  rewrite Nat.div_add by lia. rewrite Nat.div_small by exact R. cbn [Nat.add]. rewrite Nat.odd_succ, Nat.even_mul. reflexivity.
Qed.
Lemma flip_low : flip t (u * 2 ^ S t + r) = u * 2 ^ S t + (2 ^ t + r).
Proof. rewrite flip_clear by apply low_bit. lia. Qed.
Lemma flip_high : flip t (u * 2 ^ S t + (2 ^ t + r)) = u * 2 ^ S t + r.
Proof. rewrite <- flip_low. apply flip_flip. Qed.
End Block.
Lemma split_index : forall t i, exists u r, r < 2 ^ t /\ (i = u * 2 ^ S t + r \/ i = u * 2 ^ S t + (2 ^ t + r)).
Proof.
  intros t i. assert (P : 0 < 2 ^ t) by (apply Nat.neq_0_lt_0, Nat.pow_nonzero; lia).
  pose proof (Nat.div_mod i (2 ^ S t) ltac:(apply Nat.pow_nonzero; lia)) as D. pose proof (Nat.mod_upper_bound i (2 ^ S t) ltac:(apply Nat.pow_nonzero; lia)) as M.
  set (q := i / 2 ^ S t) in *. set (m := i mod 2 ^ S t) in *. clearbody q m. rewrite Nat.pow_succ_r' in *.
  destruct (Nat.lt_ge_cases m (2 ^ t)).
  - exists q, m. split; [assumption|left; lia].
  - exists q, (m - 2 ^ t). split; [lia|right; lia].
Qed.
Lemma block_div : forall s t u r, t < s -> r < 2 ^ S t -> (u * 2 ^ S t + r) / 2 ^ s = u / 2 ^ (s - S t).
Proof.
  intros s t u r L R. replace s with (S t + (s - S t)) at 1 by lia. rewrite Nat.pow_add_r.
  rewrite <- Nat.div_div by (apply Nat.pow_nonzero; lia). f_equal. rewrite Nat.add_comm, Nat.div_add by (apply Nat.pow_nonzero; lia).
  now rewrite Nat.div_small.
Qed.

(** ** Booleans *)
(** one step of the network: the pairs at distance 2^t, the direction from bit [s] *)
Definition bstep (s t : nat) (f : nat -> bool) (i : nat) : bool :=
  if eqb (Nat.testbit i t) (Nat.testbit i s) then f i && f (flip t i) else f i || f (flip t i).

Definition down (s i : nat) : bool := Nat.odd (i / 2 ^ s).
(** blocks of 2^t are bitonic, and in order in blocks of 2^s *)
Definition merged (s t : nat) (f : nat -> bool) : Prop :=
  (forall u, bitonic (fun r => f (u * 2 ^ t + r)) (2 ^ t)) /\
  (forall i i', i / 2 ^ s = i' / 2 ^ s -> i / 2 ^ t < i' / 2 ^ t -> if down s i then f i' = true -> f i = true else f i = true -> f i' = true).

Lemma bstep_block : forall s t f u r, t < s -> r < 2 ^ t ->
  let a := f (u * 2 ^ S t + r) in let b := f (u * 2 ^ S t + (2 ^ t + r)) in
  let d := Nat.odd (u / 2 ^ (s - S t)) in
  bstep s t f (u * 2 ^ S t + r) = (if d then a || b else a && b) /\
  bstep s t f (u * 2 ^ S t + (2 ^ t + r)) = (if d then a && b else a || b).
Proof.
  intros s t f u r L R a b d. unfold bstep. rewrite low_bit, high_bit, flip_low, flip_high by exact R. fold a b.
  rewrite !(bit_div _ s). assert (Q : 2 ^ S t = 2 ^ t + 2 ^ t) by (rewrite Nat.pow_succ_r'; lia).
  rewrite !block_div by (try exact L; lia). fold d. destruct d; cbn [eqb]; split; auto using andb_comm, orb_comm.
Qed.

Lemma bstep_merged : forall s t f, t < s -> merged s (S t) f -> merged s t (bstep s t f).
Proof.
  intros s t f L [B O]. assert (Q : 2 ^ S t = 2 ^ t + 2 ^ t) by (rewrite Nat.pow_succ_r'; lia).
  assert (P : 0 < 2 ^ t) by (apply Nat.neq_0_lt_0, Nat.pow_nonzero; lia).
  assert (HC : forall u, bitonic (fun r => f (u * 2 ^ S t + r) && f (u * 2 ^ S t + (2 ^ t + r))) (2 ^ t) /\
     bitonic (fun r => f (u * 2 ^ S t + r) || f (u * 2 ^ S t + (2 ^ t + r))) (2 ^ t) /\
     forall r r', r < 2 ^ t -> r' < 2 ^ t -> f (u * 2 ^ S t + r) && f (u * 2 ^ S t + (2 ^ t + r)) = true ->
       f (u * 2 ^ S t + r') || f (u * 2 ^ S t + (2 ^ t + r')) = true).
  { intro u. assert (B' : bitonic (fun r => f (u * 2 ^ S t + r)) (2 ^ t + 2 ^ t)) by (rewrite <- Q; exact (B u)). exact (half_clean (fun r => f (u * 2 ^ S t + r)) (2 ^ t) B'). }
  split.
  - intro v. assert (V : exists u, v = 2 * u \/ v = 2 * u + 1).
    { exists (v / 2). pose proof (Nat.div_mod v 2 ltac:(lia)). pose proof (Nat.mod_upper_bound v 2 ltac:(lia)). lia. }
    destruct V as [u V]. destruct (HC u) as (HA & HO & _).
    assert (EXT : forall g h, (forall r, r < 2 ^ t -> h r = g r) -> bitonic g (2 ^ t) -> bitonic h (2 ^ t)).
    { intros g h E (c & x & y & XY & G). exists c, x, y. split; [exact XY|]. intros r R. rewrite E by exact R. now apply G. }
    destruct V as [-> | ->].
    + apply (EXT (if Nat.odd (u / 2 ^ (s - S t)) then fun r => f (u * 2 ^ S t + r) || f (u * 2 ^ S t + (2 ^ t + r))
                  else fun r => f (u * 2 ^ S t + r) && f (u * 2 ^ S t + (2 ^ t + r)))); [|destruct (Nat.odd _); assumption].
      intros r R. replace (2 * u * 2 ^ t + r) with (u * 2 ^ S t + r) by (rewrite Q; lia).
      rewrite (proj1 (bstep_block s t f u r L R)). now destruct (Nat.odd _).
    + apply (EXT (if Nat.odd (u / 2 ^ (s - S t)) then fun r => f (u * 2 ^ S t + r) && f (u * 2 ^ S t + (2 ^ t + r))
                  else fun r => f (u * 2 ^ S t + r) || f (u * 2 ^ S t + (2 ^ t + r)))); [|destruct (Nat.odd _); assumption].
      intros r R. replace ((2 * u + 1) * 2 ^ t + r) with (u * 2 ^ S t + (2 ^ t + r)) by (rewrite Q; lia).
      rewrite (proj2 (bstep_block s t f u r L R)). now destruct (Nat.odd _).
  - intros i i' E LT.
    destruct (split_index t i) as (u & r & R & I). destruct (split_index t i') as (u' & r' & R' & I').
    assert (DS : i / 2 ^ s = u / 2 ^ (s - S t)) by (destruct I as [-> | ->]; apply block_div; lia).
    assert (DS' : i' / 2 ^ s = u' / 2 ^ (s - S t)) by (destruct I' as [-> | ->]; apply block_div; lia).
    assert (DT : i / 2 ^ t = 2 * u \/ i / 2 ^ t = 2 * u + 1).
    { destruct I as [-> | ->]; [left|right]; symmetry; apply (Nat.div_unique _ _ _ r); try assumption; rewrite Q; lia. }
    assert (DT' : i' / 2 ^ t = 2 * u' \/ i' / 2 ^ t = 2 * u' + 1).
    { destruct I' as [-> | ->]; [left|right]; symmetry; apply (Nat.div_unique _ _ _ r'); try assumption; rewrite Q; lia. }
    unfold down. rewrite DS.
    destruct (bstep_block s t f u r L R) as [SL SH]. destruct (bstep_block s t f u' r' L R') as [SL' SH'].
    rewrite <- DS in SL, SH. rewrite <- DS', <- E in SL', SH'. rewrite <- DS.
    assert (NZ : 2 ^ S t <> 0) by (rewrite Q; clear - P; lia).
    assert (H1 : r < 2 ^ S t) by (rewrite Q; clear - R; lia). assert (H2 : 2 ^ t + r < 2 ^ S t) by (rewrite Q; clear - R; lia).
    assert (H3 : r' < 2 ^ S t) by (rewrite Q; clear - R'; lia). assert (H4 : 2 ^ t + r' < 2 ^ S t) by (rewrite Q; clear - R'; lia).
    assert (LOW : forall a p, p < 2 ^ t -> (a * 2 ^ S t + p) / 2 ^ t = 2 * a)
      by (intros a p PP; symmetry; apply (Nat.div_unique _ _ _ p); [exact PP|rewrite Q; clear; lia]).
    assert (HIGH : forall a p, p < 2 ^ t -> (a * 2 ^ S t + (2 ^ t + p)) / 2 ^ t = 2 * a + 1)
      by (intros a p PP; symmetry; apply (Nat.div_unique _ _ _ p); [exact PP|rewrite Q; clear; lia]).
    destruct (Nat.eq_dec u u') as [<- | NU].
    + assert (I1 : i = u * 2 ^ S t + r).
      { destruct I as [I | I]; [exact I|]. exfalso. rewrite I, HIGH in LT by exact R. clear - LT DT'. lia. }
      assert (I2 : i' = u * 2 ^ S t + (2 ^ t + r')).
      { destruct I' as [I' | I']; [|exact I']. exfalso. rewrite I1, I', !LOW in LT by assumption. clear - LT. lia. }
      destruct (HC u) as (_ & _ & C).
      destruct (Nat.odd (i / 2 ^ s)); rewrite I1, I2, SL, SH'; [intro H; now apply (C r' r)|intro H; now apply (C r r')].
    + assert (UU : u < u') by (clear - DT DT' LT NU; lia).
      assert (CMP : forall p p', p < 2 ^ S t -> p' < 2 ^ S t ->
         if Nat.odd (i / 2 ^ s) then f (u' * 2 ^ S t + p') = true -> f (u * 2 ^ S t + p) = true
         else f (u * 2 ^ S t + p) = true -> f (u' * 2 ^ S t + p') = true).
      { intros p p' PP PP'. pose proof (O (u * 2 ^ S t + p) (u' * 2 ^ S t + p')) as OO. unfold down in OO.
        rewrite !block_div in OO by assumption. rewrite <- DS, <- DS', E in OO. rewrite E.
        apply OO; [reflexivity|]. rewrite !(Nat.add_comm (_ * _)), !Nat.div_add by exact NZ. rewrite !Nat.div_small by assumption. clear - UU. lia. }
      pose proof (CMP _ _ H1 H3) as C1. pose proof (CMP _ _ H1 H4) as C2. pose proof (CMP _ _ H2 H3) as C3. pose proof (CMP _ _ H2 H4) as C4.
      clear CMP O B HC.
      set (a := f (u * 2 ^ S t + r)) in *. set (b := f (u * 2 ^ S t + (2 ^ t + r))) in *.
      set (a' := f (u' * 2 ^ S t + r')) in *. set (b' := f (u' * 2 ^ S t + (2 ^ t + r'))) in *. clearbody a b a' b'.
      assert (X : bstep s t f i = (a || b) \/ bstep s t f i = (a && b)) by (destruct I as [-> | ->]; rewrite ?SL, ?SH; destruct (Nat.odd _); auto).
      assert (X' : bstep s t f i' = (a' || b') \/ bstep s t f i' = (a' && b')) by (destruct I' as [-> | ->]; rewrite ?SL', ?SH'; destruct (Nat.odd _); auto).
      clear SL SH SL' SH'. destruct (Nat.odd (i / 2 ^ s)); destruct X as [-> | ->], X' as [-> | ->], a, b, a', b'; cbn; intro H;
        first [reflexivity | discriminate H | discriminate (C1 eq_refl) | discriminate (C2 eq_refl) | discriminate (C3 eq_refl) | discriminate (C4 eq_refl)].
Qed.

(** A monotone sequence of booleans has a threshold. *)
Lemma rises : forall g n, (forall i j, i < j -> j < n -> g i = true -> g j = true) -> exists x, x <= n /\ forall r, r < n -> g r = (x <=? r).
Proof.
  intros g. induction n as [|n IH]; intro M; [exists 0; split; [lia|intros; lia]|].
  destruct IH as (x & X & H); [intros i j IJ J; apply M; lia|].
  destruct (g n) eqn:G.
  - exists x. split; [lia|]. intros r R. destruct (Nat.eq_dec r n) as [-> | NE]; [rewrite G; symmetry; apply Nat.leb_le; lia|apply H; lia].
  - exists (S n). split; [lia|]. intros r R. destruct (Nat.eq_dec r n) as [-> | NE]; [rewrite G; symmetry; apply Nat.leb_gt; lia|].
    assert (Q : (S n <=? r) = false) by (apply Nat.leb_gt; lia). rewrite Q.
    destruct (g r) eqn:GR; [|reflexivity]. rewrite (M r n) in G by (try lia; exact GR). discriminate.
Qed.
Lemma falls : forall g n, (forall i j, i < j -> j < n -> g j = true -> g i = true) -> exists y, y <= n /\ forall r, r < n -> g r = (r <? y).
Proof.
  intros g n M. destruct (rises (fun r => negb (g r)) n) as (x & X & H).
  - intros i j IJ J N. destruct (g j) eqn:G; [|reflexivity]. rewrite (M i j IJ J G) in N. exact N.
  - exists x. split; [exact X|]. intros r R. specialize (H r R). cbn in H. rewrite Nat.ltb_antisym, <- H, negb_involutive. reflexivity.
Qed.

(** in blocks of 2^s, by turns up and down *)
Definition in_runs (s : nat) (f : nat -> bool) : Prop :=
  forall i i', i / 2 ^ s = i' / 2 ^ s -> i < i' -> if down s i then f i' = true -> f i = true else f i = true -> f i' = true.
Lemma runs_start : forall s f, in_runs s f -> merged (S s) (S s) f.
Proof.
  intros s f H. assert (Q : 2 ^ S s = 2 ^ s + 2 ^ s) by (rewrite Nat.pow_succ_r'; lia).
  split; [|intros i i' E LT; rewrite E in LT; lia].
  assert (BL : forall v r, r < 2 ^ s -> (v * 2 ^ s + r) / 2 ^ s = v)
    by (intros v r R; symmetry; apply (Nat.div_unique _ _ _ r); [exact R|lia]).
  intro u. destruct (rises (fun r => f (2 * u * 2 ^ s + r)) (2 ^ s)) as (x & X & HX).
  { intros i j IJ J G. pose proof (H (2 * u * 2 ^ s + i) (2 * u * 2 ^ s + j)) as K. unfold down in K.
    rewrite !BL in K by lia. rewrite Nat.odd_mul in K. cbn [Nat.odd Nat.even negb andb] in K. apply K; [reflexivity|lia|exact G]. }
  destruct (falls (fun r => f ((2 * u + 1) * 2 ^ s + r)) (2 ^ s)) as (y & Y & HY).
  { intros i j IJ J G. pose proof (H ((2 * u + 1) * 2 ^ s + i) ((2 * u + 1) * 2 ^ s + j)) as K. unfold down in K.
    rewrite !BL in K by lia. rewrite Nat.add_1_r, Nat.odd_succ, Nat.even_mul in K. cbn [Nat.even orb] in K.
    replace (S (2 * u)) with (2 * u + 1) in K by lia. apply K; [reflexivity|lia|exact G]. }
  exists false, x, (2 ^ s + y). split; [lia|]. intros r R. rewrite xorb_false_l.
  destruct (Nat.lt_ge_cases r (2 ^ s)) as [L|L].
  - replace (u * 2 ^ S s + r) with (2 * u * 2 ^ s + r) by (rewrite Q; lia). rewrite HX by exact L.
    replace (r <? 2 ^ s + y) with true by (symmetry; apply Nat.ltb_lt; lia). now rewrite andb_true_r.
  - replace (u * 2 ^ S s + r) with ((2 * u + 1) * 2 ^ s + (r - 2 ^ s)) by (rewrite Q; lia). rewrite HY by lia.
    replace (x <=? r) with true by (symmetry; apply Nat.leb_le; lia). cbn [andb].
    apply eq_iff_eq_true. rewrite !Nat.ltb_lt. lia.
Qed.
Lemma runs_end : forall s f, merged s 0 f -> in_runs s f.
Proof. intros s f [_ O] i i' E L. apply O; [exact E|]. cbn [Nat.pow]. rewrite !Nat.div_1_r. exact L. Qed.

(** steps [t-1], ..., 0 of stage [s] *)
Fixpoint bsteps (s t : nat) (f : nat -> bool) : nat -> bool :=
  match t with 0 => f | S t' => bsteps s t' (bstep s t' f) end.
Lemma bsteps_merged : forall s t f, t <= s -> merged s t f -> merged s 0 (bsteps s t f).
Proof.
  intros s. induction t as [|t IH]; intros f L M; [exact M|]. cbn [bsteps]. apply IH; [lia|]. apply bstep_merged; [lia|exact M].
Qed.
(** stages 1, ..., m *)
Fixpoint bstages (m : nat) (f : nat -> bool) : nat -> bool :=
  match m with 0 => f | S s => bsteps (S s) (S s) (bstages s f) end.
Lemma bstages_runs : forall m f, in_runs m (bstages m f).
Proof.
  induction m as [|s IH]; intro f.
  - intros i i' E L. cbn [Nat.pow] in E. rewrite !Nat.div_1_r in E. lia.
  - cbn [bstages]. apply runs_end, bsteps_merged; [lia|]. apply runs_start, IH.
Qed.
Lemma bstages_sorted : forall m f i j, i < j -> j < 2 ^ m -> bstages m f i = true -> bstages m f j = true.
Proof.
  intros m f i j IJ J. pose proof (bstages_runs m f i j) as H. unfold down in H.
  rewrite !Nat.div_small in H by lia. cbn [Nat.odd Nat.even negb] in H. apply H; [reflexivity|exact IJ].
Qed.

(** ** Any strict weak order *)
Section Order.
Context {T : Type}.
Variable lt : T -> T -> bool.
Hypothesis asym : forall a b, lt a b = true -> lt b a = false.
Hypothesis neg : forall a b c, lt a b = false -> lt b c = false -> lt a c = false.

(** UNIQUE_BITONIC_STEP_OP for the pair at [i] and [flip t i] *)
Definition swaps (s : nat) (low : nat) (a b : T) : bool := if Nat.testbit low s then lt a b else negb (lt a b).
Definition vstep (s t : nat) (v : nat -> T) (i : nat) : T :=
  let p := flip t i in
  if (if i <? p then swaps s i (v i) (v p) else swaps s p (v p) (v i)) then v p else v i.
Definition image (c : T) (v : nat -> T) (i : nat) : bool := negb (lt (v i) c).

Lemma flip_order : forall t i, (i <? flip t i) = negb (Nat.testbit i t).
Proof.
  intros t i. destruct (split_index t i) as (u & r & R & [-> | ->]).
  - rewrite flip_low, low_bit by exact R. apply Nat.ltb_lt. lia.
  - rewrite flip_high, high_bit by exact R. apply Nat.ltb_ge. lia.
Qed.
Lemma flip_other_bit : forall t s i, t <> s -> Nat.testbit (flip t i) s = Nat.testbit i s.
Proof. intros t s i N. unfold flip. rewrite Nat.lxor_spec, Nat.pow2_bits_false by exact N. apply xorb_false_r. Qed.
Lemma image_step : forall c s t v i, t < s -> image c (vstep s t v) i = bstep s t (image c v) i.
Proof.
  intros c s t v i L. unfold vstep, bstep, image, swaps. rewrite flip_order. rewrite (flip_other_bit t s i) by lia.
  set (a := v i). set (b := v (flip t i)).
  assert (AB : lt a b = true -> lt a c = false -> lt b c = false).
  { intros H1 H2. apply (neg b a c); [now apply asym|exact H2]. }
  assert (BA : lt a b = false -> lt b c = false -> lt a c = false) by (intros H1 H2; exact (neg a b c H1 H2)).
  assert (AB' : lt b a = true -> lt b c = false -> lt a c = false).
  { intros H1 H2. apply (neg a b c); [now apply asym|exact H2]. }
  assert (BA' : lt b a = false -> lt a c = false -> lt b c = false) by (intros H1 H2; exact (neg b a c H1 H2)).
  destruct (Nat.testbit i t), (Nat.testbit i s); cbn [negb eqb];
    destruct (lt a b) eqn:E1, (lt b a) eqn:E2; cbn [negb];
    destruct (lt a c) eqn:E3, (lt b c) eqn:E4; cbn [negb andb orb]; try reflexivity; exfalso;
    first [discriminate (AB eq_refl eq_refl) | discriminate (BA eq_refl eq_refl) | discriminate (AB' eq_refl eq_refl) | discriminate (BA' eq_refl eq_refl)].
Qed.

Fixpoint vsteps (s t : nat) (v : nat -> T) : nat -> T :=
  match t with 0 => v | S t' => vsteps s t' (vstep s t' v) end.
Fixpoint vstages (m : nat) (v : nat -> T) : nat -> T :=
  match m with 0 => v | S s => vsteps (S s) (S s) (vstages s v) end.
Lemma bstep_ext : forall s t f g, (forall i, f i = g i) -> forall i, bstep s t f i = bstep s t g i.
Proof. intros s t f g E i. unfold bstep. now rewrite !E. Qed.
Lemma bsteps_ext : forall s t f g, (forall i, f i = g i) -> forall i, bsteps s t f i = bsteps s t g i.
Proof. intros s. induction t as [|t IH]; intros f g E i; [apply E|]. cbn [bsteps]. apply IH. now apply bstep_ext. Qed.
Lemma image_steps : forall c s t v i, t <= s -> image c (vsteps s t v) i = bsteps s t (image c v) i.
Proof.
  intros c s. induction t as [|t IH]; intros v i L; [reflexivity|]. cbn [vsteps bsteps]. rewrite IH by lia.
  apply bsteps_ext. intro k. apply image_step. lia.
Qed.
Lemma image_stages : forall c m v i, image c (vstages m v) i = bstages m (image c v) i.
Proof.
  intros c. induction m as [|s IH]; intros v i; [reflexivity|]. cbn [vstages bstages]. rewrite image_steps by lia.
  apply bsteps_ext. intro k. apply IH.
Qed.
Theorem network_sorts : forall m v i j, i < j -> j < 2 ^ m -> lt (vstages m v j) (vstages m v i) = false.
Proof.
  intros m v i j IJ J. destruct (lt (vstages m v j) (vstages m v i)) eqn:E; [|reflexivity]. exfalso.
  set (c := vstages m v i) in *.
  pose proof (bstages_sorted m (image c v) i j IJ J) as H. rewrite <- !image_stages in H. unfold image in H. fold c in H. rewrite E in H.
  assert (lt c c = false) as R by (destruct (lt c c) eqn:Q; [pose proof (asym _ _ Q); congruence|reflexivity]).
  rewrite R in H. discriminate (H eq_refl).
Qed.
End Order.
