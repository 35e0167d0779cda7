(** Proofs about launches. *)
From Coq Require Import List Arith ZArith Bool Lia Permutation.
From Verif Require Import Base IndexSpec LayoutModel KernelModel TensorModel TileModel TileSpec TileProofs TileProofs4 LaunchModel LaunchSpec.
Import ListNotations.

Lemma as_u32_lt : forall n, (Z.of_nat (as_u32 n) < 2 ^ 32)%Z.
Proof. intro n. unfold as_u32. pose proof (Z.mod_pos_bound (Z.of_nat n) (2 ^ 32) ltac:(lia)). lia. Qed.

Lemma div_up : forall r, r <= 256 * ((r + 255) / 256) < r + 256.
Proof. intro r. pose proof (Nat.div_mod (r + 255) 256 ltac:(lia)). pose proof (Nat.mod_upper_bound (r + 255) 256 ltac:(lia)). lia. Qed.

Lemma launched_bound : forall n, as_u32 n <= launched n /\ 256 <= launched n /\
  (launched n = 256 \/ launched n < as_u32 n + 256) /\ exists q, launched n = 256 * q.
Proof.
  intro n. unfold launched, width. pose proof (div_up (as_u32 n)) as D.
  set (q := (as_u32 n + 255) / 256) in *. clearbody q.
  repeat split; try lia. eexists. reflexivity.
Qed.

Lemma launched_u32 : forall n, (Z.of_nat (launched n) <= 2 ^ 32)%Z.
Proof.
  intro n. destruct (launched_bound n) as (A & B & C & q & Q). pose proof (as_u32_lt n).
  change (2 ^ 32)%Z with 4294967296%Z in *. lia.
Qed.

Lemma as_u32_thread : forall n t, t < launched n -> as_u32 t = t.
Proof. intros n t H. apply as_u32_id. pose proof (launched_u32 n). lia. Qed.

(** ** The index of a thread after so many rounds *)
Fixpoint path (c : counter) (n t k : nat) : option nat :=
  match k with
  | 0 => if t <? launched n then Some t else None
  | S k' => match path c n t k' with Some i => if i <? n then advance c n i else None | None => None end
  end.

Lemma begin_at : forall n t, nth_error (at_ (begin n)) t = if t <? launched n then Some (Some t) else None.
Proof.
  intros n t. unfold begin. cbn [at_]. destruct (t <? launched n) eqn:E.
  - apply Nat.ltb_lt in E. rewrite nth_error_map. rewrite (nth_error_nth' _ 0) by (rewrite seq_length; exact E).
    rewrite seq_nth by exact E. cbn. f_equal. f_equal. eapply as_u32_thread; eauto.
  - apply Nat.ltb_ge in E. apply nth_error_None. rewrite map_length, seq_length. exact E.
Qed.

Lemma execute_snoc : forall c n s t, execute c n (s ++ [t]) = round c n (execute c n s) t.
Proof. intros. unfold execute. now rewrite fold_left_app. Qed.

Lemma count_snoc : forall s t u, count_occ Nat.eq_dec (s ++ [t]) u = count_occ Nat.eq_dec s u + (if t =? u then 1 else 0).
Proof.
  intros s t u. rewrite count_occ_app. cbn [count_occ]. destruct (Nat.eq_dec t u) as [E|E].
  - subst. now rewrite Nat.eqb_refl.
  - apply Nat.eqb_neq in E. now rewrite E.
Qed.

Lemma path_thread : forall c n t k i, path c n t k = Some i -> t < launched n.
Proof.
  intros c n t. induction k as [|k IH]; cbn [path]; intros i H.
  - destruct (t <? launched n) eqn:E; [now apply Nat.ltb_lt|discriminate].
  - destruct (path c n t k) as [j|]; [|discriminate]. exact (IH j eq_refl).
Qed.

Lemma exec_at : forall c n s t, nth_error (at_ (execute c n s)) t =
  if t <? launched n then Some (path c n t (count_occ Nat.eq_dec s t)) else None.
Proof.
  intros c n s t. induction s as [|u s IH] using rev_ind.
  - cbn [count_occ]. change (execute c n []) with (begin n). rewrite begin_at. cbn [path]. destruct (t <? launched n); reflexivity.
  - rewrite execute_snoc, count_snoc. unfold round.
    destruct (nth_error (at_ (execute c n s)) u) as [[i|]|] eqn:E.
    + assert (X : nth_error (at_ (if i <? n then mkProgress (upd (at_ (execute c n s)) u (advance c n i)) (log (execute c n s) ++ [i])
                       else mkProgress (upd (at_ (execute c n s)) u None) (log (execute c n s)))) t =
                  nth_error (upd (at_ (execute c n s)) u (if i <? n then advance c n i else None)) t)
        by (destruct (i <? n); reflexivity).
      rewrite X. clear X. destruct (u =? t) eqn:U.
      * apply Nat.eqb_eq in U. subst u. rewrite E in IH. destruct (t <? launched n); [|discriminate].
        injection IH as IH. rewrite Nat.add_1_r. cbn [path]. rewrite <- IH.
        apply nth_error_upd_eq. apply nth_error_Some. now rewrite E.
      * apply Nat.eqb_neq in U. rewrite Nat.add_0_r, <- IH. apply nth_error_upd_neq. congruence.
    + destruct (u =? t) eqn:U; [|now rewrite Nat.add_0_r].
      apply Nat.eqb_eq in U. subst u. rewrite E in IH. rewrite E. destruct (t <? launched n); [|discriminate].
      injection IH as IH. rewrite Nat.add_1_r. cbn [path]. now rewrite <- IH.
    + destruct (u =? t) eqn:U; [|now rewrite Nat.add_0_r].
      apply Nat.eqb_eq in U. subst u. rewrite E in IH. rewrite E. destruct (t <? launched n); [discriminate|reflexivity].
Qed.

Lemma exec_log : forall c n s t, log (execute c n (s ++ [t])) =
  log (execute c n s) ++ match path c n t (count_occ Nat.eq_dec s t) with Some i => if i <? n then [i] else [] | None => [] end.
Proof.
  intros c n s t. rewrite execute_snoc. unfold round. rewrite exec_at.
  destruct (t <? launched n) eqn:L.
  - destruct (path c n t (count_occ Nat.eq_dec s t)) as [i|]; [|now rewrite app_nil_r].
    destruct (i <? n); [reflexivity|now rewrite app_nil_r].
  - destruct (path c n t (count_occ Nat.eq_dec s t)) as [i|] eqn:P; [|now rewrite app_nil_r].
    apply path_thread in P. apply Nat.ltb_ge in L. lia.
Qed.

Lemma in_log : forall c n s i, In i (log (execute c n s)) <->
  exists t k, k < count_occ Nat.eq_dec s t /\ path c n t k = Some i /\ i < n.
Proof.
  intros c n s i. induction s as [|u s IH] using rev_ind.
  - cbn. split; [tauto|]. intros (t & k & K & _). lia.
  - rewrite exec_log, in_app_iff, IH. clear IH. split.
    + intros [(t & k & K & P & I)|H].
      * exists t, k. rewrite count_snoc. repeat split; auto. lia.
      * destruct (path c n u (count_occ Nat.eq_dec s u)) as [j|] eqn:P; [|contradiction].
        destruct (j <? n) eqn:J; [|contradiction]. destruct H as [->|[]].
        exists u, (count_occ Nat.eq_dec s u). rewrite count_snoc, Nat.eqb_refl. apply Nat.ltb_lt in J. repeat split; auto; lia.
    + intros (t & k & K & P & I). rewrite count_snoc in K.
      destruct (Nat.lt_ge_cases k (count_occ Nat.eq_dec s t)) as [L|L].
      * left. eauto.
      * right. destruct (u =? t) eqn:U; [|lia]. apply Nat.eqb_eq in U. subst u.
        replace (count_occ Nat.eq_dec s t) with k by lia. rewrite P. apply Nat.ltb_lt in I. rewrite I. now left.
Qed.

Lemma path_gone : forall c n t k m, path c n t k = None -> k <= m -> path c n t m = None.
Proof.
  intros c n t k m H L. induction L as [|m L IH]; auto. cbn [path]. now rewrite IH.
Qed.

Lemma over_path : forall c n s, over (execute c n s) <-> forall t, t < launched n -> path c n t (count_occ Nat.eq_dec s t) = None.
Proof.
  intros c n s. unfold over. rewrite Forall_forall. split.
  - intros H t T. apply H. apply nth_error_In with t. rewrite exec_at. apply Nat.ltb_lt in T. now rewrite T.
  - intros H o I. apply In_nth_error in I. destruct I as [t T]. rewrite exec_at in T.
    destruct (t <? launched n) eqn:L; [|discriminate]. injection T as <-. apply H. now apply Nat.ltb_lt.
Qed.

(** what is worked on when all is over *)
Lemma over_log : forall c n s, over (execute c n s) -> forall i, In i (log (execute c n s)) <-> exists t k, path c n t k = Some i /\ i < n.
Proof.
  intros c n s O i. rewrite in_log. rewrite over_path in O. split.
  - intros (t & k & _ & P & I). eauto.
  - intros (t & k & P & I). exists t, k. repeat split; auto.
    destruct (Nat.lt_ge_cases k (count_occ Nat.eq_dec s t)) as [L|L]; auto.
    pose proof (path_thread _ _ _ _ _ P) as T. rewrite (path_gone _ _ _ _ _ (O t T) L) in P. discriminate.
Qed.

Lemma log_nodup : forall c n s,
  (forall t k u m i, path c n t k = Some i -> path c n u m = Some i -> i < n -> t = u /\ k = m) ->
  NoDup (log (execute c n s)).
Proof.
  intros c n s INJ. induction s as [|u s IH] using rev_ind; [constructor|].
  rewrite exec_log. destruct (path c n u (count_occ Nat.eq_dec s u)) as [i|] eqn:P; [|now rewrite app_nil_r].
  destruct (i <? n) eqn:I; [|now rewrite app_nil_r]. apply Nat.ltb_lt in I.
  apply (Permutation_NoDup (Permutation_cons_append _ _)). constructor; auto.
  rewrite in_log. intros (t & k & K & P' & _). destruct (INJ _ _ _ _ _ P P' I) as [E1 E2]. subst t. lia.
Qed.

(** if every thread returns, every schedule can be brought to its end *)
Lemma can_end : forall c n, (forall t, t < launched n -> exists k, path c n t k = None) ->
  forall s, exists more, over (execute c n (s ++ more)).
Proof.
  intros c n H s.
  assert (G : forall b, b <= launched n -> exists more, forall t, t < b -> path c n t (count_occ Nat.eq_dec (s ++ more) t) = None).
  { induction b as [|b IH]; intro L.
    - exists []. intros t T. lia.
    - destruct (IH ltac:(lia)) as [more M]. destruct (H b ltac:(lia)) as [k K]. exists (more ++ repeat b k).
      intros t T. rewrite app_assoc, count_occ_app. destruct (Nat.eq_dec t b) as [->|N].
      + apply (path_gone _ _ _ k); auto. rewrite count_occ_repeat_eq by reflexivity. lia.
      + eapply path_gone; [apply M; lia|lia]. }
  destruct (G (launched n) (le_n _)) as [more M]. exists more. now apply over_path.
Qed.

(** ** The three kinds of counters *)
Lemma stride_small : forall n, (Z.of_nat (as_u32 n) <= 2 ^ 32 - 256)%Z -> stride n = launched n.
Proof.
  intros n H. apply as_u32_id. destruct (launched_bound n) as (A & B & C & q & Q).
  change (2 ^ 32)%Z with 4294967296%Z in *. lia.
Qed.

Lemma stride_zero : forall n, (2 ^ 32 - 256 < Z.of_nat (as_u32 n))%Z -> stride n = 0.
Proof.
  intros n H. destruct (launched_bound n) as (A & B & C & q & Q). pose proof (launched_u32 n).
  assert (E : Z.of_nat (launched n) = (2 ^ 32)%Z) by (change (2 ^ 32)%Z with 4294967296%Z in *; lia).
  unfold stride, as_u32. rewrite E, Z_mod_same_full. reflexivity.
Qed.

Lemma short_ends : forall n t, (Z.of_nat n <= 2 ^ 32 - 256)%Z -> exists k, path Short n t k = None.
Proof.
  intros n t N.
  assert (E : as_u32 n = n) by (apply as_u32_id; lia).
  pose proof (stride_small n ltac:(rewrite E; exact N)) as ST.
  destruct (launched_bound n) as (A & _). rewrite E in A.
  assert (LB : (Z.of_nat (launched n) < 2 ^ 32)%Z) by (rewrite <- ST; apply as_u32_lt).
  assert (G : forall b i k, i < b -> path Short n t k = Some i -> exists k', path Short n t k' = None).
  { induction b as [|b IH]; intros i k B P; [lia|].
    destruct (i <? n) eqn:I.
    - assert (P1 : path Short n t (S k) = Some (as_u32 (i + stride n))) by (cbn [path]; rewrite P, I; reflexivity).
      rewrite ST in P1. apply Nat.ltb_lt in I.
      destruct (Z_lt_le_dec (Z.of_nat (i + launched n)) (2 ^ 32)) as [W|W].
      + exists (S (S k)). rewrite as_u32_id in P1 by exact W. remember (S k) as k1. cbn [path]. rewrite P1.
        replace (i + launched n <? n) with false by (symmetry; apply Nat.ltb_ge; lia). reflexivity.
      + apply (IH _ (S k)) in P1; auto. unfold as_u32.
        replace (Z.of_nat (i + launched n)) with (Z.of_nat (i + launched n) - 2 ^ 32 + 1 * 2 ^ 32)%Z by lia.
        rewrite Z_mod_plus_full, Z.mod_small; lia.
    - exists (S k). cbn [path]. now rewrite P, I. }
  destruct (path Short n t 0) as [i|] eqn:P; [|now exists 0]. exact (G (S i) i 0 (Nat.lt_succ_diag_r i) P).
Qed.

Lemma long_path : forall n t k i, (Z.of_nat (as_u32 n) <= 2 ^ 32 - 256)%Z -> path Long n t k = Some i ->
  t < launched n /\ i = t + k * launched n.
Proof.
  intros n t k i N. revert i. induction k as [|k IH]; cbn [path]; intros i P.
  - destruct (t <? launched n) eqn:T; [|discriminate]. injection P as <-. apply Nat.ltb_lt in T. lia.
  - destruct (path Long n t k) as [j|]; [|discriminate]. destruct (j <? n); [|discriminate].
    cbn [advance] in P. injection P as <-. destruct (IH j eq_refl) as [T ->]. split; auto.
    rewrite (stride_small n N). lia.
Qed.

Lemma long_reaches : forall n t k, (Z.of_nat (as_u32 n) <= 2 ^ 32 - 256)%Z -> t < launched n ->
  t + k * launched n < n + launched n -> path Long n t k = Some (t + k * launched n).
Proof.
  intros n t k N T. induction k as [|k IH]; intro B; cbn [path].
  - apply Nat.ltb_lt in T. rewrite T. f_equal. lia.
  - rewrite IH by lia. replace (t + k * launched n <? n) with true by (symmetry; apply Nat.ltb_lt; lia).
    cbn [advance]. rewrite (stride_small n N). f_equal. lia.
Qed.

Lemma long_ends : forall n t, (Z.of_nat (as_u32 n) <= 2 ^ 32 - 256)%Z -> exists k, path Long n t k = None.
Proof.
  intros n t N. exists (S (S n)). destruct (path Long n t (S (S n))) as [i|] eqn:P; auto. exfalso.
  remember (S n) as m. cbn [path] in P. destruct (path Long n t m) as [j|] eqn:Q; [|discriminate].
  destruct (j <? n) eqn:J; [|discriminate]. apply Nat.ltb_lt in J.
  apply long_path in Q; auto. destruct Q as [_ Q]. destruct (launched_bound n) as (_ & L & _).
  assert (m <= m * launched n) by (rewrite <- (Nat.mul_1_r m) at 1; apply Nat.mul_le_mono_l; lia). lia.
Qed.

Lemma once_path : forall n t k i, path Once n t k = Some i -> k = 0 /\ i = t /\ t < launched n.
Proof.
  intros n t k i P. destruct k as [|k]; cbn [path] in P.
  - destruct (t <? launched n) eqn:T; [|discriminate]. injection P as <-. apply Nat.ltb_lt in T. auto.
  - destruct (path Once n t k) as [j|]; [|discriminate]. destruct (j <? n); discriminate.
Qed.

Lemma once_ends : forall n t, exists k, path Once n t k = None.
Proof. intros n t. exists 1. cbn [path]. destruct (t <? launched n); [|reflexivity]. destruct (t <? n); reflexivity. Qed.

(** each element is its own thread's first *)
Lemma first_index : forall c n i, (Z.of_nat n < 2 ^ 32)%Z -> i < n -> path c n i 0 = Some i.
Proof.
  intros c n i N I. cbn [path]. destruct (launched_bound n) as (A & _). rewrite as_u32_id in A by exact N.
  replace (i <? launched n) with true by (symmetry; apply Nat.ltb_lt; lia). reflexivity.
Qed.

Lemma short_first : forall n t k i, (Z.of_nat n <= 2 ^ 31)%Z -> path Short n t k = Some i -> i < n -> k = 0 /\ i = t.
Proof.
  intros n t k i N P I.
  assert (E : as_u32 n = n) by (apply as_u32_id; lia).
  pose proof (stride_small n ltac:(rewrite E; lia)) as ST.
  destruct (launched_bound n) as (A & B & C & q & Q). rewrite E in *.
  assert (LB : (Z.of_nat (launched n) <= 2 ^ 31)%Z) by (change (2 ^ 31)%Z with 2147483648%Z in *; lia).
  destruct k as [|k].
  - cbn [path] in P. destruct (t <? launched n); [|discriminate]. injection P as <-. auto.
  - exfalso. revert i P I. induction k as [|k IH]; intros i P I; cbn [path] in P.
    + destruct (t <? launched n) eqn:T; [|discriminate]. destruct (t <? n) eqn:TN; [|discriminate].
      apply Nat.ltb_lt in T, TN. cbn [advance] in P. rewrite ST, as_u32_id in P by lia. injection P as <-. lia.
    + change (match path Short n t (S k) with Some i => if i <? n then advance Short n i else None | None => None end = Some i) in P.
      destruct (path Short n t (S k)) as [j|]; [|discriminate]. destruct (j <? n) eqn:J; [|discriminate].
      apply Nat.ltb_lt in J. exact (IH j eq_refl J).
Qed.

(** ** Every element exactly once *)
Lemma once_gen : forall c n s,
  (forall t k u m i, path c n t k = Some i -> path c n u m = Some i -> i < n -> t = u /\ k = m) ->
  (forall i, i < n -> exists t k, path c n t k = Some i) ->
  over (execute c n s) -> each_once (log (execute c n s)) n.
Proof.
  intros c n s INJ COV O. apply NoDup_Permutation; [now apply log_nodup|apply seq_NoDup|].
  intro i. rewrite over_log by exact O. rewrite in_seq. split.
  - intros (t & k & _ & I). lia.
  - intros [_ I]. destruct (COV i I) as (t & k & P). exists t, k. split; auto.
Qed.

Theorem short_once : forall n s, (Z.of_nat n <= 2 ^ 31)%Z -> over (execute Short n s) -> each_once (log (execute Short n s)) n.
Proof.
  intros n s N O. apply once_gen; auto.
  - intros t k u m i P P' I. destruct (short_first _ _ _ _ N P I) as [-> ->]. destruct (short_first _ _ _ _ N P' I) as [-> ->]. auto.
  - intros i I. exists i, 0. apply first_index; auto. lia.
Qed.

Theorem once_once : forall n s, (Z.of_nat n < 2 ^ 32)%Z -> over (execute Once n s) -> each_once (log (execute Once n s)) n.
Proof.
  intros n s N O. apply once_gen; auto.
  - intros t k u m i P P' I. apply once_path in P, P'. intuition congruence.
  - intros i I. exists i, 0. apply first_index; auto.
Qed.

Theorem long_once : forall n s, (Z.of_nat (as_u32 n) <= 2 ^ 32 - 256)%Z -> over (execute Long n s) -> each_once (log (execute Long n s)) n.
Proof.
  intros n s N O. destruct (launched_bound n) as (_ & L & _). apply once_gen; auto.
  - intros t k u m i P P' I. apply long_path in P, P'; auto. destruct P as [T ->], P' as [U E].
    assert (Q := pair_inj (launched n) k t m u T U). apply and_comm. apply Q. lia.
  - intros i I. exists (i mod launched n), (i / launched n).
    pose proof (Nat.div_mod i (launched n) ltac:(lia)). pose proof (Nat.mod_upper_bound i (launched n) ltac:(lia)).
    rewrite long_reaches; auto; [f_equal; lia|lia].
Qed.

Theorem short_each : forall n s, (Z.of_nat n <= 2 ^ 32 - 256)%Z -> over (execute Short n s) -> each (log (execute Short n s)) n.
Proof.
  intros n s N O i. rewrite over_log by exact O. split; [intros (t & k & _ & I); exact I|].
  intro I. exists i, 0. split; auto. apply first_index; auto. lia.
Qed.

(** ** What goes wrong with many elements *)
Theorem short_never : forall n s, (2 ^ 32 - 256 < Z.of_nat n)%Z -> ~ over (execute Short n s).
Proof.
  intros n s N O. rewrite over_path in O. destruct (launched_bound n) as (_ & L & _).
  specialize (O 0 ltac:(lia)). generalize dependent (count_occ Nat.eq_dec s 0). intros k O.
  assert (G : forall k, exists i, path Short n 0 k = Some i /\ i < n).
  { clear k O. destruct (Z_lt_le_dec (Z.of_nat n) (2 ^ 32)) as [S1|S1].
    - assert (ST : stride n = 0) by (apply stride_zero; rewrite as_u32_id; auto).
      induction k as [|k IH].
      + exists 0. split; [|lia]. cbn [path]. replace (0 <? launched n) with true by (symmetry; apply Nat.ltb_lt; lia). reflexivity.
      + destruct IH as (i & P & I). exists i. split; auto. cbn [path]. rewrite P. apply Nat.ltb_lt in I. rewrite I.
        cbn [advance]. rewrite ST, Nat.add_0_r. f_equal. apply as_u32_id. apply Nat.ltb_lt in I. lia.
    - induction k as [|k IH].
      + exists 0. split; [|lia]. cbn [path]. replace (0 <? launched n) with true by (symmetry; apply Nat.ltb_lt; lia). reflexivity.
      + destruct IH as (i & P & I). exists (as_u32 (i + stride n)). split; [|pose proof (as_u32_lt (i + stride n)); lia].
        cbn [path]. rewrite P. apply Nat.ltb_lt in I. now rewrite I. }
  destruct (G k) as (i & P & _). congruence.
Qed.

Theorem long_never : forall n s, (2 ^ 32 - 256 < Z.of_nat (as_u32 n))%Z -> ~ over (execute Long n s).
Proof.
  intros n s N O. rewrite over_path in O. destruct (launched_bound n) as (_ & L & _).
  specialize (O 0 ltac:(lia)). generalize dependent (count_occ Nat.eq_dec s 0). intros k O.
  assert (N0 : 0 < n) by (destruct n; [cbn in N; lia|lia]).
  assert (G : forall k, path Long n 0 k = Some 0).
  { clear k O. induction k as [|k IH]; cbn [path].
    - replace (0 <? launched n) with true by (symmetry; apply Nat.ltb_lt; lia). reflexivity.
    - rewrite IH. apply Nat.ltb_lt in N0. rewrite N0. cbn [advance]. now rewrite (stride_zero n N). }
  rewrite G in O. discriminate.
Qed.

Theorem short_again : forall n s, (2 ^ 31 < Z.of_nat n <= 2 ^ 32 - 256)%Z -> over (execute Short n s) -> ~ each_once (log (execute Short n s)) n.
Proof.
  intros n s N O EO.
  assert (LE : length (log (execute Short n s)) = n).
  { rewrite (Permutation_length EO). apply seq_length. }
  assert (ND : NoDup (log (execute Short n s))) by (eapply Permutation_NoDup; [apply Permutation_sym; exact EO|apply seq_NoDup]).
  assert (E : as_u32 n = n) by (apply as_u32_id; lia).
  pose proof (stride_small n ltac:(rewrite E; lia)) as ST.
  destruct (launched_bound n) as (A & B & C & q & Q). rewrite E in *.
  set (j := n - 1 + launched n - Z.to_nat (2 ^ 32)).
  assert (J : j < n /\ as_u32 (n - 1 + launched n) = j).
  { assert ((Z.of_nat (launched n) < 2 ^ 32)%Z) by (rewrite <- ST; apply as_u32_lt).
    split; [unfold j; lia|]. unfold as_u32.
    replace (Z.of_nat (n - 1 + launched n)) with (Z.of_nat (n - 1 + launched n) - 2 ^ 32 + 1 * 2 ^ 32)%Z by lia.
    rewrite Z_mod_plus_full, Z.mod_small by lia. unfold j. lia. }
  destruct J as [J JE].
  assert (P1 : path Short n (n - 1) 1 = Some j).
  { cbn [path]. replace (n - 1 <? launched n) with true by (symmetry; apply Nat.ltb_lt; lia).
    replace (n - 1 <? n) with true by (symmetry; apply Nat.ltb_lt; lia). cbn [advance]. now rewrite ST, JE. }
  assert (P0 : path Short n j 0 = Some j) by (apply first_index; auto; lia).
  assert (JN : j <> n - 1).
  { assert ((Z.of_nat (launched n) < 2 ^ 32)%Z) by (rewrite <- ST; apply as_u32_lt). unfold j. lia. }
  (* both are in the log, at different places *)
  assert (TWO : forall s, 1 <= count_occ Nat.eq_dec s j -> 2 <= count_occ Nat.eq_dec s (n - 1) ->
    2 <= count_occ Nat.eq_dec (log (execute Short n s)) j).
  { assert (ONE : forall s, (if 1 <=? count_occ Nat.eq_dec s j then 1 else 0) + (if 2 <=? count_occ Nat.eq_dec s (n - 1) then 1 else 0)
       <= count_occ Nat.eq_dec (log (execute Short n s)) j).
    { clear s O EO LE ND. intro s. induction s as [|u s IH] using rev_ind; [cbn; lia|].
      rewrite exec_log, !count_snoc, count_occ_app.
      destruct (u =? j) eqn:UJ.
      - apply Nat.eqb_eq in UJ. subst u. replace (j =? n - 1) with false by (symmetry; now apply Nat.eqb_neq). rewrite Nat.add_0_r.
        destruct (count_occ Nat.eq_dec s j) as [|m] eqn:K.
        + rewrite P0. apply Nat.ltb_lt in J. rewrite J. cbn [count_occ]. destruct (Nat.eq_dec j j); [|congruence]. cbn in IH |- *. lia.
        + replace (1 <=? S m + 1) with true by (symmetry; apply Nat.leb_le; lia). change (1 <=? S m) with true in IH. cbn [Nat.add] in *. lia.
      - rewrite Nat.add_0_r. destruct (u =? n - 1) eqn:UN; [|rewrite Nat.add_0_r; lia].
        apply Nat.eqb_eq in UN. subst u.
        destruct (count_occ Nat.eq_dec s (n - 1)) as [|[|m]] eqn:K.
        + change (2 <=? 0 + 1) with false. change (2 <=? 0) with false in IH. cbn [Nat.add] in *. lia.
        + rewrite P1. apply Nat.ltb_lt in J. rewrite J. cbn [count_occ]. destruct (Nat.eq_dec j j); [|congruence].
          change (2 <=? 1 + 1) with true. change (2 <=? 1) with false in IH. cbn [Nat.add] in *. lia.
        + replace (2 <=? S (S m) + 1) with true by (symmetry; apply Nat.leb_le; lia). change (2 <=? S (S m)) with true in IH. cbn [Nat.add] in *. lia. }
    intros s1 C1 C2. specialize (ONE s1).
    replace (1 <=? count_occ Nat.eq_dec s1 j) with true in ONE by (symmetry; apply Nat.leb_le; lia).
    replace (2 <=? count_occ Nat.eq_dec s1 (n - 1)) with true in ONE by (symmetry; apply Nat.leb_le; lia). lia. }
  rewrite over_path in O.
  assert (C1 : 1 <= count_occ Nat.eq_dec s j).
  { specialize (O j ltac:(lia)). destruct (count_occ Nat.eq_dec s j); [congruence|lia]. }
  assert (C2 : 2 <= count_occ Nat.eq_dec s (n - 1)).
  { specialize (O (n - 1) ltac:(lia)). destruct (count_occ Nat.eq_dec s (n - 1)) as [|[|m]]; [|congruence|lia].
    cbn [path] in O. replace (n - 1 <? launched n) with true in O by (symmetry; apply Nat.ltb_lt; lia). discriminate. }
  specialize (TWO s C1 C2). pose proof (proj1 (NoDup_count_occ Nat.eq_dec _) ND j). lia.
Qed.

Theorem once_misses : forall n s, (2 ^ 32 <= Z.of_nat n)%Z -> over (execute Once n s) -> ~ In (n - 1) (log (execute Once n s)).
Proof.
  intros n s N O I. rewrite over_log in I by exact O. destruct I as (t & k & P & _). apply once_path in P. destruct P as (_ & <- & T).
  destruct (launched_bound n) as (A & B & C & _).
  assert ((Z.of_nat (as_u32 n) <= Z.of_nat n - 2 ^ 32)%Z).
  { unfold as_u32. replace (Z.of_nat n) with (Z.of_nat n - 2 ^ 32 + 1 * 2 ^ 32)%Z at 1 by lia. rewrite Z_mod_plus_full.
    pose proof (Z.mod_le (Z.of_nat n - 2 ^ 32) (2 ^ 32) ltac:(lia) ltac:(lia)).
    pose proof (Z.mod_pos_bound (Z.of_nat n - 2 ^ 32) (2 ^ 32) ltac:(lia)). lia. }
  change (2 ^ 32)%Z with 4294967296%Z in *. lia.
Qed.
