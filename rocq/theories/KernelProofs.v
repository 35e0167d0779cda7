(** Facts about the kernels' addressing and loops. *)
From Coq Require Import List Arith ZArith Lia Bool.
From Coq Require Import ZifyBool ZifyNat.
From Verif Require Import Base IndexSpec LayoutModel ViewSpec LayoutProofs BcastProofs KernelModel.
Import ListNotations.

(* ---------- metadata ---------- *)

Lemma md_slice_app : forall (a b c : list nat) off n,
  length a = off -> length b = n -> md_slice (a ++ b ++ c) off n = Some b.
Proof.
  intros a b c off n <- <-. unfold md_slice.
  replace (length a + length b <=? length (a ++ b ++ c)) with true
    by (rewrite !app_length; lia).
  f_equal. rewrite skipn_app, skipn_all, Nat.sub_diag. simpl.
  rewrite firstn_app, firstn_all, Nat.sub_diag. simpl. now rewrite app_nil_r.
Qed.

Lemma nth_error_app_at : forall A (a : list A) x b k, length a = k ->
  nth_error (a ++ x :: b) k = Some x.
Proof. intros A a x b k <-. rewrite nth_error_app2 by auto. now rewrite Nat.sub_diag. Qed.

(* ---------- strided addressing ---------- *)

Lemma nelem_pos : forall s, 0 < nelem s -> all_pos s.
Proof.
  induction s as [|d s IH]; intro H; constructor; rewrite nelem_cons in H.
  - nia.
  - apply IH. nia.
Qed.
Lemma all_pos_nelem : forall s, all_pos s -> 0 < nelem s.
Proof.
  induction 1; [unfold nelem; simpl; lia|]. rewrite nelem_cons. nia.
Qed.

Lemma combine_app : forall A B (a1 a2 : list A) (b1 b2 : list B), length a1 = length b1 ->
  combine (a1 ++ a2) (b1 ++ b2) = combine a1 b1 ++ combine a2 b2.
Proof.
  induction a1 as [|x a1 IH]; intros a2 [|y b1] b2 H; simpl in *; try discriminate; auto.
  f_equal. apply IH. lia.
Qed.

Lemma c_strided_walk_spec : forall rs rst idx, length rs = length rst -> all_pos rs ->
  c_strided_walk idx (combine rs rst) =
  Some (dot (unravel (rev rs) (idx mod nelem (rev rs))) (rev rst)).
Proof.
  induction rs as [|d rs IH]; intros [|s rst] idx Hl Hp; try discriminate; [reflexivity|].
  inversion Hp; subst. cbn [combine c_strided_walk].
  replace (d =? 0) with false by lia.
  rewrite IH by (simpl in Hl; auto). cbn [obind]. f_equal. simpl rev.
  assert (Hn : 0 < nelem (rev rs)) by (apply all_pos_nelem, all_pos_rev; auto).
  assert (G : forall q k, 0 < nelem q -> k < nelem q * d ->
            unravel (q ++ [d]) k = unravel q (k / d) ++ [k mod d]).
  { induction q as [|x q IHq]; intros k Hq Hk.
    - change (unravel ([] ++ [d]) k) with [k / 1].
      change (nelem []) with 1 in *. rewrite Nat.div_1_r.
      rewrite Nat.mod_small by lia. auto.
    - simpl. rewrite nelem_cons in Hq, Hk. rewrite nelem_app.
      replace (nelem [d]) with d by (unfold nelem; simpl; lia).
      assert (0 < nelem q) by nia.
      rewrite IHq; auto.
      2:{ apply Nat.mod_upper_bound. nia. }
      assert (E0 : k mod (nelem q * d) = k mod d + d * ((k / d) mod nelem q)).
      { rewrite (Nat.mul_comm (nelem q) d). rewrite Nat.mod_mul_r by lia. reflexivity. }
      f_equal; [|f_equal; [f_equal|f_equal]].
      + rewrite (Nat.mul_comm (nelem q) d), Nat.div_div by lia. reflexivity.
      + rewrite E0, (Nat.mul_comm d), Nat.div_add by lia.
        rewrite (Nat.div_small (k mod d) d) by (apply Nat.mod_upper_bound; lia). lia.
      + rewrite E0, (Nat.mul_comm d), Nat.mod_add by lia. apply Nat.mod_mod. lia. }
  rewrite nelem_app. replace (nelem [d]) with d by (unfold nelem; simpl; lia).
  set (N := nelem (rev rs)) in *.
  rewrite G; [|auto|fold N; apply Nat.mod_upper_bound; nia].
  rewrite dot_app by (rewrite unravel_length, !rev_length; simpl in Hl; lia).
  assert (E0 : idx mod (N * d) = idx mod d + d * ((idx / d) mod N)).
  { rewrite (Nat.mul_comm N d), Nat.mod_mul_r by lia. reflexivity. }
  rewrite E0, (Nat.mul_comm d), Nat.div_add, Nat.mod_add by lia.
  rewrite (Nat.div_small (idx mod d)) by (apply Nat.mod_upper_bound; lia).
  rewrite Nat.mod_mod by lia. simpl dot. lia.
Qed.

Lemma rev_combine : forall A B (a : list A) (b : list B), length a = length b ->
  rev (combine a b) = combine (rev a) (rev b).
Proof.
  induction a as [|x a IH]; intros [|y b] H; simpl in *; try discriminate; auto.
  rewrite IH by lia. rewrite combine_app by (rewrite !rev_length; lia). reflexivity.
Qed.

Lemma c_strided_spec : forall s st idx, length st = length s -> idx < nelem s ->
  c_strided idx s st = Some (dot (unravel s idx) st).
Proof.
  intros s st idx Hl Hi. unfold c_strided.
  rewrite rev_combine by lia.
  rewrite c_strided_walk_spec.
  - rewrite !rev_involutive. now rewrite Nat.mod_small.
  - now rewrite !rev_length.
  - apply all_pos_rev, nelem_pos. lia.
Qed.

Lemma c_contig_spec : forall rs rst acc, length rs = length rst ->
  c_contig_walk acc (combine rs rst) = true ->
  forall i, valid (rev rs) i -> dot i (rev rst) = acc * ravel (rev rs) i.
Proof.
  induction rs as [|d rs IH]; intros [|s rst] acc Hl H i Hi; try discriminate.
  - simpl in *. destruct i; [simpl; lia|contradiction].
  - cbn [combine c_contig_walk] in H.
    destruct ((1 <? d) && negb (acc =? s)) eqn:E; [discriminate|].
    simpl rev in *.
    pose proof (valid_length _ _ Hi) as Hil. rewrite app_length in Hil. simpl in Hil.
    destruct (exists_last (l := i)) as [i1 [x Ei]]; [intro; subst; simpl in Hil; lia|].
    subst i. rewrite app_length in Hil. simpl in Hil.
    assert (Hl1 : length i1 = length (rev rs)) by lia.
    apply valid_app in Hi; auto. destruct Hi as [Hi1 [Hx _]].
    rewrite dot_app by (rewrite rev_length in *; simpl in Hl; lia).
    rewrite ravel_app by auto.
    rewrite (IH rst (acc * d)) by (simpl in Hl; auto). simpl.
    unfold nelem; simpl. assert (x = 0 \/ acc = s) by lia. nia.
Qed.

Lemma c_is_contiguous_addr : forall s st i, length st = length s ->
  c_is_contiguous s st = true -> valid s i -> dot i st = ravel s i.
Proof.
  intros s st i Hl H Hi. unfold c_is_contiguous in H.
  rewrite rev_combine in H by lia.
  pose proof (c_contig_spec (rev s) (rev st) 1) as G. rewrite !rev_length, !rev_involutive in G.
  rewrite (G (eq_sym Hl) H i Hi). lia.
Qed.

(* ---------- loops ---------- *)

Lemma seq_for_from_spec : forall B (g : nat -> option B) n start pre out,
  length pre = start -> length out = n ->
  seq_for_from start n g (pre ++ out) =
  match mapO g (seq start n) with Some r => Some (pre ++ r) | None => None end.
Proof.
  intros B g. induction n as [|n IH]; intros start pre out Hp Ho.
  - destruct out; [|discriminate]. reflexivity.
  - destruct out as [|o out]; [discriminate|]. simpl seq_for_from. cbn [seq].
    rewrite mapO_cons. destruct (g start) as [v|]; simpl; [|reflexivity].
    unfold c_store. replace (start <? length (pre ++ o :: out)) with true
      by (rewrite app_length; simpl; lia). simpl.
    replace (upd (pre ++ o :: out) start v) with ((pre ++ [v]) ++ out).
    2:{ subst start. clear. induction pre; simpl; congruence. }
    rewrite IH by (rewrite ?app_length; simpl in *; lia).
    destruct (mapO g (seq (S start) n)); simpl; auto. now rewrite <- app_assoc.
Qed.

Lemma seq_for_spec : forall B (g : nat -> option B) n out, length out = n ->
  seq_for n g out = mapO g (seq 0 n).
Proof.
  intros B g n out H. unfold seq_for. rewrite <- (app_nil_l out).
  rewrite seq_for_from_spec by auto. now destruct (mapO g (seq 0 n)).
Qed.

Lemma run_sched_spec : forall B (h : nat -> B) g sch ths out,
  (forall i, i < length out -> g i = Some (h i)) ->
  (forall t x e, nth_error ths t = Some (x, e) -> e <= length out) ->
  exists out', run_sched g sch ths out = Some out' /\ length out' = length out /\
    forall i, i < length out ->
      (nth_error out i = Some (h i) \/
       exists t x e, nth_error ths t = Some (x, e) /\
                     x <= i < Nat.min e (x + count_occ Nat.eq_dec sch t)) ->
      nth_error out' i = Some (h i).
Proof.
  intros B h g. induction sch as [|t sch IH]; intros ths out Hg Hb.
  - exists out. simpl. split; auto. split; auto. intros i Hi [H|[t [x [e [H1 H2]]]]]; auto. lia.
  - simpl. destruct (nth_error ths t) as [[x e]|] eqn:Et.
    + destruct (x <? e) eqn:Exe.
      * pose proof (Hb _ _ _ Et) as He. rewrite Hg by lia. simpl. unfold c_store.
        replace (x <? length out) with true by lia. simpl.
        assert (Ht : t < length ths) by (apply nth_error_Some; congruence).
        destruct (IH (upd ths t (S x, e)) (upd out x (h x))) as [out' [Hr [Hl' Ho']]].
        { intros i Hi. rewrite upd_length in Hi. auto. }
        { intros t' x' e' H. rewrite nth_error_upd in H. rewrite upd_length.
          destruct ((t =? t') && (t <? length ths)); [|eauto].
          inversion H; subst. auto. }
        rewrite upd_length in Hl', Ho'.
        exists out'. split; auto. split; auto. intros i Hi H. apply Ho'; auto.
        destruct (Nat.eq_dec i x) as [->|Hne].
        { left. now apply nth_error_upd_eq. }
        destruct H as [H|[t' [x' [e' [H1 H2]]]]].
        { left. now rewrite nth_error_upd_neq by auto. }
        right. destruct (Nat.eq_dec t t') as [E|E].
        -- subst t'. rewrite Et in H1. inversion H1; subst x' e'.
           exists t, (S x), e. rewrite nth_error_upd_eq by auto. split; auto. lia.
        -- exists t', x', e'. rewrite nth_error_upd_neq by auto. split; auto.
      * destruct (IH ths out Hg Hb) as [out' [Hr [Hl' Ho']]].
        exists out'. split; auto. split; auto. intros i Hi H. apply Ho'; auto.
        destruct H as [H|[t' [x' [e' [H1 H2]]]]]; [auto|]. right.
        exists t', x', e'. split; auto.
        destruct (Nat.eq_dec t t') as [E|E]; [|auto].
        subst t'. rewrite Et in H1. inversion H1; subst. lia.
    + destruct (IH ths out Hg Hb) as [out' [Hr [Hl' Ho']]].
      exists out'. split; auto. split; auto. intros i Hi H. apply Ho'; auto.
      destruct H as [H|[t' [x' [e' [H1 H2]]]]]; [auto|]. right.
      exists t', x', e'. split; auto.
      destruct (Nat.eq_dec t t') as [E|E]; [congruence|auto].
Qed.

(* chunking *)
Lemma chunk_start_0 : forall n k, chunk_start n k 0 = 0.
Proof. intros n k. unfold chunk_start. generalize (n mod k) (n / k). intros r q.
  destruct (0 <? r) eqn:E; lia. Qed.
Lemma chunk_end_next : forall n k t, chunk_end n k t = chunk_start n k (S t).
Proof.
  intros n k t. unfold chunk_end, chunk_start. generalize (n mod k) (n / k). intros r q.
  destruct (t <? r) eqn:E1; destruct (S t <? r) eqn:E2; nia.
Qed.
Lemma chunk_start_last : forall n k, 0 < k -> chunk_start n k k = n.
Proof.
  intros n k Hk. unfold chunk_start.
  pose proof (Nat.mod_upper_bound n k ltac:(lia)) as H.
  pose proof (Nat.div_mod n k ltac:(lia)) as H0. revert H H0.
  generalize (n mod k) (n / k). intros r q H H0.
  replace (k <? r) with false by lia. lia.
Qed.
Lemma chunk_start_le : forall n k t, chunk_start n k t <= chunk_end n k t.
Proof. intros. unfold chunk_end. generalize (n / k). lia. Qed.
Lemma chunk_start_mono : forall n k t t', t <= t' -> chunk_start n k t <= chunk_start n k t'.
Proof.
  intros n k t t' H. induction H; auto.
  rewrite IHle. rewrite <- chunk_end_next. apply chunk_start_le.
Qed.
Lemma chunk_cover : forall n k i, 0 < k -> i < n ->
  exists t, t < k /\ chunk_start n k t <= i < chunk_end n k t.
Proof.
  intros n k i Hk Hi.
  assert (G : forall m, i < chunk_start n k m ->
              exists t, t < m /\ chunk_start n k t <= i < chunk_end n k t).
  { induction m as [|m IH]; intro H; [rewrite chunk_start_0 in H; lia|].
    destruct (Nat.lt_ge_cases i (chunk_start n k m)) as [H'|H'].
    - destruct (IH H') as [t [Ht Hc]]. exists t. split; auto.
    - exists m. rewrite chunk_end_next. split; auto. }
  apply G. now rewrite chunk_start_last.
Qed.

Lemma nth_error_chunks : forall n k t,
  nth_error (chunks n k) t = if t <? k then Some (chunk_start n k t, chunk_end n k t) else None.
Proof.
  intros n k t. unfold chunks. destruct (t <? k) eqn:E.
  - erewrite map_nth_error; [|apply nth_error_seq; lia]. reflexivity.
  - apply nth_error_None. rewrite map_length, seq_length. lia.
Qed.

(** [ths] is a list of ranges inside 0..n that together cover it *)
Definition covers (ths : list (nat * nat)) (n : nat) : Prop :=
  (forall t x y, nth_error ths t = Some (x, y) -> y <= n) /\
  (forall i, i < n -> exists t x y, nth_error ths t = Some (x, y) /\ x <= i < y).

Lemma threads_run : forall B (h : nat -> B) g sch n ths out,
  covers ths n -> length out = n -> (forall i, i < n -> g i = Some (h i)) -> joined sch ths ->
  run_sched g sch ths out = Some (map h (seq 0 n)).
Proof.
  intros B h g sch n ths out [Hin Hcov] Hl Hg Hj. subst n.
  destruct (run_sched_spec B h g sch ths out) as [out' [Hr [Hl' Ho]]]; auto.
  rewrite Hr. f_equal. apply list_ext. intro i.
  destruct (Nat.lt_ge_cases i (length out)) as [Hi|Hi].
  - rewrite Ho; auto.
    + erewrite map_nth_error; [|apply nth_error_seq; auto]. reflexivity.
    + right. destruct (Hcov i Hi) as [t [x [y [Ht Hc]]]].
      exists t, x, y. split; auto. specialize (Hj t x y Ht). lia.
  - rewrite (proj2 (nth_error_None out' i)) by lia. symmetry. apply nth_error_None.
    rewrite map_length, seq_length. lia.
Qed.

Lemma chunks_cover : forall n k, 0 < k -> covers (chunks n k) n.
Proof.
  intros n k Hk. split.
  - intros t x y H. rewrite nth_error_chunks in H. destruct (t <? k) eqn:E; [|discriminate].
    inversion H; subst. rewrite chunk_end_next.
    rewrite <- (chunk_start_last n k Hk) at 2. apply chunk_start_mono. lia.
  - intros i Hi. destruct (chunk_cover n k i Hk Hi) as [t [Ht Hc]].
    exists t, (chunk_start n k t), (chunk_end n k t).
    rewrite nth_error_chunks. replace (t <? k) with true by lia. auto.
Qed.

Lemma nth_error_bw_chunks : forall n k t,
  nth_error (bw_chunks n k) t =
  if t <? k then Some (t * (n / k), if t =? k - 1 then (t + 1) * (n / k) + n mod k
                                    else (t + 1) * (n / k)) else None.
Proof.
  intros n k t. unfold bw_chunks. destruct (t <? k) eqn:E.
  - erewrite map_nth_error; [|apply nth_error_seq; lia]. reflexivity.
  - apply nth_error_None. rewrite map_length, seq_length. lia.
Qed.

Lemma bw_chunks_cover : forall n k, 0 < k -> covers (bw_chunks n k) n.
Proof.
  intros n k Hk.
  pose proof (Nat.mod_upper_bound n k ltac:(lia)) as HU.
  pose proof (Nat.div_mod n k ltac:(lia)) as HD.
  split.
  - intros t x y H. rewrite nth_error_bw_chunks in H. revert HU HD H.
    generalize (n mod k) (n / k). intros r q HU HD H.
    destruct (t <? k) eqn:E; [|discriminate].
    inversion H; subst x y. destruct (t =? k - 1) eqn:E2; nia.
  - intros i Hi.
    assert (G : forall m, i < m * (n / k) -> exists t, t < m /\ t * (n / k) <= i < (t + 1) * (n / k)).
    { generalize (n / k). intros q. induction m as [|m IH]; intro H; [lia|].
      destruct (Nat.lt_ge_cases i (m * q)) as [H'|H'].
      - destruct (IH H') as [t [Ht Hc]]. exists t. split; auto.
      - exists m. split; auto. nia. }
    destruct (Nat.lt_ge_cases i (k * (n / k))) as [H|H].
    + destruct (G k H) as [t [Ht Hc]]. exists t.
      do 2 eexists. rewrite nth_error_bw_chunks. replace (t <? k) with true by lia.
      split; [reflexivity|]. revert Hc. generalize (n mod k) (n / k). intros r q Hc.
      destruct (t =? k - 1); lia.
    + exists (k - 1). do 2 eexists. rewrite nth_error_bw_chunks.
      replace (k - 1 <? k) with true by lia. split; [reflexivity|].
      rewrite Nat.eqb_refl. revert HU HD H. generalize (n mod k) (n / k). intros r q HU HD H. nia.
Qed.

Lemma par_for_spec : forall B (h : nat -> B) e g n out,
  env_ok e -> length out = n -> (forall i, i < n -> g i = Some (h i)) ->
  par_for e n g out = Some (map h (seq 0 n)).
Proof.
  intros B h e g n out [_ Hj] Hl Hg. unfold par_for.
  destruct (1 <? get_optimal_threads e n) eqn:E.
  - apply threads_run; auto. apply chunks_cover. lia.
  - rewrite seq_for_spec by auto. apply mapO_total. intros i Hi. apply in_seq in Hi. apply Hg. lia.
Qed.

Lemma par_for_0 : forall B e (g : nat -> option B) out, env_ok e -> par_for e 0 g out = Some out.
Proof.
  intros B e g out [Hm _]. unfold par_for, get_optimal_threads.
  replace (0 <? min_work e * 2) with true by lia. reflexivity.
Qed.

(** a fair environment exists for any number of cores: workers run one after
    the other *)
Definition seq_env (c m : nat) : env :=
  mkEnv c m (fun n => flat_map (fun t => repeat t n) (seq 0 (Nat.max 1 c))).
Lemma seq_env_ok : forall c m, 0 < m -> env_ok (seq_env c m).
Proof.
  intros c m Hm. split; [exact Hm|]. intros n t x y Hxy.
  cbn [sched seq_env].
  assert (Hk : get_optimal_threads (seq_env c m) n <= Nat.max 1 c).
  { unfold get_optimal_threads. cbn [cores min_work seq_env]. destruct (_ <? _); lia. }
  set (k := get_optimal_threads (seq_env c m) n) in *.
  rewrite nth_error_chunks in Hxy. destruct (t <? k) eqn:Ht0; [|discriminate].
  assert (Ht : t < k) by lia. inversion Hxy; subst x y.
  assert (Hn : chunk_end n k t - chunk_start n k t <= n).
  { rewrite chunk_end_next. pose proof (chunk_start_mono n k (S t) k ltac:(lia)).
    rewrite chunk_start_last in H by lia. lia. }
  assert (HC : n <= count_occ Nat.eq_dec (flat_map (fun t => repeat t n) (seq 0 (Nat.max 1 c))) t).
  { assert (G : forall l, In t l -> n <= count_occ Nat.eq_dec (flat_map (fun t => repeat t n) l) t).
    { induction l as [|x l IH]; intro Hin; [destruct Hin|]. simpl. rewrite count_occ_app.
      destruct Hin as [->|Hin]; [|specialize (IH Hin); lia].
      assert (count_occ Nat.eq_dec (repeat t n) t = n).
      { clear. induction n; simpl; auto. destruct (Nat.eq_dec t t); congruence. }
      lia. }
    apply G. apply in_seq. lia. }
  lia.
Qed.

Lemma seq_for_total : forall B (h : nat -> B) g n out,
  length out = n -> (forall i, i < n -> g i = Some (h i)) ->
  seq_for n g out = Some (map h (seq 0 n)).
Proof.
  intros B h g n out Hl Hg. rewrite seq_for_spec by auto.
  apply mapO_total. intros i Hi. apply in_seq in Hi. apply Hg. lia.
Qed.

(* ---------- kernels ---------- *)

(** a total reading function for an in-bounds buffer *)
Definition rd {A} (d : A) (l : list A) (i : nat) : A := nth i l d.

Lemma nth_error_rd : forall A (d : A) l i, i < length l -> nth_error l i = Some (rd d l i).
Proof. intros A d l i H. unfold rd. now apply nth_error_nth'. Qed.

Lemma addr_contig_k : forall l k, wf_layout l ->
  c_is_contiguous (lshape l) (lstrides l) = true -> k < nelem (lshape l) ->
  addr l (unravel (lshape l) k) = loffset l + k.
Proof.
  intros l k Hw Hc Hk. unfold addr.
  rewrite (c_is_contiguous_addr (lshape l)); auto using unravel_valid.
  now rewrite ravel_unravel.
Qed.

Lemma repeat_len : forall A (z : A) n, length (repeat z n) = n.
Proof. intros. apply repeat_length. Qed.

Section K.
Variables (A C B : Type) (d : A) (d' : C).

Lemma binary_kernel_spec : forall e (f : A -> C -> B) lhs rhs out la lb s,
  env_ok e -> wf_layout la -> wf_layout lb -> lshape la = s -> lshape lb = s ->
  in_bounds (length lhs) la -> in_bounds (length rhs) lb -> length out = nelem s ->
  binary_kernel e f lhs rhs out (binary_metadata la lb la) =
  Some (map (fun k => f (rd d lhs (addr la (unravel s k))) (rd d' rhs (addr lb (unravel s k))))
            (seq 0 (nelem s))).
Proof.
  intros e f lhs rhs out la lb s He Hwa Hwb Hsa Hsb Hba Hbb Ho.
  unfold binary_kernel, binary_metadata, layout_size.
  change shape_size with nelem. rewrite Hsa, Hsb.
  assert (La : length (lstrides la) = length s) by (rewrite <- Hsa; auto).
  assert (Lb : length (lstrides lb) = length s) by (rewrite <- Hsb; auto).
  set (n := length s) in *.
  cbn [nth_error app obind].
  change (nelem s :: n :: s ++ s ++ lstrides la ++ lstrides lb ++ [loffset la; loffset lb])
    with ([nelem s; n] ++ s ++ s ++ lstrides la ++ lstrides lb ++ [loffset la; loffset lb]).
  assert (E1 : md_slice ([nelem s; n] ++ s ++ s ++ lstrides la ++ lstrides lb ++ [loffset la; loffset lb]) 2 n = Some s)
    by (apply md_slice_app; auto).
  assert (E2 : md_slice ([nelem s; n] ++ s ++ s ++ lstrides la ++ lstrides lb ++ [loffset la; loffset lb]) (2 + n) n = Some s).
  { rewrite (app_assoc [nelem s; n] s). apply md_slice_app; auto. }
  assert (E3 : md_slice ([nelem s; n] ++ s ++ s ++ lstrides la ++ lstrides lb ++ [loffset la; loffset lb]) (2 + 2 * n) n = Some (lstrides la)).
  { rewrite (app_assoc [nelem s; n] s), (app_assoc _ s). apply md_slice_app; auto.
    rewrite !app_length. fold n. simpl. lia. }
  assert (E4 : md_slice ([nelem s; n] ++ s ++ s ++ lstrides la ++ lstrides lb ++ [loffset la; loffset lb]) (2 + 3 * n) n = Some (lstrides lb)).
  { rewrite (app_assoc [nelem s; n] s), (app_assoc _ s), (app_assoc _ (lstrides la)).
    apply md_slice_app; auto. rewrite !app_length. fold n. simpl. lia. }
  assert (E5 : nth_error ([nelem s; n] ++ s ++ s ++ lstrides la ++ lstrides lb ++ [loffset la; loffset lb]) (2 + 4 * n) = Some (loffset la)).
  { rewrite (app_assoc [nelem s; n] s), (app_assoc _ s), (app_assoc _ (lstrides la)), (app_assoc _ (lstrides lb)).
    apply nth_error_app_at. rewrite !app_length. fold n. simpl. lia. }
  assert (E6 : nth_error ([nelem s; n] ++ s ++ s ++ lstrides la ++ lstrides lb ++ [loffset la; loffset lb]) (2 + 4 * n + 1) = Some (loffset lb)).
  { rewrite (app_assoc [nelem s; n] s), (app_assoc _ s), (app_assoc _ (lstrides la)), (app_assoc _ (lstrides lb)).
    change [loffset la; loffset lb] with ([loffset la] ++ [loffset lb]). rewrite app_assoc.
    apply nth_error_app_at. rewrite !app_length. fold n. simpl. lia. }
  rewrite E1, E2, E3, E4, E5, E6. cbn [obind].
  assert (SA : forall k, k < nelem s -> c_strided k s (lstrides la) = Some (dot (unravel s k) (lstrides la)))
    by (intros; apply c_strided_spec; auto).
  assert (SB : forall k, k < nelem s -> c_strided k s (lstrides lb) = Some (dot (unravel s k) (lstrides lb)))
    by (intros; apply c_strided_spec; auto).
  assert (RA : forall k, k < nelem s ->
     nth_error lhs (addr la (unravel s k)) = Some (rd d lhs (addr la (unravel s k)))).
  { intros k Hk. apply nth_error_rd. apply Hba. rewrite Hsa. now apply unravel_valid. }
  assert (RB : forall k, k < nelem s ->
     nth_error rhs (addr lb (unravel s k)) = Some (rd d' rhs (addr lb (unravel s k)))).
  { intros k Hk. apply nth_error_rd. apply Hbb. rewrite Hsb. now apply unravel_valid. }
  assert (CA : c_is_contiguous s (lstrides la) = true -> forall k, k < nelem s ->
     addr la (unravel s k) = loffset la + k).
  { intros H k Hk. rewrite <- Hsa in *. now apply addr_contig_k. }
  assert (CB : c_is_contiguous s (lstrides lb) = true -> forall k, k < nelem s ->
     addr lb (unravel s k) = loffset lb + k).
  { intros H k Hk. rewrite <- Hsb in *. now apply addr_contig_k. }
  destruct (c_is_contiguous s (lstrides la)) eqn:Ca;
  destruct (c_is_contiguous s (lstrides lb)) eqn:Cb; cbn [andb].
  - apply par_for_spec; auto. intros k Hk. specialize (RA k Hk). specialize (RB k Hk).
    rewrite (CA eq_refl k Hk) in *. rewrite (CB eq_refl k Hk) in *. now rewrite RA, RB.
  - apply seq_for_total; auto. intros k Hk. specialize (RA k Hk). specialize (RB k Hk).
    rewrite (CA eq_refl k Hk) in *. rewrite SB by auto. cbn [obind].
    unfold addr in *. now rewrite RA, RB.
  - apply seq_for_total; auto. intros k Hk. specialize (RA k Hk). specialize (RB k Hk).
    rewrite (CB eq_refl k Hk) in *. rewrite SA by auto. cbn [obind].
    unfold addr in *. now rewrite RA, RB.
  - apply seq_for_total; auto. intros k Hk. specialize (RA k Hk). specialize (RB k Hk).
    rewrite SA, SB by auto. cbn [obind]. unfold addr in *. now rewrite RA, RB.
Qed.

Lemma unary_md : forall l, wf_layout l ->
  let md := unary_metadata l l in let n := length (lshape l) in
  nth_error md 0 = Some (nelem (lshape l)) /\ nth_error md 1 = Some n /\
  md_slice md 2 n = Some (lshape l) /\ md_slice md (2 + n) n = Some (lstrides l) /\
  nth_error md (2 + 2 * n) = Some (loffset l).
Proof.
  intros l Hw md n. unfold md, unary_metadata, layout_size.
  change shape_size with nelem.
  assert (L : length (lstrides l) = n) by auto.
  split; [reflexivity|]. split; [reflexivity|]. split; [|split].
  - apply md_slice_app; auto.
  - rewrite (app_assoc [_; _] (lshape l)). apply md_slice_app; auto.
  - rewrite (app_assoc [_; _] (lshape l)), (app_assoc _ (lstrides l)).
    apply nth_error_app_at. rewrite !app_length. unfold n. rewrite L. simpl. unfold n. lia.
Qed.

Definition offset_read (l : layout) : Prop := lshape l <> [] \/ loffset l = 0.

Lemma off_read : forall l, wf_layout l -> offset_read l ->
  (if 0 <? length (lshape l) then nth_error (unary_metadata l l) (2 + 2 * length (lshape l))
   else Some 0) = Some (loffset l).
Proof.
  intros l Hw Ho. destruct (unary_md l Hw) as [_ [_ [_ [_ E]]]].
  destruct (0 <? length (lshape l)) eqn:E0; auto.
  destruct Ho as [H|H]; [|congruence].
  destruct (lshape l); [congruence|simpl in E0; lia].
Qed.

Lemma unary_kernel_spec : forall e (f : A -> B) input out l,
  env_ok e -> wf_layout l -> offset_read l ->
  in_bounds (length input) l -> length out = nelem (lshape l) ->
  unary_kernel e f input out (unary_metadata l l) =
  Some (map (fun k => f (rd d input (addr l (unravel (lshape l) k)))) (seq 0 (nelem (lshape l)))).
Proof.
  intros e f input out l He Hw Hor Hb Ho. unfold unary_kernel.
  destruct (unary_md l Hw) as [E0 [E1 [E2 [E3 _]]]].
  rewrite E0. cbn [obind]. rewrite E1. cbn [obind]. rewrite E2. cbn [obind]. rewrite E3.
  cbn [obind]. rewrite (off_read l Hw Hor). cbn [obind].
  set (s := lshape l) in *.
  assert (RA : forall k, k < nelem s ->
     nth_error input (addr l (unravel s k)) = Some (rd d input (addr l (unravel s k)))).
  { intros k Hk. apply nth_error_rd. apply Hb. now apply unravel_valid. }
  destruct (c_is_contiguous s (lstrides l)) eqn:Cc.
  - apply par_for_spec; auto. intros k Hk. specialize (RA k Hk).
    unfold s in *. rewrite addr_contig_k in * by auto. now rewrite RA.
  - apply seq_for_total; auto. intros k Hk. specialize (RA k Hk).
    rewrite c_strided_spec by auto. cbn [obind]. unfold addr in *. now rewrite RA.
Qed.
End K.

Lemma contiguous_kernel_spec : forall A (d : A) input out l,
  wf_layout l -> offset_read l -> in_bounds (length input) l -> length out = nelem (lshape l) ->
  contiguous_kernel input out (unary_metadata l l) =
  Some (map (fun k => rd d input (addr l (unravel (lshape l) k))) (seq 0 (nelem (lshape l)))).
Proof.
  intros A d input out l Hw Hor Hb Ho. unfold contiguous_kernel.
  destruct (unary_md l Hw) as [E0 [E1 [E2 [E3 _]]]].
  rewrite E0. cbn [obind]. rewrite E1. cbn [obind]. rewrite E2. cbn [obind]. rewrite E3.
  cbn [obind]. rewrite (off_read l Hw Hor). cbn [obind].
  set (s := lshape l) in *.
  assert (RA : forall k, k < nelem s ->
     nth_error input (addr l (unravel s k)) = Some (rd d input (addr l (unravel s k)))).
  { intros k Hk. apply nth_error_rd. apply Hb. now apply unravel_valid. }
  destruct (c_is_contiguous s (lstrides l)) eqn:Cc.
  - apply seq_for_total; auto. intros k Hk. specialize (RA k Hk).
    unfold s in *. rewrite addr_contig_k in * by auto. auto.
  - apply seq_for_total; auto. intros k Hk. specialize (RA k Hk).
    rewrite c_strided_spec by auto. cbn [obind]. unfold addr in *. auto.
Qed.
