(** Proofs about top-k selection on CUDA. *)
From Coq Require Import List Arith ZArith Lia Bool ZifyBool Permutation.
From Verif Require Import Base IndexSpec LayoutModel ViewSpec LayoutProofs.
From Verif Require Import KernelModel TensorModel TensorSpec KernelProofs TensorProofs ScanModel ScanProofs.
From Verif Require Import MoveModel MoveProofs2 MoveProofs3 SortModel SortProofs PermFacts.
From Verif Require Import TileSpec LaunchModel LaunchSpec LaunchProofs LaunchProofs2 CudaIndexProofs2 CudaTopkModel.
Import ListNotations.

Section Sel.
Variables (A K : Type) (gt : K -> K -> bool).
Hypothesis gt_asym : forall a b, gt a b = true -> gt b a = false.
Hypothesis gt_neg : forall a b c, gt a b = false -> gt b c = false -> gt a c = false.
Notation E := (K * nat)%type.
Notation bet := (better gt).

Lemma best_loop_spec : forall lg (arr : list E) c j i best, j + c = length arr -> i <= best < j ->
  (forall p x y, i <= p < j -> nth_error arr p = Some x -> nth_error arr best = Some y -> bet lg x y = false) ->
  exists b, best_loop gt lg arr (seq j c) best = Some b /\ i <= b < length arr /\
    forall p x y, i <= p -> nth_error arr p = Some x -> nth_error arr b = Some y -> bet lg x y = false.
Proof.
  intros lg arr. induction c as [|c IH]; intros j i best Hc Hb Inv; cbn [seq best_loop].
  - exists best. split; [reflexivity|]. split; [lia|]. intros p x y Hp Hx Hy.
    assert (p < length arr) by (apply nth_error_Some; congruence). apply (Inv p); auto. lia.
  - destruct (nth_error arr j) as [a|] eqn:Ea; [|apply nth_error_None in Ea; lia].
    destruct (nth_error arr best) as [b|] eqn:Eb; [|apply nth_error_None in Eb; lia]. cbn [obind].
    apply IH; [lia|destruct (bet lg a b); lia|]. intros p x y Hp Hx Hy.
    destruct (bet lg a b) eqn:B.
    + rewrite Ea in Hy. injection Hy as <-. destruct (Nat.eq_dec p j) as [->|N].
      * rewrite Ea in Hx. injection Hx as <-. now apply better_irr.
      * apply (better_neg _ gt gt_neg lg x b a); [|now apply better_asym]. apply (Inv p); auto. lia.
    + rewrite Eb in Hy. injection Hy as <-. destruct (Nat.eq_dec p j) as [->|N]; [congruence|].
      apply (Inv p); auto. lia.
Qed.

(** the first [i] cells hold what they should *)
Definition ranked (lg : bool) (i : nat) (arr : list E) : Prop :=
  forall p q x y, p < i -> p < q -> nth_error arr p = Some x -> nth_error arr q = Some y -> bet lg y x = false.

Lemma select_loop_spec : forall lg c i (arr : list E), i + c <= length arr -> ranked lg i arr ->
  exists arr', select_loop gt lg arr (seq i c) = Some arr' /\ Permutation arr arr' /\ ranked lg (i + c) arr'.
Proof.
  intros lg. induction c as [|c IH]; intros i arr Hc R; cbn [seq select_loop].
  - exists arr. rewrite Nat.add_0_r. auto.
  - destruct (best_loop_spec lg arr (length arr - S i) (S i) i i) as (b & -> & Hb & BB); [lia|lia| |].
    { intros p x y Hp Hx Hy. assert (p = i) by lia. subst p. rewrite Hx in Hy. injection Hy as <-. now apply better_irr. }
    cbn [obind].
    assert (SW : exists arr', (if b =? i then Some arr else c_swap arr i b) = Some arr' /\
                 seg E i (length arr - 1) arr arr' /\ nth_error arr' i = nth_error arr b).
    { destruct (b =? i) eqn:B.
      - exists arr. split; [reflexivity|]. split; [apply seg_refl|]. apply Nat.eqb_eq in B. now subst b.
      - destruct (nth_error arr i) as [x|] eqn:Ex; [|apply nth_error_None in Ex; lia].
        destruct (nth_error arr b) as [y|] eqn:Ey; [|apply nth_error_None in Ey; lia].
        destruct (swap_seg E arr i b i (length arr - 1) x y) as [S1 S2]; auto; try lia.
        eexists. split; [exact S1|]. split; [exact S2|].
        rewrite nth_error_upd_neq by lia. apply nth_error_upd_eq. lia. }
    destruct SW as (arr' & -> & (P & L & O & I) & EI). cbn [obind].
    destruct (IH (S i) arr') as (arr2 & E2 & P2 & R2); [lia| |].
    + intros p q x y Hp Hq Hx Hy. assert (Lq : q < length arr') by (apply nth_error_Some; congruence).
      destruct (Nat.eq_dec p i) as [->|NP].
      * rewrite EI in Hx. destruct (I q y) as (q0 & Q1 & Q2); [lia|exact Hy|]. apply (BB q0); auto. lia.
      * rewrite O in Hx by lia. destruct (Nat.lt_ge_cases q i) as [C|C].
        -- rewrite O in Hy by lia. apply (R p q); auto. lia.
        -- destruct (I q y) as (q0 & Q1 & Q2); [lia|exact Hy|]. apply (R p q0); auto; lia.
    + exists arr2. split; [exact E2|]. split; [now transitivity arr'|]. now rewrite Nat.add_succ_r.
Qed.

Variable key : A -> K.

(** A prefix of the entries of a row in order is the top of that row. *)
Lemma prefix_top : forall lg row k arr, k <= length row ->
  Permutation (combine (map key row) (seq 0 (length row))) arr -> ranked lg k arr ->
  top_of A K gt key lg true k row (map snd (firstn k arr)) /\
  forall i, i < k -> exists j v, nth_error arr i = Some (key v, j) /\ nth_error row j = Some v /\
     nth_error (map snd (firstn k arr)) i = Some j.
Proof.
  intros lg row k arr Hk R2 R. set (temp := combine (map key row) (seq 0 (length row)) : list E) in *.
  assert (LT : length temp = length row) by (unfold temp; rewrite combine_length, map_length, seq_length; lia).
  assert (LA : length arr = length row) by (rewrite <- (Permutation_length R2); auto).
  assert (HT : forall i, i < length row -> exists v, nth_error row i = Some v /\ nth_error temp i = Some (key v, i)).
  { intros i Li. unfold temp. rewrite nth_error_combine', nth_error_map, nth_error_seq by auto.
    destruct (nth_error row i) as [v|] eqn:Ev; [|apply nth_error_None in Ev; lia]. exists v. auto. }
  assert (HE : forall e, In e arr -> exists v, nth_error row (snd e) = Some v /\ fst e = key v).
  { intros e He. apply (Permutation_in _ (Permutation_sym R2)) in He. apply In_nth_error in He. destruct He as [i Hi].
    assert (Li : i < length row) by (rewrite <- LT; apply nth_error_Some; congruence).
    destruct (HT i Li) as (v & V & T). rewrite T in Hi. injection Hi as <-. exists v. auto. }
  assert (ND : NoDup (map snd arr)).
  { apply (Permutation_NoDup (Permutation_map snd R2)). unfold temp.
    assert (X : forall X Y (l : list X) (l' : list Y), length l = length l' -> map snd (combine l l') = l').
    { induction l as [|a0 l IH]; intros [|b0 l'] HL; try discriminate; auto. cbn [combine map snd]. f_equal. apply IH. now injection HL. }
    rewrite X by (now rewrite map_length, seq_length). apply seq_NoDup. }
  assert (FN : forall p, p < k -> nth_error (map snd (firstn k arr)) p = option_map snd (nth_error arr p)).
  { intros p Hp. rewrite nth_error_map. f_equal. rewrite <- (firstn_skipn k arr) at 2. symmetry. apply nth_error_app1.
    rewrite firstn_length. lia. }
  assert (LF : length (map snd (firstn k arr)) = k) by (rewrite map_length, firstn_length; lia).
  assert (HJ : forall p j, nth_error (map snd (firstn k arr)) p = Some j ->
     p < k /\ exists v, nth_error arr p = Some (key v, j) /\ nth_error row j = Some v).
  { intros p j Hp. assert (Lp : p < k) by (rewrite <- LF; apply nth_error_Some; congruence). split; [exact Lp|].
    rewrite FN in Hp by exact Lp. destruct (nth_error arr p) as [[a j']|] eqn:Ea; [|discriminate].
    injection Hp as <-. destruct (HE _ (nth_error_In _ _ Ea)) as (v & V1 & V2). cbn in V1, V2. subst a. eauto. }
  split; [|intros i Hi; destruct (nth_error arr i) as [[a j]|] eqn:Ea; [|apply nth_error_None in Ea; lia];
    destruct (HE _ (nth_error_In _ _ Ea)) as (v & V1 & V2); cbn in V1, V2; subst a; exists j, v;
    split; [reflexivity|]; split; [exact V1|]; rewrite FN by exact Hi; now rewrite Ea].
  split; [exact LF|]. split; [|split; [|split]].
  - rewrite <- (firstn_skipn k arr), map_app in ND. revert ND. generalize (map snd (skipn k arr)) (map snd (firstn k arr)). clear.
    intros l0 l. induction l as [|a l IH]; intros H; [constructor|]. inversion H; subst. constructor; [|now apply IH].
    intro X. apply H2. apply in_or_app. auto.
  - intros j Hj. apply In_nth_error in Hj. destruct Hj as [p Hp]. apply HJ in Hp. destruct Hp as (_ & v & _ & V).
    apply nth_error_Some. congruence.
  - intros i j x y Hi Hj Hx Hy. apply In_nth_error in Hi. destruct Hi as [p Hp]. apply HJ in Hp.
    destruct Hp as (Lp & v & V1 & V2). rewrite Hx in V2. injection V2 as <-.
    assert (Lj : j < length row) by (apply nth_error_Some; congruence).
    destruct (HT j Lj) as (w & W1 & W2). rewrite Hy in W1. injection W1 as <-.
    apply nth_error_In in W2. apply (Permutation_in _ R2) in W2. apply In_nth_error in W2. destruct W2 as [q Hq].
    assert (k <= q).
    { destruct (Nat.le_gt_cases k q) as [X|X]; auto. exfalso. apply Hj. apply nth_error_In with q. rewrite FN by exact X. now rewrite Hq. }
    pose proof (R p q _ _ Lp ltac:(lia) V1 Hq) as B. unfold better in B. cbn [fst] in B. exact B.
  - intros _ p q i j x y Hpq Hi Hj Hx Hy. apply HJ in Hi. apply HJ in Hj.
    destruct Hi as (Lp & v & V1 & V2). destruct Hj as (Lq & w & W1 & W2).
    rewrite Hx in V2. injection V2 as <-. rewrite Hy in W2. injection W2 as <-.
    pose proof (R p q _ _ Lp Hpq V1 W1) as B. unfold better in B. cbn [fst] in B. exact B.
Qed.

Lemma select_row_spec : forall lg row k, k <= 64 -> k <= length row ->
  exists c js, select_row key gt lg row k = Some c /\ length c = k /\ top_of A K gt key lg true k row js /\
    forall i, i < k -> exists j v, nth_error js i = Some j /\ nth_error row j = Some v /\ nth_error c i = Some (Some (key v, j)).
Proof.
  intros lg row k H64 Hk. unfold select_row. cbv zeta. rewrite (Nat.min_l k 64) by lia. rewrite (Nat.min_l k) by lia.
  set (temp := combine (map key row) (seq 0 (length row)) : list E) in *.
  assert (LT : length temp = length row) by (unfold temp; rewrite combine_length, map_length, seq_length; lia).
  destruct (select_loop_spec lg k 0 temp) as (arr & -> & P & R); [lia|intros p q x y Hp; lia|]. cbn [obind].
  destruct (prefix_top lg row k arr Hk P R) as [T F]. eexists. eexists. split; [reflexivity|].
  split; [now rewrite map_length, seq_length|]. split; [exact T|]. intros i Hi.
  destruct (F i Hi) as (j & v & F1 & F2 & F3). exists j, v. split; [exact F3|]. split; [exact F2|].
  rewrite nth_error_map_seq by exact Hi. cbn [Nat.add]. now rewrite F1.
Qed.

(* ---------- kernel ---------- *)

Lemma stored_length : forall B ws (out : list (option B)), length (stored ws out) = length out.
Proof. intros B. unfold stored. induction ws as [|w ws IH]; intro out; cbn [fold_left]; auto. rewrite IH. apply upd_length. Qed.
Lemma stored_in : forall B ws (out : list (option B)) q v, q < length out -> In (q, v) ws ->
  (forall u, In (q, u) ws -> u = v) -> nth_error (stored ws out) q = Some v.
Proof.
  intros B ws out q v L. induction ws as [|[p u] ws IH] using rev_ind; [contradiction|]. intros I U.
  unfold stored. rewrite fold_left_app. cbn [fold_left fst snd]. fold (stored ws out).
  destruct (Nat.eq_dec p q) as [->|N].
  - rewrite nth_error_upd_eq by (now rewrite stored_length). f_equal. apply U. apply in_or_app. right. now left.
  - rewrite nth_error_upd_neq by exact N. apply IH.
    + apply in_app_iff in I. destruct I as [I|[I|[]]]; [exact I|congruence].
    + intros u' I'. apply U. apply in_or_app. now left.
Qed.
Lemma stored_out : forall B ws (out : list (option B)) q, (forall u, ~ In (q, u) ws) ->
  nth_error (stored ws out) q = nth_error out q.
Proof.
  intros B ws out q. induction ws as [|[p u] ws IH] using rev_ind; [reflexivity|]. intros U.
  unfold stored. rewrite fold_left_app. cbn [fold_left fst snd]. fold (stored ws out).
  rewrite nth_error_upd_neq.
  - apply IH. intros u' I. apply (U u'). apply in_or_app. now left.
  - intros ->. apply (U u). apply in_or_app. right. now left.
Qed.

Variable back : K -> A.
Variable sched : nat -> list nat.
Hypothesis EN : forall n, over (execute Once n (sched n)).

Lemma in_rows : forall (cells : nat -> list (option E)) k w ids q u,
  (forall t, In t ids -> length (cells t) = w) ->
  In (q, u) (flat_map (fun t => combine (seq (t * k) w) (cells t)) ids) <->
  exists t i, In t ids /\ i < w /\ q = t * k + i /\ nth_error (cells t) i = Some u.
Proof.
  intros cells k w ids q u L. rewrite in_flat_map. split.
  - intros (t & It & I). apply In_nth_error in I. destruct I as [i I]. rewrite nth_error_combine' in I.
    destruct (nth_error (seq (t * k) w) i) as [a|] eqn:Ea; [|discriminate].
    destruct (nth_error (cells t) i) as [b|] eqn:Eb; [|discriminate]. injection I as <- <-.
    assert (Li : i < w) by (rewrite <- (L t It); apply nth_error_Some; congruence).
    rewrite nth_error_seq in Ea by exact Li. injection Ea as <-. exists t, i. auto.
  - intros (t & i & It & Li & -> & C). exists t. split; [exact It|]. apply nth_error_In with i.
    rewrite nth_error_combine', nth_error_seq, C by exact Li. reflexivity.
Qed.

Lemma cuda_topk_spec : forall lg st input l k n m, k <= n -> k <= 64 -> (Z.of_nat m < 2 ^ 32)%Z ->
  loffset l + m * n <= length input ->
  exists vs is_, cuda_topk key gt back sched input (topk_metadata l k n m lg st) = Some (vs, is_) /\
    length vs = m * k /\ length is_ = m * k /\
    forall o, o < m -> exists row js, length row = Nat.min n 64 /\
      (forall i, i < Nat.min n 64 -> nth_error row i = nth_error input (loffset l + (o * n + i))) /\
      top_of A K gt key lg true k row js /\
      forall i, i < k -> exists j v, nth_error js i = Some j /\ nth_error row j = Some v /\
        nth_error vs (o * k + i) = Some (back (key v)) /\ nth_error is_ (o * k + i) = Some (Z.of_nat j).
Proof.
  intros lg st input l k n m Hk H64 Hm Hin. unfold cuda_topk, topk_metadata. cbn [nth_error obind]. cbv zeta.
  replace (negb ((if lg then 1 else 0) =? 0)) with lg by (now destruct lg).
  rewrite (Nat.min_l k 64) by lia.
  set (cells := row_cells key gt input (loffset l) n k lg).
  assert (HC : forall o, o < m -> exists row js, length row = Nat.min n 64 /\
      (forall i, i < Nat.min n 64 -> nth_error row i = nth_error input (loffset l + (o * n + i))) /\
      top_of A K gt key lg true k row js /\ length (cells o) = k /\
      forall i, i < k -> exists j v, nth_error js i = Some j /\ nth_error row j = Some v /\
        nth_error (cells o) i = Some (Some (key v, j))).
  { intros o Ho. assert (Hin2 : loffset l + (o * n + n) <= length input) by nia.
    assert (HR : exists row, mapO (fun i => nth_error input (loffset l + (o * n + i))) (seq 0 (Nat.min n 64)) = Some row /\
       length row = Nat.min n 64 /\ (forall i, i < Nat.min n 64 -> nth_error row i = nth_error input (loffset l + (o * n + i)))).
    { clear - Hin2. destruct input as [|d0 inp] eqn:EI.
      { assert (n = 0) by (cbn in Hin2; lia). subst n. exists []. repeat split. intros i Hi. cbn in Hi. lia. }
      rewrite <- EI in *.
      exists (map (fun i => rd d0 input (loffset l + (o * n + i))) (seq 0 (Nat.min n 64))). split; [|split].
      - apply mapO_total. intros i Hi. apply in_seq in Hi. apply nth_error_rd. lia.
      - now rewrite map_length, seq_length.
      - intros i Hi. rewrite nth_error_map_seq by auto. symmetry. apply nth_error_rd. lia. }
    destruct HR as (row & H1 & H2 & H3).
    destruct (select_row_spec lg row k H64 ltac:(lia)) as (c & js & S1 & S2 & S3 & S4).
    exists row, js. split; [exact H2|]. split; [exact H3|]. split; [exact S3|].
    assert (EC : cells o = c) by (unfold cells, row_cells; rewrite H1; cbn [obind]; now rewrite S1).
    rewrite EC. split; [exact S2|exact S4]. }
  pose proof (once_once m (sched m) Hm (EN m)) as EO. set (ids := log (execute Once m (sched m))) in *. clearbody cells ids.
  assert (IN : forall t, In t ids <-> t < m).
  { intro t. split; intro H.
    - apply (Permutation_in _ EO) in H. apply in_seq in H. lia.
    - apply (Permutation_in _ (Permutation_sym EO)). apply in_seq. lia. }
  assert (LC : forall t, In t ids -> length (cells t) = k).
  { intros t I. apply IN in I. destruct (HC t I) as (row & js & _ & _ & _ & L & _). exact L. }
  set (ws := flat_map _ ids).
  assert (AT : forall o i, o < m -> i < k -> forall e, nth_error (cells o) i = Some e ->
     nth_error (stored ws (repeat None (k * m))) (o * k + i) = Some e).
  { intros o i Ho Hi e C. apply stored_in.
    - rewrite repeat_length. nia.
    - unfold ws. apply (in_rows cells k k ids); [exact LC|]. exists o, i. repeat split; auto. now apply IN.
    - intros u I. unfold ws in I. apply (in_rows cells k k ids) in I; [|exact LC]. destruct I as (t & i' & It & Hi' & Q & C').
      assert (t = o /\ i' = i) as [-> ->].
      { assert (t = o) by nia. split; [assumption|]. subst t. lia. }
      congruence. }
  destruct (all_some_total _ (stored ws (repeat None (k * m)))) as (r & R & M).
  { intros x I. apply In_nth_error in I. destruct I as [q Q].
    assert (LQ : q < k * m) by (rewrite <- (repeat_length (@None E) (k * m)), <- (stored_length _ ws); apply nth_error_Some; congruence).
    assert (K0 : 0 < k) by nia.
    pose proof (Nat.div_mod q k ltac:(lia)) as DM. pose proof (Nat.mod_upper_bound q k ltac:(lia)) as MB.
    assert (DO : q / k < m) by (apply Nat.div_lt_upper_bound; lia).
    destruct (HC _ DO) as (row & js & _ & _ & _ & _ & F). destruct (F _ MB) as (j & v & _ & _ & C).
    pose proof (AT _ _ DO MB _ C) as X. replace (q / k * k + q mod k) with q in X by lia. rewrite X in Q. injection Q as <-. discriminate. }
  rewrite R. cbn [obind]. eexists. eexists. split; [reflexivity|].
  assert (LR : length r = m * k) by (rewrite <- (map_length Some), <- M, stored_length, repeat_length; lia).
  split; [now rewrite map_length|]. split; [now rewrite map_length|].
  intros o Ho. destruct (HC o Ho) as (row & js & H1 & H2 & H3 & H4 & H5). exists row, js.
  split; [exact H1|]. split; [exact H2|]. split; [exact H3|]. intros i Hi. destruct (H5 i Hi) as (j & v & J1 & J2 & J3).
  exists j, v. split; [exact J1|]. split; [exact J2|].
  pose proof (AT o i Ho Hi _ J3) as X. rewrite M, nth_error_map in X.
  rewrite !nth_error_map. destruct (nth_error r (o * k + i)) as [e|]; cbn in X; [|discriminate]. injection X as ->. cbn. auto.
Qed.

(** Tensor level: the last axis of a contiguous tensor. *)
Lemma cuda_t_topk_spec : forall z (t : tensor A) s n k a lg st, good t ->
  is_contiguous (tlay t) = true -> tshape t = s ++ [n] -> axis_ok (length (tshape t)) a ->
  axis_of (length (tshape t)) a = length s -> 0 < k -> k <= n -> k <= 64 -> 0 < nelem s -> (Z.of_nat (nelem s) < 2 ^ 32)%Z ->
  exists v ix, cuda_t_topk key gt back sched z t k a lg st = Ok (v, ix) /\ good v /\ good ix /\
    tshape v = s ++ [k] /\ tshape ix = s ++ [k] /\
    forall o, valid s o -> exists row js, length row = Nat.min n 64 /\
      (forall i, i < Nat.min n 64 -> nth_error row i = elem t (o ++ [i])) /\ top_of A K gt key lg true k row js /\
      forall i, i < k -> exists j x, nth_error js i = Some j /\ elem t (o ++ [j]) = Some x /\
        elem v (o ++ [i]) = Some (back (key x)) /\ elem ix (o ++ [i]) = Some (Z.of_nat j).
Proof.
  intros z t s n k a lg st Hg Hc Hs Ha Hd Hk Hkn H64 Hs0 Hm. unfold cuda_t_topk. fold (tshape t).
  assert (LS : length (tshape t) = S (length s)) by (rewrite Hs, app_length; cbn [length]; lia).
  rewrite LS in *. cbn [Nat.eqb]. rewrite axis_usize_ok by auto. rewrite Hd.
  rewrite Hs, nth_error_app2 by lia. rewrite Nat.sub_diag. cbn [nth_error].
  replace (n <? k) with false by lia. replace (k =? 0) with false by lia.
  replace (S (length s) - 1) with (length s) by lia. rewrite Nat.eqb_refl. cbn [negb bind].
  unfold t_contiguous. rewrite Hc. cbn [bind]. fold (tshape t). rewrite Hs.
  rewrite app_nth2, Nat.sub_diag by lia. cbn [nth].
  replace (firstn (length s) (s ++ [n])) with s by (rewrite firstn_app, Nat.sub_diag, firstn_all; cbn; now rewrite app_nil_r).
  change shape_size with nelem. rewrite upd_at.
  assert (Hlen : loffset (tlay t) + nelem s * n <= length (tstore t)).
  { destruct Hg as [Hw Hb]. assert (V : valid (tshape t) (unravel (tshape t) (nelem (tshape t) - 1))).
    { apply unravel_valid. rewrite Hs, nelem_last. nia. }
    pose proof (Hb _ V) as H. rewrite addr_contiguous in H; auto; [|now apply valid_length].
    rewrite ravel_unravel in H by (rewrite Hs, nelem_last; nia).
    assert (NE : nelem (tshape t) = nelem s * n) by (rewrite Hs; apply nelem_last).
    rewrite NE in H. nia. }
  destruct (cuda_topk_spec lg st (tstore t) (tlay t) k n (nelem s)) as (vs & is_ & E1 & L1 & L2 & H); auto.
  rewrite E1. cbn [ub bind fst snd]. exists (mkT vs (from_shape (s ++ [k]))), (mkT is_ (from_shape (s ++ [k]))).
  assert (NK : nelem (s ++ [k]) = nelem s * k) by (apply nelem_last).
  split; auto. split; [apply from_shape_good; lia|]. split; [apply from_shape_good; lia|]. split; auto. split; auto.
  intros o Vo. destruct (H (ravel s o) (ravel_lt _ _ Vo)) as (row & js & R1 & R2 & R3 & R4).
  assert (RA : forall d i, ravel (s ++ [d]) (o ++ [i]) = ravel s o * d + i).
  { intros d i. rewrite ravel_app by (now apply valid_length). cbn [ravel]. change (nelem []) with 1. rewrite (nelem_last [] d : nelem [d] = _). change (nelem []) with 1. lia. }
  assert (EA : forall i, elem t (o ++ [i]) = nth_error (tstore t) (loffset (tlay t) + (ravel s o * n + i))).
  { intros i. unfold elem. rewrite addr_contiguous; auto.
    - fold (tshape t). now rewrite Hs, RA.
    - apply Hg.
    - fold (tshape t). rewrite LS, app_length, (valid_length _ _ Vo). cbn [length]. lia. }
  assert (EB : forall B (bs : list B) i, elem (mkT bs (from_shape (s ++ [k]))) (o ++ [i]) = nth_error bs (ravel s o * k + i)).
  { intros B bs i. unfold elem. cbn [tlay tstore]. rewrite addr_from_shape.
    - now rewrite RA.
    - rewrite !app_length, (valid_length _ _ Vo). reflexivity. }
  exists row, js. split; [exact R1|]. split; [intros i Hi; now rewrite R2, EA|]. split; [exact R3|].
  intros i Hi. destruct (R4 i Hi) as (j & v & J1 & J2 & J3 & J4). exists j, v. split; [exact J1|].
  split; [|split; now rewrite EB]. rewrite EA, <- J2. symmetry. apply R2. rewrite <- R1. apply nth_error_Some. congruence.
Qed.

End Sel.

Section Many.
Variables (A K : Type) (gt : K -> K -> bool) (key : A -> K) (back : K -> A) (sched : nat -> list nat).
Lemma cuda_topk_many : forall lg st input l k n m, 64 < k -> 0 < m ->
  cuda_topk key gt back sched input (topk_metadata l k n m lg st) = None.
Proof.
  intros lg st input l k n m Hk Hm. unfold cuda_topk, topk_metadata. cbn [nth_error obind]. cbv zeta.
  rewrite (Nat.min_r k 64) by lia. replace (negb ((if lg then 1 else 0) =? 0)) with lg by (now destruct lg).
  set (cells := row_cells key gt input (loffset l) n k lg).
  assert (LC : forall t, length (cells t) = 64).
  { intro t. unfold cells, row_cells. rewrite (Nat.min_r k 64) by lia. destruct (mapO _ _) as [row|]; [|apply repeat_length].
    cbn [obind]. unfold select_row. cbv zeta. rewrite (Nat.min_r k 64) by lia. destruct (select_loop _ _ _ _) as [arr|]; [|apply repeat_length].
    cbn [obind]. now rewrite map_length, seq_length. }
  rewrite (all_some_none _ _ 64); [reflexivity|]. rewrite stored_out.
  - apply nth_error_repeat. nia.
  - intros u I. apply (in_rows K cells k 64) in I; [|auto]. destruct I as (t & i & _ & Hi & Q & _). destruct t; nia.
Qed.

Lemma cuda_t_topk_many : forall z (t : tensor A) s n k a lg st,
  is_contiguous (tlay t) = true -> tshape t = s ++ [n] -> axis_ok (length (tshape t)) a ->
  axis_of (length (tshape t)) a = length s -> k <= n -> 64 < k -> 0 < nelem s ->
  cuda_t_topk key gt back sched z t k a lg st = Panic.
Proof.
  intros z t s n k a lg st Hc Hs Ha Hd Hkn H64 Hs0. unfold cuda_t_topk. fold (tshape t).
  assert (LS : length (tshape t) = S (length s)) by (rewrite Hs, app_length; cbn [length]; lia).
  rewrite LS in *. cbn [Nat.eqb]. rewrite axis_usize_ok by auto. rewrite Hd.
  rewrite Hs, nth_error_app2 by lia. rewrite Nat.sub_diag. cbn [nth_error].
  replace (n <? k) with false by lia. replace (k =? 0) with false by lia.
  replace (S (length s) - 1) with (length s) by lia. rewrite Nat.eqb_refl. cbn [negb bind].
  unfold t_contiguous. rewrite Hc. cbn [bind]. fold (tshape t). rewrite Hs.
  rewrite app_nth2, Nat.sub_diag by lia. cbn [nth].
  replace (firstn (length s) (s ++ [n])) with s by (rewrite firstn_app, Nat.sub_diag, firstn_all; cbn; now rewrite app_nil_r).
  change shape_size with nelem. rewrite cuda_topk_many by auto. reflexivity.
Qed.
End Many.
