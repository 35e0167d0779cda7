From Coq Require Import List Arith ZArith Bool Lia Permutation.
From Verif Require Import Base IndexSpec LayoutModel ViewSpec LayoutProofs KernelModel KernelProofs TensorModel TensorSpec TensorProofs.
From Verif Require Import ScanModel SortModel EinsumModel EinsumProofs2 CountModel CountProofs CountProofs2.
From Verif Require Import TileModel TileSpec TileProofs4 LaunchModel LaunchSpec LaunchProofs BitonicProofs CudaUniqueModel CudaUniqueProofs.
Import ListNotations.

Lemma map_const_repeat : forall X (x : X) k, repeat x k = map (fun _ => x) (seq 0 k).
Proof. intros X x k. generalize 0. induction k as [|k IH]; intro a; [reflexivity|]. cbn. now rewrite <- IH. Qed.

(** ** Runs of equal values *)
Section Runs.
Context {A : Type}.
Variables (same : A -> A -> bool) (v : nat -> A).
Notation rn := (rn same v).
Definition start (i : nat) : bool := match i with 0 => true | S j => negb (same (v (S j)) (v j)) end.
Lemma count_starts : forall i, length (filter start (seq 0 (S i))) = S (rn i).
Proof.
  induction i as [|i IH]; [reflexivity|]. rewrite seq_S, filter_app, app_length, IH. cbn [filter start CountProofs2.rn Nat.add].
  destruct (same (v (S i)) (v i)); cbn; lia.
Qed.
Lemma start_inj : forall i j, start i = true -> start j = true -> rn i = rn j -> i = j.
Proof.
  assert (G : forall i j, i < j -> start j = true -> rn i < rn j).
  { intros i [|j] L S1; [lia|]. cbn [start] in S1. cbn [CountProofs2.rn]. apply negb_true_iff in S1. rewrite S1.
    pose proof (rn_mono same v i j). lia. }
  intros i j SI SJ E. destruct (lt_eq_lt_dec i j) as [[L|L]|L]; [|exact L|]; [pose proof (G i j L SJ)|pose proof (G j i L SI)]; lia.
Qed.
Lemma run_start : forall i r, r <= rn i -> exists j, j <= i /\ start j = true /\ rn j = r.
Proof.
  induction i as [|i IH]; intros r R.
  - exists 0. cbn in *. repeat split; lia.
  - destruct (Nat.eq_dec r (rn (S i))) as [-> | NE].
    + cbn [CountProofs2.rn]. destruct (same (v (S i)) (v i)) eqn:E.
      * destruct (IH (rn i) ltac:(lia)) as (j & J & S1 & R1). exists j. auto.
      * exists (S i). cbn [start CountProofs2.rn]. rewrite E. auto.
    + destruct (IH r) as (j & J & S1 & R1); [|exists j; auto]. pose proof (rn_step same v i). lia.
Qed.
End Runs.

Lemma long_perm : forall n s, (Z.of_nat n <= 2 ^ 31)%Z -> over (execute Long n s) -> Permutation (log (execute Long n s)) (seq 0 n).
Proof. intros n s C O. apply long_once; [|exact O]. rewrite as_u32_id; lia. Qed.
Lemma perm_lt : forall ks n i, Permutation ks (seq 0 n) -> In i ks -> i < n.
Proof. intros ks n i P I. apply (Permutation_in _ P) in I. apply in_seq in I. lia. Qed.
Lemma perm_in : forall ks n i, Permutation ks (seq 0 n) -> i < n -> In i ks.
Proof. intros ks n i P I. apply (Permutation_in _ (Permutation_sym P)). apply in_seq. lia. Qed.

(** ** The kernels after the sort *)
Section After.
Context {A : Type}.
Variables (same : A -> A -> bool) (z : A).
Variable sched : launch -> nat -> list nat.
Variables (n padded : nat) (v : nat -> A) (o : nat -> nat).
Hypothesis np : n <= padded.
Hypothesis n31 : (Z.of_nat n <= 2 ^ 31)%Z.
Hypothesis n_pos : 0 < n.
Hypothesis ends : forall l k, (Z.of_nat k <= 2 ^ 31)%Z -> over (execute Long k (sched l k)).
Notation sorted := (map v (seq 0 padded)).
Notation places := (map o (seq 0 padded)).
Notation start := (start same v).
Notation rn := (rn same v).

Lemma starts_at : forall i, i < n -> starts same sorted i = Some (start i).
Proof.
  intros [|i] I; [reflexivity|]. unfold starts. cbn [Nat.eqb]. replace (S i - 1) with i by lia.
  rewrite !nth_error_seq_map by lia. reflexivity.
Qed.
Lemma count_loop : forall ks c, (forall i, In i ks -> i < n) -> (Z.of_nat (c + length ks) < 2 ^ 32)%Z ->
  loopO (fun tid count => let? b := starts same sorted tid in Some (if b : bool then as_u32 (S count) else count)) ks c =
  Some (c + length (filter start ks)).
Proof.
  induction ks as [|x ks IH]; intros c B L; [cbn; f_equal; lia|]. cbn [loopO]. rewrite starts_at by (apply B; now left). cbn [obind filter].
  cbn [length] in L. destruct (start x).
  - rewrite as_u32_id by lia. rewrite IH; [cbn [length]; f_equal; lia|intros i I; apply B; now right|lia].
  - rewrite IH; [reflexivity|intros i I; apply B; now right|lia].
Qed.
Lemma count_spec : cuda_unique_count same sched sorted n = Some (S (rn (n - 1))).
Proof.
  unfold cuda_unique_count. pose proof (long_perm n _ n31 (ends ToCount n n31)) as P. rewrite count_loop.
  - rewrite (Permutation_filter_len _ _ _ _ P). replace n with (S (n - 1)) at 1 by lia. now rewrite count_starts.
  - intros i I. exact (perm_lt _ _ _ P I).
  - rewrite (Permutation_length P), seq_length. lia.
Qed.
Lemma mark_loop : forall ks, (forall i, In i ks -> i < n) ->
  loopO (fun tid marks => let? b := starts same sorted tid in c_store marks tid b) ks (repeat false n) =
  Some (map (fun i => mem i ks && start i) (seq 0 n)).
Proof.
  induction ks as [|x ks IH] using rev_ind; intro B; [cbn [loopO mem existsb andb]; now rewrite map_const_repeat|].
  rewrite loopO_snoc, IH by (intros i I; apply B; apply in_or_app; now left). cbn [obind].
  assert (X : x < n) by (apply B; apply in_or_app; right; now left).
  rewrite starts_at by exact X. cbn [obind]. rewrite store_seq_map by exact X. f_equal. apply map_seq_ext. intros i I.
  rewrite mem_app. destruct (Nat.eqb_spec i x) as [-> | N]; rewrite ?orb_true_r, ?orb_false_r; reflexivity.
Qed.
Lemma mark_spec : cuda_unique_mark same sched sorted n (repeat false n) = Some (map start (seq 0 n)).
Proof.
  unfold cuda_unique_mark. pose proof (long_perm n _ n31 (ends ToMark n n31)) as P. rewrite mark_loop by (intros i I; exact (perm_lt _ _ _ P I)).
  f_equal. apply map_seq_ext. intros i I. now rewrite (mem_perm _ _ _ P I).
Qed.
Lemma prefix_spec : cuda_unique_prefix (map start (seq 0 n)) n (repeat 0 n) = Some (map rn (seq 0 n)).
Proof.
  unfold cuda_unique_prefix.
  assert (G : forall i, i <= n -> loopO (fun i (s : nat * list nat) =>
    let? b := nth_error (map start (seq 0 n)) i in
    if b : bool then let? idx := c_store (snd s) i (fst s) in Some (S (fst s), idx)
    else if fst s =? 0 then None else let? idx := c_store (snd s) i (fst s - 1) in Some (fst s, idx))
    (seq 0 i) (0, repeat 0 n) = Some (match i with 0 => 0 | S j => S (rn j) end, map (fun k => if k <? i then rn k else 0) (seq 0 n))).
  { induction i as [|i IH]; intro L.
    - cbn [seq loopO]. now rewrite map_const_repeat.
    - rewrite seq_S, loopO_snoc, IH by lia. cbn [obind Nat.add fst snd]. rewrite nth_error_seq_map by lia. cbn [obind].
      assert (M : forall x, x = rn i -> map (fun k => if k =? i then x else if k <? i then rn k else 0) (seq 0 n) = map (fun k => if k <? S i then rn k else 0) (seq 0 n)).
      { intros x ->. apply map_seq_ext. intros k K. destruct (Nat.eqb_spec k i) as [-> | N]; [now replace (i <? S i) with true by (symmetry; apply Nat.ltb_lt; lia)|].
        destruct (Nat.ltb_spec k i), (Nat.ltb_spec k (S i)); auto; lia. }
      destruct i as [|j].
      + cbn [CudaUniqueProofs2.start Nat.eqb]. rewrite store_seq_map by lia. cbn [obind]. rewrite M by reflexivity. reflexivity.
      + cbn [CudaUniqueProofs2.start]. cbn [CountProofs2.rn] in *. destruct (same (v (S j)) (v j)) eqn:E; cbn [negb].
        * cbn [Nat.eqb]. rewrite store_seq_map by lia. cbn [obind]. rewrite M by lia. reflexivity.
        * rewrite store_seq_map by lia. cbn [obind]. rewrite M by reflexivity. reflexivity. }
  rewrite G by lia. cbn [obind snd]. f_equal. apply map_seq_ext. intros k K. now replace (k <? n) with true by (symmetry; apply Nat.ltb_lt; lia).
Qed.

Notation cnt := (S (rn (n - 1))).
Lemma rn_cnt : forall i, i < n -> rn i < cnt.
Proof. intros i I. pose proof (rn_mono same v i (n - 1)). lia. Qed.
Notation turn := (build_turn sorted places (map start (seq 0 n)) (map rn (seq 0 n))).
Lemma turn_eq : forall i values inverse counts c, i < n -> length values = cnt -> length inverse = n -> length counts = cnt ->
  nth_error counts (rn i) = Some c ->
  turn i (values, inverse, counts) =
  if o i <? n then Some (if start i then upd values (rn i) (v i) else values, upd inverse (o i) (rn i), upd counts (rn i) (S c)) else None.
Proof.
  intros i values inverse counts c I LV LI LC C. pose proof (rn_cnt i I) as RC. unfold build_turn.
  rewrite !nth_error_seq_map by lia. cbn [obind]. destruct (Nat.ltb_spec (o i) n) as [O|O].
  - rewrite (c_store_some _ inverse) by lia. cbn [obind]. destruct (start i).
    + rewrite (c_store_some _ values) by lia. cbn [obind]. rewrite C. cbn [obind]. rewrite c_store_some by lia. reflexivity.
    + cbn [obind]. rewrite C. cbn [obind]. rewrite c_store_some by lia. reflexivity.
  - unfold c_store at 1. rewrite (proj2 (Nat.ltb_ge (o i) (length inverse))) by lia. reflexivity.
Qed.

(** A position outside the input makes the kernel write outside its buffer. *)
Lemma build_out : forall ks i, NoDup ks -> (forall k, In k ks -> k < n) -> In i ks -> n <= o i ->
  forall values inverse counts, length values = cnt -> length inverse = n -> length counts = cnt ->
  loopO turn ks (values, inverse, counts) = None.
Proof.
  induction ks as [|x ks IH]; intros i ND B I O values inverse counts LV LI LC; [destruct I|].
  cbn [loopO]. assert (X : x < n) by (apply B; now left). pose proof (rn_cnt x X) as RC.
  destruct (nth_error counts (rn x)) as [c|] eqn:C; [|apply nth_error_None in C; lia].
  rewrite (turn_eq x _ _ _ c X LV LI LC C). destruct (Nat.ltb_spec (o x) n) as [OX|OX]; [|reflexivity]. cbn [obind].
  destruct I as [-> | I]; [lia|]. inversion ND; subst. apply (IH i); auto.
  - intros k K. apply B. now right.
  - destruct (start x); now rewrite ?upd_length.
  - now rewrite upd_length.
  - now rewrite upd_length.
Qed.

Hypothesis o_lt : forall i, i < n -> o i < n.
Hypothesis o_inj : forall i j, i < n -> j < n -> o i = o j -> i = j.
Record built (done : list nat) (s : list A * list nat * list nat) : Prop := {
  b_lv : length (fst (fst s)) = cnt; b_li : length (snd (fst s)) = n; b_lc : length (snd s) = cnt;
  b_val : forall j, In j done -> start j = true -> nth_error (fst (fst s)) (rn j) = Some (v j);
  b_inv : forall j, In j done -> nth_error (snd (fst s)) (o j) = Some (rn j);
  b_cnt : forall r, r < cnt -> nth_error (snd s) r = Some (length (filter (fun j => rn j =? r) done)) }.
Lemma build_loop : forall ks, NoDup ks -> (forall k, In k ks -> k < n) ->
  exists s, loopO turn ks (repeat z cnt, repeat 0 n, repeat 0 cnt) = Some s /\ built ks s.
Proof.
  induction ks as [|x ks IH] using rev_ind; intros ND B.
  - eexists. split; [reflexivity|]. constructor; cbn [fst snd filter length]; [apply repeat_length|apply repeat_length|apply repeat_length|intros j []|intros j []|].
    intros r R. rewrite map_const_repeat. now rewrite nth_error_seq_map by exact R.
  - pose proof (NoDup_remove_2 _ _ _ ND) as NI. apply NoDup_remove_1 in ND. rewrite app_nil_r in ND, NI.
    destruct IH as ([[values inverse] counts] & E & [LV LI LC BV BI BC]); [exact ND|intros k K; apply B; apply in_or_app; now left|].
    cbn [fst snd] in LV, LI, LC, BV, BI, BC.
    assert (X : x < n) by (apply B; apply in_or_app; right; now left). pose proof (rn_cnt x X) as RC. pose proof (o_lt x X) as OX.
    rewrite loopO_snoc, E. cbn [obind]. rewrite (turn_eq x _ _ _ _ X LV LI LC (BC _ RC)).
    rewrite (proj2 (Nat.ltb_lt _ _) OX). eexists. split; [reflexivity|]. constructor; cbn [fst snd].
    + destruct (start x); now rewrite ?upd_length.
    + now rewrite upd_length.
    + now rewrite upd_length.
    + intros j J SJ. apply in_app_or in J as [J|[<- | []]].
      * destruct (start x) eqn:SX; [|now apply BV]. rewrite nth_error_upd_neq; [now apply BV|].
        intro F. apply (start_inj same v) in F; [subst; contradiction|exact SX|exact SJ].
      * rewrite SJ. apply nth_error_upd_eq. lia.
    + intros j J. apply in_app_or in J as [J|[<- | []]].
      * rewrite nth_error_upd_neq; [now apply BI|]. intro F. apply o_inj in F; [subst; contradiction|exact X|]. apply B. apply in_or_app. now left.
      * apply nth_error_upd_eq. lia.
    + intros r R. rewrite filter_app, app_length. cbn [filter]. destruct (Nat.eqb_spec (rn x) r) as [<- | N].
      * rewrite nth_error_upd_eq by lia. f_equal. cbn [length]. lia.
      * rewrite nth_error_upd_neq by exact N. rewrite BC by exact R. f_equal. cbn [length]. lia.
Qed.
Lemma build_spec : exists values inverse counts,
  cuda_unique_build sched sorted places (map start (seq 0 n)) (map rn (seq 0 n)) n (repeat z cnt, repeat 0 n, repeat 0 cnt) = Some (values, inverse, counts) /\
  length values = cnt /\ length inverse = n /\ length counts = cnt /\
  (forall r, r < cnt -> exists j, j < n /\ rn j = r /\ nth_error values r = Some (v j)) /\
  (forall j, j < n -> nth_error inverse (o j) = Some (rn j)) /\
  (forall r, r < cnt -> nth_error counts r = Some (tally same v n r)).
Proof.
  pose proof (long_perm n _ n31 (ends ToBuild n n31)) as P. unfold cuda_unique_build.
  destruct (build_loop (log (execute Long n (sched ToBuild n)))) as ([[values inverse] counts] & E & [LV LI LC BV BI BC]).
  { apply (Permutation_NoDup (Permutation_sym P)), seq_NoDup. } { intros k K. exact (perm_lt _ _ _ P K). }
  exists values, inverse, counts. cbn [fst snd] in *. do 4 (split; [assumption|]). split; [|split].
  - intros r R. destruct (run_start same v (n - 1) r) as (j & J & SJ & RJ); [lia|]. exists j. split; [lia|]. split; [exact RJ|].
    rewrite <- RJ. apply BV; [|exact SJ]. apply (perm_in _ _ _ P). lia.
  - intros j J. apply BI. exact (perm_in _ _ _ P J).
  - intros r R. rewrite BC by exact R. f_equal. unfold tally. apply Permutation_filter_len. exact P.
Qed.
End After.
