(** Proofs about nonzero on CUDA. *)
From Coq Require Import List Arith ZArith Bool Lia ZifyBool Permutation.
From Verif Require Import Base IndexSpec LayoutModel ViewSpec LayoutProofs KernelModel KernelProofs TensorModel
  TensorSpec TensorProofs ScanModel SortModel SortProofs EinsumModel EinsumProofs2 CountModel CountProofs.
From Verif Require Import TileModel TileSpec TileProofs4 LaunchModel LaunchSpec LaunchProofs CudaNonzeroModel.
Import ListNotations.

Lemma filter_perm : forall X (f : X -> bool) a b, Permutation a b -> Permutation (filter f a) (filter f b).
Proof.
  intros X f a b P. induction P as [|x a b P IH|x y a|a b c P1 IH1 P2 IH2]; cbn [filter].
  - constructor.
  - destruct (f x); [now constructor|exact IH].
  - destruct (f x), (f y); try apply Permutation_refl. constructor.
  - now transitivity (filter f b).
Qed.

Section NZ.
Context {A : Type}.
Variable nz : A -> bool.

Lemma cuda_count_loop : forall (f : nat -> option A) xs ks c,
  (forall k, In k ks -> f k = nth_error xs k /\ k < length xs) -> (Z.of_nat (c + length ks) < 2 ^ 32)%Z ->
  loopO (fun id count => let? x := f id in Some (if nz x then as_u32 (S count) else count)) ks c =
  Some (c + length (filter (nzk nz xs) ks)).
Proof.
  intros f xs. induction ks as [|k ks IH]; intros c H B; cbn [loopO filter].
  - simpl. f_equal. lia.
  - destruct (H k (or_introl eq_refl)) as [E L]. rewrite E. cbn [length] in B.
    destruct (nth_error xs k) as [x|] eqn:X; [|apply nth_error_None in X; lia]. cbn [obind].
    assert (nzk nz xs k = nz x) as NK by (unfold nzk; now rewrite X). rewrite NK.
    destruct (nz x).
    + rewrite as_u32_id by lia. rewrite IH; [|intros; apply H; now right|lia]. cbn [length]. f_equal. lia.
    + apply IH; [intros; apply H; now right|lia].
Qed.

Lemma cuda_fill_loop : forall (f : nat -> option A) xs s ks n pre rest,
  (forall k, In k ks -> f k = nth_error xs k /\ k < length xs /\ k < nelem s) -> (Z.of_nat (n + length ks) < 2 ^ 32)%Z ->
  length pre = n * length s ->
  length rest = length (filter (nzk nz xs) ks) * length s ->
  loopO (fun id (st : nat * list (option nat)) =>
    let? m := c_coords (rev s) id [] in
    let? x := f id in
    if nz x then
      let? out := store_from (snd st) (fst st * length s) (map Some m) in Some (as_u32 (S (fst st)), out)
    else Some st) ks (n, pre ++ rest) =
  Some (n + length (filter (nzk nz xs) ks), pre ++ map Some (flat_map (unravel s) (filter (nzk nz xs) ks))).
Proof.
  intros f xs s. induction ks as [|k ks IH]; intros n pre rest H B LP LR; cbn [loopO].
  - simpl in LR. destruct rest; [|discriminate]. simpl. f_equal. f_equal. lia.
  - destruct (H k (or_introl eq_refl)) as (E & L & K). rewrite c_coords_spec by auto. cbn [obind].
    rewrite E. cbn [filter length] in *.
    destruct (nth_error xs k) as [x|] eqn:X; [|apply nth_error_None in X; lia]. cbn [obind].
    assert (nzk nz xs k = nz x) as NK by (unfold nzk; now rewrite X). rewrite NK in *.
    destruct (nz x).
    + cbn [fst snd]. cbn [length] in LR.
      assert (exists a b, rest = a ++ b /\ length a = length s) as (a & b & -> & LA).
      { exists (firstn (length s) rest), (skipn (length s) rest). rewrite firstn_skipn. split; auto.
        rewrite firstn_length. lia. }
      rewrite app_length in LR.
      rewrite store_from_app by (rewrite ?map_length, ?unravel_length; lia). cbn [obind].
      rewrite app_assoc. rewrite as_u32_id by lia. rewrite IH.
      * cbn [length flat_map]. rewrite <- app_assoc, map_app. do 2 f_equal. lia.
      * intros; apply H; now right.
      * lia.
      * rewrite app_length, map_length, unravel_length. lia.
      * lia.
    + apply IH; auto; [intros; apply H; now right|lia].
Qed.

Lemma all_some_known : forall X (l : list X), all_some (map Some l) = Some l.
Proof. induction l as [|x l IH]; [reflexivity|]. cbn. now rewrite IH. Qed.

(** The rows in the order in which the threads of the second launch come to them. *)
Definition nz_at (t : tensor A) (k : nat) : bool :=
  match elem t (unravel (tshape t) k) with Some x => nz x | None => false end.
Definition found (sched : nat -> list nat) (t : tensor A) : list (list nat) :=
  map (unravel (tshape t)) (filter (nz_at t) (log (execute Long (nelem (tshape t)) (sched (nelem (tshape t)))))).

Lemma cuda_t_nonzero_spec : forall sched sched' t, good t -> length (tshape t) <= 16 ->
  (Z.of_nat (nelem (tshape t)) <= 2 ^ 32 - 256)%Z ->
  over (execute Long (nelem (tshape t)) (sched (nelem (tshape t)))) ->
  over (execute Long (nelem (tshape t)) (sched' (nelem (tshape t)))) ->
  Permutation (found sched' t) (nz_rows nz t) /\
  exists r, cuda_t_nonzero nz sched sched' t = Ok r /\ good r /\ tlay r = from_shape [length (nz_rows nz t); length (tshape t)] /\
    tstore r = concat (found sched' t) /\
    forall n i d x, nth_error (found sched' t) n = Some i -> nth_error i d = Some x -> elem r [n; d] = Some x.
Proof.
  intros sched sched' t G R HN OV OV'. destruct (elements A t G) as (xs & LX & EX).
  pose proof (nz_rows_eq nz t xs EX) as NR.
  assert (U : Z.of_nat (as_u32 (nelem (tshape t))) = Z.of_nat (nelem (tshape t))) by (rewrite as_u32_id; lia).
  assert (UB : (Z.of_nat (as_u32 (nelem (tshape t))) <= 2 ^ 32 - 256)%Z) by lia.
  pose proof (long_once _ _ UB OV) as P. pose proof (long_once _ _ UB OV') as P'.
  unfold found. set (s := tshape t) in *. set (ks := log (execute Long (nelem s) (sched (nelem s)))) in *.
  set (ks' := log (execute Long (nelem s) (sched' (nelem s)))) in *. unfold each_once in P, P'.
  assert (IK : forall l, Permutation l (seq 0 (nelem s)) -> forall k, In k l -> k < nelem s).
  { intros l PL k I. apply (Permutation_in _ PL) in I. apply in_seq in I. lia. }
  assert (FE : filter (nz_at t) ks' = filter (nzk nz xs) ks').
  { apply filter_ext_in. intros k I. unfold nz_at, nzk. fold s. now rewrite EX by (fold s; now apply (IK ks')). }
  rewrite FE.
  assert (PF : Permutation (filter (nzk nz xs) ks') (filter (nzk nz xs) (seq 0 (nelem s)))) by (now apply filter_perm).
  assert (PF0 : Permutation (filter (nzk nz xs) ks) (filter (nzk nz xs) (seq 0 (nelem s)))) by (now apply filter_perm).
  split; [rewrite NR; now apply Permutation_map|].
  assert (LK : length ks = nelem s) by (rewrite (Permutation_length P); apply seq_length).
  assert (LK' : length ks' = nelem s) by (rewrite (Permutation_length P'); apply seq_length).
  pose proof (proj1 G) as W. unfold cuda_t_nonzero, cuda_nonzero_count, cuda_nonzero_fill.
  rewrite read_view_eq by auto. fold (view_of (tlay t) []). cbn [obind].
  change (v_els (view_of (tlay t) [])) with (nelem s). change (v_shape (view_of (tlay t) [])) with s.
  change (lshape (tlay t)) with s. fold ks ks'.
  rewrite (cuda_count_loop (view_at (tstore t) (view_of (tlay t) [])) xs).
  2:{ intros k I. apply (IK ks P) in I. split; [|lia]. rewrite view_at_elem by (auto; fold s; lia). apply EX. exact I. }
  2:{ lia. }
  cbn [ub bind]. rewrite Nat.add_0_l.
  assert (length (nz_rows nz t) = length (filter (nzk nz xs) ks')) as LN
    by (rewrite NR, map_length; symmetry; now apply Permutation_length).
  assert (length (filter (nzk nz xs) ks) = length (filter (nzk nz xs) ks')) as LC
    by (rewrite (Permutation_length PF0); symmetry; now apply Permutation_length).
  rewrite LC. destruct (length (filter (nzk nz xs) ks') =? 0) eqn:Z.
  - apply Nat.eqb_eq in Z. eexists. split; [reflexivity|]. destruct (filter (nzk nz xs) ks'); [|discriminate]. split; [|split; [|split]].
    + apply from_shape_good. reflexivity.
    + rewrite LN. reflexivity.
    + reflexivity.
    + intros n i d x H. destruct n; discriminate.
  - apply Nat.eqb_neq in Z. replace (length s <=? 16) with true by (symmetry; now apply Nat.leb_le).
    cbn [negb andb].
    rewrite <- (app_nil_l (repeat None _)).
    rewrite (cuda_fill_loop (view_at (tstore t) (view_of (tlay t) [])) xs).
    2:{ intros k I. apply (IK ks' P') in I. split; [|lia]. rewrite view_at_elem by (auto; fold s; lia). apply EX. exact I. }
    2:{ lia. }
    2:{ reflexivity. }
    2:{ apply repeat_length. }
    cbn [obind snd app]. rewrite all_some_known. cbn [ub bind]. eexists. split; [reflexivity|].
    assert (length (flat_map (unravel s) (filter (nzk nz xs) ks')) = length (filter (nzk nz xs) ks') * length s) as LF.
    { clear. induction (filter (nzk nz xs) ks') as [|k l IH]; auto. cbn [flat_map length].
      rewrite app_length, unravel_length. lia. }
    split; [|split; [|split]].
    + apply from_shape_good. rewrite LF. unfold nelem. cbn. lia.
    + cbn [tlay]. now rewrite LN.
    + cbn [tstore]. apply flat_map_concat_map.
    + intros n i d x HN' HD. unfold elem. cbn [tlay tstore]. rewrite addr_from_shape by reflexivity.
      cbn [ravel]. rewrite nth_error_map in HN'.
      destruct (nth_error (filter (nzk nz xs) ks') n) as [k|] eqn:K; [|discriminate].
      cbn in HN'. injection HN' as <-.
      assert (d < length s) as DL. { rewrite <- (unravel_length s k). apply nth_error_Some. congruence. }
      rewrite (nth_error_flat_map_uniform _ _ _ (length s)); try lia; [|intros; apply unravel_length].
      replace (n * nelem [length s] + (d * nelem [] + 0)) with (d + n * length s) by (unfold nelem; simpl; lia).
      rewrite Nat.div_add, Nat.mod_add by lia. rewrite Nat.div_small, Nat.mod_small by lia.
      cbn [Nat.add]. now rewrite K.
Qed.
End NZ.

(** ** The threads in descending order *)
Definition downward (n : nat) : list nat := rev (seq 0 (launched n)) ++ rev (seq 0 (launched n)).

Lemma long_turns : forall n s, NoDup s -> (Z.of_nat n < 2 ^ 32)%Z -> (forall t, In t s -> t < launched n) ->
  log (execute Long n s) = filter (fun t => t <? n) s.
Proof.
  intros n s ND N. induction s as [|t s IH] using rev_ind; intro T; [reflexivity|].
  rewrite exec_log, filter_app, IH; [|apply NoDup_remove_1 in ND; now rewrite app_nil_r in ND|intros u I; apply T; apply in_or_app; now left].
  f_equal. apply NoDup_remove_2 in ND. rewrite app_nil_r in ND.
  rewrite (proj1 (count_occ_not_In Nat.eq_dec s t) ND). cbn [path filter].
  replace (t <? launched n) with true; [reflexivity|]. symmetry. apply Nat.ltb_lt. apply T. apply in_or_app. right. now left.
Qed.

Lemma count_down : forall n t, t < launched n -> count_occ Nat.eq_dec (rev (seq 0 (launched n))) t = 1.
Proof.
  intros n t T. apply (proj1 (NoDup_count_occ' Nat.eq_dec _)).
  - apply NoDup_rev, seq_NoDup.
  - apply -> in_rev. apply in_seq. lia.
Qed.

(** a second turn has nothing to do when there is a thread to every element *)
Lemma idle : forall n s t, (Z.of_nat n <= 2 ^ 32 - 256)%Z -> 1 <= count_occ Nat.eq_dec s t ->
  log (execute Long n (s ++ [t])) = log (execute Long n s).
Proof.
  intros n s t N C. rewrite exec_log. destruct (path _ _ _ _) as [i|] eqn:P; [|now rewrite app_nil_r].
  apply long_path in P; [|rewrite as_u32_id; lia]. destruct P as [T P].
  destruct (launched_bound n) as (B & _). rewrite as_u32_id in B by lia.
  replace (i <? n) with false by (symmetry; apply Nat.ltb_ge; nia). now rewrite app_nil_r.
Qed.
Lemma idles : forall n more s, (Z.of_nat n <= 2 ^ 32 - 256)%Z -> (forall t, In t more -> 1 <= count_occ Nat.eq_dec s t) ->
  log (execute Long n (s ++ more)) = log (execute Long n s).
Proof.
  intros n more. induction more as [|t more IH] using rev_ind; intros s N H; [now rewrite app_nil_r|].
  rewrite app_assoc, idle; [|exact N|].
  - apply IH; [exact N|]. intros u I. apply H. apply in_or_app. now left.
  - rewrite count_occ_app. specialize (H t ltac:(apply in_or_app; right; now left)). lia.
Qed.

Lemma ended : forall n s, (Z.of_nat n <= 2 ^ 32 - 256)%Z -> (forall t, t < launched n -> 2 <= count_occ Nat.eq_dec s t) -> over (execute Long n s).
Proof.
  intros n s N C. apply over_path. intros t T. apply (path_gone _ _ _ 2); [|now apply C].
  cbn [path]. replace (t <? launched n) with true by lia. destruct (t <? n); [|reflexivity]. cbn [advance].
  rewrite stride_small by (rewrite as_u32_id; lia). destruct (launched_bound n) as (B & _). rewrite as_u32_id in B by lia.
  replace (t + launched n <? n) with false by lia. reflexivity.
Qed.

Lemma filter_seq_lt : forall n m, n <= m -> filter (fun t => t <? n) (seq 0 m) = seq 0 n.
Proof.
  intros n m L. replace m with (n + (m - n)) by lia. rewrite seq_app, filter_app.
  assert (T : forall l, (forall t, In t l -> t < n) -> filter (fun t => t <? n) l = l).
  { induction l as [|t l IH]; intro H; [reflexivity|]. cbn [filter]. replace (t <? n) with true by (symmetry; apply Nat.ltb_lt; apply H; now left).
    now rewrite IH by (intros; apply H; now right). }
  rewrite T.
  - rewrite (filter_ext_in _ (fun _ => false)); [|intros t I; apply in_seq in I; lia].
    assert (E : forall l : list nat, filter (fun _ => false) l = []) by (induction l; auto). now rewrite E, app_nil_r.
  - intros t I. apply in_seq in I. lia.
Qed.

Lemma filter_rev' : forall X (f : X -> bool) l, filter f (rev l) = rev (filter f l).
Proof.
  intros X f. induction l as [|x l IH]; [reflexivity|]. cbn [rev filter]. rewrite filter_app, IH. cbn [filter].
  destruct (f x); [reflexivity|now rewrite app_nil_r].
Qed.

Lemma downward_log : forall n, (Z.of_nat n <= 2 ^ 32 - 256)%Z ->
  over (execute Long n (downward n)) /\ log (execute Long n (downward n)) = rev (seq 0 n).
Proof.
  intros n N. split.
  - apply ended; [exact N|]. intros t T. unfold downward. rewrite count_occ_app, !count_down by exact T. lia.
  - unfold downward. rewrite idles; [|exact N|].
    + rewrite long_turns; [|apply NoDup_rev, seq_NoDup|lia|intros t I; apply in_rev in I; apply in_seq in I; lia].
      rewrite filter_rev', filter_seq_lt; [reflexivity|]. destruct (launched_bound n) as (B & _). rewrite as_u32_id in B by lia. exact B.
    + intros t I. apply in_rev in I. apply in_seq in I. rewrite count_down; lia.
Qed.

Definition upward (n : nat) : list nat := seq 0 (launched n) ++ seq 0 (launched n).
Lemma upward_log : forall n, (Z.of_nat n <= 2 ^ 32 - 256)%Z ->
  over (execute Long n (upward n)) /\ log (execute Long n (upward n)) = seq 0 n.
Proof.
  intros n N.
  assert (C : forall t, t < launched n -> count_occ Nat.eq_dec (seq 0 (launched n)) t = 1).
  { intros t T. apply (proj1 (NoDup_count_occ' Nat.eq_dec _) (seq_NoDup (launched n) 0)). apply in_seq. lia. }
  split.
  - apply ended; [exact N|]. intros t T. unfold upward. rewrite count_occ_app, !C by exact T. lia.
  - unfold upward. rewrite idles; [|exact N|].
    + rewrite long_turns; [|apply seq_NoDup|lia|intros t I; apply in_seq in I; lia].
      rewrite filter_seq_lt; [reflexivity|]. destruct (launched_bound n) as (B & _). rewrite as_u32_id in B by lia. exact B.
    + intros t I. apply in_seq in I. rewrite C; lia.
Qed.

Section Orders.
Context {A : Type}.
Variable nz : A -> bool.
Lemma nz_at_rows : forall t : tensor A, nz_rows nz t = map (unravel (tshape t)) (filter (nz_at nz t) (seq 0 (nelem (tshape t)))).
Proof.
  intro t. unfold nz_rows. rewrite all_idx_map_unravel. induction (seq 0 (nelem (tshape t))) as [|k l IH]; [reflexivity|].
  cbn [map filter]. unfold nz_at at 1. destruct (match elem t _ with Some x => nz x | None => false end); cbn [map]; now rewrite IH.
Qed.
Lemma found_downward : forall t : tensor A, (Z.of_nat (nelem (tshape t)) <= 2 ^ 32 - 256)%Z -> found nz downward t = rev (nz_rows nz t).
Proof.
  intros t N. unfold found. rewrite (proj2 (downward_log _ N)), filter_rev', map_rev, nz_at_rows. reflexivity.
Qed.
Lemma found_upward : forall t : tensor A, (Z.of_nat (nelem (tshape t)) <= 2 ^ 32 - 256)%Z -> found nz upward t = nz_rows nz t.
Proof. intros t N. unfold found. rewrite (proj2 (upward_log _ N)), nz_at_rows. reflexivity. Qed.
End Orders.

(** in ascending order: what the CPU gives *)
Lemma cuda_t_nonzero_ascending : forall (A : Type) (nz : A -> bool) sched (t : tensor A), good t -> length (tshape t) <= 16 ->
  (Z.of_nat (nelem (tshape t)) <= 2 ^ 32 - 256)%Z ->
  over (execute Long (nelem (tshape t)) (sched (nelem (tshape t)))) ->
  over (execute Long (nelem (tshape t)) (upward (nelem (tshape t)))) /\
  exists r, cuda_t_nonzero nz sched upward t = Ok r /\ t_nonzero nz t = Ok r.
Proof.
  intros A nz sched t G R N O. split; [now apply upward_log|].
  destruct (cuda_t_nonzero_spec nz sched upward t G R N O (proj1 (upward_log _ N))) as (_ & r & E1 & E2 & E3' & E4 & E5).
  assert (E3 : tshape r = [length (nz_rows nz t); length (tshape t)]) by (unfold tshape at 1; now rewrite E3').
  rewrite found_upward in * by exact N. exists r. split; [exact E1|].
  destruct (t_nonzero_spec nz t G ltac:(lia)) as (r' & F1 & F2 & F3 & F4).
  rewrite F1. f_equal.
  assert (LY : tlay r = tlay r').
  { clear - E1 F1 E3 F3. unfold cuda_t_nonzero in E1. unfold t_nonzero in F1.
    assert (X : tlay r = from_shape (tshape r)).
    { destruct (ub (cuda_nonzero_count _ _ _ _)) as [c| |]; try discriminate. cbn [bind] in E1.
      destruct (c =? 0); [injection E1 as <-; reflexivity|]. destruct (ub (cuda_nonzero_fill _ _ _ _ _)); try discriminate.
      cbn [bind] in E1. injection E1 as <-. reflexivity. }
    assert (Y : tlay r' = from_shape (tshape r')).
    { destruct (ub (nonzero_count _ _ _)) as [c| |]; try discriminate. cbn [bind] in F1.
      destruct (c =? 0); [injection F1 as <-; reflexivity|]. destruct (ub (nonzero_fill _ _ _ _)); try discriminate.
      cbn [bind] in F1. injection F1 as <-. reflexivity. }
    rewrite X, Y, E3, F3. reflexivity. }
  assert (LS : forall q, q < nelem (tshape r) -> nth_error (tstore r) q = nth_error (tstore r') q).
  { intros q Q. pose proof (unravel_valid _ _ Q) as V.
    set (i := unravel (tshape r) q) in *. rewrite E3 in V.
    destruct i as [|n [|d [|? ?]]] eqn:EI; cbn in V; try tauto. destruct V as (V1 & V2 & _).
    destruct (nth_error (nz_rows nz t) n) as [row|] eqn:RW; [|apply nth_error_None in RW; lia].
    assert (LR : length row = length (tshape t)).
    { apply nth_error_In in RW. apply filter_In in RW. destruct RW as [RW _]. apply in_all_idx in RW. now apply valid_length. }
    destruct (nth_error row d) as [x|] eqn:RX; [|apply nth_error_None in RX; lia].
    pose proof (E5 _ _ _ _ RW RX) as X1. pose proof (F4 _ _ _ _ RW RX) as X2. unfold elem in X1, X2.
    assert (LYr : tlay r = from_shape (tshape r)).
    { unfold cuda_t_nonzero in E1. destruct (ub (cuda_nonzero_count _ _ _ _)) as [c| |]; try discriminate. cbn [bind] in E1.
      destruct (c =? 0); [injection E1 as <-; reflexivity|]. destruct (ub (cuda_nonzero_fill _ _ _ _ _)); try discriminate.
      cbn [bind] in E1. injection E1 as <-. reflexivity. }
    rewrite <- LY in X2. rewrite LYr in X1, X2.
    rewrite addr_from_shape in X1, X2 by (rewrite E3; reflexivity).
    replace (ravel (tshape r) [n; d]) with q in X1, X2 by (rewrite <- EI; unfold i; now rewrite ravel_unravel). congruence. }
  assert (LT : forall (u : tensor nat) sch, u = r \/ u = r' -> tshape u = sch -> length (tstore u) = nelem sch).
  { clear - E1 F1 E3 F3 E4 LY G R N O.
    assert (LR : length (tstore r) = nelem (tshape r)).
    { rewrite E4, E3. assert (Q : forall i, In i (nz_rows nz t) -> length i = length (tshape t)).
      { intros i I. apply filter_In in I. destruct I as [I _]. apply in_all_idx in I. now apply valid_length. }
      clear - Q. unfold nelem. cbn [fold_right]. rewrite Nat.mul_1_r. induction (nz_rows nz t) as [|i l IH]; [reflexivity|].
      cbn [concat length]. rewrite app_length, IH, (Q i) by (try (intros; apply Q; now right); now left). lia. }
    intros u sch [->| ->] <-; [exact LR|].
    unfold t_nonzero in F1. destruct (nonzero_count nz (tstore t) _) as [c|] eqn:C; [|discriminate]. cbn [ub bind] in F1.
    destruct (c =? 0) eqn:C0; [injection F1 as <-; reflexivity|].
    destruct (nonzero_fill _ _ _ _) as [o|] eqn:FI; [|discriminate]. cbn [ub bind] in F1. injection F1 as <-.
    cbn [tstore]. unfold tshape. cbn [tlay from_shape lshape].
    unfold nonzero_fill in FI. rewrite read_view_eq in FI by apply G. cbn [obind] in FI.
    destruct (negb _ && negb _); [discriminate|].
    match type of FI with obind (loopO ?f ?l ?s0) _ = _ =>
      assert (INV : forall l' s1 s2, loopO f l' s1 = Some s2 -> length (snd s2) = length (snd s1)) end.
    { induction l' as [|k l' IH]; intros s1 s2 H; cbn [loopO] in H; [now injection H as <-|].
      destruct (c_coords _ _ _) as [m|]; [|discriminate]. cbn [obind] in H. destruct (view_at _ _ _) as [x|]; [|discriminate]. cbn [obind] in H.
      destruct (nz x); [|now apply IH in H].
      destruct (SortModel.store_from _ _ _) as [out|] eqn:SF; [|discriminate]. cbn [obind] in H. apply IH in H. cbn [snd] in H. rewrite H.
      clear - SF. revert SF. generalize (fst s1 * length (v_shape (view_of (tlay t) []))) as p. intro p. change (v_shape _) with (lshape (tlay t)).
      generalize (fst s1 * length (lshape (tlay t))) as p'. intros p' SF. revert p' SF. generalize (snd s1) as o1. revert out.
      induction m as [|v m IH]; intros out o1 p' SF; cbn [SortModel.store_from] in SF; [now injection SF as <-|].
      unfold c_store in SF. destruct (p' <? length o1); [|discriminate]. cbn [obind] in SF. apply IH in SF. now rewrite upd_length in SF. }
    destruct (loopO _ _ _) as [s2|] eqn:LP in FI; [|discriminate]. cbn [obind] in FI. injection FI as <-. apply INV in LP. cbn [snd] in LP.
    rewrite LP, repeat_length. unfold nelem. cbn [fold_right]. lia. }
  destruct r as [sr lr], r' as [sr' lr']. cbn [tlay] in LY. subst lr'. f_equal. apply list_ext. intro q.
  destruct (Nat.lt_ge_cases q (nelem (tshape (mkT sr lr)))) as [Q|Q]; [symmetry; exact (LS q Q)|].
  assert (L1 : length sr = nelem (tshape (mkT sr lr))) by (exact (LT (mkT sr lr) _ (or_introl eq_refl) eq_refl)).
  assert (L2 : length sr' = nelem (tshape (mkT sr' lr))) by (exact (LT (mkT sr' lr) _ (or_intror eq_refl) eq_refl)).
  change (tshape (mkT sr' lr)) with (tshape (mkT sr lr)) in L2.
  rewrite !(proj2 (nth_error_None _ _)); auto; lia.
Qed.

Lemma lists_differ : forall (a b : list nat), length a = length b -> a <> b ->
  exists d x y, nth_error a d = Some x /\ nth_error b d = Some y /\ x <> y.
Proof.
  induction a as [|x a IH]; intros [|y b] L NE; try discriminate; [congruence|].
  destruct (Nat.eq_dec x y) as [->|XY].
  - destruct (IH b) as (d & u & v & H); [now injection L|congruence|]. exists (S d), u, v. exact H.
  - exists 0, x, y. auto.
Qed.

Lemma nz_rows_nodup : forall A (nz : A -> bool) (t : tensor A), NoDup (nz_rows nz t).
Proof.
  intros A nz t. unfold nz_rows. apply NoDup_filter. rewrite all_idx_map_unravel.
  assert (I : forall l, NoDup l -> (forall k, In k l -> k < nelem (tshape t)) -> NoDup (map (unravel (tshape t)) l)).
  { induction 1 as [|k l NI ND IH]; intro B; [constructor|]. cbn [map]. constructor.
    - intro M. apply in_map_iff in M. destruct M as (k' & E & I). apply NI.
      rewrite <- (ravel_unravel (tshape t) k) by (apply B; now left). rewrite <- E, ravel_unravel by (apply B; now right). exact I.
    - apply IH. intros; apply B; now right. }
  apply I; [apply seq_NoDup|]. intros k K. apply in_seq in K. lia.
Qed.

Lemma cuda_t_nonzero_orders : forall (A : Type) (nz : A -> bool) (t : tensor A), good t -> length (tshape t) <= 16 ->
  (Z.of_nat (nelem (tshape t)) <= 2 ^ 32 - 256)%Z ->
  2 <= length (filter (fun i => match elem t i with Some x => nz x | None => false end) (all_idx (tshape t))) ->
  over (execute Long (nelem (tshape t)) (upward (nelem (tshape t)))) /\
  over (execute Long (nelem (tshape t)) (downward (nelem (tshape t)))) /\
  exists r r' d, cuda_t_nonzero nz upward upward t = Ok r /\ cuda_t_nonzero nz upward downward t = Ok r' /\ elem r [0; d] <> elem r' [0; d].
Proof.
  intros A nz t G R N TWO. fold (nz_rows nz t) in TWO.
  destruct (upward_log _ N) as [OU _]. destruct (downward_log _ N) as [OD _].
  split; [exact OU|]. split; [exact OD|].
  destruct (cuda_t_nonzero_spec nz upward upward t G R N OU OU) as (_ & r & E1 & _ & _ & _ & E2).
  destruct (cuda_t_nonzero_spec nz upward downward t G R N OU OD) as (_ & r' & F1 & _ & _ & _ & F2).
  rewrite found_upward in E2 by exact N. rewrite found_downward in F2 by exact N.
  pose proof (nz_rows_nodup A nz t) as ND.
  assert (Q : forall i, In i (nz_rows nz t) -> length i = length (tshape t)).
  { intros i I. apply filter_In in I. destruct I as [I _]. apply in_all_idx in I. now apply valid_length. }
  destruct (nz_rows nz t) as [|a rows] eqn:ER; [cbn in TWO; lia|].
  destruct rows as [|b rows] using rev_ind; [cbn in TWO; lia|]. clear IHrows.
  assert (NE : a <> b).
  { inversion ND as [|? ? NI _]. intros ->. apply NI. apply in_or_app. right. now left. }
  destruct (lists_differ a b) as (d & x & y & X & Y & XY); [|exact NE|].
  { transitivity (length (tshape t)); [|symmetry]; apply Q; [now left|]. right. apply in_or_app. right. now left. }
  exists r, r', d. split; [exact E1|]. split; [exact F1|].
  rewrite (E2 0 a d x eq_refl X). rewrite (F2 0 b d y); [congruence| |exact Y].
  change (a :: rows ++ [b]) with ((a :: rows) ++ [b]). rewrite rev_app_distr. reflexivity.
Qed.

Lemma cuda_t_nonzero_rank : forall (A : Type) (nz : A -> bool) sched sched' (t : tensor A) r,
  wf_layout (tlay t) -> 16 < length (tshape t) -> nelem (tshape t) <> 0 ->
  cuda_t_nonzero nz sched sched' t = Ok r -> tstore r = [].
Proof.
  intros A nz sched sched' t r W R N H. unfold cuda_t_nonzero in H.
  destruct (cuda_nonzero_count nz sched _ _) as [c|]; [|discriminate]. cbn [ub bind] in H.
  destruct (c =? 0); [injection H as <-; reflexivity|]. unfold cuda_nonzero_fill in H. rewrite read_view_eq in H by exact W.
  cbn [obind v_shape v_els] in H. change (lshape (tlay t)) with (tshape t) in H.
  replace (length (tshape t) <=? 16) with false in H by (symmetry; now apply Nat.leb_gt).
  replace (nelem (tshape t) =? 0) with false in H by (symmetry; now apply Nat.eqb_neq). discriminate.
Qed.
