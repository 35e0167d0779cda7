(** Proofs about the element-wise kernels on CUDA. *)
From Coq Require Import List Arith ZArith Bool Lia Permutation.
From Verif Require Import Base IndexSpec LayoutModel ViewSpec KernelModel TensorModel TensorSpec KernelProofs.
From Verif Require Import TileModel TileSpec TileProofs4 LaunchModel LaunchSpec LaunchProofs.
Import ListNotations.

Lemma stores_length : forall B (body : nat -> option B) idx out, length (stores body idx out) = length out.
Proof.
  intros B body idx. unfold stores. induction idx as [|j idx IH]; intro out; cbn [fold_left]; auto. rewrite IH. apply upd_length.
Qed.

Lemma stores_in : forall B (body : nat -> option B) idx out i, In i idx -> i < length out ->
  nth_error (stores body idx out) i = Some (body i).
Proof.
  intros B body idx out i. induction idx as [|j idx IH] using rev_ind; [contradiction|]. intros I L.
  unfold stores. rewrite fold_left_app. cbn [fold_left]. fold (stores body idx out).
  destruct (Nat.eq_dec j i) as [->|N].
  - apply nth_error_upd_eq. now rewrite stores_length.
  - rewrite nth_error_upd_neq by exact N. apply IH; auto. apply in_app_iff in I. destruct I as [I|[I|[]]]; [exact I|congruence].
Qed.

Lemma all_some_total : forall B (l : list (option B)), (forall o, In o l -> o <> None) -> exists r, all_some l = Some r /\ l = map Some r.
Proof.
  intros B. induction l as [|[x|] l IH]; intro H.
  - exists []. auto.
  - destruct IH as (r & E & M); [intros o I; apply H; now right|]. exists (x :: r). cbn. rewrite E. split; [reflexivity|now rewrite <- M].
  - exfalso. apply (H None); [now left|reflexivity].
Qed.

Lemma elementwise_total : forall B sched n (body : nat -> option B) out,
  ending sched -> (Z.of_nat n <= 2 ^ 32 - 256)%Z -> length out = n -> (forall i, i < n -> body i <> None) ->
  exists r, elementwise sched n body out = Some r /\ length r = n /\ forall i, i < n -> nth_error r i = body i.
Proof.
  intros B sched n body out E N L T. unfold elementwise.
  pose proof (short_each n (sched n) N (E n N)) as EA.
  set (idx := log (execute Short n (sched n))) in *.
  assert (NT : forall i, i < n -> nth_error (stores body idx out) i = Some (body i)).
  { intros i I. apply stores_in; [now apply EA|lia]. }
  destruct (all_some_total B (stores body idx out)) as (r & R & M).
  { intros o I. apply In_nth_error in I. destruct I as [i I].
    assert (B1 : i < n) by (rewrite <- L, <- (stores_length B body idx); apply nth_error_Some; congruence).
    rewrite (NT i B1) in I. injection I as <-. now apply T. }
  exists r. split; [exact R|]. assert (LR : length r = n) by (rewrite <- (map_length Some), <- M, stores_length; exact L).
  split; [exact LR|]. intros i I. specialize (NT i I). rewrite M, nth_error_map in NT.
  destruct (nth_error r i) as [x|]; cbn in NT; congruence.
Qed.

Lemma binary_md : forall la lb s, wf_layout la -> wf_layout lb -> lshape la = s -> lshape lb = s ->
  let md := binary_metadata la lb la in let n := length s in
  nth_error md 0 = Some (nelem s) /\ nth_error md 1 = Some n /\
  md_slice md 2 n = Some s /\ md_slice md (2 + n) n = Some s /\
  md_slice md (2 + 2 * n) n = Some (lstrides la) /\ md_slice md (2 + 3 * n) n = Some (lstrides lb) /\
  nth_error md (2 + 4 * n) = Some (loffset la) /\ nth_error md (2 + 4 * n + 1) = Some (loffset lb).
Proof.
  intros la lb s Hwa Hwb Hsa Hsb md n. unfold md, binary_metadata, layout_size. change shape_size with nelem. rewrite Hsa, Hsb.
  assert (La : length (lstrides la) = n) by (unfold n; rewrite <- Hsa; auto).
  assert (Lb : length (lstrides lb) = n) by (unfold n; rewrite <- Hsb; auto).
  assert (Ls : length s = n) by reflexivity. clearbody n.
  split; [reflexivity|]. split; [cbn; congruence|]. split; [apply md_slice_app; auto|].
  split; [rewrite (app_assoc [_; _] s); apply md_slice_app; auto; rewrite app_length; cbn; lia|].
  split. { rewrite (app_assoc [_; _] s), (app_assoc _ s). apply md_slice_app; auto. rewrite !app_length. cbn. lia. }
  split. { rewrite (app_assoc [_; _] s), (app_assoc _ s), (app_assoc _ (lstrides la)). apply md_slice_app; auto. rewrite !app_length. cbn. lia. }
  split. { rewrite (app_assoc [_; _] s), (app_assoc _ s), (app_assoc _ (lstrides la)), (app_assoc _ (lstrides lb)).
    apply nth_error_app_at. rewrite !app_length. cbn. lia. }
  rewrite (app_assoc [_; _] s), (app_assoc _ s), (app_assoc _ (lstrides la)), (app_assoc _ (lstrides lb)).
  change [loffset la; loffset lb] with ([loffset la] ++ [loffset lb]). rewrite app_assoc.
  apply nth_error_app_at. rewrite !app_length. cbn. lia.
Qed.

(** where an operand is read *)
Lemma reads_at : forall A (st : list A) l i, wf_layout l -> in_bounds (length st) l -> (Z.of_nat (length st) <= 2 ^ 32)%Z ->
  i < nelem (lshape l) ->
  exists x, nth_error st (addr l (unravel (lshape l) i)) = Some x /\
    (let? p := (if c_is_contiguous (lshape l) (lstrides l) then Some i else strided32 i (lshape l) (lstrides l)) in
     nth_error st (loffset l + p)) = Some x /\
    (let? p := (if c_is_contiguous (lshape l) (lstrides l) then Some (loffset l + i)
                else let? q := strided32 i (lshape l) (lstrides l) in Some (as_u32 (loffset l + q))) in
     nth_error st p) = Some x.
Proof.
  intros A st l i W B S1 I.
  assert (AB : addr l (unravel (lshape l) i) < length st) by (apply B; now apply unravel_valid).
  destruct (nth_error st (addr l (unravel (lshape l) i))) as [x|] eqn:X; [|apply nth_error_None in X; lia].
  exists x. split; [reflexivity|]. destruct (c_is_contiguous (lshape l) (lstrides l)) eqn:C.
  - rewrite addr_contig_k in X by auto. cbn [obind]. auto.
  - unfold strided32. rewrite c_strided_spec by auto. cbn [obind]. unfold addr in *.
    rewrite (as_u32_id (dot _ _)) by lia. rewrite as_u32_id by lia. auto.
Qed.

Theorem cuda_binary_spec : forall A C B sched (f : A -> C -> B) (a : tensor A) (b : tensor C) s out,
  ending sched -> good a -> good b -> tshape a = s -> tshape b = s -> (Z.of_nat (nelem s) <= 2 ^ 32 - 256)%Z ->
  (Z.of_nat (length (tstore a)) <= 2 ^ 32)%Z -> (Z.of_nat (length (tstore b)) <= 2 ^ 32)%Z -> length out = nelem s ->
  exists r, cuda_binary sched f (tstore a) (tstore b) out (binary_metadata (tlay a) (tlay b) (tlay a)) = Some r /\
    length r = nelem s /\
    forall i, valid s i -> exists x y, elem a i = Some x /\ elem b i = Some y /\ nth_error r (ravel s i) = Some (f x y).
Proof.
  intros A C B sched f a b s out E [Wa Ba] [Wb Bb] Sa Sb N La Lb LO. unfold tshape in *.
  destruct (binary_md (tlay a) (tlay b) s Wa Wb Sa Sb) as (E0 & E1 & E2 & E3 & E4 & E5 & E6 & E7).
  unfold cuda_binary. rewrite E0. cbn [obind]. rewrite E1. cbn [obind]. rewrite E2. cbn [obind]. rewrite E3. cbn [obind].
  rewrite E4. cbn [obind]. rewrite E5. cbn [obind]. rewrite E6. cbn [obind]. rewrite E7. cbn [obind].
  clear E0 E1 E2 E3 E4 E5 E6 E7.
  set (body := fun i => let? lp := _ in _).
  assert (BD : forall i, i < nelem s -> exists x y, nth_error (tstore a) (addr (tlay a) (unravel s i)) = Some x /\
     nth_error (tstore b) (addr (tlay b) (unravel s i)) = Some y /\ body i = Some (f x y)).
  { intros i I. destruct (reads_at A (tstore a) (tlay a) i Wa Ba La ltac:(now rewrite Sa)) as (x & X & RX & _).
    destruct (reads_at C (tstore b) (tlay b) i Wb Bb Lb ltac:(now rewrite Sb)) as (y & Y & RY & _).
    rewrite Sa in *. rewrite Sb in *. exists x, y. split; [exact X|]. split; [exact Y|]. unfold body.
    destruct (if c_is_contiguous s (lstrides (tlay a)) then _ else _) as [lp|]; [|discriminate].
    destruct (if c_is_contiguous s (lstrides (tlay b)) then _ else _) as [rp|]; [|discriminate].
    cbn [obind] in *. rewrite RX. cbn [obind]. rewrite RY. reflexivity. }
  destruct (elementwise_total B sched (nelem s) body out E N LO) as (r & R & LR & NR).
  { intros i I. destruct (BD i I) as (x & y & _ & _ & H). congruence. }
  exists r. split; [exact R|]. split; [exact LR|]. intros i V. pose proof (ravel_lt _ _ V) as RL.
  destruct (BD (ravel s i) RL) as (x & y & X & Y & H). rewrite unravel_ravel in X, Y by exact V.
  exists x, y. split; [exact X|]. split; [exact Y|]. now rewrite NR.
Qed.

Theorem cuda_unary_spec : forall A B sched (f : A -> B) (a : tensor A) out,
  ending sched -> good a -> (Z.of_nat (nelem (tshape a)) <= 2 ^ 32 - 256)%Z ->
  (Z.of_nat (length (tstore a)) <= 2 ^ 32)%Z -> length out = nelem (tshape a) ->
  exists r, cuda_unary sched f (tstore a) out (unary_metadata (tlay a) (tlay a)) = Some r /\ length r = nelem (tshape a) /\
    forall i, valid (tshape a) i -> exists x, elem a i = Some x /\ nth_error r (ravel (tshape a) i) = Some (f x).
Proof.
  intros A B sched f a out E [Wa Ba] N La LO. unfold tshape in *.
  destruct (unary_md (tlay a) Wa) as (E0 & E1 & E2 & E3 & E4).
  unfold cuda_unary. rewrite E0. cbn [obind]. rewrite E1. cbn [obind]. rewrite E2. cbn [obind]. rewrite E3. cbn [obind].
  rewrite E4. cbn [obind]. clear E0 E1 E2 E3 E4. set (s := lshape (tlay a)) in *.
  set (body := fun i => let? p := _ in _).
  assert (BD : forall i, i < nelem s -> exists x, nth_error (tstore a) (addr (tlay a) (unravel s i)) = Some x /\ body i = Some (f x)).
  { intros i I. destruct (reads_at A (tstore a) (tlay a) i Wa Ba La I) as (x & X & _ & RX). fold s in X, RX.
    exists x. split; [exact X|]. unfold body.
    destruct (if c_is_contiguous s (lstrides (tlay a)) then _ else _) as [p|]; [|discriminate].
    cbn [obind] in *. now rewrite RX. }
  destruct (elementwise_total B sched (nelem s) body out E N LO) as (r & R & LR & NR).
  { intros i I. destruct (BD i I) as (x & _ & H). congruence. }
  exists r. split; [exact R|]. split; [exact LR|]. intros i V. pose proof (ravel_lt _ _ V) as RL.
  destruct (BD (ravel s i) RL) as (x & X & H). rewrite unravel_ravel in X by exact V.
  exists x. split; [exact X|]. now rewrite NR.
Qed.

(** there is such a choice of schedules *)
Lemma ending_exists : forall n, (Z.of_nat n <= 2 ^ 32 - 256)%Z -> exists s, over (execute Short n s).
Proof.
  intros n N. destruct (can_end Short n (fun t _ => short_ends n t N) []) as [more M]. exists more. exact M.
Qed.

(** a schedule, computed: the threads in turn, each as often as it may move *)
Fixpoint turns (k n : nat) : list nat := match k with 0 => [] | S k' => seq 0 (launched n) ++ turns k' n end.
Lemma turns_count : forall k n t, t < launched n -> count_occ Nat.eq_dec (turns k n) t = k.
Proof.
  induction k as [|k IH]; intros n t T; cbn [turns]; [reflexivity|]. rewrite count_occ_app, IH by exact T.
  assert (X : count_occ Nat.eq_dec (seq 0 (launched n)) t = 1).
  { pose proof (proj1 (NoDup_count_occ Nat.eq_dec _) (seq_NoDup (launched n) 0) t).
    assert (In t (seq 0 (launched n))) by (apply in_seq; lia).
    pose proof (proj1 (count_occ_In Nat.eq_dec _ _) H0). lia. }
  lia.
Qed.

Lemma short_bound : forall n t i k, (Z.of_nat n <= 2 ^ 32 - 256)%Z -> path Short n t k = Some i -> path Short n t (k + i + 2) = None.
Proof.
  intros n t i k N.
  assert (E : as_u32 n = n) by (apply as_u32_id; lia).
  pose proof (stride_small n ltac:(rewrite E; exact N)) as ST.
  destruct (launched_bound n) as (A & _). rewrite E in A.
  assert (LB : (Z.of_nat (launched n) < 2 ^ 32)%Z) by (rewrite <- ST; apply as_u32_lt).
  revert k. induction i as [i IH] using lt_wf_ind. intros k P.
  destruct (i <? n) eqn:I.
  - assert (P1 : path Short n t (S k) = Some (as_u32 (i + launched n))) by (cbn [path]; rewrite P, I; cbn [advance]; now rewrite ST).
    apply Nat.ltb_lt in I. destruct (Z_lt_le_dec (Z.of_nat (i + launched n)) (2 ^ 32)) as [W|W].
    + rewrite as_u32_id in P1 by exact W. apply (path_gone _ _ _ (S (S k))); [|lia].
      remember (S k) as k1. cbn [path]. rewrite P1.
      replace (i + launched n <? n) with false by (symmetry; apply Nat.ltb_ge; lia). reflexivity.
    + assert (D : as_u32 (i + launched n) < i).
      { unfold as_u32. replace (Z.of_nat (i + launched n)) with (Z.of_nat (i + launched n) - 2 ^ 32 + 1 * 2 ^ 32)%Z by lia.
        rewrite Z_mod_plus_full, Z.mod_small; lia. }
      apply (path_gone _ _ _ (S k + as_u32 (i + launched n) + 2)); [|lia]. now apply IH.
  - apply (path_gone _ _ _ (S k)); [|lia]. cbn [path]. now rewrite P, I.
Qed.

Definition in_turn (n : nat) : list nat := turns (launched n + 2) n.
Theorem in_turn_ending : ending in_turn.
Proof.
  intros n N. apply over_path. intros t T. unfold in_turn. rewrite turns_count by exact T.
  assert (P : path Short n t 0 = Some t) by (cbn [path]; apply Nat.ltb_lt in T; now rewrite T).
  apply short_bound in P; auto. eapply path_gone; [exact P|lia].
Qed.
