From Coq Require Import List Arith ZArith Bool Lia.
From Verif Require Import Base IndexSpec LayoutModel ViewSpec LayoutProofs KernelModel KernelProofs TensorModel
  TensorSpec TensorProofs ScanModel SortModel SortProofs DataProofs PermFacts EinsumModel EinsumProofs2 CountModel CountProofs CountProofs2 CountProofs3.
From Verif Require Import TileModel TileSpec LaunchModel LaunchSpec LaunchProofs LaunchProofs2 CudaUniqueProofs CudaCompressModel.
Import ListNotations.

(** ** Writing the cells of an output in any order *)
Section Paint.
Context {A : Type}.
Variables (N : nat) (g : nat -> A).
(** the step fills the cells of [R] with [g], and changes others to [g] at most *)
Definition paints (step : list (option A) -> option (list (option A))) (R : nat -> Prop) : Prop :=
  forall out, length out = N -> exists out', step out = Some out' /\ length out' = N /\
    (forall q, nth_error out' q = Some (Some (g q)) \/ nth_error out' q = nth_error out q) /\
    (forall q, R q -> nth_error out' q = Some (Some (g q))).
Lemma paints_skip : forall R, (forall q, ~ R q) -> paints (fun o => Some o) R.
Proof.
  intros R NR out L. exists out. split; [reflexivity|]. split; [exact L|]. split; [intro q; now right|].
  intros q H. destruct (NR q H).
Qed.
Lemma paints_store : forall p x, p < N -> x = g p -> paints (fun o => c_store o p (Some x)) (eq p).
Proof.
  intros p x P -> out L. exists (upd out p (Some (g p))). rewrite c_store_some by lia. split; [reflexivity|].
  split; [now rewrite upd_length|]. split.
  - intro q. destruct (Nat.eq_dec p q) as [<- | NE]; [left; apply nth_error_upd_eq; lia|right; now apply nth_error_upd_neq].
  - intros q <-. apply nth_error_upd_eq. lia.
Qed.
Lemma paints_loop : forall X (step : X -> list (option A) -> option (list (option A))) (R : X -> nat -> Prop) ks,
  (forall k, In k ks -> paints (step k) (R k)) -> paints (loopO step ks) (fun q => exists k, In k ks /\ R k q).
Proof.
  intros X step R. induction ks as [|k ks IH]; intros H out L.
  - exists out. split; [reflexivity|]. split; [exact L|]. split; [intro q; now right|]. intros q (k & [] & _).
  - destruct (H k (or_introl eq_refl) out L) as (o1 & E1 & L1 & K1 & R1).
    destruct (IH (fun k' I => H k' (or_intror I)) o1 L1) as (o2 & E2 & L2 & K2 & R2).
    exists o2. cbn [loopO]. rewrite E1. cbn [obind]. split; [exact E2|]. split; [exact L2|]. split.
    + intro q. destruct (K2 q) as [|E]; [now left|]. rewrite E. apply K1.
    + intros q (k' & [<- | I] & RQ); [|apply R2; eauto]. destruct (K2 q) as [|E]; [assumption|]. rewrite E. now apply R1.
Qed.
Lemma paints_all : forall step (R : nat -> Prop), paints step R -> (forall q, q < N -> R q) ->
  obind (step (repeat None N)) (all_some (A := A)) = Some (map g (seq 0 N)).
Proof.
  intros step R P C. destruct (P (repeat None N) (repeat_length _ _)) as (o & -> & L & _ & F). cbn [obind].
  assert (E : o = map Some (map g (seq 0 N))).
  { rewrite map_map. apply list_ext. intro q. destruct (Nat.lt_ge_cases q N) as [Q|Q].
    - rewrite F by now apply C. symmetry. now rewrite nth_error_seq_map.
    - rewrite !(proj2 (nth_error_None _ _)); [reflexivity|rewrite map_length, seq_length; exact Q|lia]. }
  rewrite E. clear. induction (map g (seq 0 N)) as [|x l IH]; [reflexivity|]. cbn [map all_some]. now rewrite IH.
Qed.
End Paint.

(** ** The places of the true cells *)
Section Places.
Variable bs : list bool.
Definition picks (n : nat) : list nat := filter (fun c => nth c bs false) (seq 0 n).
Lemma trues_below_spec : forall id, id <= length bs -> trues_below bs id = Some (length (picks id)).
Proof.
  induction id as [|id IH]; intro L; [reflexivity|]. unfold trues_below in *. rewrite seq_S, loopO_snoc, IH by lia. cbn [obind Nat.add].
  rewrite (nth_error_nth' bs false) by lia. cbn [obind]. unfold picks. rewrite seq_S, filter_app, app_length. cbn [filter Nat.add].
  destruct (nth id bs false); cbn [length]; f_equal; lia.
Qed.
Lemma picks_at : forall n id, id < n -> nth id bs false = true -> nth_error (picks n) (length (picks id)) = Some id.
Proof.
  intros n id L B. unfold picks. replace n with (id + S (n - S id)) by lia. rewrite seq_app, filter_app.
  rewrite nth_error_app2 by lia. rewrite Nat.sub_diag. cbn [Nat.add seq filter]. now rewrite B.
Qed.
Lemma picks_in : forall n k id, nth_error (picks n) k = Some id -> id < n /\ nth id bs false = true /\ length (picks id) = k.
Proof.
  intros n k id E. pose proof (nth_error_In _ _ E) as I. apply filter_In in I as [I B]. apply in_seq in I.
  split; [lia|]. split; [exact B|]. pose proof (picks_at n id ltac:(lia) B) as E'.
  assert (ND : NoDup (picks n)) by (apply NoDup_filter, seq_NoDup). rewrite NoDup_nth_error in ND. apply ND.
  - apply nth_error_Some. congruence.
  - congruence.
Qed.
Lemma picks_lt : forall n id, id < n -> nth id bs false = true -> length (picks id) < length (picks n).
Proof. intros n id L B. apply nth_error_Some. rewrite picks_at by assumption. discriminate. Qed.
End Places.

Lemma place_lt : forall P T Q o k i, o < P -> k < T -> i < Q -> o * T * Q + k * Q + i < P * (T * Q).
Proof.
  intros P T Q o k i O K I. assert (S o * (T * Q) <= P * (T * Q)) by (apply Nat.mul_le_mono_r; lia).
  assert (S k * Q <= T * Q) by (apply Nat.mul_le_mono_r; lia). nia.
Qed.

Section Compress.
Context {A : Type}.
Variable sched : nat -> list nat.
Hypothesis EN : ending sched.

Lemma cuda_flat_spec : forall (t : tensor A) bs, good t -> length bs = nelem (tshape t) ->
  (Z.of_nat (nelem (tshape t)) <= 2 ^ 32 - 256)%Z ->
  let cond := mkT bs (from_shape [nelem (tshape t)]) in
  exists r, cuda_t_compress sched t cond None = Ok r /\ good r /\ tshape r = [length (true_positions cond)] /\
    forall k p, nth_error (true_positions cond) k = Some p -> elem r [k] = elem t (unravel (tshape t) p).
Proof.
  intros t bs G LB C cond. destruct (elements A t G) as (xs & LX & EX). pose proof (proj1 G) as W.
  destruct (plain_cond bs _ LB) as [TP TL]. fold cond in TP, TL.
  unfold cuda_t_compress. change (lshape (tlay t)) with (tshape t). set (s := tshape t) in *. set (n := nelem s) in *.
  change (lshape (tlay cond)) with [n]. change (tstore cond) with bs. cbn [length Nat.eqb negb].
  replace (nelem [n]) with n by (unfold nelem; simpl; lia). rewrite Nat.eqb_refl. cbn [negb bind].
  replace (n <? length bs) with false by (symmetry; apply Nat.ltb_ge; lia).
  rewrite <- TL. fold (picks bs n) in TP. rewrite TP in *. set (T := length (picks bs n)) in *.
  assert (N1 : nelem [T] = T) by (unfold nelem; simpl; lia). rewrite N1.
  destruct (T =? 0) eqn:Z0.
  { apply Nat.eqb_eq in Z0. eexists. split; [reflexivity|]. split; [apply from_shape_good; rewrite N1; simpl; lia|].
    split; [reflexivity|]. intros k p H. exfalso. unfold T in Z0. destruct (picks bs n); [|discriminate]. destruct k; discriminate. }
  apply Nat.eqb_neq in Z0.
  destruct xs as [|x0 xs0] eqn:EXS.
  { exfalso. cbn in LX. unfold T, picks in Z0. rewrite <- LX in Z0. apply Z0. reflexivity. }
  rewrite <- EXS in *. clear EXS xs0.
  set (gg := fun q => nth (nth q (picks bs n) 0) xs x0).
  unfold cuda_compress, compress_metadata. rewrite read_view_app by auto. fold (view_of (tlay t) [n; 0; 0]).
  cbn [obind]. change (v_rest (view_of (tlay t) [n; 0; 0])) with [n; 0; 0].
  change (read_n 3 [n; 0; 0]) with (Some ([n; 0; 0], @nil nat)). cbn [obind nth Nat.eqb].
  pose proof (short_each n (sched n) C (EN n C)) as EA. set (ids := log (execute Short n (sched n))) in *.
  rewrite (paints_all T gg _ (fun q => exists id, In id ids /\ nth id bs false = true /\ length (picks bs id) = q)).
  - cbn [ub bind]. eexists. split; [reflexivity|]. split; [apply from_shape_good; now rewrite map_length, seq_length, N1|].
    split; [reflexivity|]. intros k p H. unfold elem at 1. cbn [tlay tstore]. rewrite addr_from_shape by reflexivity. cbn [ravel].
    replace (k * nelem [] + 0) with k by (unfold nelem; simpl; lia).
    assert (KT : k < T) by (apply nth_error_Some; congruence).
    destruct (picks_in bs n k p H) as (PL & _ & _).
    rewrite nth_error_seq_map by exact KT. unfold gg. rewrite (nth_error_nth _ _ 0 H).
    rewrite EX by auto. symmetry. apply nth_error_nth'. lia.
  - apply paints_loop. intros id I. apply EA in I. intros out L. unfold flat_turn.
    rewrite (nth_error_nth' bs false) by lia. cbn [obind]. destruct (nth id bs false) eqn:B; cbn [negb].
    + rewrite trues_below_spec by lia. cbn [obind]. rewrite view_at_elem by (auto; fold s; fold n; lia). fold s. rewrite EX by (fold n; lia).
      rewrite (nth_error_nth' xs x0) by lia. cbn [obind].
      destruct (paints_store T gg (length (picks bs id)) (nth id xs x0)) with (out := out) as (o & E & LO & K & F); [now apply picks_lt|unfold gg; now rewrite (nth_error_nth _ _ 0 (picks_at bs n id I B))|exact L|].
      exists o. split; [exact E|]. split; [exact LO|]. split; [exact K|]. intros q [_ Q]. now apply F.
    + exists out. split; [reflexivity|]. split; [exact L|]. split; [intro; now right|]. intros q [Q _]. congruence.
  - intros q Q. destruct (nth_error (picks bs n) q) as [id|] eqn:E; [|apply nth_error_None in E; unfold T in Q; lia].
    destruct (picks_in bs n q id E) as (I & B & K). exists id. split; [now apply EA|]. now split.
Qed.

Lemma cuda_axis_spec : forall (t : tensor A) bs a, good t -> axis_ok (length (tshape t)) a ->
  length bs = nth (axis_of (length (tshape t)) a) (tshape t) 0 -> (Z.of_nat (length bs) <= 2 ^ 32 - 256)%Z ->
  let cond := mkT bs (from_shape [length bs]) in
  let ax := axis_of (length (tshape t)) a in
  exists r, cuda_t_compress sched t cond (Some a) = Ok r /\ good r /\
    tshape r = upd (tshape t) ax (length (true_positions cond)) /\
    forall i k p, valid (tshape r) i -> nth_error i ax = Some k -> nth_error (true_positions cond) k = Some p ->
      elem r i = elem t (upd i ax p).
Proof.
  intros t bs a G AX LB C cond ax. pose proof (proj1 G) as W.
  destruct (plain_cond bs _ eq_refl) as [TP TL]. fold cond in TP, TL.
  unfold cuda_t_compress. change (lshape (tlay t)) with (tshape t). set (s := tshape t) in *. set (n := length bs) in *.
  change (lshape (tlay cond)) with [n]. change (tstore cond) with bs. cbn [length Nat.eqb negb].
  replace (nelem [n]) with n by (unfold nelem; simpl; lia).
  assert (ax < length s) as AL by (unfold ax, axis_of, axis_ok in *; destruct (a <? 0)%Z eqn:?; lia).
  assert (((if (a <? 0)%Z then Z.of_nat (length s) + a else a) = Z.of_nat ax)%Z) as ->.
  { unfold ax, axis_of, axis_ok in *. destruct (a <? 0)%Z eqn:?; lia. }
  replace ((Z.of_nat ax <? 0) || (Z.of_nat (length s) <=? Z.of_nat ax))%Z with false
    by (symmetry; apply orb_false_iff; split; [apply Z.ltb_ge|apply Z.leb_gt]; lia).
  rewrite Nat2Z.id. fold ax in LB. rewrite <- LB, Nat.eqb_refl. cbn [negb bind].
  fold n. rewrite Nat.ltb_irrefl.
  rewrite <- TL. fold (picks bs n) in TP. rewrite TP in *. set (T := length (picks bs n)) in *.
  destruct (list_split_at _ s ax AL) as (p & d & q & ES & LP & FP & SQ).
  assert (d = n) as -> by (rewrite LB, ES, app_nth2, <- LP, Nat.sub_diag by lia; reflexivity).
  assert (upd s ax T = p ++ T :: q) as US by (rewrite ES, <- LP; apply upd_at). rewrite US.
  assert (nelem (p ++ T :: q) = nelem p * (T * nelem q)) as NE by (rewrite nelem_app, nelem_cons; reflexivity).
  destruct (T =? 0) eqn:Z0.
  { apply Nat.eqb_eq in Z0. eexists. split; [reflexivity|]. split; [apply from_shape_good; rewrite NE, Z0; simpl; lia|].
    split; [reflexivity|]. intros i k x _ _ H. exfalso. unfold T in Z0. destruct (picks bs n); [|discriminate]. destruct k; discriminate. }
  apply Nat.eqb_neq in Z0.
  (* some element, unless there are none *)
  assert (XE : forall o c i, o < nelem p -> c < n -> i < nelem q -> exists y, elem t (unravel p o ++ c :: unravel q i) = Some y).
  { intros o c i O CI I. apply (good_elem A t _ G). fold s. rewrite ES. apply valid_app; [now rewrite unravel_length|].
    split; [now apply unravel_valid|]. cbn [valid]. split; auto. now apply unravel_valid. }
  unfold cuda_compress, compress_metadata. rewrite read_view_app by auto. fold (view_of (tlay t) [n; 1; ax]).
  cbn [obind]. change (v_rest (view_of (tlay t) [n; 1; ax])) with [n; 1; ax].
  change (read_n 3 [n; 1; ax]) with (Some ([n; 1; ax], @nil nat)). cbn [obind nth Nat.eqb].
  pose proof (short_each n (sched n) C (EN n C)) as EA. set (ids := log (execute Short n (sched n))) in *.
  rewrite NE. set (N := nelem p * (T * nelem q)) in *.
  destruct (Nat.eq_dec N 0) as [NZ|NZ].
  { (* nothing to write *)
    assert (LOOP : loopO (axis_turn (tstore t) bs (view_of (tlay t) [n; 1; ax]) n ax) ids (repeat None N) = Some (repeat None N)).
    { assert (B : forall id, In id ids -> id < n) by (intros id I; now apply EA). clear - NZ B FP SQ Z0.
      assert (PQ : nelem p = 0 \/ nelem q = 0) by (unfold N in NZ; nia).
      induction ids as [|id l IH]; [reflexivity|]. cbn [loopO].
      assert (axis_turn (tstore t) bs (view_of (tlay t) [n; 1; ax]) n ax id (repeat None N) = Some (repeat None N)) as ->.
      { unfold axis_turn. pose proof (B id (or_introl eq_refl)) as I. unfold n in I. rewrite (nth_error_nth' bs false) by lia. cbn [obind].
        destruct (nth id bs false); cbn [negb]; [|reflexivity]. rewrite !trues_below_spec by (unfold n; lia). cbn [obind].
        change (v_shape (view_of (tlay t) [n; 1; ax])) with s. rewrite FP, SQ.
        destruct PQ as [-> | ->]; [reflexivity|]. generalize (seq 0 (nelem p)). induction l0 as [|u l0 IHl]; [reflexivity|exact IHl]. }
      cbn [obind]. apply IH. intros; apply B; now right. }
    rewrite LOOP, NZ. cbn [obind repeat all_some ub bind]. eexists. split; [reflexivity|]. split; [apply from_shape_good; rewrite NE; fold N; rewrite NZ; reflexivity|].
    split; [reflexivity|]. intros i k x V _ _. exfalso. cbn [tshape tlay from_shape lshape] in V.
    pose proof (ravel_lt _ _ V) as RV. change (ravel (p ++ T :: q) i < nelem (p ++ T :: q)) in RV. rewrite NE in RV. fold N in RV. lia. }
  assert (POS : 0 < nelem p /\ 0 < n /\ 0 < nelem q).
  { assert (0 < n) by (destruct n as [|n'] eqn:En; [exfalso; apply Z0; reflexivity|lia]). unfold N in NZ. nia. }
  destruct POS as (P0 & N0 & Q0). destruct (XE 0 0 0 P0 N0 Q0) as (y0 & _).
  set (x := fun o c i => match elem t (unravel p o ++ c :: unravel q i) with Some y => y | None => y0 end).
  assert (XX : forall o c i, o < nelem p -> c < n -> i < nelem q -> elem t (unravel p o ++ c :: unravel q i) = Some (x o c i)).
  { intros o c i O CI I. destruct (XE o c i O CI I) as (y & Y). unfold x. now rewrite Y. }
  set (gg := fun r => x (r / (T * nelem q)) (nth (r / nelem q mod T) (picks bs n) 0) (r mod nelem q)).
  assert (DEC : forall o k i, k < T -> i < nelem q ->
    (o * T * nelem q + k * nelem q + i) / (T * nelem q) = o /\ (o * T * nelem q + k * nelem q + i) / nelem q mod T = k /\ (o * T * nelem q + k * nelem q + i) mod nelem q = i).
  { intros o k i K I. split; [|split].
    - symmetry. apply (Nat.div_unique _ _ _ (k * nelem q + i)); nia.
    - assert (E : (o * T * nelem q + k * nelem q + i) / nelem q = o * T + k) by (symmetry; apply (Nat.div_unique _ _ _ i); nia).
      rewrite E. symmetry. apply (Nat.mod_unique _ _ o); nia.
    - symmetry. apply (Nat.mod_unique _ _ (o * T + k)); nia. }
  rewrite (paints_all N gg _ (fun r => exists id, In id ids /\ nth id bs false = true /\
    exists o, In o (seq 0 (nelem p)) /\ exists i, In i (seq 0 (nelem q)) /\ o * T * nelem q + length (picks bs id) * nelem q + i = r)).
  - cbn [ub bind]. eexists. split; [reflexivity|]. split; [apply from_shape_good; rewrite map_length, seq_length, NE; reflexivity|].
    split; [reflexivity|]. intros i k pp V HK HP. cbn [tshape tlay from_shape lshape] in V. change (valid (p ++ T :: q) i) in V.
    assert (ax < length i) as AI by (apply nth_error_Some; congruence).
    destruct (list_split_at _ i ax AI) as (ip & k' & iq & EI & LI & _ & _).
    assert (k' = k) as -> by (rewrite EI, nth_error_app2, <- LI, Nat.sub_diag in HK by lia; cbn in HK; congruence).
    rewrite EI in *. rewrite <- LI, upd_at.
    apply valid_app in V; [|congruence]. destruct V as [V1 V2]. cbn [valid] in V2. destruct V2 as [V2 V3].
    unfold elem at 1. cbn [tlay tstore]. rewrite addr_from_shape.
    2:{ rewrite !app_length. cbn [length]. rewrite (valid_length _ _ V3). lia. }
    rewrite ravel_split by congruence. rewrite nelem_cons. cbn [ravel].
    pose proof (ravel_lt _ _ V1) as R1. pose proof (ravel_lt _ _ V3) as R3.
    replace (ravel p ip * (T * nelem q) + (k * nelem q + ravel q iq)) with (ravel p ip * T * nelem q + k * nelem q + ravel q iq) by lia.
    destruct (DEC (ravel p ip) k (ravel q iq) V2 R3) as (D1 & D2 & D3).
    rewrite nth_error_seq_map by now apply place_lt. unfold gg. rewrite D1, D2, D3, (nth_error_nth _ _ 0 HP).
    destruct (picks_in bs n k pp HP) as (PL & _ & _).
    rewrite <- XX by assumption. now rewrite !unravel_ravel by assumption.
  - apply paints_loop. intros id I. apply EA in I. intros out L. unfold axis_turn.
    rewrite (nth_error_nth' bs false) by (unfold n in I; lia). cbn [obind]. destruct (nth id bs false) eqn:B; cbn [negb].
    + rewrite !trues_below_spec by (unfold n in *; lia). cbn [obind]. change (v_shape (view_of (tlay t) [n; 1; ax])) with s. rewrite FP, SQ.
      fold T. pose proof (picks_lt bs n id I B) as KT. fold T in KT.
      assert (PL : paints N gg (loopO (fun outer out => loopO (fun inner out =>
        let? mo := c_coords (rev p) outer [] in
        let? mi := c_coords (rev q) inner [] in
        let? y := nth_error (tstore t) (v_offset (view_of (tlay t) [n; 1; ax]) + dot (mo ++ id :: mi) (v_strides (view_of (tlay t) [n; 1; ax]))) in
        c_store out (outer * T * nelem q + length (picks bs id) * nelem q + inner) (Some y)) (seq 0 (nelem q)) out) (seq 0 (nelem p)))
        (fun r => exists o, In o (seq 0 (nelem p)) /\ exists i, In i (seq 0 (nelem q)) /\ o * T * nelem q + length (picks bs id) * nelem q + i = r)).
      { apply paints_loop. intros o O. apply in_seq in O. apply (paints_loop N gg nat _ (fun i r => o * T * nelem q + length (picks bs id) * nelem q + i = r)).
        intros i Q. apply in_seq in Q. intros out1 L1. rewrite !c_coords_spec by lia. cbn [obind].
        pose proof (XX o id i ltac:(lia) I ltac:(lia)) as E. unfold elem, addr in E.
        change (v_offset (view_of (tlay t) [n; 1; ax])) with (loffset (tlay t)).
        change (v_strides (view_of (tlay t) [n; 1; ax])) with (lstrides (tlay t)). rewrite E. cbn [obind].
        apply paints_store; [apply place_lt; lia| |exact L1].
        destruct (DEC o (length (picks bs id)) i KT ltac:(lia)) as (D1 & D2 & D3). unfold gg. rewrite D1, D2, D3.
        now rewrite (nth_error_nth _ _ 0 (picks_at bs n id I B)). }
      destruct (PL out L) as (o & E & LO & K & F). exists o. split; [exact E|]. split; [exact LO|]. split; [exact K|].
      intros r [_ R]. now apply F.
    + exists out. split; [reflexivity|]. split; [exact L|]. split; [intro; now right|]. intros r [Q _]. congruence.
  - intros r R. set (k := r / nelem q mod T). assert (KT : k < T) by (apply Nat.mod_upper_bound; exact Z0).
    destruct (nth_error (picks bs n) k) as [id|] eqn:E; [|apply nth_error_None in E; unfold T in KT; lia].
    destruct (picks_in bs n k id E) as (I & B & K). exists id. split; [now apply EA|]. split; [exact B|].
    exists (r / (T * nelem q)). split.
    { apply in_seq. split; [apply Nat.le_0_l|]. cbn. apply Nat.div_lt_upper_bound; [nia|]. rewrite Nat.mul_comm. exact R. }
    exists (r mod nelem q). split; [apply in_seq; split; [apply Nat.le_0_l|]; cbn; apply Nat.mod_upper_bound; lia|].
    rewrite K. unfold k. pose proof (Nat.div_mod r (nelem q) ltac:(lia)) as D1. pose proof (Nat.div_mod (r / nelem q) T Z0) as D2.
    rewrite Nat.div_div in D2 by lia. rewrite (Nat.mul_comm (nelem q) T) in D2. clear - D1 D2. nia.
Qed.
End Compress.
