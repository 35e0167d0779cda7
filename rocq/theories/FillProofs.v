From Coq Require Import List Arith ZArith Bool Lia.
From Verif Require Import Base IndexSpec LayoutModel ViewSpec LayoutProofs KernelModel KernelProofs TensorModel TensorSpec TensorProofs
  ScanModel SortModel EncodeModel CountProofs2.
From Verif Require Import TileModel TileProofs4 LaunchModel LaunchSpec LaunchProofs LaunchProofs2 FillModel.
Import ListNotations.
Local Open Scope nat_scope.

Section Fill.
Context {A : Type}.
Variables (N : nat) (v : A).
(** the step writes [v] to the cells of [R] and to no other *)
Definition fills (step : list A -> option (list A)) (R : nat -> Prop) : Prop :=
  forall out, length out = N -> exists out', step out = Some out' /\ length out' = N /\
    (forall q, nth_error out' q = Some v \/ nth_error out' q = nth_error out q) /\
    (forall q, R q -> nth_error out' q = Some v) /\
    (forall q, ~ R q -> nth_error out' q = nth_error out q).
Lemma fills_store : forall p, p < N -> fills (fun o => c_store o p v) (eq p).
Proof.
  intros p P out L. exists (upd out p v). rewrite c_store_some by lia. split; [reflexivity|].
  split; [now rewrite upd_length|]. split; [|split].
  - intro q. destruct (Nat.eq_dec p q) as [<- | NE]; [left; apply nth_error_upd_eq; lia|right; now apply nth_error_upd_neq].
  - intros q <-. apply nth_error_upd_eq. lia.
  - intros q NE. now apply nth_error_upd_neq.
Qed.
Lemma fills_loop : forall X (step : X -> list A -> option (list A)) (R : X -> nat -> Prop) ks,
  (forall k, In k ks -> fills (step k) (R k)) -> fills (loopO step ks) (fun q => exists k, In k ks /\ R k q).
Proof.
  intros X step R. induction ks as [|k ks IH]; intros H out L.
  - exists out. split; [reflexivity|]. split; [exact L|]. split; [intro q; now right|]. split; [intros q (k & [] & _)|reflexivity].
  - destruct (H k (or_introl eq_refl) out L) as (o1 & E1 & L1 & K1 & R1 & U1).
    destruct (IH (fun k' I => H k' (or_intror I)) o1 L1) as (o2 & E2 & L2 & K2 & R2 & U2).
    exists o2. cbn [loopO]. rewrite E1. cbn [obind]. split; [exact E2|]. split; [exact L2|]. split; [|split].
    + intro q. destruct (K2 q) as [|E]; [now left|]. rewrite E. apply K1.
    + intros q (k' & [<- | I] & RQ); [|apply R2; eauto]. destruct (K2 q) as [|E]; [assumption|]. rewrite E. now apply R1.
    + intros q NR. rewrite U2, U1; [reflexivity| |]; intro H1; apply NR; [exists k; split; [now left|exact H1]|].
      destruct H1 as (k' & I & RQ). exists k'. split; [now right|exact RQ].
Qed.
Lemma fills_same : forall f g R, (forall out, f out = g out) -> fills f R -> fills g R.
Proof. intros f g R E F out L. rewrite <- E. now apply F. Qed.

(** ** The contiguous loop on the CPU *)
Lemma seq_for_loop : forall n s (out : list A), seq_for_from s n (fun _ => Some v) out = loopO (fun i o => c_store o i v) (seq s n) out.
Proof.
  induction n as [|n IH]; intros s out; [reflexivity|]. cbn [seq_for_from seq loopO obind].
  destruct (c_store out s v); [|reflexivity]. cbn [obind]. apply IH.
Qed.
Lemma run_sched_outside : forall sch ths (out out' : list A) q,
  run_sched (fun _ => Some v) sch ths out = Some out' ->
  (forall t x y, nth_error ths t = Some (x, y) -> ~ (x <= q < y)) -> nth_error out' q = nth_error out q.
Proof.
  induction sch as [|t sch IH]; intros ths out out' q E H; cbn [run_sched] in E; [congruence|].
  destruct (nth_error ths t) as [[x y]|] eqn:T; [|now apply (IH ths)]. destruct (x <? y) eqn:B; [|now apply (IH ths)].
  apply Nat.ltb_lt in B. cbn [obind] in E. unfold c_store in E. destruct (x <? length out) eqn:B2; [|discriminate]. cbn [obind] in E.
  rewrite (IH _ _ _ q E).
  - apply nth_error_upd_neq. intros ->. apply (H t q y T). lia.
  - intros t' x' y' T'. destruct (Nat.eq_dec t t') as [<- | NE].
    + rewrite nth_error_upd_eq in T' by (apply nth_error_Some; congruence). injection T' as <- <-. specialize (H t x y T). lia.
    + rewrite nth_error_upd_neq in T' by exact NE. exact (H t' x' y' T').
Qed.
Lemma fill_contiguous_spec : forall e n offset, env_ok e -> offset + n <= N ->
  fills (fill_contiguous e n offset v) (fun q => offset <= q < offset + n).
Proof.
  intros e n offset [M J] B. unfold fill_contiguous. destruct (1 <? get_optimal_threads e n) eqn:K.
  - apply Nat.ltb_lt in K. set (k := get_optimal_threads e n) in *. destruct (chunks_cover n k ltac:(lia)) as [CI CC].
    intros out L.
    assert (SH : forall t x y, nth_error (shifted offset (chunks n k)) t = Some (x, y) ->
      exists x' y', nth_error (chunks n k) t = Some (x', y') /\ x = offset + x' /\ y = offset + y').
    { intros t x y T. unfold shifted in T. rewrite nth_error_map in T. destruct (nth_error (chunks n k) t) as [[x' y']|]; [|discriminate].
      injection T as <- <-. eauto. }
    destruct (run_sched_spec A (fun _ => v) (fun _ => Some v) (sched e n) (shifted offset (chunks n k)) out) as (out' & E & LO & W).
    { reflexivity. }
    { intros t x y T. destruct (SH t x y T) as (x' & y' & T' & -> & ->). specialize (CI t x' y' T'). lia. }
    assert (IN : forall q, offset <= q < offset + n -> nth_error out' q = Some v).
    { intros q Q. apply W; [lia|]. right. destruct (CC (q - offset) ltac:(lia)) as (t & x & y & T & XY).
      exists t, (offset + x), (offset + y). split; [unfold shifted; now rewrite nth_error_map, T|].
      specialize (J n t x y T). lia. }
    assert (OUT : forall q, ~ (offset <= q < offset + n) -> nth_error out' q = nth_error out q).
    { intros q Q. apply (run_sched_outside _ _ _ _ _ E). intros t x y T XY. destruct (SH t x y T) as (x' & y' & T' & -> & ->).
      specialize (CI t x' y' T'). lia. }
    exists out'. split; [exact E|]. split; [lia|]. split; [|split; [exact IN|exact OUT]].
    intro q. destruct (Nat.le_gt_cases offset q) as [Q1|Q1]; [|right; apply OUT; lia].
    destruct (Nat.lt_ge_cases q (offset + n)) as [Q2|Q2]; [left; apply IN; lia|right; apply OUT; lia].
  - pose proof (fills_loop nat (fun i o => c_store o i v) (fun p => eq p) (seq offset n)) as F.
    intros out L. rewrite seq_for_loop. destruct (F ltac:(intros p P; apply in_seq in P; apply fills_store; lia) out L) as (o & E & LO & K1 & R1 & U1).
    exists o. split; [exact E|]. split; [exact LO|]. split; [exact K1|]. split.
    + intros q Q. apply R1. exists q. split; [apply in_seq; lia|reflexivity].
    + intros q Q. apply U1. intros (p & P & ->). apply in_seq in P. lia.
Qed.
End Fill.

(** ** The whole operation *)
Lemma fill_md : forall l, wf_layout l -> fill_metadata l = unary_metadata l l.
Proof.
  intros l W. unfold fill_metadata, unary_metadata. rewrite firstn_all2; [reflexivity|]. unfold wf_layout in W. lia.
Qed.
Section Whole.
Context {A : Type}.
Definition addressed (l : layout) (q : nat) : Prop := exists i, valid (lshape l) i /\ addr l i = q.
Lemma addressed_at : forall l q, addressed l q <-> exists k, k < nelem (lshape l) /\ addr l (unravel (lshape l) k) = q.
Proof.
  intros l q. split.
  - intros (i & V & <-). exists (ravel (lshape l) i). split; [now apply ravel_lt|]. now rewrite unravel_ravel.
  - intros (k & K & <-). exists (unravel (lshape l) k). split; [now apply unravel_valid|reflexivity].
Qed.
Lemma cpu_const_set_spec : forall e (st : list A) l (v : A), env_ok e -> good (mkT st l) -> (length (lshape l) = 0 -> loffset l = 0) ->
  fills (length st) v (fun o => cpu_const_set e o v (fill_metadata l)) (addressed l).
Proof.
  intros e st l v EO [W IB] Z0. cbn [tlay tstore tshape] in W, IB. change (tshape (mkT st l)) with (lshape l) in IB.
  rewrite fill_md by exact W. destruct (unary_md l W) as (E0 & E1 & E2 & E3 & E4).
  unfold cpu_const_set. intros out L. rewrite E0. cbn [obind]. rewrite E1. cbn [obind]. rewrite E2. cbn [obind]. rewrite E3. cbn [obind].
  assert ((if 0 <? length (lshape l) then nth_error (unary_metadata l l) (2 + 2 * length (lshape l)) else Some 0) = Some (loffset l)) as ->.
  { destruct (length (lshape l)) as [|r] eqn:R; cbn [Nat.ltb Nat.leb]; [now rewrite Z0|]. exact E4. }
  cbn [obind]. destruct (c_is_contiguous (lshape l) (lstrides l)) eqn:C.
  - destruct (Nat.eq_dec (nelem (lshape l)) 0) as [NZ|NZ].
    + rewrite NZ. exists out. unfold fill_contiguous, get_optimal_threads.
      replace (0 <? min_work e * 2) with true by (destruct EO as [EO _]; symmetry; apply Nat.ltb_lt; lia).
      split; [reflexivity|]. split; [exact L|]. split; [intro; now right|]. split; [|reflexivity].
      intros q (k & K & _)%addressed_at. lia.
    + assert (B : loffset l + nelem (lshape l) <= length st).
      { pose proof (addr_contig_k l (nelem (lshape l) - 1) W C ltac:(lia)) as AD.
        assert (V : valid (lshape l) (unravel (lshape l) (nelem (lshape l) - 1))) by (apply unravel_valid; lia).
        specialize (IB _ V). rewrite AD in IB. lia. }
      destruct (fill_contiguous_spec (length st) v e (nelem (lshape l)) (loffset l) EO B out L) as (o & E & LO & K & R & U).
      assert (EQ : forall q, addressed l q <-> loffset l <= q < loffset l + nelem (lshape l)).
      { intro q. rewrite addressed_at. split.
        - intros (k & KK & <-). rewrite addr_contig_k by assumption. lia.
        - intro Q. exists (q - loffset l). split; [lia|]. rewrite addr_contig_k by (auto; lia). lia. }
      exists o. split; [exact E|]. split; [exact LO|]. split; [exact K|]. split; intros q Q; [apply R|apply U]; now rewrite <- EQ.
  - destruct (fills_loop (length st) v nat (fun i o => let? p := c_strided i (lshape l) (lstrides l) in c_store o (loffset l + p) v)
      (fun i q => addr l (unravel (lshape l) i) = q) (seq 0 (nelem (lshape l)))) with (out := out) as (o & E & LO & K & R & U).
    + intros k I out1 L1. apply in_seq in I. rewrite c_strided_spec by (auto; lia). cbn [obind].
      apply fills_store; [|exact L1]. apply (IB (unravel (lshape l) k)). apply unravel_valid. lia.
    + exact L.
    + assert (EQ : forall q, addressed l q <-> exists k, In k (seq 0 (nelem (lshape l))) /\ addr l (unravel (lshape l) k) = q).
      { intro q. rewrite addressed_at. split; intros (k & I & H); exists k; (split; [|exact H]); [apply in_seq; lia|apply in_seq in I; lia]. }
      exists o. split; [exact E|]. split; [exact LO|]. split; [exact K|]. split; intros q Q; [apply R|apply U]; now rewrite <- EQ.
Qed.
Lemma cuda_const_set_spec : forall launch (st : list A) l (v : A), ending launch -> good (mkT st l) ->
  (Z.of_nat (nelem (lshape l)) <= 2 ^ 32 - 256)%Z ->
  (c_is_contiguous (lshape l) (lstrides l) = true \/ forall i, valid (lshape l) i -> (Z.of_nat (addr l i) < 2 ^ 32)%Z) ->
  fills (length st) v (fun o => cuda_const_set launch o v (fill_metadata l)) (addressed l).
Proof.
  intros launch st l v EN [W IB] C32 NEAR. cbn [tlay tstore tshape] in W, IB. change (tshape (mkT st l)) with (lshape l) in IB.
  rewrite fill_md by exact W. destruct (unary_md l W) as (E0 & E1 & E2 & E3 & E4).
  unfold cuda_const_set. intros out L. rewrite E0. cbn [obind]. rewrite E1. cbn [obind]. rewrite E2. cbn [obind]. rewrite E3. cbn [obind].
  rewrite E4. cbn [obind]. set (n := nelem (lshape l)) in *.
  pose proof (short_each n (launch n) C32 (EN n C32)) as EA. set (ids := log (execute Short n (launch n))) in *.
  set (step := fun i (o : list A) => let? p := _ in c_store o p v).
  destruct (fills_loop (length st) v nat step (fun i q => addr l (unravel (lshape l) i) = q) ids) with (out := out) as (o & E & LO & K & R & U).
  - intros k I out1 L1. apply EA in I. unfold step.
    assert (V : valid (lshape l) (unravel (lshape l) k)) by now apply unravel_valid.
    assert ((if c_is_contiguous (lshape l) (lstrides l) then Some (loffset l + k)
             else let? q := strided32 k (lshape l) (lstrides l) in Some (as_u32 (loffset l + q))) = Some (addr l (unravel (lshape l) k))) as ->.
    { destruct (c_is_contiguous (lshape l) (lstrides l)) eqn:C; [now rewrite addr_contig_k|].
      destruct NEAR as [|NEAR]; [discriminate|]. specialize (NEAR _ V). unfold strided32. rewrite c_strided_spec by auto. cbn [obind].
      unfold addr in *. rewrite (as_u32_id (dot _ _)) by lia. now rewrite as_u32_id by lia. }
    cbn [obind]. apply fills_store; [|exact L1]. now apply IB.
  - exact L.
  - assert (EQ : forall q, addressed l q <-> exists k, In k ids /\ addr l (unravel (lshape l) k) = q).
    { intro q. rewrite addressed_at. split; intros (k & I & H); exists k; (split; [|exact H]); now apply EA. }
    exists o. split; [exact E|]. split; [exact LO|]. split; [exact K|]. split; intros q Q; [apply R|apply U]; now rewrite <- EQ.
Qed.
End Whole.
