(** Proofs about the tape and backward(). *)
From Coq Require Import List Arith Lia Bool.
From Verif Require Import Base GradModel GradSpec.
Import ListNotations.

Section Frame.
Variables OP V : Type.
Notation entry := (entry OP).
Notation gstate := (gstate OP V).
Variable vjp : entry -> V -> list entry * outcome (list V).
Variable vadd : V -> V -> list entry * outcome V.
Variable ones : nat -> outcome V.
Variable is_float : nat -> bool.

(** Everything but the stored gradients is the same. *)
Definition same_but_grads (s s' : gstate) : Prop :=
  computing s' = computing s /\ in_step s' = in_step s /\
  stack s' = stack s /\ next_ctx s' = next_ctx s /\
  tapes s' = tapes s /\ alive s' = alive s /\ req s' = req s.

Lemma sbg_refl : forall s, same_but_grads s s.
Proof. intro s. repeat split. Qed.

Lemma sbg_trans : forall a b c, same_but_grads a b -> same_but_grads b c -> same_but_grads a c.
Proof.
  unfold same_but_grads. intros a b c (A1&A2&A3&A4&A5&A6&A7) (B1&B2&B3&B4&B5&B6&B7).
  repeat split; etransitivity; eauto.
Qed.

Lemma record_computing : forall e (s : gstate), computing s = true -> record e s = s.
Proof. intros e s H. unfold record. now rewrite H. Qed.

Lemma record_all_computing : forall es (s : gstate), computing s = true ->
  record_all es s = s.
Proof.
  unfold record_all. induction es as [|e es IH]; intros s H; simpl; auto.
  rewrite record_computing; auto.
Qed.

Lemma set_grad_frame : forall i g (s s' : gstate) r, set_grad i g s = (s', r) ->
  same_but_grads s s'.
Proof.
  intros i g s s' r H. unfold set_grad in H.
  destruct (alive s i); injection H as <- <-; repeat split.
Qed.

Lemma give_grads_frame : forall ins gs gr (s s' : gstate) gr' r, computing s = true ->
  give_grads vadd ins gs gr s = (s', gr', r) -> same_but_grads s s'.
Proof.
  induction ins as [|i ins IH]; intros gs gr s s' gr' r Hc H; simpl in H.
  { injection H as <- <- <-. apply sbg_refl. }
  destruct gs as [|g gs]; [injection H as <- <- <-; apply sbg_refl|].
  assert (E : forall o, (let '(s1, final) :=
      match gr i with
      | Some old => let '(es, r0) := vadd old g in (record_all es s, r0)
      | None => (s, Ok g)
      end in (s1, final)) = o -> fst o = s).
  { intros o <-. destruct (gr i) as [old|]; auto. destruct (vadd old g) as [es q].
    simpl. now apply record_all_computing. }
  destruct (match gr i with
            | Some old => let '(es, r0) := vadd old g in (record_all es s, r0)
            | None => (s, Ok g)
            end) as [s1 final].
  specialize (E _ eq_refl). simpl in E. subst s1.
  destruct final as [f|x|].
  - destruct (requires s i).
    + destruct (set_grad i f s) as [s2 [u|x|]] eqn:E2;
        pose proof (set_grad_frame _ _ _ _ _ E2) as F2.
      * eapply sbg_trans; [exact F2|]. eapply IH; [|exact H].
        destruct F2 as [-> _]. exact Hc.
      * injection H as <- <- <-. exact F2.
      * injection H as <- <- <-. exact F2.
    + eapply IH; eauto.
  - injection H as <- <- <-. apply sbg_refl.
  - injection H as <- <- <-. apply sbg_refl.
Qed.

Lemma back_loop_frame : forall rt gr (s s' : gstate) gr' r, computing s = true ->
  back_loop vjp vadd rt gr s = (s', gr', r) -> same_but_grads s s'.
Proof.
  induction rt as [|e rt IH]; intros gr s s' gr' r Hc H; simpl in H.
  { injection H as <- <- <-. apply sbg_refl. }
  destruct (gr (e_out e)) as [g|]; [|eapply IH; eauto].
  destruct (forallb _ _); [|injection H as <- <- <-; apply sbg_refl].
  destruct (vjp e g) as [es [gs|x|]].
  - rewrite record_all_computing in H by auto.
    destruct (give_grads vadd (e_ins e) gs gr s) as [[s2 gr2] [u|x|]] eqn:E;
      pose proof (give_grads_frame _ _ _ _ _ _ _ Hc E) as F2.
    + eapply sbg_trans; [exact F2|]. eapply IH; [|exact H].
      destruct F2 as [-> _]. exact Hc.
    + injection H as <- <- <-. exact F2.
    + injection H as <- <- <-. exact F2.
  - injection H as <- <- <-. rewrite record_all_computing by auto. apply sbg_refl.
  - injection H as <- <- <-. rewrite record_all_computing by auto. apply sbg_refl.
Qed.

(** What backward() leaves behind, apart from gradients. *)
Lemma backward_frame : forall loss (s s' : gstate) r, computing s = false ->
  backward vjp vadd ones is_float loss s = (s', r) ->
  computing s' = false /\ in_step s' = in_step s /\ stack s' = stack s /\
  next_ctx s' = next_ctx s /\ alive s' = alive s /\ req s' = req s /\
  match r with
  | Ok _ => tapes s' (active s) = option_map (fun _ => []) (tapes s (active s)) /\
            forall c, c <> active s -> tapes s' c = tapes s c
  | _ => tapes s' = tapes s
  end.
Proof.
  intros loss s s' r Hc H. unfold backward in H.
  destruct (negb (is_float loss)).
  { injection H as <- <-. repeat split; auto. }
  destruct (negb (requires s loss)).
  { injection H as <- <-. repeat split; auto. }
  unfold compute_gradients in H.
  destruct (ones loss) as [g1|x|]; try (injection H as <- <-; repeat split; auto; fail).
  destruct (set_grad loss g1 s) as [s0 r0] eqn:E0.
  pose proof (set_grad_frame _ _ _ _ _ E0) as (F1&F2&F3&F4&F5&F6&F7).
  destruct r0 as [u|x|];
    try (injection H as <- <-; repeat split; auto; rewrite F1; auto; fail).
  cbv zeta in H.
  destruct (back_loop vjp vadd _ _ _) as [[s2 gr2] r2] eqn:E2.
  pose proof (back_loop_frame _ _ _ _ _ _ (eq_refl : computing (set_computing true s0) = true) E2)
    as (G1&G2&G3&G4&G5&G6&G7).
  simpl in G1, G2, G3, G4, G5, G6, G7.
  assert (Ha : active s0 = active s) by (unfold active; now rewrite F3).
  destruct r2 as [u2|x|].
  - injection H as <- <-. unfold clear_tape. simpl. rewrite G5, F5, Ha.
    destruct (tapes s (active s)) as [t|] eqn:Et; simpl;
      repeat split; try congruence.
    + unfold fupd. now rewrite Nat.eqb_refl.
    + intros c Hcn. unfold fupd. apply Nat.eqb_neq in Hcn. now rewrite Hcn.
  - injection H as <- <-. simpl. repeat split; congruence.
  - injection H as <- <-. simpl. repeat split; congruence.
Qed.

Lemma record_tapes : forall e (s : gstate) c, c <> active s ->
  tapes (record e s) c = tapes s c.
Proof.
  intros e s c H. unfold record.
  destruct (computing s), (in_step s); auto. destruct (negb _); auto.
  unfold push_entry. destruct (tapes s (active s)); auto. simpl.
  unfold fupd. apply Nat.eqb_neq in H. now rewrite H.
Qed.

Lemma record_other : forall e (s : gstate),
  computing (record e s) = computing s /\ in_step (record e s) = in_step s /\
  stack (record e s) = stack s /\ next_ctx (record e s) = next_ctx s /\
  alive (record e s) = alive s /\ req (record e s) = req s /\
  grads (record e s) = grads s.
Proof.
  intros e s. unfold record.
  destruct (computing s) eqn:A, (in_step s) eqn:B; repeat split; auto;
  destruct (negb _); auto; unfold push_entry; destruct (tapes s (active s)); auto.
Qed.

Lemma record_in_step : forall e (s : gstate), in_step s = true -> record e s = s.
Proof. intros e s H. unfold record. destruct (computing s); auto. now rewrite H. Qed.

Lemma record_all_in_step : forall es (s : gstate), in_step s = true -> record_all es s = s.
Proof.
  unfold record_all. induction es as [|e es IH]; intros s H; simpl; auto.
  rewrite record_in_step; auto.
Qed.

Fixpoint act_ind' (P : act OP -> Prop)
  (H1 : forall e, P (ARecord e)) (H2 : forall i b, P (ASetReq i b))
  (H3 : forall i, P (AVanish i)) (H3' : forall i, P (AAppear i)) (H4 : forall i, P (ADropLeaf i))
  (H5 : forall l, P (ABackward l)) (H6 : forall o r, P (AStep o r)) (H7 : forall r, P (AZero r))
  (H8 : forall b, Forall P b -> P (AWith b)) (a : act OP) : P a :=
  match a with
  | ARecord e => H1 e
  | ASetReq i b => H2 i b
  | AVanish i => H3 i
  | AAppear i => H3' i
  | ADropLeaf i => H4 i
  | ABackward l => H5 l
  | AStep o r => H6 o r
  | AZero r => H7 r
  | AWith b => H8 b ((fix go l : Forall P l :=
      match l with
      | [] => Forall_nil _
      | x :: l' => Forall_cons _ (act_ind' P H1 H2 H3 H3' H4 H5 H6 H7 H8 x) (go l')
      end) b)
  end.

Notation run1 := (run1 vjp vadd ones is_float).
Notation run := (run vjp vadd ones is_float).

(** A program leaves the context stack as it found it, and the tapes of all
    contexts except the active one. *)
Definition contained (s s' : gstate) : Prop :=
  computing s' = false /\ stack s' = stack s /\ next_ctx s <= next_ctx s' /\
  (forall c, c < next_ctx s -> c <> active s -> tapes s' c = tapes s c) /\
  (tapes s (active s) <> None -> tapes s' (active s) <> None).

Lemma contained_refl : forall s, computing s = false -> contained s s.
Proof. intros s H. repeat split; auto. Qed.

Lemma contained_trans : forall a b c, contained a b -> contained b c -> contained a c.
Proof.
  intros a b c (A1&A2&A3&A4&A5) (B1&B2&B3&B4&B5).
  assert (E : active b = active a) by (unfold active; now rewrite A2).
  rewrite E in *.
  split; [auto|]. split; [congruence|]. split; [lia|]. split; auto.
  intros k Hk Hn. rewrite B4 by (auto; lia). auto.
Qed.

Definition ctx_ok (s : gstate) : Prop :=
  1 <= next_ctx s /\ active s < next_ctx s.

Lemma contained_ok : forall s s', contained s s' -> ctx_ok s -> ctx_ok s'.
Proof.
  intros s s' (A1&A2&A3&A4&A5) [B1 B2]. unfold ctx_ok, active in *. rewrite A2. lia.
Qed.

Lemma run1_contained : forall a s, computing s = false -> ctx_ok s -> contained s (run1 a s).
Proof.
  intro a. induction a using act_ind'; intros s Hc Hok; simpl.
  - destruct (record_other e s) as (R1&R2&R3&R4&R5&R6&R7).
    repeat split; try congruence.
    + rewrite R4. lia.
    + intros c _ Hn. now apply record_tapes.
    + intro Ht. unfold record. destruct (computing s); auto. destruct (in_step s); auto.
      destruct (negb _); auto. unfold push_entry.
      destruct (tapes s (active s)) eqn:E; [|congruence]. simpl. unfold fupd.
      rewrite Nat.eqb_refl. discriminate.
  - repeat split; auto.
  - repeat split; auto.
  - repeat split; auto.
  - unfold drop_leaf. destruct (tapes s (active s)) eqn:E; [|apply contained_refl; auto].
    repeat split; auto; simpl.
    + intros c _ Hn. unfold fupd. apply Nat.eqb_neq in Hn. now rewrite Hn.
    + intros _. unfold fupd. rewrite Nat.eqb_refl. discriminate.
  - destruct (backward vjp vadd ones is_float l s) as [s' r] eqn:E.
    destruct (backward_frame _ _ _ _ Hc E) as (B1&B2&B3&B4&B5&B6&B7). simpl.
    repeat split; auto; try lia.
    + intros c _ Hn. destruct r as [u|x|]; [apply B7; auto|congruence|congruence].
    + intros Ht. destruct r as [u|x|]; try congruence. destruct B7 as [-> _].
      destruct (tapes s (active s)); simpl; congruence.
  - unfold opt_step. rewrite record_all_in_step by auto.
    destruct r; simpl; repeat split; auto.
  - unfold opt_zero_grad. destruct (zero_loop r); simpl; repeat split; auto.
  - assert (G : forall t, computing t = false -> ctx_ok t ->
              contained t (fold_left (fun s a => run1 a s) b t)).
    { clear - H. induction H as [|a b Ha Hb IH]; intros t Hc Hok; simpl.
      - now apply contained_refl.
      - pose proof (Ha t Hc Hok) as C1. eapply contained_trans; [exact C1|].
        apply IH; [apply C1|]. eapply contained_ok; eauto. }
    set (s1 := set_tapes (fupd (tapes s) (next_ctx s) (Some []))
                 (set_stack (next_ctx s :: stack s) (set_next (S (next_ctx s)) s))).
    destruct Hok as [O1 O2].
    specialize (G s1 Hc). destruct G as (A1&A2&A3&A4&A5).
    { unfold ctx_ok, active, s1; simpl; lia. }
    unfold drop_ctx. destruct (Nat.eqb_spec (next_ctx s) 0) as [|_]; [lia|].
    repeat split; simpl.
    + exact A1.
    + rewrite A2. reflexivity.
    + simpl in A3. lia.
    + intros c Hc1 Hn. unfold fupd. destruct (Nat.eqb_spec c (next_ctx s)) as [|_]; [lia|].
      rewrite A4; [|simpl; lia|change (active s1) with (next_ctx s); lia]. simpl. unfold fupd.
      destruct (Nat.eqb_spec c (next_ctx s)); [lia|]. reflexivity.
    + intros Ht. unfold fupd. destruct (Nat.eqb_spec (active s) (next_ctx s)) as [|Hne]; [lia|].
      rewrite A4; [|simpl; lia|change (active s1) with (next_ctx s); lia]. simpl. unfold fupd.
      destruct (Nat.eqb_spec (active s) (next_ctx s)); [lia|]. exact Ht.
Qed.

Lemma run_contained : forall p s, computing s = false -> ctx_ok s -> contained s (run p s).
Proof.
  unfold GradModel.run. induction p as [|a p IH]; intros s Hc Hok; simpl.
  - now apply contained_refl.
  - pose proof (run1_contained a s Hc Hok) as C1. eapply contained_trans; [exact C1|].
    apply IH; [apply C1|]. eapply contained_ok; eauto.
Qed.

Lemma with_outside : forall body s, computing s = false -> ctx_ok s ->
  let s' := run1 (AWith body) s in
  computing s' = false /\ stack s' = stack s /\
  (forall c, c < next_ctx s -> tapes s' c = tapes s c) /\
  tapes s' (next_ctx s) = None.
Proof.
  intros body s Hc [O1 O2]. simpl.
  set (s1 := set_tapes (fupd (tapes s) (next_ctx s) (Some []))
               (set_stack (next_ctx s :: stack s) (set_next (S (next_ctx s)) s))).
  assert (Hok1 : ctx_ok s1) by (unfold ctx_ok, active, s1; simpl; lia).
  destruct (run_contained body s1 Hc Hok1) as (A1&A2&A3&A4&A5).
  unfold GradModel.run in *.
  unfold drop_ctx. destruct (Nat.eqb_spec (next_ctx s) 0) as [|_]; [lia|]. simpl.
  split; [exact A1|]. split; [rewrite A2; reflexivity|]. split.
  - intros c Hlt. unfold fupd. destruct (Nat.eqb_spec c (next_ctx s)) as [|_]; [lia|].
    rewrite A4; [|simpl; lia|change (active s1) with (next_ctx s); lia]. simpl. unfold fupd.
    destruct (Nat.eqb_spec c (next_ctx s)); [lia|]. reflexivity.
  - unfold fupd. now rewrite Nat.eqb_refl.
Qed.

Lemma init_ok : ctx_ok (@init OP V).
Proof. unfold ctx_ok, active; simpl; lia. Qed.
End Frame.
