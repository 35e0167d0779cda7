(** backward() as a whole: path sums, order of the tape, the transposed derivative. *)
From Coq Require Import List Arith Lia Bool Sorted.
From Verif Require Import Base GradModel GradSpec GradProofs GradProofs2.
Import ListNotations.

Section Backward.
Variables OP V : Type.
Notation entry := (entry OP).
Notation gstate := (gstate OP V).
Notation step := (step OP).
Variable vjp : entry -> V -> list entry * outcome (list V).
Variable vadd : V -> V -> list entry * outcome V.
Variable ones : nat -> outcome V.
Variable is_float : nat -> bool.
Variable plus : V -> V -> V.
Variable J : entry -> nat -> V -> V.

Definition rules_ok (tape : list entry) : Prop :=
  (forall a b, snd (vadd a b) = Ok (plus a b)) /\
  (forall e, In e tape -> forall g,
     snd (vjp e g) = Ok (map (fun k => J e k g) (seq 0 (length (e_ins e))))) /\
  (forall e, In e tape -> forall k a b, J e k (plus a b) = plus (J e k a) (J e k b)).

Hypothesis Hassoc : forall a b c, plus a (plus b c) = plus (plus a b) c.

Lemma backward_unfold : forall loss seed (s : gstate),
  ones loss = Ok seed -> is_float loss = true -> requires s loss = true ->
  backward vjp vadd ones is_float loss s =
  let s1 := set_computing true (set_grads (fupd (grads s) loss (Some seed)) s) in
  let '(s2, _, r) := back_loop vjp vadd (rev (get_tape (active s) s))
                       (fupd (fun _ => None) loss (Some seed)) s1 in
  match r with
  | Ok _ => (clear_tape (active s) (set_computing false s2), Ok tt)
  | Err x => (set_computing false s2, Err x)
  | Panic => (set_computing false s2, Panic)
  end.
Proof.
  intros loss seed s Ho Hf Hr. unfold backward. rewrite Hf, Hr. simpl.
  unfold compute_gradients. rewrite Ho. unfold set_grad.
  apply andb_true_iff in Hr. destruct Hr as [-> _]. reflexivity.
Qed.

Lemma backward_requires : forall loss (s s' : gstate),
  backward vjp vadd ones is_float loss s = (s', Ok tt) ->
  is_float loss = true /\ requires s loss = true /\ exists seed, ones loss = Ok seed.
Proof.
  intros loss s s' H. unfold backward in H.
  destruct (is_float loss); [|discriminate].
  destruct (requires s loss); [|discriminate]. simpl in H. split; auto. split; auto.
  unfold compute_gradients in H. destruct (ones loss) as [g|x|]; try discriminate. eauto.
Qed.

Lemma backward_paths : forall loss seed (s s' : gstate),
  ones loss = Ok seed -> rules_ok (get_tape (active s) s) ->
  backward vjp vadd ones is_float loss s = (s', Ok tt) ->
  forall x, grads s' x =
    if requires s x && extended OP (paths OP loss (get_tape (active s) s) 0 x)
    then osum plus (map (along J seed) (paths OP loss (get_tape (active s) s) 0 x))
    else if Nat.eqb x loss then Some seed else grads s x.
Proof.
  intros loss seed s s' Ho (R1 & R2 & R3) H.
  destruct (backward_requires _ _ _ H) as (Hf & Hr & _).
  rewrite (backward_unfold loss seed) in H by auto. cbv zeta in H.
  set (tape := get_tape (active s) s) in *.
  destruct (back_loop _ _ _ _ _) as [[s2 gr2] r] eqn:E.
  destruct (back_loop_paths OP V vjp vadd plus J R1 Hassoc tape loss seed
              (set_computing true (set_grads (fupd (grads s) loss (Some seed)) s)) tape 0
              (fun e h => h) R2 R3 eq_refl _ _ _ E) as [D Q].
  destruct r as [u|x|]; try discriminate.
  destruct D as [D|[D _]]; [|discriminate]. injection D as ->.
  destruct (Q eq_refl) as (F & G & R). injection H as <-.
  intro x. unfold clear_tape. simpl.
  assert (Eg : forall t, grads (match tapes s2 (active s) with
                | Some _ => set_tapes t (set_computing false s2)
                | None => set_computing false s2 end) x = grads s2 x)
    by (intro t; destruct (tapes s2 (active s)); reflexivity).
  rewrite Eg, R, G.
  change (requires (set_computing true (set_grads (fupd (grads s) loss (Some seed)) s)) x)
    with (requires s x).
  destruct (requires s x && _); auto.
Qed.

(** Success is guaranteed when all operands are still there. *)
Lemma backward_succeeds : forall loss seed (s : gstate),
  ones loss = Ok seed -> is_float loss = true -> requires s loss = true ->
  rules_ok (get_tape (active s) s) ->
  (forall e i, In e (get_tape (active s) s) -> In i (e_ins e) -> alive s i = true) ->
  exists s', backward vjp vadd ones is_float loss s = (s', Ok tt).
Proof.
  intros loss seed s Ho Hf Hr (R1 & R2 & R3) Ha.
  rewrite (backward_unfold loss seed) by auto. cbv zeta.
  set (tape := get_tape (active s) s) in *.
  destruct (back_loop _ _ _ _ _) as [[s2 gr2] r] eqn:E.
  destruct (back_loop_paths OP V vjp vadd plus J R1 Hassoc tape loss seed
              (set_computing true (set_grads (fupd (grads s) loss (Some seed)) s)) tape 0
              (fun e h => h) R2 R3 eq_refl _ _ _ E) as [D _].
  destruct D as [->|[-> [e [He Hb]]]]; [eauto|]. exfalso.
  assert (forallb (alive s) (e_ins e) = true); [|simpl in Hb; congruence].
  apply forallb_forall. intros i Hi. eauto.
Qed.
End Backward.

(** *** Recording keeps the tape in order *)
Section Order.
Variables OP V : Type.
Notation entry := (entry OP).
Notation gstate := (gstate OP V).
Variable vjp : entry -> V -> list entry * outcome (list V).
Variable vadd : V -> V -> list entry * outcome V.
Variable ones : nat -> outcome V.
Variable is_float : nat -> bool.
Notation run1 := (run1 vjp vadd ones is_float).
Notation run := (run vjp vadd ones is_float).

(** The operations a program performs, in program order. *)
Fixpoint ops_of (a : act OP) : list entry :=
  match a with
  | ARecord e => [e]
  | AStep ops _ => ops
  | AWith b => flat_map ops_of b
  | _ => []
  end.

(** Ids come from one counter: each result's id exceeds those of its operands
    and of all results before it. *)
Fixpoint counted (m : nat) (l : list entry) : Prop :=
  match l with
  | [] => True
  | e :: l' => m <= e_out e /\ Forall (fun i => i < e_out e) (e_ins e) /\ counted (S (e_out e)) l'
  end.
Definition after (m : nat) (l : list entry) : nat := fold_left (fun _ e => S (e_out e)) l m.

Lemma counted_app : forall l1 l2 m, counted m (l1 ++ l2) <-> counted m l1 /\ counted (after m l1) l2.
Proof.
  induction l1 as [|e l1 IH]; intros l2 m; simpl; [tauto|].
  rewrite IH. unfold after. simpl. tauto.
Qed.

Lemma after_app : forall l1 l2 m, after m (l1 ++ l2) = after (after m l1) l2.
Proof. intros. unfold after. apply fold_left_app. Qed.

Lemma after_le : forall l m, counted m l -> m <= after m l.
Proof.
  induction l as [|e l IH]; intros m H; simpl; auto. destruct H as (H1 & H2 & H3).
  apply IH in H3. unfold after in *. simpl. lia.
Qed.

Definition tape_ok (m : nat) (t : list entry) : Prop :=
  StronglySorted (fun e f => e_out e < e_out f) t /\
  Forall (fun e => Forall (fun i => i < e_out e) (e_ins e)) t /\
  Forall (fun e => e_out e < m) t.
Definition tapes_ok (m : nat) (s : gstate) : Prop :=
  forall c t, tapes s c = Some t -> tape_ok m t.

Lemma tape_ok_mono : forall m m' t, m <= m' -> tape_ok m t -> tape_ok m' t.
Proof.
  intros m m' t H (A & B & C). split; auto. split; auto.
  eapply Forall_impl; [|exact C]. simpl. lia.
Qed.

Lemma tape_ok_nil : forall m, tape_ok m [].
Proof. intro m. repeat split; constructor. Qed.

Lemma SS_snoc : forall A (R : A -> A -> Prop) l x, StronglySorted R l -> Forall (fun y => R y x) l ->
  StronglySorted R (l ++ [x]).
Proof.
  induction l as [|y l IH]; intros x Hs Hf; simpl.
  - repeat constructor.
  - inversion Hs; subst. inversion Hf; subst. constructor; auto.
    apply Forall_app. split; auto.
Qed.

Lemma SS_filter : forall A (R : A -> A -> Prop) f l, StronglySorted R l -> StronglySorted R (filter f l).
Proof.
  induction l as [|y l IH]; intro Hs; simpl; [constructor|].
  inversion Hs; subst. destruct (f y); auto. constructor; auto.
  apply Forall_forall. intros x Hx. apply filter_In in Hx. destruct Hx as [Hx _].
  rewrite Forall_forall in H2. auto.
Qed.

Lemma Forall_filter : forall A (P : A -> Prop) f l, Forall P l -> Forall P (filter f l).
Proof.
  intros A P f l H. apply Forall_forall. intros x Hx. apply filter_In in Hx.
  rewrite Forall_forall in H. apply H. tauto.
Qed.

Lemma tape_ok_snoc : forall m t e, tape_ok m t -> m <= e_out e ->
  Forall (fun i => i < e_out e) (e_ins e) -> tape_ok (S (e_out e)) (t ++ [e]).
Proof.
  intros m t e (A & B & C) Hm Hi. repeat split.
  - apply SS_snoc; auto. eapply Forall_impl; [|exact C]. simpl. lia.
  - apply Forall_app. auto.
  - apply Forall_app. split; auto. eapply Forall_impl; [|exact C]. simpl. lia.
Qed.

Lemma record_ok : forall e m s, tapes_ok m s -> counted m [e] ->
  tapes_ok (S (e_out e)) (record e s).
Proof.
  intros e m s H [Hm [Hi _]] c t Ht.
  assert (D : tapes s c = Some t \/ exists t0, tapes s c = Some t0 /\ t = t0 ++ [e]).
  { unfold record in Ht. destruct (computing s); auto. destruct (in_step s); auto.
    destruct (negb _); auto. unfold push_entry in Ht.
    destruct (tapes s (active s)) as [t0|] eqn:E; auto. simpl in Ht. unfold fupd in Ht.
    destruct (Nat.eqb_spec c (active s)) as [->|]; auto. injection Ht as <-. eauto. }
  destruct D as [D|(t0 & D & ->)].
  - eapply tape_ok_mono; [|eapply H; eauto]. lia.
  - eapply tape_ok_snoc; eauto.
Qed.

Lemma tapes_ok_same : forall m m' s s', m <= m' -> tapes_ok m s ->
  (forall c, tapes s' c = tapes s c) -> tapes_ok m' s'.
Proof.
  intros m m' s s' Hm H E c t Ht. rewrite E in Ht. eapply tape_ok_mono; [exact Hm|]. eauto.
Qed.

Lemma run1_ok : forall a m s, computing s = false -> ctx_ok OP V s -> tapes_ok m s ->
  counted m (ops_of a) -> tapes_ok (after m (ops_of a)) (run1 a s).
Proof.
  intro a. induction a using act_ind'; intros m s Hc Hk Hs Ho; simpl in *.
  - apply (record_ok e m); auto.
  - exact Hs.
  - exact Hs.
  - exact Hs.
  - unfold drop_leaf. destruct (tapes s (active s)) as [t|] eqn:E; [|exact Hs].
    intros c t' Ht. simpl in Ht. unfold fupd in Ht.
    destruct (Nat.eqb_spec c (active s)) as [->|]; [|eapply Hs; eauto].
    injection Ht as <-. destruct (Hs _ _ E) as (A & B & C).
    repeat split; auto using SS_filter, Forall_filter.
  - destruct (backward _ _ _ _ _ _) as [s' r] eqn:E.
    destruct (backward_frame _ _ _ _ _ _ _ _ _ _ Hc E) as (_&_&_&_&_&_&B). simpl.
    intros c t Ht. destruct r as [u|x|]; try (rewrite B in Ht; eapply Hs; eauto; fail).
    destruct B as [B1 B2]. destruct (Nat.eq_dec c (active s)) as [->|Hn].
    + rewrite B1 in Ht. destruct (tapes s (active s)); [|discriminate].
      injection Ht as <-. apply tape_ok_nil.
    + rewrite B2 in Ht by auto. eapply Hs; eauto.
  - unfold opt_step. rewrite record_all_in_step by auto.
    eapply tapes_ok_same with (m := m) (s := s); auto.
    + now apply after_le.
    + intro c. destruct r; reflexivity.
  - unfold opt_zero_grad. destruct (zero_loop r); exact Hs.
  - set (s1 := set_tapes (fupd (tapes s) (next_ctx s) (Some []))
                 (set_stack (next_ctx s :: stack s) (set_next (S (next_ctx s)) s))).
    assert (H1 : tapes_ok m s1).
    { intros c t Ht. simpl in Ht. unfold fupd in Ht.
      destruct (Nat.eqb c (next_ctx s)); [injection Ht as <-; apply tape_ok_nil|eapply Hs; eauto]. }
    assert (Hk1 : ctx_ok OP V s1) by (unfold ctx_ok, active, s1; destruct Hk; simpl; lia).
    assert (G : forall b m t, Forall (fun a => forall m s, computing s = false -> ctx_ok OP V s ->
                 tapes_ok m s -> counted m (ops_of a) ->
                 tapes_ok (after m (ops_of a)) (run1 a s)) b ->
              computing t = false -> ctx_ok OP V t -> tapes_ok m t -> counted m (flat_map ops_of b) ->
              tapes_ok (after m (flat_map ops_of b)) (fold_left (fun s a => run1 a s) b t)).
    { clear. induction b as [|a b IH]; intros m t HF Hc Hk Ht Ho; simpl; auto.
      inversion HF; subst. simpl in Ho. apply counted_app in Ho. destruct Ho as [Ho1 Ho2].
      rewrite after_app.
      pose proof (run1_contained _ _ vjp vadd ones is_float a t Hc Hk) as C.
      apply IH; auto.
      - apply C.
      - eapply contained_ok; eauto. }
    specialize (G b m s1 H Hc Hk1 H1 Ho).
    intros c t Ht. unfold drop_ctx in Ht. destruct (Nat.eqb (next_ctx s) 0).
    + eapply G; eauto.
    + simpl in Ht. unfold fupd in Ht. destruct (Nat.eqb c (next_ctx s)); [discriminate|].
      eapply G; eauto.
Qed.

Lemma run_ok : forall p m s, computing s = false -> ctx_ok OP V s -> tapes_ok m s ->
  counted m (flat_map ops_of p) -> tapes_ok (after m (flat_map ops_of p)) (run p s).
Proof.
  unfold GradModel.run. induction p as [|a p IH]; intros m s Hc Hk Hs Ho; simpl; auto.
  simpl in Ho. apply counted_app in Ho. destruct Ho as [Ho1 Ho2]. rewrite after_app.
  pose proof (run1_contained _ _ vjp vadd ones is_float a s Hc Hk) as C.
  apply IH; auto.
  - apply C.
  - eapply contained_ok; eauto.
  - apply run1_ok; auto.
Qed.

Lemma SS_nth : forall A (R : A -> A -> Prop) l, StronglySorted R l ->
  forall i j x y, i < j -> nth_error l i = Some x -> nth_error l j = Some y -> R x y.
Proof.
  induction l as [|a l IH]; intros Hs i j x y Hij Hi Hj; [destruct i; discriminate|].
  inversion Hs; subst. destruct j as [|j]; [lia|]. simpl in Hj. destruct i as [|i]; simpl in Hi.
  - injection Hi as ->. rewrite Forall_forall in H2. apply H2. eapply nth_error_In; eauto.
  - apply (IH H1 i j x y); auto; lia.
Qed.

Lemma tape_ok_ordered : forall m t, tape_ok m t -> ordered t.
Proof.
  intros m t (A & B & C) i j e f Hi Hj Hle Hin.
  rewrite Forall_forall in B. pose proof (B e (nth_error_In _ _ Hi)) as Be.
  rewrite Forall_forall in Be. apply Be in Hin. cbv beta in Hin.
  destruct (Nat.eq_dec i j) as [->|Hne].
  - rewrite Hi in Hj. injection Hj as ->. lia.
  - assert (i < j) as Hlt by lia. pose proof (SS_nth _ _ _ A _ _ _ _ Hlt Hi Hj). simpl in H. lia.
Qed.

Lemma tape_ok_distinct : forall m t, tape_ok m t -> NoDup (map (@e_out OP) t).
Proof.
  intros m t (A & _ & _). induction A as [|e t Ht IH Hf]; simpl; constructor; auto.
  rewrite in_map_iff. intros [f [E Hin]]. rewrite Forall_forall in Hf.
  apply Hf in Hin. lia.
Qed.

Lemma init_tapes_ok : tapes_ok 0 (@init OP V).
Proof.
  intros c t H. simpl in H. destruct (Nat.eqb c 0); [injection H as <-; apply tape_ok_nil|discriminate].
Qed.

Lemma recorded_ok : forall p c t, counted 0 (flat_map ops_of p) ->
  tapes (run p init) c = Some t -> ordered t /\ NoDup (map (@e_out OP) t).
Proof.
  intros p c t Ho Ht.
  pose proof (run_ok p 0 init eq_refl (init_ok OP V) init_tapes_ok Ho c t Ht) as H.
  split; [eapply tape_ok_ordered|eapply tape_ok_distinct]; eauto.
Qed.
End Order.
