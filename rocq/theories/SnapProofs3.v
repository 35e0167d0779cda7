(** The snapshot of a recorded board. *)
From Coq Require Import List Arith Bool Lia Sorted.
From Verif Require Import Base SnapModel SnapSpec SnapProofs SnapProofs2.
Import ListNotations.

Lemma sorted_nodup : forall l : list nat, StronglySorted lt l -> NoDup l.
Proof.
  induction 1 as [|x l H IH F]; constructor; auto. intro Hi. rewrite Forall_forall in F. specialize (F x Hi). lia.
Qed.
Lemma sorted_filter : forall A (g : A -> nat) (p : A -> bool) l, StronglySorted lt (map g l) ->
  StronglySorted lt (map g (filter p l)).
Proof.
  induction l as [|x l IH]; intro H; simpl in *; auto. inversion H; subst. destruct (p x); simpl; auto.
  constructor; auto. rewrite Forall_forall in *. intros y Hy. apply H3. apply in_map_iff in Hy.
  destruct Hy as (z & <- & Hz). apply filter_In in Hz. apply in_map. tauto.
Qed.
Lemma min_list_le : forall l x, In x l -> min_list l <= x.
Proof.
  intros [|a l] x Hx; simpl in *; [contradiction|].
  assert (G : forall l a, fold_left Nat.min l a <= a /\ forall y, In y l -> fold_left Nat.min l a <= y).
  { clear. induction l as [|b l IH]; intro a; simpl; [split; [lia|intros y []]|].
    destruct (IH (Nat.min a b)) as [H1 H2]. split; [lia|]. intros y [<-|Hy]; [lia|auto]. }
  destruct (G l a) as [G1 G2]. destruct Hx as [<-|Hx]; auto.
Qed.

Section Snapshot.
  Context {O V : Type}.
  Variable f : O -> list V -> nat -> V.
  Variable dflt : V.
  Variable sg : nat -> V.
  Variable s : sess O V.
  Variable val : nat -> V.
  Hypothesis Hok : board_ok f sg s val.

  Definition off : nat := id_offset (b_inputs s) (b_targets s) (kept s).
  Definition said : list nat := mentioned (b_inputs s) (b_targets s) (kept s).
  Definition wanted (i : nat) : Prop := needed (b_targets s) (b_ops s) i.

  Lemma outs_nodup : NoDup (map n_out (b_ops s)).
  Proof. apply sorted_nodup, (ok_sorted _ _ _ _ Hok). Qed.
  Lemma reach_wanted : forall i, In i (reachable (b_targets s) (b_ops s)) <-> wanted i.
  Proof. apply reachable_needed, outs_nodup. Qed.
  Lemma kept_In : forall n, In n (kept s) <-> In n (b_ops s) /\ wanted (n_out n).
  Proof. intro n. unfold kept. rewrite filter_In, memb_In, reach_wanted. tauto. Qed.

  Lemma off_le : forall i, In i said -> off <= i.
  Proof. intros i Hi. apply min_list_le, Hi. Qed.
  Lemma shift_eq : forall i j, In i said -> In j said -> (i - off = j - off <-> i = j).
  Proof. intros i j Hi Hj. apply off_le in Hi, Hj. lia. Qed.

  Lemma said_input : forall i, In i (b_inputs s) -> In i said.
  Proof. intros. unfold said, mentioned. apply in_or_app. auto. Qed.
  Lemma said_target : forall i, In i (b_targets s) -> In i said.
  Proof. intros. unfold said, mentioned. apply in_or_app. right. apply in_or_app. auto. Qed.
  Lemma said_in : forall n i, In n (kept s) -> In i (n_ins n) -> In i said.
  Proof.
    intros n i Hn Hi. unfold said, mentioned. apply in_or_app. right. apply in_or_app. right.
    apply in_flat_map. exists n. split; auto. apply in_or_app. auto.
  Qed.
  Lemma said_out : forall n, In n (kept s) -> In (n_out n) said.
  Proof.
    intros n Hn. unfold said, mentioned. apply in_or_app. right. apply in_or_app. right.
    apply in_flat_map. exists n. split; auto. apply in_or_app. right. now left.
  Qed.

  Lemma shift_In : forall l i, In i said -> incl l said ->
    (In (i - off) (map (fun k => k - off) l) <-> In i l).
  Proof.
    intros l i Hi Hl. split; [|apply (in_map (fun k => k - off))]. intro H. apply in_map_iff in H.
    destruct H as (j & E & Hj). rewrite shift_eq in E by auto. now subst.
  Qed.

  (** constants *)
  Definition constant (i : nat) : Prop :=
    (exists n, In n (kept s) /\ In i (n_ins n)) /\ ~ In i (b_inputs s) /\ ~ In i (map n_out (kept s)).
  Lemma constants_In : forall i,
    In i (find_constants (b_inputs s) (kept s) (reachable (b_targets s) (b_ops s))) <-> constant i.
  Proof.
    intro i. unfold find_constants, constant. rewrite nodup_In, filter_In, in_flat_map, !andb_true_iff, !negb_true_iff,
      !memb_not, memb_In, reach_wanted.
    split; [tauto|]. intros ((n & Hn & Hi) & H1 & H2). split; [eauto|]. split; auto. split; auto.
    apply kept_In in Hn. eapply Needed_operand; [apply Hn|apply Hn|auto].
  Qed.
  Lemma constant_said : forall i, constant i -> In i said.
  Proof. intros i ((n & Hn & Hi) & _). eapply said_in; eauto. Qed.

  Lemma consts_In : forall i, In i said ->
    (In (i - off) (map fst (s_constants (capture s))) <-> constant i /\ content s i <> None).
  Proof.
    intros i Hi. cbn [capture s_constants]. fold off. unfold extract_constants. rewrite in_map_iff. split.
    - intros ((k & v) & E & Hk). simpl in E. subst k. apply in_flat_map in Hk. destruct Hk as (j & Hj & Hv).
      destruct (content s j) as [w|] eqn:Ej; [|destruct Hv]. destruct Hv as [[= E ->]|[]].
      rewrite constants_In in Hj. rewrite shift_eq in E by (auto using constant_said). subst j.
      split; [auto|congruence].
    - intros [Hc Hv]. destruct (content s i) as [v|] eqn:Ev; [|congruence]. exists (i - off, v). split; auto.
      apply in_flat_map. exists i. rewrite constants_In, Ev. split; auto. now left.
  Qed.

  Lemma available_iff : forall pre i, incl pre (kept s) -> In i said ->
    (available (capture s) (map (shift_node off) pre) (i - off) <->
     In i (b_inputs s) \/ (constant i /\ content s i <> None) \/ In i (map n_out pre)).
  Proof.
    intros pre i Hp Hi. unfold available. rewrite consts_In by auto.
    assert (E1 : In (i - off) (s_inputs (capture s)) <-> In i (b_inputs s)).
    { cbn [capture s_inputs]. fold off. apply shift_In; auto. intros x Hx. now apply said_input. }
    assert (E2 : In (i - off) (map n_out (map (shift_node off) pre)) <-> In i (map n_out pre)).
    { replace (map n_out (map (shift_node off) pre)) with (map (fun k => k - off) (map n_out pre)) by (rewrite !map_map; reflexivity). apply shift_In; auto.
      intros x Hx. apply in_map_iff in Hx. destruct Hx as (n & <- & Hn). now apply said_out, Hp. }
    rewrite E1, E2. tauto.
  Qed.

  Lemma kept_earlier : forall pre n post i, kept s = pre ++ n :: post -> In i (n_ins n) ->
    In i (map n_out (kept s)) -> In i (map n_out pre).
  Proof.
    intros pre n post i E Hi Ho.
    assert (Hs : StronglySorted lt (map n_out (kept s))) by apply sorted_filter, (ok_sorted _ _ _ _ Hok).
    assert (Hn : In n (b_ops s)).
    { apply (proj1 (kept_In n)). rewrite E. apply in_or_app. right. now left. }
    pose proof (ok_ops _ _ _ _ Hok) as Hops. rewrite Forall_forall in Hops. destruct (Hops n Hn) as (_ & Hlt & _).
    rewrite Forall_forall in Hlt. specialize (Hlt i Hi).
    rewrite E, map_app in Ho, Hs. apply in_app_or in Ho. destruct Ho as [Ho|[Ho|Ho]]; auto; [lia|].
    exfalso. clear - Hs Ho Hlt. induction (map n_out pre) as [|x l IH]; simpl in Hs; inversion Hs; subst; auto.
    rewrite Forall_forall in H2. specialize (H2 i Ho). lia.
  Qed.

  (** an operand is one of the recorded kinds *)
  Definition known (i : nat) : Prop :=
    In i (b_inputs s) \/ In i (map n_out (b_ops s)) \/ content s i <> None.

  Lemma out_kept : forall i, wanted i -> In i (map n_out (b_ops s)) -> In i (map n_out (kept s)).
  Proof.
    intros i Hw Ho. apply in_map_iff in Ho. destruct Ho as (n & <- & Hn). apply in_map. now apply kept_In.
  Qed.

  Lemma operand_available : forall pre n post i, kept s = pre ++ n :: post -> In i (n_ins n) ->
    (available (capture s) (map (shift_node off) pre) (i - off) <-> known i).
  Proof.
    intros pre n post i E Hi.
    assert (Hn : In n (kept s)) by (rewrite E; apply in_or_app; right; now left).
    assert (Hp : incl pre (kept s)) by (rewrite E; intros x Hx; apply in_or_app; auto).
    assert (Hw : wanted i) by (apply kept_In in Hn; eapply Needed_operand; [apply Hn|apply Hn|auto]).
    rewrite available_iff by (auto; eapply said_in; eauto). unfold known. split.
    - intros [H|[[_ H]|H]]; auto. right. left. apply in_map_iff in H. destruct H as (m & <- & Hm).
      apply in_map. apply kept_In. auto.
    - intros [H|[H|H]]; auto.
      + right. right. eapply kept_earlier; eauto. now apply out_kept.
      + destruct (in_dec Nat.eq_dec i (b_inputs s)) as [|H1]; auto.
        destruct (in_dec Nat.eq_dec i (map n_out (kept s))) as [H2|H2].
        * right. right. eapply kept_earlier; eauto.
        * right. left. split; auto. split; [eauto|]. auto.
  Qed.

  Lemma closed_iff : operands_closed (capture s) <->
    forall n i, In n (b_ops s) -> wanted (n_out n) -> In i (n_ins n) -> known i.
  Proof.
    unfold operands_closed. cbn [capture s_nodes]. fold off. split.
    - intros H n i Hn Hw Hi. assert (Hk : In n (kept s)) by now apply kept_In.
      apply in_split in Hk. destruct Hk as (pre & post & E). apply (operand_available pre n post i E Hi).
      eapply (H (map (shift_node off) pre) (shift_node off n) (map (shift_node off) post)).
      + rewrite E, map_app. reflexivity.
      + simpl. now apply (in_map (fun k => k - off)).
    - intros H before m after E i Hi.
      assert (G : exists pre n post, kept s = pre ++ n :: post /\ before = map (shift_node off) pre /\ m = shift_node off n).
      { clear - E. revert before E. induction (kept s) as [|x l IH]; intros before E; [destruct before; discriminate|].
        destruct before as [|b before]; simpl in E; injection E as E1 E2.
        - exists [], x, l. auto.
        - destruct (IH before E2) as (pre & n & post & -> & -> & ->). exists (x :: pre), n, post. subst. auto. }
      destruct G as (pre & n & post & Ek & -> & ->). simpl in Hi. apply in_map_iff in Hi. destruct Hi as (j & <- & Hj).
      apply (operand_available pre n post j Ek Hj).
      assert (Hn : In n (kept s)) by (rewrite Ek; apply in_or_app; right; now left).
      apply kept_In in Hn. destruct Hn. eapply H; eauto.
  Qed.

  (** a target is recorded, or is a constant that some kept operation uses *)
  Definition known_target (t : nat) : Prop :=
    In t (b_inputs s) \/ In t (map n_out (b_ops s)) \/
    (content s t <> None /\ exists n, In n (b_ops s) /\ wanted (n_out n) /\ In t (n_ins n)).
  Lemma target_available : forall t, In t (b_targets s) ->
    (available (capture s) (s_nodes (capture s)) (t - off) <-> known_target t).
  Proof.
    intros t Ht. cbn [capture s_nodes]. fold off. rewrite available_iff by (auto using incl_refl, said_target).
    assert (Hw : wanted t) by now apply Needed_target. unfold known_target, constant. split.
    - intros [H|[[((n & Hn & Hi) & _) H]|H]]; auto.
      + right. right. split; auto. exists n. apply kept_In in Hn. tauto.
      + right. left. apply in_map_iff in H. destruct H as (n & <- & Hn). apply in_map. now apply kept_In.
    - intros [H|[H|(H & n & Hn & Hwn & Hi)]]; auto.
      + right. right. now apply out_kept.
      + destruct (in_dec Nat.eq_dec t (b_inputs s)) as [|H1]; auto.
        destruct (in_dec Nat.eq_dec t (map n_out (kept s))) as [H2|H2]; auto.
        right. left. split; auto. split; auto. exists n. split; auto. now apply kept_In.
  Qed.
  Lemma targets_closed_iff : targets_closed (capture s) <-> forall t, In t (b_targets s) -> known_target t.
  Proof.
    unfold targets_closed. split.
    - intros H t Ht. apply target_available; auto. apply H. cbn [capture s_targets]. fold off.
      now apply (in_map (fun k => k - off)).
    - intros H i Hi. cbn [capture s_targets] in Hi. fold off in Hi. apply in_map_iff in Hi.
      destruct Hi as (t & <- & Ht). apply target_available; auto.
  Qed.

  (** replay *)
  Variable sg' : nat -> V.
  Hypothesis Hsg : forall i, In i (b_inputs s) -> sg' (i - off) = sg i.
  Hypothesis Hwhich : (forall n, In n (kept s) -> n_params n = []) \/ off = 0.

  Lemma which_shift : forall n, In n (kept s) -> which (shift_node off n) = which n.
  Proof.
    intros n Hn. destruct Hwhich as [H|H].
    - unfold which. simpl. now rewrite (H n Hn).
    - unfold which. simpl. now rewrite H, Nat.sub_0_r.
  Qed.

  Lemma mapO_all : forall A B (g : A -> option B) (h : A -> B) l, (forall x, In x l -> g x = Some (h x)) ->
    mapO g l = Some (map h l).
  Proof.
    intros A B g h l H. apply mapO_Some. rewrite map_map. apply map_ext_in. auto.
  Qed.

  Definition env_ok (env : nat -> option V) (pre : list (node O)) : Prop :=
    forall i, In i said -> available (capture s) (map (shift_node off) pre) (i - off) -> env (i - off) = Some (val i).

  Lemma start_env : env_ok (replay_start sg' (capture s)) [].
  Proof.
    intros i Hi Ha. rewrite available_iff in Ha by (auto; intros ? []). unfold replay_start.
    destruct (in_dec Nat.eq_dec (i - off) (s_inputs (capture s))) as [H|H].
    - cbn [capture s_inputs] in H. fold off in H. rewrite shift_In in H by (auto; intros x Hx; now apply said_input).
      rewrite (Hsg i H). pose proof (ok_inputs _ _ _ _ Hok) as F. rewrite Forall_forall in F.
      destruct (F i H) as [_ E]. now rewrite E.
    - assert (Hn : ~ In i (b_inputs s)).
      { intro Hc. apply H. cbn [capture s_inputs]. fold off. now apply (in_map (fun k => k - off)). }
      destruct Ha as [|[[Hc Hv]|[]]]; [tauto|].
      cbn [capture s_constants]. fold off. unfold extract_constants.
      pose proof (proj2 (constants_In i) Hc) as Hl.
      assert (Hsub : forall x, In x (find_constants (b_inputs s) (kept s) (reachable (b_targets s) (b_ops s))) -> In x said)
        by (intros x Hx; apply constants_In in Hx; now apply constant_said).
      revert Hl Hsub. generalize (find_constants (b_inputs s) (kept s) (reachable (b_targets s) (b_ops s))).
      induction l as [|x l IH]; intros Hl Hsub; [destruct Hl|]. simpl.
      destruct (Nat.eq_dec x i) as [->|Hne].
      + destruct (content s i) as [v|] eqn:Ev; [|congruence]. simpl. rewrite Nat.eqb_refl.
        destruct (ok_content _ _ _ _ Hok i v Ev) as [_ ->]. reflexivity.
      + destruct Hl as [|Hl]; [congruence|].
        assert (Hne' : x - off <> i - off) by (rewrite shift_eq; auto; apply Hsub; now left).
        destruct (content s x); simpl; [destruct (Nat.eqb_spec (x - off) (i - off)); [lia|]|];
          apply IH; auto; intros y Hy; apply Hsub; now right.
  Qed.

  Lemma replay_kept : forall post pre env, kept s = pre ++ post ->
    (forall n i, In n (b_ops s) -> wanted (n_out n) -> In i (n_ins n) -> known i) ->
    env_ok env pre -> exists env', replay_nodes f (map (shift_node off) post) env = Some env' /\ env_ok env' (kept s).
  Proof.
    induction post as [|n post IH]; intros pre env E Hk He; simpl.
    - rewrite app_nil_r in E. rewrite E. eauto.
    - assert (Hn : In n (kept s)) by (rewrite E; apply in_or_app; right; now left).
      destruct (proj1 (kept_In n) Hn) as [Hno Hnw].
      assert (Em : mapO env (map (fun i => i - off) (n_ins n)) = Some (map val (n_ins n))).
      { unfold mapO. rewrite map_map. change (mapO (fun i => env (i - off)) (n_ins n) = Some (map val (n_ins n))).
        apply mapO_all. intros i Hi. apply He; [eapply said_in; eauto|].
        apply (operand_available pre n post i E Hi). eapply Hk; eauto. }
      rewrite Em. apply (IH (pre ++ [n])).
      + now rewrite <- app_assoc.
      + auto.
      + intros i Hi Ha.
        assert (Hp : incl (pre ++ [n]) (kept s)) by (rewrite E; intros x Hx; apply in_app_or in Hx; apply in_or_app; destruct Hx as [|[->|[]]]; [auto|right; now left]).
        destruct (Nat.eqb_spec (i - off) (n_out n - off)) as [Eq|Ne].
        * rewrite shift_eq in Eq by (auto using said_out). subst i. rewrite which_shift by auto.
          pose proof (ok_ops _ _ _ _ Hok) as Hops. rewrite Forall_forall in Hops. destruct (Hops n Hno) as (_ & _ & <-). reflexivity.
        * apply He; auto. rewrite available_iff in * by (auto; intros x Hx; apply Hp, in_or_app; auto).
          rewrite map_app in Ha. rewrite in_app_iff in Ha. simpl in Ha. destruct Ha as [Ha|[Ha|[Ha|[Ha|[]]]]]; auto. subst i. lia.
  Qed.

  Lemma replay_ok : operands_closed (capture s) ->
    exists env, replay f sg' (capture s) = Some env /\
      forall t, In t (b_targets s) -> known_target t -> env (t - off) = Some (val t).
  Proof.
    intro Hc. rewrite closed_iff in Hc. destruct (replay_kept (kept s) [] _ eq_refl Hc start_env) as (env & E & He).
    exists env. split; [exact E|]. intros t Ht Hk. apply He; [now apply said_target|].
    now apply (target_available t Ht).
  Qed.
End Snapshot.
