(** The reachability loop of capture(), and what a recorded board looks like. *)
From Coq Require Import List Arith Bool Lia Sorted.
From Verif Require Import Base SnapModel SnapSpec.
Import ListNotations.

Lemma memb_In : forall i l, memb i l = true <-> In i l.
Proof.
  intros i l. unfold memb. rewrite existsb_exists. split.
  - intros (x & Hx & E). apply Nat.eqb_eq in E. now subst.
  - intro H. exists i. split; auto. apply Nat.eqb_refl.
Qed.
Lemma memb_not : forall i l, memb i l = false <-> ~ In i l.
Proof. intros i l. rewrite <- memb_In. destruct (memb i l); split; congruence || (intros; auto). Qed.

Section Visit.
  Context {O : Type}.

  Lemma find_op_spec : forall (ops : list (node O)) i n, find_op ops i = Some n -> In n ops /\ n_out n = i.
  Proof.
    intros ops i n. induction ops as [|m r IH]; simpl; [discriminate|].
    destruct (Nat.eqb_spec (n_out m) i); [intros [= <-]; auto|]. intro H. destruct (IH H). auto.
  Qed.
  Lemma find_op_unique : forall (ops : list (node O)) n, NoDup (map n_out ops) -> In n ops ->
    find_op ops (n_out n) = Some n.
  Proof.
    induction ops as [|m r IH]; intros n Hn Hi; simpl in *; [contradiction|]. inversion Hn; subst.
    destruct Hi as [->|Hi]; [now rewrite Nat.eqb_refl|].
    destruct (Nat.eqb_spec (n_out m) (n_out n)) as [E|]; auto.
    elim H1. rewrite E. now apply in_map.
  Qed.

  Definition cost (ops : list (node O)) (seen : list nat) : nat :=
    list_sum (map (fun n => if memb (n_out n) seen then 0 else length (n_ins n)) ops).
  Lemma cost_cons : forall n ops seen,
    cost (n :: ops) seen = (if memb (n_out n) seen then 0 else length (n_ins n)) + cost ops seen.
  Proof. reflexivity. Qed.
  Lemma memb_cons : forall x i seen, memb x (i :: seen) = (x =? i) || memb x seen.
  Proof. reflexivity. Qed.
  Lemma cost_mono : forall ops seen i, cost ops (i :: seen) <= cost ops seen.
  Proof.
    intros ops seen i. induction ops as [|n r IH]; auto. rewrite !cost_cons, memb_cons.
    destruct (n_out n =? i), (memb (n_out n) seen); simpl; lia.
  Qed.
  Lemma cost_found : forall ops seen i n, memb i seen = false -> find_op ops i = Some n ->
    cost ops (i :: seen) + length (n_ins n) <= cost ops seen.
  Proof.
    intros ops seen i n Hm. induction ops as [|m r IH]; [discriminate|]. rewrite !cost_cons, memb_cons. cbn [find_op].
    destruct (Nat.eqb_spec (n_out m) i) as [->|Hne].
    - intros [= ->]. rewrite Hm. cbn [orb]. pose proof (cost_mono r seen i). lia.
    - intro H. specialize (IH H). cbn [orb]. destruct (memb (n_out m) seen); lia.
  Qed.

  (** the loop ends within the fuel, with exactly what can be reached *)
  Lemma visit_total : forall (ops : list (node O)) fuel stack seen, length stack + cost ops seen <= fuel ->
    exists r, visit fuel ops stack seen = Some r.
  Proof.
    intros ops fuel. induction fuel as [|fuel IH]; intros stack seen H; destruct stack as [|i r]; simpl in *; eauto; [lia|].
    destruct (memb i seen) eqn:E; [apply IH; lia|].
    destruct (find_op ops i) as [n|] eqn:F; apply IH.
    - rewrite app_length, rev_length. pose proof (cost_found ops seen i n E F). lia.
    - pose proof (cost_mono ops seen i). lia.
  Qed.

  Lemma visit_spec : forall (ops : list (node O)) fuel stack seen r, visit fuel ops stack seen = Some r ->
    (forall i n j, In i seen -> find_op ops i = Some n -> In j (n_ins n) -> In j seen \/ In j stack) ->
    incl seen r /\ incl stack r /\
    (forall i n j, In i r -> find_op ops i = Some n -> In j (n_ins n) -> In j r) /\
    (forall P : nat -> Prop, (forall i, In i seen -> P i) -> (forall i, In i stack -> P i) ->
      (forall i n j, P i -> find_op ops i = Some n -> In j (n_ins n) -> P j) -> forall i, In i r -> P i).
  Proof.
    intros ops fuel. induction fuel as [|fuel IH]; intros stack seen r H Hc; destruct stack as [|i st]; simpl in H; try discriminate.
    1,2: injection H as <-; split; [apply incl_refl|]; split; [intros ? []|]; split; [|auto];
      intros i n j Hi Hf Hj; destruct (Hc i n j Hi Hf Hj) as [|[]]; auto.
    destruct (memb i seen) eqn:E.
    - apply memb_In in E. apply IH in H.
      + destruct H as (A & B & C & D). split; auto. split; [intros x [<-|Hx]; auto|]. split; auto.
        intros P H1 H2 H3. apply D; auto. intros x Hx. apply H2. now right.
      + intros x n j Hx Hf Hj. destruct (Hc x n j Hx Hf Hj) as [|[<-|]]; auto.
    - destruct (find_op ops i) as [n|] eqn:F.
      + apply IH in H.
        * destruct H as (A & B & C & D). split; [intros x Hx; apply A; now right|]. split; [intros x [<-|Hx]; [apply A; now left|]|].
          -- apply B. apply in_or_app. now right.
          -- split; auto. intros P H1 H2 H3. apply D; auto.
             ++ intros x [<-|Hx]; auto. apply H2. now left.
             ++ intros x Hx. apply in_app_or in Hx. destruct Hx as [Hx|Hx]; [|apply H2; now right].
                apply in_rev in Hx. eapply H3; [|exact F|exact Hx]. apply H2. now left.
        * intros x m j [<-|Hx] Hf Hj.
          -- rewrite F in Hf. injection Hf as <-. right. apply in_or_app. left. now apply in_rev in Hj.
          -- destruct (Hc x m j Hx Hf Hj) as [|[<-|]]; [left; now right|left; now left|right; apply in_or_app; now right].
      + apply IH in H.
        * destruct H as (A & B & C & D). split; [intros x Hx; apply A; now right|].
          split; [intros x [<-|Hx]; [apply A; now left|auto]|]. split; auto.
          intros P H1 H2 H3. apply D; auto.
          -- intros x [<-|Hx]; auto. apply H2. now left.
          -- intros x Hx. apply H2. now right.
        * intros x m j [<-|Hx] Hf Hj; [congruence|].
          destruct (Hc x m j Hx Hf Hj) as [|[<-|]]; [left; now right|left; now left|now right].
  Qed.

  Lemma reachable_needed : forall targets (ops : list (node O)), NoDup (map n_out ops) ->
    forall i, In i (reachable targets ops) <-> needed targets ops i.
  Proof.
    intros targets ops Hn i. unfold reachable.
    destruct (visit_total ops (visit_fuel ops targets) (rev targets) []) as [r E].
    { rewrite rev_length. unfold visit_fuel, cost. simpl. lia. }
    rewrite E. apply visit_spec in E; [|intros ? ? ? []]. destruct E as (_ & B & C & D). split.
    - apply D; [intros ? []| |].
      + intros x Hx. apply Needed_target. now apply in_rev.
      + intros x n j Hx Hf Hj. destruct (find_op_spec _ _ _ Hf) as [Hi <-]. eapply Needed_operand; eauto.
    - induction 1 as [x Hx|n x Hin _ IH Hx].
      + apply B. now apply in_rev in Hx.
      + eapply C; [exact IH| |exact Hx]. now apply find_op_unique.
  Qed.
End Visit.
