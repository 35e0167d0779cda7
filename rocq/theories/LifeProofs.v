(** Proofs about tensor handles. *)
From Coq Require Import List Arith ZArith Bool Lia.
From Verif Require Import Base LifeModel LifeSpec.
Import ListNotations.

Definition b2z (b : bool) : Z := if b then 1%Z else 0%Z.
Definition rcO (o : option entry) : Z := match o with Some e => e_rc e | None => 0%Z end.
Definition lkO (o : option entry) (x : nat) : bool :=
  match o with Some e => match e_link e with Some y => y =? x | None => false end | None => false end.
Definition setk (w : world) (k : nat) (o : option entry) : world := set_reg w (fset (reg w) k o).

(** references of [x] counted, less references of [x] there are *)
Definition bal (w : world) (x : nat) : Z := (rcO (reg w x) - Z.of_nat (handles w x) - Z.of_nat (links w x))%Z.

Lemma count_ext : forall f g n, (forall k, k < n -> f k = g k) -> count f n = count g n.
Proof. intros f g n. induction n as [|n IH]; intro H; simpl; auto. rewrite IH, (H n) by (intros; try apply H; lia). reflexivity. Qed.
Lemma count_set : forall f g n k, k < n -> (forall j, j <> k -> f j = g j) ->
  (Z.of_nat (count f n) + b2z (g k) = Z.of_nat (count g n) + b2z (f k))%Z.
Proof.
  intros f g n k. induction n as [|n IH]; intros Hk H; [lia|]. simpl.
  destruct (Nat.eq_dec k n) as [->|Hne].
  - rewrite (count_ext f g n) by (intros j Hj; apply H; lia). unfold b2z. destruct (f n), (g n); lia.
  - rewrite (H n) by auto. specialize (IH ltac:(lia) H). destruct (g n); lia.
Qed.
Lemma count_pos : forall f n k, k < n -> f k = true -> 0 < count f n.
Proof. intros f n k. induction n as [|n IH]; intros Hk H; [lia|]. simpl. destruct (Nat.eq_dec k n) as [->|]; [rewrite H; lia|]. assert (0 < count f n) by (apply IH; auto; lia). lia. Qed.

Lemma reg_setk : forall w k o x, reg (setk w k o) x = if (x =? k)%nat then o else reg w x.
Proof. reflexivity. Qed.
Lemma links_setk : forall w k o x, k < next w ->
  (Z.of_nat (links (setk w k o) x) = Z.of_nat (links w x) + b2z (lkO o x) - b2z (lkO (reg w k) x))%Z.
Proof.
  intros w k o x Hk.
  pose proof (count_set (fun j => points (setk w k o) j x) (fun j => points w j x) (next w) k Hk) as H.
  unfold links. change (next (setk w k o)) with (next w).
  assert (E1 : points (setk w k o) k x = lkO o x) by (unfold points, lkO; rewrite reg_setk, Nat.eqb_refl; reflexivity).
  assert (E2 : points w k x = lkO (reg w k) x) by reflexivity.
  cbv beta in H. rewrite E1, E2 in H. lapply H; [lia|].
  intros j Hj. unfold points. rewrite reg_setk. destruct (Nat.eqb_spec j k); [congruence|reflexivity].
Qed.
Lemma bal_setk : forall w k o x, k < next w ->
  (bal (setk w k o) x = bal w x + (if (x =? k)%nat then rcO o - rcO (reg w k) else 0) - b2z (lkO o x) + b2z (lkO (reg w k) x))%Z.
Proof.
  intros w k o x Hk. unfold bal. rewrite links_setk, reg_setk by auto. change (handles (setk w k o)) with (handles w).
  destruct (Nat.eqb_spec x k) as [->|]; lia.
Qed.
Lemma bal_hold : forall w k x, (bal (hold w k) x = bal w x - b2z (x =? k)%nat)%Z.
Proof.
  intros w k x. unfold bal. change (links (hold w k) x) with (links w x). change (reg (hold w k)) with (reg w).
  simpl. unfold fset. destruct (Nat.eqb_spec x k) as [->|]; simpl; lia.
Qed.
Lemma bal_release : forall w k x, 0 < handles w k -> (bal (release w k) x = bal w x + b2z (x =? k)%nat)%Z.
Proof.
  intros w k x H. unfold bal. change (links (release w k) x) with (links w x). change (reg (release w k)) with (reg w).
  simpl. unfold fset. destruct (Nat.eqb_spec x k) as [->|]; simpl; lia.
Qed.

(** ids in use are below the counter *)
Definition below (w : world) : Prop :=
  (forall k, next w <= k -> reg w k = None /\ handles w k = 0) /\
  forall k e g, reg w k = Some e -> e_link e = Some g -> g < next w.
Definition no_self (w : world) : Prop := forall k e, reg w k = Some e -> e_link e <> Some k.
Definition inv (w : world) : Prop := below w /\ no_self w /\ forall x, bal w x = 0%Z.

Lemma below_lt : forall w k, below w -> reg w k <> None -> k < next w.
Proof. intros w k H Hn. destruct (Nat.lt_ge_cases k (next w)); auto. destruct (proj1 H k H0). congruence. Qed.
Lemma below_setk : forall w k o, below w -> k < next w ->
  (forall e g, o = Some e -> e_link e = Some g -> g < next w) -> below (setk w k o).
Proof.
  intros w k o [H1 H2] Hk Ho. split.
  - intros j Hj. change (next (setk w k o)) with (next w) in Hj. rewrite reg_setk.
    destruct (Nat.eqb_spec j k); [lia|]. now apply H1.
  - intros j e g. rewrite reg_setk. change (next (setk w k o)) with (next w). destruct (Nat.eqb_spec j k); eauto.
Qed.
Lemma below_none : forall w k, below w -> k < next w -> below (setk w k None).
Proof. intros. apply below_setk; auto. discriminate. Qed.
Lemma below_same : forall w k e e', below w -> reg w k = Some e -> e_link e' = e_link e -> below (setk w k (Some e')).
Proof.
  intros w k e e' H E El. apply below_setk; auto.
  - apply below_lt; auto. congruence.
  - intros e0 g [= <-] Hg. rewrite El in Hg. destruct H as [_ H]. eauto.
Qed.
Lemma below_hold : forall w k, below w -> k < next w -> below (hold w k).
Proof.
  intros w k [H1 H2] Hk. split; auto. intros j Hj. simpl in *. destruct (H1 j Hj). split; auto.
  unfold fset. destruct (Nat.eqb_spec j k); [lia|auto].
Qed.
Lemma below_release : forall w k, below w -> below (release w k).
Proof.
  intros w k [H1 H2]. split; auto. intros j Hj. simpl in *. destruct (H1 j Hj). split; auto.
  unfold fset. destruct (Nat.eqb_spec j k); subst; lia.
Qed.

Lemma change_rc_setk : forall w k f e, reg w k = Some e -> change_rc w k f = setk w k (Some (with_rc e (f (e_rc e)))).
Proof. intros w k f e H. unfold change_rc. now rewrite H. Qed.
Lemma below_change_rc : forall w k f, below w -> below (change_rc w k f).
Proof.
  intros w k f H. unfold change_rc. destruct (reg w k) as [e|] eqn:E; auto. apply (below_same w k e); auto.
Qed.
Lemma below_remove : forall w k, below w -> below (reg_remove w k).
Proof.
  intros w k H. unfold reg_remove.
  set (w1 := match reg w k with Some e => match e_link e with Some g => change_rc w g dec | None => w end | None => w end).
  assert (H1 : below w1).
  { unfold w1. destruct (reg w k) as [e|]; auto. destruct (e_link e); auto using below_change_rc. }
  clearbody w1. destruct (Nat.lt_ge_cases k (next w1)) as [Hk|Hk]; [now apply below_none|].
  destruct H1 as [A B]. split.
  - intros j Hj. simpl in *. unfold fset. destruct (A j Hj). destruct (j =? k); auto.
  - intros j e g. simpl. unfold fset. destruct (j =? k); [discriminate|eauto].
Qed.

(** [reg_remove]: the entry goes, its gradient loses a reference *)
Lemma remove_spec : forall w k e, below w -> no_self w -> reg w k = Some e ->
  (forall g ge, e_link e = Some g -> reg w g = Some ge -> (0 < e_rc ge)%Z) ->
  let w' := reg_remove w k in
  below w' /\ no_self w' /\ next w' = next w /\ handles w' = handles w /\ computing w' = computing w /\ reg w' k = None /\
  (forall x, x <> k -> e_link e <> Some x -> reg w' x = reg w x) /\
  (forall x, (reg w' x = None <-> x = k \/ reg w x = None)) /\
  (forall x, bal w' x = bal w x - (if (x =? k)%nat then e_rc e else 0)
     + (match e_link e with Some g => if reg w g then 0 else b2z (x =? g)%nat | None => 0 end))%Z.
Proof.
  intros w k e Hb Hs E Hrc w'. split; [now apply below_remove|]. unfold w', reg_remove. rewrite E.
  assert (Hk : k < next w) by (apply below_lt; auto; congruence).
  assert (Hl : forall x, b2z (lkO (Some e) x) = match e_link e with Some g => b2z (x =? g)%nat | None => 0%Z end).
  { intro x. simpl. destruct (e_link e) as [g|]; auto. now rewrite Nat.eqb_sym. }
  destruct (e_link e) as [g|] eqn:El.
  - assert (Hg : g <> k) by (intros ->; apply (Hs k e E); auto).
    destruct (reg w g) as [ge|] eqn:Eg.
    + specialize (Hrc g ge eq_refl Eg). rewrite (change_rc_setk w g dec ge Eg).
      set (w1 := setk w g (Some (with_rc ge (dec (e_rc ge))))). fold (setk w1 k None).
      assert (Hgn : g < next w) by (apply below_lt; auto; congruence).
      assert (Ek : reg w1 k = Some e) by (unfold w1; rewrite reg_setk; destruct (Nat.eqb_spec k g); [congruence|auto]).
      split; [|split; [reflexivity|split; [reflexivity|split; [reflexivity|split; [|split; [|split]]]]]].
      * intros j je. rewrite reg_setk. unfold w1. rewrite reg_setk. destruct (j =? k); [discriminate|].
        destruct (Nat.eqb_spec j g) as [->|]; [intros [= <-]; exact (Hs g ge Eg)|apply Hs].
      * rewrite reg_setk. now rewrite Nat.eqb_refl.
      * intros x Hx Hxg. rewrite reg_setk. unfold w1. rewrite reg_setk. destruct (Nat.eqb_spec x k); [congruence|].
        destruct (Nat.eqb_spec x g); [congruence|auto].
      * intro x. rewrite reg_setk. unfold w1. rewrite reg_setk. destruct (Nat.eqb_spec x k) as [->|]; [tauto|].
        destruct (Nat.eqb_spec x g) as [->|]; [split; [discriminate|intros [|]; congruence]|].
        split; [auto|intros [|]; congruence].
      * intro x. rewrite bal_setk by exact Hk. rewrite Ek. unfold w1. rewrite bal_setk by auto. rewrite Eg.
        change (lkO (Some (with_rc ge (dec (e_rc ge)))) x) with (lkO (Some ge) x). rewrite Hl. simpl.
        unfold dec. destruct (Z.eqb_spec (e_rc ge) 0); [lia|].
        destruct (Nat.eqb_spec x k), (Nat.eqb_spec x g); simpl; try lia; congruence.
    + unfold change_rc. rewrite Eg. fold (setk w k None).
      split; [|split; [reflexivity|split; [reflexivity|split; [reflexivity|split; [|split; [|split]]]]]].
      * intros j je. rewrite reg_setk. destruct (j =? k); [discriminate|]. apply Hs.
      * rewrite reg_setk. now rewrite Nat.eqb_refl.
      * intros x Hx Hxg. rewrite reg_setk. destruct (Nat.eqb_spec x k); [congruence|auto].
      * intro x. rewrite reg_setk. destruct (Nat.eqb_spec x k) as [->|]; [tauto|]. split; [auto|intros [|]; congruence].
      * intro x. rewrite bal_setk by exact Hk. rewrite E, Hl. simpl.
        destruct (Nat.eqb_spec x k), (Nat.eqb_spec x g); simpl; try lia; congruence.
  - fold (setk w k None).
    split; [|split; [reflexivity|split; [reflexivity|split; [reflexivity|split; [|split; [|split]]]]]].
    + intros j je. rewrite reg_setk. destruct (j =? k); [discriminate|]. apply Hs.
    + rewrite reg_setk. now rewrite Nat.eqb_refl.
    + intros x Hx Hxg. rewrite reg_setk. destruct (Nat.eqb_spec x k); [congruence|auto].
    + intro x. rewrite reg_setk. destruct (Nat.eqb_spec x k) as [->|]; [tauto|]. split; [auto|intros [|]; congruence].
    + intro x. rewrite bal_setk by exact Hk. rewrite E, Hl. simpl. destruct (Nat.eqb_spec x k); simpl; lia.
Qed.

Lemma inv_rc : forall w x e, inv w -> reg w x = Some e -> e_rc e = Z.of_nat (handles w x + links w x).
Proof. intros w x e (_ & _ & H) E. specialize (H x). unfold bal in H. rewrite E in H. simpl in H. lia. Qed.
Lemma inv_absent : forall w x, inv w -> reg w x = None -> handles w x = 0 /\ links w x = 0.
Proof. intros w x (_ & _ & H) E. specialize (H x). unfold bal in H. rewrite E in H. simpl in H. lia. Qed.
Lemma links_pos : forall w k e g, below w -> reg w k = Some e -> e_link e = Some g -> 0 < links w g.
Proof.
  intros w k e g Hb E El. apply (count_pos _ _ k); [apply below_lt; auto; congruence|].
  unfold points. rewrite E, El. apply Nat.eqb_refl.
Qed.
Lemma inv_link : forall w k e g, inv w -> reg w k = Some e -> e_link e = Some g ->
  exists ge, reg w g = Some ge /\ g <> k /\ (0 < e_rc ge)%Z.
Proof.
  intros w k e g Hi E El. pose proof (links_pos w k e g (proj1 Hi) E El) as H.
  destruct (reg w g) as [ge|] eqn:Eg.
  - exists ge. split; auto. split; [intros ->; apply (proj1 (proj2 Hi) k e E El)|].
    rewrite (inv_rc w g ge Hi Eg). lia.
  - destruct (inv_absent w g Hi Eg). lia.
Qed.
