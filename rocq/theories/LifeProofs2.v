(** The steps that keep the counts right. *)
From Coq Require Import List Arith ZArith Bool Lia.
From Verif Require Import Base LifeModel LifeSpec LifeProofs.
Import ListNotations.

Lemma no_self_same : forall w k e e', no_self w -> reg w k = Some e -> e_link e' = e_link e -> no_self (setk w k (Some e')).
Proof.
  intros w k e e' H E El j je. rewrite reg_setk. destruct (Nat.eqb_spec j k) as [->|]; [|apply H].
  intros [= <-]. rewrite El. now apply H.
Qed.
Lemma lk_same : forall e e' x, e_link e' = e_link e -> lkO (Some e') x = lkO (Some e) x.
Proof. intros e e' x H. simpl. now rewrite H. Qed.
Lemma bal_same : forall w k e e' x, below w -> reg w k = Some e -> e_link e' = e_link e ->
  (bal (setk w k (Some e')) x = bal w x + (if (x =? k)%nat then e_rc e' - e_rc e else 0))%Z.
Proof.
  intros w k e e' x Hb E El. rewrite bal_setk by (apply below_lt; auto; congruence).
  rewrite E, (lk_same e e' x El). simpl rcO. lia.
Qed.

Lemma inv_start : inv start.
Proof. split; [split; [auto|discriminate]|]. split; [discriminate|]. intro x. reflexivity. Qed.

Lemma make_inv : forall w ow r q, inv w -> inv (create w ow r q).
Proof.
  intros w ow r q ((H1 & H2) & Hs & Hb). destruct (H1 (next w) (le_n _)) as [Er Eh]. split; [split|split].
  - intros k Hk. simpl in *. unfold fset. destruct (Nat.eqb_spec k (next w)); [lia|]. apply H1. lia.
  - intros k e g. simpl. unfold fset. destruct (Nat.eqb_spec k (next w)); [intros [= <-]; discriminate|].
    intros E El. specialize (H2 k e g E El). lia.
  - intros k e. simpl. unfold fset. destruct (Nat.eqb_spec k (next w)); [intros [= <-]; discriminate|apply Hs].
  - intro x. specialize (Hb x). unfold bal in *.
    assert (El : links (create w ow r q) x = links w x).
    { unfold links. simpl. rewrite (count_ext _ (fun k => points w k x)).
      - unfold points at 2. simpl. unfold fset. rewrite Nat.eqb_refl. simpl. lia.
      - intros k Hk. unfold points. simpl. unfold fset. destruct (Nat.eqb_spec k (next w)); [lia|reflexivity]. }
    rewrite El. simpl. unfold fset. destruct (Nat.eqb_spec x (next w)) as [->|]; auto.
    rewrite Er, Eh in Hb. simpl in *. lia.
Qed.

Lemma incr_hold_inv : forall w k, inv w -> reg w k <> None -> inv (hold (incr w k) k).
Proof.
  intros w k (Hb & Hs & H) Hn. destruct (reg w k) as [e|] eqn:E; [|congruence].
  unfold incr. rewrite (change_rc_setk w k _ e E). split; [|split].
  - apply below_hold; [apply (below_same w k e); auto|]. simpl. apply below_lt; auto. congruence.
  - apply (no_self_same w k e); auto.
  - intro x. rewrite bal_hold, (bal_same w k e) by auto. simpl. rewrite H. destruct (x =? k); simpl; lia.
Qed.

Lemma held_exists : forall w k, inv w -> 0 < handles w k -> reg w k <> None.
Proof. intros w k Hi Hh E. destruct (inv_absent w k Hi E). lia. Qed.

(** the decrement of a gradient that is removed, then the removal of its tensor *)
Lemma remove_both : forall w k e g ge c0, below w -> no_self w -> reg w k = Some e -> e_link e = Some g ->
  reg w g = Some ge -> e_rc e = c0 -> e_rc ge = 1%Z ->
  (forall x, bal w x = if (x =? k)%nat then c0 - Z.of_nat (handles w k) else 0)%Z -> links w k = 0 ->
  let w1 := reg_remove (put w g (with_rc ge 0)) g in
  let w' := reg_remove w1 k in
  below w' /\ no_self w' /\ handles w' = handles w /\ computing w' = computing w /\ next w' = next w /\
  (forall x, reg w' x = None <-> x = k \/ x = g \/ reg w x = None) /\
  forall x, (bal w' x = if (x =? k)%nat then - Z.of_nat (handles w k) else 0)%Z.
Proof.
  intros w k e g ge c0 Hb Hs E El Eg Hc Hcg Hbal Hlk w1 w'.
  assert (Hgk : g <> k) by (intros ->; apply (Hs k e E El)).
  set (w0 := put w g (with_rc ge 0)) in *. change (put w g (with_rc ge 0)) with (setk w g (Some (with_rc ge 0))) in w0.
  assert (B0 : below w0) by (apply (below_same w g ge); auto).
  assert (S0 : no_self w0) by (apply (no_self_same w g ge); auto).
  assert (E0 : reg w0 g = Some (with_rc ge 0)) by (unfold w0; rewrite reg_setk, Nat.eqb_refl; reflexivity).
  assert (Ek0 : reg w0 k = Some e) by (unfold w0; rewrite reg_setk; destruct (Nat.eqb_spec k g); congruence).
  assert (Bal0 : forall x, (bal w0 x = bal w x + (if (x =? g)%nat then -1 else 0))%Z).
  { intro x. unfold w0. rewrite (bal_same w g ge) by auto. simpl. rewrite Hcg. destruct (x =? g); lia. }
  assert (Hh : forall h, e_link ge = Some h -> h <> k).
  { intros h Hl ->. pose proof (links_pos w g ge k Hb Eg Hl). lia. }
  destruct (remove_spec w0 g (with_rc ge 0) B0 S0 E0) as (B1 & S1 & N1 & Hd1 & C1 & Rg1 & R1 & A1 & Bal1).
  { intros h he Hl Ehe. simpl in Hl. assert (Hhg : h <> g) by (intros ->; apply (Hs g ge Eg Hl)).
    unfold w0 in Ehe. rewrite reg_setk in Ehe. destruct (Nat.eqb_spec h g); [congruence|].
    pose proof (links_pos w g ge h Hb Eg Hl). specialize (Hbal h). unfold bal in Hbal. rewrite Ehe in Hbal. simpl in Hbal.
    destruct (Nat.eqb_spec h k); [elim (Hh h Hl); auto|]. lia. }
  fold w1 in B1, S1, N1, Hd1, C1, Rg1, R1, A1, Bal1.
  assert (Ek1 : reg w1 k = Some e).
  { rewrite R1; auto. intro Hl. simpl in Hl. apply (Hh k Hl eq_refl). }
  destruct (remove_spec w1 k e B1 S1 Ek1) as (B2 & S2 & N2 & Hd2 & C2 & Rk2 & R2 & A2 & Bal2).
  { intros g' ge' Hl Eg'. rewrite El in Hl. injection Hl as <-. congruence. }
  fold w' in B2, S2, N2, Hd2, C2, Rk2, R2, A2, Bal2.
  split; auto. split; auto. split; [now rewrite Hd2, Hd1|]. split; [now rewrite C2, C1|]. split; [now rewrite N2, N1|]. split.
  - intro x. rewrite A2, A1. unfold w0. rewrite reg_setk. destruct (Nat.eqb_spec x g) as [->|]; [|tauto].
    split; [intros [|[|]]; try tauto; discriminate|tauto].
  - intro x. rewrite Bal2, Bal1, Bal0, Hbal, El, Rg1. cbn [e_rc e_link with_rc].
    assert (Hlk' : (match e_link ge with Some g0 => if reg w0 g0 then 0 else b2z (x =? g0)%nat | None => 0 end = 0)%Z).
    { destruct (e_link ge) as [h|] eqn:Hl; auto. destruct (reg w0 h) as [he|] eqn:Eh; auto.
      pose proof (links_pos w g ge h Hb Eg Hl). unfold w0 in Eh. rewrite reg_setk in Eh.
      destruct (Nat.eqb_spec h g); [discriminate|]. specialize (Hbal h). unfold bal in Hbal. rewrite Eh in Hbal. simpl in Hbal.
      destruct (Nat.eqb_spec h k); [elim (Hh h eq_refl); auto|]. lia. }
    rewrite Hlk'. destruct (Nat.eqb_spec x k), (Nat.eqb_spec x g); simpl; try lia; congruence.
Qed.

Lemma inv_release : forall w k, below w -> no_self w -> 0 < handles w k ->
  (forall x, bal w x = (if (x =? k)%nat then -1 else 0)%Z) -> inv (release w k).
Proof.
  intros w k Hb Hs Hh H. split; [now apply below_release|]. split; [exact Hs|]. intro x.
  rewrite bal_release, H by auto. destruct (x =? k); reflexivity.
Qed.

Lemma drop_inv : forall w k, inv w -> 0 < handles w k -> calm w (Drop k) -> inv (drop_handle w k).
Proof.
  intros w k Hi Hh Hc. pose proof (held_exists w k Hi Hh) as Hn. unfold drop_handle.
  destruct (reg w k) as [e|] eqn:E; [|congruence]. pose proof (inv_rc w k e Hi E) as Hrc.
  pose proof Hi as (Hb & Hs & Hbal).
  assert (Edec : dec_pos (e_rc e) = (e_rc e - 1)%Z) by (unfold dec_pos; destruct (Z.ltb_spec 0 (e_rc e)); lia).
  rewrite Edec. set (e1 := with_rc e (e_rc e - 1)). set (w1 := put w k e1). change (put w k e1) with (setk w k (Some e1)) in w1.
  assert (B1 : below w1) by (apply (below_same w k e); auto).
  assert (S1 : no_self w1) by (apply (no_self_same w k e); auto).
  assert (Bal1 : forall x, bal w1 x = (if (x =? k)%nat then -1 else 0)%Z).
  { intro x. unfold w1. rewrite (bal_same w k e) by auto. rewrite Hbal. simpl. destruct (x =? k); lia. }
  assert (E1 : reg w1 k = Some e1) by (unfold w1; rewrite reg_setk, Nat.eqb_refl; reflexivity).
  destruct (negb (computing w) && few (e_rc e) && e_runtime e && no_owner e && negb (e_isgrad e)) eqn:Er;
    [|apply inv_release; auto].
  repeat (apply andb_true_iff in Er; destruct Er as [Er ?]).
  assert (Hone : e_rc e = 1%Z).
  { unfold few in H2. apply orb_true_iff in H2. destruct H2 as [H2|H2]; apply Z.eqb_eq in H2; lia. }
  assert (Hlk : links w k = 0) by lia. assert (Hh1 : handles w k = 1) by lia.
  assert (Hown : e_owner e = None) by (unfold no_owner in H0; destruct (e_owner e); congruence).
  assert (Hlk1 : links w1 k = 0).
  { specialize (Bal1 k). unfold bal in Bal1. rewrite E1, Nat.eqb_refl in Bal1. simpl in Bal1. change (handles w1 k) with (handles w k) in Bal1. lia. }
  destruct (e_link e) as [g|] eqn:El.
  - destruct (Hc e g E Hone H1 Hown ltac:(now apply negb_true_iff) ltac:(now apply negb_true_iff) El) as (ge & Eg & Hg1 & Hgr & Hgo).
    assert (Hgk : g <> k) by (intros ->; apply (Hs k e E El)).
    assert (Eg1 : reg w1 g = Some ge) by (unfold w1; rewrite reg_setk; destruct (Nat.eqb_spec g k); congruence).
    rewrite Eg1. unfold few, no_owner. rewrite Hg1, Hgr, Hgo. simpl (_ && _). cbv iota.
    change (dec_pos 1) with 0%Z.
    destruct (remove_both w1 k e1 g ge 0%Z B1 S1 E1 El Eg1) as (B2 & S2 & Hd2 & C2 & N2 & A2 & Bal2).
    + simpl. lia.
    + auto.
    + intro x. rewrite Bal1. change (handles w1 k) with (handles w k). rewrite Hh1. destruct (x =? k); reflexivity.
    + auto.
    + apply inv_release; auto.
      * rewrite Hd2. exact Hh.
      * intro x. rewrite Bal2. change (handles w1 k) with (handles w k). rewrite Hh1. reflexivity.
  - destruct (remove_spec w1 k e1 B1 S1 E1) as (B2 & S2 & N2 & Hd2 & C2 & Rk2 & R2 & A2 & Bal2).
    { intros g ge Hl. simpl in Hl. congruence. }
    apply inv_release; auto.
    + rewrite Hd2. exact Hh.
    + intro x. rewrite Bal2, Bal1. simpl. rewrite El. rewrite Hone. destruct (x =? k); reflexivity.
Qed.

Lemma clean_inv : forall w c k, inv w -> calm w (Clean c k) -> inv (clean_one w c k).
Proof.
  intros w c k Hi Hc. unfold clean_one. destruct (reg w k) as [e|] eqn:E; auto.
  match goal with |- inv (if ?b then _ else _) => destruct b eqn:Er end; auto.
  repeat (apply andb_true_iff in Er; destruct Er as [Er ?]). apply Z.eqb_eq in H1. apply negb_true_iff in H.
  pose proof Hi as (Hb & Hs & Hbal). pose proof (inv_rc w k e Hi E) as Hrc.
  assert (Hlk : links w k = 0) by lia. assert (Hh : handles w k = 0) by lia.
  destruct (e_link e) as [g|] eqn:El.
  - destruct (Hc e g E H1 H0 H El) as ((ge & Eg & Hg1 & Hgr & Hgo) & ge' & Eg' & Hgi). rewrite Eg in Eg'. injection Eg' as <-.
    rewrite Eg. unfold few, no_owner. rewrite Hg1, Hgr, Hgo, Hgi. simpl (_ && _). cbv iota.
    change (dec_pos 1) with 0%Z.
    destruct (remove_both w k e g ge 0%Z Hb Hs E El Eg) as (B2 & S2 & Hd2 & C2 & N2 & A2 & Bal2); auto.
    + intro x. rewrite Hbal, Hh. destruct (x =? k); reflexivity.
    + split; auto. split; auto. intro x. rewrite Bal2, Hh. destruct (x =? k); reflexivity.
  - destruct (remove_spec w k e Hb Hs E) as (B2 & S2 & N2 & Hd2 & C2 & Rk2 & R2 & A2 & Bal2).
    { intros g ge Hl. congruence. }
    split; auto. split; auto. intro x. rewrite Bal2, Hbal, El, H1. destruct (x =? k); reflexivity.
Qed.

(** [unlink]: one reference less, removed when it was the last *)
Lemma unlink_spec : forall w old oe, below w -> no_self w -> reg w old = Some oe -> (0 < e_rc oe)%Z ->
  (forall x e, reg w x = Some e -> x <> old -> (0 < Z.of_nat (links w x) -> 0 < e_rc e)%Z) ->
  (forall x, reg w x = None -> links w x = 0) ->
  let w' := unlink w old in
  below w' /\ no_self w' /\ next w' = next w /\ handles w' = handles w /\ computing w' = computing w /\
  (forall x, reg w' x = None -> reg w x = None \/ x = old /\ e_rc oe = 1%Z) /\
  (forall x e', reg w' x = Some e' -> exists e, reg w x = Some e /\ e_link e' = e_link e) /\
  (forall x, bal w' x = bal w x - b2z (x =? old)%nat)%Z.
Proof.
  intros w old oe Hb Hs E Hpos Hrc Habs w'. unfold w', unlink. rewrite E.
  set (o1 := with_rc oe (dec (e_rc oe))). set (w1 := put w old o1). change (put w old o1) with (setk w old (Some o1)) in w1.
  assert (Ed : dec (e_rc oe) = (e_rc oe - 1)%Z) by (unfold dec; destruct (Z.eqb_spec (e_rc oe) 0); lia).
  assert (B1 : below w1) by (apply (below_same w old oe); auto).
  assert (S1 : no_self w1) by (apply (no_self_same w old oe); auto).
  assert (Bal1 : forall x, bal w1 x = (bal w x - b2z (x =? old)%nat)%Z).
  { intro x. unfold w1. rewrite (bal_same w old oe) by auto. simpl. rewrite Ed. destruct (x =? old); simpl; lia. }
  assert (E1 : reg w1 old = Some o1) by (unfold w1; rewrite reg_setk, Nat.eqb_refl; reflexivity).
  destruct ((e_rc oe =? 1)%Z && e_runtime oe && no_owner oe) eqn:Er.
  - apply andb_true_iff in Er. destruct Er as [Er _]. apply andb_true_iff in Er. destruct Er as [Er _]. apply Z.eqb_eq in Er.
    destruct (remove_spec w1 old o1 B1 S1 E1) as (B2 & S2 & N2 & Hd2 & C2 & Rk2 & R2 & A2 & Bal2).
    { intros g ge Hl Eg. simpl in Hl. assert (Hg : g <> old) by (intros ->; apply (Hs old oe E Hl)).
      unfold w1 in Eg. rewrite reg_setk in Eg. destruct (Nat.eqb_spec g old); [congruence|].
      apply (Hrc g ge Eg Hg). pose proof (links_pos w old oe g Hb E Hl). lia. }
    split; auto. split; auto. split; auto. split; auto. split; auto. split; [|split].
    + intros x Hx. apply A2 in Hx. destruct Hx as [->|Hx]; [right; split; [reflexivity|exact Er]|]. unfold w1 in Hx. rewrite reg_setk in Hx.
      destruct (Nat.eqb_spec x old) as [_|]; [discriminate|auto].
    + intros x e' Hx. assert (Hne : x <> old) by (intros ->; congruence).
      assert (Hx1 : exists e1, reg w1 x = Some e1 /\ e_link e' = e_link e1).
      { destruct (reg w1 x) as [e1|] eqn:Ex.
        - exists e1. split; auto. destruct (e_link o1) as [h|] eqn:Hl.
          + destruct (Nat.eq_dec x h) as [->|Hxh]; [|rewrite R2 in Hx by congruence; congruence].
            revert Hx. unfold reg_remove. rewrite E1, Hl, (change_rc_setk w1 h dec e1 Ex).
            change (reg (set_reg ?a (fset (reg ?a) old None)) h) with (reg (setk a old None) h).
            cbn [reg set_reg]. unfold fset. destruct (Nat.eqb_spec h old); [congruence|].
            cbn [reg setk set_reg]. unfold fset. rewrite Nat.eqb_refl. destruct (Nat.eqb_spec h old); [congruence|]. intros [= <-]. reflexivity.
          + rewrite R2 in Hx by congruence. congruence.
        - assert (reg (reg_remove w1 old) x = None) by (apply A2; auto). congruence. }
      destruct Hx1 as (e1 & Ex & Hl). unfold w1 in Ex. rewrite reg_setk in Ex.
      destruct (Nat.eqb_spec x old); [congruence|]. eauto.
    + intro x. rewrite Bal2, Bal1. simpl e_rc. rewrite Ed, Er.
      assert (Hl0 : (match e_link o1 with Some g => if reg w1 g then 0 else b2z (x =? g)%nat | None => 0 end = 0)%Z).
      { destruct (e_link o1) as [h|] eqn:Hl; auto. destruct (reg w1 h) eqn:Eh; auto. simpl in Hl.
        unfold w1 in Eh. rewrite reg_setk in Eh. destruct (Nat.eqb_spec h old); [discriminate|].
        pose proof (links_pos w old oe h Hb E Hl). rewrite (Habs h Eh) in H. lia. }
      rewrite Hl0. destruct (x =? old); simpl; lia.
  - split; auto. split; auto. split; auto. split; auto. split; auto. split; [|split]; auto.
    + intros x Hx. left. unfold w1 in Hx. rewrite reg_setk in Hx. destruct (Nat.eqb_spec x old) as [_|]; [discriminate|auto].
    + intros x e' Hx. unfold w1 in Hx. rewrite reg_setk in Hx. destruct (Nat.eqb_spec x old) as [->|]; eauto.
      injection Hx as <-. exists oe. auto.
Qed.

Lemma no_self_link : forall w k e l, no_self w -> reg w k = Some e -> l <> Some k -> no_self (setk w k (Some (with_link e l))).
Proof.
  intros w k e l H E Hl j je. rewrite reg_setk. destruct (Nat.eqb_spec j k) as [->|]; [|apply H].
  intros [= <-]. exact Hl.
Qed.
Lemma below_link : forall w k e l, below w -> reg w k = Some e -> (forall g, l = Some g -> g < next w) ->
  below (setk w k (Some (with_link e l))).
Proof.
  intros w k e l H E Hl. apply below_setk; auto.
  - apply below_lt; auto. congruence.
  - intros e0 g [= <-] Hg. now apply Hl.
Qed.
Lemma bal_link : forall w k e l x, below w -> reg w k = Some e ->
  (bal (setk w k (Some (with_link e l))) x = bal w x
     - b2z (match l with Some g => g =? x | None => false end)%nat
     + b2z (match e_link e with Some g => g =? x | None => false end)%nat)%Z.
Proof.
  intros w k e l x Hb E. rewrite bal_setk by (apply below_lt; auto; congruence). rewrite E. simpl. destruct (x =? k); lia.
Qed.

Lemma link_inv : forall w k g, inv w -> calm w (Link k g) -> inv (snd (set_grad w k g)).
Proof.
  intros w k g Hi (Hkg & Hk). unfold set_grad. destruct (reg w g) as [ge|] eqn:Eg; auto.
  destruct (reg w k) as [e|] eqn:E; [|congruence]. pose proof Hi as (Hb & Hs & Hbal).
  unfold incr. rewrite (change_rc_setk w g _ ge Eg). set (g1 := with_rc ge (e_rc ge + 1)).
  set (w1 := setk w g (Some g1)).
  assert (B1 : below w1) by (apply (below_same w g ge); auto).
  assert (S1 : no_self w1) by (apply (no_self_same w g ge); auto).
  assert (Bal1 : forall x, bal w1 x = b2z (x =? g)).
  { intro x. unfold w1. rewrite (bal_same w g ge) by auto. rewrite Hbal. simpl. destruct (x =? g); simpl; lia. }
  assert (E1 : reg w1 k = Some e) by (unfold w1; rewrite reg_setk; destruct (Nat.eqb_spec k g); congruence).
  assert (Hg : g < next w) by (apply below_lt; auto; congruence).
  rewrite E1. destruct (e_link e) as [old|] eqn:El.
  - destruct (inv_link w k e old Hi E El) as (oe & Eo & Hok & Hpos).
    assert (Eo1 : exists oe1, reg w1 old = Some oe1 /\ (0 < e_rc oe1)%Z).
    { unfold w1. rewrite reg_setk. destruct (Nat.eqb_spec old g) as [Hog|]; [|eauto]. exists g1. split; auto.
      subst old. rewrite Eg in Eo. injection Eo as <-. simpl. lia. }
    destruct Eo1 as (oe1 & Eo1 & Hpos1).
    destruct (unlink_spec w1 old oe1 B1 S1 Eo1 Hpos1) as (B2 & S2 & N2 & Hd2 & C2 & A2 & L2 & Bal2).
    + intros x xe Ex Hne Hl. specialize (Bal1 x). unfold bal in Bal1. rewrite Ex in Bal1. simpl in Bal1. unfold b2z in Bal1. destruct (x =? g); lia.
    + intros x Ex. specialize (Bal1 x). unfold bal in Bal1. rewrite Ex in Bal1. simpl in Bal1. unfold b2z in Bal1. destruct (x =? g); lia.
    + destruct (reg (unlink w1 old) k) as [e2|] eqn:E2.
      * destruct (L2 k e2 E2) as (e' & E' & Hl2). rewrite E1 in E'. injection E' as <-. rewrite El in Hl2.
        simpl snd. change (put (unlink w1 old) k (with_link e2 (Some g))) with (setk (unlink w1 old) k (Some (with_link e2 (Some g)))).
        split; [|split].
        -- apply below_link; auto. intros g0 [= <-]. rewrite N2. exact Hg.
        -- apply no_self_link; auto. congruence.
        -- intro x. rewrite bal_link, Bal2, Bal1, Hl2 by auto. rewrite (Nat.eqb_sym g x), (Nat.eqb_sym old x). lia.
      * destruct (A2 k E2) as [H|[H _]]; congruence.
  - rewrite E1. simpl snd. change (put w1 k (with_link e (Some g))) with (setk w1 k (Some (with_link e (Some g)))). split; [|split].
    + apply below_link; auto. intros g0 [= <-]. exact Hg.
    + apply no_self_link; auto. congruence.
    + intro x. rewrite bal_link, Bal1, El by auto. rewrite (Nat.eqb_sym g x). simpl. lia.
Qed.

Lemma zero_inv : forall w k, inv w -> inv (snd (zero_grad w k)).
Proof.
  intros w k Hi. unfold zero_grad. destruct (reg w k) as [e|] eqn:E; auto. destruct (negb (e_reqgrad e)); auto.
  pose proof Hi as (Hb & Hs & Hbal). change (put w k (with_link e None)) with (setk w k (Some (with_link e None))).
  set (w1 := setk w k (Some (with_link e None))).
  assert (B1 : below w1) by (apply below_link; auto; discriminate).
  assert (S1 : no_self w1) by (apply no_self_link; auto; discriminate).
  assert (Bal1 : forall x, bal w1 x = b2z (match e_link e with Some g => g =? x | None => false end)).
  { intro x. unfold w1. rewrite bal_link, Hbal by auto. simpl. lia. }
  assert (E1 : reg w1 k = Some (with_link e None)) by (unfold w1; rewrite reg_setk, Nat.eqb_refl; reflexivity).
  destruct (e_link e) as [old|] eqn:El; [|split; auto].
  destruct (inv_link w k e old Hi E El) as (oe & Eo & Hok & Hpos).
  assert (Eo1 : reg w1 old = Some oe) by (unfold w1; rewrite reg_setk; destruct (Nat.eqb_spec old k); congruence).
  rewrite Eo1.
  destruct (unlink_spec w1 old oe B1 S1 Eo1 Hpos) as (B2 & S2 & N2 & Hd2 & C2 & A2 & L2 & Bal2).
  { intros x xe Ex Hne Hl. specialize (Bal1 x). unfold bal in Bal1. rewrite Ex in Bal1. simpl in Bal1.
    destruct (Nat.eqb_spec old x); simpl in Bal1; [congruence|lia]. }
  { intros x Ex. specialize (Bal1 x). unfold bal in Bal1. rewrite Ex in Bal1. simpl in Bal1.
    destruct (Nat.eqb_spec old x); simpl in Bal1; [congruence|lia]. }
  set (w2 := unlink w1 old) in *.
  assert (I2 : inv w2).
  { split; auto. split; auto. intro x. rewrite Bal2, Bal1, (Nat.eqb_sym old x). lia. }
  clearbody w2. set (z := next w2). pose proof (make_inv w2 None true false I2) as I3. fold z.
  set (w3 := create w2 None true false) in *. pose proof I3 as (B3 & S3 & Bal3).
  assert (E3 : reg w3 z = Some (mkE None true false false None 1)) by (unfold w3; simpl; unfold fset; fold z; now rewrite Nat.eqb_refl).
  assert (H3 : handles w3 z = 1) by (unfold w3; simpl; unfold fset; fold z; now rewrite Nat.eqb_refl).
  assert (E2k : exists e2, reg w2 k = Some e2 /\ e_link e2 = None).
  { destruct (reg w2 k) as [e2|] eqn:E2.
    - destruct (L2 k e2 E2) as (e' & E' & Hl). rewrite E1 in E'. injection E' as <-. exists e2. split; auto.
    - destruct (A2 k E2) as [H|[H _]]; congruence. }
  destruct E2k as (e2 & E2 & Hl2).
  assert (Hkz : k < z) by (apply (below_lt w2 k B2); congruence).
  assert (E3k : reg w3 k = Some e2) by (unfold w3; simpl; unfold fset; fold z; destruct (Nat.eqb_spec k z); [lia|auto]).
  assert (N3 : next w3 = S z) by reflexivity.
  clearbody w3. set (z4 := mkE None true true false None 2).
  change (put w3 z z4) with (setk w3 z (Some z4)). set (w4 := setk w3 z (Some z4)).
  assert (B4 : below w4) by (apply (below_same w3 z (mkE None true false false None 1)); auto).
  assert (S4 : no_self w4) by (apply (no_self_same w3 z (mkE None true false false None 1)); auto).
  assert (Bal4 : forall x, bal w4 x = b2z (x =? z)).
  { intro x. unfold w4. rewrite (bal_same w3 z (mkE None true false false None 1)) by auto. rewrite Bal3. simpl. destruct (x =? z); reflexivity. }
  assert (E4k : reg w4 k = Some e2) by (unfold w4; rewrite reg_setk; destruct (Nat.eqb_spec k z); [lia|auto]).
  rewrite E4k. change (put w4 k (with_link e2 (Some z))) with (setk w4 k (Some (with_link e2 (Some z)))).
  set (w5 := setk w4 k (Some (with_link e2 (Some z)))).
  assert (E5 : reg w5 z = Some z4).
  { unfold w5. rewrite reg_setk. destruct (Nat.eqb_spec z k); [lia|]. unfold w4. now rewrite reg_setk, Nat.eqb_refl. }
  simpl snd. apply drop_inv.
  - split; [|split].
    + apply below_link; auto. intros g [= <-]. change (next w4) with (next w3). lia.
    + apply no_self_link; auto. intros [= ->]. lia.
    + intro x. unfold w5. rewrite bal_link, Bal4, Hl2 by auto. rewrite (Nat.eqb_sym z x). simpl. lia.
  - change (handles w5 z) with (handles w3 z). lia.
  - intros e0 g E0 Hrc. rewrite E5 in E0. injection E0 as <-. discriminate.
Qed.

Lemma step_inv : forall w o, inv w -> legal w o -> calm w o -> inv (step w o).
Proof.
  intros w o Hi Hl Hc. destruct o as [ow r q|k|k|k|k g|k|c k|b|k b]; simpl step.
  - now apply make_inv.
  - apply incr_hold_inv; auto. now apply held_exists.
  - now apply drop_inv.
  - unfold grad. destruct (reg w k) as [e|] eqn:E; auto. destruct (e_link e) as [g|] eqn:El; auto.
    destruct (inv_link w k e g Hi E El) as (ge & Eg & _). apply incr_hold_inv; auto. congruence.
  - now apply link_inv.
  - now apply zero_inv.
  - now apply clean_inv.
  - destruct Hi as ((A & B) & S & C). split; [split; auto|]. split; auto.
  - destruct (reg w k) as [e|] eqn:E; auto. destruct Hi as (A & B & C). split; [|split].
    + apply (below_same w k e); auto.
    + apply (no_self_same w k e); auto.
    + intro x. change (put w k ?e') with (setk w k (Some e')). rewrite (bal_same w k e) by auto. rewrite C. simpl. destruct (x =? k); lia.
Qed.

Lemma run_inv : forall os w, inv w -> history (fun w o => legal w o /\ calm w o) w os -> inv (run os w).
Proof.
  intros os. induction os as [|o os IH]; intros w Hi H; auto. destruct H as ((Hl & Hc) & H).
  unfold run. simpl. apply IH; auto. now apply step_inv.
Qed.

(** ** Any history: identifiers are new *)
Lemma below_unlink : forall w old, below w -> below (unlink w old).
Proof.
  intros w old H. unfold unlink. destruct (reg w old) as [e|] eqn:E; auto.
  assert (B : below (put w old (with_rc e (dec (e_rc e))))) by (apply (below_same w old e); auto).
  destruct ((e_rc e =? 1)%Z && e_runtime e && no_owner e); auto using below_remove.
Qed.
Lemma below_create : forall w ow r q, below w -> below (create w ow r q).
Proof.
  intros w ow r q (H1 & H2). split.
  - intros k Hk. simpl in *. unfold fset. destruct (Nat.eqb_spec k (next w)); [lia|]. apply H1. lia.
  - intros k e g. simpl. unfold fset. destruct (Nat.eqb_spec k (next w)); [intros [= <-]; discriminate|].
    intros E El. specialize (H2 k e g E El). lia.
Qed.
Lemma below_drop : forall w k, below w -> below (drop_handle w k).
Proof.
  intros w k H. unfold drop_handle. destruct (reg w k) as [e|] eqn:E; [|now apply below_release].
  assert (B : below (put w k (with_rc e (dec_pos (e_rc e))))) by (apply (below_same w k e); auto).
  set (w1 := put w k (with_rc e (dec_pos (e_rc e)))) in *. clearbody w1.
  destruct (negb (computing w) && few (e_rc e) && e_runtime e && no_owner e && negb (e_isgrad e)); [|now apply below_release].
  apply below_release, below_remove. destruct (e_link e) as [g|]; auto. destruct (reg w1 g) as [ge|] eqn:Eg; auto.
  assert (B' : below (put w1 g (with_rc ge (dec_pos (e_rc ge))))) by (apply (below_same w1 g ge); auto).
  destruct (few (e_rc ge) && e_runtime ge && no_owner ge); auto using below_remove.
Qed.
Lemma below_clean : forall w c k, below w -> below (clean_one w c k).
Proof.
  intros w c k H. unfold clean_one. destruct (reg w k) as [e|] eqn:E; auto.
  match goal with |- below (if ?b then _ else _) => destruct b end; auto.
  apply below_remove. destruct (e_link e) as [g|]; auto. destruct (reg w g) as [ge|] eqn:Eg; auto.
  assert (B' : below (put w g (with_rc ge (dec_pos (e_rc ge))))) by (apply (below_same w g ge); auto).
  match goal with |- below (if ?b then _ else _) => destruct b end; auto using below_remove.
Qed.
Lemma next_change : forall w k f, next (change_rc w k f) = next w.
Proof. intros w k f. unfold change_rc. destruct (reg w k); auto. Qed.
Lemma next_remove : forall w k, next (reg_remove w k) = next w.
Proof. intros w k. unfold reg_remove. simpl. destruct (reg w k) as [e|]; auto. destruct (e_link e); auto. apply next_change. Qed.
Lemma next_unlink : forall w k, next (unlink w k) = next w.
Proof.
  intros w k. unfold unlink. destruct (reg w k) as [e|]; auto.
  match goal with |- next (if ?b then _ else _) = _ => destruct b end; auto. now rewrite next_remove.
Qed.
Lemma next_drop : forall w k, next (drop_handle w k) = next w.
Proof.
  intros w k. unfold drop_handle. destruct (reg w k) as [e|]; auto.
  match goal with |- next (if ?b then _ else _) = _ => destruct b end; auto.
  cbn [next release]. rewrite next_remove. destruct (e_link e) as [g|]; auto.
  match goal with |- context [reg ?w1 g] => destruct (reg w1 g) end; auto.
  match goal with |- next (if ?b then _ else _) = _ => destruct b end; auto. now rewrite next_remove.
Qed.

Lemma set_grad_any : forall w k g, below w -> below (snd (set_grad w k g)) /\ next (snd (set_grad w k g)) = next w.
Proof.
  intros w k g H. unfold set_grad. destruct (reg w g) as [ge|] eqn:Eg; auto.
  assert (Hg : g < next w) by (apply below_lt; auto; congruence).
  assert (B1 : below (incr w g)) by (apply below_change_rc; auto).
  assert (N1 : next (incr w g) = next w) by apply next_change.
  set (w1 := incr w g) in *. clearbody w1.
  set (w2 := match reg w1 k with Some e => match e_link e with Some old => unlink w1 old | None => w1 end | None => w1 end).
  assert (B2 : below w2 /\ next w2 = next w).
  { unfold w2. destruct (reg w1 k) as [e|]; auto. destruct (e_link e); auto. rewrite next_unlink. auto using below_unlink. }
  destruct B2 as [B2 N2]. destruct (reg w2 k) as [e2|] eqn:E2; auto. simpl snd. split; [|exact N2].
  apply below_link; auto. intros g0 [= <-]. lia.
Qed.
Lemma zero_grad_any : forall w k, below w -> below (snd (zero_grad w k)) /\ next w <= next (snd (zero_grad w k)).
Proof.
  intros w k H. unfold zero_grad. destruct (reg w k) as [e|] eqn:E; auto. destruct (negb (e_reqgrad e)); auto.
  assert (B1 : below (put w k (with_link e None))) by (apply below_link; auto; discriminate).
  assert (N1 : next (put w k (with_link e None)) = next w) by reflexivity.
  set (w1 := put w k (with_link e None)) in *. clearbody w1.
  destruct (e_link e) as [old|]; [|simpl; split; [auto|lia]]. destruct (reg w1 old); [|simpl; split; [auto|lia]].
  cbn [snd]. set (w2 := unlink w1 old). assert (B2 : below w2) by (apply below_unlink; auto).
  assert (N2 : next w2 = next w) by (unfold w2; now rewrite next_unlink). clearbody w2.
  set (z := next w2). assert (Hz : z = next w) by exact N2. assert (B3 := below_create w2 None true false B2).
  assert (E3 : reg (create w2 None true false) z = Some (mkE None true false false None 1)) by (simpl; unfold fset; fold z; now rewrite Nat.eqb_refl).
  assert (N3 : next (create w2 None true false) = S z) by reflexivity.
  set (w3 := create w2 None true false) in *. clearbody w3.
  assert (B4 : below (put w3 z (mkE None true true false None 2))) by (eapply below_same; eauto).
  assert (N4 : next (put w3 z (mkE None true true false None 2)) = S z) by exact N3.
  set (w4 := put w3 z (mkE None true true false None 2)) in *. clearbody w4.
  rewrite next_drop. destruct (reg w4 k) as [e4|] eqn:E4.
  - change (next (put w4 k (with_link e4 (Some z)))) with (next w4). split; [|rewrite N4, <- Hz; auto].
    apply below_drop, below_link; auto. intros g [= <-]. rewrite N4. auto.
  - split; [apply below_drop; auto|rewrite N4, <- Hz; auto].
Qed.

Lemma step_any : forall w o, below w -> legal w o -> below (step w o) /\ next w <= next (step w o).
Proof.
  intros w o H Hl. destruct o as [ow r q|k|k|k|k g|k|c k|b|k b]; simpl step.
  - split; [now apply below_create|simpl; lia].
  - unfold clone, incr. assert (Hk : k < next w).
    { destruct (Nat.lt_ge_cases k (next w)); auto. destruct (proj1 H k H0). simpl in Hl. lia. }
    split; [|simpl; rewrite next_change; lia]. apply below_hold; [now apply below_change_rc|]. now rewrite next_change.
  - rewrite next_drop. split; [now apply below_drop|lia].
  - unfold grad. destruct (reg w k) as [e|] eqn:E; auto. destruct (e_link e) as [g|] eqn:El; auto.
    unfold incr. split; [|simpl; rewrite next_change; lia]. apply below_hold; [now apply below_change_rc|].
    rewrite next_change. destruct H as [_ H]. eauto.
  - destruct (set_grad_any w k g H). split; auto. lia.
  - now apply zero_grad_any.
  - split; [now apply below_clean|]. unfold clean_one. destruct (reg w k) as [e|]; auto.
    match goal with |- _ <= next (if ?b then _ else _) => destruct b end; auto. rewrite next_remove.
    destruct (e_link e) as [g|]; auto. destruct (reg w g); auto.
    match goal with |- _ <= next (if ?b then _ else _) => destruct b end; auto. now rewrite next_remove.
  - split; auto.
  - destruct (reg w k) as [e|] eqn:E; auto. split; [apply (below_same w k e); auto|simpl; lia].
Qed.
Lemma run_any : forall os w, below w -> history legal w os -> below (run os w) /\ next w <= next (run os w).
Proof.
  intros os. induction os as [|o os IH]; intros w H Hh; auto. destruct Hh as (Hl & Hh).
  destruct (step_any w o H Hl) as [B N]. destruct (IH (step w o) B Hh) as [B' N']. unfold run in *. simpl. split; auto. lia.
Qed.

(** ** Release *)
Lemma last_drop : forall w k e, inv w -> reg w k = Some e -> handles w k = 1 -> links w k = 0 ->
  computing w = false -> e_runtime e = true -> e_owner e = None -> e_isgrad e = false ->
  reg (step w (Drop k)) k = None.
Proof.
  intros w k e Hi E Hh Hl Hc Hr Ho Hg. pose proof (inv_rc w k e Hi E) as Hrc. rewrite Hh, Hl in Hrc. simpl in Hrc.
  cbn [step]. unfold drop_handle. rewrite E.
  assert (Hcond : negb (computing w) && few (e_rc e) && e_runtime e && no_owner e && negb (e_isgrad e) = true).
  { unfold few, no_owner. now rewrite Hc, Hr, Ho, Hg, Hrc. }
  rewrite Hcond. cbn [reg release]. unfold reg_remove at 1. cbn [reg set_reg]. unfold fset at 1. now rewrite Nat.eqb_refl.
Qed.
