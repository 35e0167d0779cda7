(** Facts about saving and loading the registry file: one saving process and any
    number of loading ones. *)
From Coq Require Import List Arith Bool Lia.
From Verif Require Import Base RegistryModel.
Import ListNotations.

Section F.
Context {B : Type}.
Variable zero : B.
Notation steps := (@steps B zero).
Notation step := (@step B zero).

Definition is_prefix (a l : list B) : Prop := exists r, l = a ++ r.
Definition content (f : option (list B)) : list B := match f with Some l => l | None => [] end.

Lemma firstn_prefix : forall k (l : list B), is_prefix (firstn k l) l.
Proof. intros k l. exists (skipn k l). symmetry. apply firstn_skipn. Qed.
Lemma prefix_read : forall (acc f : list B) n, is_prefix acc f -> is_prefix (acc ++ firstn n (skipn (length acc) f)) f.
Proof.
  intros acc f n [r ->]. rewrite skipn_app, skipn_all, Nat.sub_diag. cbn.
  exists (skipn n r). rewrite <- app_assoc. now rewrite firstn_skipn.
Qed.
Lemma prefix_full : forall (acc f : list B), is_prefix acc f -> length f <= length acc -> acc = f.
Proof.
  intros acc f [r ->] H. rewrite app_length in H. destruct r; [now rewrite app_nil_r|cbn in H; lia].
Qed.
Lemma firstn_plus : forall (l : list B) k n, firstn (k + n) l = firstn k l ++ firstn n (skipn k l).
Proof.
  induction l as [|x l IH]; intros k n; [now rewrite !firstn_nil, skipn_nil, firstn_nil|].
  destruct k; cbn; [reflexivity|]. now rewrite IH.
Qed.
Lemma write_next : forall (new : list B) k n, k <= length new ->
  write_at zero (firstn k new) k (firstn n (skipn k new)) = firstn (k + n) new.
Proof.
  intros new k n H. unfold write_at.
  assert (L : length (firstn k new) = k) by (rewrite firstn_length; lia).
  rewrite L, Nat.sub_diag. cbn [repeat]. rewrite app_nil_r, firstn_firstn, Nat.min_id.
  rewrite (skipn_all2 (firstn k new)) by lia. now rewrite app_nil_r, firstn_plus.
Qed.

Section Inv.
Variables (old : option (list B)) (new : list B).

(** what a loader may have seen, by how far the saver is *)
Definition before_ok (f : option (list B)) (r : pc) : Prop :=
  match r with
  | ROpen => True
  | RLock => f <> None
  | RRead acc => is_prefix acc (content old) /\ f <> None
  | RDone c => c = old \/ c = Some new \/ exists a, c = Some a /\ is_prefix a (content old)
  | _ => False
  end.
Definition writing_ok (r : pc) : Prop :=
  match r with RRead _ => False | _ => before_ok (Some []) r end.
Definition after_ok (r : pc) : Prop :=
  match r with RRead acc => is_prefix acc new | _ => before_ok (Some []) r end.
Definition fresh_ok (r : pc) : Prop :=
  match r with RDone c => c = old | _ => before_ok old r end.

Definition inv (s : option (list B) * list pc) : Prop :=
  match snd s with
  | WOpen n :: rs => n = new /\ fst s = old /\ Forall fresh_ok rs
  | WLock n :: rs => n = new /\ fst s = Some [] /\ Forall (before_ok (Some [])) rs
  | WTrunc n :: rs => n = new /\ fst s = Some [] /\ Forall writing_ok rs
  | WWrite n k :: rs => n = new /\ k <= length new /\ fst s = Some (firstn k new) /\ Forall writing_ok rs
  | WDone :: rs => fst s = Some new /\ Forall after_ok rs
  | _ => False
  end.

Lemma Forall_mid : forall A (P : A -> Prop) pre x y post, Forall P (pre ++ x :: post) -> (P x -> P y) ->
  Forall P (pre ++ y :: post).
Proof.
  intros A P pre x y post H K. apply Forall_app in H. destruct H as [H1 H2]. inversion H2; subst.
  apply Forall_app. split; auto.
Qed.
Lemma Forall_elt : forall (P : pc -> Prop) (pre : list (@pc B)) x, forall post, Forall P (pre ++ x :: post) -> P x.
Proof. intros P pre x post H. apply Forall_app in H. destruct H as [_ H]. now inversion H. Qed.
Lemma fresh_before : forall r, fresh_ok r -> before_ok (Some []) r.
Proof. intros []; cbn; auto; try discriminate. intros [H1 H2]. split; [exact H1|discriminate]. Qed.
Lemma before_some : forall f r, before_ok f r -> before_ok (Some []) r.
Proof. intros f []; cbn; auto; try discriminate. intros [H1 H2]. split; [exact H1|discriminate]. Qed.

Lemma inv_step : forall s s', inv s -> step s s' -> inv s'.
Proof.
  intros s s' Hi Hs. destruct Hs as [f f' pre p p' post H].
  destruct pre as [|w pre]; cbn [app] in *.
  - (* the saver moves *)
    destruct H; cbn [inv fst snd] in *; try contradiction.
    + destruct Hi as (-> & -> & Hr). split; [reflexivity|]. split; [reflexivity|].
      eapply Forall_impl; [|exact Hr]. exact fresh_before.
    + destruct Hi as (-> & -> & Hr). split; [reflexivity|]. split; [reflexivity|].
      rewrite forallb_forall in H. rewrite Forall_forall in *. intros r K. specialize (H r K). specialize (Hr r K).
      destruct r; cbn in *; try discriminate; auto.
    + destruct Hi as (-> & -> & Hr). split; [reflexivity|]. split; [lia|]. split; [reflexivity|exact Hr].
    + destruct Hi as (-> & Hk & E & Hr). injection E as ->. split; [reflexivity|]. split; [lia|]. split; [|exact Hr].
      now rewrite write_next.
    + destruct Hi as (<- & Hk & -> & Hr). rewrite firstn_all. split; [reflexivity|].
      eapply Forall_impl; [|exact Hr]. intros []; cbn; auto; contradiction.
  - (* a loader moves *)
    destruct w as [n|n|n|n k| | | | |c]; cbn [inv fst snd] in *; try contradiction.
    + (* nothing happened yet *)
      destruct Hi as (-> & Ef & Hr). pose proof (Forall_elt _ _ _ _ Hr) as Hp.
      assert (E : f' = old /\ fresh_ok p').
      { destruct H; cbn in Hp; try contradiction; (split; [exact Ef|]); cbn; auto; try congruence.
        - split; [exists (content old); reflexivity|exact Hp].
        - destruct Hp as [K1 K2]. rewrite <- Ef in K1 |- *. split; [now apply prefix_read|discriminate].
        - destruct Hp as [K1 K2]. rewrite <- Ef in K1 |- *. f_equal. now apply prefix_full. }
      destruct E as [-> E]. repeat split. eapply Forall_mid; eauto.
    + (* emptied, not locked *)
      destruct Hi as (-> & Ef & Hr). pose proof (Forall_elt _ _ _ _ Hr) as Hp.
      assert (E : f' = Some [] /\ before_ok (Some []) p').
      { destruct H; cbn in Hp; try contradiction; (split; [exact Ef|]); cbn; auto; try congruence.
        - split; [exists (content old); reflexivity|exact Hp].
        - injection Ef as ->. cbn in *. lia.
        - right. right. exists acc. tauto. }
      destruct E as [-> E]. repeat split. eapply Forall_mid; eauto.
    + destruct Hi as (-> & Ef & Hr). pose proof (Forall_elt _ _ _ _ Hr) as Hp.
      assert (E : f' = Some [] /\ writing_ok p').
      { destruct H; cbn in Hp; try contradiction; (split; [exact Ef|]); cbn; auto; try congruence. discriminate. }
      destruct E as [-> E]. repeat split. eapply Forall_mid; eauto.
    + destruct Hi as (-> & Hk & Ef & Hr). pose proof (Forall_elt _ _ _ _ Hr) as Hp.
      assert (E : f' = Some (firstn k new) /\ writing_ok p').
      { destruct H; cbn in Hp; try contradiction; (split; [exact Ef|]); cbn; auto; try congruence. discriminate. }
      destruct E as [-> E]. repeat split; auto. eapply Forall_mid; eauto.
    + destruct Hi as (Ef & Hr). pose proof (Forall_elt _ _ _ _ Hr) as Hp.
      assert (E : f' = Some new /\ after_ok p').
      { destruct H; cbn in Hp; try contradiction; (split; [exact Ef|]); cbn; auto; try congruence.
        - exists new. reflexivity.
        - injection Ef as ->. now apply prefix_read.
        - injection Ef as ->. right. left. f_equal. now apply prefix_full. }
      destruct E as [-> E]. repeat split. eapply Forall_mid; eauto.
Qed.

Lemma inv_steps : forall s s', inv s -> steps s s' -> inv s'.
Proof.
  intros s s' Hi H. induction H as [s|s1 s2 s3 H1 IH H2]; [exact Hi|].
  exact (inv_step s2 s3 (IH Hi) H2).
Qed.
Lemma inv_start : forall n, inv (old, WOpen new :: repeat ROpen n).
Proof. intro n. cbn. repeat split. apply Forall_forall. intros r H. apply repeat_spec in H. now subst. Qed.
End Inv.

(** schedules *)
Lemma steps_trans : forall a b c, steps a b -> steps b c -> steps a c.
Proof.
  intros a b c H1 H2. induction H2 as [s|s1 s2 s3 H IH H']; [exact H1|].
  exact (steps_step zero a s2 s3 (IH H1) H').
Qed.
Lemma steps_one : forall f f' pre p p' post, pstep zero (pre ++ post) f p f' p' ->
  steps (f, pre ++ p :: post) (f', pre ++ p' :: post).
Proof. intros. econstructor; [apply steps_refl|]. now constructor. Qed.
Lemma saver_first : forall f f' p p' post, pstep zero post f p f' p' -> steps (f, p :: post) (f', p' :: post).
Proof. intros f f' p p' post H. exact (steps_one f f' [] p p' post H). Qed.

(** ** any number of savers *)
Section Many.
Variable old : option (list B).
Variable News : list B -> Prop.
Definition cntx (ps : list (@pc B)) : nat := length (filter holds_exclusive ps).
Definition saver_ok (p : pc) : Prop :=
  match p with WOpen n | WLock n | WTrunc n => News n | WWrite n _ => News n | _ => True end.
Definition minv (s : option (list B) * list pc) : Prop :=
  let (f, ps) := s in
  cntx ps <= 1 /\ Forall saver_ok ps
  /\ ((exists n, In (WLock n) ps) \/ (exists n, In (WTrunc n) ps)
      \/ (exists n k, In (WWrite n k) ps /\ f = Some (firstn k n) /\ k <= length n)
      \/ (cntx ps = 0 /\ f = old /\ ~ In WDone ps)
      \/ (cntx ps = 0 /\ exists n, News n /\ f = Some n)).

Lemma cntx_mid : forall pre p post, cntx (pre ++ p :: post) = cntx (pre ++ post) + (if holds_exclusive p then 1 else 0).
Proof.
  intros pre p post. unfold cntx. rewrite !filter_app, !app_length. cbn. destruct (holds_exclusive p); cbn; lia.
Qed.
Lemma cntx_zero : forall ps p, cntx ps = 0 -> In p ps -> holds_exclusive p = false.
Proof.
  intros ps p H Hp. destruct (holds_exclusive p) eqn:E; [|reflexivity]. exfalso.
  unfold cntx in H. apply length_zero_iff_nil in H. assert (K : In p []) by (rewrite <- H; apply filter_In; auto). destruct K.
Qed.
Lemma in_mid : forall A (x : A) pre y post, In x (pre ++ y :: post) <-> x = y \/ In x (pre ++ post).
Proof. intros. rewrite !in_app_iff. cbn. intuition. Qed.

Lemma minv_step : forall s s', minv s -> step s s' -> minv s'.
Proof.
  intros s s' Hi Hs. destruct Hs as [f f' pre p p' post H]. destruct Hi as (C & F & J).
  assert (Fo : Forall saver_ok (pre ++ post) /\ saver_ok p).
  { apply Forall_app in F. destruct F as [F1 F2]. inversion F2; subst. split; [apply Forall_app; auto|auto]. }
  destruct Fo as [Fo Fp].
  assert (Build : saver_ok p' -> Forall saver_ok (pre ++ p' :: post)).
  { intro K. apply Forall_app in Fo. destruct Fo as [F1 F2]. apply Forall_app. split; auto. }
  rewrite cntx_mid in *.
  (* loaders *)
  assert (Loader : f' = f -> holds_exclusive p = false -> holds_exclusive p' = false -> saver_ok p' ->
     (forall n, p <> WLock n) -> p' <> WDone -> minv (f', pre ++ p' :: post)).
  { intros -> Hp Hp' Hok N1 N2. rewrite Hp in C. split; [rewrite cntx_mid, Hp'; exact C|]. split; [auto|].
    rewrite Hp, Nat.add_0_r in J. destruct J as [[n J]|[[n J]|[(n & k & J & E)|[(J & E & N)|(J & E)]]]].
    - left. exists n. apply in_mid in J. destruct J as [J|J]; [congruence|]. apply in_mid. auto.
    - right. left. exists n. apply in_mid in J. destruct J as [<-|J]; [discriminate|]. apply in_mid. auto.
    - right. right. left. exists n, k. split; [|exact E]. apply in_mid in J. destruct J as [<-|J]; [discriminate|]. apply in_mid. auto.
    - right. right. right. left. rewrite cntx_mid, Hp', Nat.add_0_r. split; [exact J|]. split; [exact E|].
      rewrite in_mid in *. intros [K|K]; [congruence|]. apply N. auto.
    - right. right. right. right. rewrite cntx_mid, Hp', Nat.add_0_r. split; [exact J|exact E]. }
  destruct H; try (apply Loader; auto; try discriminate; exact I).
  - (* open *) split; [rewrite cntx_mid; exact C|]. split; [apply Build; exact Fp|].
    left. exists new. apply in_mid. auto.
  - (* lock *)
    assert (Z : cntx (pre ++ post) = 0).
    { unfold cntx. apply length_zero_iff_nil. rewrite forallb_forall in H.
      destruct (filter holds_exclusive (pre ++ post)) as [|q l] eqn:E; [reflexivity|].
      assert (K : In q (filter holds_exclusive (pre ++ post))) by (rewrite E; now left).
      apply filter_In in K. destruct K as [K1 K2]. specialize (H q K1). rewrite K2 in H. discriminate. }
    split; [rewrite cntx_mid, Z; cbn; lia|]. split; [apply Build; exact Fp|].
    right. left. exists new. apply in_mid. auto.
  - (* truncate *) split; [rewrite cntx_mid; exact C|]. split; [apply Build; exact Fp|].
    right. right. left. exists new, 0. split; [apply in_mid; auto|]. split; [reflexivity|lia].
  - (* write *)
    assert (Z : cntx (pre ++ post) = 0) by (cbn in C; lia).
    split; [rewrite cntx_mid; exact C|]. split; [apply Build; exact Fp|].
    destruct J as [[m J]|[[m J]|[(m & j & J & E & Hj)|[(J & _)|(J & _)]]]]; [| | |cbn in J; lia|cbn in J; lia].
    + left. exists m. apply in_mid in J. destruct J as [J|J]; [discriminate|]. apply in_mid. auto.
    + apply in_mid in J. destruct J as [J|J]; [discriminate|]. apply (cntx_zero _ _ Z) in J. discriminate.
    + apply in_mid in J. destruct J as [J|J]; [|apply (cntx_zero _ _ Z) in J; discriminate].
      injection J as -> ->. injection E as ->. right. right. left. exists new, (k + n).
      split; [apply in_mid; auto|]. split; [now rewrite write_next|lia].
  - (* close *)
    assert (Z : cntx (pre ++ post) = 0) by (cbn in C; lia).
    split; [rewrite cntx_mid, Z; cbn; lia|]. split; [apply Build; exact I|].
    destruct J as [[m J]|[[m J]|[(m & j & J & E & Hj)|[(J & _)|(J & _)]]]]; [| | |cbn in J; lia|cbn in J; lia].
    + left. exists m. apply in_mid in J. destruct J as [J|J]; [discriminate|]. apply in_mid. auto.
    + apply in_mid in J. destruct J as [J|J]; [discriminate|]. apply (cntx_zero _ _ Z) in J. discriminate.
    + apply in_mid in J. destruct J as [J|J]; [|apply (cntx_zero _ _ Z) in J; discriminate].
      injection J as -> ->. right. right. right. right. rewrite cntx_mid, Z. split; [reflexivity|]. exists new.
      split; [exact Fp|]. rewrite E. now rewrite firstn_all.
Qed.
Lemma minv_steps : forall s s', minv s -> steps s s' -> minv s'.
Proof.
  intros s s' Hi H. induction H as [s|s1 s2 s3 H1 IH H2]; [exact Hi|]. exact (minv_step s2 s3 (IH Hi) H2).
Qed.
End Many.
End F.
