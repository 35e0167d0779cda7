(** backward() sums over all paths. *)
From Coq Require Import List Arith Lia Bool.
From Verif Require Import Base GradModel GradSpec GradProofs.
Import ListNotations.

Section Enum.
Variable OP : Type.
Notation entry := (entry OP).
Notation step := (step OP).

Definition nonnil {A} (l : list A) : bool := match l with [] => false | _ => true end.

(** Enumeration of the paths that use operations of [suf] only; [o] is the
    position of [suf] on the tape. *)
Fixpoint ext (e : entry) (o : nat) (P : list (list step)) (ins : list nat) (k x : nat)
  : list (list step) :=
  match ins with
  | [] => []
  | i :: ins' => (if Nat.eqb i x then map (cons (o, e, k)) P else []) ++ ext e o P ins' (S k) x
  end.

Fixpoint paths (loss : nat) (suf : list entry) (o x : nat) : list (list step) :=
  match suf with
  | [] => if Nat.eqb x loss then [[]] else []
  | e :: r => paths loss r (S o) x ++ ext e o (paths loss r (S o) (e_out e)) (e_ins e) 0 x
  end.

Lemma in_ext : forall e o P ins k x p,
  In p (ext e o P ins k x) <->
  exists j q, p = (o, e, j) :: q /\ k <= j /\ nth_error ins (j - k) = Some x /\ In q P.
Proof.
  intros e o P ins. induction ins as [|i ins IH]; intros k x p; simpl.
  - split; [tauto|]. intros (j & q & _ & _ & H & _). destruct (j - k); discriminate.
  - rewrite in_app_iff, IH. split.
    + intros [H|(j & q & -> & Hj & Hn & Hq)].
      * destruct (Nat.eqb_spec i x) as [->|]; [|destruct H].
        apply in_map_iff in H. destruct H as [q [<- Hq]].
        exists k, q. rewrite Nat.sub_diag. auto.
      * exists j, q. split; auto. split; [lia|]. split; auto.
        replace (j - k) with (S (j - S k)) by lia. exact Hn.
    + intros (j & q & -> & Hj & Hn & Hq).
      destruct (Nat.eq_dec j k) as [->|Hne].
      * rewrite Nat.sub_diag in Hn. injection Hn as ->. rewrite Nat.eqb_refl.
        left. apply in_map_iff. eauto.
      * right. exists j, q. split; auto. split; [lia|]. split; auto.
        replace (j - k) with (S (j - S k)) in Hn by lia. exact Hn.
Qed.

Lemma NoDup_app2 : forall A (l m : list A), NoDup l -> NoDup m ->
  (forall x, In x l -> ~ In x m) -> NoDup (l ++ m).
Proof.
  induction l as [|x l IH]; intros m Hl Hm Hd; simpl; auto.
  inversion Hl; subst. constructor.
  - rewrite in_app_iff. intros [H|H]; [contradiction|]. apply (Hd x); simpl; auto.
  - apply IH; auto. intros y Hy. apply Hd. simpl; auto.
Qed.

Lemma NoDup_map_cons : forall A (a : A) l, NoDup l -> NoDup (map (cons a) l).
Proof.
  induction l as [|x l IH]; intro H; simpl; constructor; inversion H; subst; auto.
  rewrite in_map_iff. intros [y [E Hy]]. injection E as <-. contradiction.
Qed.

Lemma ext_NoDup : forall e o P ins k x, NoDup P -> NoDup (ext e o P ins k x).
Proof.
  intros e o P ins. induction ins as [|i ins IH]; intros k x HP; simpl; [constructor|].
  apply NoDup_app2; auto.
  - destruct (Nat.eqb i x); [now apply NoDup_map_cons|constructor].
  - intros p Hp Hq. apply in_ext in Hq. destruct Hq as (j & q & -> & Hj & _).
    destruct (Nat.eqb i x); [|destruct Hp].
    apply in_map_iff in Hp. destruct Hp as [q' [E _]]. injection E as E _. lia.
Qed.

(** Positions increase along the path, starting from [o]. *)
Fixpoint inc (o : nat) (p : list step) : Prop :=
  match p with
  | [] => True
  | (i, _, _) :: p' => o <= i /\ inc (S i) p'
  end.

Lemma inc_le : forall p o o', o' <= o -> inc o p -> inc o' p.
Proof. destruct p as [|[[i e] k] p]; simpl; auto. intros o o' H [H1 H2]. split; [lia|auto]. Qed.

Lemma in_paths : forall tape loss suf o x p,
  (forall i, nth_error suf i = nth_error tape (o + i)) ->
  (In p (paths loss suf o x) <-> is_path tape loss x p /\ inc o p).
Proof.
  intros tape loss suf. induction suf as [|e r IH]; intros o x p Hs; simpl.
  - split.
    + destruct (Nat.eqb_spec x loss) as [->|]; [|simpl; tauto].
      intros [<-|[]]. split; simpl; auto. constructor.
    + intros [H Hi]. destruct H as [|i e k x p Hn Hk Hp].
      * rewrite Nat.eqb_refl. simpl; auto.
      * destruct Hi as [Hi _]. specialize (Hs (i - o)).
        replace (o + (i - o)) with i in Hs by lia. rewrite Hn in Hs.
        destruct (i - o); discriminate.
  - assert (Hs' : forall i, nth_error r i = nth_error tape (S o + i)).
    { intro i. specialize (Hs (S i)). simpl in Hs. rewrite Hs. f_equal. lia. }
    assert (He : nth_error tape o = Some e).
    { specialize (Hs 0). simpl in Hs. now rewrite Nat.add_0_r in Hs. }
    rewrite in_app_iff, IH, in_ext by auto. split.
    + intros [[H1 H2]|(j & q & -> & Hj & Hn & Hq)].
      * split; auto. eapply inc_le; [|exact H2]. lia.
      * apply IH in Hq; auto. destruct Hq as [H1 H2]. rewrite Nat.sub_0_r in Hn. split.
        -- econstructor; eauto.
        -- simpl. split; [lia|]. exact H2.
    + intros [H Hi]. destruct H as [|i e' k x p Hn Hk Hp].
      * left. split; [constructor|exact I].
      * destruct Hi as [Hi1 Hi2]. destruct (Nat.eq_dec i o) as [->|Hne].
        -- right. rewrite He in Hn. injection Hn as <-.
           exists k, p. split; auto. split; [lia|]. rewrite Nat.sub_0_r. split; auto.
           apply IH; auto.
        -- left. split; [econstructor; eauto|]. simpl. split; [lia|auto].
Qed.

Lemma paths_NoDup : forall loss suf o x, NoDup (paths loss suf o x).
Proof.
  intros loss suf. induction suf as [|e r IH]; intros o x; simpl.
  - destruct (Nat.eqb x loss); repeat constructor. simpl. tauto.
  - apply NoDup_app2; auto.
    + apply ext_NoDup. auto.
    + intros p Hp Hq. apply in_ext in Hq. destruct Hq as (j & q & -> & _).
      assert (G : forall l o0 x0 i0 e0 k0 p0, In ((i0, e0, k0) :: p0) (paths loss l o0 x0) -> o0 <= i0).
      { clear IH Hp. induction l as [|e' l IHl]; intros o0 x0 i0 e0 k0 p0 H; simpl in H.
        - destruct (Nat.eqb x0 loss); simpl in H; [destruct H as [H|[]]; discriminate|tauto].
        - apply in_app_iff in H. destruct H as [H|H].
          + apply IHl in H. lia.
          + apply in_ext in H. destruct H as (j1 & q1 & E & _). injection E as -> _ _ _. lia. }
      apply G in Hp. lia.
Qed.

Lemma ordered_inc : forall tape loss x p, ordered tape -> is_path tape loss x p -> inc 0 p.
Proof.
  intros tape loss x p Ho H.
  induction H as [|i e k x p Hn Hk Hp IH]; simpl; auto. split; [lia|].
  inversion Hp as [|j f k' y p' Hn' Hk' Hp' Ey]; subst; simpl; auto. simpl in IH. split; [|tauto].
  destruct (Nat.lt_ge_cases i j) as [|Hle]; [lia|]. exfalso.
  apply (Ho j i f e Hn' Hn Hle). eapply nth_error_In; eauto.
Qed.

Lemma paths_complete : forall tape loss x p, ordered tape ->
  (In p (paths loss tape 0 x) <-> is_path tape loss x p).
Proof.
  intros tape loss x p Ho. rewrite (in_paths tape) by reflexivity. split; [tauto|].
  intro H. split; auto. eapply ordered_inc; eauto.
Qed.

Lemma path_end : forall (tape : list entry) loss x p, is_path tape loss x p -> ordered tape ->
  forall i0, inc (S i0) p -> p <> [] -> exists j f, i0 < j /\ nth_error tape j = Some f /\ e_out f = loss.
Proof.
  intros tape loss x p H Ho. induction H as [|i e k x p Hn Hk Hp IH]; intros i0 Hi Hne; [congruence|].
  destruct Hi as [Hi1 Hi2].
  destruct p as [|st p].
  - inversion Hp; subst. exists i, e. auto.
  - destruct (IH i) as (j & f & Hj & Hf & Eo); auto; [discriminate|].
    exists j, f. split; [lia|auto].
Qed.

Lemma no_loop : forall (tape : list entry) loss p, ordered tape -> is_path tape loss loss p -> p = [].
Proof.
  intros tape loss p Ho H. pose proof (ordered_inc _ _ _ _ Ho H) as Hi.
  inversion H as [|i e k x p' Hn Hk Hp]; subst; auto. exfalso.
  destruct Hi as [_ Hi]. pose proof (nth_error_In _ _ Hk) as Hin.
  destruct p' as [|st p'].
  - inversion Hp; subst. apply (Ho i i e e Hn Hn); auto.
  - destruct (path_end _ _ _ _ Hp Ho i Hi) as (j & f & Hj & Hf & Eo); [discriminate|].
    apply (Ho i j e f Hn Hf); [lia|]. congruence.
Qed.

Lemma ext_nil : forall e o ins k x, ext e o [] ins k x = [].
Proof. intros e o ins. induction ins as [|i ins IH]; intros; simpl; auto. rewrite IH. now destruct (Nat.eqb i x). Qed.

Definition extended (P : list (list step)) : bool := existsb nonnil P.

Lemma extended_app : forall a b, extended (a ++ b) = extended a || extended b.
Proof. intros. unfold extended. apply existsb_app. Qed.

End Enum.

Section Paths.
Variables OP V : Type.
Notation entry := (entry OP).
Notation gstate := (gstate OP V).
Notation step := (step OP).
Variable vjp : entry -> V -> list entry * outcome (list V).
Variable vadd : V -> V -> list entry * outcome V.
Variable plus : V -> V -> V.
Variable J : entry -> nat -> V -> V.
Hypothesis Hadd : forall a b, snd (vadd a b) = Ok (plus a b).
Hypothesis Hassoc : forall a b c, plus a (plus b c) = plus (plus a b) c.
Notation osum := (osum plus).
Notation paths := (paths OP).
Notation ext := (ext OP).
Notation extended := (extended OP).
Notation along := (along J).

Definition oplus (a b : option V) : option V :=
  match a, b with
  | None, _ => b
  | _, None => a
  | Some x, Some y => Some (plus x y)
  end.

Lemma osum_app : forall l m, osum (l ++ m) = oplus (osum l) (osum m).
Proof.
  induction l as [|x l IH]; intro m; simpl; auto.
  rewrite IH. destruct (osum l) as [y|], (osum m) as [z|]; simpl; auto.
  now rewrite Hassoc.
Qed.

Lemma oplus_assoc : forall a b c, oplus a (oplus b c) = oplus (oplus a b) c.
Proof. intros [a|] [b|] [c|]; simpl; auto. now rewrite Hassoc. Qed.

Lemma oplus_none_r : forall a, oplus a None = a.
Proof. now intros [a|]. Qed.

Lemma osum_none : forall l, osum l = None <-> l = [].
Proof.
  destruct l as [|x l]; simpl; split; auto; try discriminate.
  destruct (osum l); discriminate.
Qed.

(** The gradients handed to tensor [x]. *)
Fixpoint sel (x : nat) (ins : list nat) (gs : list V) : list V :=
  match ins, gs with
  | i :: ins', g :: gs' => (if Nat.eqb i x then [g] else []) ++ sel x ins' gs'
  | _, _ => []
  end.

Lemma give_grads_spec : forall ins gs gr (s : gstate), computing s = true ->
  exists s' gr',
    give_grads vadd ins gs gr s = (s', gr', Ok tt) /\ same_but_grads _ _ s s' /\
    (forall x, gr' x = oplus (gr x) (osum (sel x ins gs))) /\
    (forall x, grads s' x =
       if requires s x && nonnil (sel x ins gs) then gr' x else grads s x).
Proof.
  induction ins as [|i ins IH]; intros gs gr s Hc.
  - exists s, gr. simpl. split; auto. split; [apply sbg_refl|]. split.
    + intro x. now rewrite oplus_none_r.
    + intro x. now rewrite andb_false_r.
  - destruct gs as [|g gs].
    { exists s, gr. simpl. split; auto. split; [apply sbg_refl|]. split.
      + intro x. now rewrite oplus_none_r.
      + intro x. now rewrite andb_false_r. }
    simpl.
    set (f := match gr i with Some old => plus old g | None => g end).
    assert (E : match gr i with
            | Some old => let '(es, r0) := vadd old g in (record_all es s, r0)
            | None => (s, Ok g)
            end = (s, Ok f)).
    { unfold f. destruct (gr i) as [old|]; auto.
      pose proof (Hadd old g) as A. destruct (vadd old g) as [es q]. simpl in A. subst q.
      now rewrite record_all_computing. }
    rewrite E. clear E.
    assert (Ef : forall x, fupd gr i (Some f) x =
              oplus (gr x) (osum (if Nat.eqb i x then [g] else []))).
    { intro x. unfold fupd. rewrite (Nat.eqb_sym x i).
      destruct (Nat.eqb_spec i x) as [->|]; simpl.
      - unfold f. destruct (gr x); reflexivity.
      - now rewrite oplus_none_r. }
    set (s2 := if requires s i then set_grads (fupd (grads s) i (Some f)) s else s).
    assert (F : same_but_grads _ _ s s2).
    { unfold s2. destruct (requires s i); repeat split. }
    assert (Hc2 : computing s2 = true) by (destruct F as [-> _]; exact Hc).
    destruct (IH gs (fupd gr i (Some f)) s2 Hc2) as (s' & gr' & R & F' & G1 & G2).
    exists s', gr'. split; [|split; [|split]].
    + unfold s2 in R. destruct (requires s i) eqn:Er; [|exact R].
      unfold set_grad. apply andb_true_iff in Er. destruct Er as [-> _]. exact R.
    + eapply sbg_trans; eauto.
    + intro x. rewrite G1, Ef. rewrite <- oplus_assoc. f_equal.
      now rewrite osum_app.
    + intro x. rewrite G2.
      assert (Er : requires s2 x = requires s x).
      { unfold requires. destruct F as (_&_&_&_&_&->&->). reflexivity. }
      rewrite Er. destruct (requires s x) eqn:Ex; simpl.
      2:{ unfold s2. destruct (requires s i) eqn:Ei; auto. simpl. unfold fupd.
          destruct (Nat.eqb_spec x i); auto. subst. congruence. }
      destruct (Nat.eqb_spec i x) as [->|Hne]; simpl.
      * destruct (sel x ins gs) eqn:Es; simpl; auto.
        unfold s2. rewrite Ex. simpl. unfold fupd at 1. rewrite Nat.eqb_refl.
        rewrite G1, Es. simpl. rewrite oplus_none_r. unfold fupd. now rewrite Nat.eqb_refl.
      * destruct (sel x ins gs); simpl; auto.
        unfold s2. destruct (requires s i); auto. simpl. unfold fupd.
        destruct (Nat.eqb_spec x i); [congruence|auto].
Qed.

Lemma back_loop_app : forall a b gr (s : gstate),
  back_loop vjp vadd (a ++ b) gr s =
  match back_loop vjp vadd a gr s with
  | (s1, gr1, Ok _) => back_loop vjp vadd b gr1 s1
  | o => o
  end.
Proof.
  induction a as [|e a IH]; intros b gr s; simpl; auto.
  destruct (gr (e_out e)) as [g|]; auto.
  destruct (forallb _ _); auto.
  destruct (vjp e g) as [es [gs|x|]]; auto.
  destruct (give_grads _ _ _ _ _) as [[s2 gr2] [u|x|]]; auto.
Qed.

(** *** The loop computes path sums *)
Lemma osum_lin : forall e k P g (Hlin : forall a b, J e k (plus a b) = plus (J e k a) (J e k b)),
  osum P = Some g -> osum (map (J e k) P) = Some (J e k g).
Proof.
  intros e k P g Hlin. revert g. induction P as [|x P IH]; intros g H; simpl in *; [discriminate|].
  destruct (osum P) as [y|] eqn:E; injection H as <-.
  - rewrite (IH y) by auto. now rewrite Hlin.
  - apply osum_none in E. subst P. reflexivity.
Qed.

Lemma osum_ext : forall e o seed P g x
  (Hlin : forall k a b, J e k (plus a b) = plus (J e k a) (J e k b)),
  osum (map (along seed) P) = Some g ->
  forall ins k,
  osum (map (along seed) (ext e o P ins k x)) =
  osum (sel x ins (map (fun k => J e k g) (seq k (length ins)))).
Proof.
  intros e o seed P g x Hlin HP ins. induction ins as [|i ins IH]; intro k; simpl; auto.
  rewrite map_app, !osum_app, IH. f_equal.
  destruct (Nat.eqb i x); auto. rewrite map_map. simpl.
  rewrite <- (map_map (along seed) (J e k)). now apply osum_lin.
Qed.

Lemma ext_extended : forall e o P x, P <> [] -> forall ins k g,
  extended (ext e o P ins k x) = nonnil (sel x ins (map (fun k => J e k g) (seq k (length ins)))).
Proof.
  intros e o P x HP ins. induction ins as [|i ins IH]; intros k g; simpl; auto.
  rewrite extended_app, (IH (S k) g).
  destruct (Nat.eqb i x); simpl; auto.
  destruct P as [|p P]; [congruence|]. reflexivity.
Qed.

Lemma back_loop_paths : forall tape loss seed (s : gstate) suf o,
  (forall e, In e suf -> In e tape) ->
  (forall e, In e tape -> forall g, snd (vjp e g) = Ok (map (fun k => J e k g) (seq 0 (length (e_ins e))))) ->
  (forall e, In e tape -> forall k a b, J e k (plus a b) = plus (J e k a) (J e k b)) ->
  computing s = true ->
  forall s' gr' r,
  back_loop vjp vadd (rev suf) (fupd (fun _ => None) loss (Some seed)) s = (s', gr', r) ->
  (r = Ok tt \/ r = Err EInternal /\ exists e, In e suf /\ forallb (alive s) (e_ins e) = false) /\
  (r = Ok tt ->
  same_but_grads _ _ s s' /\
  (forall x, gr' x = osum (map (along seed) (paths loss suf o x))) /\
  (forall x, grads s' x = if requires s x && extended (paths loss suf o x) then gr' x else grads s x)).
Proof.
  intros tape loss seed s suf. induction suf as [|e suf IH]; intros o Hin Hvjp Hlin Hc s' gr' r H.
  - simpl in H. injection H as <- <- <-. split; auto. intros _. split; [apply sbg_refl|]. split.
    + intro x. unfold fupd. simpl. destruct (Nat.eqb x loss); reflexivity.
    + intro x. simpl. destruct (Nat.eqb x loss); simpl; now rewrite andb_false_r.
  - simpl rev in H. rewrite back_loop_app in H.
    destruct (back_loop vjp vadd (rev suf) (fupd (fun _ => None) loss (Some seed)) s) as [[s1 gr1] r1] eqn:E1.
    destruct (IH (S o) (fun e' h => Hin e' (or_intror h)) Hvjp Hlin Hc _ _ _ eq_refl) as [D IH'].
    destruct D as [->|[-> [e' [He' Ha]]]].
    2:{ injection H as <- <- <-. split; [|discriminate]. right. split; auto.
        exists e'. split; simpl; auto. }
    destruct (IH' eq_refl) as (F1 & G1 & R1). clear IH IH'.
    assert (Het : In e tape) by (apply Hin; now left).
    simpl in H. destruct (gr1 (e_out e)) as [g|] eqn:Eg.
    + destruct (forallb (alive s1) (e_ins e)) eqn:Eal.
      2:{ injection H as <- <- <-. split; [|discriminate]. right. split; auto.
          exists e. split; [now left|]. destruct F1 as (_&_&_&_&_&Fa&_). now rewrite <- Fa. }
      pose proof (Hvjp e Het g) as Hv. destruct (vjp e g) as [es q]. simpl in Hv. subst q.
      assert (Hc1 : computing s1 = true) by (destruct F1 as [-> _]; exact Hc).
      rewrite record_all_computing in H by auto.
      destruct (give_grads_spec (e_ins e) (map (fun k => J e k g) (seq 0 (length (e_ins e)))) gr1 s1 Hc1)
        as (s2 & gr2 & E2 & F2 & G2 & R2).
      rewrite E2 in H. injection H as <- <- <-. split; auto. intros _.
      rewrite G1 in Eg.
      split; [eapply sbg_trans; eauto|]. split.
      * intro x. rewrite G2, G1. simpl. rewrite map_app, osum_app. f_equal.
        symmetry. apply osum_ext; auto.
      * intro x. rewrite R2, R1.
        assert (Er : requires s1 x = requires s x).
        { unfold requires. destruct F1 as (_&_&_&_&_&->&->). reflexivity. }
        rewrite Er. simpl paths. rewrite extended_app.
        rewrite (ext_extended e o (paths loss suf (S o) (e_out e)) x) with (g := g).
        2:{ intro E0. rewrite E0 in Eg. discriminate. }
        destruct (requires s x); simpl; auto.
        destruct (sel x _ _) eqn:Esel; simpl; [rewrite orb_false_r|now rewrite orb_true_r].
        destruct (extended _); auto. rewrite G2, Esel. simpl. now rewrite oplus_none_r.
    + injection H as <- <- <-. split; auto. intros _. split; auto.
      rewrite G1 in Eg. apply osum_none in Eg. apply map_eq_nil in Eg.
      split; intro x; simpl; rewrite Eg, ext_nil, app_nil_r; auto.
Qed.
End Paths.
