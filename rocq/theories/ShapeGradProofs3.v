(** The gradient of a broadcast operand is the sum over its copies. *)
From Coq Require Import List Arith ZArith Bool Lia Permutation.
From Verif Require Import Base IndexSpec LayoutModel ViewSpec LayoutProofs KernelModel TensorModel TensorSpec
  KernelProofs TensorProofs ReduceModel ReduceSpec ReduceProofs ReduceProofs2 ShapeGradModel ShapeGradSpec ShapeGradProofs.
Import ListNotations.

Section Sum.
Context {A : Type}.
Variable zero : A.
Variable add : A -> A -> A.
Hypothesis add_comm : forall x y, add x y = add y x.
Hypothesis add_assoc : forall x y w, add x (add y w) = add (add x y) w.
Hypothesis add_zero : forall x, add zero x = x.

Lemma fold_add_acc : forall vs a b, fold_left add vs (add a b) = add a (fold_left add vs b).
Proof. induction vs as [|v vs IH]; intros a b; simpl; auto. now rewrite <- add_assoc, IH. Qed.
Lemma fold_add_app : forall l1 l2, fold_left add (l1 ++ l2) zero = add (fold_left add l1 zero) (fold_left add l2 zero).
Proof.
  intros l1 l2. rewrite fold_left_app. rewrite <- (add_zero (fold_left add l1 zero)) at 1.
  rewrite (add_comm zero). apply fold_add_acc.
Qed.
Lemma fold_add_perm : forall l1 l2, Permutation l1 l2 -> fold_left add l1 zero = fold_left add l2 zero.
Proof.
  intros l1 l2 H. generalize zero. induction H; intro a; simpl; auto.
  - f_equal. now rewrite <- !add_assoc, (add_comm x).
  - now rewrite IHPermutation1.
Qed.

Lemma sums_perm : forall read L L' v, Permutation L L' -> sums zero add read L v -> sums zero add read L' v.
Proof.
  intros read L L' v HP (vs & HF & ->).
  assert (H : exists vs', Permutation vs vs' /\ Forall2 (fun j x => read j = Some x) L' vs').
  { clear -HP HF. revert vs HF. induction HP; intros vs HF.
    - inversion HF; subst. eauto.
    - inversion HF as [|? y ? ys ? HF']; subst. destruct (IHHP ys HF') as (vs' & P & F). exists (y :: vs'). split; auto.
    - inversion HF as [|? a ? as_ ? HF']; subst. inversion HF' as [|? b ? bs ? HF'']; subst.
      exists (b :: a :: bs). split; [constructor|]. auto.
    - destruct (IHHP1 vs HF) as (v1 & P1 & F1). destruct (IHHP2 v1 F1) as (v2 & P2 & F2). exists v2. split; eauto.
      eapply Permutation_trans; eauto. }
  destruct H as (vs' & P & F). exists vs'. split; auto. now apply fold_add_perm.
Qed.

(** [t] holds the sums of the entries of [g] grouped by [p] *)
Definition grouped (g t : tensor A) (p : list nat -> list nat) : Prop :=
  good t /\ (forall j, valid (tshape g) j -> valid (tshape t) (p j)) /\
  forall i, valid (tshape t) i -> exists v, elem t i = Some v /\
    sums zero add (elem g)
      (filter (fun j => if list_eq_dec Nat.eq_dec (p j) i then true else false) (all_idx (tshape g))) v.

Lemma grouped_ext : forall g t p q, (forall j, valid (tshape g) j -> p j = q j) -> grouped g t p -> grouped g t q.
Proof.
  intros g t p q H (Hg & Hv & Hs). split; auto. split.
  - intros j Hj. rewrite <- H by auto. auto.
  - intros i Hi. destruct (Hs i Hi) as (v & E & S). exists v. split; auto.
    rewrite (filter_ext_in _ (fun j => if list_eq_dec Nat.eq_dec (p j) i then true else false)); auto.
    intros j Hj. apply in_all_idx in Hj. now rewrite H.
Qed.

Lemma grouped_start : forall g, good g -> grouped g g (fun j => j).
Proof.
  intros g Hg. split; auto. split; auto. intros i Hi.
  assert (Hv : exists v, elem g i = Some v).
  { unfold elem. destruct (nth_error (tstore g) (addr (tlay g) i)) eqn:E; eauto. apply nth_error_None in E.
    destruct Hg as (Hw & Hb). specialize (Hb i Hi). lia. }
  destruct Hv as (v & Ev). exists v. split; auto.
  apply sums_perm with (L := [i]).
  - apply NoDup_Permutation; [repeat constructor; auto|apply NoDup_filter, all_idx_NoDup|].
    intro j. rewrite filter_In, in_all_idx. simpl. destruct (list_eq_dec Nat.eq_dec j i) as [->|Hn].
    + tauto.
    + split; [intros [H|[]]; congruence|intros [_ H]; discriminate].
  - exists [v]. split; auto. simpl. now rewrite add_zero.
Qed.

Lemma NoDup_app_disjoint : forall B (l m : list B), NoDup l -> NoDup m ->
  (forall x, In x l -> In x m -> False) -> NoDup (l ++ m).
Proof.
  intros B l m Hl Hm H. induction Hl as [|x l Hx Hl IH]; simpl; auto. constructor.
  - rewrite in_app_iff. intros [Hi|Hi]; auto. apply (H x); simpl; auto.
  - apply IH. intros y Hy. apply H. now right.
Qed.

(** sums of sums *)
Lemma sums_flat : forall read (readt : list nat -> option A) f (L : list (list nat)) ws,
  Forall2 (fun i x => readt i = Some x) L ws ->
  (forall i, In i L -> exists v, readt i = Some v /\ sums zero add read (f i) v) ->
  sums zero add read (flat_map f L) (fold_left add ws zero).
Proof.
  intros read readt f L. induction L as [|i L IH]; intros ws HF H; inversion HF as [|? w ? ws' E HF']; subst; simpl.
  - exists []. split; auto.
  - destruct (H i (or_introl eq_refl)) as (v & Ev & vs & F & Hv). destruct (IH ws' HF') as (vs' & F' & Hv').
    { intros k Hk. apply H. now right. }
    exists (vs ++ vs'). split; [now apply Forall2_app|]. rewrite fold_add_app, <- Hv, <- Hv'.
    rewrite Ev in E. injection E as <-. rewrite (add_comm zero). now rewrite fold_add_acc.
Qed.

Lemma sum1_grouped : forall g t p d keep, grouped g t p -> d < length (tshape t) -> length (tshape t) <= 16 ->
  Forall (lt 0) (tshape t) ->
  exists r, sum1 zero add d keep t = Ok r /\ tshape r = rshape keep [d] (tshape t) /\
    grouped g r (fun j => rproj keep [d] (p j)).
Proof.
  intros g t p d keep (Hg & Hv & Hs) Hd H16 Hpos.
  destruct (reduce_any_order A A A zero add (fun _ b => b) zero zero t [Z.of_nat d] [d] keep) as (r & Er & Gr & Lr & Hr); auto.
  - intros b x y. now rewrite <- !add_assoc, (add_comm x).
  - constructor; auto.
  - constructor; auto. constructor.
  - right. intros a x Ha _. rewrite Forall_forall in Hpos. apply Hpos. eapply nth_error_In; eauto.
  - exists r. split; [exact Er|].
    assert (Es : tshape r = rshape keep [d] (tshape t)) by (unfold tshape at 1; rewrite Lr; reflexivity).
    split; auto. split; auto. split.
    + intros j Hj. rewrite Es. now apply fibre_partition, Hv.
    + intros i Hi. destruct (Hr i Hi) as (ws & F & E). eexists. split; [exact E|].
      eapply sums_perm; [|apply (sums_flat (elem g) (elem t)
        (fun k => filter (fun j => if list_eq_dec Nat.eq_dec (p j) k then true else false) (all_idx (tshape g))) _ ws F)].
      * apply NoDup_Permutation.
        -- unfold fibre.
           assert (H : forall L, NoDup L -> NoDup (flat_map (fun k =>
             filter (fun j => if list_eq_dec Nat.eq_dec (p j) k then true else false) (all_idx (tshape g))) L)).
           { intro L. induction L as [|k L IH]; intro HN; simpl; [constructor|]. inversion HN as [|? ? Hk HN']; subst.
             apply NoDup_app_disjoint; auto using NoDup_filter, all_idx_NoDup.
             intros j H1 H2. apply in_flat_map in H2. destruct H2 as (k' & Hk' & H2).
             apply filter_In in H1. apply filter_In in H2. destruct H1 as [_ H1], H2 as [_ H2].
             destruct (list_eq_dec Nat.eq_dec (p j) k); [|discriminate].
             destruct (list_eq_dec Nat.eq_dec (p j) k'); [|discriminate]. congruence. }
           apply H. apply NoDup_filter, all_idx_NoDup.
        -- apply NoDup_filter, all_idx_NoDup.
        -- intro j. rewrite in_flat_map, filter_In, in_all_idx. split.
           ++ intros (k & Hk & Hj). apply filter_In in Hj. destruct Hj as [Hj1 Hj2]. apply in_all_idx in Hj1. split; auto.
              destruct (list_eq_dec Nat.eq_dec (p j) k) as [<-|]; [|discriminate].
              apply (fibre_partition keep [d] (tshape t) (p j) (Hv j Hj1)) in Hk. subst i.
              now destruct (list_eq_dec Nat.eq_dec (rproj keep [d] (p j)) (rproj keep [d] (p j))).
           ++ intros [Hj1 Hj2]. destruct (list_eq_dec Nat.eq_dec (rproj keep [d] (p j)) i) as [<-|]; [|discriminate].
              exists (p j). split; [apply (fibre_partition keep [d] (tshape t) (p j) (Hv j Hj1)); reflexivity|]. apply filter_In. split; [now apply in_all_idx|].
              now destruct (list_eq_dec Nat.eq_dec (p j) (p j)).
      * intros k Hk. apply Hs. apply filter_In in Hk. destruct Hk as [Hk _]. now apply in_all_idx in Hk.
Qed.

(** ** The leading axes *)
Lemma drop_none : forall B d (l : list B) k, d < k -> drop_axes [d] k l = l.
Proof.
  intros B d l. induction l as [|x l IH]; intros k Hk; cbn [drop_axes]; auto.
  destruct (in_dec Nat.eq_dec k [d]) as [[->|[]]|Hn]; [lia|]. rewrite IH by lia. reflexivity.
Qed.
Lemma drop_one : forall B d (l : list B) k, drop_axes [k + d] k l = firstn d l ++ skipn (S d) l.
Proof.
  intros B d. induction d as [|d IH]; intros l k; destruct l as [|x l]; cbn [drop_axes firstn skipn app]; auto.
  - destruct (in_dec Nat.eq_dec k [k + 0]) as [_|Hn]; [|elim Hn; simpl; lia]. apply drop_none. lia.
  - destruct (in_dec Nat.eq_dec k [k + S d]) as [[H|[]]|Hn]; [lia|].
    replace (k + S d) with (S k + d) by lia. rewrite IH. reflexivity.
Qed.
Lemma drop_one0 : forall B d (l : list B), drop_axes [d] 0 l = firstn d l ++ skipn (S d) l.
Proof. intros B d l. apply (drop_one B d l 0). Qed.
Lemma drop_then_skip : forall B d (l : list B), skipn d (drop_axes [d] 0 l) = skipn (S d) l.
Proof.
  intros B d l. rewrite drop_one0. destruct (Nat.le_gt_cases d (length l)) as [H|H].
  - rewrite skipn_app, skipn_all2 by (rewrite firstn_length; lia). rewrite firstn_length_le by lia.
    rewrite Nat.sub_diag. reflexivity.
  - rewrite !skipn_all2; auto; try (rewrite app_length, firstn_length, skipn_length; lia); lia.
Qed.
Lemma drop_pos : forall d s, Forall (lt 0) s -> Forall (lt 0) (drop_axes [d] 0 s).
Proof.
  intros d s H. rewrite drop_one0. rewrite <- (firstn_skipn d s) in H. apply Forall_app in H. destruct H as [H1 H2].
  apply Forall_app. split; auto. apply Forall_forall. intros x Hx. rewrite Forall_forall in H2. apply H2.
  replace (skipn (S d) s) with (skipn 1 (skipn d s)) in Hx.
  - destruct (skipn d s); simpl in *; auto.
  - clear. revert d. induction s as [|y s IH]; intros [|d]; auto. apply IH.
Qed.
Lemma drop_len : forall B d (l : list B), d < length l -> length (drop_axes [d] 0 l) = length l - 1.
Proof. intros B d l H. rewrite drop_one0, app_length, firstn_length, skipn_length. lia. Qed.

Lemma sum_leading_grouped : forall k g t p, grouped g t p -> k <= length (tshape t) -> length (tshape t) <= 16 ->
  Forall (lt 0) (tshape t) ->
  exists r, sum_leading zero add k t = Ok r /\ tshape r = skipn k (tshape t) /\ grouped g r (fun j => skipn k (p j)).
Proof.
  induction k as [|k IH]; intros g t p Hgr Hk H16 Hpos; simpl.
  - exists t. split; auto.
  - destruct (sum1_grouped g t p k false Hgr ltac:(lia) H16 Hpos) as (r & Er & Es & Gr). rewrite Er. simpl.
    simpl in Es, Gr. destruct (IH g r _ Gr) as (r' & Er' & Es' & Gr').
    + rewrite Es, drop_len by lia. lia.
    + rewrite Es, drop_len by lia. lia.
    + rewrite Es. now apply drop_pos.
    + exists r'. split; auto. split.
      * now rewrite Es', Es, drop_then_skip.
      * eapply grouped_ext; [|exact Gr']. intros j Hj. simpl. apply drop_then_skip.
Qed.

(** ** The axes of size one *)
Lemma set_one : forall B d (v : B) (l : list B) k, d < length l -> set_axes [k + d] v k l = firstn d l ++ v :: skipn (S d) l.
Proof.
  assert (N : forall B d (v : B) l k, d < k -> set_axes [d] v k l = l).
  { intros B d v l. induction l as [|x l IH]; intros k Hk; cbn [set_axes]; auto.
    destruct (in_dec Nat.eq_dec k [d]) as [[->|[]]|Hn]; [lia|]. now rewrite IH by lia. }
  intros B d. induction d as [|d IH]; intros v [|x l] k H; cbn [set_axes firstn skipn app length] in *; try lia.
  - destruct (in_dec Nat.eq_dec k [k + 0]) as [_|Hn]; [|elim Hn; simpl; lia]. rewrite N by lia. reflexivity.
  - destruct (in_dec Nat.eq_dec k [k + S d]) as [[E|[]]|Hn]; [lia|].
    replace (k + S d) with (S k + d) by lia. rewrite IH by lia. reflexivity.
Qed.

(** indices with the coordinates of the axes of target size one set to 0, from axis [i] on *)
Definition ones_from (i : nat) (ps : list (nat * nat)) (idx : list nat) : list nat :=
  firstn i idx ++ map (fun q => if fst (fst q) =? 1 then 0 else snd q) (combine ps (skipn i idx)).

Lemma skipn_cons : forall B i (l : list B), i < length l -> exists x, skipn i l = x :: skipn (S i) l /\ firstn (S i) l = firstn i l ++ [x].
Proof.
  intros B i. induction i as [|i IH]; intros [|y l] H; simpl in *; try lia.
  - exists y. auto.
  - destruct (IH l ltac:(lia)) as (x & E1 & E2). exists x. split; auto. now rewrite <- E2.
Qed.
Lemma valid_nth_lt : forall s i k x d, valid s i -> nth_error i k = Some x -> nth_error s k = Some d -> x < d.
Proof.
  induction s as [|d s IH]; intros [|x i] k y e H Hy He; simpl in *; try contradiction.
  - destruct k; discriminate.
  - destruct H as [H H']. destruct k; simpl in *; [congruence|]. eapply IH; eauto.
Qed.

Lemma sum_ones_grouped : forall ps i pre g t p, grouped g t p -> tshape t = pre ++ map snd ps -> length pre = i ->
  Forall (fun q => fst q = snd q \/ fst q = 1) ps -> Forall (lt 0) (tshape t) -> length (tshape t) <= 16 ->
  exists r, sum_ones zero add i ps t = Ok r /\ tshape r = pre ++ map fst ps /\
    grouped g r (fun j => ones_from i ps (p j)).
Proof.
  induction ps as [|[target cur] ps IH]; intros i pre g t p Hgr Hs Hi Hps Hpos H16; simpl.
  - exists t. split; auto. split; auto. eapply grouped_ext; [|exact Hgr]. intros j Hj. unfold ones_from. simpl.
    destruct Hgr as (_ & Hv & _). pose proof (valid_length _ _ (Hv j Hj)) as L. rewrite Hs in L. simpl in L. rewrite app_nil_r in *.
    rewrite firstn_all2 by lia. reflexivity.
  - inversion Hps as [|? ? Hq Hps']; subst. simpl in Hq.
    assert (Hlen : length (tshape t) = length pre + S (length ps)) by (rewrite Hs, app_length; simpl; now rewrite map_length).
    assert (Hcur : 0 < cur).
    { rewrite Hs in Hpos. apply Forall_app in Hpos. destruct Hpos as [_ H]. now inversion H. }
    assert (Hstep : exists t', (if (target =? 1) && (1 <? cur) then sum1 zero add (length pre) true t else Ok t) = Ok t' /\
      tshape t' = (pre ++ [target]) ++ map snd ps /\
      grouped g t' (fun j => firstn (length pre) (p j) ++ (if target =? 1 then 0 else nth (length pre) (p j) 0) :: skipn (S (length pre)) (p j))).
    { destruct ((target =? 1) && (1 <? cur)) eqn:Ec.
      - apply andb_true_iff in Ec. destruct Ec as [E1 E2]. apply Nat.eqb_eq in E1. subst target.
        destruct (sum1_grouped g t p (length pre) true Hgr ltac:(lia) H16 Hpos) as (r & Er & Es & Gr).
        exists r. split; auto. simpl in Es, Gr. split.
        + rewrite Es. pose proof (set_one nat (length pre) 1 (tshape t) 0 ltac:(lia)) as E1. simpl plus in E1. rewrite E1. clear E1. rewrite Hs. rewrite firstn_app, firstn_all, Nat.sub_diag.
          cbn [firstn]. rewrite skipn_app, (skipn_all2 pre) by lia. replace (S (length pre) - length pre) with 1 by lia. simpl.
          rewrite app_nil_r, <- app_assoc. reflexivity.
        + eapply grouped_ext; [|exact Gr]. intros j Hj. simpl. destruct Hgr as (_ & Hv & _). specialize (Hv j Hj).
          pose proof (valid_length _ _ Hv). apply (set_one nat (length pre) 0 (p j) 0). lia.
      - exists t. split; auto. split.
        + rewrite Hs, <- app_assoc. simpl. f_equal. f_equal. destruct Hq as [Hq|Hq]; auto.
          rewrite Hq in Ec. simpl in Ec. apply Nat.ltb_ge in Ec. lia.
        + eapply grouped_ext; [|exact Hgr]. intros j Hj. simpl. destruct Hgr as (_ & Hv & _). specialize (Hv j Hj).
          pose proof (valid_length _ _ Hv) as L. destruct (skipn_cons nat (length pre) (p j) ltac:(lia)) as (x & E1 & E2).
          rewrite <- (firstn_skipn (length pre) (p j)) at 1. rewrite E1. f_equal. f_equal.
          assert (Ex : nth_error (p j) (length pre) = Some x).
          { rewrite <- (firstn_skipn (length pre) (p j)), nth_error_app2; rewrite firstn_length_le by lia; auto.
            rewrite Nat.sub_diag, E1. reflexivity. }
          rewrite (nth_error_nth _ _ 0 Ex). destruct (Nat.eqb_spec target 1) as [->|]; auto.
          simpl in Ec. apply Nat.ltb_ge in Ec.
          assert (x < cur); [|lia]. eapply (valid_nth_lt _ _ _ _ _ Hv Ex). rewrite Hs, nth_error_app2, Nat.sub_diag; auto. }
    destruct Hstep as (t' & Et' & Hs' & Gr'). simpl. rewrite Et'. simpl.
    destruct (IH (S (length pre)) (pre ++ [target]) g t' _ Gr' Hs') as (r & Er & Es & Gr); auto.
    + rewrite app_length. simpl. lia.
    + rewrite Hs'. rewrite Hs in Hpos. apply Forall_app in Hpos. destruct Hpos as [P1 P2]. inversion P2; subst.
      apply Forall_app. split; auto. apply Forall_app. split; auto. constructor; auto.
      destruct Hq; lia.
    + rewrite Hs', !app_length. simpl. rewrite map_length. lia.
    + exists r. split; auto. split; [rewrite Es, <- app_assoc; reflexivity|].
      eapply grouped_ext; [|exact Gr]. intros j Hj. destruct Hgr as (_ & Hv & _). specialize (Hv j Hj).
      pose proof (valid_length _ _ Hv) as L. unfold ones_from.
      destruct (skipn_cons nat (length pre) (p j) ltac:(lia)) as (x & E1 & E2). rewrite E1.
      set (v := if target =? 1 then 0 else nth (length pre) (p j) 0).
      assert (Ev : v = if target =? 1 then 0 else x).
      { unfold v. destruct (target =? 1); auto. rewrite <- (firstn_skipn (length pre) (p j)), app_nth2; rewrite firstn_length_le by lia; auto.
        rewrite Nat.sub_diag, E1. reflexivity. }
      clearbody v. cbn [combine map fst snd]. rewrite <- Ev.
      remember (skipn (S (length pre)) (p j)) as sk eqn:Esk. clear Esk.
      set (fi := firstn (length pre) (p j)). assert (Lf : length fi = length pre) by (unfold fi; rewrite firstn_length_le; lia).
      rewrite firstn_app, (firstn_all2 fi) by lia. rewrite skipn_app, (skipn_all2 fi) by lia.
      rewrite Lf. replace (S (length pre) - length pre) with 1 by lia. cbn [firstn skipn app]. rewrite <- app_assoc. reflexivity.
Qed.

(** ** The rules *)
Lemma combine_self : forall (s : list nat) gs2 j, length s = length gs2 ->
  map (fun q : nat * nat * nat => if fst (fst q) =? 1 then 0 else snd q) (combine (combine s gs2) j) =
  map (fun q : nat * nat => if fst q =? 1 then 0 else snd q) (combine s j).
Proof.
  induction s as [|d s IH]; intros [|e gs2] [|x j] H; simpl in *; auto; try discriminate. f_equal. apply IH. lia.
Qed.
Lemma fst_combine : forall (l l' : list nat), length l = length l' -> map fst (combine l l') = l.
Proof. induction l as [|x l IH]; intros [|y l'] H; simpl in *; try discriminate; auto. f_equal. apply IH. lia. Qed.
Lemma snd_combine : forall (l l' : list nat), length l = length l' -> map snd (combine l l') = l'.
Proof. induction l as [|x l IH]; intros [|y l'] H; simpl in *; try discriminate; auto. f_equal. apply IH. lia. Qed.

Lemma sums_out : forall s g, good g -> shape_rel (VBroadcast (tshape g)) s (tshape g) ->
  Forall (lt 0) (tshape g) -> length (tshape g) <= 16 ->
  exists t1 r, (if length s <? length (tshape g) then sum_leading zero add (length (tshape g) - length s) g else Ok g) = Ok t1 /\
    sum_ones zero add 0 (combine s (lshape (tlay t1))) t1 = Ok r /\ tshape r = s /\ grouped g r (bidx s).
Proof.
  intros s g Hg (_ & added & rest & Eg & HF) Hpos H16. pose proof (Forall2_len _ _ _ _ _ HF) as Ls.
  assert (Hl : length (tshape g) - length s = length added) by (rewrite Eg, app_length; lia).
  assert (H1 : exists t1, (if length s <? length (tshape g) then sum_leading zero add (length (tshape g) - length s) g else Ok g) = Ok t1 /\
    tshape t1 = rest /\ grouped g t1 (fun j => skipn (length added) j)).
  { pose proof (grouped_start g Hg) as Hgr.
    destruct (sum_leading_grouped (length added) g g _ Hgr) as (r & Er & Es & Gr); auto; [rewrite Eg, app_length; lia|].
    rewrite Eg, skipn_app, skipn_all, Nat.sub_diag in Es. simpl in Es.
    destruct (Nat.ltb_spec (length s) (length (tshape g))) as [H|H].
    - rewrite Hl. exists r. auto.
    - destruct added as [|a added]; [|simpl in Hl; lia]. simpl in Er. injection Er as <-. exists g. auto. }
  destruct H1 as (t1 & E1 & Es1 & Gr1).
  destruct (sum_ones_grouped (combine s rest) 0 [] g t1 _ Gr1) as (r & Er & Es & Gr).
  - rewrite snd_combine by auto. exact Es1.
  - reflexivity.
  - clear -HF. induction HF; simpl; constructor; auto.
  - rewrite Es1. rewrite Eg in Hpos. apply Forall_app in Hpos. tauto.
  - rewrite Es1. rewrite Eg, app_length in H16. lia.
  - exists t1, r. split; auto. change (lshape (tlay t1)) with (tshape t1). rewrite Es1. split; auto.
    simpl in Es. rewrite fst_combine in Es by auto. split; auto.
    eapply grouped_ext; [|exact Gr]. intros j Hj. pose proof (valid_length _ _ Hj) as L. unfold ones_from, bidx. simpl.
    rewrite combine_self by auto. rewrite L, Hl. reflexivity.
Qed.

Lemma grouped_copies : forall s g r, tshape r = s -> grouped g r (bidx s) ->
  good r /\ forall i, valid s i -> exists v, elem r i = Some v /\ sums zero add (elem g) (copies s (tshape g) i) v.
Proof. intros s g r <- (Hg & _ & H). split; auto. Qed.

Lemma sum_to_shape_spec : forall s g, good g -> shape_rel (VBroadcast (tshape g)) s (tshape g) ->
  Forall (lt 0) (tshape g) -> length (tshape g) <= 16 ->
  exists r, sum_to_shape zero add s g = Ok r /\ good r /\ tshape r = s /\
    forall i, valid s i -> exists v, elem r i = Some v /\ sums zero add (elem g) (copies s (tshape g) i) v.
Proof.
  intros s g Hg Hrel Hpos H16. unfold sum_to_shape. change (lshape (tlay g)) with (tshape g).
  destruct (list_eq_dec Nat.eq_dec (tshape g) s) as [E|E].
  - exists g. split; auto.
    assert (G : grouped g g (bidx s)).
    { eapply grouped_ext; [|apply grouped_start; auto]. intros j Hj. simpl. rewrite E in Hj.
      pose proof (valid_length _ _ Hj). rewrite bidx_same by auto. symmetry. now apply bidx_id. }
    destruct (grouped_copies s g g E G). auto.
  - destruct (sums_out s g Hg Hrel Hpos H16) as (t1 & r & E1 & E2 & Es & Gr). rewrite E1. simpl. rewrite E2.
    exists r. split; auto. destruct (grouped_copies s g r Es Gr). auto.
Qed.

Lemma v_broadcast_spec : forall s g, good g -> shape_rel (VBroadcast (tshape g)) s (tshape g) ->
  Forall (lt 0) (tshape g) -> length (tshape g) <= 16 ->
  exists r, v_broadcast zero add s g = Ok r /\ good r /\ tshape r = s /\
    forall i, valid s i -> exists v, elem r i = Some v /\ sums zero add (elem g) (copies s (tshape g) i) v.
Proof.
  intros s g Hg Hrel Hpos H16. unfold v_broadcast. change (lshape (tlay g)) with (tshape g).
  destruct (sums_out s g Hg Hrel Hpos H16) as (t1 & t2 & E1 & E2 & Es & Gr). rewrite E1. simpl. rewrite E2. simpl.
  destruct (grouped_copies s g t2 Es Gr) as [G2 H2].
  destruct (v_reshape_spec A zero (VReshape s) s t2 G2 I) as (r & Er & Hgr & Hsr & Hi).
  - now rewrite Es.
  - exists r. split; [exact Er|]. split; auto. split; auto. intros i Hv. destruct (H2 i Hv) as (v & E & S).
    exists v. split; auto. rewrite <- E. apply Hi; rewrite ?Es; auto. reflexivity.
Qed.
End Sum.
