From Coq Require Import List Arith ZArith Bool Lia Sorted Permutation.
From Verif Require Import Base IndexSpec LayoutModel ViewSpec LayoutProofs KernelModel KernelProofs TensorModel
  TensorSpec TensorProofs ScanModel SortModel SortProofs EinsumModel EinsumProofs2 CountModel CountProofs.
Import ListNotations.

Lemma c_store_some : forall B (l : list B) i v, i < length l -> c_store l i v = Some (upd l i v).
Proof. intros B l i v H. unfold c_store. now replace (i <? length l) with true by (symmetry; now apply Nat.ltb_lt). Qed.

Section R.
  Context {A : Type}.
  Variables (same : A -> A -> bool) (v : nat -> A).
  (** The number of the run the [j]-th pair belongs to. *)
  Fixpoint rn (j : nat) : nat :=
    match j with 0 => 0 | S i => if same (v (S i)) (v i) then rn i else S (rn i) end.

  Lemma rn_step : forall j, rn j <= rn (S j) <= S (rn j).
  Proof. intro j. cbn [rn]. destruct (same _ _); lia. Qed.
  Lemma rn_mono : forall i j, i <= j -> rn i <= rn j.
  Proof. intros i j H. induction H; auto. pose proof (rn_step m). lia. Qed.
  Lemma rn_le : forall j, rn j <= j.
  Proof. induction j; auto. pose proof (rn_step j). lia. Qed.

  Definition tally (i r : nat) : nat := length (filter (fun j => rn j =? r) (seq 0 i)).
  Lemma tally_S : forall i r, tally (S i) r = tally i r + if rn i =? r then 1 else 0.
  Proof.
    intros i r. unfold tally. rewrite seq_S, filter_app, app_length. cbn [filter plus].
    destruct (rn i =? r); reflexivity.
  Qed.
  Lemma tally_new : forall i r, (forall j, j < i -> rn j < r) -> tally i r = 0.
  Proof.
    intros i r H. induction i as [|i IH]; auto. rewrite tally_S, IH by (intros; apply H; lia).
    replace (rn i =? r) with false; auto. symmetry. apply Nat.eqb_neq. pose proof (H i). lia.
  Qed.

End R.

Section U.
  Context {A K : Type}.
  Variable same : A -> A -> bool.
  Variables (vals : list A) (pairs : list (K * nat)) (n : nat).
  Hypothesis n_pos : 0 < n.
  (** [v j]: the value of the [j]-th pair, [o j]: where it comes from. *)
  Variables (v : nat -> A) (o : nat -> nat).
  Hypothesis pairs_at : forall j, j < n -> exists k, nth_error pairs j = Some (k, o j) /\ nth_error vals (o j) = Some (v j).
  Hypothesis o_lt : forall j, j < n -> o j < n.
  Hypothesis o_inj : forall i j, i < n -> j < n -> o i = o j -> i = j.
  Notation rn := (rn same v).
  Notation tally := (tally same v).

  (** After the pairs 0..i. *)
  Record uinv (i : nat) (s : ustate (A := A)) : Prop := {
    ui_n : u_n s = rn i;
    ui_lv : length (u_values s) = n; ui_li : length (u_inverse s) = n; ui_lc : length (u_counts s) = n;
    ui_val : forall r, r <= rn i -> exists j, j <= i /\ rn j = r /\ nth_error (u_values s) r = Some (v j);
    ui_cnt : forall r, r < rn i -> nth_error (u_counts s) r = Some (tally (S i) r);
    ui_cur : u_cur s = tally (S i) (rn i);
    ui_inv : forall j, j <= i -> nth_error (u_inverse s) (o j) = Some (rn j) }.

  Lemma unique_step_first : forall s, length (u_values s) = n -> length (u_inverse s) = n -> length (u_counts s) = n ->
    u_n s = 0 -> exists s', unique_step same vals pairs 0 s = Some s' /\ uinv 0 s'.
  Proof.
    intros s LV LI LC N. destruct (pairs_at 0 n_pos) as (k & P & X). unfold unique_step. rewrite P. cbn [obind snd].
    rewrite X. cbn [obind]. rewrite N, c_store_some by lia. cbn [obind u_inverse u_n u_values u_counts u_cur].
    rewrite c_store_some by (rewrite LI; auto). cbn [obind].
    eexists. split; [reflexivity|]. constructor; cbn [u_inverse u_n u_values u_counts u_cur]; rewrite ?upd_length; auto.
    - intros r R. cbn in R. exists 0. split; auto. split; [cbn; lia|]. replace r with 0 by lia.
      rewrite nth_error_upd_eq by lia. reflexivity.
    - intros r R. cbn in R. lia.
    - intros j J. replace j with 0 by lia. rewrite nth_error_upd_eq by (rewrite LI; auto). reflexivity.
  Qed.

  Lemma unique_step_next : forall i s, S i < n -> uinv i s ->
    exists s', unique_step same vals pairs (S i) s = Some s' /\ uinv (S i) s'.
  Proof.
    intros i s L U. destruct (pairs_at (S i) L) as (k & P & X). destruct (pairs_at i) as (k' & P' & X'); [lia|].
    pose proof (rn_le same v i) as RL.
    unfold unique_step. rewrite P. cbn [obind snd]. rewrite X. cbn [obind]. rewrite P'. cbn [obind snd].
    rewrite X'. cbn [obind]. destruct U as [UN LV LI LC UV UC UR UI].
    destruct (same (v (S i)) (v i)) eqn:E; cbn [negb].
    - cbn [obind u_inverse u_n u_values u_counts u_cur].
      rewrite c_store_some by (rewrite LI; auto). cbn [obind]. eexists. split; [reflexivity|].
      assert (rn (S i) = rn i) as RN by (cbn [CountProofs2.rn]; now rewrite E).
      constructor; cbn [u_inverse u_n u_values u_counts u_cur]; rewrite ?upd_length; auto.
      + congruence.
      + intros r R. rewrite RN in R. destruct (UV r R) as (j & J & Q & V). exists j. split; auto.
      + intros r R. rewrite RN in R. rewrite UC by auto. rewrite (tally_S same v (S i)). rewrite RN.
        replace (rn i =? r) with false by (symmetry; apply Nat.eqb_neq; lia). f_equal. lia.
      + rewrite (tally_S same v (S i)), RN, Nat.eqb_refl, UR. lia.
      + intros j J. destruct (Nat.eq_dec j (S i)) as [->|N].
        * rewrite nth_error_upd_eq by (rewrite LI; auto). congruence.
        * rewrite nth_error_upd_neq; [apply UI; lia|]. intro F. apply N. symmetry. apply o_inj; auto; lia.
    - rewrite UN. rewrite c_store_some by lia. cbn [obind]. rewrite c_store_some by lia.
      cbn [obind u_inverse u_n u_values u_counts u_cur].
      rewrite c_store_some by (rewrite LI; auto). cbn [obind]. eexists. split; [reflexivity|].
      assert (rn (S i) = S (rn i)) as RN by (cbn [CountProofs2.rn]; now rewrite E).
      constructor; cbn [u_inverse u_n u_values u_counts u_cur]; rewrite ?upd_length; auto.
      + intros r R. rewrite RN in R. destruct (Nat.eq_dec r (S (rn i))) as [->|N].
        * exists (S i). split; auto. split; auto. now rewrite nth_error_upd_eq by lia.
        * destruct (UV r) as (j & J & Q & V); [lia|]. exists j. split; auto. split; auto.
          rewrite nth_error_upd_neq by lia. auto.
      + intros r R. rewrite RN in R. rewrite (tally_S same v (S i)), RN.
        replace (S (rn i) =? r) with false by (symmetry; apply Nat.eqb_neq; lia).
        destruct (Nat.eq_dec r (rn i)) as [->|N].
        * rewrite nth_error_upd_eq by lia. rewrite UR. f_equal. lia.
        * rewrite nth_error_upd_neq by lia. rewrite UC by lia. f_equal. lia.
      + rewrite (tally_S same v (S i)), RN, Nat.eqb_refl. rewrite tally_new; auto.
        intros j J. pose proof (rn_mono same v j i). lia.
      + intros j J. destruct (Nat.eq_dec j (S i)) as [->|N].
        * rewrite nth_error_upd_eq by (rewrite LI; auto). congruence.
        * rewrite nth_error_upd_neq; [apply UI; lia|]. intro F. apply N. symmetry. apply o_inj; auto; lia.
  Qed.

  Lemma loopO_app : forall X S (f : X -> S -> option S) a b s,
    loopO f (a ++ b) s = obind (loopO f a s) (loopO f b).
  Proof. induction a as [|x a IH]; intros b s; cbn [app loopO]; auto. destruct (f x s); cbn [obind]; auto. Qed.

  Lemma unique_loop : forall s, length (u_values s) = n -> length (u_inverse s) = n -> length (u_counts s) = n ->
    u_n s = 0 -> forall i, i < n ->
    exists s', loopO (unique_step same vals pairs) (seq 0 (S i)) s = Some s' /\ uinv i s'.
  Proof.
    intros s LV LI LC N. induction i as [|i IH]; intro L.
    - destruct (unique_step_first s LV LI LC N) as (s' & E & U). exists s'. split; auto.
      cbn [seq loopO]. rewrite E. reflexivity.
    - destruct IH as (s1 & E1 & U1); [lia|]. destruct (unique_step_next i s1 L U1) as (s2 & E2 & U2).
      exists s2. split; auto. rewrite seq_S, loopO_app, E1. cbn [obind loopO plus]. rewrite E2. reflexivity.
  Qed.

End U.

Section L.
  Context {A K : Type}.
  Variables (key : A -> K) (klt : K -> K -> bool) (same : A -> A -> bool).
  Hypothesis klt_asym : forall a b, klt a b = true -> klt b a = false.
  Hypothesis klt_neg : forall a b c, klt a b = false -> klt b c = false -> klt a c = false.
  Hypothesis same_key : forall a b, same a b = negb (klt (key a) (key b)) && negb (klt (key b) (key a)).
  Variables (n : nat) (v : nat -> A).
  Notation rn := (rn same v).

  (** Same run, same value; later run, larger value. *)
  Lemma klt_irrefl : forall a, klt a a = false.
  Proof. intro a. destruct (klt a a) eqn:E; auto. pose proof (klt_asym _ _ E). congruence. Qed.
  Lemma same_trans : forall a b c, same a b = true -> same b c = true -> same a c = true.
  Proof.
    intros a b c. rewrite !same_key. intros H1 H2.
    apply andb_true_iff in H1 as [P1 P2]. apply andb_true_iff in H2 as [Q1 Q2].
    apply negb_true_iff in P1, P2, Q1, Q2. rewrite (klt_neg _ _ _ P1 Q1), (klt_neg _ _ _ Q2 P2). reflexivity.
  Qed.
  Lemma same_sym : forall a b, same a b = same b a.
  Proof. intros. rewrite !same_key. apply andb_comm. Qed.
  Lemma same_refl : forall a, same a a = true.
  Proof. intro a. now rewrite same_key, klt_irrefl. Qed.

  Lemma run_same : forall i j, i <= j -> rn i = rn j -> same (v j) (v i) = true.
  Proof.
    intros i j H. induction H as [|j H IH]; intro E; [apply same_refl|].
    pose proof (rn_mono same v i j H). pose proof (rn_step same v j). cbn [CountProofs2.rn] in E, H1.
    destruct (same (v (S j)) (v j)) eqn:F; [|lia]. eapply same_trans; eauto.
  Qed.
  Lemma klt_trans_l : forall a b c, klt a b = true -> klt c b = false -> klt a c = true.
  Proof.
    intros a b c H1 H2. destruct (klt a c) eqn:E; auto. pose proof (klt_neg _ _ _ E H2). congruence.
  Qed.
  Hypothesis sorted : forall i j, i < j -> j < n -> klt (key (v j)) (key (v i)) = false.
  Lemma run_less : forall i j, i <= j -> j < n -> rn i < rn j -> klt (key (v i)) (key (v j)) = true.
  Proof.
    intros i j H. induction H as [|j H IH]; intros L E; [lia|].
    cbn [CountProofs2.rn] in E. destruct (same (v (S j)) (v j)) eqn:F.
    - eapply klt_trans_l; [apply IH; lia|]. apply sorted; lia.
    - (* a strict step *)
      assert (klt (key (v j)) (key (v (S j))) = true) as ST.
      { rewrite same_key in F. rewrite (sorted j (S j)) in F by lia. cbn in F.
        apply negb_false_iff in F. auto. }
      destruct (klt (key (v i)) (key (v (S j)))) eqn:Q; auto.
      assert (klt (key (v j)) (key (v i)) = false) as R.
      { destruct (Nat.eq_dec i j) as [->|]; [apply klt_irrefl|apply sorted; lia]. }
      pose proof (klt_neg _ _ _ R Q). congruence.
  Qed.
End L.


Lemma perm_of_inj : forall (o : nat -> nat) n,
  (forall j, j < n -> o j < n) -> (forall i j, i < n -> j < n -> o i = o j -> i = j) ->
  Permutation (map o (seq 0 n)) (seq 0 n).
Proof.
  intros o n OL OI.
  assert (NoDup (map o (seq 0 n))) as ND.
  { assert (forall l, (forall x, In x l -> x < n) -> NoDup l -> NoDup (map o l)) as G.
    { clear - OI. induction l as [|a l IH]; intros B N; [constructor|]. inversion N; subst. cbn [map].
      constructor; [|apply IH; auto; intros; apply B; now right].
      intro I. apply in_map_iff in I as (b & E & I). apply OI in E; [subst; contradiction| |]; apply B; [now right|now left]. }
    apply G; [intros y Y; apply in_seq in Y; lia|apply seq_NoDup]. }
  apply NoDup_Permutation_bis; auto.
  - now rewrite map_length.
  - intros y Y. apply in_map_iff in Y as (j & <- & J). apply in_seq in J. apply in_seq. specialize (OL j). lia.
Qed.

Lemma filter_map_len : forall X Y (f : X -> Y) (p : Y -> bool) l,
  length (filter p (map f l)) = length (filter (fun x => p (f x)) l).
Proof. induction l as [|x l IH]; auto. cbn [map filter]. destruct (p (f x)); cbn [length]; auto. Qed.
Lemma Permutation_filter_len : forall X (p : X -> bool) l l', Permutation l l' -> length (filter p l) = length (filter p l').
Proof.
  intros X p l l' H. induction H; auto; cbn [filter]; try congruence.
  - destruct (p x); cbn [length]; auto.
  - destruct (p x), (p y); cbn [length]; auto.
Qed.

Lemma nth_error_combine : forall X Y (a : list X) (b : list Y) i,
  nth_error (combine a b) i = match nth_error a i, nth_error b i with Some x, Some y => Some (x, y) | _, _ => None end.
Proof.
  induction a as [|x a IH]; intros b i; [destruct i; reflexivity|].
  destruct b as [|y b]; [destruct i; cbn; auto; destruct (nth_error a i); auto|].
  destruct i; cbn; auto.
Qed.

Section UT.
  Context {A K : Type}.
  Variables (key : A -> K) (klt : K -> K -> bool) (same : A -> A -> bool).
  Hypothesis klt_asym : forall a b, klt a b = true -> klt b a = false.
  Hypothesis klt_neg : forall a b c, klt a b = false -> klt b c = false -> klt a c = false.
  Hypothesis same_key : forall a b, same a b = negb (klt (key a) (key b)) && negb (klt (key b) (key a)).
  Variable qsort : (K * nat -> K * nat -> bool) -> list (K * nat) -> list (K * nat).
  Hypothesis Q : qsort_ok _ qsort.

  Lemma t_unique_spec : forall z t, good t ->
    exists vs inv cs m, t_unique key klt same qsort z t = Ok (vs, inv, cs) /\
      good vs /\ good inv /\ good cs /\
      tshape vs = [m] /\ tshape inv = [nelem (tshape t)] /\ tshape cs = [m] /\
      (forall r r' x y, r < r' -> r' < m -> elem vs [r] = Some x -> elem vs [r'] = Some y -> klt (key x) (key y) = true) /\
      (forall r, r < m -> exists i x, valid (tshape t) i /\ elem t i = Some x /\ elem vs [r] = Some x) /\
      (forall i x, valid (tshape t) i -> elem t i = Some x ->
         exists r y, r < m /\ elem inv [ravel (tshape t) i] = Some r /\ elem vs [r] = Some y /\ same x y = true) /\
      (forall r y, r < m -> elem vs [r] = Some y ->
         elem cs [r] = Some (length (filter (fun i => match elem t i with Some x => same x y | None => false end)
           (all_idx (tshape t))))).
  Proof.
    intros z t G. destruct (elements A t G) as (xs & LX & EX). pose proof (proj1 G) as W.
    unfold t_unique. change (lshape (tlay t)) with (tshape t). set (s := tshape t) in *. set (n := nelem s) in *.
    destruct (n =? 0) eqn:Z.
    { apply Nat.eqb_eq in Z. do 4 eexists. split; [reflexivity|].
      split; [apply from_shape_good; reflexivity|]. split; [apply from_shape_good; reflexivity|].
      split; [apply from_shape_good; reflexivity|]. split; [reflexivity|]. split; [rewrite Z; reflexivity|].
      split; [reflexivity|]. split; [intros; lia|]. split; [intros; lia|]. split; [|intros; lia].
      intros i x V _. exfalso. pose proof (ravel_lt s i V). fold n in H. lia. }
    apply Nat.eqb_neq in Z. assert (0 < n) as NP by lia.
    unfold unique_kernel. rewrite read_view_eq by auto. fold (view_of (tlay t) []). cbn [obind].
    change (v_els (view_of (tlay t) [])) with n.
    assert (mapO (view_at (tstore t) (view_of (tlay t) [])) (seq 0 n) = Some xs) as MV.
    { replace xs with (map (fun k => nth k xs z) (seq 0 n)).
      - apply mapO_total. intros k I. apply in_seq in I.
        rewrite view_at_elem by (auto; fold s; fold n; lia). fold s. rewrite EX by (fold n; lia).
        destruct (nth_error xs k) eqn:E; [now rewrite (nth_error_nth _ _ _ E)|apply nth_error_None in E; lia].
      - apply (nth_ext _ _ z z); rewrite map_length, seq_length; [lia|]. intros k H.
        rewrite (nth_indep _ z ((fun k => nth k xs z) 0)) by now rewrite map_length, seq_length.
        rewrite (map_nth (fun k => nth k xs z)). now rewrite seq_nth. }
    rewrite MV. cbn [obind].
    set (raw := combine (map key xs) (seq 0 n)).
    set (pairs := qsort (fun a b : K * nat => klt (fst a) (fst b)) raw).
    assert (length raw = n) as LR by (unfold raw; rewrite combine_length, map_length, seq_length; lia).
    destruct (Q (fun a b : K * nat => klt (fst a) (fst b)) raw) as [P SS].
    { intros a b. apply klt_asym. } { intros a b c. apply klt_neg. }
    fold pairs in P, SS.
    assert (length pairs = n) as LP by (rewrite <- (Permutation_length P); auto).
    assert (forall e, In e pairs -> exists x, snd e < n /\ nth_error xs (snd e) = Some x /\ fst e = key x) as HE.
    { intros e I. apply (Permutation_in _ (Permutation_sym P)) in I. apply In_nth_error in I as (k & E).
      unfold raw in E. rewrite nth_error_combine, nth_error_map in E.
      destruct (nth_error xs k) as [x|] eqn:X; [|discriminate]. cbn in E.
      assert (k < n) by (rewrite <- LX; apply nth_error_Some; congruence).
      rewrite (nth_error_nth' _ 0) in E by (rewrite seq_length; auto). rewrite seq_nth in E by auto.
      injection E as <-. exists x. cbn. auto. }
    set (p0 := (key z, 0)).
    set (o := fun j => snd (nth j pairs p0)). set (v := fun j => nth (o j) xs z).
    assert (forall j, j < n -> exists k, nth_error pairs j = Some (k, o j) /\ nth_error xs (o j) = Some (v j) /\ k = key (v j)) as PA.
    { intros j J. assert (nth_error pairs j = Some (nth j pairs p0)) as E by (apply nth_error_nth'; lia).
      destruct (HE _ (nth_error_In _ _ E)) as (x & X1 & X2 & X3). exists (fst (nth j pairs p0)).
      split; [rewrite E; unfold o; now destruct (nth j pairs p0)|].
      unfold v. fold (o j) in X2. rewrite (nth_error_nth _ _ z X2). split; auto. }
    assert (forall j, j < n -> o j < n) as OL.
    { intros j J. destruct (HE (nth j pairs p0)) as (x & X1 & _); auto. apply nth_In. lia. }
    assert (forall i j, i < n -> j < n -> o i = o j -> i = j) as OI.
    { assert (NoDup (map snd pairs)) as ND.
      { apply (Permutation_NoDup (l := map snd raw)); [now apply Permutation_map|].
        unfold raw. assert (map snd (combine (map key xs) (seq 0 n)) = seq 0 n) as ->; [|apply seq_NoDup].
        assert (forall X Y (a : list X) (b : list Y), length a = length b -> map snd (combine a b) = b) as CS.
        { induction a as [|u a IH]; intros [|w b] H; simpl in *; try discriminate; auto. now rewrite IH by lia. }
        apply CS. rewrite map_length, seq_length. lia. }
      intros i j I J E. rewrite NoDup_nth_error in ND. apply ND; [rewrite map_length; lia|].
      rewrite !nth_error_map, !(nth_error_nth' pairs p0) by lia. cbn. unfold o in E. now rewrite E. }
    assert (forall i j, i < j -> j < n -> klt (key (v j)) (key (v i)) = false) as SO.
    { intros i j I J. destruct (PA i) as (k1 & P1 & V1 & K1); [lia|]. destruct (PA j J) as (k2 & P2 & V2 & K2).
      pose proof (sorted_nth _ _ _ SS i j _ _ I P1 P2) as H. cbn in H. congruence. }
    assert (forall j, j < n -> exists k, nth_error pairs j = Some (k, o j) /\ nth_error xs (o j) = Some (v j)) as PA'.
    { intros j J. destruct (PA j J) as (k & P1 & P2 & _). eauto. }
    destruct (unique_loop same xs pairs n NP v o PA' OL OI (mkU (repeat z n) (repeat 0 n) (repeat 0 n) 0 0)
      (repeat_length _ _) (repeat_length _ _) (repeat_length _ _) eq_refl (n - 1)) as (st & E & U); [lia|].
    replace (S (n - 1)) with n in E by lia. rewrite E. cbn [obind].
    set (last := rn same v (n - 1)).
    assert (last < n) as LL by (unfold last; pose proof (rn_le same v (n - 1)); lia).
    destruct U as [UN LV LI LC UV UC UR UI]. replace (S (n - 1)) with n in * by lia. fold last in UN, UV, UC, UR.
    rewrite UN, c_store_some by lia. cbn [obind ub bind].
    assert (forall B (l : list B) k r, r < k -> k <= length l -> nth_error (firstn k l) r = nth_error l r) as NF.
    { induction l as [|b l IH]; intros [|k] [|r] H1 H2; simpl in *; try lia; auto. apply IH; lia. }
    assert (length (firstn (S last) (u_values st)) = S last) as L1 by (rewrite firstn_length; lia).
    assert (length (firstn (S last) (upd (u_counts st) last (u_cur st))) = S last) as L2
      by (rewrite firstn_length, upd_length; lia).
    do 3 eexists. exists (S last). split; [reflexivity|].
    assert (forall k, nelem [k] = k) as N1 by (intro; unfold nelem; simpl; lia).
    split; [apply from_shape_good; now rewrite N1|]. split; [apply from_shape_good; now rewrite N1|].
    split; [apply from_shape_good; now rewrite N1|]. split; [reflexivity|]. split; [reflexivity|]. split; [reflexivity|].
    assert (forall B (l : list B) k r, elem (mkT l (from_shape [k])) [r] = nth_error l r) as EL.
    { intros. unfold elem. cbn [tlay tstore]. rewrite addr_from_shape by reflexivity. cbn [ravel].
      f_equal. unfold nelem. simpl. lia. }
    assert (forall r, r < S last -> exists j, j < n /\ rn same v j = r /\
      elem (mkT (firstn (S last) (u_values st)) (from_shape [S last])) [r] = Some (v j)) as VR.
    { intros r R. destruct (UV r) as (j & J & RJ & V); [lia|]. exists j. split; [lia|]. split; auto.
      rewrite EL, NF by lia. auto. }
    split.
    { intros r r' x y R R' HX HY. destruct (VR r) as (j & J & RJ & V); [lia|]. destruct (VR r') as (j' & J' & RJ' & V'); [lia|].
      rewrite V in HX. rewrite V' in HY. injection HX as <-. injection HY as <-.
      apply (run_less key klt same klt_asym klt_neg same_key n v SO); auto; [|lia].
      destruct (le_lt_dec j j') as [|C]; auto. pose proof (rn_mono same v j' j). lia. }
    split.
    { intros r R. destruct (VR r R) as (j & J & RJ & V). exists (unravel s (o j)), (v j).
      split; [apply unravel_valid; fold n; auto|]. split; auto.
      rewrite EX by (fold n; auto). destruct (PA' j J) as (? & _ & ->). reflexivity. }
    assert (forall k, k < n -> exists j, j < n /\ o j = k) as OS.
    { intros k H. pose proof (perm_of_inj o n OL OI) as PM.
      assert (In k (map o (seq 0 n))) as I by (apply (Permutation_in _ (Permutation_sym PM)); apply in_seq; lia).
      apply in_map_iff in I as (j & E1 & I). apply in_seq in I. exists j. split; [lia|auto]. }
    assert (forall i j, i < n -> j < n -> same (v i) (v j) = (rn same v i =? rn same v j)) as SR.
    { intros i j I J. destruct (Nat.eqb_spec (rn same v i) (rn same v j)) as [RE|RN].
      - destruct (le_lt_dec i j) as [C|C].
        + rewrite (same_sym key klt same same_key).
          apply (run_same key klt same klt_asym klt_neg same_key v); auto.
        + apply (run_same key klt same klt_asym klt_neg same_key v); auto; lia.
      - assert (rn same v i < rn same v j \/ rn same v j < rn same v i) as [C|C] by lia.
        + rewrite same_key. rewrite (run_less key klt same klt_asym klt_neg same_key n v SO i j); auto.
          destruct (le_lt_dec i j) as [|D]; auto. pose proof (rn_mono same v j i). lia.
        + rewrite same_key. rewrite (run_less key klt same klt_asym klt_neg same_key n v SO j i); auto.
          * now rewrite andb_false_r.
          * destruct (le_lt_dec j i) as [|D]; auto. pose proof (rn_mono same v i j). lia. }
    split.
    { intros i x V X. pose proof (ravel_lt s i V) as RV. fold n in RV. destruct (OS _ RV) as (j & J & OJ).
      assert (rn same v j < S last) as RJ by (unfold last; pose proof (rn_mono same v j (n - 1)); lia).
      destruct (VR _ RJ) as (j' & J' & RE & VE). exists (rn same v j), (v j'). split; auto.
      split; [rewrite EL, <- OJ; apply UI; lia|]. split; auto.
      assert (x = v j) as ->.
      { pose proof (EX (ravel s i)) as H. fold n in H. specialize (H RV). fold s in H.
        rewrite unravel_ravel in H by auto. destruct (PA' j J) as (k & _ & H2). rewrite OJ in H2. congruence. }
      rewrite SR by auto. rewrite RE. apply Nat.eqb_refl. }
    intros r y R HY. destruct (VR r R) as (j & J & RJ & V). rewrite V in HY. injection HY as <-.
    rewrite EL, NF by (rewrite ?upd_length; lia).
    assert (nth_error (upd (u_counts st) last (u_cur st)) r = Some (tally same v n r)) as ->.
    { destruct (Nat.eq_dec r last) as [->|D].
      - rewrite nth_error_upd_eq by lia. now rewrite UR.
      - rewrite nth_error_upd_neq by lia. apply UC. lia. }
    f_equal. rewrite all_idx_map_unravel. fold n. rewrite filter_map_len.
    rewrite <- (Permutation_filter_len _ _ _ _ (perm_of_inj o n OL OI)). rewrite filter_map_len. unfold tally.
    f_equal. apply filter_ext_in. intros k I. apply in_seq in I.
    fold s. rewrite EX by (fold n; apply OL; lia). destruct (PA' k) as (kk & _ & ->); [lia|].
    rewrite SR by lia. now rewrite RJ.
  Qed.
End UT.
