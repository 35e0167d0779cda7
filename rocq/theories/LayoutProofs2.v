(** More proofs about the layout model: determinism, acceptance, chains,
    inverses, spellings of axes. *)
From Coq Require Import List Arith ZArith Lia Bool Permutation.
From Coq Require Import ZifyBool ZifyNat.
From Verif Require Import Base IndexSpec LayoutModel ViewSpec LayoutProofs.
Import ListNotations.
Ltac Zify.zify_post_hook ::= Z.div_mod_to_equations.

(** ** The operand index is unique *)

Lemma index_rel_fun : forall o s s' i j j', regular o s -> shape_rel o s s' -> valid s' i ->
  valid s j -> valid s j' -> index_rel o s s' i j -> index_rel o s s' i j' -> j = j'.
Proof.
  intros o s s' i j j' Hr Hs Hi Hj Hj' H H'.
  pose proof (valid_length _ _ Hj) as Lj. pose proof (valid_length _ _ Hj') as Lj'.
  assert (Hext : (forall k, k < length s -> nth_error j k = nth_error j' k) -> j = j').
  { intro G. apply list_ext. intro k. destruct (Nat.lt_ge_cases k (length s)) as [Hk|Hk]; auto.
    rewrite !(proj2 (nth_error_None _ _)); auto; lia. }
  destruct o; simpl in H, H', Hs, Hr.
  - apply (ravel_inj s); auto. congruence.
  - apply (ravel_inj s); auto. congruence.
  - apply (ravel_inj s); auto. congruence.
  - apply (ravel_inj s); auto. congruence.
  - apply Hext. intros k Hk. destruct H as [_ H]; destruct H' as [_ H'].
    now rewrite H, H'.
  - apply Hext. intros k Hk. destruct H as [_ H]; destruct H' as [_ H'].
    now rewrite H, H'.
  - apply Hext. intros k Hk. destruct H as [_ H]; destruct H' as [_ H'].
    destruct Hs as [Hl [Hf [Hnd _]]].
    assert (Hin : In k (map (axis_of (length s)) axes)).
    { eapply Permutation_in.
      - apply Permutation_sym, (full_perm (length s)); auto.
        + now rewrite map_length.
        + intros a Ha. apply in_map_iff in Ha. destruct Ha as [z [<- Hz]].
          apply axis_of_lt. rewrite Forall_forall in Hf. auto.
      - apply in_seq. lia. }
    apply in_map_iff in Hin. destruct Hin as [a [Ea Ha]].
    apply In_nth_error in Ha. destruct Ha as [p Hp].
    specialize (H _ _ Hp). specialize (H' _ _ Hp). congruence.
  - apply Hext. intros k Hk.
    destruct H as [_ [H [d [x [y [Hd [Hx [Hy Ey]]]]]]]].
    destruct H' as [_ [H' [d' [x' [y' [Hd' [Hx' [Hy' Ey']]]]]]]].
    destruct (Nat.eq_dec k (axis_of (length s) dim)) as [->|Hne].
    + rewrite Hy, Hy'. f_equal.
      assert (d = d') by congruence. assert (x = x') by congruence. subst d' x'. lia.
    + now rewrite H, H'.
Qed.

(** ** Acceptance: an operation succeeds whenever its textbook shape exists *)

Lemma unsqueeze_total : forall l d, is_contiguous l = true ->
  axis_ok (S (length (lshape l))) d ->
  unsqueeze l d = Ok (let s := insert_at (lshape l) (axis_of (S (length (lshape l))) d) 1 in
                      mkLayout s (compute_strides s) (loffset l)).
Proof.
  intros l d Hc Hok. unfold unsqueeze, as_usize, axis_of, axis_ok in *.
  set (n := length (lshape l)) in *. rewrite Hc. simpl.
  destruct (d <? 0)%Z eqn:E.
  - replace (Z.of_nat n + d + 1 <? 0)%Z with false by lia.
    replace (n <? Z.to_nat (Z.of_nat n + d + 1)) with false by lia.
    replace (Z.to_nat (Z.of_nat n + d + 1)) with (Z.to_nat (d + Z.of_nat (S n))) by lia.
    reflexivity.
  - rewrite E. replace (n <? Z.to_nat d) with false by lia. reflexivity.
Qed.

Lemma slice_axis : forall l d start e step, axis_ok (length (lshape l)) d ->
  slice l d start e step =
  slice l (Z.of_nat (axis_of (length (lshape l)) d)) start e step.
Proof.
  intros l d start e step H. unfold slice, as_usize, axis_of, axis_ok in *.
  set (n := length (lshape l)) in *.
  destruct (d <? 0)%Z eqn:E.
  - replace (Z.of_nat n + d <? 0)%Z with false by lia.
    replace (Z.of_nat (Z.to_nat (d + Z.of_nat n)) <? 0)%Z with false by lia.
    replace (Z.of_nat (Z.to_nat (d + Z.of_nat n)) <? 0)%Z with false by lia.
    rewrite Nat2Z.id. replace (Z.of_nat n + d)%Z with (d + Z.of_nat n)%Z by lia. reflexivity.
  - rewrite E. replace (Z.of_nat (Z.to_nat d) <? 0)%Z with false by lia.
    replace (Z.of_nat (Z.to_nat d) <? 0)%Z with false by lia. rewrite Nat2Z.id. reflexivity.
Qed.

Lemma py_count_fun : forall a b step m m',
  py_count a b step m -> py_count a b step m' -> m = m'.
Proof.
  intros a b step m m' [H0 H] [H0' H'].
  destruct (Z.lt_trichotomy m m') as [L|[->|L]]; auto.
  - exfalso. assert (m < m)%Z; [|lia]. apply H; auto. apply H'; auto.
  - exfalso. assert (m' < m')%Z; [|lia]. apply H'; auto. apply H; auto.
Qed.

Lemma apply_view_total : forall o l s', wf_layout l -> regular o (lshape l) ->
  (wants_contiguous o = true -> is_contiguous l = true) ->
  shape_rel o (lshape l) s' ->
  exists l', apply_view l o = Ok l' /\ lshape l' = s'.
Proof.
  intros o l s' Hw Hr Hc Hs. destruct o; simpl in *.
  - destruct Hs as [Hn ->]. exists (mkLayout s (compute_strides s) (loffset l)).
    split; [apply reshape_Ok; auto|reflexivity].
  - unfold flatten. rewrite Hc by auto. simpl. eexists; split; [reflexivity|].
    simpl. now subst.
  - unfold squeeze. rewrite Hc by auto. simpl.
    destruct dims as [|d0 ds].
    + simpl. eexists; split; [reflexivity|]. simpl. now subst.
    + destruct Hs as [Hall ->].
      rewrite (proj2 (squeeze_axes_Ok (lshape l) (d0 :: ds) _) (conj Hall eq_refl)).
      cbn [bind].
      rewrite remove_all_desc.
      2:{ now apply sort_desc_desc. }
      2:{ intros a Ha. apply (proj1 (sort_desc_In _ _)) in Ha. apply in_map_iff in Ha.
          destruct Ha as [z [<- Hz]]. apply axis_of_lt. now apply Hall. }
      cbn [bind]. eexists; split; [reflexivity|]. cbn [lshape].
      apply keep_from_ext. intros k _. f_equal.
      rewrite (existsb_ext_in _ _ (map (axis_of (length (lshape l))) (d0 :: ds)))
        by (intro; apply sort_desc_In).
      apply existsb_map.
  - destruct Hs as [Hok [s1 [s2 [Es [El ->]]]]].
    rewrite unsqueeze_total by auto. eexists; split; [reflexivity|]. cbn [lshape].
    unfold insert_at. rewrite <- El, Es.
    rewrite firstn_app, firstn_all, Nat.sub_diag. simpl. rewrite app_nil_r.
    rewrite skipn_app, skipn_all, Nat.sub_diag. reflexivity.
  - destruct Hs as [-> He]. apply (proj2 (broadcast_Ok l target Hw)) in He.
    destruct He as [l' E]. exists l'. split; auto.
    apply broadcast_view in E; auto. destruct E as [_ [[E _] _]]. exact E.
  - destruct Hs as [H2 [Ha [Hb [Hl Hk]]]].
    pose proof (axis_of_lt _ _ Ha) as La. pose proof (axis_of_lt _ _ Hb) as Lb.
    set (n := length (lshape l)) in *.
    destruct (swap_spec _ (lshape l) (axis_of n d1) (axis_of n d2)) as [r1 [E1 [L1 N1]]]; auto.
    destruct (swap_spec _ (lstrides l) (axis_of n d1) (axis_of n d2)) as [r2 [E2 [L2 N2]]];
      try (rewrite Hw; auto).
    exists (mkLayout r1 r2 (loffset l)). split.
    + apply transpose_Ok; auto. split; [exact H2|]. split; [exact Ha|]. split; [exact Hb|].
      simpl. auto.
    + simpl. apply list_ext. intro k. destruct (Nat.lt_ge_cases k n) as [Hkn|Hkn].
      * rewrite Hk by auto. rewrite N1. reflexivity.
      * rewrite !(proj2 (nth_error_None _ _)); auto; lia.
  - destruct Hs as [Hl [Hf [Hnd [Hl' Hk]]]].
    eexists. split; [exact (proj2 (permute_Ok l axes _ Hw) (conj Hl (conj Hf (conj Hnd eq_refl))))|].
    simpl.
    apply list_ext. intro k. rewrite nth_error_map.
    destruct (nth_error axes k) as [a|] eqn:Ea; simpl.
    + rewrite (Hk _ _ Ea). symmetry. apply nth_error_nth'.
      apply axis_of_lt. rewrite Forall_forall in Hf. apply Hf. eapply nth_error_In; eauto.
    + apply nth_error_None in Ea. symmetry. apply nth_error_None. lia.
  - destruct Hs as [Hok [Hl [Hother [d [m [Hd [Hm [Hm0 Hcnt]]]]]]]].
    replace (step >? 0)%Z with true in Hcnt by lia.
    rewrite slice_axis by auto.
    set (n := length (lshape l)) in *. set (k := axis_of n dim) in *.
    assert (Hk : k < n) by (apply axis_of_lt; auto).
    unfold slice, as_usize. fold n.
    replace (Z.of_nat k <? 0)%Z with false by lia.
    replace (Z.of_nat k <? 0)%Z with false by lia. rewrite Nat2Z.id.
    replace (n <=? k) with false by lia. replace (step =? 0)%Z with false by lia.
    unfold idx_or_panic. rewrite Hd. cbn [bind].
    destruct (slice_bounds (Z.of_nat d) start end_ step) as [cs m'] eqn:Eb.
    apply slice_bounds_pos in Eb; try lia.
    destruct Eb as [-> [_ [_ Hc']]].
    assert (m' = Z.of_nat m) by (eapply py_count_fun; eauto). subst m'.
    replace (Z.of_nat m <=? 0)%Z with false by lia.
    destruct (nth_error (lstrides l) k) as [sd|] eqn:Es.
    2:{ apply nth_error_None in Es. unfold wf_layout in Hw. fold n in Hw. lia. }
    cbn [bind]. eexists; split; [reflexivity|]. cbn [lshape]. rewrite Nat2Z.id.
    apply list_ext. intro p. rewrite nth_error_upd.
    destruct (k =? p) eqn:Ep; simpl.
    + apply Nat.eqb_eq in Ep. subst p. replace (k <? length (lshape l)) with true by (fold n; lia).
      auto.
    + apply Nat.eqb_neq in Ep. symmetry. apply Hother. auto.
Qed.

(** ** Chains *)

Lemma regular_chain_cons : forall l o os l1, regular_chain l (o :: os) ->
  apply_view l o = Ok l1 -> regular o (lshape l) /\ regular_chain l1 os.
Proof.
  intros l o os l1 H E. split.
  - apply (H [] o os l); auto.
  - intros pre o' post l2 Eq E2. apply (H (o :: pre) o' post l2).
    + now rewrite Eq.
    + simpl. rewrite E. simpl. exact E2.
Qed.

Lemma apply_views_chain : forall os l l', wf_layout l -> regular_chain l os ->
  apply_views l os = Ok l' ->
  wf_layout l' /\
  forall i, valid (lshape l') i ->
  exists j, chain_rel os (lshape l) (lshape l') i j /\ valid (lshape l) j /\
            addr l' i = addr l j.
Proof.
  induction os as [|o os IH]; intros l l' Hw Hr H; simpl in H.
  - inversion H; subst. split; auto. intros i Hi. exists i. split; [constructor|auto].
  - destruct (apply_view l o) as [l1|e|] eqn:E; simpl in H; try discriminate.
    destruct (regular_chain_cons _ _ _ _ Hr E) as [Ho Hos].
    destruct (apply_view_views o l l1 Hw Ho E) as [Hw1 [Hs1 HI]].
    destruct (IH l1 l' Hw1 Hos H) as [Hw' HJ]. split; auto.
    intros i Hi. destruct (HJ i Hi) as [i1 [Hc [Hv1 Ha1]]].
    destruct (HI i1 Hv1) as [j [Hx [Hvj Haj]]].
    exists j. split; [econstructor; eauto|]. split; auto. congruence.
Qed.

Lemma views_chain_in_bounds : forall s os l, regular_chain (from_shape s) os ->
  apply_views (from_shape s) os = Ok l -> in_bounds (nelem s) l.
Proof.
  intros s os l Hr H i Hi.
  destruct (apply_views_chain os _ _ (from_shape_wf s) Hr H) as [_ HJ].
  destruct (HJ i Hi) as [j [_ [Hj ->]]]. simpl in Hj.
  rewrite addr_from_shape by now apply valid_length. now apply ravel_lt.
Qed.

(** ** Inverses *)

Lemma layout_ext : forall l l', lshape l = lshape l' -> lstrides l = lstrides l' ->
  loffset l = loffset l' -> l = l'.
Proof. intros [a b c] [a' b' c']; simpl; intros; now subst. Qed.

Lemma swap_swap : forall A (l r : list A) a b, swap l a b = Ok r -> swap r a b = Ok l.
Proof.
  intros A l r a b H.
  assert (Ha : a < length l /\ b < length l).
  { unfold swap in H. destruct (nth_error l a) eqn:E; [|discriminate].
    destruct (nth_error l b) eqn:E2; [|discriminate].
    split; apply nth_error_Some; congruence. }
  destruct Ha as [Ha Hb].
  destruct (swap_spec _ l a b Ha Hb) as [r1 [E1 [L1 N1]]].
  rewrite H in E1. inversion E1; subst r1.
  destruct (swap_spec _ r a b) as [r2 [E2 [L2 N2]]]; try lia.
  rewrite E2. f_equal. apply list_ext. intro k. rewrite N2, N1, sw_invol. reflexivity.
Qed.

Lemma transpose_twice : forall l a b l', wf_layout l -> transpose l a b = Ok l' ->
  transpose l' a b = Ok l.
Proof.
  intros l a b l' Hw H.
  pose proof (transpose_view _ _ _ _ Hw H) as [Hw' [Hs _]]. simpl in Hs.
  apply transpose_Ok in H; auto. destruct H as [H2 [Ha [Hb [E1 [E2 E3]]]]].
  destruct Hs as [_ [_ [_ [Hl _]]]].
  apply transpose_Ok; auto. rewrite Hl.
  split; [lia|]. split; auto. split; auto. simpl.
  split; [now apply swap_swap|]. split; [now apply swap_swap|]. auto.
Qed.

Lemma map_nth_perm_inv : forall n (p q s : list nat),
  length s = n -> length q = n ->
  (forall k, k < n -> exists a, nth_error q k = Some a /\ nth_error p a = Some k) ->
  map (fun a => nth a (map (fun b => nth b s 0) p) 0) q = s.
Proof.
  intros n p q s Hs Hq H. apply list_ext. intro k. rewrite nth_error_map.
  destruct (Nat.lt_ge_cases k n) as [Hk|Hk].
  - destruct (H k Hk) as [a [Ea Ep]]. rewrite Ea. simpl.
    rewrite (nth_error_nth _ _ 0 (map_nth_error _ _ _ Ep)).
    symmetry. apply nth_error_nth'. lia.
  - rewrite (proj2 (nth_error_None q k)) by lia. simpl.
    symmetry. apply nth_error_None. lia.
Qed.

Definition inverse_axes (n : nat) (axes inv : list Z) : Prop :=
  length inv = n /\ Forall (axis_ok n) inv /\
  forall k a, nth_error axes k = Some a ->
    exists b, nth_error inv (axis_of n a) = Some b /\ axis_of n b = k.

Lemma permute_inverse : forall l axes inv l', wf_layout l ->
  inverse_axes (length (lshape l)) axes inv ->
  permute l axes = Ok l' -> permute l' inv = Ok l.
Proof.
  intros l axes inv l' Hw [Hil [Hif Hinv]] H.
  pose proof (permute_view _ _ _ Hw H) as [Hw' [Hs _]].
  apply permute_Ok in H; auto. destruct H as [Hl [Hf [Hnd ->]]].
  set (n := length (lshape l)) in *.
  set (p := map (axis_of n) axes).
  set (q := map (axis_of n) inv).
  assert (Hlt : forall a, In a p -> a < n).
  { intros a Ha. apply in_map_iff in Ha. destruct Ha as [z [<- Hz]].
    apply axis_of_lt. rewrite Forall_forall in Hf. auto. }
  assert (Hpq : forall k, k < n -> exists a, nth_error q k = Some a /\ nth_error p a = Some k).
  { intros k Hk.
    assert (Hin : In k p).
    { eapply Permutation_in; [apply Permutation_sym, (full_perm n)|apply in_seq; lia]; auto.
      unfold p. now rewrite map_length. }
    apply In_nth_error in Hin. destruct Hin as [x Hx].
    exists x. split; auto. unfold p in Hx. rewrite nth_error_map in Hx.
    destruct (nth_error axes x) as [a|] eqn:Ea; [|discriminate]. simpl in Hx.
    injection Hx as Hk'. destruct (Hinv _ _ Ea) as [b [Eb Exb]].
    unfold q. rewrite Hk' in Eb. rewrite (map_nth_error _ _ _ Eb). now rewrite Exb. }
  apply permute_Ok; auto. simpl. rewrite !map_length, Hl. fold n.
  split; auto. split; auto. split.
  - fold q. apply NoDup_nth_error. intros i j Hi Hij.
    assert (Hq : length q = n) by (unfold q; now rewrite map_length).
    rewrite Hq in Hi.
    destruct (Hpq i Hi) as [a [Ea Epa]].
    assert (Hj : j < n).
    { rewrite <- Hq. apply nth_error_Some. congruence. }
    destruct (Hpq j Hj) as [b [Eb Epb]].
    assert (a = b) by congruence. subst b. congruence.
  - apply layout_ext; simpl; auto.
    + symmetry.
      assert (G := map_nth_perm_inv n p q (lshape l) eq_refl
                     ltac:(unfold q; now rewrite map_length) Hpq).
      unfold p, q in G. rewrite !map_map in G. exact G.
    + symmetry.
      assert (G := map_nth_perm_inv n p q (lstrides l) Hw
                     ltac:(unfold q; now rewrite map_length) Hpq).
      unfold p, q in G. rewrite !map_map in G. exact G.
Qed.

Lemma permute_accepts : forall l axes, wf_layout l ->
  ((exists l', permute l axes = Ok l') <->
   Forall (axis_ok (length (lshape l))) axes /\
   Permutation (map (axis_of (length (lshape l))) axes) (seq 0 (length (lshape l)))).
Proof.
  intros l axes Hw. set (n := length (lshape l)). split.
  - intros [l' H]. apply permute_Ok in H; auto. fold n in H. destruct H as [Hl [Hf [Hnd _]]].
    split; auto. apply full_perm; auto.
    + now rewrite map_length.
    + intros a Ha. apply in_map_iff in Ha. destruct Ha as [z [<- Hz]].
      apply axis_of_lt. rewrite Forall_forall in Hf. auto.
  - intros [Hf HP]. eexists. apply permute_Ok; auto. fold n.
    split; [|split; [auto|split; [|reflexivity]]].
    + apply Permutation_length in HP. now rewrite map_length, seq_length in HP.
    + eapply Permutation_NoDup; [apply Permutation_sym; eauto|apply seq_NoDup].
Qed.

(** the axes listed by position give an inverse *)
Lemma inverse_exists : forall n axes, length axes = n -> Forall (axis_ok n) axes ->
  NoDup (map (axis_of n) axes) ->
  exists inv, inverse_axes n axes inv.
Proof.
  intros n axes Hl Hf Hnd. set (p := map (axis_of n) axes).
  exists (map (fun a => Z.of_nat (index_of a p)) (seq 0 n)).
  assert (Hlt : forall a, In a p -> a < n).
  { intros a Ha. apply in_map_iff in Ha. destruct Ha as [z [<- Hz]].
    apply axis_of_lt. rewrite Forall_forall in Hf. auto. }
  assert (Hp : length p = n) by (unfold p; now rewrite map_length).
  assert (Hidx : forall a, a < n -> index_of a p < n).
  { intros a Ha. assert (Hin : In a p).
    { eapply Permutation_in; [apply Permutation_sym, (full_perm n)|apply in_seq; lia]; auto. }
    rewrite <- Hp. apply nth_error_Some. rewrite index_of_nth; auto. discriminate. }
  split; [now rewrite map_length, seq_length|]. split.
  - apply Forall_forall. intros b Hb. apply in_map_iff in Hb. destruct Hb as [a [<- Ha]].
    apply in_seq in Ha. specialize (Hidx a ltac:(lia)). unfold axis_ok. lia.
  - intros k a Hk.
    assert (Hpk : nth_error p k = Some (axis_of n a)) by (unfold p; now rewrite (map_nth_error _ _ _ Hk)).
    assert (Ha : axis_of n a < n) by (apply Hlt; eapply nth_error_In; eauto).
    exists (Z.of_nat (index_of (axis_of n a) p)).
    rewrite (map_seq_nth_error _ (fun a0 => Z.of_nat (index_of a0 p))) by auto.
    split; auto. rewrite (index_of_eq p k) by auto.
    unfold axis_of. replace (Z.of_nat k <? 0)%Z with false by lia. lia.
Qed.

Lemma reshape_back : forall l s l', wf_layout l -> reshape l s = Ok l' ->
  reshape l' (lshape l) = Ok l.
Proof.
  intros l s l' Hw H. apply reshape_Ok in H. destruct H as [Hn [Hc ->]].
  apply reshape_Ok. simpl. split; auto. split.
  - apply is_contiguous_iff; simpl; auto. unfold wf_layout; simpl. apply compute_strides_length.
  - apply is_contiguous_iff in Hc; auto. apply layout_ext; simpl; auto.
Qed.

Lemma remove_insert : forall A (s : list A) k x, k <= length s ->
  remove_at (insert_at s k x) k = s.
Proof.
  intros A s k x Hk. unfold remove_at, insert_at.
  assert (Hl : length (firstn k s) = k) by (rewrite firstn_length; lia).
  rewrite firstn_app, Hl, Nat.sub_diag. simpl firstn. rewrite app_nil_r, firstn_firstn, Nat.min_id.
  rewrite skipn_app, skipn_all2 by (rewrite Hl; lia). rewrite Hl.
  replace (S k - k) with 1 by lia. simpl. apply firstn_skipn.
Qed.

Lemma unsqueeze_squeeze : forall l d l', wf_layout l -> unsqueeze l d = Ok l' ->
  squeeze l' [d] = Ok l.
Proof.
  intros l d l' Hw H.
  pose proof (unsqueeze_view _ _ _ Hw H) as [Hw' [Hs _]]. simpl in Hs. destruct Hs as [Hok _].
  assert (Hc : is_contiguous l = true).
  { unfold unsqueeze in H.
    destruct (as_usize _); [|discriminate]. destruct (_ <? _); [discriminate|].
    destruct (is_contiguous l); auto; discriminate. }
  rewrite unsqueeze_total in H by auto. inversion H; subst l'. clear H.
  set (n := length (lshape l)) in *. set (k := axis_of (S n) d) in *.
  assert (Hk : k < S n) by (apply axis_of_lt; auto).
  assert (Hln : length (insert_at (lshape l) k 1) = S n).
  { unfold insert_at. rewrite app_length, firstn_length. simpl. rewrite skipn_length.
    fold n. lia. }
  assert (Hc' : is_contiguous (mkLayout (insert_at (lshape l) k 1)
                  (compute_strides (insert_at (lshape l) k 1)) (loffset l)) = true).
  { apply is_contiguous_iff; auto. }
  unfold squeeze. rewrite Hc'. cbn [negb].
  assert (Ha : squeeze_axes (insert_at (lshape l) k 1) [d] = Ok [k]).
  { apply squeeze_axes_Ok. rewrite Hln. split; [|reflexivity].
    intros a [<-|[]]. split; auto. fold k.
    unfold insert_at. rewrite app_nth2; rewrite firstn_length; fold n; [|lia].
    replace (k - Nat.min k n) with 0 by lia. reflexivity. }
  cbn [lshape loffset]. rewrite Ha. cbn [bind sort_desc fold_right insert_desc remove_all].
  rewrite Hln. replace (k <? S n) with true by lia. cbn [bind].
  rewrite remove_insert by (fold n; lia).
  apply is_contiguous_iff in Hc; auto. rewrite <- Hc. destruct l; reflexivity.
Qed.

(** ** Spellings of axes *)

Lemma normalize_axis_alias : forall s a b, axis_ok (length s) a -> axis_ok (length s) b ->
  axis_of (length s) a = axis_of (length s) b -> normalize_axis s a = normalize_axis s b.
Proof.
  intros s a b Ha Hb E.
  rewrite (proj2 (normalize_axis_Some s a _) (conj Ha eq_refl)).
  rewrite (proj2 (normalize_axis_Some s b _) (conj Hb eq_refl)). now rewrite E.
Qed.

(** two signed axes naming the same axis of a rank-[n] object *)
Definition same_axis (n : nat) (a b : Z) : Prop :=
  axis_ok n a /\ axis_ok n b /\ axis_of n a = axis_of n b.

Lemma transpose_alias : forall l a a' b b',
  same_axis (length (lshape l)) a a' -> same_axis (length (lshape l)) b b' ->
  transpose l a b = transpose l a' b'.
Proof.
  intros l a a' b b' [Ha [Ha' Ea]] [Hb [Hb' Eb]]. unfold transpose.
  now rewrite (normalize_axis_alias _ a a'), (normalize_axis_alias _ b b').
Qed.

Lemma permute_axes_alias : forall s axes axes' seen,
  Forall2 (same_axis (length s)) axes axes' ->
  permute_axes s seen axes = permute_axes s seen axes'.
Proof.
  intros s axes axes' seen H. revert seen.
  induction H as [|a a' axes axes' [Ha [Ha' Ea]] HF IH]; intros seen; simpl; auto.
  rewrite (normalize_axis_alias _ a a') by auto.
  destruct (normalize_axis s a'); simpl; auto.
  destruct (idx_or_panic seen n) as [[|]|e|]; simpl; auto. now rewrite IH.
Qed.

Lemma permute_alias : forall l axes axes',
  Forall2 (same_axis (length (lshape l))) axes axes' -> permute l axes = permute l axes'.
Proof.
  intros l axes axes' H. unfold permute.
  rewrite (Forall2_len _ _ _ _ _ H), (permute_axes_alias _ axes axes') by auto. reflexivity.
Qed.

Lemma slice_alias : forall l a a' start e step, same_axis (length (lshape l)) a a' ->
  slice l a start e step = slice l a' start e step.
Proof.
  intros l a a' start e step [Ha [Ha' E]].
  rewrite (slice_axis l a), (slice_axis l a') by auto. now rewrite E.
Qed.

Lemma squeeze_axes_alias : forall s axes axes',
  Forall2 (same_axis (length s)) axes axes' -> squeeze_axes s axes = squeeze_axes s axes'.
Proof.
  intros s axes axes' H.
  induction H as [|a a' axes axes' [Ha [Ha' Ea]] HF IH]; simpl; auto.
  pose proof (cast_axis (length s) a) as C. pose proof (cast_axis (length s) a') as C'.
  destruct (as_usize (if (a <? 0)%Z then _ else _)) as [k|]; [|contradiction].
  destruct (as_usize (if (a' <? 0)%Z then _ else _)) as [k'|]; [|contradiction].
  destruct (k <? length s); [|contradiction]. destruct (k' <? length s); [|contradiction].
  destruct C as [_ ->]. destruct C' as [_ ->]. rewrite Ea, IH. reflexivity.
Qed.

Lemma squeeze_alias : forall l axes axes',
  Forall2 (same_axis (length (lshape l))) axes axes' -> squeeze l axes = squeeze l axes'.
Proof.
  intros l axes axes' H. unfold squeeze. destruct (is_contiguous l); simpl; auto.
  inversion H; subst; auto. now rewrite (squeeze_axes_alias _ _ _ H).
Qed.

Lemma unsqueeze_alias : forall l a a', same_axis (S (length (lshape l))) a a' ->
  unsqueeze l a = unsqueeze l a'.
Proof.
  intros l a a' [Ha [Ha' E]]. destruct (is_contiguous l) eqn:Hc.
  - rewrite !unsqueeze_total by auto. now rewrite E.
  - assert (G : forall d, axis_ok (S (length (lshape l))) d -> unsqueeze l d = Err ELayout).
    { intros d Hd. unfold unsqueeze, as_usize, axis_ok in *. rewrite Hc. simpl.
      destruct (d <? 0)%Z eqn:E2.
      - replace (Z.of_nat (length (lshape l)) + d + 1 <? 0)%Z with false by lia.
        replace (length (lshape l) <? Z.to_nat (Z.of_nat (length (lshape l)) + d + 1)) with false by lia.
        reflexivity.
      - rewrite E2. replace (length (lshape l) <? Z.to_nat d) with false by lia. reflexivity. }
    now rewrite !G.
Qed.

Lemma dim_size_spec : forall s a, axis_ok (length s) a ->
  shape_dim_size s a = nth_error s (axis_of (length s) a).
Proof.
  intros s a H. unfold shape_dim_size, as_usize, axis_ok, axis_of in *.
  destruct (a <? 0)%Z eqn:E.
  - replace (Z.of_nat (length s) + a <? 0)%Z with false by lia. f_equal. lia.
  - now rewrite E.
Qed.

Lemma dim_size_none : forall s a, ~ axis_ok (length s) a -> shape_dim_size s a = None.
Proof.
  intros s a H. unfold shape_dim_size, as_usize, axis_ok in *.
  destruct (a <? 0)%Z eqn:E.
  - replace (Z.of_nat (length s) + a <? 0)%Z with true by lia. reflexivity.
  - rewrite E. apply nth_error_None. lia.
Qed.

Lemma layout_dim_size_eq : forall l a, layout_dim_size l a = shape_dim_size (lshape l) a.
Proof.
  intros l a. set (s := lshape l).
  destruct ((- Z.of_nat (length s) <=? a)%Z && (a <? Z.of_nat (length s))%Z) eqn:E.
  - rewrite dim_size_spec by (unfold axis_ok; lia).
    unfold layout_dim_size, axis_of. fold s.
    destruct (a <? 0)%Z eqn:E2.
    + replace ((0 <=? Z.of_nat (length s) + a)%Z && (Z.of_nat (length s) + a <? Z.of_nat (length s))%Z)
        with true by lia. f_equal. lia.
    + replace ((0 <=? a)%Z && (a <? Z.of_nat (length s))%Z) with true by lia. reflexivity.
  - rewrite dim_size_none by (unfold axis_ok; lia).
    unfold layout_dim_size. fold s.
    destruct (a <? 0)%Z eqn:E2.
    + replace ((0 <=? Z.of_nat (length s) + a)%Z && (Z.of_nat (length s) + a <? Z.of_nat (length s))%Z)
        with false by lia. reflexivity.
    + replace ((0 <=? a)%Z && (a <? Z.of_nat (length s))%Z) with false by lia. reflexivity.
Qed.
