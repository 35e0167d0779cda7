(** Proofs about the layout model. *)
From Coq Require Import List Arith ZArith Lia Bool Permutation.
From Coq Require Import ZifyBool ZifyNat.
From Verif Require Import Base IndexSpec LayoutModel ViewSpec.
Import ListNotations.
Ltac Zify.zify_post_hook ::= Z.div_mod_to_equations.

Lemma shape_size_nelem : forall s, shape_size s = nelem s.
Proof. reflexivity. Qed.

(** ** Strides of fresh layouts *)

Lemma compute_strides_length : forall s, length (compute_strides s) = length s.
Proof.
  induction s as [|d s IH]; auto.
  simpl. destruct (compute_strides s) as [|st sts] eqn:E.
  - destruct s; simpl in *; [reflexivity|discriminate].
  - destruct s as [|d' s']; simpl in *; [discriminate|]. lia.
Qed.

Lemma compute_strides_cons : forall s d,
  compute_strides (d :: s) = nelem s :: compute_strides s.
Proof.
  induction s as [|d' s IH]; intros d; auto.
  specialize (IH d').
  change (compute_strides (d :: d' :: s)) with
    (match compute_strides (d' :: s), d' :: s with
     | st :: sts, d'' :: _ => (st * d'') :: st :: sts
     | _, _ => [1] end).
  rewrite IH. rewrite nelem_cons. f_equal. lia.
Qed.

Lemma dot_compute_strides : forall s i, length i = length s ->
  dot i (compute_strides s) = ravel s i.
Proof.
  induction s as [|d s IH]; intros [|x i] H; simpl in H; try discriminate; auto.
  rewrite compute_strides_cons. simpl. rewrite IH by lia. reflexivity.
Qed.

Lemma from_shape_wf : forall s, wf_layout (from_shape s).
Proof. intro s. unfold wf_layout. simpl. apply compute_strides_length. Qed.

Lemma addr_from_shape : forall s i, length i = length s ->
  addr (from_shape s) i = ravel s i.
Proof. intros s i H. unfold addr. simpl. now apply dot_compute_strides. Qed.

(** ** Contiguity *)

Lemma contig_walk_app : forall a b e,
  contig_walk (a ++ b) e =
  contig_walk a e && contig_walk b (e * fold_right Nat.mul 1 (map snd a)).
Proof.
  induction a as [|[st d] a IH]; intros b e; simpl.
  - now rewrite Nat.mul_1_r.
  - destruct (st =? e); auto. rewrite IH. f_equal. f_equal. lia.
Qed.

Lemma fold_mul_rev : forall l, fold_right Nat.mul 1 (rev l) = fold_right Nat.mul 1 l.
Proof.
  induction l as [|x l IH]; auto. simpl.
  assert (G : forall a b, fold_right Nat.mul 1 (a ++ b)
            = fold_right Nat.mul 1 a * fold_right Nat.mul 1 b).
  { induction a as [|y a IHa]; intros b; simpl; [lia|]. rewrite IHa. lia. }
  rewrite G, IH. simpl. lia.
Qed.

Lemma contig_walk_spec : forall s st, length st = length s ->
  contig_walk (rev (combine st s)) 1 = true <-> st = compute_strides s.
Proof.
  induction s as [|d s IH]; intros [|x st] H; simpl in H; try discriminate.
  - simpl. tauto.
  - simpl combine. simpl rev. rewrite contig_walk_app, andb_true_iff, IH by lia.
    rewrite compute_strides_cons.
    rewrite map_rev, fold_mul_rev.
    assert (E : map snd (combine st s) = s).
    { clear IH. revert st H. induction s as [|e s IHs]; intros [|y st] H; simpl in *;
        try discriminate; auto. f_equal. apply IHs. lia. }
    rewrite E. simpl. rewrite Nat.add_0_r. fold (nelem s).
    destruct (x =? nelem s) eqn:Ex.
    + apply Nat.eqb_eq in Ex. subst. split.
      * intros [-> _]; auto.
      * intro G; inversion G; auto.
    + apply Nat.eqb_neq in Ex. split.
      * intros [_ G]; discriminate.
      * intro G; inversion G; congruence.
Qed.

Lemma is_contiguous_iff : forall l, wf_layout l ->
  (is_contiguous l = true <-> lstrides l = compute_strides (lshape l)).
Proof. intros l H. unfold is_contiguous. apply contig_walk_spec. exact H. Qed.

Lemma from_shape_contiguous : forall s, is_contiguous (from_shape s) = true.
Proof. intro s. apply is_contiguous_iff; [apply from_shape_wf|reflexivity]. Qed.

Lemma addr_contiguous : forall l i, wf_layout l -> is_contiguous l = true ->
  length i = length (lshape l) -> addr l i = loffset l + ravel (lshape l) i.
Proof.
  intros l i Hw Hc Hl. apply is_contiguous_iff in Hc; auto.
  unfold addr. rewrite Hc, dot_compute_strides; auto.
Qed.

(** A layout with recomputed strides shows the same row-major sequence. *)
Lemma recontig_index : forall l s',
  wf_layout l -> is_contiguous l = true -> nelem s' = nelem (lshape l) ->
  let l' := mkLayout s' (compute_strides s') (loffset l) in
  forall i, valid s' i ->
  exists j, valid (lshape l) j /\ ravel (lshape l) j = ravel s' i /\ addr l' i = addr l j.
Proof.
  intros l s' Hw Hc Hn l' i Hi.
  assert (Hk : ravel s' i < nelem (lshape l)) by (rewrite <- Hn; now apply ravel_lt).
  exists (unravel (lshape l) (ravel s' i)).
  rewrite ravel_unravel by auto.
  split; [now apply unravel_valid|]. split; auto.
  rewrite (addr_contiguous l) by (auto using unravel_length).
  rewrite ravel_unravel by auto.
  unfold addr, l'; simpl. rewrite dot_compute_strides by (now apply valid_length). reflexivity.
Qed.

(** ** Axis normalisation *)

Lemma normalize_axis_spec : forall s a,
  normalize_axis s a =
  if ((- Z.of_nat (length s) <=? a) && (a <? Z.of_nat (length s)))%Z
  then Some (axis_of (length s) a) else None.
Proof.
  intros s a. unfold normalize_axis, axis_of.
  destruct (a <? 0)%Z eqn:E.
  - destruct ((0 <=? Z.of_nat (length s) + a)%Z && (Z.of_nat (length s) + a <? Z.of_nat (length s))%Z) eqn:E1;
    destruct ((- Z.of_nat (length s) <=? a)%Z && (a <? Z.of_nat (length s))%Z) eqn:E2; try lia.
    + f_equal. lia.
    + reflexivity.
  - destruct ((0 <=? a)%Z && (a <? Z.of_nat (length s))%Z) eqn:E1;
    destruct ((- Z.of_nat (length s) <=? a)%Z && (a <? Z.of_nat (length s))%Z) eqn:E2; try lia;
    reflexivity.
Qed.

Lemma normalize_axis_Some : forall s a k,
  normalize_axis s a = Some k <->
  axis_ok (length s) a /\ k = axis_of (length s) a.
Proof.
  intros s a k. rewrite normalize_axis_spec. unfold axis_ok.
  destruct ((- Z.of_nat (length s) <=? a)%Z && (a <? Z.of_nat (length s))%Z) eqn:E.
  - split.
    + intro H; inversion H; split; auto; lia.
    + intros [_ ->]; auto.
  - split; [discriminate|]. intros [H _]. lia.
Qed.

Lemma axis_of_lt : forall n a, axis_ok n a -> axis_of n a < n.
Proof. unfold axis_ok, axis_of. intros n a H. destruct (a <? 0)%Z eqn:E; lia. Qed.

(** the cast used by squeeze and slice *)
Lemma cast_axis : forall n a,
  match as_usize (if (a <? 0)%Z then (Z.of_nat n + a)%Z else a) with
  | Some k => if k <? n then axis_ok n a /\ k = axis_of n a else ~ axis_ok n a
  | None => ~ axis_ok n a
  end.
Proof.
  intros n a. unfold as_usize, axis_ok, axis_of.
  destruct (a <? 0)%Z eqn:E.
  - destruct (Z.of_nat n + a <? 0)%Z eqn:E2; [lia|].
    destruct (Z.to_nat (Z.of_nat n + a) <? n) eqn:E3; lia.
  - rewrite E. destruct (Z.to_nat a <? n) eqn:E3; lia.
Qed.

(** ** nth-based view of [dot] *)

Lemma dot_sum : forall n i st, length i = n -> length st = n ->
  dot i st = list_sum (map (fun k => nth k i 0 * nth k st 0) (seq 0 n)).
Proof.
  induction n as [|n IH]; intros [|x i] [|s st] Hi Hs; simpl in *; try discriminate; auto.
  f_equal. rewrite (IH i st) by lia.
  rewrite <- seq_shift, map_map. reflexivity.
Qed.

Lemma list_sum_perm : forall l l', Permutation l l' -> list_sum l = list_sum l'.
Proof. intros l l' H; induction H; simpl; lia. Qed.

Lemma pick_Ok : forall A (l : list A) axes r, pick l axes = Ok r <->
  map (nth_error l) axes = map Some r.
Proof.
  intros A l axes. induction axes as [|a axes IH]; intros r; simpl.
  - split; intro H.
    + now inversion H.
    + destruct r; [reflexivity|discriminate].
  - unfold idx_or_panic. destruct (nth_error l a) as [x|] eqn:E; simpl.
    + destruct (pick l axes) as [r'|e|] eqn:Er; simpl.
      * specialize (IH r'). destruct IH as [IH _]. split; intro H.
        -- inversion H; subst. simpl. f_equal. now apply IH.
        -- destruct r as [|y r'']; [discriminate|]. inversion H as [[H1 H2]]. subst.
           assert (Hr : map (@Some A) r' = map Some r'') by (rewrite <- H2; symmetry; now apply IH).
           assert (r' = r'').
           { clear -Hr. revert r'' Hr. induction r' as [|z r' IH]; intros [|w r''] Hr; simpl in *;
               try discriminate; auto. inversion Hr. f_equal; auto. }
           now subst.
      * split; [discriminate|]. intro H. destruct r as [|y r]; [discriminate|].
        inversion H as [[H1 H2]]. apply IH in H2. discriminate.
      * split; [discriminate|]. intro H. destruct r as [|y r]; [discriminate|].
        inversion H as [[H1 H2]]. apply IH in H2. discriminate.
    + split; [discriminate|]. intro H. destruct r; discriminate.
Qed.

Lemma pick_total : forall A (l : list A) axes d, Forall (fun a => a < length l) axes ->
  pick l axes = Ok (map (fun a => nth a l d) axes).
Proof.
  intros A l axes d H. apply pick_Ok. rewrite map_map.
  apply map_ext_in. intros a Ha.
  apply nth_error_nth'. rewrite Forall_forall in H. auto.
Qed.

(** ** permute *)

Lemma nth_repeat_false : forall n k, nth k (repeat false n) false = false.
Proof. induction n as [|n IH]; intros [|k]; simpl; auto. Qed.

Lemma permute_axes_Ok : forall s axes seen r,
  length seen = length s ->
  (permute_axes s seen axes = Ok r <->
   Forall (axis_ok (length s)) axes /\ r = map (axis_of (length s)) axes /\
   NoDup r /\ (forall a, In a r -> nth a seen false = false)).
Proof.
  intros s axes. induction axes as [|a axes IH]; intros seen r Hl; simpl.
  - split.
    + intro H; inversion H; subst. repeat split; try constructor. intros a [].
    + intros [_ [-> _]]. reflexivity.
  - destruct (normalize_axis s a) as [k|] eqn:Ek; simpl.
    + apply normalize_axis_Some in Ek. destruct Ek as [Hok ->].
      pose proof (axis_of_lt _ _ Hok) as Hlt.
      unfold idx_or_panic.
      rewrite (nth_error_nth' seen false) by lia. simpl.
      destruct (nth (axis_of (length s) a) seen false) eqn:Eb.
      * split; [discriminate|]. intros [_ [-> [_ H]]].
        rewrite H in Eb by now left. discriminate.
      * destruct (permute_axes s (upd seen (axis_of (length s) a) true) axes) as [r'|e|] eqn:Er; simpl.
        -- apply IH in Er; [|now rewrite upd_length].
           destruct Er as [Hf [-> [Hnd Hs]]].
           assert (Hnin : ~ In (axis_of (length s) a) (map (axis_of (length s)) axes)).
           { intro Hin. specialize (Hs _ Hin).
             rewrite nth_indep with (d' := true) in Hs by (rewrite upd_length; lia).
             rewrite nth_error_nth with (x := true) in Hs; [discriminate|].
             apply nth_error_upd_eq. lia. }
           split.
           ++ intro H; inversion H; subst. repeat split.
              ** constructor; auto.
              ** constructor; auto.
              ** intros b [<-|Hb]; auto.
                 specialize (Hs _ Hb).
                 destruct (Nat.eq_dec (axis_of (length s) a) b) as [Hab|Hne]; [now subst b|].
                 pose proof (nth_error_upd_neq _ seen _ b true Hne) as Hu.
                 destruct (Nat.lt_ge_cases b (length seen)) as [Hb2|Hb2].
                 --- rewrite (nth_error_nth' _ false) in Hu by (now rewrite upd_length).
                     rewrite (nth_error_nth' _ false) in Hu by auto.
                     inversion Hu as [Hu2]. congruence.
                 --- now rewrite nth_overflow.
           ++ intros [_ [-> _]]. reflexivity.
        -- split; [discriminate|]. intros [Hf [-> [Hnd Hs]]]. exfalso.
           assert (G : Ok (map (axis_of (length s)) axes) = @Err (list nat) e); [|discriminate].
           rewrite <- Er. symmetry. apply IH; [now rewrite upd_length|].
           simpl in Hnd. inversion Hnd; subst. inversion Hf; subst.
           repeat split; auto.
           intros b Hb. destruct (Nat.eq_dec (axis_of (length s) a) b) as [Hab|Hne]; [subst b; contradiction|].
           pose proof (nth_error_upd_neq _ seen _ b true Hne) as Hu.
           destruct (Nat.lt_ge_cases b (length seen)) as [Hb2|Hb2].
           ++ rewrite (nth_error_nth' _ false) in Hu by (now rewrite upd_length).
              rewrite (nth_error_nth' _ false) in Hu by auto.
              injection Hu as Hu2. rewrite Hu2. apply Hs. now right.
           ++ rewrite nth_overflow; auto. now rewrite upd_length.
        -- split; [discriminate|]. intros [Hf [-> [Hnd Hs]]]. exfalso.
           assert (G : Ok (map (axis_of (length s)) axes) = @Panic (list nat)); [|discriminate].
           rewrite <- Er. symmetry. apply IH; [now rewrite upd_length|].
           simpl in Hnd. inversion Hnd; subst. inversion Hf; subst.
           repeat split; auto.
           intros b Hb. destruct (Nat.eq_dec (axis_of (length s) a) b) as [Hab|Hne]; [subst b; contradiction|].
           pose proof (nth_error_upd_neq _ seen _ b true Hne) as Hu.
           destruct (Nat.lt_ge_cases b (length seen)) as [Hb2|Hb2].
           ++ rewrite (nth_error_nth' _ false) in Hu by (now rewrite upd_length).
              rewrite (nth_error_nth' _ false) in Hu by auto.
              injection Hu as Hu2. rewrite Hu2. apply Hs. now right.
           ++ rewrite nth_overflow; auto. now rewrite upd_length.
    + split; [discriminate|]. intros [Hf _]. inversion Hf; subst.
      rewrite normalize_axis_spec in Ek. unfold axis_ok in *.
      destruct ((- Z.of_nat (length s) <=? a)%Z && (a <? Z.of_nat (length s))%Z) eqn:E; [discriminate|].
      lia.
Qed.

(** The axes of an accepted permutation, and its layout. *)
Lemma permute_Ok : forall l axes l', wf_layout l ->
  (permute l axes = Ok l' <->
   length axes = length (lshape l) /\ Forall (axis_ok (length (lshape l))) axes /\
   NoDup (map (axis_of (length (lshape l))) axes) /\
   l' = mkLayout (map (fun a => nth (axis_of (length (lshape l)) a) (lshape l) 0) axes)
                 (map (fun a => nth (axis_of (length (lshape l)) a) (lstrides l) 0) axes)
                 (loffset l)).
Proof.
  intros l axes l' Hw. unfold permute.
  set (n := length (lshape l)).
  destruct (length axes =? n) eqn:El; simpl.
  2:{ apply Nat.eqb_neq in El. split; [discriminate|]. intros [H _]; congruence. }
  apply Nat.eqb_eq in El.
  destruct (permute_axes (lshape l) (repeat false n) axes) as [r|e|] eqn:Er; simpl.
  - apply permute_axes_Ok in Er; [|now rewrite repeat_length].
    destruct Er as [Hf [-> [Hnd _]]]. fold n in Hf, Hnd |- *.
    assert (Hlt : Forall (fun a => a < n) (map (axis_of n) axes)).
    { apply Forall_forall. intros k Hk. apply in_map_iff in Hk.
      destruct Hk as [a [<- Ha]]. apply axis_of_lt. rewrite Forall_forall in Hf. auto. }
    rewrite (pick_total _ (lshape l) _ 0) by (exact Hlt). simpl.
    rewrite (pick_total _ (lstrides l) _ 0) by (rewrite Hw; exact Hlt). simpl.
    rewrite !map_map. split.
    + intro H; inversion H; subst. repeat split; auto.
    + intros [_ [_ [_ ->]]]. reflexivity.
  - split; [discriminate|]. intros [_ [Hf [Hnd _]]]. exfalso.
    assert (G : Ok (map (axis_of n) axes) = @Err (list nat) e); [|discriminate].
    rewrite <- Er. symmetry. apply permute_axes_Ok; [now rewrite repeat_length|].
    repeat split; auto. intros a _. apply nth_repeat_false.
  - split; [discriminate|]. intros [_ [Hf [Hnd _]]]. exfalso.
    assert (G : Ok (map (axis_of n) axes) = @Panic (list nat)); [|discriminate].
    rewrite <- Er. symmetry. apply permute_axes_Ok; [now rewrite repeat_length|].
    repeat split; auto. intros a _. apply nth_repeat_false.
Qed.

(** A duplicate-free list of [n] numbers below [n] lists all of them. *)
Lemma full_perm : forall n l, length l = n -> NoDup l -> (forall a, In a l -> a < n) ->
  Permutation l (seq 0 n).
Proof.
  intros n l Hl Hnd Hlt. apply NoDup_Permutation_bis; auto.
  - rewrite seq_length; lia.
  - intros a Ha. apply in_seq. specialize (Hlt _ Ha). lia.
Qed.

Fixpoint index_of (a : nat) (l : list nat) : nat :=
  match l with
  | [] => 0
  | x :: t => if x =? a then 0 else S (index_of a t)
  end.

Lemma index_of_nth : forall l a, In a l -> nth_error l (index_of a l) = Some a.
Proof.
  induction l as [|x l IH]; intros a H; [destruct H|]. simpl.
  destruct (x =? a) eqn:E.
  - apply Nat.eqb_eq in E; subst; auto.
  - destruct H as [->|H]; [rewrite Nat.eqb_refl in E; discriminate|]. simpl. auto.
Qed.

Lemma index_of_eq : forall l k a, NoDup l -> nth_error l k = Some a -> index_of a l = k.
Proof.
  intros l k a Hnd H.
  assert (Hin : In a l) by (eapply nth_error_In; eauto).
  pose proof (index_of_nth _ _ Hin) as H2.
  eapply (proj1 (NoDup_nth_error l)); auto.
  - apply nth_error_Some. now rewrite H2.
  - now rewrite H, H2.
Qed.

Lemma map_seq_nth_error : forall A (f : nat -> A) n k, k < n ->
  nth_error (map f (seq 0 n)) k = Some (f k).
Proof. intros A f n k H. rewrite nth_error_map, nth_error_seq by auto. reflexivity. Qed.

(** generic statement on picking strides along a permutation of the axes *)
Lemma dot_pick_perm : forall n (p i st : list nat),
  length p = n -> length i = n -> length st = n -> NoDup p -> (forall a, In a p -> a < n) ->
  let j := map (fun a => nth (index_of a p) i 0) (seq 0 n) in
  dot i (map (fun a => nth a st 0) p) = dot j st /\
  (forall k a, nth_error p k = Some a -> nth_error j a = nth_error i k).
Proof.
  intros n p i st Hp Hi Hst Hnd Hlt j.
  assert (Hj : length j = n) by (unfold j; now rewrite map_length, seq_length).
  assert (Hidx : forall k a, nth_error p k = Some a -> nth_error j a = nth_error i k).
  { intros k a Hk. assert (Ha : a < n) by (apply Hlt; eapply nth_error_In; eauto).
    unfold j. rewrite map_seq_nth_error by auto.
    rewrite (index_of_eq _ _ _ Hnd Hk).
    assert (k < n) by (rewrite <- Hp; apply nth_error_Some; congruence).
    symmetry. apply nth_error_nth'. lia. }
  split; auto.
  rewrite (dot_sum n i) by (auto; now rewrite map_length).
  rewrite (dot_sum n j st) by auto.
  pose proof (full_perm n p Hp Hnd Hlt) as HP.
  apply Permutation_sym in HP.
  rewrite (list_sum_perm _ _ (Permutation_map (fun k => nth k j 0 * nth k st 0) HP)).
  f_equal. apply list_ext. intro k.
  destruct (Nat.lt_ge_cases k n) as [Hk|Hk].
  - rewrite map_seq_nth_error by auto.
    destruct (nth_error p k) as [a|] eqn:Ea.
    2:{ apply nth_error_None in Ea. lia. }
    rewrite (map_nth_error _ _ _ Ea). f_equal.
    assert (Ha : a < n) by (apply Hlt; eapply nth_error_In; eauto).
    f_equal.
    + specialize (Hidx _ _ Ea).
      rewrite (nth_error_nth' j 0) in Hidx by lia.
      rewrite (nth_error_nth' i 0) in Hidx by lia. now inversion Hidx.
    + erewrite nth_error_nth; [reflexivity|].
      now rewrite (map_nth_error _ _ _ Ea).
  - rewrite !(proj2 (nth_error_None _ _)); auto; rewrite map_length; try rewrite seq_length; lia.
Qed.

Lemma valid_perm : forall n (p i s : list nat),
  length p = n -> length s = n -> NoDup p -> (forall a, In a p -> a < n) ->
  valid (map (fun a => nth a s 0) p) i ->
  valid s (map (fun a => nth (index_of a p) i 0) (seq 0 n)).
Proof.
  intros n p i s Hp Hs Hnd Hlt Hi.
  pose proof (valid_length _ _ Hi) as Hl. rewrite map_length in Hl.
  apply valid_nth in Hi. destruct Hi as [_ Hi].
  apply valid_nth. split; [now rewrite map_length, seq_length|].
  intros a x d Hx Hd.
  assert (Ha : a < n) by (rewrite <- Hs; apply nth_error_Some; congruence).
  rewrite map_seq_nth_error in Hx by auto. inversion Hx; subst x. clear Hx.
  assert (Hin : In a p).
  { eapply Permutation_in; [apply Permutation_sym, full_perm; eauto|]. apply in_seq. lia. }
  pose proof (index_of_nth _ _ Hin) as Hk.
  assert (Hkn : index_of a p < length p) by (apply nth_error_Some; congruence).
  apply (Hi (index_of a p)).
  - apply nth_error_nth'. lia.
  - rewrite (map_nth_error _ _ _ Hk). f_equal. now apply nth_error_nth.
Qed.

Lemma permute_view : forall l axes l', wf_layout l -> permute l axes = Ok l' ->
  wf_layout l' /\ shape_rel (VPermute axes) (lshape l) (lshape l') /\
  forall i, valid (lshape l') i ->
  exists j, index_rel (VPermute axes) (lshape l) (lshape l') i j /\
            valid (lshape l) j /\ addr l' i = addr l j.
Proof.
  intros l axes l' Hw H. apply permute_Ok in H; auto.
  destruct H as [Hl [Hf [Hnd ->]]]. simpl.
  set (n := length (lshape l)) in *.
  split; [unfold wf_layout; simpl; now rewrite !map_length|].
  split.
  { repeat split; auto.
    - now rewrite map_length.
    - intros k a Hk. rewrite (map_nth_error _ _ _ Hk).
      symmetry. apply nth_error_nth'. apply axis_of_lt.
      rewrite Forall_forall in Hf. apply Hf. eapply nth_error_In; eauto. }
  intros i Hi.
  set (p := map (axis_of n) axes).
  assert (Hp : length p = n) by (unfold p; now rewrite map_length).
  assert (Hlt : forall a, In a p -> a < n).
  { intros a Ha. apply in_map_iff in Ha. destruct Ha as [z [<- Hz]].
    apply axis_of_lt. rewrite Forall_forall in Hf. auto. }
  pose proof (valid_length _ _ Hi) as Hil. rewrite map_length in Hil.
  exists (map (fun a => nth (index_of a p) i 0) (seq 0 n)).
  unfold wf_layout in Hw. fold n in Hw.
  destruct (dot_pick_perm n p i (lstrides l) Hp ltac:(lia) Hw Hnd Hlt) as [Hd Hx].
  split; [|split].
  - split; [now rewrite map_length, seq_length|].
    intros k a Hk. apply Hx. unfold p. now rewrite (map_nth_error _ _ _ Hk).
  - apply valid_perm; auto. unfold p. rewrite map_map. exact Hi.
  - unfold addr. simpl. f_equal. rewrite <- Hd. unfold p. now rewrite map_map.
Qed.

(** ** transpose *)

Definition sw (a b k : nat) : nat := if k =? a then b else if k =? b then a else k.

Lemma sw_invol : forall a b k, sw a b (sw a b k) = k.
Proof.
  intros a b k. unfold sw.
  destruct (k =? a) eqn:E1; [apply Nat.eqb_eq in E1; subst|].
  - destruct (b =? a) eqn:E2; [apply Nat.eqb_eq in E2; now subst|].
    now rewrite Nat.eqb_refl.
  - destruct (k =? b) eqn:E2; [apply Nat.eqb_eq in E2; subst|].
    + now rewrite Nat.eqb_refl.
    + now rewrite E1, E2.
Qed.

Lemma swap_spec : forall A (l : list A) a b, a < length l -> b < length l ->
  exists r, swap l a b = Ok r /\ length r = length l /\
            forall k, nth_error r k = nth_error l (sw a b k).
Proof.
  intros A l a b Ha Hb. unfold swap.
  destruct (nth_error l a) as [x|] eqn:Ex; [|apply nth_error_None in Ex; lia].
  destruct (nth_error l b) as [y|] eqn:Ey; [|apply nth_error_None in Ey; lia].
  eexists; split; [reflexivity|]. split; [now rewrite !upd_length|].
  intro k. rewrite !nth_error_upd, upd_length. unfold sw.
  destruct (k =? b) eqn:E1.
  - apply Nat.eqb_eq in E1; subst k. rewrite Nat.eqb_refl.
    replace (b <? length l) with true by lia. simpl.
    destruct (b =? a) eqn:E2; auto. apply Nat.eqb_eq in E2. subst. congruence.
  - rewrite (Nat.eqb_sym b k), E1. simpl.
    destruct (k =? a) eqn:E2.
    + apply Nat.eqb_eq in E2; subst k. rewrite Nat.eqb_refl.
      replace (a <? length l) with true by lia. simpl. auto.
    + rewrite (Nat.eqb_sym a k), E2. reflexivity.
Qed.

Lemma transpose_Ok : forall l a b l', wf_layout l ->
  (transpose l a b = Ok l' <->
   2 <= length (lshape l) /\ axis_ok (length (lshape l)) a /\ axis_ok (length (lshape l)) b /\
   let n := length (lshape l) in
   swap (lshape l) (axis_of n a) (axis_of n b) = Ok (lshape l') /\
   swap (lstrides l) (axis_of n a) (axis_of n b) = Ok (lstrides l') /\
   loffset l' = loffset l).
Proof.
  intros l a b l' Hw. unfold transpose.
  destruct (length (lshape l) <? 2) eqn:E2.
  { split; [discriminate|]. intros [H _]. lia. }
  destruct (normalize_axis (lshape l) a) as [ka|] eqn:Ea; simpl.
  2:{ split; [discriminate|]. intros [_ [H _]]. rewrite normalize_axis_spec in Ea.
      unfold axis_ok in H.
      destruct ((- Z.of_nat (length (lshape l)) <=? a)%Z && (a <? Z.of_nat (length (lshape l)))%Z) eqn:E;
        [discriminate|lia]. }
  apply normalize_axis_Some in Ea. destruct Ea as [Ha ->].
  destruct (normalize_axis (lshape l) b) as [kb|] eqn:Eb; simpl.
  2:{ split; [discriminate|]. intros [_ [_ [H _]]]. rewrite normalize_axis_spec in Eb.
      unfold axis_ok in H.
      destruct ((- Z.of_nat (length (lshape l)) <=? b)%Z && (b <? Z.of_nat (length (lshape l)))%Z) eqn:E;
        [discriminate|lia]. }
  apply normalize_axis_Some in Eb. destruct Eb as [Hb ->].
  pose proof (axis_of_lt _ _ Ha) as La. pose proof (axis_of_lt _ _ Hb) as Lb.
  destruct (swap_spec _ (lshape l) _ _ La Lb) as [r1 [E1 _]].
  destruct (swap_spec _ (lstrides l) (axis_of (length (lshape l)) a) (axis_of (length (lshape l)) b))
    as [r2 [E3 _]]; try (rewrite Hw; auto).
  rewrite E1, E3. simpl. split.
  - intro H; inversion H; subst. simpl.
    split; [lia|]. split; [exact Ha|]. split; [exact Hb|]. auto.
  - intros [_ [_ [_ [H1 [H2 H3]]]]]. inversion H1; inversion H2; subst.
    destruct l'; simpl in *. now subst.
Qed.

Lemma transpose_view : forall l a b l', wf_layout l -> transpose l a b = Ok l' ->
  wf_layout l' /\ shape_rel (VTranspose a b) (lshape l) (lshape l') /\
  forall i, valid (lshape l') i ->
  exists j, index_rel (VTranspose a b) (lshape l) (lshape l') i j /\
            valid (lshape l) j /\ addr l' i = addr l j.
Proof.
  intros l a b l' Hw H. apply transpose_Ok in H; auto.
  destruct H as [H2 [Ha [Hb [Hs [Hst Ho]]]]].
  set (n := length (lshape l)) in *.
  pose proof (axis_of_lt _ _ Ha) as La. pose proof (axis_of_lt _ _ Hb) as Lb.
  fold n in La, Lb.
  destruct (swap_spec _ (lshape l) (axis_of n a) (axis_of n b)) as [r1 [E1 [L1 N1]]]; auto.
  destruct (swap_spec _ (lstrides l) (axis_of n a) (axis_of n b)) as [r2 [E2 [L2 N2]]];
    try (rewrite Hw; auto).
  rewrite E1 in Hs. inversion Hs; subst r1. clear Hs.
  rewrite E2 in Hst. inversion Hst; subst r2. clear Hst.
  split; [unfold wf_layout in *; lia|].
  split.
  { split; [exact H2|]. split; [exact Ha|]. split; [exact Hb|]. split; [exact L1|].
    intros k _. rewrite N1. reflexivity. }
  intros i Hi. pose proof (valid_length _ _ Hi) as Hil.
  set (s2 := sw (axis_of n a) (axis_of n b)) in *.
  assert (Hlt2 : forall k, k < n -> s2 k < n).
  { intros k Hk. unfold s2, sw. destruct (k =? axis_of n a); auto. destruct (k =? axis_of n b); auto. }
  exists (map (fun k => nth (s2 k) i 0) (seq 0 n)).
  split; [|split].
  - split; [now rewrite map_length, seq_length|].
    intros k Hk. fold n in Hk |- *. rewrite map_seq_nth_error by auto.
    symmetry. apply (nth_error_nth' i 0 (n := s2 k)). specialize (Hlt2 _ Hk). lia.
  - apply valid_nth. split; [now rewrite map_length, seq_length|].
    intros k x d Hx Hd.
    assert (Hk : k < n) by (apply nth_error_Some; congruence).
    rewrite map_seq_nth_error in Hx by auto. inversion Hx; subst x.
    apply valid_nth in Hi. destruct Hi as [_ Hi].
    apply (Hi (s2 k)).
    + apply nth_error_nth'. specialize (Hlt2 _ Hk). lia.
    + rewrite N1. unfold s2. now rewrite sw_invol.
  - unfold addr. rewrite Ho. f_equal.
    rewrite (dot_sum n i) by (unfold wf_layout in *; lia).
    rewrite (dot_sum n _ (lstrides l)) by (try rewrite map_length, seq_length; unfold wf_layout in *; lia).
    assert (HP : Permutation (seq 0 n) (map s2 (seq 0 n))).
    { apply Permutation_sym, full_perm.
      - now rewrite map_length, seq_length.
      - apply FinFun.Injective_map_NoDup; [|apply seq_NoDup].
        intros x y Hxy. apply (f_equal s2) in Hxy. unfold s2 in Hxy. now rewrite !sw_invol in Hxy.
      - intros x Hx. apply in_map_iff in Hx. destruct Hx as [y [<- Hy]].
        apply in_seq in Hy. apply Hlt2. lia. }
    rewrite (list_sum_perm _ _ (Permutation_map _ HP)), map_map.
    f_equal. apply map_ext_in. intros k Hk. apply in_seq in Hk. f_equal.
    + symmetry. apply nth_error_nth.
      rewrite (map_seq_nth_error _ (fun k0 => nth (s2 k0) i 0)) by lia. reflexivity.
    + assert (G : nth_error (lstrides l') (s2 k) = nth_error (lstrides l) k).
      { rewrite N2. unfold s2. now rewrite sw_invol. }
      assert (s2 k < n) by (apply Hlt2; lia).
      unfold wf_layout in Hw.
      rewrite (nth_error_nth' _ 0) in G by lia.
      rewrite (nth_error_nth' (lstrides l) 0) in G by lia. now inversion G.
Qed.

(** ** reshape, flatten, squeeze, unsqueeze *)

(** What "shows an element of the operand" means for one operation. *)
Definition views (o : view_op) (l l' : layout) : Prop :=
  wf_layout l' /\ shape_rel o (lshape l) (lshape l') /\
  forall i, valid (lshape l') i ->
  exists j, index_rel o (lshape l) (lshape l') i j /\
            valid (lshape l) j /\ addr l' i = addr l j.

Lemma reshape_Ok : forall l s l',
  reshape l s = Ok l' <->
  nelem s = nelem (lshape l) /\ is_contiguous l = true /\
  l' = mkLayout s (compute_strides s) (loffset l).
Proof.
  intros l s l'. unfold reshape, layout_size. change shape_size with nelem.
  destruct (nelem (lshape l) =? nelem s) eqn:E; simpl.
  - apply Nat.eqb_eq in E. destruct (is_contiguous l); simpl.
    + split; [intro H; inversion H; repeat split; auto | intros [_ [_ ->]]; auto].
    + split; [discriminate | intros [_ [H _]]; discriminate].
  - apply Nat.eqb_neq in E. split; [discriminate|]. intros [H _]. congruence.
Qed.

Lemma recontig_views : forall o l s', wf_layout l -> is_contiguous l = true ->
  nelem s' = nelem (lshape l) ->
  shape_rel o (lshape l) s' ->
  (forall i j, ravel (lshape l) j = ravel s' i -> index_rel o (lshape l) s' i j) ->
  views o l (mkLayout s' (compute_strides s') (loffset l)).
Proof.
  intros o l s' Hw Hc Hn Hs Hx. split; [|split]; simpl; auto.
  - unfold wf_layout. simpl. apply compute_strides_length.
  - intros i Hi. destruct (recontig_index l s' Hw Hc Hn i Hi) as [j [Hj [Hr Ha]]].
    exists j. split; [now apply Hx|]. split; auto.
Qed.

Lemma reshape_view : forall l s l', wf_layout l -> reshape l s = Ok l' ->
  views (VReshape s) l l'.
Proof.
  intros l s l' Hw H. apply reshape_Ok in H. destruct H as [Hn [Hc ->]].
  apply recontig_views; auto. simpl. auto.
Qed.

Lemma flatten_view : forall l l', wf_layout l -> flatten l = Ok l' -> views VFlatten l l'.
Proof.
  intros l l' Hw H. unfold flatten in H.
  destruct (is_contiguous l) eqn:Hc; simpl in H; [|discriminate].
  inversion H; subst. apply (recontig_views VFlatten l [nelem (lshape l)]); simpl; auto.
  rewrite nelem_cons. unfold nelem at 2. simpl. lia.
Qed.

Lemma keep_from_ext : forall A (f g : nat -> bool) (l : list A) p,
  (forall k, p <= k < p + length l -> f k = g k) -> keep_from f p l = keep_from g p l.
Proof.
  intros A f g. induction l as [|x l IH]; intros p H; simpl; auto.
  simpl in H. rewrite (H p) by lia. rewrite (IH (S p)) by (intros; apply H; lia). reflexivity.
Qed.

Lemma keep_from_app : forall A (f : nat -> bool) (l1 l2 : list A) p,
  keep_from f p (l1 ++ l2) = keep_from f p l1 ++ keep_from f (p + length l1) l2.
Proof.
  intros A f. induction l1 as [|x l1 IH]; intros l2 p; simpl.
  - now rewrite Nat.add_0_r.
  - rewrite IH. replace (p + S (length l1)) with (S p + length l1) by lia.
    destruct (f p); auto.
Qed.

Lemma keep_from_all : forall A (f : nat -> bool) (l : list A) p,
  (forall k, p <= k < p + length l -> f k = true) -> keep_from f p l = l.
Proof.
  intros A f. induction l as [|x l IH]; intros p H; simpl; auto.
  simpl in H. rewrite (H p) by lia. rewrite IH; auto. intros; apply H; lia.
Qed.

Lemma keep_from_nelem : forall f s p,
  (forall k d, nth_error s k = Some d -> f (p + k) = false -> d = 1) ->
  nelem (keep_from f p s) = nelem s.
Proof.
  intros f. induction s as [|d s IH]; intros p H; simpl; auto.
  assert (IH' : nelem (keep_from f (S p) s) = nelem s).
  { apply IH. intros k e Hk Hf. apply (H (S k)); auto. now rewrite Nat.add_succ_r. }
  destruct (f p) eqn:E.
  - rewrite !nelem_cons, IH'. reflexivity.
  - rewrite nelem_cons, IH'. rewrite (H 0 d); auto; try lia. rewrite Nat.add_0_r. auto.
Qed.

Lemma filter_nelem : forall s, nelem (filter (fun d => negb (d =? 1)) s) = nelem s.
Proof.
  induction s as [|d s IH]; simpl; auto.
  destruct (d =? 1) eqn:E; simpl.
  - apply Nat.eqb_eq in E. rewrite nelem_cons. lia.
  - rewrite !nelem_cons. lia.
Qed.

Lemma squeeze_axes_Ok : forall s dims r,
  squeeze_axes s dims = Ok r <->
  (forall a, In a dims -> axis_ok (length s) a /\ nth (axis_of (length s) a) s 0 = 1) /\
  r = map (axis_of (length s)) dims.
Proof.
  intros s. induction dims as [|a dims IH]; intros r; simpl.
  - split; [intro H; inversion H; split; auto; intros a [] | intros [_ ->]; auto].
  - pose proof (cast_axis (length s) a) as HC.
    destruct (as_usize (if (a <? 0)%Z then (Z.of_nat (length s) + a)%Z else a)) as [k|].
    + destruct (nth_error s k) as [d|] eqn:Ed.
      * assert (k < length s) by (apply nth_error_Some; congruence).
        replace (k <? length s) with true in HC by lia. destruct HC as [Hok ->].
        pose proof (nth_error_nth _ _ 0 Ed) as En.
        destruct (d =? 1) eqn:E1; simpl.
        -- apply Nat.eqb_eq in E1. subst d.
           destruct (squeeze_axes s dims) as [r'|e|]; simpl.
           ++ specialize (IH r'). split.
              ** intro HH; inversion HH; subst. destruct IH as [IH _].
                 destruct (IH eq_refl) as [Hall ->]. split; auto.
                 intros b [<-|Hb]; auto.
              ** intros [Hall ->]. do 2 f_equal. destruct IH as [IH _].
                 now destruct (IH eq_refl).
           ++ split; [discriminate|]. intros [Hall _].
              assert (G : @Err (list nat) e = Ok (map (axis_of (length s)) dims)); [|discriminate].
              apply IH. auto.
           ++ split; [discriminate|]. intros [Hall _].
              assert (G : @Panic (list nat) = Ok (map (axis_of (length s)) dims)); [|discriminate].
              apply IH. auto.
        -- apply Nat.eqb_neq in E1. split; [discriminate|]. intros [Hall _].
           destruct (Hall a) as [_ Hx]; [now left|]. congruence.
      * apply nth_error_None in Ed. replace (k <? length s) with false in HC by lia.
        split; [discriminate|]. intros [Hall _]. destruct (Hall a); [now left|]. contradiction.
    + split; [discriminate|]. intros [Hall _]. destruct (Hall a); [now left|]. contradiction.
Qed.

(** strictly descending *)
Fixpoint desc (l : list nat) : Prop :=
  match l with
  | [] => True
  | x :: t => (forall y, In y t -> y < x) /\ desc t
  end.

Lemma insert_desc_In : forall x l y, In y (insert_desc x l) <-> y = x \/ In y l.
Proof.
  intros x l y. induction l as [|z l IH]; simpl; [intuition|].
  destruct (z <=? x); simpl; [intuition|]. rewrite IH. intuition.
Qed.

Lemma insert_desc_desc : forall x l, desc l -> ~ In x l -> desc (insert_desc x l).
Proof.
  intros x l. induction l as [|z l IH]; simpl; intros Hd Hn.
  - split; auto. intros y [].
  - destruct Hd as [Hz Hd]. destruct (z <=? x) eqn:E.
    + simpl. split; [|split; auto].
      intros y [<-|Hy]; [assert (z <> x) by tauto; lia|].
      specialize (Hz _ Hy). lia.
    + simpl. split; [|apply IH; tauto].
      intros y Hy. apply insert_desc_In in Hy. destruct Hy as [->|Hy]; auto. lia.
Qed.

Lemma sort_desc_In : forall l y, In y (sort_desc l) <-> In y l.
Proof.
  induction l as [|x l IH]; intros y; simpl; [tauto|].
  rewrite insert_desc_In, IH. intuition.
Qed.

Lemma sort_desc_desc : forall l, NoDup l -> desc (sort_desc l).
Proof.
  induction l as [|x l IH]; intros H; simpl; auto. inversion H; subst.
  apply insert_desc_desc; auto. now rewrite sort_desc_In.
Qed.

Lemma remove_all_desc : forall axes s, desc axes -> (forall a, In a axes -> a < length s) ->
  remove_all s axes = Ok (keep_from (fun p => negb (existsb (Nat.eqb p) axes)) 0 s).
Proof.
  induction axes as [|a axes IH]; intros s Hd Hlt; simpl.
  - rewrite keep_from_all; auto.
  - destruct Hd as [Ha Hd].
    assert (Hal : a < length s) by (apply Hlt; now left).
    replace (a <? length s) with true by lia.
    assert (Hrl : length (remove_at s a) = length s - 1).
    { unfold remove_at. rewrite app_length, firstn_length, skipn_length. lia. }
    rewrite IH; auto.
    2:{ intros b Hb. rewrite Hrl. specialize (Ha _ Hb). lia. }
    f_equal. unfold remove_at.
    destruct (nth_error s a) as [x|] eqn:Ex; [|apply nth_error_None in Ex; lia].
    apply nth_error_split in Ex. destruct Ex as [s1 [s2 [-> Hs1]]].
    rewrite firstn_app, <- Hs1, firstn_all, Nat.sub_diag. simpl firstn. rewrite app_nil_r.
    replace (skipn (S (length s1)) (s1 ++ x :: s2)) with s2.
    2:{ rewrite skipn_app, skipn_all2 by lia.
        replace (S (length s1) - length s1) with 1 by lia. reflexivity. }
    rewrite !keep_from_app. simpl. rewrite Hs1, Nat.eqb_refl. simpl.
    f_equal.
    + apply keep_from_ext. intros k Hk. simpl. f_equal.
      replace (k =? a) with false by lia. reflexivity.
    + rewrite !keep_from_all; auto.
      * intros k Hk. apply negb_true_iff.
        replace (k =? a) with false by lia. simpl.
        apply not_true_is_false. intro E. apply existsb_exists in E.
        destruct E as [y [Hy E]]. apply Nat.eqb_eq in E. subst y. specialize (Ha _ Hy). lia.
      * intros k Hk. apply negb_true_iff.
        apply not_true_is_false. intro E. apply existsb_exists in E.
        destruct E as [y [Hy E]]. apply Nat.eqb_eq in E. subst y. specialize (Ha _ Hy). lia.
Qed.

Lemma existsb_ext_in : forall (f : nat -> bool) l1 l2,
  (forall x, In x l1 <-> In x l2) -> existsb f l1 = existsb f l2.
Proof.
  intros f l1 l2 H. apply eq_true_iff_eq. rewrite !existsb_exists.
  split; intros [x [Hx Hf]]; exists x; split; auto; now apply H.
Qed.

Lemma existsb_map : forall A B (f : B -> bool) (g : A -> B) l,
  existsb f (map g l) = existsb (fun x => f (g x)) l.
Proof. induction l as [|x l IH]; simpl; auto. now rewrite IH. Qed.

Lemma squeeze_view : forall l dims l', wf_layout l ->
  NoDup (map (axis_of (length (lshape l))) dims) ->
  squeeze l dims = Ok l' -> views (VSqueeze dims) l l'.
Proof.
  intros l dims l' Hw Hnd H. unfold squeeze in H.
  destruct (is_contiguous l) eqn:Hc; simpl in H; [|discriminate].
  destruct dims as [|d0 dims0].
  - simpl in H. inversion H; subst.
    apply (recontig_views (VSqueeze [])); auto.
    + apply filter_nelem.
    + simpl. reflexivity.
  - remember (d0 :: dims0) as dims eqn:Edims.
    assert (H' : (do axes <- squeeze_axes (lshape l) dims;
                  remove_all (lshape l) (sort_desc axes)) >>= (fun nd =>
                  Ok (mkLayout nd (compute_strides nd) (loffset l))) = Ok l').
    { rewrite Edims in *. exact H. }
    clear H. rename H' into H.
    destruct (squeeze_axes (lshape l) dims) as [axes|e|] eqn:Ea; simpl in H; try discriminate.
    apply squeeze_axes_Ok in Ea. destruct Ea as [Hall ->].
    set (n := length (lshape l)) in *.
    rewrite remove_all_desc in H.
    2:{ now apply sort_desc_desc. }
    2:{ intros a Ha. apply (proj1 (sort_desc_In _ _)) in Ha. apply in_map_iff in Ha.
        destruct Ha as [z [<- Hz]]. apply axis_of_lt. now apply Hall. }
    simpl in H. inversion H; subst l'. clear H.
    assert (EK : forall s : list nat,
      keep_from (fun p => negb (existsb (Nat.eqb p) (sort_desc (map (axis_of n) dims)))) 0 s =
      keep_from (fun p => negb (existsb (fun a => p =? axis_of n a) dims)) 0 s).
    { intro s. apply keep_from_ext. intros k _. f_equal.
      rewrite (existsb_ext_in _ _ (map (axis_of n) dims)) by (intro; apply sort_desc_In).
      apply existsb_map. }
    rewrite EK.
    apply (recontig_views (VSqueeze dims)); auto.
    + apply keep_from_nelem. intros k d Hk Hf. simpl in Hf.
      apply negb_false_iff, existsb_exists in Hf. destruct Hf as [a [Ha Hka]].
      apply Nat.eqb_eq in Hka. destruct (Hall _ Ha) as [_ H1].
      subst k. now rewrite (nth_error_nth _ _ 0 Hk) in H1.
    + rewrite Edims in Hall |- *. simpl shape_rel. fold n. split; auto.
Qed.

Lemma unsqueeze_view : forall l d l', wf_layout l -> unsqueeze l d = Ok l' ->
  views (VUnsqueeze d) l l'.
Proof.
  intros l d l' Hw H. unfold unsqueeze in H.
  set (n := length (lshape l)) in *.
  assert (HC : match as_usize (if (d <? 0)%Z then (Z.of_nat n + d + 1)%Z else d) with
               | Some k => if n <? k then True else axis_ok (S n) d /\ k = axis_of (S n) d
               | None => True end).
  { unfold as_usize, axis_ok, axis_of. destruct (d <? 0)%Z eqn:E.
    - destruct (Z.of_nat n + d + 1 <? 0)%Z eqn:E2; auto.
      destruct (n <? Z.to_nat (Z.of_nat n + d + 1)) eqn:E3; auto. lia.
    - rewrite E. destruct (n <? Z.to_nat d) eqn:E3; auto. lia. }
  destruct (as_usize (if (d <? 0)%Z then (Z.of_nat n + d + 1)%Z else d)) as [k|]; [|discriminate].
  destruct (n <? k) eqn:Ek; [discriminate|]. destruct HC as [Hok ->].
  destruct (is_contiguous l) eqn:Hc; simpl in H; [|discriminate].
  inversion H; subst l'. clear H.
  set (k := axis_of (S n) d) in *.
  apply recontig_views; auto.
  - unfold insert_at. rewrite nelem_app, nelem_cons.
    rewrite <- (firstn_skipn k (lshape l)) at 3. rewrite nelem_app. lia.
  - simpl. split; [exact Hok|].
    exists (firstn k (lshape l)), (skipn k (lshape l)).
    rewrite firstn_skipn. split; auto. split; auto.
    rewrite firstn_length. fold n. apply Nat.ltb_ge in Ek. fold k. lia.
Qed.

(** ** broadcast *)

Fixpoint clip_idx (s i : list nat) : list nat :=
  match s, i with
  | d :: s', x :: i' => (if d =? 1 then 0 else x) :: clip_idx s' i'
  | _, _ => []
  end.

Lemma broadcast_strides0 : forall s t st r, length st = length s -> length t = length s ->
  (broadcast_strides 0 s t st = Ok r ->
   Forall2 (fun d d' => d = d' \/ d = 1) s t /\ length r = length s /\
   forall i, valid t i ->
     valid s (clip_idx s i) /\ dot i r = dot (clip_idx s i) st /\
     length (clip_idx s i) = length s /\
     forall k, k < length s ->
       nth_error (clip_idx s i) k = if nth k s 0 =? 1 then Some 0 else nth_error i k).
Proof.
  induction s as [|d s IH]; intros [|d' t] [|x st] r Hst Ht H; simpl in *; try discriminate.
  - inversion H; subst. split; [constructor|]. split; auto.
    intros [|y i] Hi; simpl in Hi; [|tauto]. repeat split; auto. intros; lia.
  - destruct (d =? d') eqn:E.
    + apply Nat.eqb_eq in E. subst d'.
      destruct (broadcast_strides 0 s t st) as [r'|e|] eqn:Er; simpl in H; try discriminate.
      inversion H; subst r. clear H.
      destruct (IH t st r' ltac:(lia) ltac:(lia) Er) as [HF [Hl Hi]].
      split; [constructor; auto|]. split; [simpl; lia|].
      intros [|y i] Hy; simpl in Hy; [tauto|]. destruct Hy as [Hy Hv].
      destruct (Hi i Hv) as [V [D [L N]]]. simpl.
      split; [|split; [|split]].
      * split; auto. destruct (d =? 1); lia.
      * rewrite D. destruct (d =? 1) eqn:E1; auto. assert (y = 0) by lia. subst; lia.
      * lia.
      * intros [|k] Hk; simpl.
        -- destruct (d =? 1) eqn:E1; auto.
        -- apply N. lia.
    + destruct (d =? 1) eqn:E1; [|discriminate].
      destruct (broadcast_strides 0 s t st) as [r'|e|] eqn:Er; simpl in H; try discriminate.
      inversion H; subst r. clear H.
      destruct (IH t st r' ltac:(lia) ltac:(lia) Er) as [HF [Hl Hi]].
      split; [constructor; auto; right; lia|]. split; [simpl; lia|].
      intros [|y i] Hy; simpl in Hy; [tauto|]. destruct Hy as [Hy Hv].
      destruct (Hi i Hv) as [V [D [L N]]]. simpl.
      split; [|split; [|split]].
      * split; auto. lia.
      * rewrite D. lia.
      * simpl; lia.
      * intros [|k] Hk; simpl.
        -- now rewrite E1.
        -- apply N. lia.
Qed.

Lemma broadcast_strides0_total : forall s t st, length st = length s ->
  Forall2 (fun d d' => d = d' \/ d = 1) s t ->
  exists r, broadcast_strides 0 s t st = Ok r.
Proof.
  induction s as [|d s IH]; intros t [|x st] Hst HF; simpl in *; try discriminate;
    inversion HF; subst.
  - eexists; reflexivity.
  - destruct (IH l' st ltac:(lia) ltac:(auto)) as [r Er].
    rewrite Er. simpl. destruct (d =? y) eqn:E; [eexists; reflexivity|].
    destruct (d =? 1) eqn:E1; [eexists; reflexivity|]. lia.
Qed.

Lemma broadcast_strides_pad : forall rd s t1 t2 st, length t1 = rd ->
  broadcast_strides rd (repeat 1 rd ++ s) (t1 ++ t2) st =
  do r <- broadcast_strides 0 s t2 st ; Ok (repeat 0 rd ++ r).
Proof.
  induction rd as [|rd IH]; intros s [|d t1] t2 st H; simpl in H; try discriminate.
  - simpl. destruct (broadcast_strides 0 s t2 st); reflexivity.
  - simpl. rewrite orb_true_r. rewrite IH by lia.
    destruct (broadcast_strides 0 s t2 st); reflexivity.
Qed.

Lemma Forall2_len : forall A B (R : A -> B -> Prop) l l', Forall2 R l l' -> length l = length l'.
Proof. intros A B R l l' H. induction H; simpl; auto. Qed.

Lemma broadcast_Ok : forall l t, wf_layout l ->
  ((exists l', broadcast_to l t = Ok l') <->
   exists added rest, t = added ++ rest /\
     Forall2 (fun d d' => d = d' \/ d = 1) (lshape l) rest).
Proof.
  intros l t Hw. unfold broadcast_to.
  destruct (length t <? length (lshape l)) eqn:El.
  - split; [intros [l' H]; discriminate|]. intros [a [r [-> HF]]].
    apply Forall2_len in HF. rewrite app_length in El. lia.
  - set (rd := length t - length (lshape l)).
    assert (Hf : length (firstn rd t) = rd) by (rewrite firstn_length; lia).
    assert (EB : broadcast_strides rd (repeat 1 rd ++ lshape l) t (lstrides l) =
                 do r <- broadcast_strides 0 (lshape l) (skipn rd t) (lstrides l) ;
                 Ok (repeat 0 rd ++ r)).
    { rewrite <- broadcast_strides_pad with (t1 := firstn rd t) by auto.
      now rewrite firstn_skipn. }
    rewrite EB.
    split.
    + intros [l' H].
      destruct (broadcast_strides 0 (lshape l) (skipn rd t) (lstrides l)) as [r|e|] eqn:Er;
        simpl in H; try discriminate.
      apply broadcast_strides0 in Er; auto.
      * exists (firstn rd t), (skipn rd t). rewrite firstn_skipn. tauto.
      * rewrite skipn_length. lia.
    + intros [a [r [Et HF]]].
      assert (Hr : skipn rd t = r).
      { subst t. pose proof (Forall2_len _ _ _ _ _ HF) as HL.
        replace rd with (length a) by (unfold rd; rewrite app_length; lia).
        rewrite skipn_app, skipn_all, Nat.sub_diag. reflexivity. }
      rewrite Hr. destruct (broadcast_strides0_total _ _ (lstrides l) Hw HF) as [x Ex].
      rewrite Ex. simpl. eexists; reflexivity.
Qed.

Lemma dot_repeat0 : forall n i, dot i (repeat 0 n) = 0.
Proof.
  induction n as [|n IH]; intros [|x i]; simpl; auto. rewrite IH. lia.
Qed.

Lemma broadcast_view : forall l t l', wf_layout l -> broadcast_to l t = Ok l' ->
  views (VBroadcast t) l l'.
Proof.
  intros l t l' Hw H. unfold broadcast_to in H.
  destruct (length t <? length (lshape l)) eqn:El; [discriminate|].
  set (rd := length t - length (lshape l)) in *.
  assert (Hf : length (firstn rd t) = rd) by (rewrite firstn_length; lia).
  assert (EB : broadcast_strides rd (repeat 1 rd ++ lshape l) t (lstrides l) =
               do r <- broadcast_strides 0 (lshape l) (skipn rd t) (lstrides l) ;
               Ok (repeat 0 rd ++ r)).
  { rewrite <- broadcast_strides_pad with (t1 := firstn rd t) by auto.
    now rewrite firstn_skipn. }
  rewrite EB in H.
  destruct (broadcast_strides 0 (lshape l) (skipn rd t) (lstrides l)) as [r|e|] eqn:Er;
    simpl in H; try discriminate.
  inversion H; subst l'. clear H.
  assert (Hsk : length (skipn rd t) = length (lshape l)) by (rewrite skipn_length; lia).
  apply broadcast_strides0 in Er; auto. destruct Er as [HF [Hrl HI]].
  split; [|split]; simpl.
  - unfold wf_layout. simpl. rewrite app_length, repeat_length. lia.
  - split; auto. exists (firstn rd t), (skipn rd t). now rewrite firstn_skipn.
  - intros i Hi. pose proof (valid_length _ _ Hi) as Hil.
    set (i1 := firstn rd i). set (i2 := skipn rd i).
    assert (Hi12 : i = i1 ++ i2) by (unfold i1, i2; now rewrite firstn_skipn).
    assert (Hi1 : length i1 = rd) by (unfold i1; rewrite firstn_length; lia).
    rewrite <- (firstn_skipn rd t), Hi12 in Hi.
    apply valid_app in Hi; [|lia]. destruct Hi as [_ Hv2].
    destruct (HI i2 Hv2) as [V [D [L N]]].
    exists (clip_idx (lshape l) i2). split; [|split]; auto.
    + split; auto. intros k Hk. rewrite N by auto.
      destruct (nth k (lshape l) 0 =? 1); auto.
      rewrite Hi12, nth_error_app2 by lia. f_equal. fold rd. lia.
    + unfold addr. simpl. f_equal. rewrite Hi12.
      rewrite dot_app by (rewrite repeat_length; lia).
      rewrite dot_repeat0. exact D.
Qed.

(** ** slice *)

Lemma slice_bounds_pos : forall n start e step cs m, (0 <= n)%Z -> (0 < step)%Z ->
  slice_bounds n start e step = (cs, m) ->
  cs = py_start n start /\ (0 <= cs <= n)%Z /\ (py_stop n e <= n)%Z /\
  py_count cs (py_stop n e) step m.
Proof.
  intros n start e step cs m Hn Hs H. unfold slice_bounds in H.
  replace (step >? 0)%Z with true in H by lia.
  assert (E1 : zclamp (if (start <? 0)%Z then (n + start)%Z else start) 0 n = py_start n start).
  { unfold zclamp, py_start. destruct (start <? 0)%Z eqn:E; lia. }
  assert (E2 : zclamp (match e with
                       | Some e0 => if (e0 <? 0)%Z then (n + e0)%Z else e0
                       | None => n end) 0 n = py_stop n e).
  { unfold zclamp, py_stop. destruct e as [e|]; [destruct (e <? 0)%Z eqn:E; lia|lia]. }
  rewrite E1, E2 in H. inversion H; subst cs m. clear H.
  split; auto.
  assert (R1 : (0 <= py_start n start <= n)%Z)
    by (unfold py_start; destruct (start <? 0)%Z eqn:E; lia).
  assert (R2 : (py_stop n e <= n)%Z)
    by (unfold py_stop; destruct e as [e|]; [destruct (e <? 0)%Z eqn:E; lia|lia]).
  split; auto. split; auto.
  unfold py_count. replace (step >? 0)%Z with true by lia.
  set (a := py_start n start) in *. set (b := py_stop n e) in *.
  destruct (b >? a)%Z eqn:E.
  - rewrite Z.quot_div_nonneg by lia. split.
    + apply Z.div_pos; lia.
    + intros x Hx. split; intro G.
      * assert (x + 1 <= (b - a + step - 1) / step)%Z by lia.
        pose proof (Z.mul_div_le (b - a + step - 1) step Hs). nia.
      * assert (x + 1 <= (b - a + step - 1) / step)%Z; [|lia].
        apply Z.div_le_lower_bound; nia.
  - split; [lia|]. intros x Hx. split; intro; nia.
Qed.

Lemma dot_upd : forall i st k x y, nth_error st k = Some x -> length i = length st ->
  dot i (upd st k (x * y)) = dot (upd i k (nth k i 0 * y)) st.
Proof.
  induction i as [|a i IH]; intros [|b st] [|k] x y H Hl; simpl in *; try discriminate.
  - inversion H; subst. lia.
  - rewrite (IH st k x y) by (auto; lia). reflexivity.
Qed.

Lemma dot_upd_add : forall i st k x c, nth_error st k = Some x -> length i = length st ->
  dot (upd i k (nth k i 0 + c)) st = dot i st + c * x.
Proof.
  induction i as [|a i IH]; intros [|b st] [|k] x c H Hl; simpl in *; try discriminate.
  - inversion H; subst. lia.
  - rewrite (IH st k x c) by (auto; lia). lia.
Qed.

Lemma upd_upd : forall A (l : list A) k x y, upd (upd l k x) k y = upd l k y.
Proof. induction l as [|h l IH]; intros [|k] x y; simpl; auto. now rewrite IH. Qed.

Lemma slice_view : forall l d start e step l', wf_layout l -> (0 < step)%Z ->
  slice l d start e step = Ok l' -> views (VSlice d start e step) l l'.
Proof.
  intros l d start e step l' Hw Hst H. unfold slice in H.
  set (n := length (lshape l)) in *.
  pose proof (cast_axis n d) as HC.
  destruct (as_usize (if (d <? 0)%Z then (Z.of_nat n + d)%Z else d)) as [k|]; [|discriminate].
  destruct (n <=? k) eqn:Ek; [discriminate|].
  replace (k <? n) with true in HC by lia. destruct HC as [Hok Hk].
  replace (step =? 0)%Z with false in H by lia.
  unfold idx_or_panic in H.
  destruct (nth_error (lshape l) k) as [dsz|] eqn:Ed; [|discriminate]. cbn [bind] in H.
  destruct (slice_bounds (Z.of_nat dsz) start e step) as [cs m] eqn:Eb.
  destruct (m <=? 0)%Z eqn:Em; [discriminate|].
  destruct (nth_error (lstrides l) k) as [sd|] eqn:Es; [|discriminate]. cbn [bind] in H.
  inversion H; subst l'. clear H.
  apply slice_bounds_pos in Eb; [|lia|auto].
  destruct Eb as [Ecs [Hcs [Hstop Hcount]]].
  assert (Hkn : k < n) by lia.
  unfold views. simpl lshape. simpl shape_rel.
  replace (step >? 0)%Z with true by lia. fold n. rewrite <- Hk.
  split; [unfold wf_layout; simpl; rewrite !upd_length; exact Hw|].
  split.
  { split; [exact Hok|]. split; [apply upd_length|]. split.
    - intros k' Hk'. apply nth_error_upd_neq. congruence.
    - exists dsz, (Z.to_nat m). split; auto. split; [apply nth_error_upd_eq; auto|].
      split; [lia|]. rewrite Z2Nat.id by lia. now rewrite <- Ecs. }
  intros i Hi. pose proof (valid_length _ _ Hi) as Hil. rewrite upd_length in Hil. fold n in Hil.
  set (x := nth k i 0).
  assert (Hx : nth_error i k = Some x) by (apply nth_error_nth'; lia).
  assert (Hxm : x < Z.to_nat m).
  { apply valid_nth in Hi. destruct Hi as [_ Hi]. apply (Hi k); auto. now apply nth_error_upd_eq. }
  assert (Hpos : (cs + step * Z.of_nat x < py_stop (Z.of_nat dsz) e)%Z).
  { destruct Hcount as [_ Hc]. specialize (Hc (Z.of_nat x) ltac:(lia)).
    replace (step >? 0)%Z with true in Hc by lia. apply Hc. lia. }
  set (y := x * Z.to_nat (Z.abs step) + Z.to_nat cs).
  assert (Hy : (Z.of_nat y = cs + step * Z.of_nat x)%Z) by (unfold y; nia).
  exists (upd i k y). split; [|split].
  - simpl. fold n. rewrite <- Hk. replace (step >? 0)%Z with true by lia.
    split; [rewrite upd_length; lia|]. split.
    + intros k' Hk'. apply nth_error_upd_neq. congruence.
    + exists dsz, x, y. split; auto. split; auto. split; [apply nth_error_upd_eq; lia|].
      rewrite <- Ecs. exact Hy.
  - apply valid_nth. split; [rewrite upd_length; lia|].
    intros k' a b Ha Hb. rewrite nth_error_upd in Ha.
    destruct (k =? k') eqn:E; simpl in Ha.
    + apply Nat.eqb_eq in E. subst k'. replace (k <? length i) with true in Ha by lia.
      inversion Ha; subst a. rewrite Ed in Hb. inversion Hb; subst b. lia.
    + apply Nat.eqb_neq in E. apply valid_nth in Hi. destruct Hi as [_ Hi].
      apply (Hi k'); auto. now rewrite nth_error_upd_neq.
  - unfold addr. simpl.
    unfold wf_layout in Hw. fold n in Hw.
    rewrite (dot_upd _ _ _ _ (Z.to_nat (Z.abs step)) Es) by lia.
    fold x.
    pose proof (dot_upd_add (upd i k (x * Z.to_nat (Z.abs step))) (lstrides l) k sd (Z.to_nat cs) Es)
      as HA.
    rewrite upd_length in HA. specialize (HA ltac:(lia)).
    rewrite upd_upd in HA.
    rewrite (nth_error_nth (upd i k (x * Z.to_nat (Z.abs step))) k 0
               (nth_error_upd_eq _ i k _ ltac:(lia))) in HA.
    fold y in HA. rewrite HA. lia.
Qed.

(** ** All operations *)

Lemma apply_view_views : forall o l l', wf_layout l -> regular o (lshape l) ->
  apply_view l o = Ok l' -> views o l l'.
Proof.
  intros o l l' Hw Hr H. destruct o; simpl in H, Hr.
  - now apply reshape_view.
  - now apply flatten_view.
  - now apply squeeze_view.
  - now apply unsqueeze_view.
  - now apply broadcast_view.
  - now apply transpose_view.
  - now apply permute_view.
  - now apply slice_view.
Qed.

Lemma views_in_bounds : forall o l l' len, views o l l' -> in_bounds len l -> in_bounds len l'.
Proof.
  intros o l l' len [_ [_ H]] Hb i Hi. destruct (H i Hi) as [j [_ [Hj ->]]]. auto.
Qed.
