From Coq Require Import List Arith ZArith Bool Lia.
From Verif Require Import Base IndexSpec LayoutModel ViewSpec LayoutProofs KernelModel KernelProofs TensorModel
  TensorSpec TensorProofs ScanModel SortModel SortProofs DataProofs PermFacts EinsumModel EinsumProofs2 CountModel
  CountProofs CountProofs2 CountProofs3.
Import ListNotations.

(** ** onehot *)
Lemma insert_at_split : forall B (p q : list B) x, insert_at (p ++ q) (length p) x = p ++ x :: q.
Proof.
  intros. unfold insert_at. now rewrite firstn_app, firstn_all, Nat.sub_diag, firstn_O, app_nil_r,
    skipn_app, skipn_all, Nat.sub_diag, skipn_O.
Qed.
Lemma remove_at_split : forall B (p q : list B) x, remove_at (p ++ x :: q) (length p) = p ++ q.
Proof.
  intros. unfold remove_at. rewrite firstn_app, firstn_all, Nat.sub_diag, firstn_O, app_nil_r.
  f_equal. rewrite skipn_app, skipn_all2 by lia. now replace (S (length p) - length p) with 1 by lia.
Qed.
Lemma at_split : forall B (l : list B) a, a <= length l -> exists p q, l = p ++ q /\ length p = a.
Proof.
  intros B l a H. exists (firstn a l), (skipn a l). split; [now rewrite firstn_skipn|].
  rewrite firstn_length. lia.
Qed.

Section O.
  Context {A : Type}.
  Variables zero one : A.

  Lemma valid_insert : forall s i a d c, a <= length s -> valid s i -> c < d -> valid (insert_at s a d) (insert_at i a c).
  Proof.
    intros s i a d c AL V C. destruct (at_split _ s a AL) as (p & q & -> & LP).
    pose proof (valid_length _ _ V) as L. rewrite app_length in L.
    destruct (at_split _ i a) as (ip & iq & -> & LI); [lia|].
    rewrite <- LP at 1. rewrite <- LI. rewrite !insert_at_split.
    apply valid_app in V; [|congruence]. apply valid_app; [congruence|]. cbn [valid]. intuition.
  Qed.
  Lemma insert_inj : forall a (i j : list nat) c e, a <= length i -> length i = length j ->
    insert_at i a c = insert_at j a e -> i = j /\ c = e.
  Proof.
    intros a i j c e AL LJ H. destruct (at_split _ i a AL) as (p & q & -> & LP).
    destruct (at_split _ j a) as (u & w & -> & LU); [lia|].
    rewrite <- LP in H at 1. rewrite <- LU, !insert_at_split in H.
    rewrite !app_length in LJ.
    assert (p = u /\ c :: q = e :: w) as [-> E].
    { clear - H LP LU. subst a. revert u H LU. induction p as [|x p IH]; intros [|y u] H L; simpl in *; try lia; auto.
      injection H as -> H. destruct (IH u H) as [-> E]; [lia|]. auto. }
    injection E as -> ->. auto.
  Qed.

  Lemma t_onehot_spec : forall s ixs classes a, length ixs = nelem s -> axis_ok (S (length s)) a ->
    length s <= 31 -> (forall x, In x ixs -> - 2 ^ 31 <= x < 2 ^ 31)%Z ->
    let t := mkT ixs (from_shape s) in let ax := axis_of (S (length s)) a in
    exists r, t_onehot zero one t classes a = Ok r /\ good r /\ tshape r = insert_at s ax classes /\
      forall i x c, valid s i -> elem t i = Some x -> c < classes ->
        elem r (insert_at i ax c) =
        Some (if ((if x <? 0 then x + Z.of_nat classes else x) =? Z.of_nat c)%Z then one else zero).
  Proof.
    intros s ixs classes a LX AX R RG t ax. unfold t_onehot. change (lshape (tlay t)) with s. change (tstore t) with ixs.
    assert (ax <= length s) as AL by (unfold ax, axis_of, axis_ok in *; destruct (a <? 0)%Z eqn:?; lia).
    assert (Z.to_nat (if (a <? 0)%Z then
       (if (Z.of_nat (S (length s)) + a <? 0)%Z then (Z.of_nat (S (length s)) + a + 2 ^ 64)%Z else (Z.of_nat (S (length s)) + a)%Z)
       else a) = ax) as EA.
    { unfold ax, axis_of, axis_ok in *. destruct (a <? 0)%Z eqn:C; auto.
      replace (Z.of_nat (S (length s)) + a <? 0)%Z with false by (symmetry; apply Z.ltb_ge; lia). f_equal. lia. }
    rewrite EA. clear EA.
    assert (map as_i32 ixs = ixs) as ->.
    { rewrite <- (map_id ixs) at 2. apply map_ext_in. intros x I. apply RG in I. unfold as_i32.
      rewrite Z.mod_small by lia. lia. }
    unfold onehot_metadata. assert (onehot_dims s classes ax = insert_at s ax classes) as OD by (unfold onehot_dims; now replace (ax <=? length s) with true by (symmetry; now apply Nat.leb_le)). rewrite !OD.
    set (o := insert_at s ax classes).
    assert (length o = S (length s)) as LO.
    { unfold o, insert_at. rewrite app_length. cbn [length]. rewrite firstn_length, skipn_length. lia. }
    assert (remove_at o ax = s) as RO.
    { destruct (at_split _ s ax AL) as (p & q & ES & LP). unfold o. rewrite ES, <- LP, insert_at_split, remove_at_split. auto. }
    unfold onehot_kernel.
    change ([nelem o; nelem s; classes; ax; length o] ++ o) with (nelem o :: nelem s :: classes :: ax :: length o :: o).
    change (read_n 5 (nelem o :: nelem s :: classes :: ax :: length o :: o)) with (Some ([nelem o; nelem s; classes; ax; length o], o)).
    cbn [obind nth].
    assert (read_n (length o) o = Some (o, @nil nat)) as RN by (pose proof (read_n_app (length o) o [] eq_refl) as RN; now rewrite app_nil_r in RN).
    rewrite RN. cbn [obind].
    rewrite (seq_for_total _ (fun _ => zero)) by (auto; apply repeat_length). cbn [obind].
    rewrite LO. replace ((S (length s) =? 0) || negb (S (length s) <=? 32)) with false
      by (symmetry; apply orb_false_iff; split; [reflexivity|]; replace (S (length s) <=? 32) with true by (symmetry; apply Nat.leb_le; lia); reflexivity).
    replace (ax <? S (length s)) with true by (symmetry; apply Nat.ltb_lt; lia).
    rewrite RO. replace (S (length s) - 1) with (length s) by lia. rewrite firstn_all.
    set (w := fun x => (if x <? 0 then x + Z.of_nat classes else x)%Z).
    assert (forall i, valid s i -> exists x, nth_error ixs (ravel s i) = Some x) as EX.
    { intros i V. destruct (nth_error ixs (ravel s i)) eqn:E; eauto. apply nth_error_None in E. pose proof (ravel_lt _ _ V). lia. }
    match goal with |- context [loopO ?f (seq 0 (nelem s)) ?out] =>
      assert (forall k, k <= nelem s -> exists out', loopO f (seq 0 k) out = Some out' /\ length out' = nelem o /\
        forall i x c, valid s i -> nth_error ixs (ravel s i) = Some x -> c < classes ->
          nth_error out' (ravel o (insert_at i ax c)) =
          Some (if (ravel s i <? k) && (w x =? Z.of_nat c)%Z then one else zero)) as LOOP end.
    { induction k as [|k IH]; intro K.
      - eexists. split; [reflexivity|]. split; [now rewrite map_length, seq_length|].
        intros i x c V X C. cbn [Nat.ltb Nat.leb andb]. pose proof (ravel_lt _ _ (valid_insert s i ax classes c AL V C)) as RL.
        fold o in RL. rewrite nth_error_map, (nth_error_nth' _ 0) by (now rewrite seq_length). reflexivity.
      - destruct IH as (out & E & L & H); [lia|]. rewrite seq_S, loopO_app, E. cbn [obind loopO plus].
        destruct (nth_error ixs k) as [x|] eqn:X; [|apply nth_error_None in X; lia]. cbn [obind]. fold (w x).
        destruct ((w x <? 0) || (Z.of_nat classes <=? w x))%Z eqn:OUT.
        + eexists. split; [reflexivity|]. split; auto. intros i y c V Y C. rewrite (H i y c) by auto.
          destruct (Nat.eq_dec (ravel s i) k) as [EK|NK].
          * rewrite EK in Y. assert (y = x) as -> by congruence.
            replace (w x =? Z.of_nat c)%Z with false; [now rewrite !andb_false_r|].
            symmetry. apply Z.eqb_neq. apply orb_true_iff in OUT as [OUT|OUT]; [apply Z.ltb_lt in OUT|apply Z.leb_le in OUT]; lia.
          * replace (ravel s i <? S k) with (ravel s i <? k); auto.
            destruct (ravel s i <? k) eqn:C1; symmetry; [apply Nat.ltb_lt in C1; apply Nat.ltb_lt|apply Nat.ltb_ge in C1; apply Nat.ltb_ge]; lia.
        + rewrite c_coords_spec by lia. cbn [obind].
          apply orb_false_iff in OUT as [O1 O2]. apply Z.ltb_ge in O1. apply Z.leb_gt in O2.
          set (cw := Z.to_nat (w x)). assert (cw < classes) as CW by (unfold cw; lia).
          pose proof (unravel_valid s k ltac:(lia)) as VK.
          pose proof (valid_insert s _ ax classes cw AL VK CW) as VI. fold o in VI.
          rewrite dot_compute_strides by (now apply valid_length).
          rewrite c_store_some by (rewrite L; now apply ravel_lt). cbn [obind]. eexists. split; [reflexivity|].
          split; [now rewrite upd_length|]. intros i y c V Y C.
          pose proof (valid_insert s i ax classes c AL V C) as VJ. fold o in VJ.
          destruct (Nat.eq_dec (ravel o (insert_at (unravel s k) ax cw)) (ravel o (insert_at i ax c))) as [EQ|NQ].
          * rewrite <- EQ, nth_error_upd_eq by (rewrite L; now apply ravel_lt).
            apply ravel_inj in EQ; auto. apply insert_inj in EQ; [|rewrite unravel_length; auto|rewrite unravel_length; symmetry; now apply valid_length].
            destruct EQ as [<- <-]. rewrite ravel_unravel in * by lia. assert (y = x) as -> by congruence.
            replace (k <? S k) with true by (symmetry; apply Nat.ltb_lt; lia).
            replace (w x =? Z.of_nat cw)%Z with true by (symmetry; apply Z.eqb_eq; unfold cw; lia). reflexivity.
          * rewrite nth_error_upd_neq by auto. rewrite (H i y c) by auto.
            destruct (Nat.eq_dec (ravel s i) k) as [EK|NK].
            -- assert (y = x) as -> by congruence.
               replace (w x =? Z.of_nat c)%Z with false; [now rewrite !andb_false_r|].
               symmetry. apply Z.eqb_neq. intro F. apply NQ. rewrite <- EK, unravel_ravel by auto.
               unfold cw. rewrite F, Nat2Z.id. reflexivity.
            -- replace (ravel s i <? S k) with (ravel s i <? k); auto.
               destruct (ravel s i <? k) eqn:C1; symmetry; [apply Nat.ltb_lt in C1; apply Nat.ltb_lt|apply Nat.ltb_ge in C1; apply Nat.ltb_ge]; lia. }
    destruct (LOOP (nelem s) (le_n _)) as (out & E & L & H). rewrite E. cbn [ub bind].
    eexists. split; [reflexivity|]. split; [now apply from_shape_good|]. split; [reflexivity|].
    intros i x c V X C. unfold elem in X. cbn [t tlay tstore] in X. rewrite addr_from_shape in X by (now apply valid_length).
    unfold elem. cbn [tlay tstore]. rewrite addr_from_shape by (apply valid_length; now apply valid_insert).
    rewrite (H i x c) by auto. replace (ravel s i <? nelem s) with true by (symmetry; apply Nat.ltb_lt; now apply ravel_lt).
    reflexivity.
  Qed.
End O.
