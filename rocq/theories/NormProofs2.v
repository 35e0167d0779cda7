(** The normalisation layers: proofs, continued. *)
From Coq Require Import List Arith ZArith Lia Bool Permutation Reals Lra.
From Verif Require Import Base IndexSpec LayoutModel ViewSpec LayoutProofs LayoutProofs2 BcastProofs.
From Verif Require Import KernelModel TensorModel TensorSpec KernelProofs TensorProofs ElementwiseProofs.
From Verif Require Import EncodeModel ReduceModel ReduceSpec ReduceProofs ReduceProofs2 SelectModel.
From Verif Require Import NumModel DenSpec DenProofs NnModel NnSpec NnProofs LayerModel LayerProofs2 NormModel NormSpec NormProofs.
Import ListNotations.
Open Scope nat_scope.

Lemma Ravg_map : forall f l r, Ravg (map f l) r = Ravg l (fun i => r (f i)).
Proof. intros f l r. unfold Ravg. now rewrite map_map, map_length. Qed.
Lemma standard_map : forall eps f l r i, standard eps (map f l) r (f i) = standard eps l (fun i => r (f i)) i.
Proof. intros eps f l r i. unfold standard, Rvar. now rewrite !Ravg_map. Qed.
Lemma standard_pos : forall eps l r, (0 < eps)%R -> (0 < Rvar l r + eps)%R.
Proof. intros eps l r H. pose proof (Rvar_nonneg l r). lra. Qed.

(** entries normalised together have sum 0 *)
Lemma Rsum_sub : forall A (l : list A) f c, Rsum (map (fun x => f x - c)%R l) = (Rsum (map f l) - INR (length l) * c)%R.
Proof.
  induction l as [|x l IH]; intros f c; cbn [map Rsum length]; [cbn; lra|]. rewrite IH, S_INR. lra.
Qed.
Lemma standard_sum : forall eps l r, Rsum (map (standard eps l r) l) = 0%R.
Proof.
  intros eps l r. unfold standard.
  rewrite (Rsum_ext _ l _ (fun i => (r i - Ravg l r) * / sqrt (Rvar l r + eps))%R) by reflexivity.
  rewrite Rsum_scale, Rsum_sub. unfold Ravg. destruct l as [|x l]; [cbn; lra|].
  assert (INR (length (x :: l)) <> 0)%R by (apply not_0_INR; discriminate).
  replace (Rsum (map r (x :: l)) - _)%R with 0%R; [lra|]. now field.
Qed.

Section Real.
Variable e : env.
Hypothesis He : env_ok e.

Lemma trailing_ok : forall s ns, length ns <= length s -> skipn (length s - length ns) s = ns ->
  trailing_axes s ns = Ok (map Z.of_nat (seq (length s - length ns) (length ns))).
Proof.
  intros s ns L E. unfold trailing_axes. destruct (Nat.ltb_spec (length s) (length ns)); [lia|].
  destruct list_eq_dec; auto. contradiction.
Qed.

Lemma layer_norm_ok : forall d s ns eps gb x r g b, is_float d = true -> (0 < eps)%R ->
  length s <= 16 -> ns <> [] -> length ns <= length s -> skipn (length s - length ns) s = ns ->
  xden x d s (fun i => Fin (r i)) -> xaffine gb d ns g b ->
  let m := length s - length ns in
  exists y, layer_norm e ns eps gb x = Ok y /\
    xden y d s (fun i => Fin (standard eps (peers (by_prefix m) s i) r i * g (skipn m i) + b (skipn m i))).
Proof.
  intros d s ns eps gb x r g b F He0 HR N L E X P m. unfold layer_norm.
  rewrite (xden_shape _ _ _ _ X), trailing_ok by auto. cbn [bind]. fold m. fold m in E.
  assert (Ls : length s = m + length ns) by lia.
  destruct (moments_ok e He false x (map Z.of_nat (seq m (length ns))) (seq m (length ns)) (by_prefix m) d s r F X) as [me [c [v [M [V [Em [_ [Dc [Dv HV]]]]]]]]]; auto.
  { apply axes_tail; [destruct ns; cbn; congruence|lia]. }
  { apply seq_NoDup. }
  { now apply key_prefix. }
  rewrite Em. cbn [bind]. replace (xdtype x) with d by (now destruct X).
  destruct (divide_ok e He d eps c v s _ _ V F Dc Dv) as [y [Ey Dy]].
  { intros i Vi. rewrite (proj2 (HV i Vi)). now apply standard_pos. }
  rewrite Ey. cbn [bind]. rewrite <- E in P.
  destruct (scale_shift_ok e He y gb d s m _ g b F Dy P) as [z [Ez Dz]].
  exists z. split; auto. eapply xden_ext; [exact Dz|]. intros i Vi. cbn beta.
  rewrite (proj2 (HV i Vi)). reflexivity.
Qed.

(** no axes given: all of them *)
Lemma layer_norm_all : forall d s eps gb x r g b, is_float d = true -> (0 < eps)%R ->
  length s <= 16 -> xden x d s (fun i => Fin (r i)) -> xaffine gb d [] g b ->
  exists y, layer_norm e [] eps gb x = Ok y /\
    xden y d s (fun i => Fin (standard eps (all_idx s) r i * g [] + b [])).
Proof.
  intros d s eps gb x r g b F He0 HR X P. unfold layer_norm.
  rewrite (xden_shape _ _ _ _ X), trailing_ok by (cbn; try lia; apply skipn_all2; lia). cbn [length bind seq map].
  destruct (moments_ok e He false x [] (seq 0 (length s)) (by_prefix 0) d s r F X) as [me [c [v [M [V [Em [_ [Dc [Dv HV]]]]]]]]]; auto.
  { reflexivity. }
  { apply seq_NoDup. }
  { now apply key_prefix. }
  rewrite Em. cbn [bind]. replace (xdtype x) with d by (now destruct X).
  destruct (divide_ok e He d eps c v s _ _ V F Dc Dv) as [y [Ey Dy]].
  { intros i Vi. rewrite (proj2 (HV i Vi)). now apply standard_pos. }
  rewrite Ey. cbn [bind]. replace (@nil nat) with (skipn (length s) s) in P by (apply skipn_all2; lia).
  destruct (scale_shift_ok e He y gb d s (length s) _ g b F Dy P) as [z [Ez Dz]].
  exists z. split; auto. eapply xden_ext; [exact Dz|]. intros i Vi. cbn beta.
  rewrite (proj2 (HV i Vi)). assert (Pe : peers (by_prefix 0) s i = all_idx s) by (apply filter_all; auto).
  rewrite Pe. rewrite skipn_all2 by (apply valid_length in Vi; lia). reflexivity.
Qed.

Lemma layer_norm_err : forall ns eps gb x,
  ~ (length ns <= length (xshape x) /\ skipn (length (xshape x) - length ns) (xshape x) = ns) ->
  layer_norm e ns eps gb x = Err EInternal.
Proof.
  intros ns eps gb x H. unfold layer_norm, trailing_axes.
  destruct (Nat.ltb_spec (length (xshape x)) (length ns)); auto. destruct list_eq_dec; auto.
  exfalso. apply H. split; auto; lia.
Qed.

Lemma rms_norm_ok : forall d s ns eps gamma x r g, is_float d = true -> (0 < eps)%R ->
  length s <= 16 -> ns <> [] -> length ns <= length s -> skipn (length s - length ns) s = ns ->
  xden x d s (fun i => Fin (r i)) -> xden gamma d ns (fun i => Fin (g i)) ->
  let m := length s - length ns in
  exists y, rms_norm e ns eps gamma x = Ok y /\
    xden y d s (fun i => Fin (r i / sqrt (Ravg (peers (by_prefix m) s i) (fun j => r j * r j) + eps) * g (skipn m i)))%R.
Proof.
  intros d s ns eps gamma x r g F He0 HR N L E X P m. unfold rms_norm.
  rewrite (xden_shape _ _ _ _ X), trailing_ok by auto. cbn [bind]. fold m. fold m in E.
  assert (Ls : length s = m + length ns) by lia.
  destruct (xden_unary e He NoBool xsq x d s _ (float_allowed _ _ F) X) as [q [Eq Dq]].
  unfold x_square. rewrite Eq. cbn [bind].
  destruct (mean_ok q (map Z.of_nat (seq m (length ns))) (seq m (length ns)) (by_prefix m) d s (fun j => r j * r j)%R F Dq) as [v [V [Ev [Dv HV]]]]; auto.
  { apply axes_tail; [destruct ns; cbn; congruence|lia]. }
  { apply seq_NoDup. }
  { now apply key_prefix. }
  rewrite Ev. cbn [bind]. replace (xdtype x) with d by (now destruct X).
  destruct (divide_ok e He d eps x v s _ _ V F X Dv) as [y [Ey Dy]].
  { intros i Vi. rewrite (HV i Vi). pose proof (Ravg_nonneg (peers (by_prefix m) s i) (fun j => r j * r j)%R) as Q.
    cbn beta in Q. specialize (Q ltac:(intros; apply Rle_0_sqr)). lra. }
  unfold divide in Ey. destruct (x_add_scalar e v (d, Fin eps)) as [a| |]; try discriminate. cbn [bind] in *.
  destruct (x_sqrt e a) as [b| |]; try discriminate. cbn [bind] in *. rewrite Ey. cbn [bind].
  rewrite <- E in P.
  destruct (xden_binary e He NoBool xmul y gamma d s _ _ _ (float_allowed _ _ F) Dy P (bcast_skipn s m)) as [z [Ez Dz]].
  exists z. split; auto. eapply xden_ext; [exact Dz|]. intros i Vi. cbn beta.
  rewrite (HV i Vi), bidx_skipn by auto. reflexivity.
Qed.

Lemma instance_norm_ok : forall d n c l eps gb x r g b, is_float d = true -> (0 < eps)%R ->
  l <> [] -> length l <= 14 -> xden x d (n :: c :: l) (fun i => Fin (r i)) -> xaffine gb d [c] g b ->
  let s := n :: c :: l in
  exists y, instance_norm e (length l) c eps gb x = Ok y /\
    xden y d s (fun i => Fin (standard eps (peers by_instance s i) r i * g [nth 1 i 0] + b [nth 1 i 0])).
Proof.
  intros d n c l eps gb x r g b F He0 N HR X P s. unfold instance_norm.
  rewrite (xden_shape _ _ _ _ X). cbn [length]. replace (S (S (length l))) with (length l + 2) by lia.
  rewrite Nat.eqb_refl. cbn [negb].
  destruct (moments_ok e He true x (map Z.of_nat (seq 2 (length l))) (seq 2 (length l)) by_instance d s r F X) as [me [cc [v [M [V [Em [_ [Dc [Dv HV]]]]]]]]].
  { apply axes_tail; [destruct l; cbn; congruence|unfold s; cbn; lia]. }
  { apply seq_NoDup. }
  { unfold s; cbn; lia. }
  { apply key_instance. }
  rewrite Em. cbn [bind]. replace (xdtype x) with d by (now destruct X).
  destruct (divide_ok e He d eps cc v s _ _ V F Dc Dv) as [y [Ey Dy]].
  { intros i Vi. rewrite (proj2 (HV i Vi)). now apply standard_pos. }
  rewrite Ey. cbn [bind].
  destruct (scale_shift_channels_ok e He y gb d n c l _ g b F Dy P) as [z [Ez Dz]].
  exists z. split; [rewrite <- Ez; cbn [length]; f_equal; lia|]. eapply xden_ext; [exact Dz|]. intros i Vi. cbn beta.
  rewrite (proj2 (HV i Vi)). reflexivity.
Qed.

(* ---------- groups ---------- *)

Section Group.
Variables (n G cg : nat) (l : list nat).
Let s := n :: G * cg :: l.
Let s' := n :: G :: cg :: l.

Lemma group_nelem : nelem s' = nelem s.
Proof. unfold s, s'. rewrite !nelem_cons. ring. Qed.
Definition split_group (i : list nat) : list nat :=
  match i with i0 :: i1 :: r => i0 :: (i1 / cg) :: (i1 mod cg) :: r | _ => [] end.
Definition join_group (i : list nat) : list nat := unravel s (ravel s' i).

Lemma split_valid : forall i, valid s i -> valid s' (split_group i) /\ ravel s' (split_group i) = ravel s i.
Proof.
  intros [|i0 [|i1 i]] V; cbn [valid s] in V; try (unfold s in V; cbn in V; tauto).
  unfold s in V. cbn [valid] in V. destruct V as [V0 [V1 V2]].
  assert (C : cg <> 0) by (intro; subst; lia).
  assert (i1 / cg < G) by (apply Nat.div_lt_upper_bound; lia).
  pose proof (Nat.mod_upper_bound i1 cg C). pose proof (Nat.div_mod i1 cg C) as DM.
  split; [unfold s'; cbn [split_group valid]; tauto|]. unfold s, s'. cbn [split_group ravel].
  rewrite !nelem_cons. rewrite DM at 3. ring.
Qed.
Lemma split_spec : forall i, valid s i -> unravel s' (ravel s i) = split_group i.
Proof. intros i V. destruct (split_valid i V) as [V' <-]. now apply unravel_ravel. Qed.
Lemma join_split : forall i, valid s i -> join_group (split_group i) = i.
Proof. intros i V. unfold join_group. destruct (split_valid i V) as [_ ->]. now apply unravel_ravel. Qed.
Lemma join_all : map join_group (all_idx s') = all_idx s.
Proof.
  rewrite !all_idx_map_unravel, map_map, group_nelem. apply map_ext_in. intros k Hk. apply in_seq in Hk.
  unfold join_group. now rewrite ravel_unravel by (rewrite group_nelem; lia).
Qed.
Lemma join_valid : forall i, valid s' i -> valid s (join_group i) /\ split_group (join_group i) = i.
Proof.
  intros i V. assert (V' : valid s (join_group i)).
  { apply in_all_idx. rewrite <- join_all. apply in_map. now apply in_all_idx. }
  split; auto. rewrite <- split_spec by auto. unfold join_group.
  rewrite ravel_unravel by (rewrite <- group_nelem; now apply ravel_lt). now apply unravel_ravel.
Qed.
Lemma group_key : forall i, valid s i -> by_instance (split_group i) = by_group cg i.
Proof. intros [|i0 [|i1 i]] V; unfold s in V; cbn in V; first [tauto|reflexivity]. Qed.
Lemma group_peers : forall i, valid s i ->
  map join_group (peers by_instance s' (split_group i)) = peers (by_group cg) s i.
Proof.
  intros i V. unfold peers. rewrite <- join_all, <- group_key by auto.
  assert (H : forall L, Forall (valid s') L ->
    map join_group (filter (fun j => if list_eq_dec Nat.eq_dec (by_instance j) (by_instance (split_group i)) then true else false) L)
    = filter (fun j => if list_eq_dec Nat.eq_dec (by_group cg j) (by_instance (split_group i)) then true else false) (map join_group L)).
  { induction 1 as [|j L Vj FL IH]; [reflexivity|]. cbn [filter map].
    destruct (join_valid j Vj) as [Vs Es]. rewrite <- (group_key (join_group j) Vs), Es.
    destruct list_eq_dec; cbn [map]; now rewrite IH. }
  apply H. apply Forall_forall. intros j. now apply in_all_idx.
Qed.
End Group.

Lemma group_norm_ok : forall d n G cg l eps gb x r g b, is_float d = true -> (0 < eps)%R -> G <> 0 ->
  length l <= 13 -> let s := n :: G * cg :: l in
  xden x d s (fun i => Fin (r i)) -> xaffine gb d [G * cg] g b ->
  exists y, group_norm e G (G * cg) eps gb x = Ok y /\
    xden y d s (fun i => Fin (standard eps (peers (by_group cg) s i) r i * g [nth 1 i 0] + b [nth 1 i 0])).
Proof.
  intros d n G cg l eps gb x r g b F He0 HG HR s X P. unfold group_norm.
  rewrite (xden_shape _ _ _ _ X). unfold s at 1. cbv iota beta. rewrite Nat.eqb_refl. cbn [negb].
  destruct (Nat.eqb_spec G 0); [contradiction|].
  replace (G * cg / G) with cg by (rewrite Nat.mul_comm, Nat.div_mul by auto; reflexivity).
  set (s' := n :: G :: cg :: l).
  destruct X as [Dx X]. unfold x_view at 1. rewrite Dx.
  destruct (den_reshape _ (Fin 0) (xdata x) s s' _ X (group_nelem n G cg l)) as [t [Et Dt]]. rewrite Et. cbn [bind].
  assert (D1 : xden (mkX d t) d s' (fun i => Fin (r (join_group n G cg l i)))) by (split; [reflexivity|exact Dt]).
  destruct (moments_ok e He true (mkX d t) (map Z.of_nat (seq 2 (length s' - 2))) (seq 2 (length s' - 2)) by_instance d s' (fun i => r (join_group n G cg l i)) F D1) as [me [cc [v [M [V [Em [_ [Dc [Dv HV]]]]]]]]].
  { apply axes_tail; unfold s'; cbn; lia. }
  { apply seq_NoDup. }
  { unfold s'; cbn; lia. }
  { unfold s'. cbn [length]. replace (S (S (S (length l))) - 2) with (length (cg :: l)) by (cbn; lia). apply key_instance. }
  rewrite Em. cbn [bind].
  destruct (divide_ok e He d eps cc v s' _ _ V F Dc Dv) as [y [Ey Dy]].
  { intros i Vi. rewrite (proj2 (HV i Vi)). now apply standard_pos. }
  rewrite Ey. cbn [bind]. destruct Dy as [Dy' Dy]. unfold x_view. rewrite Dy'.
  destruct (den_reshape _ (Fin 0) (xdata y) s' s _ Dy) as [z [Ez Dz]].
  { symmetry. apply group_nelem. }
  rewrite Ez. cbn [bind].
  assert (D2 : xden (mkX d z) d s (fun i => Fin (standard eps (peers (by_group cg) s i) r i))).
  { split; [reflexivity|]. eapply den_ext; [exact Dz|]. intros i Vi. cbn beta.
    unfold s at 1, s' at 1. rewrite split_spec by exact Vi. destruct (split_valid n G cg l i Vi) as [Vs _].
    change (unravel s' (ravel s i)) with (unravel (n :: G :: cg :: l) (ravel (n :: G * cg :: l) i)) in *.
    rewrite split_spec by exact Vi.
    rewrite (proj2 (HV _ Vs)). f_equal.
    transitivity (standard eps (peers by_instance s' (split_group cg i)) (fun i => r (join_group n G cg l i)) (split_group cg i)); [reflexivity|].
    rewrite <- standard_map. unfold s. rewrite <- (group_peers n G cg l i Vi).
    now rewrite (join_split n G cg l i Vi). }
  exact (scale_shift_channels_ok e He (mkX d z) gb d n (G * cg) l _ g b F D2 P).
Qed.
End Real.
