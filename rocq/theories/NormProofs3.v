(** Batch normalisation: proofs. *)
From Coq Require Import List Arith ZArith Lia Bool Permutation Reals Lra.
From Verif Require Import Base IndexSpec LayoutModel ViewSpec LayoutProofs LayoutProofs2 BcastProofs.
From Verif Require Import KernelModel TensorModel TensorSpec KernelProofs TensorProofs ElementwiseProofs.
From Verif Require Import EncodeModel ReduceModel ReduceSpec ReduceProofs ReduceProofs2 SelectModel.
From Verif Require Import NumModel DenSpec DenProofs NnModel NnSpec NnProofs LayerModel LayerProofs2 NormModel NormSpec.
From Verif Require Import NormProofs NormProofs2.
Import ListNotations.
Open Scope nat_scope.

Section Real.
Variable e : env.
Hypothesis He : env_ok e.

Lemma zeros_ones : forall k, valid (repeat 1 k) (repeat 0 k) /\ ravel (repeat 1 k) (repeat 0 k) = 0.
Proof.
  induction k as [|k [V R]]; [split; [exact I|reflexivity]|]. cbn [repeat valid ravel]. split; [split; [lia|auto]|].
  rewrite R. reflexivity.
Qed.

Lemma bn_update_ok : forall d c n momentum old new o M, is_float d = true ->
  xden old d [c] (fun j => Fin (o j)) -> xden new d (channel_shape c n) (fun j => Fin (M j)) ->
  exists t, bn_update e c momentum old new = Ok t /\
    xden t d [c] (fun j => Fin (momentum * o j + (1 - momentum) * M (0 :: nth 0 j 0 :: repeat 0 (n - 2)))).
Proof.
  intros d c n momentum old new o M F O [Dn N]. unfold bn_update, x_view. rewrite Dn.
  replace (xdtype old) with d by (now destruct O).
  destruct (den_reshape _ (Fin 0) (xdata new) (channel_shape c n) [c] _ N) as [t [Et Dt]].
  { unfold channel_shape. rewrite !nelem_cons, nelem_ones. change (nelem []) with 1. lia. }
  rewrite Et. cbn [bind].
  assert (D1 : xden (mkX d t) d [c] (fun j => Fin (M (0 :: nth 0 j 0 :: repeat 0 (n - 2))))).
  { split; [reflexivity|]. eapply den_ext; [exact Dt|]. intros j V. cbn beta. do 2 f_equal.
    destruct j as [|q [|? ?]]; cbn in V; try tauto. cbn [nth].
    assert (V' : valid (channel_shape c n) (0 :: q :: repeat 0 (n - 2)) /\
                 ravel (channel_shape c n) (0 :: q :: repeat 0 (n - 2)) = ravel [c] [q]).
    { destruct (zeros_ones (n - 2)) as [Z1 Z2]. unfold channel_shape. cbn [valid ravel].
      rewrite Z2, nelem_ones. change (nelem []) with 1. split; [repeat split; auto; lia|lia]. }
    destruct V' as [V' <-]. now apply unravel_ravel. }
  destruct (xden_scalar e He NoBool xmul old d [c] _ (Fin momentum) (float_allowed _ _ F) O) as [a [Ea Da]].
  unfold x_mul_scalar. rewrite Ea. cbn [bind].
  destruct (xden_scalar e He NoBool xmul (mkX d t) d [c] _ (Fin (1 - momentum)) (float_allowed _ _ F) D1) as [b [Eb Db]].
  rewrite Eb. cbn [bind].
  destruct (xden_binary_same e He NoBool xadd a b d [c] _ _ (float_allowed _ _ F) Da Db) as [z [Ez Dz]].
  exists z. split; auto. eapply xden_ext; [exact Dz|]. intros j V. cbn. f_equal. ring.
Qed.

Lemma bn_normalize_ok : forall d n c l eps gb x mean var r M V g b, is_float d = true ->
  let s := n :: c :: l in let ds := 0 :: seq 2 (length l) in
  xden x d s (fun i => Fin (r i)) ->
  xden mean d (rshape true ds s) (fun j => Fin (M j)) -> xden var d (rshape true ds s) (fun j => Fin (V j)) ->
  (forall i, valid s i -> 0 < V (rproj true ds i) + eps)%R -> xaffine gb d [c] g b ->
  exists y, bn_normalize e c (length s) eps gb x mean var = Ok y /\
    xden y d s (fun i => Fin ((r i - M (rproj true ds i)) / sqrt (V (rproj true ds i) + eps) * g [nth 1 i 0] + b [nth 1 i 0])).
Proof.
  intros d n c l eps gb x mean var r M V g b F s ds X Dm Dv HV P. unfold bn_normalize.
  destruct (spread_ok e He NoBool xsub x mean d s ds _ _ (float_allowed _ _ F) X Dm) as [cc [Ec Dc]].
  unfold x_sub. rewrite Ec. cbn [bind]. replace (xdtype x) with d by (now destruct X).
  destruct (divide_ok e He d eps cc var s ds (fun i => r i - M (rproj true ds i))%R V F) as [y [Ey Dy]]; auto.
  rewrite Ey. cbn [bind]. exact (scale_shift_channels_ok e He y gb d n c l _ g b F Dy P).
Qed.

Lemma bn_rank_n : forall k n c (l : list nat), bn_rank k l ->
  (if (k =? 1) && (length (n :: c :: l) =? 2) then 2 else k + 2) = length (n :: c :: l).
Proof.
  intros k n c l [K [H|[-> ->]]]; [|reflexivity]. cbn [length]. rewrite H. destruct l as [|y l]; cbn in H; [lia|].
  destruct (Nat.eqb_spec (S (S k)) 2); [lia|]. rewrite andb_false_r. lia.
Qed.
Lemma rproj_channel : forall n c l i, valid (n :: c :: l) i ->
  rproj true (0 :: seq 2 (length l)) i = 0 :: nth 1 i 0 :: repeat 0 (length l).
Proof.
  intros n c l i V. destruct i as [|i0 [|i1 i]]; cbn [valid] in V; try tauto. destruct V as [_ [_ V]]. apply valid_length in V.
  unfold rproj. now rewrite set_axes_channel.
Qed.

Lemma bn_train_ok : forall d k n c l eps momentum gb st x r rm rv g b, is_float d = true -> (0 < eps)%R ->
  bn_rank k l -> length l <= 14 -> let s := n :: c :: l in
  xden x d s (fun i => Fin (r i)) -> xaffine gb d [c] g b ->
  xden (r_mean st) d [c] (fun j => Fin (rm j)) -> xden (r_var st) d [c] (fun j => Fin (rv j)) ->
  exists st' y, batch_norm e k c momentum eps true gb st x = (st', Ok y) /\
    xden y d s (fun i => Fin (standard eps (peers by_channel s i) r i * g [nth 1 i 0] + b [nth 1 i 0])) /\
    xden (r_mean st') d [c] (fun j => Fin (momentum * rm j + (1 - momentum) * Ravg (peers by_channel s (0 :: j)) r)) /\
    xden (r_var st') d [c] (fun j => Fin (momentum * rv j + (1 - momentum) * Rvar (peers by_channel s (0 :: j)) r)).
Proof.
  intros d k n c l eps momentum gb st x r rm rv g b F He0 K HR s X P Rm Rv. unfold batch_norm.
  rewrite (xden_shape _ _ _ _ X). cbv zeta.
  pose proof (bn_rank_n k n c l K) as EN. change (n :: c :: l) with s in EN. rewrite !EN, Nat.eqb_refl. cbn [negb].
  replace (length s - 2) with (length l) by (unfold s; cbn; lia).
  destruct (moments_ok e He false x (map Z.of_nat (0 :: seq 2 (length l))) (0 :: seq 2 (length l)) by_channel d s r F X) as [me [cc [v [M [V [Em [Dm [Dc [Dv HV]]]]]]]]].
  { apply axes_channel. unfold s; cbn; lia. }
  { apply NoDup_channel. }
  { unfold s; cbn; lia. }
  { apply key_channel. }
  rewrite Em. cbn [bind].
  pose proof Dm as Dm2. pose proof Dv as Dv2. unfold s in Dm2, Dv2. rewrite <- channel_rshape in Dm2, Dv2.
  destruct (bn_update_ok d c _ momentum (r_mean st) me rm M F Rm Dm2) as [nm [Enm Dnm]]. rewrite Enm. cbn [bind].
  destruct (bn_update_ok d c _ momentum (r_var st) v rv V F Rv Dv2) as [nv [Env Dnv]]. rewrite Env. cbn [bind].
  destruct (bn_normalize_ok d n c l eps gb x me v r M V g b F X Dm Dv) as [y [Ey Dy]]; auto.
  { intros i Vi. rewrite (proj2 (HV i Vi)). now apply standard_pos. }
  assert (HR2 : forall j, valid [c] j -> exists i, valid s i /\ by_channel i = by_channel (0 :: j) /\
     rproj true (0 :: seq 2 (length l)) i = 0 :: nth 0 j 0 :: repeat 0 (length (n :: c :: l) - 2)).
  { intros [|q [|? ?]] Vj; cbn in Vj; try tauto. pose proof (xden_pos _ _ _ _ X) as Ps. unfold s in Ps.
    inversion Ps; subst. inversion H2; subst. exists (0 :: q :: repeat 0 (length l)).
    assert (Vi : valid s (0 :: q :: repeat 0 (length l))).
    { unfold s. cbn [valid]. split; [auto|]. split; [tauto|]. now apply zeros_valid. }
    split; auto. split; [reflexivity|]. unfold s in Vi. rewrite (rproj_channel n c l _ Vi). cbn [nth length].
    now replace (S (S (length l)) - 2) with (length l) by lia. }
  exists (mkRunning nm nv), y. split; [unfold s; now rewrite Ey|]. split; [|split].
  - eapply xden_ext; [exact Dy|]. intros i Vi. cbn beta. destruct (HV i Vi) as [-> ->]. reflexivity.
  - eapply xden_ext; [exact Dnm|]. intros j Vj. cbn beta. destruct (HR2 j Vj) as [i [Vi [Ki Ri]]].
    rewrite <- Ri, (proj1 (HV i Vi)), (peers_eq _ _ _ _ Ki). reflexivity.
  - eapply xden_ext; [exact Dnv|]. intros j Vj. cbn beta. destruct (HR2 j Vj) as [i [Vi [Ki Ri]]].
    rewrite <- Ri, (proj2 (HV i Vi)), (peers_eq _ _ _ _ Ki). reflexivity.
Qed.

Lemma bn_eval_ok : forall d k n c l eps momentum gb st x r rm rv g b, is_float d = true ->
  bn_rank k l -> let s := n :: c :: l in
  xden x d s (fun i => Fin (r i)) -> xaffine gb d [c] g b ->
  xden (r_mean st) d [c] (fun j => Fin (rm j)) -> xden (r_var st) d [c] (fun j => Fin (rv j)) ->
  (forall q, q < c -> (0 < rv [q] + eps)%R) ->
  exists y, batch_norm e k c momentum eps false gb st x = (st, Ok y) /\
    xden y d s (fun i => Fin ((r i - rm [nth 1 i 0]) / sqrt (rv [nth 1 i 0] + eps) * g [nth 1 i 0] + b [nth 1 i 0])).
Proof.
  intros d k n c l eps momentum gb st x r rm rv g b F K s X P Rm Rv HV. unfold batch_norm.
  rewrite (xden_shape _ _ _ _ X). cbv zeta.
  pose proof (bn_rank_n k n c l K) as EN. change (n :: c :: l) with s in EN. rewrite !EN, Nat.eqb_refl. cbn [negb].
  rewrite andb_false_r.
  destruct (channel_ok c (length s) (r_mean st) d _ Rm) as [me [Em Dm]]. rewrite Em. cbn [bind].
  destruct (channel_ok c (length s) (r_var st) d _ Rv) as [v [Ev Dv]]. rewrite Ev. cbn [bind].
  unfold s in Dm, Dv. rewrite channel_rshape in Dm, Dv.
  destruct (bn_normalize_ok d n c l eps gb x me v r (fun j => rm [nth 1 j 0]) (fun j => rv [nth 1 j 0]) g b F X Dm Dv) as [y [Ey Dy]]; auto.
  { intros i Vi. rewrite (rproj_channel n c l i Vi). cbn [nth]. apply HV.
    destruct i as [|i0 [|i1 i]]; cbn [valid] in Vi; tauto. }
  exists y. split; [unfold s; now rewrite Ey|]. eapply xden_ext; [exact Dy|]. intros i Vi. cbn beta.
  rewrite (rproj_channel n c l i Vi). reflexivity.
Qed.

(** BatchNorm1D in evaluation mode does not look at the rank: axis 2 of rank 4 *)
Lemma bcast_middle : forall a m c w, bcast [a; m; c; w] [1; c; 1] [a; m; c; w].
Proof.
  intros a m c w. split; [cbn; lia|]. intros k. destruct k as [|[|[|[|k]]]]; cbn.
  - right; right; auto.
  - left; auto.
  - right; right; auto.
  - right; right; auto.
  - left. destruct k; auto.
Qed.
Lemma bidx_middle : forall a m c w i, valid [a; m; c; w] i -> bidx [1; c; 1] i = [0; nth 2 i 0; 0].
Proof.
  intros a m c w i V. destruct i as [|i0 [|i1 [|i2 [|i3 [|? ?]]]]]; cbn in V; try tauto.
  cbn. destruct (Nat.eqb_spec c 1); auto. do 2 f_equal. lia.
Qed.
Lemma bn1d_rank4 : forall d a m c w eps momentum gb st x r rm rv g b, is_float d = true ->
  let s := [a; m; c; w] in
  xden x d s (fun i => Fin (r i)) -> xaffine gb d [c] g b ->
  xden (r_mean st) d [c] (fun j => Fin (rm j)) -> xden (r_var st) d [c] (fun j => Fin (rv j)) ->
  (forall q, q < c -> (0 < rv [q] + eps)%R) ->
  batch_norm e 1 c momentum eps true gb st x = (st, Err EInternal) /\
  exists y, batch_norm e 1 c momentum eps false gb st x = (st, Ok y) /\
    xden y d s (fun i => Fin ((r i - rm [nth 2 i 0]) / sqrt (rv [nth 2 i 0] + eps) * g [nth 2 i 0] + b [nth 2 i 0])).
Proof.
  intros d a m c w eps momentum gb st x r rm rv g b F s X P Rm Rv HV. unfold batch_norm.
  rewrite (xden_shape _ _ _ _ X). cbv zeta. unfold s. cbn [length Nat.eqb andb negb plus Nat.ltb Nat.leb].
  split; [reflexivity|].
  destruct (channel_ok c 3 (r_mean st) d _ Rm) as [me [Em Dm]]. rewrite Em. cbn [bind].
  destruct (channel_ok c 3 (r_var st) d _ Rv) as [v [Ev Dv]]. rewrite Ev. cbn [bind].
  change (channel_shape c 3) with [1; c; 1] in Dm, Dv. pose proof (bcast_middle a m c w) as HB.
  assert (BI : forall f : list nat -> R, forall i, valid s i -> f (bidx [1; c; 1] i) = f [0; nth 2 i 0; 0]).
  { intros f i V. now rewrite (bidx_middle a m c w i V). }
  unfold bn_normalize.
  destruct (xden_binary e He NoBool xsub x me d s [1; c; 1] _ _ (float_allowed _ _ F) X Dm HB) as [cc [Ec Dc]].
  unfold x_sub. rewrite Ec. cbn [bind]. replace (xdtype x) with d by (now destruct X). unfold divide.
  destruct (xden_scalar e He NoBool xadd v d [1; c; 1] _ (Fin eps) (float_allowed _ _ F) Dv) as [q [Eq Dq]].
  unfold x_add_scalar. rewrite Eq. cbn [bind].
  destruct (xden_unary e He Floats xsqrt q d [1; c; 1] _ (float_allowed _ _ F) Dq) as [p [Ep Dp]].
  unfold x_sqrt. rewrite Ep. cbn [bind].
  destruct (xden_binary e He Floats xdiv cc p d s [1; c; 1] _ _ (float_allowed _ _ F) Dc Dp HB) as [y [Ey Dy]].
  unfold x_div. rewrite Ey. cbn [bind].
  assert (Dy' : xden y d s (fun i => Fin ((r i - rm [nth 2 i 0]) / sqrt (rv [nth 2 i 0] + eps)))).
  { eapply xden_ext; [exact Dy|]. intros i V. cbn beta. rewrite (bidx_middle a m c w i V). cbn [nth].
    assert (Hq : nth 2 i 0 < c) by (destruct i as [|i0 [|i1 [|i2 [|i3 [|? ?]]]]]; cbn in V; tauto).
    specialize (HV _ Hq). cbn [xadd xsqrt xsub xneg]. unfold Rltb. destruct Rlt_dec; [lra|].
    apply xdiv_fin. apply Rgt_not_eq. now apply sqrt_lt_R0. }
  destruct gb as [[ga be]|]; cbn [scale_shift_channels xaffine] in *.
  - destruct P as [G B]. change (channel_shape c 3) with [1; c; 1] in *.
    destruct (channel_ok c 3 ga d _ G) as [g' [Eg Dg]]. destruct (channel_ok c 3 be d _ B) as [b' [Eb Db]].
    change (channel_shape c 3) with [1; c; 1] in *. rewrite Eg. cbn [bind]. rewrite Eb. cbn [bind].
    destruct (xden_binary e He NoBool xmul y g' d s [1; c; 1] _ _ (float_allowed _ _ F) Dy' Dg HB) as [u [Eu Du]].
    unfold x_mul. rewrite Eu. cbn [bind].
    destruct (xden_binary e He NoBool xadd u b' d s [1; c; 1] _ _ (float_allowed _ _ F) Du Db HB) as [z [Ez Dz]].
    exists z. unfold x_add. rewrite Ez. split; auto. eapply xden_ext; [exact Dz|]. intros i V. cbn beta.
    rewrite (bidx_middle a m c w i V). reflexivity.
  - exists y. split; auto. eapply xden_ext; [exact Dy'|]. intros i V. cbn beta.
    destruct (P [nth 2 i 0]) as [-> ->]. f_equal. lra.
Qed.
End Real.
