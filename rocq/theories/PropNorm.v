(** C98, C83: the normalisation layers, on the real numbers; rounding is not modelled here.
    Tensors are [xden]: no empty axis, and not a contiguous view starting inside its storage (C18). *)
From Coq Require Import List Arith ZArith Lia Bool Reals Lra.
From Verif Require Import Base IndexSpec LayoutModel KernelModel TensorModel TensorSpec EncodeModel KernelProofs ElementwiseProofs BcastProofs.
From Verif Require Import NumModel DenSpec NnModel NnSpec NnProofs LayerModel NormModel NormSpec.
From Verif Require Import NormProofs NormProofs2 NormProofs3 PropNn PropLayer.
Import ListNotations.
Open Scope nat_scope.

(** ** C98 *)
(** LayerNorm: entries with the same leading coordinates are normalised together. *)
Theorem C98_layer_norm : forall e d s ns eps gb x r g b, env_ok e -> is_float d = true -> (0 < eps)%R ->
  length s <= 16 -> ns <> [] -> length ns <= length s -> skipn (length s - length ns) s = ns ->
  xden x d s (fun i => Fin (r i)) -> xaffine gb d ns g b ->
  let m := length s - length ns in
  exists y, layer_norm e ns eps gb x = Ok y /\
    xden y d s (fun i => Fin (standard eps (peers (by_prefix m) s i) r i * g (skipn m i) + b (skipn m i))).
Proof. intros e d s ns eps gb x r g b He. now apply layer_norm_ok. Qed.
Print Assumptions C98_layer_norm.
(** With no axes to normalise it normalises over all of them. *)
Theorem C98_layer_norm_no_axes : forall e d s eps gb x r g b, env_ok e -> is_float d = true -> (0 < eps)%R ->
  length s <= 16 -> xden x d s (fun i => Fin (r i)) -> xaffine gb d [] g b ->
  exists y, layer_norm e [] eps gb x = Ok y /\
    xden y d s (fun i => Fin (standard eps (all_idx s) r i * g [] + b [])).
Proof. intros e d s eps gb x r g b He. now apply layer_norm_all. Qed.
Print Assumptions C98_layer_norm_no_axes.
(** An input whose trailing axes do not have the given shape is an error. *)
Theorem C98_layer_norm_shape : forall e ns eps gb x,
  ~ (length ns <= length (xshape x) /\ skipn (length (xshape x) - length ns) (xshape x) = ns) ->
  layer_norm e ns eps gb x = Err EInternal.
Proof. exact layer_norm_err. Qed.
Print Assumptions C98_layer_norm_shape.

Theorem C98_rms_norm : forall e d s ns eps gamma x r g, env_ok e -> is_float d = true -> (0 < eps)%R ->
  length s <= 16 -> ns <> [] -> length ns <= length s -> skipn (length s - length ns) s = ns ->
  xden x d s (fun i => Fin (r i)) -> xden gamma d ns (fun i => Fin (g i)) ->
  let m := length s - length ns in
  exists y, rms_norm e ns eps gamma x = Ok y /\
    xden y d s (fun i => Fin (r i / sqrt (Ravg (peers (by_prefix m) s i) (fun j => r j * r j) + eps) * g (skipn m i)))%R.
Proof. intros e d s ns eps gamma x r g He. now apply rms_norm_ok. Qed.
Print Assumptions C98_rms_norm.

(** InstanceNorm1D, 2D, 3D ([length l] = 1, 2, 3): each channel of each sample. *)
Theorem C98_instance_norm : forall e d n c l eps gb x r g b, env_ok e -> is_float d = true -> (0 < eps)%R ->
  l <> [] -> length l <= 14 -> xden x d (n :: c :: l) (fun i => Fin (r i)) -> xaffine gb d [c] g b ->
  let s := n :: c :: l in
  exists y, instance_norm e (length l) c eps gb x = Ok y /\
    xden y d s (fun i => Fin (standard eps (peers by_instance s i) r i * g [nth 1 i 0] + b [nth 1 i 0])).
Proof. intros e d n c l eps gb x r g b He. now apply instance_norm_ok. Qed.
Print Assumptions C98_instance_norm.

(** GroupNorm: each group of [cg] channels of each sample. *)
Theorem C98_group_norm : forall e d n G cg l eps gb x r g b, env_ok e -> is_float d = true -> (0 < eps)%R -> G <> 0 ->
  length l <= 13 -> let s := n :: G * cg :: l in
  xden x d s (fun i => Fin (r i)) -> xaffine gb d [G * cg] g b ->
  exists y, group_norm e G (G * cg) eps gb x = Ok y /\
    xden y d s (fun i => Fin (standard eps (peers (by_group cg) s i) r i * g [nth 1 i 0] + b [nth 1 i 0])).
Proof. intros e d n G cg l eps gb x r g b He. now apply group_norm_ok. Qed.
Print Assumptions C98_group_norm.

(** What is normalised together then has mean 0. *)
Theorem C98_centred : forall eps l r, Ravg l (standard eps l r) = 0%R.
Proof. intros eps l r. unfold Ravg. rewrite standard_sum. unfold Rdiv. apply Rmult_0_l. Qed.
Print Assumptions C98_centred.

Lemma sqrt4 : sqrt 4 = 2%R. Proof. replace 4%R with (2 * 2)%R by lra. apply sqrt_square. lra. Qed.
(** closes [expr with sqrt of something equal to 4 = number] *)
Ltac root4 := match goal with |- context [sqrt ?x] => replace x with 4%R by lra end; rewrite sqrt4; lra.
(** rows (1, 3) and (5, 3) have variance 1; with eps = 3 the deviations are halved *)
Example C98_example : exists y, layer_norm e1 [2] 3 (Some (xt [2] [2; 4]%R, xt [2] [1; 1]%R)) (xt [2; 2] [1; 3; 5; 3]%R) = Ok y /\
  xden y F32 [2; 2] (fun i => Fin (nth (ravel [2; 2] i) [0; 3; 2; -1]%R 0%R)).
Proof.
  destruct (C98_layer_norm e1 F32 [2; 2] [2] 3 (Some (xt [2] [2; 4]%R, xt [2] [1; 1]%R)) (xt [2; 2] [1; 3; 5; 3]%R)
    (fun i => nth (ravel [2; 2] i) [1; 3; 5; 3]%R 0%R) (fun i => nth (ravel [2] i) [2; 4]%R 0%R) (fun i => nth (ravel [2] i) [1; 1]%R 0%R)
    e1_ok eq_refl ltac:(lra) ltac:(cbn; lia) ltac:(discriminate) ltac:(cbn; lia) eq_refl) as [y [E D]].
  - apply xt_den; [reflexivity|repeat constructor].
  - split; apply xt_den; try reflexivity; repeat constructor.
  - exists y. split; [exact E|]. eapply xden_ext; [exact D|]. intros i V. apply in_all_idx in V. vm_compute in V.
    repeat (destruct V as [<-|V]; [f_equal; lazy -[IZR Rplus Rmult Rminus Rdiv sqrt]; root4|]); destruct V.
Qed.
(** one sample, 4 channels in 2 groups *)
Example C98_group_example : exists y, group_norm e1 2 4 3 None (xt [1; 4] [1; 3; 7; 5]%R) = Ok y /\
  xden y F32 [1; 4] (fun i => Fin (nth (ravel [1; 4] i) [-1/2; 1/2; 1/2; -1/2]%R 0%R)).
Proof.
  destruct (C98_group_norm e1 F32 1 2 2 [] 3 None (xt [1; 4] [1; 3; 7; 5]%R)
    (fun i => nth (ravel [1; 4] i) [1; 3; 7; 5]%R 0%R) (fun _ => 1%R) (fun _ => 0%R)
    e1_ok eq_refl ltac:(lra) ltac:(lia) ltac:(cbn; lia)) as [y [E D]].
  - apply xt_den; [reflexivity|repeat constructor].
  - intros i. auto.
  - exists y. split; [exact E|]. eapply xden_ext; [exact D|]. intros i V. apply in_all_idx in V. vm_compute in V.
    repeat (destruct V as [<-|V]; [f_equal; lazy -[IZR Rplus Rmult Rminus Rdiv sqrt]; root4|]); destruct V.
Qed.

(** ** C83 *)
(** BatchNorm1D, 2D, 3D ([k] = 1, 2, 3) while training: each channel over the whole batch; the
    running statistics move by [1 - momentum] towards those of the batch (biased variance). *)
Theorem C83_training_partial : forall e d k n c l eps momentum gb st x r rm rv g b, env_ok e -> is_float d = true -> (0 < eps)%R ->
  bn_rank k l -> length l <= 14 -> let s := n :: c :: l in
  xden x d s (fun i => Fin (r i)) -> xaffine gb d [c] g b ->
  xden (r_mean st) d [c] (fun j => Fin (rm j)) -> xden (r_var st) d [c] (fun j => Fin (rv j)) ->
  exists st' y, batch_norm e k c momentum eps true gb st x = (st', Ok y) /\
    xden y d s (fun i => Fin (standard eps (peers by_channel s i) r i * g [nth 1 i 0] + b [nth 1 i 0])) /\
    xden (r_mean st') d [c] (fun j => Fin (momentum * rm j + (1 - momentum) * Ravg (peers by_channel s (0 :: j)) r)) /\
    xden (r_var st') d [c] (fun j => Fin (momentum * rv j + (1 - momentum) * Rvar (peers by_channel s (0 :: j)) r)).
Proof. intros e d k n c l eps momentum gb st x r rm rv g b He. now apply bn_train_ok. Qed.
Print Assumptions C83_training_partial.
(** In evaluation the running statistics are used, and stay. *)
Theorem C83_evaluation_partial : forall e d k n c l eps momentum gb st x r rm rv g b, env_ok e -> is_float d = true ->
  bn_rank k l -> let s := n :: c :: l in
  xden x d s (fun i => Fin (r i)) -> xaffine gb d [c] g b ->
  xden (r_mean st) d [c] (fun j => Fin (rm j)) -> xden (r_var st) d [c] (fun j => Fin (rv j)) ->
  (forall q, q < c -> (0 < rv [q] + eps)%R) ->
  exists y, batch_norm e k c momentum eps false gb st x = (st, Ok y) /\
    xden y d s (fun i => Fin ((r i - rm [nth 1 i 0]) / sqrt (rv [nth 1 i 0] + eps) * g [nth 1 i 0] + b [nth 1 i 0])).
Proof. intros e d k n c l eps momentum gb st x r rm rv g b He. now apply bn_eval_ok. Qed.
Print Assumptions C83_evaluation_partial.
(** BatchNorm1D in evaluation accepts rank 4, which it rejects in training, and takes axis 2
    for the channels. *)
Theorem C83_rank4_refuted : forall e d a m c w eps momentum gb st x r rm rv g b, env_ok e -> is_float d = true ->
  let s := [a; m; c; w] in
  xden x d s (fun i => Fin (r i)) -> xaffine gb d [c] g b ->
  xden (r_mean st) d [c] (fun j => Fin (rm j)) -> xden (r_var st) d [c] (fun j => Fin (rv j)) ->
  (forall q, q < c -> (0 < rv [q] + eps)%R) ->
  batch_norm e 1 c momentum eps true gb st x = (st, Err EInternal) /\
  exists y, batch_norm e 1 c momentum eps false gb st x = (st, Ok y) /\
    xden y d s (fun i => Fin ((r i - rm [nth 2 i 0]) / sqrt (rv [nth 2 i 0] + eps) * g [nth 2 i 0] + b [nth 2 i 0])).
Proof. intros e d a m c w eps momentum gb st x r rm rv g b He. now apply bn1d_rank4. Qed.
Print Assumptions C83_rank4_refuted.

(** channels (1, 3) and (5, 3) over a batch of two; momentum 1/2 from mean 0 and variance 1 *)
Example C83_example : exists st y,
  batch_norm e1 1 2 (1/2) 3 true None (mkRunning (xt [2] [0; 0]%R) (xt [2] [1; 1]%R)) (xt [2; 2] [1; 5; 3; 3]%R) = (st, Ok y) /\
  xden y F32 [2; 2] (fun i => Fin (nth (ravel [2; 2] i) [-1/2; 1/2; 1/2; -1/2]%R 0%R)) /\
  xden (r_mean st) F32 [2] (fun i => Fin (nth (ravel [2] i) [1; 2]%R 0%R)) /\
  xden (r_var st) F32 [2] (fun i => Fin (nth (ravel [2] i) [1; 1]%R 0%R)).
Proof.
  destruct (C83_training_partial e1 F32 1 2 2 [] 3 (1/2) None (mkRunning (xt [2] [0; 0]%R) (xt [2] [1; 1]%R)) (xt [2; 2] [1; 5; 3; 3]%R)
    (fun i => nth (ravel [2; 2] i) [1; 5; 3; 3]%R 0%R) (fun i => nth (ravel [2] i) [0; 0]%R 0%R) (fun i => nth (ravel [2] i) [1; 1]%R 0%R)
    (fun _ => 1%R) (fun _ => 0%R)
    e1_ok eq_refl ltac:(lra) ltac:(split; [lia|right; auto]) ltac:(cbn; lia)) as [st [y [E [D [Dm Dv]]]]].
  - apply xt_den; [reflexivity|repeat constructor].
  - intros i. auto.
  - apply xt_den; [reflexivity|repeat constructor].
  - apply xt_den; [reflexivity|repeat constructor].
  - exists st, y. split; [exact E|]. split; [|split].
    + eapply xden_ext; [exact D|]. intros i V. apply in_all_idx in V. vm_compute in V.
      repeat (destruct V as [<-|V]; [f_equal; lazy -[IZR Rplus Rmult Rminus Rdiv sqrt]; root4|]); destruct V.
    + eapply xden_ext; [exact Dm|]. intros i V. apply in_all_idx in V. vm_compute in V.
      repeat (destruct V as [<-|V]; [f_equal; lazy -[IZR Rplus Rmult Rminus Rdiv sqrt]; lra|]); destruct V.
    + eapply xden_ext; [exact Dv|]. intros i V. apply in_all_idx in V. vm_compute in V.
      repeat (destruct V as [<-|V]; [f_equal; lazy -[IZR Rplus Rmult Rminus Rdiv sqrt]; lra|]); destruct V.
Qed.
