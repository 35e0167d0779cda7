(** C68, C77, C99: dropout and attention, on the real numbers; rounding is not modelled here.
    [sd] is the dtype of an f64 scalar: F64 with the feature of that name, else F32.  Tensors are
    [xden]: no empty axis, and not a contiguous view starting inside its storage (C18).
    [u k] is the k-th random number drawn from [0, 1). *)
From Coq Require Import List Arith ZArith Lia Bool Reals Lra.
From Verif Require Import Base IndexSpec LayoutModel ViewSpec KernelModel TensorModel TensorSpec EncodeModel.
From Verif Require Import LayoutProofs LayoutProofs2 BcastProofs KernelProofs TensorProofs ElementwiseProofs NumModel DenSpec DenProofs NnModel NnSpec NnProofs.
From Verif Require Import MatrixModel MatrixProofs MatrixProofs2 MatrixProofs3 LayerModel LayerSpec LayerProofs LayerProofs2 PropNn PropLayer.
From Verif Require Import AttnModel AttnSpec AttnProofs AttnProofs2 AttnProofs3 AttnProofs4.
Import ListNotations.
Open Scope nat_scope.

(** ** C68 *)
(** Training: entry i is multiplied by 1/(1-p) if its random number exceeds p, else by 0. *)
Theorem C68_training_partial : forall e sd p u x s f, env_ok e -> allowed NoBool sd = true -> p <> 1%R ->
  xden x F32 s (fun i => Fin (f i)) ->
  exists r, dropout e sd true (sd, Fin p) u x = Ok r /\
    xden r F32 s (fun i => Fin (f i * if Rltb p (u (ravel s i)) then 1 / (1 - p) else 0)%R).
Proof. intros e sd p u x s f He. now apply dropout_ok. Qed.
Print Assumptions C68_training_partial.
Theorem C68_evaluation : forall e sd p u x, dropout e sd false p u x = Ok x.
Proof. reflexivity. Qed.
Print Assumptions C68_evaluation.
(** p = 1 should give zeros *)
Theorem C68_one_refuted : forall e sd u x s f, env_ok e -> allowed NoBool sd = true -> (forall k, u k < 1)%R -> xden x F32 s f ->
  exists r, dropout e sd true (sd, Fin 1%R) u x = Ok r /\ xden r F32 s (fun _ => Nan).
Proof. intros e sd u x s f He. now apply dropout_one. Qed.
Print Assumptions C68_one_refuted.
(** p = 0 should keep everything, and 0 is a possible draw *)
Theorem C68_zero_refuted : forall e sd u x s f i, env_ok e -> allowed NoBool sd = true -> xden x F32 s (fun i => Fin (f i)) ->
  valid s i -> u (ravel s i) = 0%R ->
  exists r, dropout e sd true (sd, Fin 0%R) u x = Ok r /\ elem (xdata r) i = Some (Fin 0%R).
Proof.
  intros e sd u x s f i He Hs X V U. destruct (dropout_ok e He sd 0%R u x s f Hs ltac:(lra) X) as [r [E D]].
  exists r. split; [exact E|]. destruct D as (_ & _ & _ & _ & _ & D). rewrite D by exact V. unfold kept, Rltb. rewrite U.
  destruct (Rlt_dec 0 0) as [L|L]; [exfalso; lra|]. do 2 f_equal. ring.
Qed.
Print Assumptions C68_zero_refuted.
(** Only F32 is accepted in training. *)
Theorem C68_dtype_refuted : forall e sd p u x d s f, env_ok e -> d <> F32 -> xden x d s f ->
  exists k, dropout e sd true p u x = Err k.
Proof. intros e sd p u x d s f He N X. apply (dropout_dtype e He sd p u x d s f); auto. destruct X as [-> _]. exact N. Qed.
Print Assumptions C68_dtype_refuted.
(** p = 1/2, draws 3/4 and 1/4: the first entry is doubled, the second dropped *)
Example C68_example : exists r,
  dropout e1 F32 true (F32, Fin (1/2)%R) (fun k => nth k [3/4; 1/4]%R 0%R) (xt [2] [5; 7]%R) = Ok r /\
  elem (xdata r) [0] = Some (Fin 10%R) /\ elem (xdata r) [1] = Some (Fin 0%R).
Proof.
  destruct (C68_training_partial e1 F32 (1/2)%R (fun k => nth k [3/4; 1/4]%R 0%R) (xt [2] [5; 7]%R) [2]
    (fun i => nth (ravel [2] i) [5; 7]%R 0%R) e1_ok eq_refl ltac:(lra)) as [r [E D]].
  { apply xt_den; [reflexivity|repeat constructor]. }
  exists r. split; [exact E|]. destruct D as (_ & _ & _ & _ & _ & D).
  rewrite (D [0]) by (cbn; lia). rewrite (D [1]) by (cbn; lia). lazy -[IZR Rmult Rdiv Rltb Rminus elem]. unfold Rltb.
  destruct (Rlt_dec (1 / 2) (3 / 4)) as [L|L]; [|exfalso; lra]. destruct (Rlt_dec (1 / 2) (1 / 4)) as [L'|L']; [exfalso; lra|].
  split; do 2 f_equal; lra.
Qed.

(** ** C99 *)
(** Attention without a mask over any leading axes [s] (at most 1 if the product goes to BLAS,
    else 14), for tensors of dtype [sd]: softmax(Q Kt / sqrt k) V, each weight multiplied by its
    dropout factor.  [fit]: BLAS must be able to read a matrix operand. *)
Theorem C99_attention_partial : forall e blas sd p training u query key value s m n k c Q K V,
  env_ok e -> mat_env_ok e -> is_float sd = true ->
  xstack query sd s m k Q -> xstack key sd s n k K -> xstack value sd s n c V ->
  (s = [] -> fit blas query /\ fit blas value) -> length s <= (if by_blas blas sd then 1 else 14) ->
  (Rltb 0 p && training = true -> p <> 1%R) ->
  exists r, attention e blas sd None p training false u query key value = Ok r /\
    xstack r sd s m c (fun b i j => attend k n (Q b i) (K b) (V b)
      (fun q => if Rltb 0 p && training then kept p (u (ravel (s ++ [m; n]) (b ++ [i; q]))) else 1%R) j).
Proof.
  intros e blas sd p training u query key value s m n k c Q K V He Hm F Xq Xk Xv HF HB Hp.
  destruct (attention_ok e He Hm blas sd p training u query key value s m n k c Q K V F Xq Xk Xv HF HB Hp) as [r [E [_ X]]]. eauto.
Qed.
Print Assumptions C99_attention_partial.
(** The weights of a query are positive and sum to 1, so without dropout the result lies between
    the smallest and the largest value. *)
Theorem C99_weights : forall w n, 0 < n -> (forall j, j < n -> (0 < soft w n j)%R) /\ Rsum (map (soft w n) (seq 0 n)) = 1%R.
Proof. intros w n H. split; [intros j Hj; now apply soft_pos|now apply soft_sum]. Qed.
Print Assumptions C99_weights.
Theorem C99_between : forall k n x K V c lo hi, 0 < n -> (forall j, j < n -> (lo <= V j c <= hi)%R) ->
  (lo <= attend k n x K V (fun _ => 1%R) c <= hi)%R.
Proof. exact attend_bounds. Qed.
Print Assumptions C99_between.
(** A mask or causal attention: every entry of the result is NaN, whatever the mask. *)
Theorem C99_mask_refuted : forall e blas sd mask p training (causal : bool) u query key value s m n k c Q K V,
  env_ok e -> mat_env_ok e -> sd = EncodeModel.F32 \/ sd = EncodeModel.F64 ->
  causal = true \/ mask <> None -> xmask sd mask (s ++ [m; n]) ->
  xstack query sd s m k Q -> xstack key sd s n k K -> xstack value sd s n c V ->
  (s = [] -> fit blas query /\ fit blas value) -> length s <= (if by_blas blas sd then 1 else 14) ->
  exists r, attention e blas sd mask p training causal u query key value = Ok r /\ xden r sd (s ++ [m; c]) (fun _ => Nan).
Proof. intros e blas sd mask p training causal u query key value s m n k c Q K V He Hm. now apply (attention_masked e He Hm). Qed.
Print Assumptions C99_mask_refuted.
(** Tensors of another dtype are refused: half precision always, and F32 with the feature f64. *)
Theorem C99_dtype_refuted : forall e blas sd mask p training causal u query key value d s m n k Q K,
  mat_env_ok e -> d <> sd -> allowed NoBool d = true ->
  xstack query d s m k Q -> xstack key d s n k K -> (s = [] -> fit blas query) ->
  length s <= (if by_blas blas d then 1 else 16) ->
  attention e blas sd mask p training causal u query key value = Err EDType.
Proof.
  intros e blas sd mask p training causal u query key value d s m n k Q K Hm.
  exact (attention_dtype e Hm blas sd mask p training causal u query key value d s m n k Q K).
Qed.
Print Assumptions C99_dtype_refuted.

(** One query and one key for each of two by two batch indices: all weights are 1. *)
Lemma ones_attention : forall query key kt value w0 w1 w2 w3, last (xshape query) 1 = 1 ->
  x_view (VTranspose (-2) (-1)) key = Ok kt -> x_matmul e1 true query kt = Ok (xt [2; 2; 1; 1] [w0; w1; w2; w3]) ->
  attention e1 true F32 None 0%R false false (fun _ => 0%R) query key value =
  x_matmul e1 true (xt [2; 2; 1; 1] [1; 1; 1; 1]%R) value.
Proof.
  intros query key kt value w0 w1 w2 w3 L E0 E1. unfold attention. rewrite E0. cbn [bind]. rewrite E1. cbn [bind]. rewrite L.
  assert (P : all_pos [2; 2; 1; 1]) by repeat constructor.
  assert (E2 : xdiv (Fin 1%R) (xsqrt (nat_x 1)) = Fin 1%R).
  { unfold nat_x, xsqrt, Rltb. cbn [INR]. destruct (Rlt_dec 1 0) as [Q|Q]; [exfalso; lra|]. rewrite sqrt_1. unfold xdiv.
    destruct (Req_EM_T 1 0); [exfalso; lra|]. f_equal. lra. }
  rewrite E2.
  destruct (xden_scalar e1 e1_ok NoBool xmul (xt [2; 2; 1; 1] [w0; w1; w2; w3]) F32 [2; 2; 1; 1] _ (Fin 1%R) eq_refl
    (xt_den [2; 2; 1; 1] [w0; w1; w2; w3] eq_refl P)) as [a1 [Ea X1]].
  unfold x_mul_scalar. rewrite Ea. cbn [bind]. clear Ea.
  assert (X2 : xstack a1 F32 [2; 2] 1 1 (fun p i j => nth (ravel [2; 2; 1; 1] (p ++ [i; j])) [w0; w1; w2; w3] 0%R)).
  { eapply xden_ext; [exact X1|]. intros i V. cbn beta. destruct i as [|i0 [|i1 [|i2 [|i3 [|? ?]]]]]; cbn in V; try tauto.
    cbn [length firstn nth app xmul]. f_equal. apply Rmult_1_r. }
  destruct (soft_stack e1 e1_ok a1 F32 [2; 2] 1 1 _ eq_refl X2 ltac:(cbn; lia)) as [a4 [E4 [_ X4]]].
  pose proof (soft_solid e1 a1 F32 [2; 2] 1 1 _ a4 e1_ok eq_refl X2 ltac:(cbn; lia) E4) as S4.
  rewrite E4. cbn [bind]. unfold Rltb. destruct (Rlt_dec 0 0) as [Q|Q]; [exfalso; lra|]. cbn [andb bind].
  rewrite (solid_store a4 F32 ([2; 2] ++ [1; 1]) (fun _ => Fin 1%R)); [reflexivity|exact S4|].
  eapply xden_ext; [exact X4|]. intros i V. cbn beta. f_equal.
  destruct i as [|i0 [|i1 [|i2 [|i3 [|? ?]]]]]; cbn in V; try tauto. cbn [length nth]. replace i3 with 0 by lia.
  pose proof (soft_sum (fun j => nth (ravel [2; 2; 1; 1] (firstn 2 [i0; i1; i2; 0] ++ [i2; j])) [w0; w1; w2; w3] 0%R) 1 ltac:(lia)) as S1.
  cbn [seq map Rsum] in S1. rewrite Rplus_0_r in S1. exact S1.
Qed.
(** F32 with BLAS and two batch axes, one query and one key each: the result should be the value. *)
Theorem C99_batch_axes_refuted : forall a b c d, exists r,
  attention e1 true F32 None 0%R false false (fun _ => 0%R) (xt [2; 2; 1; 1] [0; 0; 0; 0]%R) (xt [2; 2; 1; 1] [0; 0; 0; 0]%R)
    (xt [2; 2; 1; 1] [a; b; c; d]) = Ok r /\
  xden r F32 [2; 2; 1; 1] (fun i => Fin (nth (ravel [2; 2; 1; 1] i) [a; c; b; d] 0%R)).
Proof.
  intros a b c d. set (z := (0 + 0 * 0)%R).
  rewrite (ones_attention _ _ (mkX F32 (mkT (map Fin [0; 0; 0; 0]%R) (mkLayout [2; 2; 1; 1] [2; 1; 1; 1] 0))) _ z z z z);
    [|reflexivity|lazy -[IZR]; reflexivity|unfold z; lazy -[IZR Rplus Rmult]; reflexivity].
  set (q := [(0 + 1 * a)%R; (0 + 1 * c)%R; (0 + 1 * b)%R; (0 + 1 * d)%R]).
  exists (xt [2; 2; 1; 1] q). split; [lazy -[IZR Rplus Rmult]; reflexivity|].
  replace [a; c; b; d] with q by (unfold q; repeat f_equal; ring).
  apply xt_den; [reflexivity|repeat constructor].
Qed.
Print Assumptions C99_batch_axes_refuted.

(** a query (0), keys (1) and (2), values 0 and 6, dropout off: (6 e^0 + 0 e^0)/2 = 3 *)
Example C99_example : exists r,
  attention e1 true F32 None 0%R true false (fun _ => 0%R) (xt [1; 1] [0]%R) (xt [2; 1] [1; 2]%R) (xt [2; 1] [0; 6]%R) = Ok r /\
  elem (xdata r) [0; 0] = Some (Fin 3%R).
Proof.
  destruct (C99_attention_partial e1 true F32 0%R true (fun _ => 0%R) (xt [1; 1] [0]%R) (xt [2; 1] [1; 2]%R) (xt [2; 1] [0; 6]%R)
    [] 1 2 1 1 (fun _ i j => nth (ravel [1; 1] [i; j]) [0]%R 0%R) (fun _ i j => nth (ravel [2; 1] [i; j]) [1; 2]%R 0%R)
    (fun _ i j => nth (ravel [2; 1] [i; j]) [0; 6]%R 0%R) e1_ok e1_mat eq_refl) as [r [E X]].
  - eapply xden_ext; [apply xt_den; [reflexivity|repeat constructor]|].
    intros i V. apply in_all_idx in V. vm_compute in V. repeat (destruct V as [<-|V]; [reflexivity|]); destruct V.
  - eapply xden_ext; [apply xt_den; [reflexivity|repeat constructor]|].
    intros i V. apply in_all_idx in V. vm_compute in V. repeat (destruct V as [<-|V]; [reflexivity|]); destruct V.
  - eapply xden_ext; [apply xt_den; [reflexivity|repeat constructor]|].
    intros i V. apply in_all_idx in V. vm_compute in V. repeat (destruct V as [<-|V]; [reflexivity|]); destruct V.
  - intros _. split; intros _; cbn; unfold blas_ok; cbn; auto.
  - cbn. lia.
  - intros H. apply andb_prop in H. destruct H as [H _]. unfold Rltb in H. destruct (Rlt_dec 0 0) in H; [exfalso; lra|discriminate].
  - exists r. split; [exact E|]. destruct X as (_ & _ & _ & _ & _ & X). rewrite X by (cbn; lia). do 2 f_equal.
    unfold Rltb. destruct (Rlt_dec 0 0); [exfalso; lra|]. cbn [andb].
    unfold attend, soft, score. lazy -[exp IZR Rplus Rdiv INR Rmult sqrt]. cbn [INR]. rewrite sqrt_1.
    replace ((0 * 1 + 0) / 1)%R with 0%R by lra. replace ((0 * 2 + 0) / 1)%R with 0%R by lra. rewrite exp_0. lra.
Qed.

(** ** C77 *)
(** Multi-head attention without a mask, when the matrix products do not go to BLAS. *)
Theorem C77_multihead_partial : forall e blas sd w r heads hd kd vd p training u query key value b t n X K V,
  env_ok e -> mat_env_ok e -> is_float sd = true -> by_blas blas sd = false -> 0 < heads -> 0 < hd ->
  xmha sd w (heads * hd) kd vd r ->
  xcube query sd b t (heads * hd) X -> xcube key sd b n kd K -> xcube value sd b n vd V ->
  (Rltb 0 p && training = true -> p <> 1%R) ->
  exists o, forward_qkv e blas sd w heads hd p training u None false query key value = Ok o /\
    xcube o sd b t (heads * hd) (fun i => mha_at r (heads * hd) kd vd hd n (X i) (K i) (V i)
      (fun h y q => if Rltb 0 p && training then kept p (u (ravel [b; heads; t; n] [i; h; y; q])) else 1%R)).
Proof.
  intros e blas sd w r heads hd kd vd p training u query key value b t n X K V He Hm.
  exact (forward_qkv_ok e He Hm blas sd w r heads hd kd vd p training u query key value b t n X K V).
Qed.
Print Assumptions C77_multihead_partial.
(** Two heads of size 1, identity projections, F32 with BLAS, two samples of one position: each
    sample should attend to itself alone and give back its value; the result mixes the samples. *)
Definition id2 : xtensor := xt [2; 2] [1; 0; 0; 1]%R.
Definition id_mha : mha := mkMha id2 id2 id2 id2 None None None None.
Theorem C77_batch_axes_refuted : forall a b c d, exists r,
  forward_qkv e1 true F32 id_mha 2 1 0%R false (fun _ => 0%R) None false
    (xt [2; 1; 2] [0; 0; 0; 0]%R) (xt [2; 1; 2] [0; 0; 0; 0]%R) (xt [2; 1; 2] [a; b; c; d]) = Ok r /\
  xden r F32 [2; 1; 2] (fun i => Fin (nth (ravel [2; 1; 2] i) [a; c; b; d] 0%R)).
Proof.
  intros a b c d. set (f := fun x y : R => (0 + x * 1 + y * 0)%R). set (g := fun x y : R => (0 + x * 0 + y * 1)%R).
  assert (M : forall a b c d, mha_linear e1 true (xt [2; 1; 2] [a; b; c; d]) id2 None = Ok (xt [2; 1; 2] [f a b; g a b; f c d; g c d])).
  { intros. unfold f, g. lazy -[IZR Rplus Rmult]. reflexivity. }
  assert (S : forall a b c d, split_heads (xt [2; 1; 2] [a; b; c; d]) 2 1 2 1 =
    Ok (mkX F32 (mkT (map Fin [a; b; c; d]) (mkLayout [2; 2; 1; 1] [2; 1; 2; 1] 0)))).
  { intros. lazy -[IZR]. reflexivity. }
  unfold forward_qkv. change (xshape (xt [2; 1; 2] [0; 0; 0; 0]%R)) with [2; 1; 2]. cbn [idx_or_panic nth_error bind].
  cbn [id_mha w_q w_k w_v w_o b_q b_k b_v b_o]. rewrite !M. cbn [bind]. rewrite !S. cbn [bind].
  erewrite ones_attention; [|reflexivity|lazy -[IZR f g]; reflexivity|lazy -[IZR f g Rplus Rmult]; reflexivity].
  match goal with |- context[x_matmul e1 true ?A ?B] => let r := eval lazy -[IZR f g Rplus Rmult] in (x_matmul e1 true A B) in
    change (x_matmul e1 true A B) with r end.
  set (q := [f (0 + 1 * f a b) (0 + 1 * f c d); g (0 + 1 * f a b) (0 + 1 * f c d);
             f (0 + 1 * g a b) (0 + 1 * g c d); g (0 + 1 * g a b) (0 + 1 * g c d)]%R).
  exists (xt [2; 1; 2] q). split; [unfold q, f, g; lazy -[IZR Rplus Rmult]; reflexivity|].
  replace [a; c; b; d] with q by (unfold q, f, g; repeat f_equal; ring).
  apply xt_den; [reflexivity|repeat constructor].
Qed.
Print Assumptions C77_batch_axes_refuted.

(** the same without BLAS: each sample gets its value back *)
Example C77_example : exists r,
  forward_qkv e1 false F32 id_mha 2 1 0%R false (fun _ => 0%R) None false
    (xt [2; 1; 2] [0; 0; 0; 0]%R) (xt [2; 1; 2] [0; 0; 0; 0]%R) (xt [2; 1; 2] [1; 2; 3; 4]%R) = Ok r /\
  elem (xdata r) [0; 0; 1] = Some (Fin 2%R) /\ elem (xdata r) [1; 0; 0] = Some (Fin 3%R).
Proof.
  set (I2 := fun i j => nth (ravel [2; 2] [i; j]) [1; 0; 0; 1]%R 0%R). set (o := fun _ : nat => 0%R).
  destruct (C77_multihead_partial e1 false F32 id_mha (mkMW I2 I2 I2 I2 o o o o) 2 1 2 2 0%R false (fun _ => 0%R)
    (xt [2; 1; 2] [0; 0; 0; 0]%R) (xt [2; 1; 2] [0; 0; 0; 0]%R) (xt [2; 1; 2] [1; 2; 3; 4]%R) 2 1 1
    (fun i j c => nth (ravel [2; 1; 2] [i; j; c]) [0; 0; 0; 0]%R 0%R) (fun i j c => nth (ravel [2; 1; 2] [i; j; c]) [0; 0; 0; 0]%R 0%R)
    (fun i j c => nth (ravel [2; 1; 2] [i; j; c]) [1; 2; 3; 4]%R 0%R) e1_ok e1_mat eq_refl eq_refl ltac:(lia) ltac:(lia)) as [r [E X]].
  - assert (XI : xmat id2 F32 2 2 I2).
    { eapply xden_ext; [apply xt_den; [reflexivity|repeat constructor]|].
      intros i V. apply in_all_idx in V. vm_compute in V. repeat (destruct V as [<-|V]; [reflexivity|]); destruct V. }
    repeat split; try apply XI.
  - eapply xden_ext; [apply xt_den; [reflexivity|repeat constructor]|].
    intros i V. apply in_all_idx in V. vm_compute in V. repeat (destruct V as [<-|V]; [reflexivity|]); destruct V.
  - eapply xden_ext; [apply xt_den; [reflexivity|repeat constructor]|].
    intros i V. apply in_all_idx in V. vm_compute in V. repeat (destruct V as [<-|V]; [reflexivity|]); destruct V.
  - eapply xden_ext; [apply xt_den; [reflexivity|repeat constructor]|].
    intros i V. apply in_all_idx in V. vm_compute in V. repeat (destruct V as [<-|V]; [reflexivity|]); destruct V.
  - rewrite andb_false_r. discriminate.
  - exists r. split; [exact E|]. destruct X as (_ & _ & _ & _ & _ & X).
    assert (A : forall k x K V (z : nat -> R) c, z 0 = 1%R -> attend k 1 x K V z c = V 0 c).
    { intros k x K V z c Hz. unfold attend. cbn [seq map Rsum].
      pose proof (soft_sum (fun j => score k x (K j)) 1 ltac:(lia)) as S1. cbn [seq map Rsum] in S1. rewrite Hz. nra. }
    rewrite (X [0; 0; 1]) by (cbn; lia). rewrite (X [1; 0; 0]) by (cbn; lia). cbn [nth].
    unfold mha_at, affine. split; do 2 f_equal; cbn [seq map Rsum Nat.mul Nat.add]; unfold heads_at; cbv zeta;
      rewrite !A by (now rewrite andb_false_r); unfold project, affine; lazy -[IZR Rplus Rmult]; lra.
Qed.
