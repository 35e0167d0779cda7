(** Dropout, and attention without a mask. *)
From Coq Require Import List Arith ZArith Lia Bool Reals Lra.
From Verif Require Import Base IndexSpec LayoutModel ViewSpec LayoutProofs LayoutProofs2 BcastProofs.
From Verif Require Import KernelModel TensorModel TensorSpec KernelProofs TensorProofs ElementwiseProofs.
From Verif Require Import EncodeModel SelectModel MatrixModel MatrixProofs2 MatrixProofs3 MatrixProofs4 DenSpec DenProofs.
From Verif Require Import NumModel NnModel NnSpec NnProofs NnProofs2 LayerModel LayerSpec LayerProofs LayerProofs2.
From Verif Require Import AttnModel AttnSpec AttnProofs.
Import ListNotations.
Open Scope nat_scope.

Lemma xbool_scale : forall (b : bool) v, xmul (xbool b) (Fin v) = Fin (if b then v else 0%R).
Proof. intros [] v; cbn; f_equal; ring. Qed.
Lemma float_not_bool : forall d, is_float d = true -> same_dtype d BOOL = false.
Proof. intros d F. destruct (same_dtype d BOOL) eqn:E; auto. apply same_dtype_iff in E. subst. discriminate. Qed.

Section Drop.
Variable e : env.
Hypothesis He : env_ok e.

Lemma xden_cmp_scalar : forall c op a d s f v, allowed c d = true -> xden a d s f ->
  exists t, x_cmp_scalar e c op a (d, v) = Ok t /\ xden t BOOL s (fun i => xbool (op (f i) v)).
Proof.
  intros c op a d s f v C [Da Ha]. unfold x_cmp_scalar. cbn [fst snd]. rewrite Da, C, same_dtype_refl. cbn.
  destruct (den_unary _ _ e (Fin 0) (fun x => xbool (op x v)) _ s f He Ha) as [t [E D]]. rewrite E.
  eexists. split; [reflexivity|]. split; auto.
Qed.
Lemma xden_cast : forall a d d' s f, same_dtype d' d = false -> xden a d s f ->
  exists t, x_to_dtype e d' a = Ok t /\ xden t d' s f.
Proof.
  intros a d d' s f N [Da Ha]. unfold x_to_dtype. rewrite Da, N.
  destruct (den_unary _ _ e (Fin 0) (fun v => v) _ s f He Ha) as [t [E D]].
  change (t_cast e (Fin 0) (fun v : xr => v) (xdata a)) with (t_unary e (Fin 0) (fun v : xr => v) (xdata a)). rewrite E.
  eexists. split; [reflexivity|]. split; auto.
Qed.
Lemma random_den : forall sd u s, all_pos s -> xden (x_random sd u s) sd s (fun i => Fin (u (ravel s i))).
Proof.
  intros sd u s P. eapply xden_ext.
  - apply (xlist_den sd s (map (fun k => Fin (u k)) (seq 0 (nelem s)))); auto. now rewrite map_length, seq_length.
  - intros i V. cbn beta. pose proof (ravel_lt s i V) as L.
    rewrite (nth_indep _ Nan (Fin (u 0))) by (now rewrite map_length, seq_length).
    rewrite (map_nth (fun k => Fin (u k))). rewrite seq_nth by auto. reflexivity.
Qed.

(** the random mask times [v] *)
Lemma mask_ok : forall sd d s p u v, allowed NoBool sd = true -> is_float d = true -> all_pos s ->
  exists m mask sm, x_gt_scalar e (x_random sd u s) (sd, Fin p) = Ok m /\ x_to_dtype e d m = Ok mask /\
    x_mul_scalar e mask (d, v) = Ok sm /\ xden sm d s (fun i => xmul (xbool (Rltb p (u (ravel s i)))) v).
Proof.
  intros sd d s p u v Hs F P.
  destruct (xden_cmp_scalar NoBool (fun v w => xltb w v) (x_random sd u s) sd s _ (Fin p) Hs (random_den sd u s P)) as [m [Em Dm]].
  destruct (xden_cast m BOOL d s _ (float_not_bool d F) Dm) as [mask [Ek Dk]].
  destruct (xden_scalar e He NoBool xmul mask d s _ v (float_allowed _ _ F) Dk) as [sm [Es Ds]].
  exists m, mask, sm. split; [exact Em|]. split; [exact Ek|]. split; [exact Es|]. exact Ds.
Qed.

Lemma dropout_ok : forall sd p u x s f, allowed NoBool sd = true -> p <> 1%R -> xden x F32 s (fun i => Fin (f i)) ->
  exists r, dropout e sd true (sd, Fin p) u x = Ok r /\ xden r F32 s (fun i => Fin (f i * kept p (u (ravel s i)))%R).
Proof.
  intros sd p u x s f Hs Hp X. pose proof (xden_pos _ _ _ _ X) as P.
  unfold dropout. cbn [negb snd]. rewrite (xden_shape _ _ _ _ X). pose proof X as [Dx _]. rewrite Dx.
  replace (xsub (Fin 1) (Fin p)) with (Fin (1 - p)) by (cbn; f_equal; ring). rewrite xdiv_fin by lra.
  destruct (mask_ok sd F32 s p u (Fin (1 / (1 - p))) Hs eq_refl P) as [m [mask [sm [E1 [E2 [E3 D]]]]]].
  rewrite E1. cbn [bind]. rewrite E2. cbn [bind]. rewrite E3. cbn [bind].
  destruct (xden_binary_same e He NoBool xmul x sm F32 s _ _ eq_refl X D) as [r [Er Dr]]. exists r. split; auto.
  eapply xden_ext; [exact Dr|]. intros i V. cbn beta. rewrite xbool_scale. reflexivity.
Qed.
Lemma dropout_one : forall sd u x s f, allowed NoBool sd = true -> (forall k, u k < 1)%R -> xden x F32 s f ->
  exists r, dropout e sd true (sd, Fin 1) u x = Ok r /\ xden r F32 s (fun _ => Nan).
Proof.
  intros sd u x s f Hs Hu X. pose proof (xden_pos _ _ _ _ X) as P.
  unfold dropout. cbn [negb snd]. rewrite (xden_shape _ _ _ _ X). pose proof X as [Dx _]. rewrite Dx.
  destruct (mask_ok sd F32 s 1 u (xdiv (Fin 1) (xsub (Fin 1) (Fin 1))) Hs eq_refl P) as [m [mask [sm [E1 [E2 [E3 D]]]]]].
  rewrite E1. cbn [bind]. rewrite E2. cbn [bind]. rewrite E3. cbn [bind].
  destruct (xden_binary_same e He NoBool xmul x sm F32 s _ _ eq_refl X D) as [r [Er Dr]]. exists r. split; auto.
  eapply xden_ext; [exact Dr|]. intros i V. cbn beta. unfold Rltb. destruct (Rlt_dec 1 (u (ravel s i))) as [L|_]; [specialize (Hu (ravel s i)); lra|].
  replace (xdiv (Fin 1) (xsub (Fin 1) (Fin 1))) with PInf.
  - cbn. unfold xscale, Rltb. destruct (Rlt_dec 0 0); [lra|]. destruct (f i); reflexivity.
  - cbn. destruct (Req_EM_T (1 + - (1)) 0) as [_|N]; [|lra]. unfold xscale, Rltb. destruct (Rlt_dec 0 1); [reflexivity|lra].
Qed.
Lemma dropout_dtype : forall sd p u x d s f, xdtype x <> F32 -> xden x d s f ->
  exists k, dropout e sd true p u x = Err k.
Proof.
  intros sd p u x d s f N X. pose proof (xden_pos _ _ _ _ X) as P. unfold dropout. cbn [negb].
  rewrite (xden_shape _ _ _ _ X). destruct p as [dp p]. cbn [snd].
  pose proof (random_den sd u s P) as [_ Ha].
  unfold x_gt_scalar, x_cmp_scalar. cbn [fst snd]. change (xdtype (x_random sd u s)) with sd.
  destruct (allowed NoBool sd); cbn [negb]; [|now eexists]. destruct (same_dtype dp sd); cbn [negb]; [|now eexists].
  destruct (den_unary _ _ e (Fin 0) (fun v => xbool (xltb p v)) _ s _ He Ha) as [t [E D]]. rewrite E. cbn [bind].
  assert (HC : exists m, x_to_dtype e (xdtype x) (mkX BOOL t) = Ok m /\ xdtype m = xdtype x).
  { unfold x_to_dtype. cbn [xdtype xdata]. destruct (same_dtype (xdtype x) BOOL).
    - unfold t_cast_same, storage_contiguous. unfold t_unary in E. destruct (ub _); try discriminate. cbn in E. inversion E; subst t. cbn [tlay tstore].
      rewrite from_shape_contiguous. cbn [loffset from_shape Nat.eqb andb bind]. eexists. split; reflexivity.
    - destruct (den_unary _ _ e (Fin 0) (fun v => v) _ s _ He D) as [t' [E' D']].
      change (t_cast e (Fin 0) (fun v : xr => v) t) with (t_unary e (Fin 0) (fun v : xr => v) t). rewrite E'.
      eexists. split; reflexivity. }
  destruct HC as [m [Em Dm]]. rewrite Em. cbn [bind]. unfold x_mul_scalar, x_scalar. rewrite Dm. cbn [fst].
  destruct (allowed NoBool (xdtype x)); cbn [negb bind]; [|now eexists].
  replace (same_dtype F32 (xdtype x)) with false; [now eexists|].
  symmetry. destruct (same_dtype F32 (xdtype x)) eqn:Q; auto. apply same_dtype_iff in Q. congruence.
Qed.

Lemma attn_dropout_ok : forall sd p u x s f, is_float sd = true -> p <> 1%R -> xden x sd s (fun i => Fin (f i)) ->
  exists r, attn_dropout e sd p u x = Ok r /\ dense r /\ xden r sd s (fun i => Fin (f i * kept p (u (ravel s i)))%R).
Proof.
  intros sd p u x s f F Hp X. pose proof (xden_pos _ _ _ _ X) as P. pose proof (float_allowed NoBool _ F) as C.
  unfold attn_dropout. rewrite (xden_shape _ _ _ _ X). pose proof X as [Dx _]. rewrite Dx.
  replace (xsub (Fin 1) (Fin p)) with (Fin (1 - p)) by (cbn; f_equal; ring). rewrite xdiv_fin by lra.
  destruct (mask_ok sd sd s p u (Fin (1 / (1 - p))) C F P) as [m [mask [sm [E1 [E2 [E3 D]]]]]].
  rewrite E1. cbn [bind]. rewrite E2. cbn [bind]. rewrite E3. cbn [bind].
  destruct (xden_binary_same e He NoBool xmul x sm sd s _ _ C X D) as [r [Er Dr]]. exists r. split; auto.
  split; [exact (x_binary_dense e NoBool xmul x sm sd s _ _ r X Dr Er)|].
  eapply xden_ext; [exact Dr|]. intros i V. cbn beta. rewrite xbool_scale. reflexivity.
Qed.
End Drop.

Section Soft.
Variable e : env.
Hypothesis He : env_ok e.

Lemma upd_last : forall (p : list nat) x y k, upd (p ++ [x; y]) (S (length p)) k = p ++ [x; k].
Proof. induction p as [|a p IH]; intros; cbn; [reflexivity|]. f_equal. apply IH. Qed.

Lemma soft_stack : forall a d s m n W, is_float d = true -> xstack a d s m n W -> length s + 2 <= 16 ->
  exists y, x_softmax e a (-1) = Ok y /\ dense y /\ xstack y d s m n (fun p i j => soft (W p i) n j).
Proof.
  intros a d s m n W F X HR. destruct (stack_axis (length s)) as [A1 _].
  pose proof (xden_pos _ _ _ _ X) as P. apply Forall_app in P. destruct P as [_ P]. inversion P; subst. inversion H2; subst. clear P H2 H4.
  set (f := fun i => Fin (W (firstn (length s) i) (nth (length s) i 0) (nth (S (length s)) i 0))).
  assert (LS : length (s ++ [m; n]) = length s + 2) by (now rewrite app_length).
  assert (HD : axis_ok (length (s ++ [m; n])) (-1)) by (rewrite LS; unfold axis_ok; lia).
  assert (HN : nth_error (s ++ [m; n]) (axis_of (length (s ++ [m; n])) (-1)) = Some n).
  { rewrite LS, A1. rewrite nth_error_stack by lia. replace (S (length s) =? length s) with false by (symmetry; apply Nat.eqb_neq; lia).
    now rewrite Nat.eqb_refl. }
  assert (HR' : length (s ++ [m; n]) <= 16) by lia.
  assert (HL : forall i, valid (s ++ [m; n]) i -> low (f i)) by (intros; exact I).
  assert (HP : forall i, valid (s ++ [m; n]) i -> exists k r, k < n /\ f (upd i (axis_of (length (s ++ [m; n])) (-1)) k) = Fin r).
  { intros i V. exists 0. eexists. split; [lia|reflexivity]. }
  destruct (softmax_ok e He a d (s ++ [m; n]) f (-1)%Z n F X HD HN HR' HL HP) as [y [Ey Dy]].
  destruct (soft_steps e He a d (s ++ [m; n]) f (-1)%Z n F X HD HN HR' HL HP) as [mx [sh [ex [su [E1 [E2 [E3 [E4 [q [D1 [D2 D3]]]]]]]]]]].
  exists y. split; auto. split.
  - unfold x_softmax in Ey. rewrite E1 in Ey; cbn [bind] in Ey. rewrite E2 in Ey; cbn [bind] in Ey.
    rewrite E3 in Ey; cbn [bind] in Ey. rewrite E4 in Ey; cbn [bind] in Ey. unfold x_div in Ey.
    exact (x_binary_dense e Floats xdiv ex su d (s ++ [m; n]) _ _ y D2 Dy Ey).
  - eapply xstack_of; [exact Dy|]. intros p i j Vp Hi Hj. cbn beta. rewrite LS, A1. f_equal.
    pose proof (valid_length _ _ Vp) as Lp. unfold softmax_at, soft, line, f. rewrite map_map. rewrite <- Lp.
    destruct (stack_parts p p i j eq_refl) as [-> [-> ->]]. cbn [weight]. f_equal. f_equal. apply map_ext. intros k.
    rewrite upd_last. destruct (stack_parts p p i k eq_refl) as [-> [-> ->]]. reflexivity.
Qed.
End Soft.

Section Attention.
Variable e : env.
Hypothesis He : env_ok e.
Hypothesis Hm : mat_env_ok e.
Variable blas : bool.
Variable sd : dtype.

(** scores of every query against every key *)
Lemma scores_ok : forall query key s m n k Q K, is_float sd = true ->
  xstack query sd s m k Q -> xstack key sd s n k K -> (s = [] -> fit blas query) ->
  length s <= (if by_blas blas sd then 1 else 16) ->
  exists kt a0 a1, x_view (VTranspose (-2) (-1)) key = Ok kt /\ x_matmul e blas query kt = Ok a0 /\
    x_mul_scalar e a0 (sd, xdiv (Fin 1) (xsqrt (nat_x (last (xshape query) 1)))) = Ok a1 /\
    xstack a1 sd s m n (fun p i j => score k (Q p i) (K p j)).
Proof.
  intros query key s m n k Q K F Xq Xk Fq HB. pose proof (float_allowed NoBool _ F) as C.
  pose proof (xden_pos _ _ _ _ Xk) as P. apply Forall_app in P. destruct P as [_ P]. inversion P; subst. inversion H2; subst. clear P H2 H4.
  destruct (xstack_transpose blas key sd s n k K Xk) as [kt [Et [Ft Xt]]].
  destruct (x_matmul_stack e Hm blas query kt sd s m k n Q (fun p i j => K p j i) C Xq Xt) as [a0 [E0 [_ X0]]]; auto.
  exists kt, a0. rewrite (xden_shape _ _ _ _ Xq).
  replace (last (s ++ [m; k]) 1) with k by (change [m; k] with ([m] ++ [k]); rewrite app_assoc, last_last; auto).
  destruct (xden_scalar e He NoBool xmul a0 sd _ _ (xdiv (Fin 1) (xsqrt (nat_x k))) C X0) as [a1 [E1 X1]].
  exists a1. split; auto. split; auto. split; [exact E1|].
  eapply xstack_of; [exact X1|]. intros p i j Vp Hi Hj. cbn beta.
  destruct (stack_parts s p i j (valid_length _ _ Vp)) as [-> [-> ->]]. unfold nat_x, xsqrt, Rltb.
  pose proof (pos_INR k) as PK. destruct (Rlt_dec (INR k) 0) as [L|_]; [lra|].
  assert (SK : (0 < sqrt (INR k))%R) by (apply sqrt_lt_R0; apply (lt_INR 0); lia).
  rewrite xdiv_fin by lra. cbn [xmul]. f_equal. unfold score. field. lra.
Qed.

Lemma attention_ok : forall p training u query key value s m n k c Q K V, is_float sd = true ->
  xstack query sd s m k Q -> xstack key sd s n k K -> xstack value sd s n c V ->
  (s = [] -> fit blas query /\ fit blas value) -> length s <= (if by_blas blas sd then 1 else 14) ->
  (Rltb 0 p && training = true -> p <> 1%R) ->
  exists r, attention e blas sd None p training false u query key value = Ok r /\ dense r /\
    xstack r sd s m c (fun b i j => attend k n (Q b i) (K b) (V b)
      (fun q => if Rltb 0 p && training then kept p (u (ravel (s ++ [m; n]) (b ++ [i; q]))) else 1%R) j).
Proof.
  intros p training u query key value s m n k c Q K V F Xq Xk Xv HF HB Hp. pose proof (float_allowed NoBool _ F) as C.
  assert (HB' : length s <= (if by_blas blas sd then 1 else 16)) by (destruct (by_blas blas sd); lia).
  assert (HR : length s + 2 <= 16) by (destruct (by_blas blas sd); lia).
  destruct (scores_ok query key s m n k Q K F Xq Xk (fun z => proj1 (HF z)) HB') as [kt [a0 [a1 [E0 [E1 [E2 X1]]]]]].
  unfold attention. rewrite E0. cbn [bind]. rewrite E1. cbn [bind]. rewrite E2. cbn [bind].
  destruct (soft_stack e He a1 sd s m n _ F X1 HR) as [a4 [E4 [D4 X4]]]. rewrite E4. cbn [bind].
  set (w := fun b i j => (soft (fun j => score k (Q b i) (K b j)) n j *
     (if Rltb 0 p && training then kept p (u (ravel (s ++ [m; n]) (b ++ [i; j]))) else 1))%R).
  assert (H5 : exists a5, (if Rltb 0 p && training then attn_dropout e sd p u a4 else Ok a4) = Ok a5 /\ dense a5 /\ xstack a5 sd s m n w).
  { destruct (Rltb 0 p && training) eqn:ET.
    - destruct (attn_dropout_ok e He sd p u a4 _ _ F (Hp eq_refl) X4) as [a5 [E5 [D5 X5]]]. exists a5. split; auto. split; auto.
      eapply xstack_of; [exact X5|]. intros b i j Vb Hi Hj. cbn beta.
      destruct (stack_parts s b i j (valid_length _ _ Vb)) as [-> [-> ->]]. reflexivity.
    - exists a4. split; auto. split; auto. eapply xstack_ext; [exact X4|]. intros b i j Vb Hi Hj. cbn beta. unfold w. ring. }
  destruct H5 as [a5 [E5 [D5 X5]]]. rewrite E5. cbn [bind].
  destruct (x_matmul_stack e Hm blas a5 value sd s m n c w V C X5 Xv) as [r [Er [Dr Xr]]]; auto.
  { intros ->. split; [|now apply HF]. exact (dense_fit blas a5 sd m n _ X5 D5). }
  exists r. split; auto.
Qed.
End Attention.

(* ---------- the weights are positive and sum to 1 ---------- *)

Lemma soft_pos : forall w n j, j < n -> (0 < soft w n j)%R.
Proof.
  intros w n j H. unfold soft. apply Rdiv_lt_0_compat; [apply exp_pos|].
  apply Rlt_le_trans with (exp (w j)); [apply exp_pos|]. apply (Rsum_ge (map (fun j => exp (w j)) (seq 0 n))).
  - apply Forall_forall. intros y Hy. apply in_map_iff in Hy. destruct Hy as [v [<- _]]. left. apply exp_pos.
  - apply in_map_iff. exists j. split; auto. apply in_seq. lia.
Qed.
Lemma soft_sum : forall w n, 0 < n -> Rsum (map (soft w n) (seq 0 n)) = 1%R.
Proof.
  intros w n H. unfold soft, Rdiv. rewrite Rsum_scale. apply Rinv_r. apply Rgt_not_eq. apply Rlt_gt.
  apply Rlt_le_trans with (exp (w 0)); [apply exp_pos|]. apply (Rsum_ge (map (fun j => exp (w j)) (seq 0 n))).
  - apply Forall_forall. intros y Hy. apply in_map_iff in Hy. destruct Hy as [v [<- _]]. left. apply exp_pos.
  - apply in_map_iff. exists 0. split; auto. apply in_seq. lia.
Qed.
Lemma attend_bounds : forall k n x K V c lo hi, 0 < n -> (forall j, j < n -> (lo <= V j c <= hi)%R) ->
  (lo <= attend k n x K V (fun _ => 1%R) c <= hi)%R.
Proof.
  intros k n x K V c lo hi Hn H. unfold attend. set (w := fun j => score k x (K j)). pose proof (soft_sum w n Hn) as S1.
  assert (G : forall l, (forall j, In j l -> j < n) ->
    (lo * Rsum (map (soft w n) l) <= Rsum (map (fun j => soft w n j * 1 * V j c) l) <= hi * Rsum (map (soft w n) l))%R).
  { induction l as [|j l IH]; intros Hl; cbn; [lra|]. assert (Hj : j < n) by (apply Hl; now left).
    specialize (IH (fun q Hq => Hl q (or_intror Hq))). pose proof (soft_pos w n j Hj) as PS. specialize (H j Hj).
    assert (soft w n j * lo <= soft w n j * V j c <= soft w n j * hi)%R by (split; apply Rmult_le_compat_l; lra). lra. }
  specialize (G (seq 0 n) ltac:(intros j Hj; apply in_seq in Hj; lia)). rewrite S1 in G. lra.
Qed.
