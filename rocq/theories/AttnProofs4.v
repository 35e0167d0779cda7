(** Multi-head attention. *)
From Coq Require Import List Arith ZArith Lia Bool Permutation Reals Lra.
From Verif Require Import Base IndexSpec LayoutModel ViewSpec LayoutProofs LayoutProofs2 BcastProofs.
From Verif Require Import KernelModel TensorModel TensorSpec KernelProofs TensorProofs ElementwiseProofs.
From Verif Require Import EncodeModel SelectModel MatrixModel MatrixProofs2 MatrixProofs3 MatrixProofs4 DenSpec DenProofs.
From Verif Require Import NumModel NnModel NnSpec NnProofs NnProofs2 LayerModel LayerSpec LayerProofs LayerProofs2 LayerProofs3.
From Verif Require Import AttnModel AttnSpec AttnProofs AttnProofs2 AttnProofs3.
Import ListNotations.
Open Scope nat_scope.

Section Multi.
Variable e : env.
Hypothesis He : env_ok e.
Hypothesis Hm : mat_env_ok e.
Variable blas : bool.
Variable sd : dtype.

(** the scale is a scalar of dtype [sd] *)
Lemma attention_dtype : forall mask p training causal u query key value d s m n k Q K, d <> sd -> allowed NoBool d = true ->
  xstack query d s m k Q -> xstack key d s n k K -> (s = [] -> fit blas query) ->
  length s <= (if by_blas blas d then 1 else 16) ->
  attention e blas sd mask p training causal u query key value = Err EDType.
Proof.
  intros mask p training causal u query key value d s m n k Q K N C Xq Xk Fq HB.
  destruct (xstack_transpose blas key d s n k K Xk) as [kt [Et [Ft Xt]]].
  destruct (x_matmul_stack e Hm blas query kt d s m k n Q (fun p i j => K p j i) C Xq Xt) as [a0 [E0 [_ [D0 _]]]]; auto.
  unfold attention. rewrite Et. cbn [bind]. rewrite E0. cbn [bind]. unfold x_mul_scalar, x_scalar. cbn [fst]. rewrite D0, C.
  replace (same_dtype sd d) with false; [reflexivity|]. symmetry.
  destruct (same_dtype sd d) eqn:Q'; auto. apply same_dtype_iff in Q'. congruence.
Qed.

Lemma transpose_01 : forall w d n k W, xmat w d n k W -> x_view (VTranspose 0 1) w = x_view (VTranspose (-2) (-1)) w.
Proof.
  intros w d n k W [_ [G [_ [S _]]]]. unfold x_view.
  destruct (t_contiguous_spec _ (Fin 0) (xdata w) G) as [c [Ec [_ [Sc _]]]].
  rewrite !(t_view_unfold _ (Fin 0) _ (xdata w) c G Ec). cbn [apply_view]. unfold transpose.
  unfold tshape in Sc, S. rewrite Sc, S. reflexivity.
Qed.
Lemma mha_linear_ok : forall x w b d n m k o X W v, allowed NoBool d = true ->
  xcube x d n m k X -> xmat w d o k W -> xbias b d o v ->
  exists r, mha_linear e blas x w b = Ok r /\ xcube r d n m o (fun i j c => affine W v k (X i j) c).
Proof.
  intros x w b d n m k o X W v C Xx Xw Xb. unfold mha_linear. rewrite (transpose_01 w d o k W Xw).
  destruct (linear_ok e He Hm blas w b x d [n; m] k o W v _ C Xw Xb Xx) as [r [E D]].
  - discriminate.
  - cbn. destruct (by_blas blas d); lia.
  - unfold linear in E. exists r. split; [exact E|]. eapply xden_ext; [exact D|].
    intros i V. destruct i as [|i0 [|i1 [|i2 [|? ?]]]]; cbn in V; first [tauto|reflexivity].
Qed.

Lemma split_heads_ok : forall x d b t h hd X, 0 < h -> 0 < hd -> xcube x d b t (h * hd) X ->
  exists r, split_heads x b t h hd = Ok r /\
    xstack r d [b; h] t hd (fun p i j => X (nth 0 p 0) i (nth 1 p 0 * hd + j)).
Proof.
  intros x d b t h hd X Ph Pd Xx. pose proof (xden_pos _ _ _ _ Xx) as P.
  inversion P as [|? ? Pb P2]; subst. inversion P2 as [|? ? Pt _]; subst. unfold split_heads.
  destruct (xden_view (VReshape [b; t; h; hd]) x d [b; t; h * hd] [b; t; h; hd] _
     (fun i => Fin (X (nth 0 i 0) (nth 1 i 0) (nth 2 i 0 * hd + nth 3 i 0))) ltac:(discriminate) Xx) as [r [Er Dr]].
  - exact I.
  - cbn [shape_rel]. split; [rewrite !nelem_cons; change (nelem []) with 1; lia|reflexivity].
  - repeat (constructor; auto).
  - intros i j Vi Vj IR. cbn [index_rel] in IR.
    destruct i as [|i0 [|i1 [|i2 [|i3 [|? ?]]]]]; cbn in Vi; try tauto. destruct j as [|j0 [|j1 [|j2 [|? ?]]]]; cbn in Vj; try tauto.
    cbn [nth]. assert (EJ : [j0; j1; j2] = [i0; i1; i2 * hd + i3]).
    { apply (ravel_inj [b; t; h * hd]); [cbn; tauto|cbn; repeat split; try tauto; nia|].
      rewrite IR. cbn [ravel]. rewrite !nelem_cons. change (nelem []) with 1. nia. }
    now inversion EJ.
  - rewrite Er. cbn [bind].
    destruct (xden_view (VTranspose 1 2) r d [b; t; h; hd] [b; h; t; hd] _
      (fun i => Fin (X (nth 0 i 0) (nth 2 i 0) (nth 1 i 0 * hd + nth 3 i 0))) ltac:(discriminate) Dr) as [r2 [E2 D2]].
    + exact I.
    + cbn [shape_rel length]. split; [lia|]. split; [unfold axis_ok; cbn; lia|]. split; [unfold axis_ok; cbn; lia|]. split; [reflexivity|].
      intros q Hq. destruct q as [|[|[|[|q]]]]; try lia; reflexivity.
    + repeat (constructor; auto).
    + intros i j Vi Vj [L IR]. cbn [length] in *.
      destruct i as [|i0 [|i1 [|i2 [|i3 [|? ?]]]]]; cbn in Vi; try tauto. destruct j as [|j0 [|j1 [|j2 [|j3 [|? ?]]]]]; cbn in Vj; try tauto.
      pose proof (IR 0 ltac:(lia)) as I0. pose proof (IR 1 ltac:(lia)) as I1. pose proof (IR 2 ltac:(lia)) as I2. pose proof (IR 3 ltac:(lia)) as I3.
      cbn in I0, I1, I2, I3. inversion I0. inversion I1. inversion I2. inversion I3. reflexivity.
    + exists r2. split; auto. eapply xden_ext; [exact D2|].
      intros i V. destruct i as [|i0 [|i1 [|i2 [|i3 [|? ?]]]]]; cbn in V; first [tauto|reflexivity].
Qed.
Lemma join_heads_ok : forall a d b t h hd A, 0 < h -> 0 < hd -> xstack a d [b; h] t hd A ->
  exists a1 a2, x_view (VTranspose 1 2) a = Ok a1 /\ x_view (VReshape [b; t; h * hd]) a1 = Ok a2 /\
    xcube a2 d b t (h * hd) (fun i j c => A [i; c / hd] j (c mod hd)).
Proof.
  intros a d b t h hd A Ph Pd Xa. pose proof (xden_pos _ _ _ _ Xa) as P. cbn [app] in P.
  inversion P as [|? ? Pb P2]; subst. inversion P2 as [|? ? _ P3]; subst. inversion P3 as [|? ? Pt _]; subst.
  destruct (xden_view (VTranspose 1 2) a d [b; h; t; hd] [b; t; h; hd] _
      (fun i => Fin (A [nth 0 i 0; nth 2 i 0] (nth 1 i 0) (nth 3 i 0))) ltac:(discriminate) Xa) as [a1 [E1 D1]].
  - exact I.
  - cbn [shape_rel length]. split; [lia|]. split; [unfold axis_ok; cbn; lia|]. split; [unfold axis_ok; cbn; lia|]. split; [reflexivity|].
    intros q Hq. destruct q as [|[|[|[|q]]]]; try lia; reflexivity.
  - repeat (constructor; auto).
  - intros i j Vi Vj [L IR]. cbn [length] in *.
    destruct i as [|i0 [|i1 [|i2 [|i3 [|? ?]]]]]; cbn in Vi; try tauto. destruct j as [|j0 [|j1 [|j2 [|j3 [|? ?]]]]]; cbn in Vj; try tauto.
    pose proof (IR 0 ltac:(lia)) as I0. pose proof (IR 1 ltac:(lia)) as I1. pose proof (IR 2 ltac:(lia)) as I2. pose proof (IR 3 ltac:(lia)) as I3.
    cbn in I0, I1, I2, I3. inversion I0. inversion I1. inversion I2. inversion I3. reflexivity.
  - exists a1.
    destruct (xden_view (VReshape [b; t; h * hd]) a1 d [b; t; h; hd] [b; t; h * hd] _
      (fun i => Fin (A [nth 0 i 0; nth 2 i 0 / hd] (nth 1 i 0) (nth 2 i 0 mod hd))) ltac:(discriminate) D1) as [a2 [E2 D2]].
    + exact I.
    + cbn [shape_rel]. split; [rewrite !nelem_cons; change (nelem []) with 1; lia|reflexivity].
    + constructor; auto. constructor; auto. constructor; [nia|auto].
    + intros i j Vi Vj IR. cbn [index_rel] in IR.
      destruct j as [|j0 [|j1 [|j2 [|j3 [|? ?]]]]]; cbn in Vj; try tauto. destruct i as [|i0 [|i1 [|i2 [|? ?]]]]; cbn in Vi; try tauto.
      cbn [nth]. assert (EJ : [i0; i1; i2] = [j0; j1; j2 * hd + j3]).
      { apply (ravel_inj [b; t; h * hd]); [cbn; tauto|cbn; repeat split; try tauto; nia|].
        rewrite <- IR. cbn [ravel]. rewrite !nelem_cons. change (nelem []) with 1. nia. }
      inversion EJ; subst. rewrite Nat.div_add_l by lia. rewrite (Nat.div_small j3) by tauto.
      rewrite Nat.add_0_r, (Nat.add_comm (j2 * hd)), Nat.mod_add, Nat.mod_small by (tauto || lia). reflexivity.
    + exists a2. split; auto.
Qed.

(** the parameters *)
Definition xmha (w : mha) (embed kd vd : nat) (r : mha_weights) : Prop :=
  xmat (w_q w) sd embed embed (Wq r) /\ xmat (w_k w) sd embed kd (Wk r) /\ xmat (w_v w) sd embed vd (Wv r) /\
  xmat (w_o w) sd embed embed (Wo r) /\
  xbias (b_q w) sd embed (Bq r) /\ xbias (b_k w) sd embed (Bk r) /\ xbias (b_v w) sd embed (Bv r) /\ xbias (b_o w) sd embed (Bo r).

Lemma forward_qkv_ok : forall w r heads hd kd vd p training u query key value b t n X K V, is_float sd = true ->
  by_blas blas sd = false -> 0 < heads -> 0 < hd ->
  xmha w (heads * hd) kd vd r ->
  xcube query sd b t (heads * hd) X -> xcube key sd b n kd K -> xcube value sd b n vd V ->
  (Rltb 0 p && training = true -> p <> 1%R) ->
  exists o, forward_qkv e blas sd w heads hd p training u None false query key value = Ok o /\
    xcube o sd b t (heads * hd) (fun i => mha_at r (heads * hd) kd vd hd n (X i) (K i) (V i)
      (fun h y q => if Rltb 0 p && training then kept p (u (ravel [b; heads; t; n] [i; h; y; q])) else 1%R)).
Proof.
  intros w r heads hd kd vd p training u query key value b t n X K V F NB Ph Pd [Hq [Hk [Hv [Ho [Bq' [Bk' [Bv' Bo']]]]]]] Xq Xk Xv Hp.
  pose proof (float_allowed NoBool _ F) as C.
  unfold forward_qkv. rewrite (xden_shape _ _ _ _ Xq), (xden_shape _ _ _ _ Xk). cbn [idx_or_panic nth_error bind].
  destruct (mha_linear_ok query (w_q w) (b_q w) sd b t _ _ X _ _ C Xq Hq Bq') as [q0 [E1 X1]]. rewrite E1. cbn [bind].
  destruct (mha_linear_ok key (w_k w) (b_k w) sd b n _ _ K _ _ C Xk Hk Bk') as [k0 [E2 X2]]. rewrite E2. cbn [bind].
  destruct (mha_linear_ok value (w_v w) (b_v w) sd b n _ _ V _ _ C Xv Hv Bv') as [v0 [E3 X3]]. rewrite E3. cbn [bind].
  destruct (split_heads_ok q0 sd b t heads hd _ Ph Pd X1) as [q [E4 X4]]. rewrite E4. cbn [bind].
  destruct (split_heads_ok k0 sd b n heads hd _ Ph Pd X2) as [k [E5 X5]]. rewrite E5. cbn [bind].
  destruct (split_heads_ok v0 sd b n heads hd _ Ph Pd X3) as [v [E6 X6]]. rewrite E6. cbn [bind].
  destruct (attention_ok e He Hm blas sd p training u q k v [b; heads] t n hd hd _ _ _ F X4 X5 X6) as [a [E7 [_ X7]]]; auto.
  { discriminate. }
  { rewrite NB. cbn. lia. }
  rewrite E7. cbn [bind].
  destruct (join_heads_ok a sd b t heads hd _ Ph Pd X7) as [a1 [a2 [E8 [E9 X9]]]]. rewrite E8. cbn [bind]. rewrite E9. cbn [bind].
  destruct (mha_linear_ok a2 (w_o w) (b_o w) sd b t _ _ _ _ _ C X9 Ho Bo') as [o [Eo Xo]].
  exists o. split; auto.
Qed.
End Multi.

Lemma solid_store : forall x d s f, solid x -> xden x d s f -> x = mkX d (mkT (map f (all_idx s)) (from_shape s)).
Proof.
  intros [dx [st l]] d s f [L LN] [D [G [U [S [P H]]]]]. cbn in *. unfold xshape, tshape in *. cbn in *. subst dx. subst s.
  rewrite <- L. f_equal. f_equal. apply list_ext. intros k.
  destruct (Nat.lt_ge_cases k (nelem (lshape l))) as [Hk|Hk].
  - rewrite all_idx_map_unravel, map_map, nth_error_map_seq by auto.
    pose proof (unravel_valid (lshape l) k Hk) as V. rewrite <- H by exact V.
    unfold elem. cbn. rewrite L. rewrite addr_from_shape by (rewrite unravel_length; reflexivity). now rewrite ravel_unravel.
  - rewrite !(proj2 (nth_error_None _ _)); auto; [|lia]. rewrite all_idx_map_unravel, !map_length, seq_length. auto.
Qed.
Lemma soft_solid : forall e a d s m n W y, env_ok e -> is_float d = true -> xstack a d s m n W -> length s + 2 <= 16 ->
  x_softmax e a (-1) = Ok y -> solid y.
Proof.
  intros e a d s m n W y He F X HR Ey. destruct (stack_axis (length s)) as [A1 _].
  pose proof (xden_pos _ _ _ _ X) as P. apply Forall_app in P. destruct P as [_ P]. inversion P; subst. inversion H2; subst. clear P H2 H4.
  set (f := fun i => Fin (W (firstn (length s) i) (nth (length s) i 0) (nth (S (length s)) i 0))).
  assert (LS : length (s ++ [m; n]) = length s + 2) by (now rewrite app_length).
  assert (HD : axis_ok (length (s ++ [m; n])) (-1)) by (rewrite LS; unfold axis_ok; lia).
  assert (HN : nth_error (s ++ [m; n]) (axis_of (length (s ++ [m; n])) (-1)) = Some n).
  { rewrite LS, A1. rewrite nth_error_stack by lia. replace (S (length s) =? length s) with false by (symmetry; apply Nat.eqb_neq; lia).
    now rewrite Nat.eqb_refl. }
  assert (HR' : length (s ++ [m; n]) <= 16) by lia.
  assert (HL : forall i, valid (s ++ [m; n]) i -> low (f i)) by (intros; exact I).
  assert (HP : forall i, valid (s ++ [m; n]) i -> exists k r, k < n /\ f (upd i (axis_of (length (s ++ [m; n])) (-1)) k) = Fin r).
  { intros i V. exists 0. eexists. split; [lia|reflexivity]. }
  destruct (softmax_ok e He a d (s ++ [m; n]) f (-1)%Z n F X HD HN HR' HL HP) as [y' [Ey' Dy]].
  rewrite Ey' in Ey. inversion Ey; subst y'.
  destruct (soft_steps e He a d (s ++ [m; n]) f (-1)%Z n F X HD HN HR' HL HP) as [mx [sh [ex [su [E1 [E2 [E3 [E4 [q [D1 [D2 D3]]]]]]]]]]].
  unfold x_softmax in Ey'. rewrite E1 in Ey'; cbn [bind] in Ey'. rewrite E2 in Ey'; cbn [bind] in Ey'.
  rewrite E3 in Ey'; cbn [bind] in Ey'. rewrite E4 in Ey'; cbn [bind] in Ey'. unfold x_div in Ey'.
  exact (x_binary_solid e Floats xdiv ex su d (s ++ [m; n]) _ _ _ _ y He D2 D3 (bcast_upd1 _ _) Dy Ey').
Qed.
