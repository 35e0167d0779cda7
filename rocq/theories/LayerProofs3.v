(** The linear layer and the recurrent cells. *)
From Coq Require Import List Arith ZArith Lia Bool Reals Lra.
From Verif Require Import Base IndexSpec LayoutModel ViewSpec LayoutProofs BcastProofs.
From Verif Require Import KernelModel TensorModel TensorSpec KernelProofs TensorProofs.
From Verif Require Import EncodeModel MatrixModel MatrixProofs2 MatrixProofs3 MatrixProofs4 DenSpec DenProofs.
From Verif Require Import NumModel NnModel NnSpec NnProofs LayerModel LayerSpec LayerProofs LayerProofs2.
Import ListNotations.
Open Scope nat_scope.

Lemma bcast_last : forall s n, bcast (s ++ [n]) [n] (s ++ [n]).
Proof.
  intros s n. split.
  - rewrite app_length. cbn. lia.
  - intros k. rewrite !rev_app_distr. cbn [rev app]. destruct k as [|k]; cbn [nth]; [left; auto|].
    right. right. split; auto. now destruct k.
Qed.
Lemma bidx_last : forall s n i, valid (s ++ [n]) i -> bidx [n] i = [last i 0].
Proof.
  intros s n i V. pose proof (valid_length _ _ V) as L. rewrite app_length in L. cbn in L.
  destruct i as [|x i] using rev_ind; [cbn in L; lia|]. rewrite app_length in L. cbn in L.
  apply valid_app in V; [|lia]. destruct V as [_ [V _]]. rewrite last_last. unfold bidx.
  rewrite app_length. cbn [length]. replace (length i + 1 - 1) with (length i) by lia.
  rewrite skipn_app, skipn_all, Nat.sub_diag. cbn. destruct (Nat.eqb_spec n 1); auto. f_equal. lia.
Qed.

Lemma xsigmoid_fin : forall x, xsigmoid (Fin x) = Fin (sigma x).
Proof.
  intros x. unfold xsigmoid. cbn [xneg xexp xadd]. rewrite xdiv_fin; [unfold sigma; f_equal; unfold Rdiv; ring|].
  pose proof (exp_pos (- x)). lra.
Qed.
Lemma xrelu_fin : forall x, xrelu (Fin x) = Fin (Rmax 0 x).
Proof.
  intros x. unfold xrelu. cbn [xltb]. unfold Rltb. destruct (Rlt_dec 0 x) as [H|H]; f_equal; symmetry.
  - apply Rmax_right. lra.
  - apply Rmax_left. lra.
Qed.

Section Real.
Variable e : env.
Hypothesis He : env_ok e.

Lemma xden_bias : forall x b d s n f v, allowed NoBool d = true -> xden x d (s ++ [n]) f -> xbias b d n v ->
  exists t, add_bias e x b = Ok t /\ (dense x -> dense t) /\
    xden t d (s ++ [n]) (fun i => xadd (f i) (Fin (v (last i 0)))).
Proof.
  intros x [b|] d s n f v C X Hb; cbn [add_bias xbias] in *.
  - destruct (xden_binary e He NoBool xadd x b d (s ++ [n]) [n] f _ C X Hb) as [t [E D]]; [apply bcast_last|].
    exists t. split; [exact E|]. split; [intros _; exact (x_binary_dense _ _ _ _ _ _ _ _ _ _ X D E)|].
    eapply xden_ext; [exact D|]. intros i V. cbn beta. now rewrite (bidx_last s n i V).
  - exists x. split; auto. split; auto. eapply xden_ext; [exact X|]. intros i V. rewrite Hb.
    destruct (f i); cbn; auto. now rewrite Rplus_0_r.
Qed.

Lemma xmat_bias : forall x b d m n A v, allowed NoBool d = true -> xmat x d m n A -> xbias b d n v ->
  exists t, add_bias e x b = Ok t /\ (dense x -> dense t) /\ xmat t d m n (fun i j => A i j + v j)%R.
Proof.
  intros x b d m n A v C X Hb. destruct (xden_bias x b d [m] n _ v C X Hb) as [t [E [Dn D]]].
  exists t. split; auto. split; auto. eapply xden_ext; [exact D|]. intros i V.
  destruct i as [|i [|j [|? ?]]]; cbn in V; tauto.
Qed.
Lemma xmat_binary : forall c op f a b d m n A B, allowed c d = true ->
  (forall x y, op (Fin x) (Fin y) = Fin (f x y)) -> xmat a d m n A -> xmat b d m n B ->
  exists t, x_binary e c op a b = Ok t /\ solid t /\ xmat t d m n (fun i j => f (A i j) (B i j)).
Proof.
  intros c op f a b d m n A B C Hop Xa Xb. destruct (xden_binary_same e He c op a b d [m; n] _ _ C Xa Xb) as [t [E D]].
  exists t. split; auto. split; [exact (x_binary_solid _ _ _ _ _ _ _ _ _ _ _ _ He Xa Xb (bcast_idem _) D E)|]. eapply xden_ext; [exact D|]. intros i V. cbn beta. now rewrite Hop.
Qed.
Lemma xmat_unary : forall c op f a d m n A, allowed c d = true ->
  (forall x, op (Fin x) = Fin (f x)) -> xmat a d m n A ->
  exists t, x_unary e c op a = Ok t /\ solid t /\ xmat t d m n (fun i j => f (A i j)).
Proof.
  intros c op f a d m n A C Hop Xa. destruct (xden_unary e He c op a d [m; n] _ C Xa) as [t [E D]].
  exists t. split; auto. split; [exact (x_unary_solid _ _ _ _ _ _ _ _ He Xa E)|]. eapply xden_ext; [exact D|]. intros i V. cbn beta. now rewrite Hop.
Qed.
Lemma xmat_ext : forall x d m n A B, xmat x d m n A -> (forall i j, i < m -> j < n -> A i j = B i j) -> xmat x d m n B.
Proof.
  intros x d m n A B X H. eapply xden_ext; [exact X|]. intros i V. cbn beta. f_equal.
  destruct i as [|i [|j [|? ?]]]; cbn in V; try tauto. apply H; tauto.
Qed.

Hypothesis Hm : mat_env_ok e.
Variable blas : bool.

(** linear.rs, any number of leading axes *)
Lemma linear_ok : forall w b x d s k n W v X, allowed NoBool d = true ->
  xmat w d n k W -> xbias b d n v -> xden x d (s ++ [k]) (fun i => Fin (X i)) ->
  (length s = 1 -> fit blas x) -> length s <= (if by_blas blas d then 2 else 17) ->
  exists r, linear e blas w b x = Ok r /\
    xden r d (s ++ [n]) (fun i => Fin (affine W v k (fun q => X (removelast i ++ [q])) (last i 0))).
Proof.
  intros w b x d s k n W v X C Xw Xb Xx Fx Ls. unfold linear.
  destruct (xmat_transpose blas w d n k W Xw) as [wt [Et [Ft Xt]]]. rewrite Et. cbn [bind].
  assert (HM : exists o, x_matmul e blas x wt = Ok o /\
    xden o d (s ++ [n]) (fun i => Fin (Rsum (map (fun q => X (removelast i ++ [q]) * W (last i 0%nat) q)%R (seq 0 k))))).
  { destruct s as [|m s1 _] using rev_ind; [|destruct s1 as [|s0 s1]].
    - cbn [app] in Xx. destruct (x_matmul_1 e Hm blas x wt d k n (fun q => X [q]) (fun i j => W j i) C) as [o [E D]]; auto.
      + eapply xden_ext; [exact Xx|]. intros i V. destruct i as [|i [|? ?]]; cbn in V; first [tauto | reflexivity].
      + exists o. split; auto. eapply xden_ext; [exact D|]. intros i V. destruct i as [|i [|? ?]]; cbn in V; first [tauto | reflexivity].
    - cbn [app] in *. destruct (x_matmul_2 e Hm blas x wt d m k n (fun i q => X [i; q]) (fun i j => W j i) C) as [o [E [_ D]]]; auto.
      + eapply xden_ext; [exact Xx|]. intros i V. destruct i as [|i [|j [|? ?]]]; cbn in V; first [tauto | reflexivity].
      + exists o. split; auto. eapply xden_ext; [exact D|]. intros i V. destruct i as [|i [|j [|? ?]]]; cbn in V; first [tauto | reflexivity].
    - set (lb := s0 :: s1) in *. rewrite <- app_assoc in Xx. cbn [app] in Xx.
      rewrite app_length in Ls. cbn [length] in Ls.
      destruct (x_matmul_n e Hm blas x wt d lb [] lb m k n X (fun i => W (nth 1 i 0) (nth 0 i 0)) C) as [o [E [_ D]]]; auto.
      + left. discriminate.
      + split; [cbn; lia|]. intros q. right. right. split; [now destruct q|auto].
      + destruct (by_blas blas d); lia.
      + exists o. split; auto. rewrite <- app_assoc. cbn [app]. eapply xden_ext; [exact D|]. intros i V. cbn zeta.
        pose proof (valid_length _ _ V) as LV. rewrite app_length in LV. cbn [length] in LV.
        destruct i as [|y i _] using rev_ind; [cbn in LV; lia|]. rewrite app_length in LV. cbn [length] in LV.
        destruct i as [|z i _] using rev_ind; [cbn in LV; lia|]. rewrite app_length in LV. cbn [length] in LV.
        assert (Li : length i = length lb) by lia. rewrite removelast_last, last_last. rewrite <- app_assoc in V |- *. cbn [app] in V |- *.
        rewrite <- Li. rewrite firstn_app, Nat.sub_diag, firstn_O, app_nil_r, firstn_all.
        rewrite (app_nth2 i) by lia. rewrite (app_nth2 i) by lia.
        rewrite Nat.sub_diag. replace (S (length i) - length i) with 1 by lia. cbn [nth].
        apply valid_app in V; [|lia]. destruct V as [Vi _]. rewrite TensorProofs.bidx_self by auto.
        unfold bidx at 1. cbn [length combine map app nth]. f_equal. f_equal. apply map_ext. intros q. rewrite <- app_assoc. reflexivity. }
  destruct HM as [o [Eo Do]]. rewrite Eo. cbn [bind].
  destruct (xden_bias o b d s n _ v C Do Xb) as [r [Er [_ Dr]]]. exists r. split; auto.
Qed.

Lemma solid_fit : forall x d m n A, xmat x d m n A -> solid x -> fit blas x.
Proof. intros x d m n A X D. eapply dense_fit; [exact X|]. now apply solid_dense. Qed.

(** the weights' two affine parts, as they are computed *)
Lemma affine_x : forall w b x d m k n W v X, allowed NoBool d = true ->
  xmat w d n k W -> xbias b d n v -> xmat x d m k X -> fit blas x ->
  exists wt h0 h1, x_view (VTranspose (-2) (-1)) w = Ok wt /\ x_matmul e blas x wt = Ok h0 /\ add_bias e h0 b = Ok h1 /\ 
    xmat h1 d m n (fun i j => affine W v k (X i) j).
Proof.
  intros w b x d m k n W v X C Xw Xb Xx Fx.
  destruct (xmat_transpose blas w d n k W Xw) as [wt [Et [Ft Xt]]].
  destruct (x_matmul_2 e Hm blas x wt d m k n X (fun i j => W j i) C Xx Xt Fx Ft) as [h0 [E0 [D0 X0]]].
  destruct (xmat_bias h0 b d m n _ v C X0 Xb) as [h1 [E1 [D1 X1]]].
  exists wt, h0, h1. split; auto.
Qed.
Lemma gates_ok : forall c d m k h g w x s X H, allowed NoBool d = true ->
  xcell c d k h g w -> xmat x d m k X -> xmat s d m h H -> fit blas x -> fit blas s ->
  exists wt h0 h1 wt2 p h2 h3,
    x_view (VTranspose (-2) (-1)) (w_ih c) = Ok wt /\ x_matmul e blas x wt = Ok h0 /\ add_bias e h0 (b_ih c) = Ok h1 /\
    x_view (VTranspose (-2) (-1)) (w_hh c) = Ok wt2 /\ x_matmul e blas s wt2 = Ok p /\ x_add e h1 p = Ok h2 /\
    add_bias e h2 (b_hh c) = Ok h3 /\ 
    xmat h3 d m (g * h) (fun i j => affine (W_ih w) (B_ih w) k (X i) j + affine (W_hh w) (B_hh w) h (H i) j)%R.
Proof.
  intros c d m k h g w x s X H C [Xi [Xh [Bi Bh]]] Xx Xs Fx Fs.
  destruct (affine_x _ _ _ d m k (g * h) _ _ X C Xi Bi Xx Fx) as [wt [h0 [h1 [E1 [E2 [E3 X1]]]]]].
  destruct (xmat_transpose blas _ d (g * h) h _ Xh) as [wt2 [E4 [F4 X4]]].
  destruct (x_matmul_2 e Hm blas s wt2 d m h (g * h) H _ C Xs X4 Fs F4) as [p [E5 [D5 X5]]].
  destruct (xmat_binary NoBool xadd Rplus h1 p d m (g * h) _ _ C (fun _ _ => eq_refl) X1 X5) as [h2 [E6 [D6 X6]]].
  destruct (xmat_bias h2 _ d m (g * h) _ _ C X6 Bh) as [h3 [E7 [_ X7]]].
  exists wt, h0, h1, wt2, p, h2, h3. do 7 (split; auto).
  eapply xmat_ext; [exact X7|]. intros i j _ _. cbn beta. unfold affine. ring.
Qed.

(** rnn.rs, one step *)
Lemma rnn_step_ok : forall relu c d m k h w x s X H, is_float d = true ->
  xcell c d k h 1 w -> xmat x d m k X -> xmat s d m h H -> fit blas x -> fit blas s ->
  exists r, rnn_step e blas relu c x s = Ok r /\ solid r /\
    xmat r d m h (fun i j => rnn_next (if relu then Rmax 0 else tanh) w k h (X i) (H i) j).
Proof.
  intros relu c d m k h w x s X H F Xc Xx Xs Fx Fs.
  assert (C : allowed NoBool d = true) by (now apply float_allowed).
  destruct (gates_ok c d m k h 1 w x s X H C Xc Xx Xs Fx Fs) as [wt [h0 [h1 [wt2 [p [h2 [h3 [E1 [E2 [E3 [E4 [E5 [E6 [E7 X7]]]]]]]]]]]]]].
  unfold rnn_step. rewrite E1. cbn [bind]. rewrite E2. cbn [bind]. rewrite E3. cbn [bind]. rewrite E4. cbn [bind].
  rewrite E5. cbn [bind]. rewrite E6. cbn [bind]. rewrite E7. cbn [bind]. rewrite Nat.mul_1_l in X7.
  destruct relu.
  - destruct (xmat_unary Signed xrelu (Rmax 0) h3 d m h _ ltac:(now apply float_allowed) xrelu_fin X7) as [r [E [D Xr]]].
    exists r. split; [exact E|]. split; [exact D|]. exact Xr.
  - destruct (xmat_unary Floats xtanh tanh h3 d m h _ ltac:(now apply float_allowed) (fun _ => eq_refl) X7) as [r [E [D Xr]]].
    exists r. split; [exact E|]. split; [exact D|]. exact Xr.
Qed.

Ltac ok E := rewrite E; cbn [bind].
Lemma xmat_pos : forall x d m n A, xmat x d m n A -> 0 < m /\ 0 < n.
Proof. intros x d m n A X. pose proof (xden_pos _ _ _ _ X) as P. inversion P; subst. inversion H2; subst. auto. Qed.
Lemma xmat_gate : forall x d m h g A q, xmat x d m (g * h) A -> q < g ->
  exists t, x_view (cols (q * h) (S q * h)) x = Ok t /\ xmat t d m h (fun i j => A i (q * h + j)).
Proof.
  intros x d m h g A q X Hq. destruct (xmat_pos _ _ _ _ _ X) as [Pm P].
  destruct (xmat_cols x d m (g * h) A (q * h) (S q * h) X) as [t [E D]].
  - split; [cbn; nia|]. apply Nat.mul_le_mono_r. lia.
  - exists t. split; auto. replace (S q * h - q * h) with h in D by (cbn; lia). exact D.
Qed.

(** LSTM, one step *)
Lemma lstm_step_ok : forall cl d m k h w x s c X H Cs, is_float d = true ->
  xcell cl d k h 4 w -> xmat x d m k X -> xmat s d m h H -> xmat c d m h Cs -> fit blas x -> fit blas s ->
  exists h' c', lstm_step e blas h cl x s c = Ok (h', c') /\ solid h' /\ solid c' /\
    xmat h' d m h (fun i j => lstm_h w k h (X i) (H i) (Cs i) j) /\
    xmat c' d m h (fun i j => lstm_c w k h (X i) (H i) (Cs i) j).
Proof.
  intros cl d m k h w x s c X H Cs F Xc Xx Xs Xcs Fx Fs.
  assert (C : forall q, allowed q d = true) by (intro; now apply float_allowed).
  destruct (gates_ok cl d m k h 4 w x s X H (C _) Xc Xx Xs Fx Fs) as [wt [h0 [h1 [wt2 [p [h2 [h3 [E1 [E2 [E3 [E4 [E5 [E6 [E7 X7]]]]]]]]]]]]]].
  unfold lstm_step. ok E1. ok E2. ok E3. ok E4. ok E5. ok E6. ok E7.
  destruct (xmat_gate h3 d m h 4 _ 0 X7 ltac:(lia)) as [si [Ei Xi]]. cbn [Nat.mul] in Ei. rewrite Nat.add_0_r in Ei. ok Ei.
  destruct (xmat_unary Floats xsigmoid sigma si d m h _ (C _) xsigmoid_fin Xi) as [gi [Egi [_ Xgi]]]. unfold x_sigmoid. ok Egi.
  destruct (xmat_gate h3 d m h 4 _ 1 X7 ltac:(lia)) as [sf [Ef Xf]]. rewrite Nat.mul_1_l in Ef. ok Ef.
  destruct (xmat_unary Floats xsigmoid sigma sf d m h _ (C _) xsigmoid_fin Xf) as [gf [Egf [_ Xgf]]]. ok Egf.
  destruct (xmat_gate h3 d m h 4 _ 2 X7 ltac:(lia)) as [sg [Eg Xg]]. ok Eg.
  destruct (xmat_unary Floats xtanh tanh sg d m h _ (C _) (fun _ => eq_refl) Xg) as [gg [Egg [_ Xgg]]]. unfold x_tanh. ok Egg.
  destruct (xmat_gate h3 d m h 4 _ 3 X7 ltac:(lia)) as [so [Eo Xo]]. ok Eo.
  destruct (xmat_unary Floats xsigmoid sigma so d m h _ (C _) xsigmoid_fin Xo) as [go [Ego [_ Xgo]]]. ok Ego.
  unfold x_mul, x_add.
  destruct (xmat_binary NoBool xmul Rmult gf c d m h _ _ (C _) (fun _ _ => eq_refl) Xgf Xcs) as [fc [Efc [_ Xfc]]]. ok Efc.
  destruct (xmat_binary NoBool xmul Rmult gi gg d m h _ _ (C _) (fun _ _ => eq_refl) Xgi Xgg) as [ig [Eig [_ Xig]]]. ok Eig.
  destruct (xmat_binary NoBool xadd Rplus fc ig d m h _ _ (C _) (fun _ _ => eq_refl) Xfc Xig) as [cn [Ecn [Dcn Xcn]]]. ok Ecn.
  destruct (xmat_unary Floats xtanh tanh cn d m h _ (C _) (fun _ => eq_refl) Xcn) as [tc [Etc [_ Xtc]]]. ok Etc.
  destruct (xmat_binary NoBool xmul Rmult go tc d m h _ _ (C _) (fun _ _ => eq_refl) Xgo Xtc) as [hn [Ehn [Dhn Xhn]]]. ok Ehn.
  exists hn, cn. split; [reflexivity|]. split; [exact Dhn|]. split; [exact Dcn|]. split; [exact Xhn|exact Xcn].
Qed.

(** GRU, one step *)
Lemma gru_step_ok : forall cl d m k h w x s X H, is_float d = true ->
  xcell cl d k h 3 w -> xmat x d m k X -> xmat s d m h H -> fit blas x -> fit blas s ->
  exists r, gru_step e blas h cl x s = Ok r /\ solid r /\
    xmat r d m h (fun i j => gru_next w k h (X i) (H i) j).
Proof.
  intros cl d m k h w x s X H F Xc Xx Xs Fx Fs. destruct Xc as [Xi [Xh [Bi Bh]]].
  assert (C : forall q, allowed q d = true) by (intro; now apply float_allowed).
  destruct (affine_x _ _ _ d m k (3 * h) _ _ X (C _) Xi Bi Xx Fx) as [wt [h0 [gi [E1 [E2 [E3 Xgi]]]]]].
  destruct (affine_x _ _ _ d m h (3 * h) _ _ H (C _) Xh Bh Xs Fs) as [wt2 [p [gh [E4 [E5 [E6 Xgh]]]]]].
  unfold gru_step. ok E1. ok E2. ok E3. ok E4. ok E5. ok E6.
  destruct (xmat_gate gi d m h 3 _ 0 Xgi ltac:(lia)) as [ir [Eir Xir]]. cbn [Nat.mul] in Eir. rewrite Nat.add_0_r in Eir. ok Eir.
  destruct (xmat_gate gi d m h 3 _ 1 Xgi ltac:(lia)) as [iz [Eiz Xiz]]. rewrite Nat.mul_1_l in Eiz. ok Eiz.
  destruct (xmat_gate gi d m h 3 _ 2 Xgi ltac:(lia)) as [ic [Eic Xic]]. ok Eic.
  destruct (xmat_gate gh d m h 3 _ 0 Xgh ltac:(lia)) as [hr [Ehr Xhr]]. cbn [Nat.mul] in Ehr. rewrite Nat.add_0_r in Ehr. ok Ehr.
  destruct (xmat_gate gh d m h 3 _ 1 Xgh ltac:(lia)) as [hz [Ehz Xhz]]. rewrite Nat.mul_1_l in Ehz. ok Ehz.
  destruct (xmat_gate gh d m h 3 _ 2 Xgh ltac:(lia)) as [hc [Ehc Xhc]]. ok Ehc.
  unfold x_mul, x_add, x_sigmoid, x_tanh, x_neg, x_add_scalar.
  destruct (xmat_binary NoBool xadd Rplus ir hr d m h _ _ (C _) (fun _ _ => eq_refl) Xir Xhr) as [r0 [Er0 [_ Xr0]]]. ok Er0.
  destruct (xmat_unary Floats xsigmoid sigma r0 d m h _ (C _) xsigmoid_fin Xr0) as [r [Er [_ Xr]]]. ok Er.
  destruct (xmat_binary NoBool xadd Rplus iz hz d m h _ _ (C _) (fun _ _ => eq_refl) Xiz Xhz) as [z0 [Ez0 [_ Xz0]]]. ok Ez0.
  destruct (xmat_unary Floats xsigmoid sigma z0 d m h _ (C _) xsigmoid_fin Xz0) as [z [Ez [_ Xz]]]. ok Ez.
  destruct (xmat_binary NoBool xmul Rmult r hc d m h _ _ (C _) (fun _ _ => eq_refl) Xr Xhc) as [n0 [En0 [_ Xn0]]]. ok En0.
  destruct (xmat_binary NoBool xadd Rplus ic n0 d m h _ _ (C _) (fun _ _ => eq_refl) Xic Xn0) as [n1 [En1 [_ Xn1]]]. ok En1.
  destruct (xmat_unary Floats xtanh tanh n1 d m h _ (C _) (fun _ => eq_refl) Xn1) as [n [En [_ Xn]]]. ok En.
  destruct (xmat_unary Signed xneg Ropp z d m h _ (C _) (fun _ => eq_refl) Xz) as [nz [Enz [_ Xnz]]]. ok Enz.
  replace (xdtype s) with d by (symmetry; apply Xs).
  destruct (xden_scalar e He NoBool xadd nz d [m; h] _ (Fin 1) (C _) Xnz) as [om [Eom Xom]]. ok Eom.
  assert (Xom' : xmat om d m h (fun i j => - sigma (affine (W_ih w) (B_ih w) k (X i) (1 * h + j) + affine (W_hh w) (B_hh w) h (H i) (1 * h + j)) + 1)%R) by exact Xom.
  destruct (xmat_binary NoBool xmul Rmult om n d m h _ _ (C _) (fun _ _ => eq_refl) Xom' Xn) as [pp [Epp [_ Xpp]]]. ok Epp.
  destruct (xmat_binary NoBool xmul Rmult z s d m h _ _ (C _) (fun _ _ => eq_refl) Xz Xs) as [qq [Eqq [_ Xqq]]]. ok Eqq.
  destruct (xmat_binary NoBool xadd Rplus pp qq d m h _ _ (C _) (fun _ _ => eq_refl) Xpp Xqq) as [o [Eo [Do Xo]]]. rewrite Eo.
  exists o. split; [reflexivity|]. split; [exact Do|].
  eapply xmat_ext; [exact Xo|]. intros i j _ _. cbn beta. unfold gru_next, part_x, part_h. ring.
Qed.
End Real.
