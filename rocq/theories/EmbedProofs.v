(** The embedding layer. *)
From Coq Require Import List Arith ZArith Lia Bool Permutation Reals Lra.
From Verif Require Import Base IndexSpec LayoutModel ViewSpec LayoutProofs LayoutProofs2 BcastProofs.
From Verif Require Import KernelModel TensorModel TensorSpec KernelProofs TensorProofs ElementwiseProofs.
From Verif Require Import EncodeModel SelectModel SelectProofs IndexModel MoveProofs3 IndexProofs CountProofs DenSpec DenProofs.
From Verif Require Import NumModel NnModel NnSpec NnProofs NnProofs2 LayerModel LayerSpec LayerProofs LayerProofs2 LayerProofs3.
From Verif Require Import AttnModel AttnSpec AttnProofs AttnProofs2 AttnProofs3 EmbedModel EmbedSpec.
Import ListNotations.
Open Scope nat_scope.

(** the row chosen by an index, zeros if there is none *)
Definition row_at (V : nat) (W : nat -> nat -> R) (z : Z) (c : nat) : R :=
  match wrap_index z V with Some k => W k c | None => 0%R end.
Lemma row_names : forall V W z k c, points V z k -> row_at V W z c = W k c.
Proof. intros V W z k c H. unfold row_at. now rewrite (proj2 (wrap_names z V k) H). Qed.
Lemma row_out : forall V W z c, (forall k, ~ points V z k) -> row_at V W z c = 0%R.
Proof.
  intros V W z c H. unfold row_at. destruct (wrap_index z V) as [k|] eqn:E; auto. apply wrap_names in E. now apply H in E.
Qed.

Section Embed.
Variable e : env.
Hypothesis He : env_ok e.

Lemma flatten_plain : forall (t : tensor Z) s f, den t s f ->
  exists t', t_view 0%Z VFlatten t = Ok t' /\ den t' [nelem s] (fun i => f (unravel s (nth 0 i 0))) /\ plain_layout t'.
Proof.
  intros t s f H. pose proof H as [G [U [S [P _]]]].
  assert (NP : 0 < nelem s).
  { clear -P. induction P as [|x l Hx _ IH]; [change (nelem []) with 1; lia|]. rewrite nelem_cons. nia. }
  destruct (den_view Z 0%Z VFlatten t s [nelem s] f (fun i => f (unravel s (nth 0 i 0))) ltac:(discriminate) H) as [t' [E D]].
  - exact I.
  - reflexivity.
  - repeat constructor. exact NP.
  - intros i j Vi Vj IR. cbn [index_rel] in IR. destruct i as [|i0 [|? ?]]; cbn in Vi; try tauto. cbn [nth].
    assert (E : ravel [nelem s] [i0] = i0) by (cbn [ravel]; change (nelem []) with 1; lia). rewrite E in IR. rewrite <- IR.
    now rewrite unravel_ravel.
  - exists t'. split; auto. split; auto. split; [|exact (t_view_usable Z 0%Z VFlatten t t' ltac:(discriminate) G U E)].
    destruct (t_contiguous_spec _ 0%Z t G) as [c [Ec [Gc [Sc [Cc _]]]]].
    rewrite (t_view_unfold _ 0%Z _ t c G Ec) in E. cbn [apply_view] in E. unfold flatten in E. rewrite Cc in E. cbn in E.
    inversion E. cbn [tlay]. apply (from_shape_contiguous [layout_size (tlay c)]).
Qed.

Lemma select_ok : forall w d V D W (input : tensor Z) s ix, xmat w d V D W -> den input s ix ->
  exists flat sel, t_view 0%Z VFlatten input = Ok flat /\ den flat [nelem s] (fun i => ix (unravel s (nth 0 i 0))) /\
    t_index_select (Fin 0) (Fin 0) (xdata w) 0 flat = Ok sel /\
    xmat (mkX (xdtype w) sel) d (nelem s) D (fun i => row_at V W (ix (unravel s i))).
Proof.
  intros w d V D W input s ix [Dw [G [U [S [P H]]]]] Hi.
  destruct (flatten_plain input s ix Hi) as [flat [Ef [Df Pf]]]. exists flat. pose proof Df as [Gf [_ [Sf [Pn Hf]]]].
  destruct (t_index_select_spec xr (Fin 0) (Fin 0) (Fin 0) (xdata w) 0 flat V G Gf Pf) as [r [E [Gr [L Hv]]]].
  { rewrite S. unfold axis_ok. cbn [length]. lia. }
  { rewrite S. reflexivity. }
  rewrite S in L. change (axis_of (length [V; D]) 0) with 0 in L. cbn [upd] in L. rewrite Sf in L.
  assert (EN : nelem [nelem s] = nelem s) by (rewrite nelem_cons; change (nelem []) with 1; lia). rewrite EN in L.
  exists r. split; auto. split; auto. split; auto. split; [exact Dw|]. split; [exact Gr|]. cbn [xdata].
  split; [left; now rewrite L|]. split; [unfold tshape; now rewrite L|].
  inversion P as [|? ? _ P2]; subst. inversion Pn as [|? ? Pn' _]; subst. split; [constructor; auto|].
  intros i Vi. destruct i as [|i0 [|i1 [|? ?]]]; cbn in Vi; try tauto. destruct Vi as [V0 [V1 _]]. cbn [nth].
  specialize (Hv [i0; i1] (ix (unravel s i0))). rewrite S in Hv. change (axis_of (length [V; D]) 0) with 0 in Hv. cbn [nth upd] in Hv.
  assert (VR : valid (tshape r) [i0; i1]) by (unfold tshape; rewrite L; cbn; auto).
  assert (EU : unravel (tshape flat) i0 = [i0]).
  { rewrite Sf. assert (VV : valid [nelem s] [i0]) by (cbn; auto). pose proof (unravel_ravel _ _ VV) as Q.
    replace (ravel [nelem s] [i0]) with i0 in Q by (cbn [ravel]; change (nelem []) with 1; lia). exact Q. }
  destruct (Hv VR) as [H1 H2]. { rewrite EU, Hf by (cbn; auto). reflexivity. }
  unfold row_at. destruct (wrap_index (ix (unravel s i0)) V) as [k|] eqn:EK.
  - apply wrap_names in EK. rewrite (H1 k EK). apply H. destruct EK as [EK _]. cbn. auto.
  - apply H2. intros k Hk. apply wrap_names in Hk. congruence.
Qed.

Lemma unflatten_ok : forall x d s D A, all_pos s -> 0 < D -> xmat x d (nelem s) D A ->
  exists r, x_view (VReshape (s ++ [D])) x = Ok r /\
    xden r d (s ++ [D]) (fun i => Fin (A (ravel s (removelast i)) (last i 0))).
Proof.
  intros x d s D A P PD X.
  destruct (xden_view (VReshape (s ++ [D])) x d [nelem s; D] (s ++ [D]) _ (fun i => Fin (A (ravel s (removelast i)) (last i 0))) ltac:(discriminate) X) as [r [E DD]].
  - exact I.
  - cbn [shape_rel]. split; [|reflexivity]. rewrite nelem_app, !nelem_cons. change (nelem []) with 1. lia.
  - apply Forall_app. split; auto. 
  - intros i j Vi Vj IR. cbn [index_rel] in IR. destruct j as [|j0 [|j1 [|? ?]]]; cbn in Vj; try tauto.
    destruct (exists_last (l := i)) as [i' [c ->]].
    { intros ->. apply valid_length in Vi. rewrite app_length in Vi. cbn in Vi. lia. }
    rewrite removelast_last, last_last. cbn [nth].
    assert (L : length i' = length s). { apply valid_length in Vi. rewrite !app_length in Vi. cbn in Vi. lia. }
    apply valid_app in Vi; auto. destruct Vi as [Vi Vc]. cbn in Vc.
    rewrite ravel_app in IR by auto. cbn [ravel] in IR. rewrite !nelem_cons in IR. change (nelem []) with 1 in IR.
    pose proof (ravel_lt s i' Vi) as RL.
    destruct (Nat.div_mod_unique D j0 (ravel s i') j1 c) as [-> ->]; [tauto|tauto|lia|reflexivity].
  - eauto.
Qed.

Lemma embedding_ok : forall w d V D W (input : tensor Z) s ix, xmat w d V D W -> den input s ix ->
  exists r, embedding e w D None None input = Ok r /\
    xden r d (s ++ [D]) (fun i => Fin (row_at V W (ix (removelast i)) (last i 0))).
Proof.
  intros w d V D W input s ix Xw Hi. pose proof Hi as [_ [_ [Si [P _]]]]. pose proof (xden_pos _ _ _ _ Xw) as Pw.
  inversion Pw as [|? ? _ P2]; subst. inversion P2; subst.
  destruct (select_ok w d V D W input _ ix Xw Hi) as [flat [sel [E1 [_ [E2 X]]]]]. unfold embedding. rewrite E1. cbn [bind]. rewrite E2. cbn [bind].
  destruct (unflatten_ok _ d _ D _ P H1 X) as [r [E3 X3]]. exists r. split; [exact E3|].
  eapply xden_ext; [exact X3|]. intros i Vi. cbn beta. f_equal. f_equal. f_equal. apply unravel_ravel.
  destruct (exists_last (l := i)) as [i' [c ->]].
  { intros ->. apply valid_length in Vi. rewrite app_length in Vi. cbn in Vi. lia. }
  rewrite removelast_last. apply valid_app in Vi; [tauto|]. apply valid_length in Vi. rewrite !app_length in Vi. cbn in Vi. lia.
Qed.

(** the norm is taken along axis D - 1, whatever the rank *)
Lemma max_norm_axis : forall x d s a n f m, is_float d = true -> (0 < m)%R -> length s <= 16 ->
  last s 0 = S a -> nth_error s a = Some n -> xden x d s (fun i => Fin (f i)) ->
  exists r, apply_max_norm e x (d, Fin m) = Ok r /\
    xden r d s (fun i => Fin (shorten m n (fun k => f (upd i a k)) (nth a i 0))).
Proof.
  intros x d s a n f m F Hm HR HL HN X. pose proof (float_allowed NoBool _ F) as C. pose proof (float_allowed Floats _ F) as C2.
  unfold apply_max_norm. rewrite (xden_shape _ _ _ _ X).
  assert (ER : exists q, rev s = S a :: q).
  { destruct (exists_last (l := s)) as [s' [y ->]]; [intros ->; discriminate|]. rewrite last_last in HL. subst y. rewrite rev_app_distr. cbn. eauto. }
  destruct ER as [q0 ->].
  destruct (xden_binary_same e He NoBool xmul x x d s _ _ C X X) as [sq [E1 D1]]. unfold x_mul. rewrite E1. cbn [bind].
  assert (La : a < length s) by (apply nth_error_Some; congruence).
  assert (Hax : ReduceSpec.axes_of (length s) [Z.of_nat a] [a]).
  { apply (NormProofs.axes_nat (length s) [a]); [repeat constructor; auto|discriminate]. }
  assert (ND : NoDup [a]) by (constructor; [intros []|constructor]).
  destruct (xden_sum sq [Z.of_nat a] [a] true d s (fun i => f i * f i)%R F D1 Hax ND HR) as [su [E2 D2]]. rewrite E2. cbn [bind].
  rewrite rshape_one in D2.
  assert (D2' : xden su d (upd s a 1) (fun j => Fin (Rsum (map (fun k => f (upd j a k) * f (upd j a k))%R (seq 0 n))))).
  { eapply xden_ext; [exact D2|]. intros j V. cbn beta. f_equal.
    rewrite (Rsum_perm _ (map (fun i => f i * f i)%R (map (fun k => upd j a k) (seq 0 n)))).
    - now rewrite map_map.
    - apply Permutation_map. apply Permutation_sym. now apply fibre_one. }
  destruct (xden_unary e He Floats xsqrt su d _ _ C2 D2') as [no [E3 D3]]. unfold x_sqrt. rewrite E3. cbn [bind].
  set (nr := fun j => Rnorm n (fun k => f (upd j a k))).
  assert (PS : forall l (g : nat -> R), (0 <= Rsum (map (fun k => g k * g k) l))%R).
  { induction l as [|y l IH]; intros g; cbn; [lra|]. specialize (IH g). nra. }
  assert (D3' : xden no d (upd s a 1) (fun j => Fin (nr j))).
  { eapply xden_ext; [exact D3|]. intros j V. cbn beta. unfold xsqrt, Rltb.
    destruct (Rlt_dec _ 0) as [Q|Q]; [exfalso; pose proof (PS (seq 0 n) (fun k => f (upd j a k))); cbn beta in *; lra|]. reflexivity. }
  rewrite (xden_shape _ _ _ _ D3). cbn [fst snd].
  assert (Pu : all_pos (upd s a 1)) by exact (xden_pos _ _ _ _ D3).
  assert (FM : xden (mkX d (t_full (upd s a 1) (Fin m))) d (upd s a 1) (fun _ => Fin m)) by (split; [reflexivity|]; apply t_full_good_den; auto).
  destruct (xden_binary_same e He Floats xdiv _ _ d _ _ _ C2 FM D3') as [sc [E4 D4]]. unfold x_div. rewrite E4. cbn [bind].
  rewrite (xden_shape _ _ _ _ D4). pose proof X as [Dx _]. rewrite Dx.
  assert (FO : xden (mkX d (t_full (upd s a 1) (Fin 1%R))) d (upd s a 1) (fun _ => Fin 1%R)) by (split; [reflexivity|]; apply t_full_good_den; auto).
  destruct (xden_binary_same e He NoBool xmin _ _ d _ _ _ C D4 FO) as [sm [E5 D5]]. unfold x_minimum. rewrite E5. cbn [bind].
  destruct (xden_binary_axis e He NoBool xmul x sm d s a _ _ C X D5) as [r [E6 D6]]. exists r. split; [exact E6|].
  eapply xden_ext; [exact D6|]. intros i V. cbn beta.
  assert (EN : nr (upd i a 0) = Rnorm n (fun k => f (upd i a k))).
  { unfold nr, Rnorm. f_equal. f_equal. apply map_ext. intros k. now rewrite !upd_upd. }
  rewrite EN. unfold shorten. rewrite upd_same. set (N := Rnorm n (fun k => f (upd i a k))).
  assert (N0 : (0 <= N)%R) by (apply sqrt_pos).
  unfold xdiv. destruct (Req_EM_T N 0) as [Z|Z].
  - unfold xscale, Rltb. destruct (Rlt_dec 0 m); [|exfalso; lra]. unfold xmin. cbn [xltb]. destruct (Rlt_dec m N); [exfalso; lra|]. cbn [xmul]. f_equal. ring.
  - unfold xmin. cbn [xltb]. unfold Rltb.
    assert (M : (m / N < 1)%R <-> (m < N)%R).
    { split; intros H.
      - apply Rmult_lt_reg_r with (/ N)%R; [apply Rinv_0_lt_compat; lra|]. rewrite Rinv_r by lra. exact H.
      - apply Rmult_lt_reg_r with N; [lra|]. unfold Rdiv. rewrite Rmult_assoc, Rinv_l by lra. lra. }
    destruct (Rlt_dec (m / N) 1) as [Q|Q]; destruct (Rlt_dec m N) as [Q'|Q']; try (exfalso; tauto).
    + reflexivity.
    + cbn [xmul]. f_equal. ring.
Qed.

Lemma max_norm_panics : forall x d s a f m, length s <= a -> last s 0 = S a -> allowed NoBool d = true -> xden x d s f ->
  apply_max_norm e x (d, Fin m) = Panic.
Proof.
  intros x d s a f m La HL C X. unfold apply_max_norm. rewrite (xden_shape _ _ _ _ X).
  assert (ER : exists q, rev s = S a :: q).
  { destruct (exists_last (l := s)) as [s' [y ->]]; [intros ->; discriminate|]. rewrite last_last in HL. subst y. rewrite rev_app_distr. cbn. eauto. }
  destruct ER as [q0 ->].
  destruct (xden_binary_same e He NoBool xmul x x d s _ _ C X X) as [sq [E1 D1]]. unfold x_mul. rewrite E1. cbn [bind].
  unfold x_sum, x_reduce. pose proof D1 as [Ds _]. rewrite Ds, C. cbn [negb]. unfold ReduceModel.t_reduce.
  fold (xshape sq). rewrite (xden_shape _ _ _ _ D1). unfold ReduceModel.reduce_axes. cbn [map].
  replace (Z.of_nat a <? 0)%Z with false by (symmetry; apply Z.ltb_ge; lia). unfold as_usize.
  replace (Z.of_nat a <? 0)%Z with false by (symmetry; apply Z.ltb_ge; lia). rewrite Nat2Z.id. cbn [ReduceModel.mark_axes].
  replace (a <? length s) with false by (symmetry; now apply Nat.ltb_ge). reflexivity.
Qed.

(** with a maximal norm: rows shortened for two columns, columns shortened for one *)
Lemma shape2 : forall i N D, valid [N; D] i -> exists p c, i = [p; c] /\ p < N /\ c < D.
Proof. intros i N D V. destruct i as [|p [|c [|? ?]]]; cbn in V; try tauto. exists p, c. tauto. Qed.

Lemma row_shorten : forall V W z m c, shorten m 2 (row_at V W z) c = row_at V (fun k => shorten m 2 (W k)) z c \/ (forall k, ~ points V z k).
Proof.
  intros V W z m c. unfold row_at. destruct (wrap_index z V) as [k|] eqn:E; [now left|].
  right. intros k K. apply wrap_names in K. congruence.
Qed.

Lemma embedding_max_two : forall w d V W (input : tensor Z) s ix m, is_float d = true -> (0 < m)%R -> xmat w d V 2 W -> den input s ix ->
  exists r, embedding e w 2 None (Some (d, Fin m)) input = Ok r /\
    xden r d (s ++ [2]) (fun i => Fin (shorten m 2 (row_at V W (ix (removelast i))) (last i 0))).
Proof.
  intros w d V W input s ix m F Hm Xw Hi. pose proof Hi as [_ [_ [Si [P _]]]].
  destruct (select_ok w d V 2 W input s ix Xw Hi) as [flat [sel [E1 [_ [E2 X]]]]]. unfold embedding. rewrite E1. cbn [bind]. rewrite E2. cbn [bind].
  destruct (max_norm_axis _ d [nelem s; 2] 1 2 _ m F Hm ltac:(cbn; lia) eq_refl eq_refl X) as [q [E3 X3]]. rewrite E3. cbn [bind].
  assert (X3' : xmat q d (nelem s) 2 (fun p c => shorten m 2 (row_at V W (ix (unravel s p))) c)).
  { eapply xden_ext; [exact X3|]. intros i Vi. cbn beta. destruct (shape2 _ _ _ Vi) as [p [c [-> [? ?]]]]. cbn. reflexivity. }
  destruct (unflatten_ok _ d _ 2 _ P ltac:(lia) X3') as [r [E4 X4]]. change (lshape (tlay input)) with (tshape input). rewrite Si. exists r. split; [exact E4|].
  eapply xden_ext; [exact X4|]. intros i Vi. cbn beta. f_equal. f_equal. f_equal. f_equal. apply unravel_ravel.
  destruct (exists_last (l := i)) as [i' [c ->]].
  { intros ->. apply valid_length in Vi. rewrite app_length in Vi. cbn in Vi. lia. }
  rewrite removelast_last. apply valid_app in Vi; [tauto|]. apply valid_length in Vi. rewrite !app_length in Vi. cbn in Vi. lia.
Qed.

(** one column: the numbers of different rows are divided by their common norm *)
Lemma embedding_max_one : forall w d V W (input : tensor Z) s ix m, is_float d = true -> (0 < m)%R -> xmat w d V 1 W -> den input s ix ->
  exists r, embedding e w 1 None (Some (d, Fin m)) input = Ok r /\
    xden r d (s ++ [1]) (fun i => Fin (shorten m (nelem s) (fun k => row_at V W (ix (unravel s k)) 0) (ravel s (removelast i)))).
Proof.
  intros w d V W input s ix m F Hm Xw Hi. pose proof Hi as [_ [_ [Si [P _]]]].
  destruct (select_ok w d V 1 W input s ix Xw Hi) as [flat [sel [E1 [_ [E2 X]]]]]. unfold embedding. rewrite E1. cbn [bind]. rewrite E2. cbn [bind].
  destruct (max_norm_axis _ d [nelem s; 1] 0 (nelem s) _ m F Hm ltac:(cbn; lia) eq_refl eq_refl X) as [q [E3 X3]]. rewrite E3. cbn [bind].
  assert (X3' : xmat q d (nelem s) 1 (fun p c => shorten m (nelem s) (fun k => row_at V W (ix (unravel s k)) 0) p)).
  { eapply xden_ext; [exact X3|]. intros i Vi. cbn beta. destruct (shape2 _ _ _ Vi) as [p [c [-> [? ?]]]]. cbn.
    replace c with 0 by lia. reflexivity. }
  destruct (unflatten_ok _ d _ 1 _ P ltac:(lia) X3') as [r [E4 X4]]. change (lshape (tlay input)) with (tshape input). rewrite Si. exists r. split; [exact E4|exact X4].
Qed.

(** three columns or more: the axis does not exist *)
Lemma embedding_max_wide : forall w d V D W (input : tensor Z) s ix p m, is_float d = true -> 3 <= D -> xmat w d V D W -> den input s ix ->
  embedding e w D p (Some (d, Fin m)) input = Panic.
Proof.
  intros w d V D W input s ix p m F HD Xw Hi.
  destruct (select_ok w d V D W input s ix Xw Hi) as [flat [sel [E1 [_ [E2 X]]]]]. unfold embedding. rewrite E1. cbn [bind]. rewrite E2. cbn [bind].
  rewrite (max_norm_panics _ d [nelem s; D] (D - 1) _ m ltac:(cbn; lia) ltac:(cbn; lia) (float_allowed NoBool _ F) X). reflexivity.
Qed.

(** a padding index: the mask is combined with a boolean subtraction, which is refused *)
Lemma embedding_padding : forall w d V D W (input : tensor Z) s ix p, is_float d = true -> xmat w d V D W -> den input s ix ->
  embedding e w D (Some p) None input = Err EDType.
Proof.
  intros w d V D W input s ix p F Xw Hi.
  destruct (select_ok w d V D W input s ix Xw Hi) as [flat [sel [E1 [Hf [E2 X]]]]]. unfold embedding. rewrite E1. cbn [bind]. rewrite E2. cbn [bind].
  unfold handle_padding_idx. pose proof Hf as [_ [_ [Sf [Pf _]]]]. change (lshape (tlay flat)) with (tshape flat). rewrite Sf.
  destruct (den_binary_same _ _ _ e 0%Z 0%Z (Fin 0) (fun v w => xbool (v =? w)%Z) flat _ _ _ _ He Hf (t_full_good_den _ (Z.of_nat p) _ Pf)) as [m [E3 D3]].
  unfold t_full. change shape_size with nelem. rewrite E3. cbn [bind].
  destruct (xden_view (VUnsqueeze (-1)) (mkX BOOL m) BOOL [nelem s] [nelem s; 1] (fun i => xbool (ix (unravel s (nth 0 i 0%nat)) =? Z.of_nat p)%Z) (fun i => xbool (ix (unravel s (nth 0 i 0%nat)) =? Z.of_nat p)%Z) ltac:(discriminate) (conj eq_refl D3)) as [mask [E4 D4]].
  - exact I.
  - split; [unfold axis_ok; cbn; lia|]. exists [nelem s], []. split; [reflexivity|]. split; reflexivity.
  - inversion Pf; subst. repeat (constructor; auto).
  - intros i j Vi Vj IR. destruct (shape2 _ _ _ Vi) as [a [b [-> [? ?]]]]. destruct j as [|c [|? ?]]; cbn in Vj; try tauto. cbn in IR |- *.
    change (nelem []) with 1 in IR. rewrite nelem_cons in IR. change (nelem []) with 1 in IR. do 4 f_equal. lia.
  - rewrite E4. cbn [bind]. rewrite (xden_shape _ _ _ _ D4). set (t := [nelem s; 1]) in *.
    pose proof (xden_pos _ _ _ _ D4) as Pt. pose proof D4 as [DM DD]. pose proof X as [DX _].
    cbn [xdtype] in DX |- *. rewrite DX. unfold x_where3. cbn [xdata xdtype].
    pose proof (t_full_good_den _ (Fin 0) t Pt) as Z0. pose proof (t_full_good_den _ (Fin 1) t Pt) as Z1.
    pose proof Z0 as [G0 [U0 [S0 _]]]. pose proof Z1 as [G1 [_ [S1 _]]]. pose proof DD as [Gm [_ [Sm _]]].
    assert (HB : forall ta tb tc, ta = t -> tb = t -> tc = t -> exists ab, bcast ta tb ab /\ bcast ab tc t) by (intros ? ? ? -> -> ->; exists t; split; apply bcast_idem).
    pose proof (proj1 (bcast_tensors3_thm _ _ _ (Fin 0) (Fin 0) (Fin 0) _ _ _ G0 Gm G1 ltac:(rewrite S0; auto) ltac:(rewrite Sm; auto) ltac:(rewrite S1; auto) t) (HB _ _ _ S0 Sm S1)) as HT.
    destruct HT as [a' [b' [c' [E5 [Sa _]]]]]. unfold t_full. change shape_size with nelem. rewrite E5. cbn [bind fst snd].
    destruct (bcast3_good _ _ _ _ _ _ _ _ _ _ _ _ G0 Gm G1 E5) as [q [Ea [_ [_ [Ga _]]]]].
    unfold t_broadcast in Ea. pose proof (t_view_usable _ (Fin 0) (VBroadcast q) _ _ ltac:(discriminate) G0 U0 Ea) as Ua.
    assert (Xa : xden (mkX d a') d t (fun i => match elem a' i with Some v => v | None => Nan end)).
    { split; [reflexivity|]. split; [apply Ga|]. split; [left; exact Ua|]. split; [apply Sa|]. split; [exact Pt|].
      intros i Vi. cbn [xdata]. rewrite <- Sa in Vi. destruct (good_elem _ a' i Ga Vi) as [v ->]. reflexivity. }
    assert (ND : same_dtype BOOL d = false) by (destruct d; try discriminate; reflexivity).
    rewrite DM. destruct (xden_cast e He _ d BOOL t _ ND Xa) as [k [E6 [D6 _]]]. rewrite E6. cbn [bind].
    unfold x_sub, x_binary, x_full_like. cbn [xdtype]. rewrite D6. reflexivity.
Qed.
End Embed.

(* ---------- the shortened row ---------- *)
Lemma shorten_norm : forall m n x, (0 < m)%R -> (Rnorm n (shorten m n x) <= m)%R.
Proof.
  intros m n x Hm. unfold shorten, Rltb. destruct (Rlt_dec m (Rnorm n x)) as [L|L]; [|unfold Rnorm in *; lra].
  set (N := Rnorm n x) in *. set (k := (m / N)%R).
  assert (E : (Rsum (map (fun q => x q * k * (x q * k)) (seq 0 n)) = k * k * Rsum (map (fun q => x q * x q) (seq 0 n)))%R).
  { induction (seq 0 n) as [|y l IH]; cbn [map Rsum fold_right]; [cbn; ring|]. unfold Rsum in *. cbn [map fold_right]. rewrite IH. ring. }
  assert (P : (0 <= Rsum (map (fun q => x q * x q) (seq 0 n)))%R).
  { apply Rsum_nonneg. apply Forall_forall. intros y Hy. apply in_map_iff in Hy as [q [<- _]]. apply Rle_0_sqr. }
  unfold Rnorm. rewrite E.
  assert (K : (0 < k)%R) by (unfold k, Rdiv; apply Rmult_lt_0_compat; [lra|]; apply Rinv_0_lt_compat; lra).
  rewrite sqrt_mult_alt by nra. rewrite sqrt_square by lra. fold (Rnorm n x). fold N. unfold k. unfold Rdiv. rewrite Rmult_assoc, Rinv_l by lra. lra.
Qed.
