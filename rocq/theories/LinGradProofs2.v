(** The gradient rules of determinant, inverse and trace on tensors. *)
From Coq Require Import List Arith ZArith Lia Bool Reals Lra.
From Verif Require Import Base IndexSpec LayoutModel ViewSpec LayoutProofs LayoutProofs2 KernelModel TensorModel TensorSpec EncodeModel KernelProofs TensorProofs ElementwiseProofs BcastProofs MatrixModel MatrixProofs3.
From Verif Require Import NumModel DenSpec DenProofs NnModel NnSpec NnProofs LayerModel LayerSpec LayerProofs LayerProofs2 AttnSpec AttnProofs.
From Verif Require EncodeProofs.
From Verif Require Import LinSpec LinProofs LinModel LinModel2 LinProofs2 LinProofs3 LinProofs4 LinProofs5 LinGradModel LinGradProofs.
Import ListNotations.
Open Scope nat_scope.

Lemma last_axis : forall s n i, valid (s ++ [n]) i -> exists p x, i = p ++ [x] /\ valid s p /\ x < n.
Proof.
  intros s n i V. pose proof (valid_length _ _ V) as L. rewrite app_length in L. cbn in L.
  destruct i as [|x i] using rev_ind; [cbn in L; lia|]. clear IHi. rewrite app_length in L. cbn in L. exists i, x.
  apply valid_app in V; [|lia]. destruct V as [V W]. cbn in W. tauto.
Qed.
Lemma x_unsqueeze : forall x d s f, xden x d s f ->
  exists t, x_view (VUnsqueeze (-1)) x = Ok t /\ xden t d (s ++ [1]) (fun i => f (firstn (length s) i)).
Proof.
  intros x d s f X. pose proof (xden_pos _ _ _ _ X) as P.
  apply (xden_view (VUnsqueeze (-1)) x d s (s ++ [1]) f); auto; try discriminate.
  - exact I.
  - cbn [shape_rel]. split; [unfold axis_ok; lia|]. exists s, []. rewrite app_nil_r. split; [reflexivity|]. split; [unfold axis_of; cbn [Z.ltb Z.compare]; lia|reflexivity].
  - apply Forall_app. split; auto.
  - intros i j Vi Vj IR. cbn [index_rel] in IR. destruct (last_axis _ _ _ Vi) as (p & z & -> & Vp & Hz).
    rewrite ravel_app in IR by now apply valid_length. change (nelem [1]) with 1 in IR. cbn [ravel] in IR. change (nelem []) with 1 in IR. assert (z = 0) by lia. subst z.
    assert (j = p) by (apply (IndexSpec.ravel_inj s); auto; lia). subst j. f_equal.
    rewrite <- (valid_length _ _ Vp), firstn_app, Nat.sub_diag, firstn_all. cbn. apply app_nil_r.
Qed.
Lemma x_unsqueeze2 : forall x d s f, xden x d s f ->
  exists t1 t2, x_view (VUnsqueeze (-1)) x = Ok t1 /\ x_view (VUnsqueeze (-1)) t1 = Ok t2 /\ xden t2 d (s ++ [1; 1]) (fun i => f (firstn (length s) i)).
Proof.
  intros x d s f X. destruct (x_unsqueeze x d s f X) as (t1 & E1 & X1). destruct (x_unsqueeze t1 d _ _ X1) as (t2 & E2 & X2).
  exists t1, t2. split; [exact E1|]. split; [exact E2|]. rewrite <- app_assoc in X2. cbn [app] in X2. eapply xden_ext; [exact X2|].
  intros i V. cbn beta. rewrite app_length. f_equal. rewrite firstn_firstn. f_equal. lia.
Qed.
Lemma ones_axes : forall s n, bcast (s ++ [n; n]) (s ++ [1; 1]) (s ++ [n; n]).
Proof.
  intros s n. apply bcast_ones. apply Forall2_app; [clear n; induction s; constructor; auto|]. constructor; [auto|]. constructor; auto.
Qed.
Lemma bidx_stack : forall s p i j, valid s p -> firstn (length s) (bidx (s ++ [1; 1]) (p ++ [i; j])) = p.
Proof.
  intros s p i j V. unfold bidx. pose proof (valid_length _ _ V) as L. rewrite !app_length, L, Nat.sub_diag. cbn [skipn].
  clear L. revert p V. induction s as [|d s IH]; intros [|x p] V; cbn in V; try tauto; try reflexivity. cbn [app combine map firstn length fst snd].
  rewrite IH by tauto. destruct (Nat.eqb_spec d 1) as [->|]; [|reflexivity]. f_equal. lia.
Qed.
(** a stack times one number for each matrix *)
Section R.
Variable e : env.
Hypothesis He : env_ok e.
Lemma scale_stack : forall a b d s n f g, allowed NoBool d = true -> xden a d (s ++ [n; n]) f -> xden b d (s ++ [1; 1]) (fun i => g (firstn (length s) i)) ->
  exists r, x_mul e a b = Ok r /\ xden r d (s ++ [n; n]) (fun i => xmul (f i) (g (firstn (length s) i))).
Proof.
  intros a b d s n f g C Xa Xb. destruct (xden_binary e He NoBool xmul a b d _ _ _ _ C Xa Xb (ones_axes s n)) as (r & E & X).
  exists r. split; [exact E|]. eapply xden_ext; [exact X|]. intros i V. cbn beta. destruct (stack_idx _ _ _ _ V) as (p & x & y & -> & Vp & _).
  rewrite bidx_stack by auto. destruct (stack_parts s p x y (valid_length _ _ Vp)) as [-> _]. reflexivity.
Qed.
Lemma det_vjp_den : forall a out g d s n A v gr, allowed NoBool d = true -> xstack a d s n n A -> s <> [] ->
  xden out d s (fun p => Fin (v p)) -> xden g d s (fun p => Fin (gr p)) ->
  exists r b, det_vjp e a out g = Ok r /\ xden r d (s ++ [n; n]) (fun i => xmul (b (firstn (length s) i) (nth (S (length s)) i 0) (nth (length s) i 0)) (Fin (gr (firstn (length s) i) * v (firstn (length s) i)))) /\
    forall p, valid s p -> inv_result n (A p) (b p).
Proof.
  intros a out g d s n A v gr C X NE Xo Xg. destruct (x_inv_ok a d s n A C X) as (ia & b & E & _ & Xi & H).
  unfold det_vjp. rewrite E. cbn [bind].
  destruct (xden_transpose ia d s n n b Xi) as (iat & Et & Xt). rewrite Et. cbn [bind].
  destruct (xden_binary_same e He NoBool xmul g out d s _ _ C Xg Xo) as (sc & Es & Xs). change (x_binary e NoBool xmul) with (x_mul e) in Es. rewrite Es. cbn [bind].
  destruct (x_unsqueeze2 sc d s _ Xs) as (s1 & s2 & E1 & E2 & X2). rewrite E1. cbn [bind]. rewrite E2. cbn [bind].
  destruct (scale_stack iat s2 d s n _ (fun p => xmul (Fin (gr p)) (Fin (v p))) C Xt X2) as (r & Er & Xr).
  exists r, b. split; [exact Er|]. split; [exact Xr|]. exact H.
Qed.
Hypothesis Hm : mat_env_ok e.
Lemma inv_vjp_ok : forall blas out g d s n B G, is_float d = true -> xstack out d s n n B -> xstack g d s n n G ->
  (s = [] -> fit blas g) -> length s <= (if by_blas blas d then 1 else 16) ->
  exists r, inv_vjp e blas out g = Ok r /\ xstack r d s n n (fun p k l => (- sumn n (fun i => sumn n (fun j => B p i k * G p i j * B p l j)))%R).
Proof.
  intros blas out g d s n B G FL Xo Xg F L. assert (C : allowed NoBool d = true) by now apply float_allowed.
  destruct (xstack_transpose blas out d s n n B Xo) as (iat & Et & Ft & Xt). unfold inv_vjp. rewrite Et. cbn [bind].
  destruct (x_matmul_stack e Hm blas iat g d s n n n _ _ C Xt Xg (fun Z => conj (Ft Z) (F Z)) L) as (tmp & Em & Dm & Xm). rewrite Em. cbn [bind].
  destruct (x_matmul_stack e Hm blas tmp iat d s n n n _ _ C Xm Xt) as (r0 & E0 & D0 & X0); auto.
  { intros Z. split; [|auto]. subst s. exact (dense_fit blas tmp d n n _ Xm Dm). }
  rewrite E0. cbn [bind]. destruct (xden_unary e He Signed xneg r0 d _ _ (float_allowed Signed d FL) X0) as (r & Er & Xr).
  exists r. split; [exact Er|]. eapply xstack_of; [exact Xr|]. intros p k l V Hk Hl. cbn beta.
  destruct (stack_parts s p k l (valid_length _ _ V)) as [-> [-> ->]]. cbn [xneg]. do 2 f_equal. rewrite Rsum_sumn, sumn_swap. apply sumn_ext. intros j _.
  rewrite Rsum_sumn, Rmult_comm, <- sumn_scale. apply sumn_ext. intros i _. ring.
Qed.
End R.

(** ** an expanded left operand: the result keeps its layout, so every position along the new axes shows the first *)
Lemma bidx_tail : forall sa p i, valid sa i -> bidx sa (p ++ i) = i.
Proof.
  intros sa p i V. unfold bidx. pose proof (valid_length _ _ V) as L. rewrite app_length, L. replace (length p + length sa - length sa) with (length p) by lia.
  rewrite skipn_app, skipn_all, Nat.sub_diag. cbn [app skipn]. clear L. revert i V.
  induction sa as [|d sa IH]; intros [|x i] V; cbn in V; try tauto; try reflexivity. cbn [combine map fst snd]. rewrite IH by tauto.
  destruct (Nat.eqb_spec d 1) as [->|]; [|reflexivity]. f_equal. lia.
Qed.
Lemma den_binary_left : forall A C B e (za : A) (zc : C) (z : B) op a b q sa sb f g, env_ok e ->
  den a sa f -> den b sb g -> bcast sa sb (q ++ sa) -> all_pos q ->
  exists t, t_binary e za zc z op a b = Ok t /\ tshape t = q ++ sa /\
    forall p i, valid q p -> valid sa i -> elem t (p ++ i) = Some (op (f i) (g (bidx sb (repeat 0 (length q) ++ i)))).
Proof.
  intros A C B e za zc z op a b q sa sb f g He [Ga [Ua [Sa [Pa Ha]]]] [Gb [Ub [Sb [Pb Hb]]]] HB Pq.
  destruct (t_binary_storage A C B e za zc z op a b (q ++ sa)) as [t [a' [E [S [Ta [L [Ls Hv]]]]]]]; auto; try (now rewrite ?Sa, ?Sb).
  destruct (t_contiguous_spec A za a Ga) as [c [Ec [Gc [Sc [Cc [_ [Hsame Hcopy]]]]]]].
  destruct (t_broadcast_addr A za a c (q ++ sa) a' Ga Ec Ta) as [Sa' [_ Had]].
  assert (Hoff : loffset (tlay c) = 0) by (exact (usable_contig A za a c Ga Ua Ec)).
  exists t. split; [exact E|]. split; [exact S|]. intros p i Vp Vi.
  assert (VZ : valid q (repeat 0 (length q))) by now apply zeros_valid.
  assert (AD : addr (tlay t) (p ++ i) = ravel (q ++ sa) (repeat 0 (length q) ++ i)).
  { rewrite L, Had by (apply valid_app; [now apply valid_length|auto]). rewrite Sa, bidx_tail by auto. rewrite addr_contiguous; auto; [|apply Gc|].
    - rewrite Hoff. change (lshape (tlay c)) with (tshape c). rewrite Sc, Sa, ravel_app by apply repeat_length. rewrite EncodeProofs.ravel_repeat0. lia.
    - change (lshape (tlay c)) with (tshape c). rewrite Sc, Sa. now apply valid_length. }
  assert (VV : valid (q ++ sa) (repeat 0 (length q) ++ i)) by (apply valid_app; [apply repeat_length|auto]).
  destruct (Hv _ VV) as [x [y [Hx [Hy Hz]]]]. unfold elem. rewrite AD, Hz. rewrite Sa, bidx_tail, Ha in Hx by auto. rewrite Sb in Hy.
  assert (VB : valid sb (bidx sb (repeat 0 (length q) ++ i))) by (apply (bidx_valid sb sa (q ++ sa)); [now apply bcast_sym|auto]).
  rewrite Hb in Hy by auto. congruence.
Qed.
Lemma left_axes : forall s n, bcast [n; n] (s ++ [1; 1]) (s ++ [n; n]).
Proof.
  intros s n. split; [rewrite !app_length; cbn [length]; lia|]. intros k. rewrite !rev_app_distr. cbn [rev app]. unfold bcast_dim.
  destruct k as [|[|k]]; cbn [nth]; auto. right. left. split; [now destruct k|reflexivity].
Qed.
Lemma eye_den : forall d n, 0 < n -> xden (x_eye d n n) d [n; n] (fun i => Fin (if nth 0 i 0 =? nth 1 i 0 then 1%R else 0%R)).
Proof.
  intros d n H. split; [reflexivity|]. split; [apply from_shape_good; rewrite map_length, seq_length; unfold nelem; cbn; ring|]. split; [left; reflexivity|].
  split; [reflexivity|]. split; [repeat constructor; auto|]. intros i V.
  unfold x_eye. cbn [xdata]. replace (n * n) with (nelem [n; n]) by (unfold nelem; cbn; ring).
  rewrite (elem_fresh _ (fun k => if k / n =? k mod n then Fin 1 else Fin 0)).
  - destruct i as [|x [|y [|? ?]]]; cbn in V; try tauto. cbn [nth ravel]. change (nelem [n]) with (n * 1). change (nelem []) with 1. rewrite Nat.mul_1_r.
    replace (x * n + (y * 1 + 0)) with (y + x * n) by lia. rewrite Nat.div_add, Nat.mod_add, Nat.div_small, Nat.mod_small by lia. cbn [Nat.add]. now destruct (x =? y).
  - exact V.
Qed.
Section T.
Variable e : env.
Hypothesis He : env_ok e.
Lemma trace_vjp_value : forall a g d s n gr, allowed NoBool d = true -> xdtype a = d -> nth (length (xshape a) - 1) (xshape a) 0 = n -> 0 < n ->
  xden g d s (fun p => Fin (gr p)) ->
  exists r, trace_vjp e a g = Ok r /\ xdtype r = d /\ xshape r = s ++ [n; n] /\
    forall p i j, valid s p -> i < n -> j < n -> elem (xdata r) (p ++ [i; j]) = Some (Fin (gr (repeat 0%nat (length s)) * (if (i =? j)%nat then 1 else 0))%R).
Proof.
  intros a g d s n gr C D N P Xg. destruct (x_unsqueeze2 g d s _ Xg) as (s1 & s2 & E1 & E2 & X2).
  unfold trace_vjp. cbv zeta. rewrite E1. cbn [bind]. rewrite E2. cbn [bind]. rewrite N, D.
  pose proof (eye_den d n P) as XE. pose proof (xden_pos _ _ _ _ Xg) as Ps. destruct X2 as [D2 X2]. destruct XE as [DE XE].
  unfold x_mul, x_binary. rewrite D2, DE, C, same_dtype_refl. cbn [negb orb andb].
  destruct (den_binary_left _ _ _ e (Fin 0) (Fin 0) (Fin 0) xmul _ _ s [n; n] (s ++ [1; 1]) _ _ He XE X2 (left_axes s n) Ps) as (t & Et & St & Ht).
  rewrite Et. eexists. split; [reflexivity|]. split; [reflexivity|]. split; [exact St|]. intros p i j V Hi Hj. cbn [xdata].
  rewrite Ht by (cbn; auto). cbn [nth]. rewrite bidx_stack by now apply zeros_valid. cbn [xmul]. do 2 f_equal. ring.
Qed.
(** a single matrix: its result has shape [1], the gradient one axis too many *)
Lemma single_shape : forall (A C B : Type) (za : A) (zc : C) (z : B) op a b n f g,
  den a [n; n] f -> den b [1; 1; 1] g -> exists t, t_binary e za zc z op a b = Ok t /\ tshape t = [1; n; n].
Proof.
  intros A C B za zc z op a b n f g [Ga [Ua [Sa [Pa Ha]]]] [Gb [Ub [Sb [Pb Hb]]]].
  destruct (t_binary_storage A C B e za zc z op a b [1; n; n]) as [t [a' [E [S _]]]]; auto; try (now rewrite ?Sa, ?Sb).
  - rewrite Sa, Sb. exact (left_axes [1] n).
  - eauto.
Qed.
Lemma det_vjp_single : forall a out g d n A v gr, allowed NoBool d = true -> xmat a d n n A -> xden out d [1] v -> xden g d [1] gr ->
  exists r, det_vjp e a out g = Ok r /\ xshape r = [1; n; n].
Proof.
  intros a out g d n A v gr C X Xo Xg. destruct (x_inv_ok a d [] n (fun _ => A) C X) as (ia & b & E & _ & Xi & _).
  unfold det_vjp. rewrite E. cbn [bind]. destruct (xden_transpose ia d [] n n b Xi) as (iat & Et & Xt). rewrite Et. cbn [bind].
  destruct (xden_binary_same e He NoBool xmul g out d [1] _ _ C Xg Xo) as (sc & Es & Xs). change (x_binary e NoBool xmul) with (x_mul e) in Es. rewrite Es. cbn [bind].
  destruct (x_unsqueeze2 sc d [1] _ Xs) as (s1 & s2 & E1 & E2 & X2). rewrite E1. cbn [bind]. rewrite E2. cbn [bind].
  destruct Xt as [Dt Xt]. destruct X2 as [D2 X2]. unfold x_mul, x_binary. rewrite Dt, D2, C, same_dtype_refl. cbn [negb orb andb].
  destruct (single_shape _ _ _ (Fin 0) (Fin 0) (Fin 0) xmul _ _ n _ _ Xt X2) as (t & ET & S). rewrite ET. eexists. split; [reflexivity|]. exact S.
Qed.
End T.
