(** Selection, gathering and the losses. *)
From Coq Require Import List Arith ZArith Lia Bool Permutation Reals Lra.
From Verif Require Import Base IndexSpec LayoutModel ViewSpec LayoutProofs LayoutProofs2 BcastProofs.
From Verif Require Import KernelModel TensorModel TensorSpec KernelProofs TensorProofs ElementwiseProofs.
From Verif Require Import EncodeModel ReduceModel ReduceSpec ReduceProofs ReduceProofs2 SelectModel.
From Verif Require Import SelectProofs MoveModel MoveProofs3 IndexModel IndexProofs.
From Verif Require Import NumModel DenSpec DenProofs NnModel NnSpec NnProofs NnProofs2.
Import ListNotations.
Open Scope nat_scope.

Lemma den_where3 : forall C A e (o : arith A) (zc : C) conv (x : tensor A) (c : tensor C) y s f h g,
  env_ok e -> den x s f -> den c s h -> den y s g ->
  exists t, t_where3 e o zc conv x c y = Ok t /\
    den t s (fun i => aadd o (amul o (conv (h i)) (f i)) (amul o (asub o (aone o) (conv (h i))) (g i))).
Proof.
  intros C A e o zc conv x c y s f h g He Dx Dc Dy.
  pose proof Dx as [Gx [Ux [Sx [Px Ex]]]]. pose proof Dc as [Gc [Uc [Sc [Pc Ec]]]].
  pose proof Dy as [Gy [Uy [Sy [Py Ey]]]].
  destruct (proj1 (bcast_tensors3_thm C A A zc (azero o) (azero o) c x y Gc Gx Gy ltac:(congruence)
    ltac:(congruence) ltac:(congruence) s)) as [c' [x' [y' [E [Sc' [Sx' [Sy' Hv]]]]]]].
  { exists s. rewrite Sc, Sx, Sy. split; apply bcast_idem. }
  destruct (bcast3_good _ _ _ _ _ _ _ _ _ _ _ _ Gc Gx Gy E) as [s0 [T1 [T2 [T3 [Gc' [Gx' Gy']]]]]].
  unfold t_where3. rewrite E. cbn [bind].
  assert (Dc' : den c' s h).
  { split; auto. split; [left; exact (t_view_usable _ _ (VBroadcast s0) _ _ ltac:(discriminate) Gc Uc T1)|].
    split; auto. split; auto. intros i V. destruct (Hv i V) as [-> _]. rewrite Sc, bidx_self by auto. auto. }
  assert (Dx' : den x' s f).
  { split; auto. split; [left; exact (t_view_usable _ _ (VBroadcast s0) _ _ ltac:(discriminate) Gx Ux T2)|].
    split; auto. split; auto. intros i V. destruct (Hv i V) as [_ [-> _]]. rewrite Sx, bidx_self by auto. auto. }
  assert (Dy' : den y' s g).
  { split; auto. split; [left; exact (t_view_usable _ _ (VBroadcast s0) _ _ ltac:(discriminate) Gy Uy T3)|].
    split; auto. split; auto. intros i V. destruct (Hv i V) as [_ [_ ->]]. rewrite Sy, bidx_self by auto. auto. }
  destruct (den_unary C A e (azero o) conv c' s h He Dc') as [m [Em Dm]].
  change (t_cast e (azero o) conv c') with (t_unary e (azero o) conv c'). rewrite Em. cbn [bind].
  assert (Sm : lshape (tlay m) = s) by (destruct Dm as [_ [_ [Sm _]]]; exact Sm). rewrite Sm.
  assert (D1 : den (t_full s (aone o)) s (fun _ => aone o)) by exact (t_full_good_den A (aone o) s Px).
  destruct (den_binary_same A A A e (azero o) (azero o) (azero o) (asub o) _ m s _ _ He D1 Dm) as [inv [Ei Di]].
  rewrite Ei. cbn [bind].
  destruct (den_binary_same A A A e (azero o) (azero o) (azero o) (amul o) _ _ s _ _ He Dm Dx') as [xp [Exp Dxp]].
  rewrite Exp. cbn [bind].
  destruct (den_binary_same A A A e (azero o) (azero o) (azero o) (amul o) _ _ s _ _ He Di Dy') as [yp [Eyp Dyp]].
  rewrite Eyp. cbn [bind].
  destruct (den_binary_same A A A e (azero o) (azero o) (azero o) (aadd o) _ _ s _ _ He Dxp Dyp) as [t [Et Dt]].
  exists t. split; auto.
Qed.

(** an index tensor given as a function, and what [gather] reads through it *)
Lemma den_gather : forall A (zero z : A) t s f a (idx : tensor Z) si c n, den t s f -> den idx si c ->
  plain_layout idx -> axis_ok (length s) a -> nth_error s (axis_of (length s) a) = Some n ->
  length si = length s ->
  (forall k x y, k <> axis_of (length s) a -> nth_error si k = Some x -> nth_error s k = Some y -> x <= y) ->
  (forall i, valid si i -> (0 <= c i < Z.of_nat n)%Z) ->
  exists r, t_gather zero z t a idx = Ok r /\
    den r si (fun i => f (upd i (axis_of (length s) a) (Z.to_nat (c i)))).
Proof.
  intros A zero z t s f a idx si c n [Gt [Ut [St [Pt Et]]]] [Gi [Ui [Si [Pi Ei]]]] PL AX HN LL HK HC.
  subst s si.
  destruct (t_gather_spec A zero z z t a idx n Gt Gi PL AX HN LL HK) as [r [E [Gr [Sr H]]]].
  exists r. split; auto. split; auto.
  assert (Lr : tlay r = tlay idx).
  { clear - E. unfold t_gather in E. destruct (MoveModel.axis_usize _ _); [|discriminate].
    destruct (_ <? _); [|discriminate]. destruct (ub _); try discriminate. cbn [bind] in E. now inversion E. }
  split; [left; rewrite Lr; apply PL|]. split; auto. split; auto.
  intros i V. destruct (H i (c i) (Ei i V) V) as [H1 _]. specialize (HC i V).
  rewrite (H1 (Z.to_nat (c i))) by (unfold names; lia). apply Et.
  (* validity *)
  set (d := axis_of (length (tshape t)) a) in *.
  assert (K : Z.to_nat (c i) < n) by lia. clear - V HN LL HK K. set (k := Z.to_nat (c i)) in *. clearbody k d.
  revert i V d HN HK LL. generalize (tshape t). generalize (tshape idx).
  induction l as [|x l IH]; intros [|y l0] [|p i] V d HN HK LL; cbn in *; try lia; try tauto.
  destruct V as [V1 V2]. destruct d as [|d]; cbn in *.
  - inversion HN; subst. split; auto. clear - V2 HK LL.
    assert (HK' : forall k a b, nth_error l k = Some a -> nth_error l0 k = Some b -> a <= b).
    { intros k a b H1 H2. apply (HK (S k)); auto. }
    clear HK. revert l0 i V2 LL HK'. induction l as [|a l IH]; intros [|b l0] [|q i] V LL HK'; cbn in *; try lia; try tauto.
    destruct V. split; [specialize (HK' 0 a b eq_refl eq_refl); lia|]. apply IH; auto.
    intros k u v H1 H2. apply (HK' (S k)); auto.
  - split; [specialize (HK 0 x y ltac:(lia) eq_refl eq_refl); lia|].
    apply IH; auto. intros k' u v NE H1 H2. apply (HK (S k')); auto.
Qed.

(* ---------- tensors of class numbers ---------- *)

Lemma nelem_one : forall s, nelem (s ++ [1]) = nelem s.
Proof. induction s as [|d s IH]; auto. cbn [app]. now rewrite !nelem_cons, IH. Qed.

Lemma unsqueeze_last_den : forall A (z : A) t s f, den t s f ->
  exists t', t_view z (VUnsqueeze (-1)) t = Ok t' /\ plain_layout t' /\
    den t' (s ++ [1]) (fun i => f (firstn (length s) i)).
Proof.
  intros A z t s f D.
  assert (SR : shape_rel (VUnsqueeze (-1)) s (s ++ [1])).
  { cbn [shape_rel]. split; [unfold axis_ok; lia|]. exists s, []. rewrite app_nil_r. split; auto.
    split; auto. unfold axis_of. cbn [Z.ltb Z.compare]. lia. }
  destruct (den_view A z (VUnsqueeze (-1)) t s (s ++ [1]) f (fun i => f (firstn (length s) i))) as [t' [E D']];
    auto; try discriminate.
  - exact I.
  - destruct D as [_ [_ [_ [P _]]]]. apply Forall_app. split; auto.
  - intros i j Vi Vj IR. cbn in IR. f_equal.
    assert (H : forall s0 i0 j0, valid (s0 ++ [1]) i0 -> valid s0 j0 -> ravel s0 j0 = ravel (s0 ++ [1]) i0 ->
      firstn (length s0) i0 = j0).
    { clear. intros s0 i0 j0 Vi Vj IR.
      assert (V : valid s0 (firstn (length s0) i0) /\ ravel s0 (firstn (length s0) i0) = ravel (s0 ++ [1]) i0).
      { clear j0 Vj IR. revert i0 Vi. induction s0 as [|d s0 IH]; intros [|x i0] V; try (cbn in V; tauto).
        - cbn in *. destruct i0; [|tauto]. split; auto. lia.
        - destruct V as [V1 V2]. destruct (IH i0 V2) as [W1 W2]. cbn [length firstn app]. split; [now split|].
          cbn [ravel]. now rewrite W2, nelem_one. }
      destruct V as [V1 V2]. apply (ravel_inj s0); auto. congruence. }
    apply H; auto.
  - exists t'. split; auto. split; auto. destruct D as [G [U _]].
    destruct (t_contiguous_spec A z t G) as [c [Ec [Gc [Sc [Cc _]]]]].
    pose proof (t_view_usable A z (VUnsqueeze (-1)) t t' ltac:(discriminate) G U E) as O.
    split; auto. rewrite (t_view_unfold A z _ t c G Ec) in E. cbn [apply_view] in E.
    unfold unsqueeze in E. destruct (as_usize _); [|discriminate]. destruct (_ <? _); [discriminate|].
    rewrite Cc in E. cbn in E. inversion E; subst t'. cbn [tlay].
    apply is_contiguous_iff; cbn; auto. unfold wf_layout. cbn. apply compute_strides_length.
Qed.

Lemma squeeze_last_den : forall A (z : A) t s f, den t (s ++ [1]) f ->
  exists t', t_view z (VSqueeze [(-1)%Z]) t = Ok t' /\ den t' s (fun i => f (i ++ [0])).
Proof.
  intros A z t s f D.
  assert (LS : length (s ++ [1]) = S (length s)) by (rewrite app_length; cbn; lia).
  assert (AX : axis_of (length (s ++ [1])) (-1) = length s).
  { rewrite LS. unfold axis_of. cbn [Z.ltb Z.compare]. lia. }
  destruct (den_view A z (VSqueeze [(-1)%Z]) t (s ++ [1]) s f (fun i => f (i ++ [0]))) as [t' [E D']];
    auto; try discriminate.
  - cbn [regular map]. constructor; [intros []|constructor].
  - cbn [shape_rel]. split.
    + intros a [<-|[]]. split; [unfold axis_ok; lia|]. rewrite AX, app_nth2, Nat.sub_diag by lia. reflexivity.
    + cbn [existsb].
      assert (H : forall m l p, p + length l = m ->
        keep_from (fun q => negb ((q =? m) || false)) p (l ++ [1]) = l).
      { clear. intros m. induction l as [|x l IH]; intros p H; cbn in *.
        - replace (p =? m) with true by (symmetry; apply Nat.eqb_eq; lia). reflexivity.
        - replace (p =? m) with false by (symmetry; apply Nat.eqb_neq; lia). cbn. f_equal. apply IH. lia. }
      symmetry. apply H. rewrite AX. lia.
  - destruct D as [_ [_ [_ [P _]]]]. now apply Forall_app in P.
  - intros i j Vi Vj IR. cbn in IR. f_equal. apply (ravel_inj (s ++ [1])); auto.
    + clear - Vi. revert i Vi. induction s as [|d s IH]; intros [|x i] V; cbn in *; try tauto; auto.
      destruct V. split; auto.
    + rewrite IR. clear - Vi. revert i Vi. induction s as [|d s IH]; intros [|x i] V; try (cbn in V; tauto); auto.
      destruct V as [_ V]. cbn [app ravel]. now rewrite (IH i), nelem_one by auto.
  - exists t'. auto.
Qed.

Section Losses.
Variable e : env.
Hypothesis He : env_ok e.

Lemma float_any : forall d c, is_float d = true -> allowed c d = true.
Proof. intros d c H. now apply float_allowed. Qed.

(** ** negative log likelihood, classes along the last axis *)
Lemma nll_ok : forall lp dt s n r (target : tensor Z) c dim, is_float dt = true ->
  xden lp dt (s ++ [n]) (fun i => Fin (r i)) -> den target s c -> length s < 16 ->
  (dim = (-1)%Z \/ dim = Z.of_nat (length s)) ->
  (forall i, valid s i -> (0 <= c i < Z.of_nat n)%Z) ->
  exists t, nll_loss e dim lp target = Ok t /\
    xden t dt [] (fun _ => Fin (Rmean s (fun i => - r (i ++ [Z.to_nat (c i)]))%R)).
Proof.
  intros lp dt s n r target c dim F X T LR HD HC. unfold nll_loss.
  rewrite (xden_shape _ _ _ _ X). destruct X as [XD XT].
  assert (LS : length (s ++ [n]) = S (length s)) by (rewrite app_length; cbn; lia).
  destruct (unsqueeze_last_den Z 0%Z target s c T) as [tu [Eu [PL Du]]]. rewrite Eu. cbn [bind].
  set (gd := if (dim <? 0)%Z then _ else dim).
  assert (GD : gd = Z.of_nat (length s)).
  { unfold gd. destruct HD as [->| ->]; [change (-1 <? 0)%Z with true; cbv iota; rewrite LS; lia|]. destruct (_ <? 0)%Z eqn:E; auto. lia. }
  rewrite GD.
  assert (AX : axis_of (length (s ++ [n])) (Z.of_nat (length s)) = length s).
  { clear. unfold axis_of. replace (Z.of_nat (length s) <? 0)%Z with false by (symmetry; apply Z.ltb_ge; lia). apply Nat2Z.id. }
  destruct (den_gather xr (Fin 0) (Fin 0) (xdata lp) (s ++ [n]) _ (Z.of_nat (length s)) tu (s ++ [1]) _ n XT Du PL)
    as [g [Eg Dg]].
  - unfold axis_ok. lia.
  - rewrite AX, nth_error_app2, Nat.sub_diag by lia. reflexivity.
  - rewrite !app_length. reflexivity.
  - rewrite AX. intros k x y NE H1 H2. destruct (lt_dec k (length s)) as [K|K].
    + rewrite nth_error_app1 in H1, H2 by auto. rewrite H1 in H2. inversion H2. lia.
    + assert (nth_error (s ++ [1]) k = None) by (apply nth_error_None; rewrite app_length; cbn; lia). congruence.
  - intros i V. apply HC. clear - V. revert i V. induction s as [|d s IH]; intros [|x i] V; cbn in *; try tauto.
    destruct V. split; auto.
  - rewrite Eg. cbn [bind].
    destruct (squeeze_last_den xr (Fin 0) g s _ Dg) as [sq [Es Ds]]. rewrite Es. cbn [bind].
    assert (Xs : xden (mkX (xdtype lp) sq) dt s (fun i => Fin (r (i ++ [Z.to_nat (c i)])))).
    { split; [exact XD|]. eapply den_ext; [exact Ds|]. intros i V. cbn beta. rewrite AX.
      assert (L : length i = length s) by now apply valid_length.
      rewrite firstn_app, <- L, firstn_all, Nat.sub_diag. cbn [firstn]. rewrite app_nil_r.
      do 2 f_equal. generalize (Z.to_nat (c i)). clear. intros k. induction i; cbn; auto. now f_equal. }
    destruct (xden_unary e He Signed xneg _ dt s _ (float_allowed _ _ F) Xs) as [ng [En Dn]].
    unfold x_neg. rewrite En. cbn [bind].
    apply (xden_mean_all ng dt s); auto. lia.
Qed.

Lemma nth_error_last : forall (s : list nat) n, nth_error (s ++ [n]) (length s) = Some n.
Proof. intros. now rewrite nth_error_app2, Nat.sub_diag by lia. Qed.
Lemma upd_last : forall (i s : list nat) x k, length i = length s -> upd (i ++ [x]) (length s) k = i ++ [k].
Proof. induction i as [|a i IH]; intros [|b s] x k H; cbn in *; try lia; auto. f_equal. apply IH. lia. Qed.

Lemma cross_entropy_ok : forall lg dt s n r (target : tensor Z) c dim, is_float dt = true ->
  xden lg dt (s ++ [n]) (fun i => Fin (r i)) -> den target s c -> length s < 16 ->
  (dim = (-1)%Z \/ dim = Z.of_nat (length s)) ->
  (forall i, valid s i -> (0 <= c i < Z.of_nat n)%Z) ->
  exists t, cross_entropy_loss e dim lg target = Ok t /\
    xden t dt [] (fun _ => Fin (Rmean s (fun i =>
      - ln (softmax_at (fun i => Fin (r i)) (length s) n (i ++ [Z.to_nat (c i)])))%R)).
Proof.
  intros lg dt s n r target c dim F X T LR HD HC. unfold cross_entropy_loss.
  assert (LS : length (s ++ [n]) = S (length s)) by (rewrite app_length; cbn; lia).
  assert (AX : axis_of (length (s ++ [n])) dim = length s).
  { rewrite LS. unfold axis_of. destruct HD as [->| ->]; [change (-1 <? 0)%Z with true; cbv iota; lia|]. destruct (_ <? 0)%Z eqn:E; lia. }
  assert (NP : 0 < n).
  { pose proof (xden_pos _ _ _ _ X) as P. apply Forall_app in P. destruct P as [_ P]. inversion P; auto. }
  destruct (log_softmax_ok e He lg dt (s ++ [n]) (fun i => Fin (r i)) dim n) as [lp [El Dl]]; auto.
  - rewrite LS. unfold axis_ok. destruct HD as [->| ->]; lia.
  - rewrite AX. apply nth_error_last.
  - lia.
  - intros i V. exact I.
  - intros i V. exists 0, (r (upd i (axis_of (length (s ++ [n])) dim) 0)). auto.
  - rewrite El. cbn [bind]. rewrite AX in Dl.
    set (S := fun i => Rsum (map weight (line (fun i => Fin (r i)) (length s) n i))) in *.
    destruct (nll_ok lp dt s n (fun i => r i - ln (S i))%R target c dim) as [t [Et Dt]]; auto.
    exists t. split; auto. eapply xden_ext; [exact Dt|]. intros i0 _. cbn beta. f_equal.
    unfold Rmean. f_equal. apply Rsum_ext. intros i Hi. apply in_all_idx in Hi.
    assert (SP : (0 < S (i ++ [Z.to_nat (c i)]))%R).
    { unfold S. apply weights_pos. exists (r (upd (i ++ [Z.to_nat (c i)]) (length s) 0)).
      unfold line. apply in_map_iff. exists 0. split; auto. apply in_seq. lia. }
    unfold softmax_at. fold (S (i ++ [Z.to_nat (c i)])). cbn [weight].
    unfold Rdiv. rewrite ln_mult; [|apply exp_pos|now apply Rinv_0_lt_compat].
    rewrite ln_exp, ln_Rinv by auto. lra.
Qed.

(** ** mean squared error *)
Lemma mse_ok : forall p t dt s sb f g, is_float dt = true ->
  xden p dt s (fun i => Fin (f i)) -> xden t dt sb (fun i => Fin (g i)) -> bcast s sb s ->
  length s <= 16 ->
  exists l, mse_loss e p t = Ok l /\
    xden l dt [] (fun _ => Fin (Rmean s (fun i => (f i - g (bidx sb i)) * (f i - g (bidx sb i)))%R)).
Proof.
  intros p t dt s sb f g F P T HB HR. unfold mse_loss.
  destruct (xden_binary e He NoBool xsub p t dt s sb _ _ (float_any _ _ F) P T HB) as [df [Ed Dd]].
  unfold x_sub. rewrite Ed. cbn [bind].
  assert (DT : xdtype df = dt) by apply Dd. rewrite DT.
  destruct (xden_scalar e He Floats (fun v _ => xsq v) df dt s _ (Fin 2) (float_any _ _ F) Dd) as [sq [Es Ds]].
  unfold x_pow2_scalar. rewrite Es. cbn [bind].
  assert (Ds' : xden sq dt s (fun i => Fin ((f i - g (bidx sb i)) * (f i - g (bidx sb i)))%R)).
  { eapply xden_ext; [exact Ds|]. intros i V. reflexivity. }
  destruct (xden_sum_all sq dt s _ F Ds' HR) as [su [Eu Du]]. rewrite Eu. cbn [bind].
  assert (DT2 : xdtype sq = dt) by apply Ds'. rewrite DT2, (xden_shape _ _ _ _ Ds').
  destruct (xden_scalar e He Floats xdiv su dt [] _ (nat_x (shape_size s)) (float_any _ _ F) Du) as [l [El Dl]].
  exists l. split; [exact El|]. eapply xden_ext; [exact Dl|]. intros i V. cbn beta.
  unfold nat_x. rewrite xdiv_fin; [reflexivity|]. apply INR_pos. change shape_size with nelem.
  apply all_pos_nelem. eapply xden_pos; exact P.
Qed.

(** ** binary cross entropy from logits *)
Lemma xmax_fin : forall a b, xmax (Fin a) (Fin b) = Fin (Rmax a b).
Proof.
  intros a b. unfold xmax, xltb, Rltb. destruct (Rlt_dec b a) as [H|H]; f_equal.
  - rewrite Rmax_left; lra.
  - rewrite Rmax_right; lra.
Qed.

Lemma ln_sigma : forall x t, (Rmax x 0 - x * t + ln (exp (- Rabs x) + 1) = cross_entropy2 (sigma x) t)%R.
Proof.
  intros x t. unfold cross_entropy2, sigma.
  pose proof (exp_pos (- x)) as E1. pose proof (exp_pos x) as E2.
  replace (1 - / (1 + exp (- x)))%R with (exp (- x) * / (1 + exp (- x)))%R by (field; lra).
  rewrite ln_mult by (try apply Rinv_0_lt_compat; lra). rewrite ln_Rinv by lra. rewrite ln_exp.
  destruct (Rle_dec 0 x) as [H|H].
  - rewrite Rmax_left by lra. rewrite Rabs_right by lra. rewrite (Rplus_comm (exp (- x)) 1). lra.
  - rewrite Rmax_right by lra. rewrite Rabs_left by lra. rewrite Ropp_involutive.
    replace (ln (1 + exp (- x))) with (- x + ln (exp x + 1))%R; [lra|].
    rewrite <- (ln_exp (- x)) at 1. rewrite <- ln_mult by (try apply exp_pos; lra). f_equal.
    rewrite Rmult_plus_distr_l, <- exp_plus. replace (- x + x)%R with 0%R by lra. rewrite exp_0. lra.
Qed.

Lemma bce_logits_ok : forall x t dt s f g, is_float dt = true ->
  xden x dt s (fun i => Fin (f i)) -> xden t dt s (fun i => Fin (g i)) -> length s <= 16 ->
  exists l, bce_logits_loss e x t = Ok l /\
    xden l dt [] (fun _ => Fin (Rmean s (fun i => cross_entropy2 (sigma (f i)) (g i)))).
Proof.
  intros x t dt s f g F X T HR. unfold bce_logits_loss.
  pose proof (xden_full_like 0 x dt s _ X) as Z0.
  destruct (xden_binary_same e He NoBool xmax x _ dt s _ _ (float_any _ _ F) X Z0) as [mv [Em Dm]].
  unfold x_maximum. rewrite Em. cbn [bind].
  destruct (xden_unary e He Signed xabs x dt s _ (float_any _ _ F) X) as [ab [Ea Da]].
  unfold x_abs. rewrite Ea. cbn [bind].
  destruct (xden_unary e He Signed xneg ab dt s _ (float_any _ _ F) Da) as [na [En Dn]].
  unfold x_neg. rewrite En. cbn [bind].
  destruct (xden_unary e He Floats xexp na dt s _ (float_any _ _ F) Dn) as [ex [Ee De]].
  unfold x_exp. rewrite Ee. cbn [bind].
  assert (DT : xdtype na = dt) by apply Dn. rewrite DT.
  destruct (xden_scalar e He NoBool xadd ex dt s _ (Fin 1) (float_any _ _ F) De) as [ex1 [Ee1 De1]].
  unfold x_add_scalar. rewrite Ee1. cbn [bind].
  destruct (xden_unary e He Floats xln ex1 dt s _ (float_any _ _ F) De1) as [lt_ [El Dl]].
  unfold x_ln. rewrite El. cbn [bind].
  destruct (xden_binary_same e He NoBool xmul x t dt s _ _ (float_any _ _ F) X T) as [tt_ [Et Dt]].
  unfold x_mul. rewrite Et. cbn [bind].
  destruct (xden_binary_same e He NoBool xsub mv tt_ dt s _ _ (float_any _ _ F) Dm Dt) as [df [Ed Dd]].
  unfold x_sub. rewrite Ed. cbn [bind].
  destruct (xden_binary_same e He NoBool xadd df lt_ dt s _ _ (float_any _ _ F) Dd Dl) as [ls [Els Dls]].
  unfold x_add. rewrite Els. cbn [bind].
  apply (xden_mean_all ls dt s (fun i => cross_entropy2 (sigma (f i)) (g i)) F); auto.
  eapply xden_ext; [exact Dls|]. intros i V. cbn beta. rewrite xmax_fin. cbn [xabs xneg xexp xadd xmul].
  assert (P : (0 < exp (- Rabs (f i)) + 1)%R) by (pose proof (exp_pos (- Rabs (f i))); lra).
  unfold xln, Rltb. destruct (Rlt_dec 0 _) as [_|N]; [|contradiction]. unfold xsub. cbn [xneg xadd]. f_equal.
  rewrite <- ln_sigma. lra.
Qed.

(** ** KL divergence *)
Lemma kl_ok : forall x t s n f g, xden x EncodeModel.F32 (n :: s) (fun i => Fin (f i)) ->
  xden t EncodeModel.F32 (n :: s) (fun i => Fin (g i)) -> length s < 16 ->
  (forall i, valid (n :: s) i -> 0 < g i)%R ->
  exists l, kl_div_loss e false x t = Ok l /\
    xden l EncodeModel.F32 [] (fun _ => Fin (Rsum (map (fun i => g i * (ln (g i) - f i)) (all_idx (n :: s))) / INR n)%R).
Proof.
  intros x t s n f g X T HR HP. unfold kl_div_loss. assert (F : is_float EncodeModel.F32 = true) by reflexivity.
  destruct (xden_unary e He Floats xln t EncodeModel.F32 (n :: s) _ (float_any _ _ F) T) as [lt_ [El Dl]].
  unfold x_ln. rewrite El. cbn [bind].
  destruct (xden_binary_same e He NoBool xmul t lt_ EncodeModel.F32 (n :: s) _ _ (float_any _ _ F) T Dl) as [a [Ea Da]].
  unfold x_mul. rewrite Ea. cbn [bind].
  destruct (xden_binary_same e He NoBool xmul t x EncodeModel.F32 (n :: s) _ _ (float_any _ _ F) T X) as [b [Eb Db]].
  rewrite Eb. cbn [bind].
  destruct (xden_binary_same e He NoBool xsub a b EncodeModel.F32 (n :: s) _ _ (float_any _ _ F) Da Db) as [ls [Els Dls]].
  unfold x_sub. rewrite Els. cbn [bind].
  assert (D' : xden ls EncodeModel.F32 (n :: s) (fun i => Fin (g i * (ln (g i) - f i)))).
  { eapply xden_ext; [exact Dls|]. intros i V. cbn beta. specialize (HP i V). unfold xln, Rltb.
    destruct (Rlt_dec 0 (g i)); [|contradiction]. cbn. f_equal. lra. }
  destruct (xden_sum_all ls EncodeModel.F32 (n :: s) _ F D') as [su [Eu Du]]; [cbn; lia|]. rewrite Eu. cbn [bind].
  unfold dim0. rewrite (xden_shape _ _ _ _ X). cbn [idx_or_panic nth_error bind].
  destruct (xden_scalar e He Floats xdiv su EncodeModel.F32 [] _ (nat_x n) (float_any _ _ F) Du) as [l [Ell Dll]].
  exists l. split; [exact Ell|]. eapply xden_ext; [exact Dll|]. intros i V. cbn beta.
  unfold nat_x. rewrite xdiv_fin; [reflexivity|]. apply INR_pos.
  pose proof (xden_pos _ _ _ _ X) as P. inversion P; auto.
Qed.
Lemma kl_log_ok : forall x t s n f g, xden x EncodeModel.F32 (n :: s) (fun i => Fin (f i)) ->
  xden t EncodeModel.F32 (n :: s) (fun i => Fin (g i)) -> length s < 16 ->
  exists l, kl_div_loss e true x t = Ok l /\
    xden l EncodeModel.F32 [] (fun _ => Fin (Rsum (map (fun i => exp (g i) * (g i - f i)) (all_idx (n :: s))) / INR n)%R).
Proof.
  intros x t s n f g X T HR. unfold kl_div_loss. assert (F : is_float EncodeModel.F32 = true) by reflexivity.
  destruct (xden_unary e He Floats xexp t EncodeModel.F32 (n :: s) _ (float_any _ _ F) T) as [lt_ [El Dl]].
  unfold x_exp. rewrite El. cbn [bind].
  destruct (xden_binary_same e He NoBool xsub t x EncodeModel.F32 (n :: s) _ _ (float_any _ _ F) T X) as [b [Eb Db]].
  unfold x_sub. rewrite Eb. cbn [bind].
  destruct (xden_binary_same e He NoBool xmul lt_ b EncodeModel.F32 (n :: s) _ _ (float_any _ _ F) Dl Db) as [ls [Els Dls]].
  unfold x_mul. rewrite Els. cbn [bind].
  assert (D' : xden ls EncodeModel.F32 (n :: s) (fun i => Fin (exp (g i) * (g i - f i)))).
  { eapply xden_ext; [exact Dls|]. intros i V. reflexivity. }
  destruct (xden_sum_all ls EncodeModel.F32 (n :: s) _ F D') as [su [Eu Du]]; [cbn; lia|]. rewrite Eu. cbn [bind].
  unfold dim0. rewrite (xden_shape _ _ _ _ X). cbn [idx_or_panic nth_error bind].
  destruct (xden_scalar e He Floats xdiv su EncodeModel.F32 [] _ (nat_x n) (float_any _ _ F) Du) as [l [Ell Dll]].
  exists l. split; [exact Ell|]. eapply xden_ext; [exact Dll|]. intros i V. cbn beta.
  unfold nat_x. rewrite xdiv_fin; [reflexivity|]. apply INR_pos.
  pose proof (xden_pos _ _ _ _ X) as P. inversion P; auto.
Qed.

(** ** binary cross entropy as coded: the clamp returns its upper bound *)
Lemma clamp_ok : forall a dt s f lo hi, is_float dt = true -> xden a dt s (fun i => Fin (f i)) -> (lo <= hi)%R ->
  exists t, x_clamp e a (dt, Fin lo) (dt, Fin hi) = Ok t /\ xden t dt s (fun _ => Fin hi).
Proof.
  intros a dt s f lo hi F [XD XT] LH. unfold x_clamp. cbn [fst snd]. rewrite XD, same_dtype_refl.
  replace (is_bool dt) with false by (destruct dt; auto; discriminate). cbn [negb orb].
  unfold t_clamp, t_clamp_min.
  assert (SA : lshape (tlay (xdata a)) = s) by (destruct XT as [_ [_ [S _]]]; exact S).
  assert (P : all_pos s) by (destruct XT as [_ [_ [_ [P _]]]]; exact P). rewrite SA.
  destruct (den_unary xr bool e false (fun v => xltb v (Fin lo)) _ s _ He XT) as [c1 [E1 D1]].
  rewrite E1. cbn [bind].
  assert (DL : den (t_full s (Fin lo)) s (fun _ => Fin lo)) by exact (t_full_good_den xr (Fin lo) s P).
  destruct (den_where3 bool xr e xarith false (bconv xarith) _ c1 _ s _ _ _ He XT D1 DL) as [m [Em Dm]].
  rewrite Em. cbn [bind]. unfold t_clamp_max.
  assert (Dm' : den m s (fun i => Fin (Rmin (f i) lo))).
  { eapply den_ext; [exact Dm|]. intros i V. cbn beta. unfold bconv, xltb, Rltb.
    destruct (Rlt_dec (f i) lo); cbn; f_equal; [rewrite Rmin_left by lra|rewrite Rmin_right by lra]; lra. }
  assert (SM : lshape (tlay m) = s) by (destruct Dm as [_ [_ [S _]]]; exact S). rewrite SM.
  destruct (den_unary xr bool e false (fun v => xltb (Fin hi) v) _ s _ He Dm') as [c2 [E2 D2]].
  rewrite E2. cbn [bind].
  assert (DH : den (t_full s (Fin hi)) s (fun _ => Fin hi)) by exact (t_full_good_den xr (Fin hi) s P).
  destruct (den_where3 bool xr e xarith false (bconv xarith) _ c2 _ s _ _ _ He Dm' D2 DH) as [m2 [Em2 Dm2]].
  rewrite Em2. cbn [bind]. eexists. split; [reflexivity|]. split; [reflexivity|].
  eapply den_ext; [exact Dm2|]. intros i V. cbn beta. unfold bconv, xltb, Rltb.
  destruct (Rlt_dec hi (Rmin (f i) lo)) as [H|H].
  - pose proof (Rmin_r (f i) lo). lra.
  - cbn. f_equal. lra.
Qed.

Lemma bce_actual : forall eps p t dt s f g, is_float dt = true -> (0 < eps < 1 / 2)%R ->
  xden p dt s (fun i => Fin (f i)) -> xden t dt s (fun i => Fin (g i)) -> length s <= 16 ->
  exists l, bce_loss e (dt, Fin eps) p t = Ok l /\
    xden l dt [] (fun _ => Fin (Rmean s (fun i => cross_entropy2 (1 - eps) (g i)))).
Proof.
  intros eps p t dt s f g F HE P T HR. unfold bce_loss. cbn [fst snd].
  change (xsub (Fin 1) (Fin eps)) with (Fin (1 + - eps)).
  destruct (clamp_ok p dt s f eps (1 + - eps) F P) as [pc [Ec Dc]]; [lra|].
  rewrite Ec. cbn [bind].
  destruct (xden_unary e He Floats xln pc dt s _ (float_any _ _ F) Dc) as [lp [El Dl]].
  unfold x_ln. rewrite El. cbn [bind].
  destruct (xden_binary_same e He NoBool xmul t lp dt s _ _ (float_any _ _ F) T Dl) as [a [Ea Da]].
  unfold x_mul. rewrite Ea. cbn [bind].
  pose proof (xden_full_like 1 t dt s _ T) as O1.
  destruct (xden_binary_same e He NoBool xsub _ t dt s _ _ (float_any _ _ F) O1 T) as [omt [Eo Do]].
  unfold x_sub. rewrite Eo. cbn [bind].
  pose proof (xden_full_like 1 pc dt s _ Dc) as O2.
  destruct (xden_binary_same e He NoBool xsub _ pc dt s _ _ (float_any _ _ F) O2 Dc) as [omp [Eo2 Do2]].
  rewrite Eo2. cbn [bind].
  destruct (xden_unary e He Floats xln omp dt s _ (float_any _ _ F) Do2) as [lo [El2 Dl2]].
  rewrite El2. cbn [bind].
  destruct (xden_binary_same e He NoBool xmul omt lo dt s _ _ (float_any _ _ F) Do Dl2) as [b [Eb Db]].
  rewrite Eb. cbn [bind].
  destruct (xden_binary_same e He NoBool xadd a b dt s _ _ (float_any _ _ F) Da Db) as [su [Es Ds]].
  unfold x_add. rewrite Es. cbn [bind].
  destruct (xden_unary e He Signed xneg su dt s _ (float_any _ _ F) Ds) as [bc [Ebc Dbc]].
  unfold x_neg. rewrite Ebc. cbn [bind].
  apply (xden_mean_all bc dt s (fun i => cross_entropy2 (1 - eps) (g i)) F); auto.
  eapply xden_ext; [exact Dbc|]. intros i V. cbn beta. unfold xsub. cbn [xneg xadd].
  unfold xln, Rltb. destruct (Rlt_dec 0 (1 + - eps)); [|lra]. destruct (Rlt_dec 0 (1 + - (1 + - eps))); [|lra].
  cbn. reflexivity.
Qed.
End Losses.
