(** Attention with a mask: every result is NaN. *)
From Coq Require Import List Arith ZArith Lia Bool Permutation Reals Lra.
From Verif Require Import Base IndexSpec LayoutModel ViewSpec LayoutProofs LayoutProofs2 BcastProofs.
From Verif Require Import KernelModel TensorModel TensorSpec KernelProofs TensorProofs ElementwiseProofs.
From Verif Require Import EncodeModel SelectModel SelectProofs MatrixModel MatrixProofs2 MatrixProofs3 MatrixProofs4 DenSpec DenProofs.
From Verif Require Import ReduceModel ReduceSpec ReduceProofs ReduceProofs2.
From Verif Require Import NumModel NnModel NnSpec NnProofs NnProofs2 LayerModel LayerSpec LayerProofs LayerProofs2.
From Verif Require Import NormProofs AttnModel AttnSpec AttnProofs AttnProofs2.
Import ListNotations.
Open Scope nat_scope.

(** a reduction of which only a property of the results is known *)
Lemma den_reduce_prop : forall A B (init : B) (f : B -> A -> B) (fin : nat -> B -> A) z
    (t : tensor A) dims ds keep s g (P : A -> Prop),
  den t s g -> ReduceSpec.axes_of (length s) dims ds -> NoDup ds -> length s <= 16 ->
  (forall j l, valid (rshape keep ds s) j -> Permutation l (fibre keep ds s j) ->
     P (fin (nelem (extents ds s)) (fold_left f (map g l) init))) ->
  exists r h, t_reduce init (plain f) fin z t dims keep = Ok r /\ den r (rshape keep ds s) h /\
    forall j, valid (rshape keep ds s) j -> P (h j).
Proof.
  intros A B init f fin z t dims ds keep s g P [G [U [S [Ps H]]]] Hax ND HR HH. subst s.
  destruct (elem t (repeat 0 (length (tshape t)))) as [d0|] eqn:E0.
  2:{ rewrite H in E0 by now apply zeros_valid. discriminate. }
  destruct (reduce_plain A B A init f fin z d0 t dims ds keep) as [r [E [Gr [L HJ]]]]; auto.
  { right. intros a d Ed _. apply nth_error_In in Ed. unfold all_pos in Ps. rewrite Forall_forall in Ps. now apply Ps. }
  assert (Sr : tshape r = rshape keep ds (tshape t)) by (unfold tshape at 1; now rewrite L).
  assert (K : forall j, valid (rshape keep ds (tshape t)) j -> exists v, elem r j = Some v /\ P v).
  { intros j V. rewrite <- Sr in V. destruct (HJ j V) as [I [vs [PI [F Er]]]]. eexists. split; [exact Er|]. rewrite Sr in V.
    replace vs with (map g I); [now apply (HH j)|].
    assert (FV : Forall (valid (tshape t)) I).
    { apply Forall_forall. intros i Hi. apply (Permutation_in _ PI) in Hi. apply filter_In in Hi.
      destruct Hi as [Hi _]. now apply in_all_idx. }
    clear - F FV H. induction F as [|i v l l' E F IH]; cbn; auto.
    inversion FV; subst. rewrite H in E by auto. inversion E. f_equal. auto. }
  exists r, (fun j => match elem r j with Some v => v | None => z end). split; auto. split.
  - split; [auto|]. split; [left; now rewrite L|]. split; [auto|]. split; [now apply rshape_pos|].
    intros j V. destruct (K j V) as [v [-> _]]. reflexivity.
  - intros j V. destruct (K j V) as [v [-> Pv]]. exact Pv.
Qed.

(** minus infinity or not a number *)
Definition bad (v : xr) : Prop := v = NInf \/ v = Nan.
Lemma bad_max : forall l b, bad b -> Forall bad l -> bad (fold_left xmax l b).
Proof.
  induction l as [|v l IH]; intros b Hb F; cbn; auto. inversion F; subst. apply IH; auto.
  destruct Hb as [->| ->], H1 as [->| ->]; cbn; unfold bad; auto.
Qed.
Lemma bad_sub : forall a b, bad a -> bad b -> xsub a b = Nan.
Proof. intros a b [->| ->] [->| ->]; reflexivity. Qed.
Lemma nan_sum : forall l b, fold_left xadd (map (fun _ : list nat => Nan) l) b = if length l =? 0 then b else Nan.
Proof.
  destruct l as [|v l]; intros b; cbn; auto.
  assert (H : forall l, fold_left xadd (map (fun _ : list nat => Nan) l) Nan = Nan) by (induction l0; cbn; auto).
  replace (xadd b Nan) with Nan by (now destruct b). apply H.
Qed.

Lemma x_softmax_nan : forall e a d s f, env_ok e -> is_float d = true -> xden a d s f -> 1 <= length s <= 16 ->
  (forall i, valid s i -> bad (f i)) ->
  exists y, x_softmax e a (-1) = Ok y /\ dense y /\ xden y d s (fun _ => Nan).
Proof.
  intros e a d s f He F X HR HB. unfold x_softmax. rewrite (xden_shape _ _ _ _ X).
  assert (HD : axis_ok (length s) (-1)) by (unfold axis_ok; lia).
  set (k := axis_of (length s) (-1)).
  assert (Hax : ReduceSpec.axes_of (length s) [soft_axis (length s) (-1)] [k]) by (apply soft_axes; auto; lia).
  assert (ND : NoDup [k]) by (constructor; [intros []|constructor]).
  pose proof X as [Da Ha]. pose proof (xden_pos _ _ _ _ X) as P.
  destruct (den_reduce_prop xr xr NInf xmax (fun _ b => b) (Fin 0) (xdata a) [soft_axis (length s) (-1)] [k] true s f bad Ha Hax ND)
    as [mx [h [Em [Dm Hh]]]]; [lia| |].
  { intros j l V PL. apply bad_max; [now left|]. apply Forall_forall. intros v Hv. apply in_map_iff in Hv. destruct Hv as [i [<- Hi]].
    apply HB. eapply fibre_in. eapply Permutation_in; eauto. }
  unfold x_max, x_reduce. rewrite Da, (float_allowed NoBool d F). cbn [negb]. rewrite Em. cbn [bind].
  rewrite rshape_one in Dm, Hh.
  assert (Xm : xden (mkX d mx) d (upd s k 1) h) by (split; auto).
  destruct (xden_binary_axis e He NoBool xsub a (mkX d mx) d s k f h (float_allowed NoBool d F) X Xm) as [sh [Es Ds]].
  unfold x_sub. rewrite Es. cbn [bind].
  assert (Ds' : xden sh d s (fun _ => Nan)).
  { eapply xden_ext; [exact Ds|]. intros i V. cbn beta. apply bad_sub; auto. apply Hh. now apply valid_upd1. }
  destruct (xden_unary e He Floats xexp sh d s _ (float_allowed _ _ F) Ds') as [ex [Ee De]]. unfold x_exp. rewrite Ee. cbn [bind].
  destruct (xden_reduce NoBool (Fin 0) xadd (fun _ b => b) ex [soft_axis (length s) (-1)] [k] true d s _ (fun _ => Nan) (float_allowed _ _ F) De Hax ND)
    as [su [Eu Du]]; [lia| |].
  { intros j l V PL. change (fun _ : list nat => xexp Nan) with (fun _ : list nat => Nan). rewrite nan_sum.
    assert (LL : length l = nelem (extents [k] s)).
    { rewrite (Permutation_length PL). apply length_fibre; auto. constructor; [|constructor]. unfold k, axis_of. cbn [Z.ltb Z.compare]. lia. }
    pose proof (extents_pos [k] s P) as EP. rewrite LL. destruct (Nat.eqb_spec (nelem (extents [k] s)) 0) as [Z|_]; auto.
    exfalso. rewrite Z in EP. assert (0 < 0); [|lia]. apply EP. constructor; [|constructor]. unfold k, axis_of. cbn [Z.ltb Z.compare]. lia. }
  rewrite rshape_one in Du. unfold x_sum. rewrite Eu. cbn [bind].
  destruct (xden_binary_axis e He Floats xdiv ex su d s k _ _ (float_allowed _ _ F) De Du) as [y [Ey Dy]].
  exists y. unfold x_div. split; [exact Ey|]. split.
  - exact (x_binary_dense e Floats xdiv ex su d s _ _ y De Dy Ey).
  - eapply xden_ext; [exact Dy|]. intros i V. reflexivity.
Qed.

Section Mask.
Variable e : env.
Hypothesis He : env_ok e.

Lemma xden_where3 : forall x c y d s sc f h g, is_float d = true -> xden x d s f -> xden c BOOL sc h -> xden y d s g -> bcast sc s s ->
  exists t, x_where3 e x c y = Ok t /\
    xden t d s (fun i => xadd (xmul (h (bidx sc i)) (f i)) (xmul (xsub (Fin 1) (h (bidx sc i))) (g i))).
Proof.
  intros x c y d s sc f h g F [Tx Dx] [Tc Dc] [Ty Dy] BC. pose proof (float_allowed NoBool _ F) as C.
  pose proof Dx as [Gx [Ux [Sx [Px Ex]]]]. pose proof Dc as [Gc [Uc [Sc [Pc Ec]]]].
  pose proof Dy as [Gy [Uy [Sy [Py Ey]]]].
  destruct (proj1 (bcast_tensors3_thm xr xr xr (Fin 0) (Fin 0) (Fin 0) (xdata c) (xdata x) (xdata y) Gc Gx Gy ltac:(congruence)
    ltac:(congruence) ltac:(congruence) s)) as [c' [x' [y' [E [Sc' [Sx' [Sy' Hv]]]]]]].
  { exists s. rewrite Sc, Sx, Sy. split; [exact BC|apply bcast_idem]. }
  destruct (bcast3_good _ _ _ _ _ _ _ _ _ _ _ _ Gc Gx Gy E) as [s0 [T1 [T2 [T3 [Gc' [Gx' Gy']]]]]].
  unfold x_where3. rewrite E. cbn [bind fst snd xdtype]. rewrite Tx, Tc, Ty.
  assert (Dc' : xden (mkX BOOL c') BOOL s (fun i => h (bidx sc i))).
  { split; [auto|]. split; [exact Gc'|]. split; [left; exact (t_view_usable _ _ (VBroadcast s0) _ _ ltac:(discriminate) Gc Uc T1)|].
    split; auto. split; auto. intros i V. cbn [xdata]. destruct (Hv i V) as [-> _]. rewrite Sc. apply Ec.
    apply (bidx_valid sc s s); auto. }
  assert (Dx' : xden (mkX d x') d s f).
  { split; [auto|]. split; [exact Gx'|]. split; [left; exact (t_view_usable _ _ (VBroadcast s0) _ _ ltac:(discriminate) Gx Ux T2)|].
    split; auto. split; auto. intros i V. cbn [xdata]. destruct (Hv i V) as [_ [-> _]]. rewrite Sx, TensorProofs.bidx_self by auto. auto. }
  assert (Dy' : xden (mkX d y') d s g).
  { split; [auto|]. split; [exact Gy'|]. split; [left; exact (t_view_usable _ _ (VBroadcast s0) _ _ ltac:(discriminate) Gy Uy T3)|].
    split; auto. split; auto. intros i V. cbn [xdata]. destruct (Hv i V) as [_ [_ ->]]. rewrite Sy, TensorProofs.bidx_self by auto. auto. }
  destruct (xden_cast e He (mkX BOOL c') BOOL d s _ (float_not_bool d F) Dc') as [m [Em Dm]]. rewrite Em. cbn [bind].
  destruct (xden_binary_same e He NoBool xsub (x_full_like 1 m) m d s _ _ C (xden_full_like 1 m d s _ Dm) Dm) as [iv [Ei Di]].
  unfold x_sub. rewrite Ei. cbn [bind].
  destruct (xden_binary_same e He NoBool xmul m (mkX d x') d s _ _ C Dm Dx') as [xp [Ep Dp]]. unfold x_mul. rewrite Ep. cbn [bind].
  destruct (xden_binary_same e He NoBool xmul iv (mkX d y') d s _ _ C Di Dy') as [yp [Eq Dq]]. rewrite Eq. cbn [bind].
  destruct (xden_binary_same e He NoBool xadd xp yp d s _ _ C Dp Dq) as [t [Et Dt]].
  exists t. split; auto.
Qed.

Lemma fill_bad : forall (b : bool) v, bad (xadd (xmul (xbool b) v) (xmul (xsub (Fin 1) (xbool b)) NInf)).
Proof.
  intros b v. assert (E : xmul (xsub (Fin 1) (xbool b)) NInf = if b then Nan else NInf).
  { destruct b; cbn; unfold xscale, Rltb.
    - destruct (Rlt_dec 0 (1 + - (1))); [lra|]. destruct (Rlt_dec (1 + - (1)) 0); [lra|]. reflexivity.
    - destruct (Rlt_dec 0 (1 + - 0)); [reflexivity|lra]. }
  rewrite E. destruct b.
  - right. now destruct (xmul (xbool true) v).
  - destruct v; cbn; unfold xscale, Rltb; [now left| | |now right].
    + destruct (Rlt_dec 0 0); [lra|]. now right.
    + destruct (Rlt_dec 0 0); [lra|]. now right.
Qed.
Lemma masked_fill_bad : forall x c d s sc f (h : list nat -> bool), is_float d = true -> xden x d s f ->
  xden c BOOL sc (fun i => xbool (h i)) -> bcast sc s s ->
  exists t g, x_masked_fill e d x c NInf = Ok t /\ xden t d s g /\ forall i, bad (g i).
Proof.
  intros x c d s sc f h F X Xc BC. unfold x_masked_fill. rewrite (xden_shape _ _ _ _ X).
  assert (Xf : xden (mkX d (t_full s NInf)) d s (fun _ => NInf)).
  { split; [reflexivity|]. apply t_full_good_den. exact (xden_pos _ _ _ _ X). }
  destruct (xden_where3 x c _ d s sc f _ _ F X Xc Xf BC) as [t [E D]].
  eexists t, _. split; [exact E|]. split; [exact D|]. intros i. cbn beta. apply fill_bad.
Qed.

Lemma arange_ok : forall n, 0 < n -> exists t, x_arange n = Ok t /\ xden t I32 [n] (fun i => nat_x (nth 0 i 0)).
Proof.
  intros n Hn. unfold x_arange. replace (n =? 0) with false by (symmetry; apply Nat.eqb_neq; lia).
  eexists. split; [reflexivity|]. eapply xden_ext.
  - apply (xlist_den I32 [n] (map nat_x (seq 0 n))); [|constructor; auto].
    rewrite map_length, seq_length. rewrite nelem_cons. change (nelem []) with 1. lia.
  - intros i V. destruct i as [|i [|? ?]]; cbn in V; try tauto.
    destruct V as [V _]. assert (E : ravel [n] [i] = i) by (cbn [ravel]; change (nelem []) with 1; lia). rewrite E. cbn [nth].
    rewrite (nth_indep _ Nan (nat_x 0)) by (now rewrite map_length, seq_length).
    rewrite map_nth, seq_nth by auto. reflexivity.
Qed.
Lemma xden_reshape : forall a d s s' f, xden a d s f -> nelem s' = nelem s -> all_pos s' ->
  exists t, x_view (VReshape s') a = Ok t /\ xden t d s' (fun i => f (unravel s (ravel s' i))).
Proof.
  intros a d s s' f X N P. pose proof (xden_pos _ _ _ _ X) as Ps.
  apply (xden_view (VReshape s') a d s s' f); auto; try discriminate; [exact I|cbn; auto|].
  intros i j Vi Vj IR. cbn in IR. rewrite <- IR, unravel_ravel; auto.
Qed.
Lemma xden_bcast : forall a d s s' f, xden a d s f -> bcast s s' s' -> all_pos s' -> length s = length s' ->
  exists t, x_view (VBroadcast s') a = Ok t /\ xden t d s' (fun i => f (bidx s i)).
Proof.
  intros a d s s' f [Da Ha] BC P L. pose proof Ha as [G [U [S [Ps H]]]].
  destruct (t_broadcast_spec xr (Fin 0) (xdata a) s' G) as [t [E [Gt [St Ht]]]].
  { rewrite S. exact (proj1 (bcast_views _ _ _ BC)). }
  unfold x_view. unfold t_broadcast in E. rewrite E. eexists. split; [reflexivity|]. split; [exact Da|].
  split; [exact Gt|]. split; [left; exact (t_view_usable _ _ (VBroadcast s') _ _ ltac:(discriminate) G U E)|].
  split; [exact St|]. split; auto. intros i V. cbn [xdata]. destruct (Ht i V) as [Vi ->]. rewrite S in *. auto.
Qed.
Lemma causal_mask_ok : forall m n, 0 < m -> 0 < n ->
  exists t, causal_mask e m n = Ok t /\ xden t BOOL [m; n] (fun i => xbool (xltb (nat_x (nth 0 i 0)) (nat_x (nth 1 i 0)))).
Proof.
  intros m n Pm Pn. unfold causal_mask.
  destruct (arange_ok m Pm) as [r [Er Dr]]. rewrite Er. cbn [bind].
  destruct (xden_reshape r I32 [m] [m; 1] _ Dr) as [row [Ew Dw]]; [rewrite !nelem_cons; change (nelem []) with 1; lia|constructor; auto|].
  rewrite Ew. cbn [bind]. destruct (arange_ok n Pn) as [c [Ec Dc]]. rewrite Ec. cbn [bind].
  destruct (xden_reshape c I32 [n] [1; n] _ Dc) as [col [El Dl]]; [rewrite !nelem_cons; change (nelem []) with 1; lia|constructor; auto|].
  rewrite El. cbn [bind].
  assert (B1 : bcast [m; 1] [m; n] [m; n]).
  { apply bcast_sym. apply bcast_ones. repeat (constructor; auto). }
  assert (B2 : bcast [1; n] [m; n] [m; n]).
  { apply bcast_sym. apply bcast_ones. repeat (constructor; auto). }
  destruct (xden_bcast row I32 [m; 1] [m; n] _ Dw B1) as [row2 [E2 D2]]; [repeat constructor; auto|auto|]. rewrite E2. cbn [bind].
  destruct (xden_bcast col I32 [1; n] [m; n] _ Dl B2) as [col2 [E3 D3]]; [repeat constructor; auto|auto|]. rewrite E3. cbn [bind].
  unfold x_gt. destruct D2 as [T2 D2]. destruct D3 as [T3 D3]. rewrite T2, T3. cbn [same_dtype tag Nat.eqb negb allowed is_bool].
  destruct (den_binary_same xr xr xr e (Fin 0) (Fin 0) (Fin 0) (fun v w => xbool (xltb w v)) _ _ [m; n] _ _ He D3 D2) as [t [Et Dt]].
  rewrite Et. eexists. split; [reflexivity|]. split; [reflexivity|]. eapply den_ext; [exact Dt|].
  intros i V. destruct i as [|i [|j [|? ?]]]; cbn in V; try tauto. cbn beta. destruct V as [Vi [Vj _]].
  unfold bidx. cbn [length combine map skipn Nat.sub nth fst snd].
  cbn [ravel unravel]. cbn [nth]. rewrite !nelem_cons. change (nelem []) with 1. cbn [fst snd Nat.eqb].
  rewrite !Nat.mul_1_r, !Nat.div_1_r.
  replace (if m =? 1 then 0 else i) with i by (destruct (Nat.eqb_spec m 1); lia).
  replace (if n =? 1 then 0 else j) with j by (destruct (Nat.eqb_spec n 1); lia).
  rewrite !Nat.add_0_r. reflexivity.
Qed.

Lemma bcast_tail : forall s t, bcast t (s ++ t) (s ++ t).
Proof.
  intros s t. apply bcast_sym. pose proof (bcast_skipn (s ++ t) (length s)) as H.
  now rewrite skipn_app, skipn_all, Nat.sub_diag in H.
Qed.
Lemma attn_dropout_nan : forall sd p u x s, is_float sd = true -> xden x sd s (fun _ => Nan) ->
  exists r, attn_dropout e sd p u x = Ok r /\ dense r /\ xden r sd s (fun _ => Nan).
Proof.
  intros sd p u x s F X. pose proof (xden_pos _ _ _ _ X) as P. pose proof (float_allowed NoBool _ F) as C.
  unfold attn_dropout. rewrite (xden_shape _ _ _ _ X). pose proof X as [Dx _]. rewrite Dx.
  destruct (mask_ok e He sd sd s p u (xdiv (Fin 1) (xsub (Fin 1) (Fin p))) C F P) as [m [mask [sm [E1 [E2 [E3 D]]]]]].
  rewrite E1. cbn [bind]. rewrite E2. cbn [bind]. rewrite E3. cbn [bind].
  destruct (xden_binary_same e He NoBool xmul x sm sd s _ _ C X D) as [r [Er Dr]]. exists r. split; auto.
  split; [exact (x_binary_dense e NoBool xmul x sm sd s _ _ r X Dr Er)|].
  eapply xden_ext; [exact Dr|]. intros i V. cbn beta. reflexivity.
Qed.
Lemma dotx_nan : forall k g, 0 < k -> dotx k (fun _ => Nan) g = Nan.
Proof.
  intros k g Hk. unfold dotx. destruct k as [|k]; [lia|]. cbn [seq fold_left].
  assert (H : forall l, fold_left (fun acc q => xadd acc (xmul Nan (g q))) l Nan = Nan) by (induction l; cbn; auto).
  replace (xadd (Fin 0) (xmul Nan (g 0))) with Nan by reflexivity. apply H.
Qed.

Hypothesis Hm : mat_env_ok e.
Variable blas : bool.
Variable sd : dtype.
(** an optional mask, of a shape that broadcasts to [s] *)
Definition xmask (mask : option xtensor) (s : list nat) : Prop :=
  match mask with None => True | Some m => exists sm f, xden m sd sm f /\ bcast sm s s end.

Lemma attention_masked : forall mask p training (causal : bool) u query key value s m n k c Q K V, sd = EncodeModel.F32 \/ sd = EncodeModel.F64 ->
  causal = true \/ mask <> None -> xmask mask (s ++ [m; n]) ->
  xstack query sd s m k Q -> xstack key sd s n k K -> xstack value sd s n c V ->
  (s = [] -> fit blas query /\ fit blas value) -> length s <= (if by_blas blas sd then 1 else 14) ->
  exists r, attention e blas sd mask p training causal u query key value = Ok r /\ xden r sd (s ++ [m; c]) (fun _ => Nan).
Proof.
  intros mask p training causal u query key value s m n k c Q K V HS HM XM Xq Xk Xv HF HB.
  assert (F : is_float sd = true) by (destruct HS as [->| ->]; reflexivity). pose proof (float_allowed NoBool _ F) as C.
  assert (HB' : length s <= (if by_blas blas sd then 1 else 16)) by (destruct (by_blas blas sd); lia).
  assert (HR : length s + 2 <= 16) by (destruct (by_blas blas sd); lia).
  pose proof (xden_pos _ _ _ _ Xk) as P. apply Forall_app in P. destruct P as [_ P]. inversion P as [|? ? Pn _]; subst. clear P.
  pose proof (xden_pos _ _ _ _ Xq) as P. apply Forall_app in P. destruct P as [_ P]. inversion P as [|? ? Pm _]; subst. clear P.
  destruct (scores_ok e He Hm blas sd query key s m n k Q K F Xq Xk (fun z => proj1 (HF z)) HB') as [kt [a0 [a1 [E0 [E1 [E2 X1]]]]]].
  unfold attention. rewrite E0. cbn [bind]. rewrite E1. cbn [bind]. rewrite E2. cbn [bind].
  replace (neg_inf (xdtype query)) with NInf by (destruct Xq as [-> _]; destruct HS as [->| ->]; reflexivity).
  set (sh := s ++ [m; n]) in *.
  assert (H2 : exists a2 f2, (if causal
    then let s := xshape a1 in
         if length s <? 2 then Panic
         else do m <- causal_mask e (nth (length s - 2) s 0) (nth (length s - 1) s 0) ;
              x_masked_fill e sd a1 m NInf
    else Ok a1) = Ok a2 /\ xden a2 sd sh f2 /\ (causal = true -> forall i, bad (f2 i))).
  { destruct causal.
    - cbv zeta. rewrite (xden_shape _ _ _ _ X1 : xshape a1 = s ++ [m; n]). rewrite app_length. cbn [length].
      replace (length s + 2 <? 2) with false by (symmetry; apply Nat.ltb_ge; lia).
      replace (length s + 2 - 2) with (length s) by lia. replace (length s + 2 - 1) with (S (length s)) by lia.
      destruct (stack_parts s s m n eq_refl) as [_ [-> ->]]. destruct (causal_mask_ok m n Pm Pn) as [cm [Ecm Dcm]]. rewrite Ecm. cbn [bind].
      destruct (masked_fill_bad a1 cm sd sh [m; n] _ (fun i => xltb (nat_x (nth 0 i 0)) (nat_x (nth 1 i 0))) F X1 Dcm (bcast_tail s [m; n])) as [a2 [f2 [Ea [Da Hb]]]].
      exists a2, f2. auto.
    - exists a1. eexists. split; [reflexivity|]. split; [exact X1|discriminate]. }
  destruct H2 as [a2 [f2 [Ea2 [D2 B2]]]]. cbv zeta in Ea2 |- *. rewrite Ea2. cbn [bind].
  assert (H3 : exists a3 f3, (match mask with
    | Some m => do z <- x_eq_scalar e m (sd, Fin 0) ; x_masked_fill e sd a2 z NInf
    | None => Ok a2 end) = Ok a3 /\ xden a3 sd sh f3 /\ forall i, bad (f3 i)).
  { destruct mask as [mk|].
    - destruct XM as [sm [fm [Dm Bm]]].
      destruct (xden_cmp_scalar e He AllTypes xeqb mk sd sm fm (Fin 0) eq_refl Dm) as [z [Ez Dz]]. unfold x_eq_scalar. rewrite Ez. cbn [bind].
      destruct (masked_fill_bad a2 z sd sh sm _ (fun i => xeqb (fm i) (Fin 0)) F D2 Dz Bm) as [a3 [f3 [Ea [Da Hb]]]].
      exists a3, f3. auto.
    - exists a2, f2. split; auto. split; auto. apply B2. destruct HM; congruence. }
  destruct H3 as [a3 [f3 [Ea3 [D3 B3]]]]. rewrite Ea3. cbn [bind].
  destruct (x_softmax_nan e a3 sd sh f3 He F D3) as [a4 [E4 [D4 X4]]]; auto.
  { unfold sh. rewrite app_length. cbn [length]. lia. }
  rewrite E4. cbn [bind].
  assert (H5 : exists a5, (if Rltb 0 p && training then attn_dropout e sd p u a4 else Ok a4) = Ok a5 /\ dense a5 /\ xden a5 sd sh (fun _ => Nan)).
  { destruct (Rltb 0 p && training); [|exists a4; auto].
    destruct (attn_dropout_nan sd p u a4 sh F X4) as [a5 [E5 [D5 X5]]]. exists a5. auto. }
  destruct H5 as [a5 [E5 [D5 X5]]]. rewrite E5. cbn [bind].
  destruct (x_matmul_x e Hm blas a5 value sd s m n c _ _ C X5 Xv) as [r [Er [Dr Xr]]]; auto.
  { intros ->. split; [|now apply HF]. exact (dense_fit blas a5 sd m n _ X5 D5). }
  exists r. split; auto. eapply xden_ext; [exact Xr|]. intros i Vi. cbn beta zeta. apply (dotx_nan n); auto.
Qed.
End Mask.
