From Coq Require Import List Arith ZArith Lia Bool Reals Lra.
From Verif Require Import Base IndexSpec LayoutModel ViewSpec LayoutProofs LayoutProofs2 KernelModel TensorModel TensorSpec EncodeModel KernelProofs TensorProofs ElementwiseProofs BcastProofs MatrixModel MatrixProofs2 MatrixProofs3.
From Verif Require Import ShapeGradModel ShapeGradSpec ShapeGradProofs3 MatrixProofs4.
From Verif Require Import NumModel DenSpec DenProofs NnModel NnSpec NnProofs LayerModel LayerSpec LayerProofs LayerProofs2 AttnSpec AttnProofs.
From Verif Require Import LinSpec LinProofs LinProofs4 LinProofs5 LinGradProofs MatGradModel MatGradSpec.
Import ListNotations.
Open Scope nat_scope.

(** ** Sums of real numbers and their derivatives *)
Lemma sumn_derivative : forall n (f : nat -> R -> R) d x, (forall i, i < n -> derivable_pt_lim (f i) x (d i)) ->
  derivable_pt_lim (fun t => sumn n (fun i => f i t)) x (sumn n d).
Proof.
  induction n as [|n IH]; intros f d x H; cbn [sumn].
  - apply derivable_pt_lim_const.
  - apply (derivable_pt_lim_plus (fun t => sumn n (fun i => f i t)) (f n)); [apply IH; auto|apply H; lia].
Qed.
Lemma Rsum_derivative : forall A (l : list A) (f : A -> R -> R) d x, (forall i, In i l -> derivable_pt_lim (f i) x (d i)) ->
  derivable_pt_lim (fun t => Rsum (map (fun i => f i t) l)) x (Rsum (map d l)).
Proof.
  induction l as [|a l IH]; intros f d x H; cbn [Rsum map].
  - apply derivable_pt_lim_const.
  - apply (derivable_pt_lim_plus (f a) (fun t => Rsum (map (fun i => f i t) l))); [apply H; now left|apply IH; intros; apply H; now right].
Qed.
Definition hit (i i0 : list nat) : R := if list_eq_dec Nat.eq_dec i i0 then 1%R else 0%R.
Lemma hit_same : forall i, hit i i = 1%R.
Proof. intros i. unfold hit. destruct (list_eq_dec Nat.eq_dec i i); congruence. Qed.
Lemma hit_other : forall i i0, i <> i0 -> hit i i0 = 0%R.
Proof. intros i i0 H. unfold hit. destruct (list_eq_dec Nat.eq_dec i i0); congruence. Qed.
Lemma nudge_derivative : forall A i0 i, derivable_pt_lim (fun t => nudge A i0 t i) 0 (hit i i0).
Proof.
  intros A i0 i. unfold nudge, hit. destruct (list_eq_dec Nat.eq_dec i i0).
  - apply (affine_derivative _ (A i)). intros t. ring.
  - apply derivable_pt_lim_const.
Qed.
Lemma scaled_derivative : forall c f d x, derivable_pt_lim f x d -> derivable_pt_lim (fun t => c * f t)%R x (c * d)%R.
Proof. intros. now apply (derivable_pt_lim_scal f c). Qed.
Lemma scaled_derivative_r : forall c f d x, derivable_pt_lim f x d -> derivable_pt_lim (fun t => f t * c)%R x (d * c)%R.
Proof.
  intros c f d x H. apply (derivable_pt_lim_ext (fun t => c * f t)%R); [intros; apply Rmult_comm|]. rewrite (Rmult_comm d). now apply scaled_derivative.
Qed.

Lemma paired_left : forall s lb rb m k n G A B i0,
  derivable_pt_lim (fun t => paired s lb rb m k n G (nudge A i0 t) B) 0
    (Rsum (map (fun p => sumn m (fun i => sumn k (fun q => hit (bidx lb p ++ [i; q]) i0 * sumn n (fun j => G (p ++ [i; j]) * B (bidx rb p ++ [q; j]))))%R) (all_idx s))).
Proof.
  intros. unfold paired.
  match goal with |- derivable_pt_lim _ _ ?v => replace v with (Rsum (map (fun p => sumn m (fun i => sumn n (fun j =>
    G (p ++ [i; j]) * sumn k (fun q => hit (bidx lb p ++ [i; q]) i0 * B (bidx rb p ++ [q; j]))))%R) (all_idx s))) end.
  - apply (Rsum_derivative (list nat) (all_idx s) (fun p t => _)). intros p _.
    apply (sumn_derivative m (fun i t => _)). intros i _. apply (sumn_derivative n (fun j t => _)). intros j _. apply scaled_derivative.
    apply (sumn_derivative k (fun q t => _)). intros q _. apply scaled_derivative_r, nudge_derivative.
  - apply Rsum_ext. intros p _. apply sumn_ext. intros i _.
    transitivity (sumn n (fun j => sumn k (fun q => hit (bidx lb p ++ [i; q]) i0 * (G (p ++ [i; j]) * B (bidx rb p ++ [q; j])))%R)).
    + apply sumn_ext. intros j _. rewrite <- sumn_scale. apply sumn_ext. intros q _. ring.
    + rewrite sumn_swap. apply sumn_ext. intros q _. now rewrite sumn_scale.
Qed.
Lemma paired_right : forall s lb rb m k n G A B i0,
  derivable_pt_lim (fun t => paired s lb rb m k n G A (nudge B i0 t)) 0
    (Rsum (map (fun p => sumn k (fun q => sumn n (fun j => hit (bidx rb p ++ [q; j]) i0 * sumn m (fun i => A (bidx lb p ++ [i; q]) * G (p ++ [i; j]))))%R) (all_idx s))).
Proof.
  intros. unfold paired.
  match goal with |- derivable_pt_lim _ _ ?v => replace v with (Rsum (map (fun p => sumn m (fun i => sumn n (fun j =>
    G (p ++ [i; j]) * sumn k (fun q => A (bidx lb p ++ [i; q]) * hit (bidx rb p ++ [q; j]) i0)))%R) (all_idx s))) end.
  - apply (Rsum_derivative (list nat) (all_idx s) (fun p t => _)). intros p _.
    apply (sumn_derivative m (fun i t => _)). intros i _. apply (sumn_derivative n (fun j t => _)). intros j _. apply scaled_derivative.
    apply (sumn_derivative k (fun q t => _)). intros q _. apply scaled_derivative, nudge_derivative.
  - apply Rsum_ext. intros p _.
    transitivity (sumn m (fun i => sumn k (fun q => sumn n (fun j => hit (bidx rb p ++ [q; j]) i0 * (A (bidx lb p ++ [i; q]) * G (p ++ [i; j])))%R))).
    + apply sumn_ext. intros i _. rewrite sumn_swap. apply sumn_ext. intros j _. rewrite <- sumn_scale. apply sumn_ext. intros q _. ring.
    + rewrite sumn_swap. apply sumn_ext. intros q _. rewrite sumn_swap. apply sumn_ext. intros j _. now rewrite sumn_scale.
Qed.

(** ** Sums over the indices of a stack *)
Lemma Rsum_flat_map : forall A B (l : list A) (g : A -> list B) f, Rsum (map f (flat_map g l)) = Rsum (map (fun p => Rsum (map f (g p))) l).
Proof. induction l as [|a l IH]; intros g f; cbn; [reflexivity|]. now rewrite map_app, Rsum_app, IH. Qed.
Lemma Rsum_stack : forall s m k (f : list nat -> R),
  Rsum (map f (all_idx (s ++ [m; k]))) = Rsum (map (fun p => sumn m (fun i => sumn k (fun q => f (p ++ [i; q])))) (all_idx s)).
Proof.
  intros s m k f. rewrite all_idx_app, Rsum_flat_map. apply Rsum_ext. intros p _. rewrite map_map. cbn [all_idx].
  rewrite Rsum_flat_map, <- Rsum_sumn. apply Rsum_ext. intros i _. rewrite map_map. rewrite Rsum_flat_map, <- Rsum_sumn. apply Rsum_ext. intros q _. cbn. ring.
Qed.
Lemma Rsum_filter : forall A (l : list A) (b : A -> bool) f, Rsum (map f (filter b l)) = Rsum (map (fun x => (if b x then 1 else 0) * f x)%R l).
Proof. induction l as [|a l IH]; intros b f; cbn; [reflexivity|]. destruct (b a); cbn; rewrite IH; ring. Qed.
Lemma Rsum_copies : forall s gs i0 f, Rsum (map f (copies s gs i0)) = Rsum (map (fun u => hit (bidx s u) i0 * f u)%R (all_idx gs)).
Proof.
  intros. unfold copies. rewrite Rsum_filter. apply Rsum_ext. intros u _. unfold hit. now destruct (list_eq_dec Nat.eq_dec (bidx s u) i0).
Qed.
Lemma sums_fin : forall read L v (f : list nat -> R), (forall j, In j L -> read j = Some (Fin (f j))) ->
  sums (Fin 0) xadd read L v -> v = Fin (Rsum (map f L)).
Proof.
  intros read L v f H (vs & F & ->). replace vs with (map (fun j => Fin (f j)) L).
  - rewrite fold_xadd. f_equal. lra.
  - clear -F H. induction F as [|j x L vs E F IH]; [reflexivity|]. cbn [map]. rewrite IH by (intros; apply H; now right). f_equal.
    rewrite H in E by now left. congruence.
Qed.
Lemma xadd_laws : (forall x y, xadd x y = xadd y x) /\ (forall x y w, xadd x (xadd y w) = xadd (xadd x y) w) /\ (forall x, xadd (Fin 0) x = x).
Proof.
  split; [|split].
  - intros [a| | |] [b| | |]; cbn; auto. f_equal. ring.
  - intros [a| | |] [b| | |] [c| | |]; cbn; auto. f_equal. ring.
  - intros [a| | |]; cbn; auto. f_equal. ring.
Qed.
Lemma unbroadcast_ok : forall g d s gs f, xden g d gs (fun i => Fin (f i)) -> shape_rel (VBroadcast gs) s gs -> length gs <= 16 ->
  exists r, x_unbroadcast s g = Ok r /\ xdtype r = d /\ xshape r = s /\
    forall i, valid s i -> elem (xdata r) i = Some (Fin (Rsum (map (fun u => hit (bidx s u) i * f u)%R (all_idx gs)))).
Proof.
  intros g d s gs f [D (G & U & SH & P & H)] SR L. destruct xadd_laws as (L1 & L2 & L3). unfold x_unbroadcast.
  destruct (v_broadcast_spec (Fin 0) xadd L1 L2 L3 s (xdata g) G) as (r & E & _ & S & HR); rewrite ?SH; auto.
  rewrite E. eexists. split; [reflexivity|]. split; [exact D|]. split; [exact S|]. intros i V. destruct (HR i V) as (v & Ev & Sv).
  cbn [xdata]. rewrite Ev, <- Rsum_copies. f_equal. rewrite SH in Sv. refine (sums_fin _ _ _ _ _ Sv). intros j Hj. apply H.
  unfold copies in Hj. apply filter_In in Hj. apply in_all_idx, Hj.
Qed.

(** ** The rules *)
Lemma x_broadcast_ok : forall a d s t f, xden a d s f -> shape_rel (VBroadcast t) s t -> all_pos t ->
  exists r, x_view (VBroadcast t) a = Ok r /\ xden r d t (fun i => f (bidx s i)).
Proof.
  intros a d s t f X SR P. apply (xden_view (VBroadcast t) a d s t f); auto; [discriminate|exact I|].
  intros i j Vi Vj IR. f_equal. symmetry. destruct SR as (_ & ad & re & -> & F). apply (index_rel_bidx s (ad ++ re)); auto.
  - rewrite app_length, (Forall2_len _ _ _ _ _ F). lia.
  - now apply valid_length.
Qed.
Lemma matrix_idx : forall lb m k p i q, length lb <= length p -> i < m -> q < k -> bidx (lb ++ [m; k]) (p ++ [i; q]) = bidx lb p ++ [i; q].
Proof.
  intros lb m k p i q L Hi Hq. rewrite bidx_app by (cbn; auto). f_equal. apply bidx_self. cbn. auto.
Qed.

Section P.
Variable e : env.
Hypothesis Hm : mat_env_ok e.
Variable blas : bool.
Lemma to_shape_same : forall a d s f, xden a d s f -> x_sum_to_shape s a = Ok a.
Proof.
  intros [da ta] d s f [D (_ & _ & SH & _)]. cbn in *. unfold x_sum_to_shape, sum_to_shape. cbn [xdata]. change (lshape (tlay ta)) with (tshape ta).
  destruct (list_eq_dec Nat.eq_dec (tshape ta) s); [reflexivity|contradiction].
Qed.
Lemma products : forall a b g d s m k n A B G, allowed NoBool d = true -> xstack a d s m k A -> xstack b d s k n B -> xstack g d s m n G ->
  (s = [] -> fit blas g) -> length s <= (if by_blas blas d then 1 else 16) ->
  exists bt at_ ga gb, x_view (VTranspose (-2) (-1)) b = Ok bt /\ x_view (VTranspose (-2) (-1)) a = Ok at_ /\
    x_matmul e blas g bt = Ok ga /\ x_matmul e blas at_ g = Ok gb /\
    xstack ga d s m k (fun p i q => sumn n (fun j => G p i j * B p q j)%R) /\
    xstack gb d s k n (fun p q j => sumn m (fun i => A p i q * G p i j)%R) /\ xdtype bt = d /\ xdtype at_ = d /\ xshape bt = s ++ [n; k] /\ xshape at_ = s ++ [k; m].
Proof.
  intros a b g d s m k n A B G C Xa Xb Xg F L.
  destruct (xstack_transpose blas b d s k n B Xb) as (bt & Eb & Fb & Xbt). destruct (xstack_transpose blas a d s m k A Xa) as (at_ & Ea & Fa & Xat).
  destruct (x_matmul_stack e Hm blas g bt d s m n k _ _ C Xg Xbt ltac:(auto) L) as (ga & Ega & _ & Xga).
  destruct (x_matmul_stack e Hm blas at_ g d s k m n _ _ C Xat Xg ltac:(auto) L) as (gb & Egb & _ & Xgb).
  exists bt, at_, ga, gb. do 4 (split; [assumption|]). split; [|split; [|split; [apply Xbt|split; [apply Xat|split; [apply Xbt|apply Xat]]]]].
  - eapply xstack_ext; [exact Xga|]. intros. cbn beta. apply Rsum_sumn.
  - eapply xstack_ext; [exact Xgb|]. intros. cbn beta. apply Rsum_sumn.
Qed.
Lemma matmul_vjp_ok : forall a b g d s m k n A B G, allowed NoBool d = true -> xstack a d s m k A -> xstack b d s k n B -> xstack g d s m n G ->
  (s = [] -> fit blas g) -> length s <= (if by_blas blas d then 1 else 16) ->
  exists ga gb, matmul_vjp e blas a b g = Ok (ga, gb) /\
    xstack ga d s m k (fun p i q => sumn n (fun j => G p i j * B p q j)%R) /\
    xstack gb d s k n (fun p q j => sumn m (fun i => A p i q * G p i j)%R).
Proof.
  intros a b g d s m k n A B G C Xa Xb Xg F L.
  destruct (products a b g d s m k n A B G C Xa Xb Xg F L) as (bt & at_ & ga & gb & E1 & E2 & E3 & E4 & X1 & X2 & _).
  exists ga, gb. unfold matmul_vjp. rewrite E1. cbn [bind]. rewrite E3. cbn [bind]. rewrite E2. cbn [bind]. rewrite E4. cbn [bind].
  assert (SA : xshape a = s ++ [m; k]) by apply Xa. assert (SB : xshape b = s ++ [k; n]) by apply Xb.
  rewrite SA, SB, (to_shape_same _ _ _ _ X1). cbn [bind]. rewrite (to_shape_same _ _ _ _ X2). cbn [bind]. auto.
Qed.
Lemma dot_vjp_ok : forall a b g d m k n A B G, allowed NoBool d = true -> xstack a d [] m k A -> xstack b d [] k n B -> xstack g d [] m n G -> fit blas g ->
  exists ga gb, dot_vjp e blas a b g = Ok (ga, gb) /\
    xstack ga d [] m k (fun p i q => sumn n (fun j => G p i j * B p q j)%R) /\
    xstack gb d [] k n (fun p q j => sumn m (fun i => A p i q * G p i j)%R).
Proof.
  intros a b g d m k n A B G C Xa Xb Xg F.
  destruct (products a b g d [] m k n A B G C Xa Xb Xg ltac:(auto) ltac:(cbn; lia)) as (bt & at_ & ga & gb & E1 & E2 & E3 & E4 & X1 & X2 & D1 & D2 & S1 & S2).
  exists ga, gb. unfold dot_vjp. rewrite E1. cbn [bind]. assert (SG : xshape g = [m; n]) by apply Xg. assert (DG : xdtype g = d) by apply Xg.
  unfold x_dot at 1. rewrite D1, DG, same_dtype_refl, C, SG, S1. cbn [negb app]. rewrite E3. cbn [bind]. rewrite E2. cbn [bind].
  unfold x_dot. rewrite D2, DG, same_dtype_refl, C, SG, S2. cbn [negb app]. rewrite E4. cbn [bind]. auto.
Qed.
Lemma product_vjp_ok : forall a b g d lb rb s m k n A B G, allowed NoBool d = true -> bcast lb rb s ->
  xden a d (lb ++ [m; k]) (fun i => Fin (A i)) -> xden b d (rb ++ [k; n]) (fun i => Fin (B i)) -> xden g d (s ++ [m; n]) (fun i => Fin (G i)) ->
  (s = [] -> fit blas g) -> length s <= (if by_blas blas d then 1 else 14) ->
  exists ga gb, product_vjp e blas a b g = Ok (ga, gb) /\ xdtype ga = d /\ xdtype gb = d /\ xshape ga = lb ++ [m; k] /\ xshape gb = rb ++ [k; n] /\
    (forall i, valid (lb ++ [m; k]) i -> elem (xdata ga) i = Some (Fin (Rsum (map (fun p => sumn m (fun x => sumn k (fun q =>
       hit (bidx lb p ++ [x; q]) i * sumn n (fun j => G (p ++ [x; j]) * B (bidx rb p ++ [q; j]))))%R) (all_idx s))))) /\
    (forall i, valid (rb ++ [k; n]) i -> elem (xdata gb) i = Some (Fin (Rsum (map (fun p => sumn k (fun q => sumn n (fun j =>
       hit (bidx rb p ++ [q; j]) i * sumn m (fun x => A (bidx lb p ++ [x; q]) * G (p ++ [x; j]))))%R) (all_idx s))))).
Proof.
  intros a b g d lb rb s m k n A B G C BC Xa Xb Xg F L.
  assert (SA : xshape a = lb ++ [m; k]) by apply Xa. assert (SB : xshape b = rb ++ [k; n]) by apply Xb.
  pose proof (xden_pos _ _ _ _ Xa) as Pa. pose proof (xden_pos _ _ _ _ Xb) as Pb. pose proof (xden_pos _ _ _ _ Xg) as Pg.
  apply Forall_app in Pa, Pb, Pg. destruct Pa as [Pla Pma], Pb as [Plb Pmb], Pg as [Ps _]. pose proof (proj1 BC) as LS.
  assert (XG : xstack g d s m n (fun p i j => G (p ++ [i; j]))).
  { eapply xstack_of; [exact Xg|]. intros p i j V Hi Hj. reflexivity. }
  unfold product_vjp. cbv zeta. rewrite SA, SB, !app_length. cbn [length]. destruct ((length lb + 2 =? 2) && (length rb + 2 =? 2)) eqn:E2.
  - apply andb_true_iff in E2. destruct E2 as [E1 E2]. apply Nat.eqb_eq in E1, E2. destruct lb as [|? ?]; [|cbn in E1; lia]. destruct rb as [|? ?]; [|cbn in E2; lia].
    destruct s as [|? ?]; [|cbn in LS; lia].
    destruct (dot_vjp_ok a b g d m k n (fun p i q => A (p ++ [i; q])) (fun p q j => B (p ++ [q; j])) (fun p i j => G (p ++ [i; j])) C) as (ga & gb & E & X1 & X2); auto.
    { eapply xstack_of; [exact Xa|]. reflexivity. }
    { eapply xstack_of; [exact Xb|]. reflexivity. }
    exists ga, gb. rewrite E. cbn [app]. split; auto. split; [apply X1|]. split; [apply X2|]. split; [apply X1|]. split; [apply X2|]. split; intros i V.
    + destruct X1 as [_ (_ & _ & _ & _ & X1)]. cbn [app length] in X1. rewrite X1 by exact V. cbn [all_idx map Rsum]. do 2 f_equal. rewrite Rplus_0_r.
      destruct i as [|x [|y [|? ?]]]; cbn in V; try tauto. change (bidx [] []) with (@nil nat). cbn [nth firstn app]. rewrite (sumn_one m _ x); [|tauto|]. rewrite (sumn_one k _ y); [|tauto|].
      * rewrite hit_same. symmetry. apply Rmult_1_l.
      * intros q _ NE. rewrite hit_other by congruence. ring.
      * intros w _ NE. apply sumn_zero. intros q _. rewrite hit_other by congruence. ring.
    + destruct X2 as [_ (_ & _ & _ & _ & X2)]. cbn [app length] in X2. rewrite X2 by exact V. cbn [all_idx map Rsum]. do 2 f_equal. rewrite Rplus_0_r.
      destruct i as [|x [|y [|? ?]]]; cbn in V; try tauto. change (bidx [] []) with (@nil nat). cbn [nth firstn app]. rewrite (sumn_one k _ x); [|tauto|]. rewrite (sumn_one n _ y); [|tauto|].
      * rewrite hit_same. symmetry. apply Rmult_1_l.
      * intros q _ NE. rewrite hit_other by congruence. ring.
      * intros w _ NE. apply sumn_zero. intros q _. rewrite hit_other by congruence. ring.
  - assert (NS : s <> []).
    { intros ->. cbn [length] in LS. destruct lb; [|cbn [length] in LS; lia]. destruct rb; [discriminate|cbn [length] in LS; lia]. }
    unfold mat_batch. rewrite !(batch_of_app R Rplus Rplus 0%R). assert (EB : bt2_dims lb rb = Some s) by (apply bt2_dims_spec; auto). rewrite EB.
    replace (skipn (length lb + 2 - 2) (lb ++ [m; k])) with [m; k] by (rewrite Nat.add_sub, skipn_app, skipn_all, Nat.sub_diag; reflexivity).
    replace (skipn (length rb + 2 - 2) (rb ++ [k; n])) with [k; n] by (rewrite Nat.add_sub, skipn_app, skipn_all, Nat.sub_diag; reflexivity).
    assert (VA : shape_rel (VBroadcast (s ++ [m; k])) (lb ++ [m; k]) (s ++ [m; k])).
    { destruct (bcast_views _ _ _ BC) as [(_ & ad & re & -> & FF) _]. split; [reflexivity|]. exists ad, (re ++ [m; k]). split; [now rewrite app_assoc|].
      apply Forall2_app; [exact FF|]. repeat constructor. }
    assert (VB : shape_rel (VBroadcast (s ++ [k; n])) (rb ++ [k; n]) (s ++ [k; n])).
    { destruct (bcast_views _ _ _ BC) as [_ (_ & ad & re & -> & FF)]. split; [reflexivity|]. exists ad, (re ++ [k; n]). split; [now rewrite app_assoc|].
      apply Forall2_app; [exact FF|]. repeat constructor. }
    destruct (x_broadcast_ok a d _ _ _ Xa VA) as (a' & Ea & Xa'); [apply Forall_app; auto|]. rewrite Ea. cbn [bind].
    destruct (x_broadcast_ok b d _ _ _ Xb VB) as (b' & Eb & Xb'); [apply Forall_app; auto|]. rewrite Eb. cbn [bind].
    assert (LA : forall p, valid s p -> length lb <= length p /\ length rb <= length p) by (intros p V; rewrite (valid_length _ _ V), LS; lia).
    destruct (matmul_vjp_ok a' b' g d s m k n (fun p i q => A (bidx lb p ++ [i; q])) (fun p q j => B (bidx rb p ++ [q; j])) (fun p i j => G (p ++ [i; j])) C) as (ga & gb & E & X1 & X2); auto.
    { eapply xstack_of; [exact Xa'|]. intros p i j V Hi Hj. cbn beta. rewrite matrix_idx; auto. now apply LA. }
    { eapply xstack_of; [exact Xb'|]. intros p i j V Hi Hj. cbn beta. rewrite matrix_idx; auto. now apply LA. }
    { destruct (by_blas blas d); lia. }
    rewrite E. cbn [bind fst snd].
    assert (L16 : length s + 2 <= 16) by (destruct (by_blas blas d); lia).
    destruct (unbroadcast_ok ga d (lb ++ [m; k]) (s ++ [m; k]) _ X1 VA) as (ra & Era & Da & Sa & Ha); [rewrite app_length; cbn; lia|].
    destruct (unbroadcast_ok gb d (rb ++ [k; n]) (s ++ [k; n]) _ X2 VB) as (rb' & Erb & Db & Sb & Hb); [rewrite app_length; cbn; lia|].
    rewrite Era. cbn [bind]. rewrite Erb. cbn [bind]. exists ra, rb'. split; auto. do 4 (split; [assumption|]). split; intros i V.
    + rewrite Ha by auto. rewrite Rsum_stack. do 2 f_equal. apply Rsum_ext. intros p Hp. apply in_all_idx in Hp. apply sumn_ext. intros x Hx. apply sumn_ext. intros q Hq.
      rewrite matrix_idx by (auto; now apply LA). f_equal. destruct (stack_parts s p x q (valid_length _ _ Hp)) as [-> [-> ->]]. reflexivity.
    + rewrite Hb by auto. rewrite Rsum_stack. do 2 f_equal. apply Rsum_ext. intros p Hp. apply in_all_idx in Hp. apply sumn_ext. intros x Hx. apply sumn_ext. intros q Hq.
      rewrite matrix_idx by (auto; now apply LA). f_equal. destruct (stack_parts s p x q (valid_length _ _ Hp)) as [-> [-> ->]]. reflexivity.
Qed.
End P.
