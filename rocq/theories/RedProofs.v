(** Proofs about the reductions. *)
From Coq Require Import List Arith ZArith Bool Lia Lra Reals Permutation.
From Verif Require Import Base IndexSpec LayoutModel ViewSpec KernelModel KernelProofs TensorModel TensorSpec TensorProofs BcastProofs
  ReduceModel ReduceSpec ReduceProofs EncodeModel NumModel DenSpec DenProofs NnModel NnSpec NnProofs NnProofs2 NormProofs
  RuleModel RuleProofs RuleProofs2 RuleProofs3 RuleProofs4 RedModel RedSpec.
Import ListNotations.
Open Scope nat_scope.

Lemma xred_den : forall B c (init : B) op fi a dims ds keep d s f h, allowed c d = true -> xden a d s f ->
  ReduceSpec.axes_of (length s) dims ds -> NoDup ds -> length s <= 16 ->
  (forall j l, valid (rshape keep ds s) j -> Permutation l (fibre keep ds s j) ->
     fi (nelem (extents ds s)) (fold_left op (map f l) init) = h j) ->
  exists r, x_red c (fun t => t_reduce init (plain op) fi (Fin 0) t dims keep) a = Ok r /\ xden r d (rshape keep ds s) h.
Proof.
  intros B c init op fi a dims ds keep d s f h C [Da Ha] Hax ND HR HH. unfold x_red. rewrite Da, C.
  destruct (den_reduce_by _ _ _ init op fi (Fin 0) _ dims ds keep s f h Ha Hax ND HR HH) as [r [E D]].
  cbn [negb]. rewrite E. eexists. split; [reflexivity|]. split; auto.
Qed.

Lemma Rprod_perm : forall a b, Permutation a b -> Rprod a = Rprod b.
Proof. unfold Rprod. induction 1; cbn [fold_right]; try lra; congruence. Qed.
Lemma fold_xmul : forall A (l : list A) r a,
  fold_left xmul (map (fun i => Fin (r i)) l) (Fin a) = Fin (a * Rprod (map r l))%R.
Proof.
  unfold Rprod. induction l as [|x l IH]; intros r a; cbn [map fold_left fold_right]; [f_equal; lra|].
  cbn [xmul]. rewrite IH. f_equal. lra.
Qed.
Lemma prod_den : forall a dims ds keep d s r, is_float d = true -> xden a d s (fun i => Fin (r i)) ->
  ReduceSpec.axes_of (length s) dims ds -> NoDup ds -> length s <= 16 ->
  exists t, x_prod a dims keep = Ok t /\ xden t d (rshape keep ds s) (fun j => Fin (Rprod (map r (fibre keep ds s j)))).
Proof.
  intros a dims ds keep d s r F Ha Hax ND HR. apply (xred_den _ _ _ _ _ _ dims ds keep d s (fun i => Fin (r i))); auto.
  - now apply float_allowed.
  - intros j l _ P. rewrite fold_xmul. f_equal. rewrite Rmult_1_l. apply Rprod_perm. now apply Permutation_map.
Qed.

Lemma fold_moments : forall A (l : list A) r a b,
  fold_left (moments xadd xmul) (map (fun i => Fin (r i)) l) (Fin a, Fin b) =
  (Fin (a + Rsum (map r l)), Fin (b + Rsum (map (fun i => r i ^ 2) l)))%R.
Proof.
  induction l as [|x l IH]; intros r a b; cbn [map fold_left Rsum]; [f_equal; f_equal; lra|].
  unfold moments at 2. cbn [fst snd xadd xmul]. rewrite IH. f_equal; f_equal; ring.
Qed.
Lemma Rsum_plus : forall A (l : list A) f g, Rsum (map (fun x => f x + g x)%R l) = (Rsum (map f l) + Rsum (map g l))%R.
Proof. induction l as [|x l IH]; intros f g; cbn [map Rsum]; [lra|]. rewrite IH. lra. Qed.
Lemma Rsum_const : forall A (l : list A) c, Rsum (map (fun _ => c) l) = (INR (length l) * c)%R.
Proof. induction l as [|x l IH]; intros c; cbn [map Rsum]; [cbn; lra|]. rewrite IH. cbn [length]. rewrite S_INR. lra. Qed.
Lemma Rvar_moments : forall l, l <> [] ->
  Rvar l = (Rsum (map (fun x => x ^ 2) l) / INR (length l) - Ravg l * Ravg l)%R.
Proof.
  intros l N. unfold Rvar. set (m := Ravg l). set (n := INR (length l)).
  assert (Hn : n <> 0%R) by (unfold n; apply INR_pos; destruct l; [contradiction|cbn; lia]).
  assert (E : Rsum (map (fun x => (x - m) ^ 2) l)%R = (Rsum (map (fun x => x ^ 2) l) + (- (2) * m) * Rsum l + n * (m * m))%R).
  { unfold n. rewrite <- (Rsum_const _ l). rewrite <- (map_id l) at 3.
    rewrite (Rmult_comm (- (2) * m)). rewrite <- (Rsum_scale _ l (fun x => x)). rewrite <- !Rsum_plus. apply Rsum_ext. intros. ring. }
  rewrite E. assert (M : (Rsum l = n * m)%R) by (unfold m, Ravg; fold n; field; auto).
  rewrite M. field. auto.
Qed.
Lemma fibre_nonempty : forall keep ds s j, all_pos s -> NoDup ds -> Forall (fun d => d < length s) ds ->
  valid (rshape keep ds s) j -> 0 < length (fibre keep ds s j).
Proof. intros keep ds s j P ND F V. rewrite length_fibre by auto. now apply extents_pos. Qed.
Lemma axes_lt' : forall n dims ds, ReduceSpec.axes_of n dims ds -> Forall (fun d => d < n) ds.
Proof. exact axes_lt. Qed.

Lemma variance_real : forall A (l : list A) r, l <> [] ->
  variance xsub xmul xdiv nat_x (length l) (fold_left (moments xadd xmul) (map (fun i => Fin (r i)) l) (Fin 0, Fin 0)) = Fin (Rvar (map r l)).
Proof.
  intros A l r N. rewrite fold_moments. unfold variance. cbn [fst snd]. unfold nat_x.
  assert (Hn : (INR (length l) <> 0)%R) by (apply INR_pos; destruct l; [contradiction|cbn; lia]).
  rewrite !xdiv_fin by auto. cbn [xmul xsub xadd xneg]. f_equal. rewrite Rvar_moments by (destruct l; [contradiction|discriminate]).
  unfold Ravg. rewrite map_length, map_map. rewrite !Rplus_0_l. reflexivity.
Qed.
Lemma Rvar_perm : forall a b, Permutation a b -> Rvar a = Rvar b.
Proof.
  intros a b P. unfold Rvar, Ravg. rewrite (Permutation_length P), (Rsum_perm a b P).
  f_equal. apply Rsum_perm. now apply Permutation_map.
Qed.
Lemma Rvar_nonneg : forall l, (0 <= Rvar l)%R.
Proof.
  intros l. unfold Rvar. destruct l as [|x l]; [cbn; lra|].
  apply Rmult_le_pos; [apply Rsum_nonneg; apply Forall_forall; intros y Hy; apply in_map_iff in Hy; destruct Hy as (z & <- & _); apply pow2_ge_0|].
  apply Rlt_le, Rinv_0_lt_compat, lt_0_INR. cbn. lia.
Qed.
Lemma var_den : forall a dims ds keep d s r, is_float d = true -> xden a d s (fun i => Fin (r i)) ->
  ReduceSpec.axes_of (length s) dims ds -> NoDup ds -> length s <= 16 ->
  exists t, x_var a dims keep = Ok t /\ xden t d (rshape keep ds s) (fun j => Fin (Rvar (map r (fibre keep ds s j)))).
Proof.
  intros a dims ds keep d s r F Ha Hax ND HR. apply (xred_den _ _ _ _ _ _ dims ds keep d s (fun i => Fin (r i))); auto.
  pose proof (xden_pos _ _ _ _ Ha) as P. pose proof (axes_lt' _ _ _ Hax) as B.
  intros j l V PL. pose proof (fibre_nonempty keep ds s j P ND B V) as L. rewrite <- (length_fibre keep ds s j) by auto.
  rewrite <- (Permutation_length PL). rewrite <- (Permutation_length PL) in L. rewrite variance_real by (intros ->; cbn in L; lia).
  f_equal. apply Rvar_perm. now apply Permutation_map.
Qed.
Lemma std_den : forall a dims ds keep d s r, is_float d = true -> xden a d s (fun i => Fin (r i)) ->
  ReduceSpec.axes_of (length s) dims ds -> NoDup ds -> length s <= 16 ->
  exists t, x_std a dims keep = Ok t /\ xden t d (rshape keep ds s) (fun j => Fin (sqrt (Rvar (map r (fibre keep ds s j))))).
Proof.
  intros a dims ds keep d s r F Ha Hax ND HR. apply (xred_den _ _ _ _ _ _ dims ds keep d s (fun i => Fin (r i))); auto.
  pose proof (xden_pos _ _ _ _ Ha) as P. pose proof (axes_lt' _ _ _ Hax) as B.
  intros j l V PL. pose proof (fibre_nonempty keep ds s j P ND B V) as L. rewrite <- (length_fibre keep ds s j) by auto.
  rewrite <- (Permutation_length PL). rewrite <- (Permutation_length PL) in L. rewrite variance_real by (intros ->; cbn in L; lia).
  unfold xsqrt, Rltb. pose proof (Rvar_nonneg (map r l)). destruct (Rlt_dec _ _); [exfalso; lra|].
  do 2 f_equal. apply Rvar_perm. now apply Permutation_map.
Qed.

Lemma fold_squares : forall A (l : list A) r a,
  fold_left (fun b v => xadd b (xmul v v)) (map (fun i => Fin (r i)) l) (Fin a) = Fin (a + Rsum (map (fun i => r i ^ 2) l))%R.
Proof.
  induction l as [|x l IH]; intros r a; cbn [map fold_left Rsum]; [f_equal; lra|].
  cbn [xadd xmul]. rewrite IH. f_equal. ring.
Qed.
Lemma squares_nonneg : forall A (l : list A) (r : A -> R), (0 <= Rsum (map (fun i => r i ^ 2) l))%R.
Proof. intros. apply Rsum_nonneg. apply Forall_forall. intros y Hy. apply in_map_iff in Hy. destruct Hy as (z & <- & _). apply pow2_ge_0. Qed.
Lemma norm2_den : forall a dims ds keep d s r, is_float d = true -> xden a d s (fun i => Fin (r i)) ->
  ReduceSpec.axes_of (length s) dims ds -> NoDup ds -> length s <= 16 ->
  exists t, x_norm2 a dims keep = Ok t /\ xden t d (rshape keep ds s) (fun j => Fin (Rnorm2 (map r (fibre keep ds s j)))).
Proof.
  intros a dims ds keep d s r F Ha Hax ND HR. apply (xred_den _ _ _ _ _ _ dims ds keep d s (fun i => Fin (r i))); auto.
  intros j l V PL. rewrite fold_squares, Rplus_0_l. unfold xsqrt, Rltb. pose proof (squares_nonneg _ l r).
  destruct (Rlt_dec _ _); [exfalso; lra|]. f_equal. unfold Rnorm2. f_equal. rewrite map_map. apply Rsum_perm. now apply Permutation_map.
Qed.
Lemma logsum_den : forall a dims ds keep d s r, is_float d = true -> xden a d s (fun i => Fin (r i)) ->
  ReduceSpec.axes_of (length s) dims ds -> NoDup ds -> length s <= 16 ->
  exists t, x_logsum a dims keep = Ok t /\ xden t d (rshape keep ds s) (fun j => xln (Fin (Rsum (map r (fibre keep ds s j))))).
Proof.
  intros a dims ds keep d s r F Ha Hax ND HR. apply (xden_reduce _ _ _ _ _ dims ds keep d s (fun i => Fin (r i))); auto.
  intros j l V PL. rewrite fold_xadd, Rplus_0_l. do 2 f_equal. apply Rsum_perm. now apply Permutation_map.
Qed.

(* ---------- logsumexp ---------- *)
Lemma lse_top : forall A (l : list A) r a, exists m,
  fold_left (fun acc v => if xltb acc v then v else acc) (map (fun i => Fin (r i)) l) (Fin a) = Fin m.
Proof.
  induction l as [|x l IH]; intros r a; cbn [map fold_left]; [eauto|]. cbn [xltb]. destruct (Rltb a (r x)); apply IH.
Qed.
Lemma lse_sum : forall A (l : list A) r m a,
  fold_left (fun acc v => xadd acc (xexp (xsub v (Fin m)))) (map (fun i => Fin (r i)) l) (Fin a) =
  Fin (a + Rsum (map (fun i => exp (r i)) l) * exp (- m))%R.
Proof.
  induction l as [|x l IH]; intros r m a; cbn [map fold_left Rsum]; [f_equal; lra|].
  cbn [xadd xexp xsub xneg]. rewrite IH. f_equal. rewrite exp_plus. ring.
Qed.
Lemma exps_pos : forall l, l <> [] -> (0 < Rsum (map exp l))%R.
Proof.
  intros [|x l] N; [contradiction|]. cbn [map Rsum]. pose proof (exp_pos x).
  assert (0 <= Rsum (map exp l))%R; [|lra]. apply Rsum_nonneg. apply Forall_forall. intros y Hy. apply in_map_iff in Hy.
  destruct Hy as (z & <- & _). apply Rlt_le, exp_pos.
Qed.
Lemma lse_real : forall lo A (l : list A) r, l <> [] -> lse lo (map (fun i => Fin (r i)) l) = Fin (Rlse (map r l)).
Proof.
  intros lo A l r N. unfold lse. destruct (lse_top _ l r lo) as [m E]. rewrite E. rewrite lse_sum, Rplus_0_l.
  assert (P : (0 < Rsum (map exp (map r l)))%R) by (apply exps_pos; destruct l; [contradiction|discriminate]).
  rewrite map_map in P. pose proof (exp_pos (- m)) as Q. unfold xln, Rltb.
  destruct (Rlt_dec 0 _) as [_|K]; [|exfalso; apply K; now apply Rmult_lt_0_compat].
  cbn [xadd]. f_equal. rewrite ln_mult by auto. rewrite ln_exp. unfold Rlse. rewrite map_map. lra.
Qed.
Lemma fold_snoc : forall A (l acc : list A), fold_left (fun b v => b ++ [v]) l acc = acc ++ l.
Proof. induction l as [|x l IH]; intros acc; cbn [fold_left]; [now rewrite app_nil_r|]. rewrite IH, <- app_assoc. reflexivity. Qed.
Lemma Rlse_perm : forall a b, Permutation a b -> Rlse a = Rlse b.
Proof. intros a b P. unfold Rlse. f_equal. apply Rsum_perm. now apply Permutation_map. Qed.
Lemma logsumexp_den : forall lo a dims ds keep d s r, is_float d = true -> xden a d s (fun i => Fin (r i)) ->
  ReduceSpec.axes_of (length s) dims ds -> NoDup ds -> length s <= 16 ->
  exists t, x_logsumexp lo a dims keep = Ok t /\ xden t d (rshape keep ds s) (fun j => Fin (Rlse (map r (fibre keep ds s j)))).
Proof.
  intros lo a dims ds keep d s r F Ha Hax ND HR. apply (xred_den _ _ _ _ _ _ dims ds keep d s (fun i => Fin (r i))); auto.
  pose proof (xden_pos _ _ _ _ Ha) as P. pose proof (axes_lt' _ _ _ Hax) as B.
  intros j l V PL. pose proof (fibre_nonempty keep ds s j P ND B V) as L. rewrite <- (Permutation_length PL) in L.
  rewrite fold_snoc. cbn [app]. rewrite lse_real by (intros ->; cbn in L; lia). f_equal. apply Rlse_perm. now apply Permutation_map.
Qed.

(* ---------- max and min ---------- *)
Lemma fold_xmax : forall A (l : list A) r a, fold_left xmax (map (fun i => Fin (r i)) l) (Fin a) = Fin (fold_right Rmax a (map r l)).
Proof.
  induction l as [|x l IH]; intros r a; cbn [map fold_left fold_right]; auto.
  unfold xmax at 2. cbn [xltb]. unfold Rltb. destruct (Rlt_dec (r x) a) as [L|L]; rewrite IH; f_equal.
  - clear IH. assert (a <= fold_right Rmax a (map r l))%R; [|rewrite Rmax_right; lra].
    induction l as [|y l IH]; cbn [map fold_right]; [lra|]. pose proof (Rmax_r (r y) (fold_right Rmax a (map r l))). lra.
  - clear IH. induction l as [|y l IH]; cbn [map fold_right]; [rewrite Rmax_left; lra|]. rewrite IH.
    rewrite !Rmax_assoc. f_equal. apply Rmax_comm.
Qed.
Lemma fold_xmin : forall A (l : list A) r a, fold_left xmin (map (fun i => Fin (r i)) l) (Fin a) = Fin (fold_right Rmin a (map r l)).
Proof.
  induction l as [|x l IH]; intros r a; cbn [map fold_left fold_right]; auto.
  unfold xmin at 2. cbn [xltb]. unfold Rltb. destruct (Rlt_dec a (r x)) as [L|L]; rewrite IH; f_equal.
  - clear IH. assert (fold_right Rmin a (map r l) <= a)%R; [|rewrite Rmin_right; lra].
    induction l as [|y l IH]; cbn [map fold_right]; [lra|]. pose proof (Rmin_r (r y) (fold_right Rmin a (map r l))). lra.
  - clear IH. induction l as [|y l IH]; cbn [map fold_right]; [rewrite Rmin_left; lra|]. rewrite IH.
    rewrite !Rmin_assoc. f_equal. apply Rmin_comm.
Qed.
Lemma top_spec : forall l, l <> [] -> In (Rtop l) l /\ Forall (fun x => x <= Rtop l)%R l.
Proof.
  intros [|x l] N; [contradiction|]. unfold Rtop. clear N. revert x. induction l as [|y l IH]; intros x; cbn [fold_right].
  - split; [now left|]. constructor; [lra|constructor].
  - destruct (IH x) as [I H]. pose proof (Rmax_l y (fold_right Rmax x l)). pose proof (Rmax_r y (fold_right Rmax x l)). split.
    + assert (E : Rmax y (fold_right Rmax x l) = y \/ Rmax y (fold_right Rmax x l) = fold_right Rmax x l) by (unfold Rmax; destruct (Rle_dec _ _); auto).
      destruct E as [E|E]; rewrite E; [right; now left|]. destruct I as [I|I]; [left; auto|right; right; auto].
    + inversion H; subst. constructor; [lra|]. constructor; [lra|]. eapply Forall_impl; [|exact H5]. cbn. intros. lra.
Qed.
Lemma bot_spec : forall l, l <> [] -> In (Rbot l) l /\ Forall (fun x => Rbot l <= x)%R l.
Proof.
  intros [|x l] N; [contradiction|]. unfold Rbot. clear N. revert x. induction l as [|y l IH]; intros x; cbn [fold_right].
  - split; [now left|]. constructor; [lra|constructor].
  - destruct (IH x) as [I H]. pose proof (Rmin_l y (fold_right Rmin x l)). pose proof (Rmin_r y (fold_right Rmin x l)). split.
    + assert (E : Rmin y (fold_right Rmin x l) = y \/ Rmin y (fold_right Rmin x l) = fold_right Rmin x l) by (unfold Rmin; destruct (Rle_dec _ _); auto).
      destruct E as [E|E]; rewrite E; [right; now left|]. destruct I as [I|I]; [left; auto|right; right; auto].
    + inversion H; subst. constructor; [lra|]. constructor; [lra|]. eapply Forall_impl; [|exact H5]. cbn. intros. lra.
Qed.
Lemma top_unique : forall l m, In m l -> Forall (fun x => x <= m)%R l -> Rtop l = m.
Proof.
  intros l m I F. destruct (top_spec l) as [I' F']; [intros ->; contradiction|]. rewrite Forall_forall in F, F'.
  specialize (F _ I'). specialize (F' _ I). lra.
Qed.
Lemma bot_unique : forall l m, In m l -> Forall (fun x => m <= x)%R l -> Rbot l = m.
Proof.
  intros l m I F. destruct (bot_spec l) as [I' F']; [intros ->; contradiction|]. rewrite Forall_forall in F, F'.
  specialize (F _ I'). specialize (F' _ I). lra.
Qed.
Lemma Rtop_perm : forall a b, Permutation a b -> Rtop a = Rtop b.
Proof.
  intros a b P. destruct a as [|x a]; [apply Permutation_nil in P; now subst|].
  destruct (top_spec b) as [I F]; [intros ->; apply Permutation_sym, Permutation_nil in P; discriminate|].
  apply top_unique; [eapply Permutation_in; [apply Permutation_sym; exact P|exact I]|].
  rewrite Forall_forall in *. intros y Hy. apply F. eapply Permutation_in; eauto.
Qed.
Lemma Rbot_perm : forall a b, Permutation a b -> Rbot a = Rbot b.
Proof.
  intros a b P. destruct a as [|x a]; [apply Permutation_nil in P; now subst|].
  destruct (bot_spec b) as [I F]; [intros ->; apply Permutation_sym, Permutation_nil in P; discriminate|].
  apply bot_unique; [eapply Permutation_in; [apply Permutation_sym; exact P|exact I]|].
  rewrite Forall_forall in *. intros y Hy. apply F. eapply Permutation_in; eauto.
Qed.
Lemma max_den : forall a dims ds keep d s r, is_float d = true -> xden a d s (fun i => Fin (r i)) ->
  ReduceSpec.axes_of (length s) dims ds -> NoDup ds -> length s <= 16 ->
  exists t, x_max a dims keep = Ok t /\ xden t d (rshape keep ds s) (fun j => Fin (Rtop (map r (fibre keep ds s j)))).
Proof.
  intros a dims ds keep d s r F Ha Hax ND HR. apply (xden_reduce _ _ _ _ _ dims ds keep d s (fun i => Fin (r i))); auto.
  { now apply float_allowed. }
  pose proof (xden_pos _ _ _ _ Ha) as P. pose proof (axes_lt' _ _ _ Hax) as B.
  intros j l V PL. pose proof (fibre_nonempty keep ds s j P ND B V) as L. rewrite <- (Permutation_length PL) in L.
  rewrite <- (Rtop_perm (map r l)) by now apply Permutation_map. destruct l as [|x l]; [cbn in L; lia|].
  cbn [map fold_left]. unfold xmax at 2. cbn [xltb]. rewrite fold_xmax. reflexivity.
Qed.
Lemma min_den : forall a dims ds keep d s r, is_float d = true -> xden a d s (fun i => Fin (r i)) ->
  ReduceSpec.axes_of (length s) dims ds -> NoDup ds -> length s <= 16 ->
  exists t, x_min a dims keep = Ok t /\ xden t d (rshape keep ds s) (fun j => Fin (Rbot (map r (fibre keep ds s j)))).
Proof.
  intros a dims ds keep d s r F Ha Hax ND HR. apply (xden_reduce _ _ _ _ _ dims ds keep d s (fun i => Fin (r i))); auto.
  { now apply float_allowed. }
  pose proof (xden_pos _ _ _ _ Ha) as P. pose proof (axes_lt' _ _ _ Hax) as B.
  intros j l V PL. pose proof (fibre_nonempty keep ds s j P ND B V) as L. rewrite <- (Permutation_length PL) in L.
  rewrite <- (Rbot_perm (map r l)) by now apply Permutation_map. destruct l as [|x l]; [cbn in L; lia|].
  cbn [map fold_left]. unfold xmin at 2. cbn [xltb]. rewrite fold_xmin. reflexivity.
Qed.

(* ---------- norms ---------- *)
Section Norms.
Variable e : env.
Hypothesis He : env_ok e.
Lemma l1_den : forall a dims ds keep d s r, is_float d = true -> xden a d s (fun i => Fin (r i)) ->
  ReduceSpec.axes_of (length s) dims ds -> NoDup ds -> length s <= 16 ->
  exists t, x_l1_norm e a dims keep = Ok t /\
    xden t d (rshape keep ds s) (fun j => Fin (Rsum (map Rabs (map r (fibre keep ds s j))))).
Proof.
  intros a dims ds keep d s r F Ha Hax ND HR. unfold x_l1_norm, x_abs.
  destruct (xden_unary e He Signed xabs a d s _ (float_allowed _ _ F) Ha) as (b & E & D). rewrite E. cbn [bind].
  destruct (xden_sum b dims ds keep d s (fun i => Rabs (r i)) F D Hax ND HR) as (t & Et & Dt). exists t. split; auto.
  eapply xden_ext; [exact Dt|]. intros i V. now rewrite map_map.
Qed.
Lemma Rpow_nonneg : forall x p, (0 <= Rpow x p)%R.
Proof. intros x p. unfold Rpow. destruct (Req_EM_T x 0); [lra|]. apply Rlt_le, exp_pos. Qed.
Lemma xpow_nonneg : forall x p, (0 <= x)%R -> (0 < p)%R -> xpow (Fin x) (Fin p) = Fin (Rpow x p).
Proof.
  intros x p Hx Hp. unfold xpow, Rpow. destruct (Req_EM_T x 0) as [->|N].
  - unfold pow_opt. rewrite (Reqb_f p 0) by lra. rewrite Reqb_t. rewrite Rgtb_t by lra. reflexivity.
  - now rewrite pow_pos by lra.
Qed.
Lemma norm_den : forall p a dims ds keep d s r, is_float d = true -> xden a d s (fun i => Fin (r i)) -> (0 < p)%R ->
  Rtrunc p <> 1%R -> Rtrunc p <> 2%R ->
  ReduceSpec.axes_of (length s) dims ds -> NoDup ds -> length s <= 16 ->
  exists t, x_norm e p a dims keep = Ok t /\
    xden t d (rshape keep ds s) (fun j => Fin (Rpnorm p (map r (fibre keep ds s j)))).
Proof.
  intros p a dims ds keep d s r F Ha Hp N1 N2 Hax ND HR. unfold x_norm. rewrite (Reqb_f _ _ N1), (Reqb_f _ _ N2). unfold x_abs.
  destruct (xden_unary e He Signed xabs a d s _ (float_allowed _ _ F) Ha) as (b & E & D). rewrite E. cbn [bind].
  assert (Dx : xdtype a = d) by apply Ha. rewrite Dx.
  destruct (xden_scalar e He Floats xpow b d s _ (Fin p) F D) as (c & Ec & Dc). rewrite Ec. cbn [bind].
  assert (Dc' : xden c d s (fun i => Fin (Rpow (Rabs (r i)) p))).
  { eapply xden_ext; [exact Dc|]. intros i V. cbn [xabs]. apply xpow_nonneg; [apply Rabs_pos|auto]. }
  destruct (xden_sum c dims ds keep d s _ F Dc' Hax ND HR) as (q & Eq & Dq). rewrite Eq. cbn [bind].
  rewrite xdiv_fin by lra. destruct (xden_scalar e He Floats xpow q d _ _ (Fin (1 / p)) F Dq) as (t & Et & Dt).
  exists t. split; auto. eapply xden_ext; [exact Dt|]. intros j V. unfold Rpnorm. rewrite map_map. apply xpow_nonneg.
  - apply Rsum_nonneg. apply Forall_forall. intros y Hy. apply in_map_iff in Hy. destruct Hy as (z & <- & _). apply Rpow_nonneg.
  - unfold Rdiv. rewrite Rmult_1_l. now apply Rinv_0_lt_compat.
Qed.
End Norms.
