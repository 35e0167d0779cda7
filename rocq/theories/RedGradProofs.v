(** Proofs about the gradient rules of the reductions. *)
From Coq Require Import List Arith ZArith Bool Lia Lra Reals Permutation.
From Verif Require Import Base IndexSpec LayoutModel ViewSpec KernelModel KernelProofs TensorModel TensorSpec TensorProofs BcastProofs
  ReduceModel ReduceSpec ReduceProofs ReduceProofs2 EncodeModel NumModel DenSpec DenProofs NnModel NnSpec NnProofs NnProofs2 NormProofs
  LayerModel AttnModel AttnProofs2 ShapeGradModel ShapeGradProofs LinGradProofs MatGradSpec MatGradProofs
  RuleModel RuleProofs RuleProofs2 RedModel RedSpec RedProofs RedGradModel RedGradSpec.
Import ListNotations.
Open Scope nat_scope.

(** ** The derivative of the loss *)
Lemma fibre_split : forall keep ds s i, valid s i -> exists rest,
  Permutation (fibre keep ds s (rproj keep ds i)) (i :: rest) /\ ~ In i rest.
Proof.
  intros keep ds s i V. assert (I : In i (fibre keep ds s (rproj keep ds i))).
  { unfold fibre. apply filter_In. split; [now apply in_all_idx|]. now destruct (list_eq_dec _ _ _). }
  destruct (in_split _ _ I) as (l1 & l2 & E). exists (l1 ++ l2). rewrite E. split; [symmetry; apply Permutation_middle|].
  assert (N : NoDup (fibre keep ds s (rproj keep ds i))) by apply NoDup_filter, all_idx_NoDup.
  rewrite E in N. now apply NoDup_remove_2 in N.
Qed.
Lemma nudge_at : forall r i t, nudge r i t i = (r i + t)%R.
Proof. intros. unfold nudge. now destruct (list_eq_dec _ _ _). Qed.
Lemma nudge_off : forall r i t l, ~ In i l -> map (nudge r i t) l = map r l.
Proof.
  intros r i t l N. apply map_ext_in. intros j J. unfold nudge. destruct (list_eq_dec _ _ _); [subst; contradiction|reflexivity].
Qed.
Lemma fibre_proj : forall keep ds s j i, In i (fibre keep ds s j) -> rproj keep ds i = j.
Proof. intros keep ds s j i H. unfold fibre in H. apply filter_In in H. destruct H as [_ H]. now destruct (list_eq_dec _ _ _). Qed.

Lemma Rsum_one : forall (l : list (list nat)) (f g : list nat -> R) j, In j l -> NoDup l ->
  (forall k, In k l -> k <> j -> f k = g k) -> Rsum (map f l) = (Rsum (map g l) + (f j - g j))%R.
Proof.
  induction l as [|x l IH]; intros f g j I N H; [destruct I|]. inversion N; subst. cbn [map Rsum].
  destruct (list_eq_dec Nat.eq_dec x j) as [->|NE].
  - rewrite (map_ext_in f g l); [lra|]. intros k K. apply H; [right; auto|]. intros ->. contradiction.
  - destruct I as [->|I]; [contradiction|]. rewrite (IH f g j) by (auto; intros; apply H; auto; right; auto).
    rewrite (H x) by (auto; left; auto). lra.
Qed.
Lemma loss_derivative : forall h keep ds s w r i D rest, (forall l l', Permutation l l' -> h l = h l') ->
  valid s i -> valid (rshape keep ds s) (rproj keep ds i) ->
  Permutation (fibre keep ds s (rproj keep ds i)) (i :: rest) -> ~ In i rest ->
  derivable_pt_lim (fun t => h ((r i + t)%R :: map r rest)) 0 D ->
  derivable_pt_lim (fun t => rloss h keep ds s w (nudge r i t)) 0 (D * w (rproj keep ds i))%R.
Proof.
  intros h keep ds s w r i D rest Ph V Vj P N HD. set (j := rproj keep ds i) in *.
  apply (derivable_local _ (fun t => (rloss h keep ds s w r - w j * h (map r (fibre keep ds s j)))%R + w j * h ((r i + t)%R :: map r rest))%R _ 1); [lra| |].
  - intros t _. unfold rloss.
    rewrite (Rsum_one (all_idx (rshape keep ds s)) (fun k => w k * h (map (nudge r i t) (fibre keep ds s k)))%R (fun k => w k * h (map r (fibre keep ds s k)))%R j).
    + replace (h (map (nudge r i t) (fibre keep ds s j))) with (h ((r i + t)%R :: map r rest)); [lra|].
      transitivity (h (map (nudge r i t) (i :: rest))); [cbn [map]; now rewrite nudge_at, nudge_off|].
      apply Ph, Permutation_map. now symmetry.
    + now apply in_all_idx.
    + apply all_idx_NoDup.
    + intros k K NE. rewrite nudge_off; auto. intros I. apply fibre_proj in I. now symmetry in I.
  - set (c := (rloss h keep ds s w r - w j * h (map r (fibre keep ds s j)))%R). replace (D * w j)%R with (0 + w j * D)%R by lra.
    apply (derivable_pt_lim_plus (fun _ => c) (fun t => w j * h ((r i + t)%R :: map r rest))%R); [apply derivable_pt_lim_const|].
    now apply (derivable_pt_lim_scal (fun t => h ((r i + t)%R :: map r rest))).
Qed.

(** ** Keeping the reduced axes or not *)
Lemma set_drop : forall ds s k i j, valid s i -> valid s j -> set_axes ds 0 k i = set_axes ds 0 k j <-> drop_axes ds k i = drop_axes ds k j.
Proof.
  intros ds. induction s as [|n s IH]; intros k [|x i] [|y j] Vi Vj; cbn in Vi, Vj; try contradiction; try tauto.
  cbn [set_axes drop_axes]. specialize (IH (S k) i j (proj2 Vi) (proj2 Vj)). destruct (in_dec Nat.eq_dec k ds).
  - rewrite <- IH. split; intros H; [now inversion H|congruence].
  - split; intros H; inversion H; f_equal; apply IH; auto.
Qed.
Lemma proj_keep : forall k k' ds s i j, valid s i -> valid s j -> rproj k ds i = rproj k ds j -> rproj k' ds i = rproj k' ds j.
Proof. intros [|] [|] ds s i j Vi Vj H; auto; unfold rproj in *; [|]; apply (set_drop ds s 0 i j Vi Vj); auto. Qed.
Lemma fibre_keep : forall k k' ds s i, valid s i -> fibre k ds s (rproj k ds i) = fibre k' ds s (rproj k' ds i).
Proof.
  intros k k' ds s i V. unfold fibre. apply filter_ext_in. intros j J. apply in_all_idx in J.
  destruct (list_eq_dec Nat.eq_dec (rproj k ds j) _) as [H|H], (list_eq_dec Nat.eq_dec (rproj k' ds j) _) as [H'|H']; auto.
  - elim H'. now apply (proj_keep k k' ds s).
  - elim H. now apply (proj_keep k' k ds s).
Qed.
Lemma axes_recorded : forall n dims ds, ReduceSpec.axes_of n dims ds -> ReduceSpec.axes_of n (map Z.of_nat ds) ds.
Proof.
  intros n dims ds H. pose proof (axes_lt' _ _ _ H) as L. destruct ds as [|d ds].
  - cbn. destruct dims; cbn in H; [auto|inversion H].
  - cbn [map]. unfold ReduceSpec.axes_of. change (Z.of_nat d :: map Z.of_nat ds) with (map Z.of_nat (d :: ds)).
    clear H. induction L; constructor; auto.
Qed.
Lemma dims_recorded : forall s dims ds, ReduceSpec.axes_of (length s) dims ds -> v_reduce_dims s ds = ds.
Proof. intros s dims ds H. destruct ds; [|reflexivity]. destruct dims; cbn in H; [cbn; now rewrite <- H|inversion H]. Qed.
Lemma elements_ok : forall a d s f ds, xden a d s f -> v_reduce_dims s ds = ds -> Forall (fun d => d < length s) ds ->
  reduce_elements a ds = Ok (nelem (extents ds s)).
Proof.
  intros a d s f ds X R L. unfold reduce_elements. rewrite (xden_shape _ _ _ _ X), R.
  assert (E : mapO (nth_error s) ds = Some (extents ds s)).
  { clear - L. unfold extents. induction L as [|d ds Hd Hf IH]; [reflexivity|]. rewrite mapO_cons, (nth_error_nth' s 0 Hd), IH. reflexivity. }
  rewrite E. cbn [ub bind]. f_equal. unfold nelem. apply fold_symmetric; intros; lia.
Qed.

(** ** The derivatives of the reductions in one entry *)
Open Scope R_scope.
Lemma dlim_eq : forall f x d d', d = d' -> derivable_pt_lim f x d -> derivable_pt_lim f x d'.
Proof. intros. now subst. Qed.
Lemma quad_derivative : forall f a b c, (forall t, f t = a + t * b + t * t * c) -> derivable_pt_lim f 0 b.
Proof.
  intros f a b c H. apply (derivable_local _ (fun t => (a + t * b) + t * t * c) _ 1); [lra|intros; apply H|].
  apply (dlim_eq _ _ (b + (1 * 0 + 0 * 1) * c)); [lra|]. apply (derivable_pt_lim_plus (fun t => a + t * b) (fun t => t * t * c)).
  - now apply (affine_derivative _ a).
  - apply (derivable_local _ (fun t => c * (t * t)) _ 1); [lra|intros; lra|]. replace ((1 * 0 + 0 * 1) * c) with (c * (1 * 0 + 0 * 1)) by lra.
    apply (derivable_pt_lim_scal (fun t => t * t)). apply (derivable_pt_lim_mult id id); apply derivable_pt_lim_id.
Qed.
Lemma D_prod : forall x l, derivable_pt_lim (fun t => Rprod ((x + t) :: l)) 0 (Rprod l).
Proof. intros. apply (affine_derivative _ (x * Rprod l)). intros t. unfold Rprod. cbn [fold_right]. lra. Qed.
Lemma sqrt_derivative : forall f D, 0 < f 0 -> derivable_pt_lim f 0 D -> derivable_pt_lim (fun t => sqrt (f t)) 0 (D / (2 * sqrt (f 0))).
Proof.
  intros f D P H. replace (D / (2 * sqrt (f 0))) with (/ (2 * sqrt (f 0)) * D) by (unfold Rdiv; lra).
  apply (derivable_pt_lim_comp f sqrt); auto. now apply derivable_pt_lim_sqrt.
Qed.
Lemma ln_derivative : forall f D, 0 < f 0 -> derivable_pt_lim f 0 D -> derivable_pt_lim (fun t => ln (f t)) 0 (D / f 0).
Proof.
  intros f D P H. replace (D / f 0) with (/ f 0 * D) by (unfold Rdiv; lra).
  apply (derivable_pt_lim_comp f ln); auto. now apply derivable_pt_lim_ln.
Qed.
Lemma at0 : forall x : R, x + 0 = x. Proof. intros. lra. Qed.
Lemma D_norm : forall x l, 0 < Rsum (map (fun y => y ^ 2) (x :: l)) ->
  derivable_pt_lim (fun t => Rnorm2 ((x + t) :: l)) 0 (x / Rnorm2 (x :: l)).
Proof.
  intros x l P. unfold Rnorm2.
  assert (H := sqrt_derivative (fun t => Rsum (map (fun y => y ^ 2) ((x + t) :: l))) (2 * x)). cbn beta in H. rewrite at0 in H.
  replace (x / sqrt (Rsum (map (fun y => y ^ 2) (x :: l)))) with (2 * x / (2 * sqrt (Rsum (map (fun y => y ^ 2) (x :: l))))).
  - apply H; auto. apply (quad_derivative _ (x ^ 2 + Rsum (map (fun y => y ^ 2) l)) _ 1). intros t. cbn [map Rsum]. ring.
  - field. apply Rgt_not_eq. now apply sqrt_lt_R0.
Qed.
Lemma INR_len : forall (x : R) l, INR (length (x :: l)) <> 0.
Proof. intros. apply not_0_INR. cbn. lia. Qed.
Lemma D_var : forall x l, derivable_pt_lim (fun t => Rvar ((x + t) :: l)) 0 (2 * (x - Ravg (x :: l)) / INR (length (x :: l))).
Proof.
  intros x l. set (n := INR (length (x :: l))). pose proof (INR_len x l) as N. fold n in N.
  set (Q := Rsum (map (fun y => y ^ 2) l)). set (U := Rsum l).
  apply (quad_derivative _ ((x ^ 2 + Q) / n - ((x + U) / n) ^ 2) _ (/ n - / n * / n)). intros t.
  rewrite Rvar_moments by discriminate. unfold Ravg. change (length ((x + t) :: l)) with (length (x :: l)). fold n. cbn [map Rsum]. fold Q U.
  field. exact N.
Qed.
Lemma D_std : forall x l, 0 < Rvar (x :: l) ->
  derivable_pt_lim (fun t => sqrt (Rvar ((x + t) :: l))) 0 ((x - Ravg (x :: l)) / sqrt (Rvar (x :: l)) * (1 / INR (length (x :: l)))).
Proof.
  intros x l P. assert (H := sqrt_derivative (fun t => Rvar ((x + t) :: l)) (2 * (x - Ravg (x :: l)) / INR (length (x :: l)))). cbn beta in H. rewrite at0 in H.
  match goal with |- derivable_pt_lim _ _ ?D => replace D with (2 * (x - Ravg (x :: l)) / INR (length (x :: l)) / (2 * sqrt (Rvar (x :: l)))) end.
  - apply H; auto. apply D_var.
  - field. split; [apply INR_len|]. apply Rgt_not_eq. now apply sqrt_lt_R0.
Qed.
Lemma D_logsum : forall x l, 0 < Rsum (x :: l) -> derivable_pt_lim (fun t => ln (Rsum ((x + t) :: l))) 0 (1 / Rsum (x :: l)).
Proof.
  intros x l P. assert (H := ln_derivative (fun t => Rsum ((x + t) :: l)) 1). cbn beta in H. rewrite at0 in H. apply H; auto.
  apply (affine_derivative _ (x + Rsum l)). intros t. cbn [Rsum]. lra.
Qed.
Lemma D_lse : forall x l, derivable_pt_lim (fun t => Rlse ((x + t) :: l)) 0 (exp x / Rsum (map exp (x :: l))).
Proof.
  intros x l. unfold Rlse. assert (H := ln_derivative (fun t => Rsum (map exp ((x + t) :: l))) (exp x)). cbn beta in H. rewrite at0 in H.
  apply H; [apply exps_pos; discriminate|].
  apply (derivable_local _ (fun t => Rsum (map exp l) + exp x * exp t) _ 1); [lra|intros t _; cbn [map Rsum]; rewrite exp_plus; lra|].
  apply (dlim_eq _ _ (0 + exp x * exp 0)); [rewrite exp_0; lra|].
  apply (derivable_pt_lim_plus (fun _ => Rsum (map exp l)) (fun t => exp x * exp t)); [apply derivable_pt_lim_const|].
  apply (derivable_pt_lim_scal exp). apply derivable_pt_lim_exp.
Qed.
(** the gap below a strict bound *)
Lemma gap_above : forall x l, Forall (fun y => y < x) l -> exists r, 0 < r /\ forall t, Rabs t < r -> Forall (fun y => y <= x + t) l.
Proof.
  intros x l H. induction H as [|y l Hy Hl (r & P & IH)]; [exists 1; split; [lra|constructor]|].
  exists (Rmin r (x - y)). split; [apply Rmin_glb_lt; lra|]. intros t Ht.
  pose proof (Rmin_l r (x - y)). pose proof (Rmin_r r (x - y)). constructor; [|apply IH; lra].
  unfold Rabs in Ht. destruct (Rcase_abs t); lra.
Qed.
Lemma gap_below : forall x l, Forall (fun y => x < y) l -> exists r, 0 < r /\ forall t, Rabs t < r -> Forall (fun y => x + t <= y) l.
Proof.
  intros x l H. induction H as [|y l Hy Hl (r & P & IH)]; [exists 1; split; [lra|constructor]|].
  exists (Rmin r (y - x)). split; [apply Rmin_glb_lt; lra|]. intros t Ht.
  pose proof (Rmin_l r (y - x)). pose proof (Rmin_r r (y - x)). constructor; [|apply IH; lra].
  unfold Rabs in Ht. destruct (Rcase_abs t); lra.
Qed.
Lemma D_top_in : forall x l, Forall (fun y => y < x) l -> derivable_pt_lim (fun t => Rtop ((x + t) :: l)) 0 1.
Proof.
  intros x l H. destruct (gap_above x l H) as (r & P & G). apply (derivable_local _ (fun t => x + t * 1) _ r); auto.
  - intros t Ht. rewrite (top_unique _ (x + t)); [lra|left; auto|]. constructor; [lra|auto].
  - now apply (affine_derivative _ x).
Qed.
Lemma D_top_out : forall x l m, In m l -> x < m -> Forall (fun y => y <= m) l -> derivable_pt_lim (fun t => Rtop ((x + t) :: l)) 0 0.
Proof.
  intros x l m I L H. apply (derivable_local _ (fun t => m + t * 0) _ (m - x)); [lra| |now apply (affine_derivative _ m)].
  intros t Ht. rewrite (top_unique _ m); [lra|right; auto|]. constructor; auto. unfold Rabs in Ht. destruct (Rcase_abs t); lra.
Qed.
Lemma D_bot_in : forall x l, Forall (fun y => x < y) l -> derivable_pt_lim (fun t => Rbot ((x + t) :: l)) 0 1.
Proof.
  intros x l H. destruct (gap_below x l H) as (r & P & G). apply (derivable_local _ (fun t => x + t * 1) _ r); auto.
  - intros t Ht. rewrite (bot_unique _ (x + t)); [lra|left; auto|]. constructor; [lra|auto].
  - now apply (affine_derivative _ x).
Qed.
Lemma D_bot_out : forall x l m, In m l -> m < x -> Forall (fun y => m <= y) l -> derivable_pt_lim (fun t => Rbot ((x + t) :: l)) 0 0.
Proof.
  intros x l m I L H. apply (derivable_local _ (fun t => m + t * 0) _ (x - m)); [lra| |now apply (affine_derivative _ m)].
  intros t Ht. rewrite (bot_unique _ m); [lra|right; auto|]. constructor; auto. unfold Rabs in Ht. destruct (Rcase_abs t); lra.
Qed.
Close Scope R_scope.

(** ** The rules *)
Section Rules.
Variable e : env.
Hypothesis He : env_ok e.
Variables (a g : xtensor) (d : dtype) (s : list nat) (r w : list nat -> R) (dims : list Z) (ds : list nat) (keep : bool).
Hypothesis F : is_float d = true.
Hypothesis Xa : xden a d s (fun i => Fin (r i)).
Hypothesis Hax : ReduceSpec.axes_of (length s) dims ds.
Hypothesis ND : NoDup ds.
Hypothesis HR : length s <= 16.
Hypothesis Xg : xden g d (rshape keep ds s) (fun j => Fin (w j)).
Hypothesis Hl : keep = false -> leading ds (length s).
Let P : all_pos s := xden_pos _ _ _ _ Xa.
Let SH : xshape a = s := xden_shape _ _ _ _ Xa.
Let RD : v_reduce_dims s ds = ds := dims_recorded _ _ _ Hax.
Let C : forall c, allowed c d = true := fun c => float_allowed c d F.
Let fib (i : list nat) := fibre keep ds s (rproj keep ds i).

Lemma spread : forall k t f, (k = false -> leading ds (length s)) -> xden t d (rshape k ds s) f ->
  exists u, x_view (VBroadcast (xshape a)) t = Ok u /\ xden u d s (fun i => f (rproj k ds i)).
Proof.
  intros k t f K X. rewrite SH. destruct (sum_broadcast k ds s K) as [SR B].
  destruct (x_broadcast_ok t d _ s f X SR P) as (u & E & D). exists u. split; auto.
  eapply xden_ext; [exact D|]. intros i V. cbn beta. now rewrite B.
Qed.
Lemma in_fib : forall i, valid s i -> In i (fib i).
Proof. intros i V. now apply (proj2 (fibre_partition keep ds s i V)). Qed.
Lemma fib_ne : forall i, valid s i -> map r (fib i) <> [].
Proof. intros i V E. pose proof (in_fib i V) as I. destruct (fib i); [destruct I|discriminate]. Qed.
Lemma fib_len : forall i, valid s i -> nelem (extents ds s) = length (map r (fib i)).
Proof.
  intros i V. rewrite map_length. symmetry. apply length_fibre; auto; [eapply axes_lt'; eauto|]. now apply fibre_partition.
Qed.
Lemma fdiv : forall x y, (y <> 0)%R -> xdiv (Fin x) (Fin y) = Fin (x / y)%R.
Proof. intros x y N. unfold xdiv. now destruct (Req_EM_T y 0). Qed.

(** [h] reduces, [p] is the entry of the rule: a derivative of [h] at [r i] times the gradient *)
Definition right_gradient (h : list R -> R) (p : list nat -> R) : Prop :=
  forall i, valid s i -> derivable_pt_lim (fun t => rloss h keep ds s w (nudge r i t)) 0 (p i).
Lemma right_by : forall h D, (forall l l', Permutation l l' -> h l = h l') ->
  (forall i l, valid s i -> Permutation (fib i) (i :: l) -> ~ In i l -> derivable_pt_lim (fun t => h ((r i + t)%R :: map r l)) 0 (D i)) ->
  right_gradient h (fun i => D i * w (rproj keep ds i))%R.
Proof.
  intros h D Ph H i V. destruct (fibre_split keep ds s i V) as (l & Pl & N).
  eapply loss_derivative; eauto. now apply fibre_partition.
Qed.
Lemma perm_fib : forall i l, Permutation (fib i) (i :: l) -> Permutation (map r (fib i)) (r i :: map r l).
Proof. intros i l H. exact (Permutation_map r H). Qed.

Lemma vjp_prod_ok : forall out, xden out d (rshape keep ds s) (fun j => Fin (Rprod (map r (fibre keep ds s j)))) ->
  (forall i, valid s i -> r i <> 0)%R ->
  exists gx p, vjp_prod e a out g = Ok gx /\ xden gx d s (fun i => Fin (p i)) /\ right_gradient Rprod p.
Proof.
  intros out Xo NZ. unfold vjp_prod. destruct (spread keep out _ Hl Xo) as (o & -> & Do). cbn [bind].
  destruct (xden_binary_same e He Floats xdiv o a d s _ _ (C _) Do Xa) as (q & Eq & Dq). unfold x_div. rewrite Eq. cbn [bind].
  destruct (spread keep g _ Hl Xg) as (b & -> & Db). cbn [bind].
  destruct (xden_binary_same e He NoBool xmul q b d s _ _ (C _) Dq Db) as (u & Eu & Du). unfold x_mul. rewrite Eu.
  exists u. eexists. split; [reflexivity|]. split.
  - eapply xden_ext; [exact Du|]. intros i V. cbn beta. rewrite fdiv by auto. reflexivity.
  - apply (right_by Rprod (fun i => Rprod (map r (fib i)) / r i)%R); [apply Rprod_perm|]. intros i l V Pl N. eapply dlim_eq; [|apply D_prod].
    rewrite (Rprod_perm _ _ (perm_fib i l Pl)). unfold Rprod. cbn [fold_right]. field. now apply NZ.
Qed.

Lemma vjp_norm_ok : forall out, xden out d (rshape keep ds s) (fun j => Fin (Rnorm2 (map r (fibre keep ds s j)))) ->
  (forall i, valid s i -> exists j, In j (fib i) /\ r j <> 0)%R ->
  exists gx p, vjp_norm e a out g = Ok gx /\ xden gx d s (fun i => Fin (p i)) /\ right_gradient Rnorm2 p.
Proof.
  intros out Xo NZ.
  assert (PS : forall i, valid s i -> (0 < Rsum (map (fun y => y ^ 2) (map r (fib i))))%R).
  { intros i V. destruct (NZ i V) as (j & I & Z). clear - I Z. rewrite map_map. induction (fib i) as [|k l IH]; [destruct I|].
    cbn [map Rsum]. pose proof (squares_nonneg _ l r). pose proof (pow2_ge_0 (r k)).
    destruct I as [->|I]; [assert (0 < r j ^ 2)%R by (rewrite <- Rsqr_pow2; now apply Rsqr_pos_lt); lra|specialize (IH I); lra]. }
  unfold vjp_norm. destruct (spread keep out _ Hl Xo) as (o & -> & Do). cbn [bind].
  destruct (xden_binary_same e He Floats xdiv a o d s _ _ (C _) Xa Do) as (q & Eq & Dq). unfold x_div. rewrite Eq. cbn [bind].
  destruct (spread keep g _ Hl Xg) as (b & -> & Db). cbn [bind].
  destruct (xden_binary_same e He NoBool xmul q b d s _ _ (C _) Dq Db) as (u & Eu & Du). unfold x_mul. rewrite Eu.
  exists u. eexists. split; [reflexivity|]. split.
  - eapply xden_ext; [exact Du|]. intros i V. cbn beta. rewrite fdiv; [reflexivity|]. apply Rgt_not_eq. apply sqrt_lt_R0. now apply PS.
  - assert (Pm : forall l l', Permutation l l' -> Rnorm2 l = Rnorm2 l').
    { intros l l' Pl. unfold Rnorm2. f_equal. apply Rsum_perm. now apply Permutation_map. }
    apply (right_by Rnorm2 (fun i => r i / Rnorm2 (map r (fib i)))%R); [exact Pm|]. intros i l V Pl N.
    eapply dlim_eq; [|apply D_norm].
    + cbn beta. now rewrite (Pm _ _ (perm_fib i l Pl)).
    + erewrite Rsum_perm; [apply (PS i V)|]. apply Permutation_map. symmetry. now apply perm_fib.
Qed.

Lemma centred : leading ds (length s) -> exists m mb u, x_mean a (map Z.of_nat ds) false = Ok m /\
  x_view (VBroadcast (xshape a)) m = Ok mb /\ x_sub e a mb = Ok u /\ xden u d s (fun i => Fin (r i - Ravg (map r (fib i)))%R).
Proof.
  intros LD. destruct (xden_mean a (map Z.of_nat ds) ds false d s r F Xa (axes_recorded _ _ _ Hax) ND HR) as (m & Em & Dm).
  destruct (spread false m _ (fun _ => LD) Dm) as (mb & Emb & Dmb).
  destruct (xden_binary_same e He NoBool xsub a mb d s _ _ (C _) Xa Dmb) as (u & Eu & Du).
  exists m, mb, u. split; auto. split; auto. split; auto. eapply xden_ext; [exact Du|]. intros i V. cbn beta.
  rewrite (fibre_keep false keep) by auto. rewrite (fib_len i V). reflexivity.
Qed.
Lemma vjp_var_ok : leading ds (length s) ->
  exists gx p, vjp_var e a g ds = Ok gx /\ xden gx d s (fun i => Fin (p i)) /\ right_gradient Rvar p.
Proof.
  intros LD. unfold vjp_var. rewrite SH, RD. destruct (centred LD) as (m & mb & u & Em & Emb & Eu & Du). rewrite SH in Emb.
  rewrite Em. cbn [bind]. rewrite Emb. cbn [bind]. rewrite Eu. cbn [bind].
  rewrite (elements_ok a d s _ ds Xa RD) by (eapply axes_lt'; eauto). cbn [bind]. rewrite (proj1 Xa).
  destruct (xden_scalar e He NoBool xmul u d s _ (xdiv (Fin 2) (nat_x (nelem (extents ds s)))) (C _) Du) as (q & Eq & Dq).
  unfold x_mul_scalar. rewrite Eq. cbn [bind].
  destruct (spread keep g _ Hl Xg) as (b & Eb & Db). rewrite SH in Eb. rewrite Eb. cbn [bind].
  destruct (xden_binary_same e He NoBool xmul q b d s _ _ (C _) Dq Db) as (v & Ev & Dv). unfold x_mul. rewrite Ev.
  exists v. eexists. split; [reflexivity|]. split.
  - eapply xden_ext; [exact Dv|]. intros i V. cbn beta. rewrite (fib_len i V). unfold nat_x. rewrite fdiv.
    + cbn [xmul]. reflexivity.
    + pose proof (fib_ne i V). destruct (map r (fib i)); [contradiction|apply INR_len].
  - apply (right_by Rvar (fun i => (r i - Ravg (map r (fib i))) * (2 / INR (length (map r (fib i)))))%R); [apply Rvar_perm|]. intros i l V Pl N.
    eapply dlim_eq; [|apply D_var]. cbn beta. unfold Ravg. rewrite (Permutation_length (perm_fib i l Pl)), (Rsum_perm _ _ (perm_fib i l Pl)).
    field. apply INR_len.
Qed.
Lemma vjp_std_ok : forall out, xden out d (rshape keep ds s) (fun j => Fin (sqrt (Rvar (map r (fibre keep ds s j))))) ->
  leading ds (length s) -> (forall i, valid s i -> 0 < Rvar (map r (fib i)))%R ->
  exists gx p, vjp_std e a out g ds = Ok gx /\ xden gx d s (fun i => Fin (p i)) /\ right_gradient (fun l => sqrt (Rvar l)) p.
Proof.
  intros out Xo LD PV. unfold vjp_std. rewrite SH, RD. destruct (centred LD) as (m & mb & u & Em & Emb & Eu & Du). rewrite SH in Emb.
  rewrite Em. cbn [bind]. rewrite Emb. cbn [bind]. rewrite Eu. cbn [bind].
  destruct (spread keep out _ Hl Xo) as (o & Eo & Do). rewrite SH in Eo. rewrite Eo. cbn [bind].
  rewrite (elements_ok a d s _ ds Xa RD) by (eapply axes_lt'; eauto). cbn [bind]. rewrite (proj1 Xa).
  destruct (xden_binary_same e He Floats xdiv u o d s _ _ (C _) Du Do) as (q0 & Eq0 & Dq0). unfold x_div. rewrite Eq0. cbn [bind].
  destruct (xden_scalar e He NoBool xmul q0 d s _ (xdiv (Fin 1) (nat_x (nelem (extents ds s)))) (C _) Dq0) as (q & Eq & Dq).
  unfold x_mul_scalar. rewrite Eq. cbn [bind].
  destruct (spread keep g _ Hl Xg) as (b & Eb & Db). rewrite SH in Eb. rewrite Eb. cbn [bind].
  destruct (xden_binary_same e He NoBool xmul q b d s _ _ (C _) Dq Db) as (v & Ev & Dv). unfold x_mul. rewrite Ev.
  exists v. eexists. split; [reflexivity|]. split.
  - eapply xden_ext; [exact Dv|]. intros i V. cbn beta. rewrite (fib_len i V). unfold nat_x. rewrite !fdiv.
    + cbn [xmul]. reflexivity.
    + pose proof (fib_ne i V). destruct (map r (fib i)); [contradiction|apply INR_len].
    + apply Rgt_not_eq, sqrt_lt_R0. now apply PV.
  - apply (right_by (fun l => sqrt (Rvar l)) (fun i => (r i - Ravg (map r (fib i))) / sqrt (Rvar (map r (fib i))) * (1 / INR (length (map r (fib i)))))%R).
    + intros l l' Pl. f_equal. now apply Rvar_perm.
    + intros i l V Pl N. eapply dlim_eq; [|apply D_std].
      * cbn beta. unfold Ravg. now rewrite (Permutation_length (perm_fib i l Pl)), (Rsum_perm _ _ (perm_fib i l Pl)), (Rvar_perm _ _ (perm_fib i l Pl)).
      * rewrite <- (Rvar_perm _ _ (perm_fib i l Pl)). now apply PV.
Qed.
Lemma vjp_logsum_ok : forall out, xden out d (rshape keep ds s) (fun j => Fin (ln (Rsum (map r (fibre keep ds s j))))) ->
  (forall i, valid s i -> 0 < Rsum (map r (fib i)))%R ->
  exists gx p, vjp_logsum e a out g = Ok gx /\ xden gx d s (fun i => Fin (p i)) /\ right_gradient (fun l => ln (Rsum l)) p.
Proof.
  intros out Xo PS. unfold vjp_logsum. destruct (xden_unary e He Floats xexp out d _ _ (C _) Xo) as (x & Ex & Dx). unfold x_exp. rewrite Ex. cbn [bind].
  destruct (spread keep x _ Hl Dx) as (o & -> & Do). cbn [bind].
  destruct (xden_unary e He Floats (fun v => xdiv (Fin 1) v) o d s _ (C _) Do) as (q & Eq & Dq). unfold x_recip. rewrite Eq. cbn [bind].
  destruct (spread keep g _ Hl Xg) as (b & -> & Db). cbn [bind].
  destruct (xden_binary_same e He NoBool xmul q b d s _ _ (C _) Dq Db) as (u & Eu & Du). unfold x_mul. rewrite Eu.
  exists u. eexists. split; [reflexivity|]. split.
  - eapply xden_ext; [exact Du|]. intros i V. cbn beta. cbn [xexp]. rewrite exp_ln by (now apply PS). rewrite fdiv; [reflexivity|].
    apply Rgt_not_eq. now apply PS.
  - apply (right_by (fun l => ln (Rsum l)) (fun i => 1 / Rsum (map r (fib i)))%R).
    + intros l l' Pl. f_equal. now apply Rsum_perm.
    + intros i l V Pl N. eapply dlim_eq; [|apply D_logsum].
      * cbn beta. now rewrite (Rsum_perm _ _ (perm_fib i l Pl)).
      * rewrite <- (Rsum_perm _ _ (perm_fib i l Pl)). now apply PS.
Qed.
Lemma vjp_lse_ok : forall out, xden out d (rshape keep ds s) (fun j => Fin (Rlse (map r (fibre keep ds s j)))) ->
  exists gx p, vjp_logsumexp e a out g = Ok gx /\ xden gx d s (fun i => Fin (p i)) /\ right_gradient Rlse p.
Proof.
  intros out Xo. unfold vjp_logsumexp. destruct (xden_unary e He Floats xexp a d _ _ (C _) Xa) as (y & Ey & Dy). unfold x_exp. rewrite Ey. cbn [bind].
  destruct (xden_unary e He Floats xexp out d _ _ (C _) Xo) as (x & Ex & Dx). rewrite Ex. cbn [bind].
  destruct (spread keep x _ Hl Dx) as (o & -> & Do). cbn [bind].
  destruct (xden_binary_same e He Floats xdiv y o d s _ _ (C _) Dy Do) as (q & Eq & Dq). unfold x_div. rewrite Eq. cbn [bind].
  destruct (spread keep g _ Hl Xg) as (b & -> & Db). cbn [bind].
  destruct (xden_binary_same e He NoBool xmul q b d s _ _ (C _) Dq Db) as (u & Eu & Du). unfold x_mul. rewrite Eu.
  assert (PS : forall i, valid s i -> (0 < Rsum (map exp (map r (fib i))))%R) by (intros i V; apply exps_pos; now apply fib_ne).
  exists u. eexists. split; [reflexivity|]. split.
  - eapply xden_ext; [exact Du|]. intros i V. cbn beta. cbn [xexp]. unfold Rlse. rewrite exp_ln by (now apply PS). rewrite fdiv; [reflexivity|].
    apply Rgt_not_eq. now apply PS.
  - apply (right_by Rlse (fun i => exp (r i) / Rsum (map exp (map r (fib i))))%R); [apply Rlse_perm|].
    intros i l V Pl N. eapply dlim_eq; [|apply D_lse]. cbn beta.
    now rewrite (Rsum_perm _ _ (Permutation_map exp (perm_fib i l Pl))).
Qed.

(** max and min: the entries equal to the result share the gradient *)
Definition hit (m : list nat -> R) (i : list nat) : R := if Req_EM_T (r i) (m (rproj keep ds i)) then 1%R else 0%R.
Definition tied (m : list nat -> R) (i : list nat) : R := Rsum (map (hit m) (fib i)).
Lemma hits_nonneg : forall m l, (0 <= Rsum (map (hit m) l))%R.
Proof. intros m l. induction l as [|x l IH]; cbn [map Rsum]; [lra|]. unfold hit at 1. destruct (Req_EM_T _ _); lra. Qed.
Lemma hits_pos : forall m l k, In k l -> r k = m (rproj keep ds k) -> (1 <= Rsum (map (hit m) l))%R.
Proof.
  intros m l k I E. induction l as [|x l IH]; [destruct I|]. cbn [map Rsum]. pose proof (hits_nonneg m l).
  destruct I as [->|I]; [|specialize (IH I)]; unfold hit at 1; destruct (Req_EM_T _ _); try lra; contradiction.
Qed.
Lemma tied_pos : forall m i, valid s i -> (exists k, In k (fib i) /\ r k = m (rproj keep ds i)) -> (1 <= tied m i)%R.
Proof. intros m i V (k & I & E). apply (hits_pos m _ k I). unfold fib in I. now rewrite (fibre_proj _ _ _ _ _ I). Qed.
Lemma vjp_max_den : forall out m, xden out d (rshape keep ds s) (fun j => Fin (m j)) ->
  (forall i, valid s i -> exists k, In k (fib i) /\ r k = m (rproj keep ds i)) ->
  exists gx, vjp_max e a out g ds = Ok gx /\ xden gx d s (fun i => Fin (w (rproj keep ds i) * hit m i / tied m i)%R).
Proof.
  intros out m Xo AT. unfold vjp_max. destruct (spread keep out _ Hl Xo) as (o & -> & Do). cbn [bind].
  assert (EQ : exists k, x_eq e a o = Ok k /\ xden k BOOL s (fun i => Fin (hit m i))).
  { destruct Xa as [D1 H1]. destruct Do as [D2 H2]. unfold x_eq. rewrite D1, D2, same_dtype_refl. cbn [negb].
    destruct (den_binary_same _ _ _ e (Fin 0) (Fin 0) (Fin 0) (fun x y => xbool (xeqb x y)) (xdata a) (xdata o) s _ _ He H1 H2) as (t & Et & Dt).
    rewrite Et. eexists. split; [reflexivity|]. split; [reflexivity|]. eapply den_ext; [exact Dt|]. intros i V. cbn beta. unfold hit, xeqb, xbool. now destruct (Req_EM_T _ _). }
  destruct EQ as (k & -> & Dk). cbn [bind]. rewrite (proj1 Xg).
  destruct (xden_cast e He k BOOL d s _ ltac:(destruct d; try discriminate F; reflexivity) Dk) as (mf & -> & Dm). cbn [bind].
  rewrite SH, RD. destruct (xden_sum mf (map Z.of_nat ds) ds true d s (hit m) F Dm (axes_recorded _ _ _ Hax) ND HR) as (c & -> & Dc). cbn [bind].
  destruct (spread true c _ ltac:(discriminate) Dc) as (cb & Ecb & Dcb). rewrite SH in Ecb. rewrite Ecb. cbn [bind].
  destruct (spread keep g _ Hl Xg) as (b & Eb & Db). rewrite SH in Eb. rewrite Eb. cbn [bind].
  destruct (xden_binary_same e He NoBool xmul b mf d s _ _ (C _) Db Dm) as (u & Eu & Du). unfold x_mul. rewrite Eu. cbn [bind].
  destruct (xden_binary_same e He Floats xdiv u cb d s _ _ (C _) Du Dcb) as (v & Ev & Dv). unfold x_div. rewrite Ev.
  exists v. split; [reflexivity|]. eapply xden_ext; [exact Dv|]. intros i V. cbn beta. cbn [xmul].
  rewrite (fibre_keep true keep) by auto. fold (fib i). fold (tied m i). apply fdiv. pose proof (tied_pos m i V (AT i V)). lra.
Qed.
(** no two entries along the reduced axes are both equal to the result *)
Definition no_tie (m : list nat -> R) : Prop := forall i k, valid s i -> In k (fib i) -> r i = m (rproj keep ds i) -> r k = m (rproj keep ds i) -> k = i.
Lemma tied_one : forall m i, no_tie m -> valid s i -> (exists k, In k (fib i) /\ r k = m (rproj keep ds i)) -> tied m i = 1%R.
Proof.
  intros m i NT V (k & I & E). assert (Vk : valid s k) by (eapply fibre_in; exact I).
  assert (Pk : rproj keep ds k = rproj keep ds i) by (eapply fibre_proj; exact I).
  assert (Ik : In i (fib k)) by (unfold fib; rewrite Pk; now apply in_fib).
  unfold tied. destruct (in_split _ _ I) as (l1 & l2 & El). assert (N : NoDup (fib i)) by apply NoDup_filter, all_idx_NoDup. rewrite El in N. apply NoDup_remove_2 in N.
  assert (Z : forall j, In j (l1 ++ l2) -> hit m j = 0%R).
  { intros j J. assert (Ij : In j (fib i)) by (rewrite El; apply in_app_iff in J; apply in_app_iff; cbn; tauto).
    assert (Pj : rproj keep ds j = rproj keep ds i) by (eapply fibre_proj; exact Ij).
    unfold hit. destruct (Req_EM_T _ _) as [Q|]; [|reflexivity]. elim N. replace k with j; auto. apply (NT k j); auto; try congruence. unfold fib. now rewrite Pk. }
  assert (S0 : forall l, (forall j, In j l -> hit m j = 0%R) -> Rsum (map (hit m) l) = 0%R).
  { induction l as [|x l IH]; intros H; cbn [map Rsum]; auto. rewrite H by (left; auto). rewrite IH by (intros; apply H; right; auto). lra. }
  erewrite Rsum_perm; [|apply Permutation_map; rewrite El; symmetry; apply Permutation_middle]. cbn [map Rsum].
  rewrite S0 by auto. unfold hit. rewrite Pk. destruct (Req_EM_T _ _); [lra|congruence].
Qed.
Lemma vjp_max_ok : forall out, xden out d (rshape keep ds s) (fun j => Fin (Rtop (map r (fibre keep ds s j)))) ->
  no_tie (fun j => Rtop (map r (fibre keep ds s j))) ->
  exists gx p, vjp_max e a out g ds = Ok gx /\ xden gx d s (fun i => Fin (p i)) /\ right_gradient Rtop p.
Proof.
  intros out Xo NT. set (m := fun j => Rtop (map r (fibre keep ds s j))) in *.
  assert (AT : forall i, valid s i -> exists k, In k (fib i) /\ r k = m (rproj keep ds i)).
  { intros i V. destruct (top_spec _ (fib_ne i V)) as [I _]. apply in_map_iff in I. destruct I as (k & E & I). exists k. auto. }
  destruct (vjp_max_den out m Xo AT) as (gx & E & D). exists gx. exists (fun i => hit m i * w (rproj keep ds i))%R. split; auto. split.
  - eapply xden_ext; [exact D|]. intros i V. cbn beta. rewrite tied_one by auto. f_equal. field.
  - apply (right_by Rtop (hit m)); [apply Rtop_perm|]. intros i l V Pl N. destruct (top_spec _ (fib_ne i V)) as [I U]. unfold hit.
    destruct (Req_EM_T _ _) as [Q|Q].
    + apply D_top_in. apply Forall_map, Forall_forall. intros k K. assert (Ik : In k (fib i)) by (eapply Permutation_in; [symmetry; exact Pl|right; auto]).
      rewrite Forall_forall in U. specialize (U (r k) (in_map r _ _ Ik)). change (r k <= m (rproj keep ds i))%R in U. rewrite <- Q in U.
      destruct U as [U|U]; auto. elim N. replace i with k; auto. apply (NT i k); auto. congruence.
    + change (r i <> Rtop (map r (fib i))) in Q. rewrite Forall_forall in U.
      assert (Ii : In (r i) (map r (fib i))) by (apply in_map, in_fib; auto).
      apply (D_top_out _ _ (Rtop (map r (fib i)))).
      * apply (Permutation_in _ (perm_fib i l Pl)) in I. destruct I as [I|I]; [congruence|auto].
      * specialize (U _ Ii). lra.
      * apply Forall_forall. intros y Y. apply U. eapply Permutation_in; [symmetry; apply (perm_fib i l Pl)|]. right; auto.
Qed.
Lemma vjp_min_ok : forall out, xden out d (rshape keep ds s) (fun j => Fin (Rbot (map r (fibre keep ds s j)))) ->
  no_tie (fun j => Rbot (map r (fibre keep ds s j))) ->
  exists gx p, vjp_max e a out g ds = Ok gx /\ xden gx d s (fun i => Fin (p i)) /\ right_gradient Rbot p.
Proof.
  intros out Xo NT. set (m := fun j => Rbot (map r (fibre keep ds s j))) in *.
  assert (AT : forall i, valid s i -> exists k, In k (fib i) /\ r k = m (rproj keep ds i)).
  { intros i V. destruct (bot_spec _ (fib_ne i V)) as [I _]. apply in_map_iff in I. destruct I as (k & E & I). exists k. auto. }
  destruct (vjp_max_den out m Xo AT) as (gx & E & D). exists gx. exists (fun i => hit m i * w (rproj keep ds i))%R. split; auto. split.
  - eapply xden_ext; [exact D|]. intros i V. cbn beta. rewrite tied_one by auto. f_equal. field.
  - apply (right_by Rbot (hit m)); [apply Rbot_perm|]. intros i l V Pl N. destruct (bot_spec _ (fib_ne i V)) as [I U]. unfold hit.
    destruct (Req_EM_T _ _) as [Q|Q].
    + apply D_bot_in. apply Forall_map, Forall_forall. intros k K. assert (Ik : In k (fib i)) by (eapply Permutation_in; [symmetry; exact Pl|right; auto]).
      rewrite Forall_forall in U. specialize (U (r k) (in_map r _ _ Ik)). change (m (rproj keep ds i) <= r k)%R in U. rewrite <- Q in U.
      destruct U as [U|U]; auto. elim N. replace i with k; auto. apply (NT i k); auto. congruence.
    + change (r i <> Rbot (map r (fib i))) in Q. rewrite Forall_forall in U.
      assert (Ii : In (r i) (map r (fib i))) by (apply in_map, in_fib; auto).
      apply (D_bot_out _ _ (Rbot (map r (fib i)))).
      * apply (Permutation_in _ (perm_fib i l Pl)) in I. destruct I as [I|I]; [congruence|auto].
      * specialize (U _ Ii). lra.
      * apply Forall_forall. intros y Y. apply U. eapply Permutation_in; [symmetry; apply (perm_fib i l Pl)|]. right; auto.
Qed.
End Rules.

(** ** What the rules compute in the cases that go wrong *)
Section Wrong.
Variable e : env.
Hypothesis He : env_ok e.
Variables (a g : xtensor) (d : dtype) (s : list nat) (r w : list nat -> R) (gs ds : list nat).
Hypothesis F : is_float d = true.
Hypothesis Xa : xden a d s (fun i => Fin (r i)).
Hypothesis Xg : xden g d gs (fun j => Fin (w j)).
Hypothesis SG : shape_rel (VBroadcast s) gs s.
Let SH : xshape a = s := xden_shape _ _ _ _ Xa.
Let C : forall c, allowed c d = true := fun c => float_allowed c d F.
Lemma spread_at : forall t t0 f, shape_rel (VBroadcast s) t0 s -> xden t d t0 f ->
  exists u, x_view (VBroadcast (xshape a)) t = Ok u /\ xden u d s (fun i => f (bidx t0 i)).
Proof. intros t t0 f SR X. rewrite SH. exact (x_broadcast_ok t d _ s f X SR (xden_pos _ _ _ _ Xa)). Qed.
Lemma vjp_prod_den : forall out m, xden out d gs (fun j => Fin (m j)) ->
  exists gx, vjp_prod e a out g = Ok gx /\ xden gx d s (fun i => xmul (xdiv (Fin (m (bidx gs i))) (Fin (r i))) (Fin (w (bidx gs i)))).
Proof.
  intros out m Xo. unfold vjp_prod. destruct (spread_at out _ _ SG Xo) as (o & -> & Do). cbn [bind].
  destruct (xden_binary_same e He Floats xdiv o a d s _ _ (C _) Do Xa) as (q & Eq & Dq). unfold x_div. rewrite Eq. cbn [bind].
  destruct (spread_at g _ _ SG Xg) as (b & -> & Db). cbn [bind].
  destruct (xden_binary_same e He NoBool xmul q b d s _ _ (C _) Dq Db) as (u & Eu & Du). unfold x_mul. rewrite Eu. eauto.
Qed.
Lemma vjp_var_den : ReduceSpec.axes_of (length s) (map Z.of_nat ds) ds -> NoDup ds -> length s <= 16 ->
  shape_rel (VBroadcast s) (rshape false ds s) s ->
  exists gx, vjp_var e a g ds = Ok gx /\ xden gx d s (fun i => Fin ((r i - Rsum (map r (fibre false ds s (bidx (rshape false ds s) i))) /
    INR (nelem (extents ds s))) * (2 / INR (nelem (extents ds s))) * w (bidx gs i))%R).
Proof.
  intros Hax ND HR SR. pose proof (dims_recorded _ _ _ Hax) as RD.
  destruct (xden_mean a (map Z.of_nat ds) ds false d s r F Xa Hax ND HR) as (m & Em & Dm).
  unfold vjp_var. rewrite SH, RD, Em. cbn [bind]. destruct (spread_at m _ _ SR Dm) as (mb & Emb & Dmb). rewrite SH in Emb. rewrite Emb. cbn [bind].
  destruct (xden_binary_same e He NoBool xsub a mb d s _ _ (C _) Xa Dmb) as (u & Eu & Du). unfold x_sub. rewrite Eu. cbn [bind].
  rewrite (elements_ok a d s _ ds Xa RD) by (eapply axes_lt'; eauto). cbn [bind]. rewrite (proj1 Xa).
  destruct (xden_scalar e He NoBool xmul u d s _ (xdiv (Fin 2) (nat_x (nelem (extents ds s)))) (C _) Du) as (q & Eq & Dq).
  unfold x_mul_scalar. rewrite Eq. cbn [bind].
  destruct (spread_at g _ _ SG Xg) as (b & Eb & Db). rewrite SH in Eb. rewrite Eb. cbn [bind].
  destruct (xden_binary_same e He NoBool xmul q b d s _ _ (C _) Dq Db) as (v & Ev & Dv). unfold x_mul. rewrite Ev.
  exists v. split; [reflexivity|]. eapply xden_ext; [exact Dv|]. intros i V. cbn beta. unfold nat_x. rewrite fdiv; [reflexivity|].
  apply not_0_INR. pose proof (xden_pos _ _ _ _ Xa) as P. pose proof (axes_lt' _ _ _ Hax) as L. clear - P L.
  induction L as [|x l Hx _ IH]; [discriminate|]. cbn [extents map nelem fold_right]. fold (nelem (extents l s)).
  assert (0 < nth x s 0) by (unfold all_pos in P; rewrite Forall_forall in P; apply P, nth_In; auto). apply Nat.neq_mul_0. split; [lia|exact IH].
Qed.
End Wrong.
Lemma shares : forall r w ds s keep m j, (exists k, In k (fibre keep ds s j) /\ r k = m j) ->
  Rsum (map (fun i => w (rproj keep ds i) * hit r ds keep m i / tied s r ds keep m i)%R (fibre keep ds s j)) = w j.
Proof.
  intros r w ds s keep m j (k & I & E). set (T := Rsum (map (hit r ds keep m) (fibre keep ds s j))).
  assert (N : (1 <= T)%R) by (apply (hits_pos r ds keep m _ k I); now rewrite (fibre_proj _ _ _ _ _ I)).
  assert (H : forall l, incl l (fibre keep ds s j) ->
    Rsum (map (fun i => w (rproj keep ds i) * hit r ds keep m i / tied s r ds keep m i)%R l) = (w j / T * Rsum (map (hit r ds keep m) l))%R).
  { induction l as [|x l IH]; intros S; cbn [map Rsum]; [lra|]. rewrite IH by (intros y Y; apply S; right; auto).
    unfold tied. rewrite (fibre_proj _ _ _ _ x (S x (or_introl eq_refl))). fold T. field. lra. }
  rewrite H by apply incl_refl. fold T. field. lra.
Qed.
