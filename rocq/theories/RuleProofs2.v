(** The rules of the unary operations. *)
From Coq Require Import Reals Lra Lia ZArith Bool List.
From Verif Require Import Base RuleModel RuleSpec RuleProofs.
Open Scope R_scope.

Lemma Rgtb_t : forall x y, y < x -> Rgtb x y = true.
Proof. intros x y H. unfold Rgtb. destruct (Rlt_dec y x); [reflexivity|lra]. Qed.
Lemma Rgtb_f : forall x y, x <= y -> Rgtb x y = false.
Proof. intros x y H. unfold Rgtb. destruct (Rlt_dec y x); [lra|reflexivity]. Qed.
Lemma Rgeb_t : forall x y, y <= x -> Rgeb x y = true.
Proof. intros x y H. unfold Rgeb. destruct (Rle_dec y x); [reflexivity|lra]. Qed.
Lemma Rgeb_f : forall x y, x < y -> Rgeb x y = false.
Proof. intros x y H. unfold Rgeb. destruct (Rle_dec y x); [lra|reflexivity]. Qed.
Lemma Reqb_t : forall x, Reqb x x = true.
Proof. intros x. unfold Reqb. destruct (Req_EM_T x x); congruence. Qed.
Lemma Reqb_f : forall x y, x <> y -> Reqb x y = false.
Proof. intros x y H. unfold Reqb. destruct (Req_EM_T x y); congruence. Qed.

Lemma smooth : forall F f x d d', (forall y, F y = Fl (f y)) -> D f x d' -> has_derivative F x d -> d = d'.
Proof. intros F f x d d' E HD H. apply (hd_unique F x); auto. eapply hd_all; eauto. Qed.
Lemma smooth_loc : forall F f x d d' delta, 0 < delta ->
  (forall y, Rabs (y - x) < delta -> F y = Fl (f y)) -> D f x d' -> has_derivative F x d -> d = d'.
Proof. intros F f x d d' delta Hd E HD H. apply (hd_unique F x); auto. eapply hd_intro; eauto. Qed.

Ltac ev := cbv [u_vjp u_forward kernel bind un arith t_add t_sub t_mul ones_like zeros_like
  add_s sub_s mul_s gt_s ge_s lt_s le_s cmp_s to_float k_neg k_abs k_sign k_softsign k_square
  k_relu k_sigmoid k_hardsigmoid k_gelu k_softplus k_silu k_hardsilu k_mish k_selu k_celu
  k_sin k_cos k_tan k_atan k_sinh k_cosh k_tanh k_asinh k_exp k_exp2 k_exp10 k_ceil k_floor k_round].
Ltac fin := apply f_equal; apply f_equal.

Section Unary.
Variable erf : R -> R.
Notation rule o := (forall x g d, has_derivative (kernel erf o) x d ->
  u_vjp o (Fl x) (kernel erf o x) (Fl g) = Ok (Fl (g * d))).

Lemma r_neg : rule Neg.
Proof.
  intros x g d H. apply (smooth _ (fun y => - y) x d (- 1)) in H; [|reflexivity|apply D_opp, D_id].
  subst d. ev. fin. ring.
Qed.

Lemma abs_D : forall x, x <> 0 -> D Rabs x (if Rgtb x 0 then 1 else -1).
Proof.
  intros x Hx. destruct (Rlt_le_dec 0 x) as [H|H].
  - rewrite Rgtb_t by lra. now apply Rabs_derive_1.
  - rewrite Rgtb_f by lra. apply Rabs_derive_2. lra.
Qed.
Lemma abs_kink : forall d, ~ D Rabs 0 d.
Proof.
  intros d H.
  assert (d = 1).
  { apply (right_deriv Rabs (fun y => y) 0 d 1 1); auto; [lra|apply D_id|].
    intros y Hy. apply Rabs_right. lra. }
  assert (d = -1); [|lra].
  apply (left_deriv Rabs (fun y => - y) 0 d (-1) 1); auto; [lra|apply D_opp, D_id|].
  intros y Hy. apply Rabs_left1. lra.
Qed.
Lemma r_abs : rule Abs.
Proof.
  intros x g d H. apply (hd_fun _ Rabs) in H; [|reflexivity].
  destruct (Req_dec x 0) as [->|Hx]; [now apply abs_kink in H|].
  rewrite (uniqueness_limite _ _ _ _ H (abs_D x Hx)). ev. fin.
  destruct (Rgtb x 0) eqn:E; [reflexivity|]. unfold Rgtb in E.
  destruct (Rlt_dec 0 x); [discriminate|]. rewrite Rgtb_t by lra. reflexivity.
Qed.

Lemma r_sign : rule Sign.
Proof.
  intros x g d H. apply (hd_fun _ (fun y => if Rgtb y 0 then 1 else if Rgtb 0 y then -1 else 0)) in H; [|reflexivity].
  apply int_D0 in H.
  2:{ intro y. destruct (Rgtb y 0); [exists 1%Z; reflexivity|].
      destruct (Rgtb 0 y); [exists (-1)%Z|exists 0%Z]; reflexivity. }
  subst d. ev. fin. ring.
Qed.

Lemma softsign_D : forall x, D (fun y => y / (1 + Rabs y)) x (1 / ((1 + Rabs x) * (1 + Rabs x))).
Proof.
  intro x. pose proof (Rabs_pos x) as Hp.
  destruct (Req_dec x 0) as [->|Hx].
  - rewrite Rabs_R0.
    apply (glue _ (fun y => y / (1 + y)) (fun y => y / (1 - y)) 0 _ 1); [lra| | | |].
    + eapply D_ext; [apply (D_div (fun y => y) (fun y => 1 + y)); [apply D_id| |lra]|reflexivity|].
      * apply (D_plus (fun _ => 1) (fun y => y)); [apply D_const|apply D_id].
      * unfold Rsqr. field.
    + eapply D_ext; [apply (D_div (fun y => y) (fun y => 1 - y)); [apply D_id| |lra]|reflexivity|].
      * apply (D_minus (fun _ => 1) (fun y => y)); [apply D_const|apply D_id].
      * unfold Rsqr. field.
    + intros y Hy. now rewrite Rabs_right by lra.
    + intros y Hy. rewrite Rabs_left1 by lra. reflexivity.
  - eapply D_ext; [apply (D_div (fun y => y) (fun y => 1 + Rabs y)); [apply D_id| |lra]|reflexivity|].
    + apply (D_plus (fun _ => 1) Rabs); [apply D_const|now apply abs_D].
    + unfold Rsqr. destruct (Rlt_le_dec 0 x) as [Hs|Hs].
      * rewrite Rgtb_t, (Rabs_right x) by lra. field. lra.
      * rewrite Rgtb_f, (Rabs_left x) by lra. field. lra.
Qed.
Lemma recip_nz : forall x, x <> 0 -> k_recip x = Fl (1 / x).
Proof. intros x H. unfold k_recip. now rewrite Reqb_f. Qed.
Lemma r_softsign : rule Softsign.
Proof.
  intros x g d H. apply (smooth _ _ x d _ (fun y => eq_refl) (softsign_D x)) in H. subst d.
  pose proof (Rabs_pos x). ev. rewrite recip_nz by (apply Rmult_integral_contrapositive; lra). reflexivity.
Qed.

Lemma r_square : rule Square.
Proof.
  intros x g d H. apply (smooth _ (fun y => y * y) x d (1 * x + x * 1)) in H;
    [|reflexivity|apply (D_mult (fun y => y) (fun y => y)); apply D_id].
  subst d. ev. fin. ring.
Qed.

Lemma r_sqrt : rule Sqrt.
Proof.
  intros x g d H. destruct (Rlt_le_dec 0 x) as [Hx|Hx].
  - apply (smooth_loc _ sqrt x d (/ (2 * sqrt x) * 1) x) in H; auto.
    + subst d. ev. unfold k_sqrt. rewrite Rgtb_f by lra.
      pose proof (sqrt_lt_R0 x Hx). rewrite recip_nz by lra. fin. replace 0.5 with (/ 2) by lra. field. lra.
    + intros y Hy. apply Rabs_def2 in Hy. simpl. unfold k_sqrt. now rewrite Rgtb_f by lra.
    + apply (D_sqrt (fun y => y)); auto. apply D_id.
  - destruct (hd_left _ _ _ H) as (e & He & Hn). elim (Hn e); [lra|]. simpl. unfold k_sqrt. now rewrite Rgtb_t by lra.
Qed.

Lemma r_recip : rule Recip.
Proof.
  intros x g d H. destruct (Req_dec x 0) as [->|Hx].
  - destruct (hd_left _ _ _ H) as (e & He & Hn). elim (Hn 0); [lra|]. simpl. unfold k_recip.
    replace (0 - 0) with 0 by ring. now rewrite Reqb_t.
  - apply (smooth_loc _ (fun y => 1 / y) x d ((0 * x - 1 * 1) / x²) (Rabs x)) in H.
    + subst d. ev. assert (x * x <> 0) by (apply Rmult_integral_contrapositive; auto).
      rewrite recip_nz by auto. fin. unfold Rsqr. field. auto.
    + now apply Rabs_pos_lt.
    + intros y Hy. simpl. apply recip_nz. intros ->.
      replace (0 - x) with (- x) in Hy by ring. rewrite Rabs_Ropp in Hy. lra.
    + apply (D_div (fun _ => 1) (fun y => y)); auto; [apply D_const|apply D_id].
Qed.

(** Two-branch functions: [p] for positive, [n] for the other arguments. *)
Lemma branch_D : forall (p n : R -> R) x a, 0 < x -> D p x a ->
  D (fun y => if Rgtb y 0 then p y else n y) x a.
Proof.
  intros p n x a Hx H. apply (D_loc p _ x a x); auto. intros y Hy. apply Rabs_def2 in Hy.
  now rewrite Rgtb_t by lra.
Qed.
Lemma branch_D' : forall (p n : R -> R) x a, x < 0 -> D n x a ->
  D (fun y => if Rgtb y 0 then p y else n y) x a.
Proof.
  intros p n x a Hx H. apply (D_loc n _ x a (- x)); auto; [lra|]. intros y Hy. apply Rabs_def2 in Hy.
  now rewrite Rgtb_f by lra.
Qed.
Lemma branch_kink : forall (p n : R -> R) a b d, D p 0 a -> D n 0 b -> p 0 = n 0 ->
  D (fun y => if Rgtb y 0 then p y else n y) 0 d -> d = a /\ d = b.
Proof.
  intros p n a b d Hp Hn E H. split.
  - apply (right_deriv _ p 0 d a 1) in H; auto; [lra|]. intros y Hy.
    destruct (Req_dec y 0) as [->|]; [rewrite Rgtb_f by lra; congruence|]. now rewrite Rgtb_t by lra.
  - apply (left_deriv _ n 0 d b 1) in H; auto; [lra|]. intros y Hy. now rewrite Rgtb_f by lra.
Qed.

Lemma r_relu : rule Relu.
Proof.
  intros x g d H. apply (hd_fun _ (fun y => if Rgtb y 0 then y else 0)) in H; [|reflexivity].
  destruct (Rtotal_order x 0) as [Hx|[->|Hx]].
  - rewrite (uniqueness_limite _ _ _ _ H (branch_D' (fun y => y) (fun _ => 0) x 0 Hx (D_const 0 x))).
    ev. now rewrite Rgtb_f by lra.
  - apply (branch_kink (fun y => y) (fun _ => 0) 1 0) in H; [lra|apply D_id|apply D_const|reflexivity].
  - rewrite (uniqueness_limite _ _ _ _ H (branch_D (fun y => y) (fun _ => 0) x 1 Hx (D_id x))).
    ev. now rewrite Rgtb_t by lra.
Qed.

Lemma sig_den : forall x, 0 < 1 + exp (- x).
Proof. intro x. pose proof (exp_pos (- x)). lra. Qed.
Lemma sigmoid_D : forall x, D sigmoid x (sigmoid x * (1 - sigmoid x)).
Proof.
  intro x. unfold sigmoid. pose proof (sig_den x) as Hp.
  eapply D_ext; [apply (D_div (fun _ => 1) (fun y => 1 + exp (- y))); [apply D_const| |lra]|reflexivity|].
  - apply (D_plus (fun _ => 1) (fun y => exp (- y))); [apply D_const|apply (D_exp (fun y => - y)), D_opp, D_id].
  - cbv beta. unfold Rsqr. field. lra.
Qed.
Lemma r_sigmoid : rule Sigmoid.
Proof.
  intros x g d H. apply (smooth _ _ x d _ (fun y => eq_refl) (sigmoid_D x)) in H. subst d. reflexivity.
Qed.

Lemma r_silu : rule Silu.
Proof.
  intros x g d H.
  apply (smooth _ (fun y => y * sigmoid y) x d (1 * sigmoid x + x * (sigmoid x * (1 - sigmoid x)))) in H.
  - subst d. ev. fin. ring.
  - intro y. simpl. unfold k_silu, sigmoid. f_equal. pose proof (sig_den y). field. lra.
  - apply (D_mult (fun y => y) sigmoid); [apply D_id|apply sigmoid_D].
Qed.

Lemma softplus_D : forall x, D softplus x (sigmoid x).
Proof.
  intro x. unfold softplus, sigmoid. pose proof (exp_pos x) as Hp.
  eapply D_ext; [apply (D_ln (fun y => 1 + exp y)); [|cbv beta; lra]|reflexivity|].
  - apply (D_plus (fun _ => 1) exp); [apply D_const|apply derivable_pt_lim_exp].
  - cbv beta. rewrite exp_Ropp. field. lra.
Qed.
Lemma r_softplus : rule Softplus.
Proof.
  intros x g d H. apply (smooth _ _ x d _ (fun y => eq_refl) (softplus_D x)) in H. subst d. reflexivity.
Qed.

Lemma r_mish : rule Mish.
Proof.
  intros x g d H.
  apply (smooth _ (fun y => y * tanh (softplus y)) x d
    (1 * tanh (softplus x) + x * ((1 - tanh (softplus x) * tanh (softplus x)) * sigmoid x))) in H.
  - subst d. ev. pose proof (exp_pos x). unfold k_ln. rewrite Rgtb_t by lra.
    fold (softplus x). fin. ring.
  - reflexivity.
  - apply (D_mult (fun y => y) (fun y => tanh (softplus y))); [apply D_id|].
    apply (D_tanh softplus), softplus_D.
Qed.

Lemma selu_pos : 1 < selu_scale /\ 1 < selu_alpha.
Proof. unfold selu_scale, selu_alpha. lra. Qed.
Lemma r_selu : rule Selu.
Proof.
  intros x g d H. pose proof selu_pos as [Hs Ha].
  apply (hd_fun _ (fun y => if Rgtb y 0 then selu_scale * y else selu_scale * (selu_alpha * (exp y - 1)))) in H.
  2:{ intro y. simpl. unfold k_selu. now destruct (Rgtb y 0). }
  assert (Dp : forall z, D (fun y => selu_scale * y) z selu_scale).
  { intro z. eapply D_ext; [apply (D_mult (fun _ => selu_scale) (fun y => y)); [apply D_const|apply D_id]
      |reflexivity|ring]. }
  assert (Dn : forall z, D (fun y => selu_scale * (selu_alpha * (exp y - 1))) z (selu_scale * (selu_alpha * exp z))).
  { intro z. eapply D_ext; [apply (D_mult (fun _ => selu_scale) (fun y => selu_alpha * (exp y - 1)));
      [apply D_const|apply (D_mult (fun _ => selu_alpha) (fun y => exp y - 1)); [apply D_const|
       apply (D_minus exp (fun _ => 1)); [apply derivable_pt_lim_exp|apply D_const]]]|reflexivity|ring]. }
  destruct (Rtotal_order x 0) as [Hx|[->|Hx]].
  - rewrite (uniqueness_limite _ _ _ _ H (branch_D' _ _ x _ Hx (Dn x))).
    ev. rewrite Rgtb_f, Rgeb_t by lra. fin. ring.
  - apply (branch_kink _ _ _ _ d (Dp 0) (Dn 0)) in H; [rewrite exp_0 in H; nra|rewrite exp_0; ring].
  - rewrite (uniqueness_limite _ _ _ _ H (branch_D _ _ x _ Hx (Dp x))).
    ev. rewrite Rgtb_t, Rgeb_f by lra. fin. ring.
Qed.

Lemma exp_le1 : forall x, x <= 0 -> exp x <= 1.
Proof.
  intros x [H| ->]; [|rewrite exp_0; lra]. apply Rlt_le. rewrite <- exp_0. now apply exp_increasing.
Qed.
Lemma exp_ge1 : forall x, 0 <= x -> 1 <= exp x.
Proof.
  intros x [H| <-]; [|rewrite exp_0; lra]. apply Rlt_le. rewrite <- exp_0. now apply exp_increasing.
Qed.
Lemma celu_is : forall y, Rmax 0 y + Rmin 0 (exp y - 1) = if Rgtb y 0 then y else exp y - 1.
Proof.
  intro y. destruct (Rlt_le_dec 0 y) as [H|H].
  - rewrite Rgtb_t by lra. pose proof (exp_ge1 y). rewrite Rmax_right, Rmin_left; lra.
  - rewrite Rgtb_f by lra. pose proof (exp_le1 y H). rewrite Rmax_left, Rmin_right; lra.
Qed.
Lemma r_celu : rule Celu.
Proof.
  intros x g d H. apply (hd_fun _ (fun y => if Rgtb y 0 then y else exp y - 1)) in H.
  2:{ intro y. simpl. unfold k_celu. now rewrite celu_is. }
  assert (Dn : forall z, D (fun y => exp y - 1) z (exp z)).
  { intro z. eapply D_ext; [apply (D_minus exp (fun _ => 1)); [apply derivable_pt_lim_exp|apply D_const]|reflexivity|ring]. }
  destruct (Rtotal_order x 0) as [Hx|[->|Hx]].
  - rewrite (uniqueness_limite _ _ _ _ H (branch_D' _ _ x _ Hx (Dn x))).
    ev. rewrite Rgtb_f, Rgeb_t by lra. fin. ring.
  - apply (branch_kink _ _ _ _ d (D_id 0) (Dn 0)) in H; [|rewrite exp_0; ring].
    destruct H as [-> _]. ev. rewrite Rgtb_f, Rgeb_t by lra. fin. rewrite exp_0. ring.
  - rewrite (uniqueness_limite _ _ _ _ H (branch_D _ _ x _ Hx (D_id x))).
    ev. rewrite Rgtb_t, Rgeb_f by lra. fin. ring.
Qed.

Lemma r_sin : rule Sin.
Proof.
  intros x g d H. apply (smooth _ _ x d _ (fun y => eq_refl) (derivable_pt_lim_sin x)) in H. now subst d.
Qed.
Lemma r_cos : rule Cos.
Proof.
  intros x g d H. apply (smooth _ _ x d _ (fun y => eq_refl) (derivable_pt_lim_cos x)) in H. now subst d.
Qed.

Lemma asin_D : forall x, -1 < x < 1 -> D asin x (1 / sqrt (1 - x²)).
Proof.
  intros x Hx. pose proof (derive_pt_asin x Hx) as H.
  apply derive_pt_eq_1 in H. exact H.
Qed.
Lemma acos_D : forall x, -1 < x < 1 -> D acos x (-1 / sqrt (1 - x²)).
Proof.
  intros x Hx. pose proof (derive_pt_acos x Hx) as H.
  apply derive_pt_eq_1 in H. exact H.
Qed.
(** Functions defined on [-1, 1] only. *)
Lemma inside : forall F x d, has_derivative F x d -> (forall y, 1 < Rabs y -> F y = NaN) -> -1 < x < 1.
Proof.
  intros F x d H Hn. destruct (hd_right _ _ _ H) as (e & He & R1). destruct (hd_left _ _ _ H) as (e' & He' & L1).
  split.
  - destruct (Rlt_le_dec (-1) x); auto. exfalso. apply (L1 e'); [lra|]. apply Hn.
    rewrite Rabs_left; lra.
  - destruct (Rlt_le_dec x 1); auto. exfalso. apply (R1 e); [lra|]. apply Hn. rewrite Rabs_right; lra.
Qed.
Lemma near_inside : forall x, -1 < x < 1 -> exists delta, 0 < delta /\
  forall y, Rabs (y - x) < delta -> -1 < y < 1.
Proof.
  intros x Hx. exists (Rmin (x + 1) (1 - x)). split; [apply Rmin_glb_lt; lra|].
  intros y Hy. apply Rabs_def2 in Hy. pose proof (Rmin_l (x + 1) (1 - x)). pose proof (Rmin_r (x + 1) (1 - x)). lra.
Qed.
Lemma om_sq : forall x, -1 < x < 1 -> 0 < 1 - x * x.
Proof. intros x Hx. nra. Qed.

Lemma r_asin : rule Asin.
Proof.
  intros x g d H. assert (Hx : -1 < x < 1).
  { apply (inside _ x d H). intros y Hy. simpl. unfold k_asin. now rewrite Rgtb_t. }
  destruct (near_inside x Hx) as (a & Ha & Hn).
  apply (smooth_loc _ asin x d (1 / sqrt (1 - x²)) a Ha) in H.
  - subst d. ev. pose proof (om_sq x Hx). replace (- (x * x - 1)) with (1 - x * x) by ring.
    unfold k_sqrt. rewrite Rgtb_f by lra. pose proof (sqrt_lt_R0 _ H).
    rewrite recip_nz by lra. reflexivity.
  - intros y Hy. simpl. unfold k_asin. rewrite Rgtb_f; [reflexivity|]. apply Hn in Hy. apply Rabs_le; lra.
  - now apply asin_D.
Qed.
Lemma r_acos : rule Acos.
Proof.
  intros x g d H. assert (Hx : -1 < x < 1).
  { apply (inside _ x d H). intros y Hy. simpl. unfold k_acos. now rewrite Rgtb_t. }
  destruct (near_inside x Hx) as (a & Ha & Hn).
  apply (smooth_loc _ acos x d (-1 / sqrt (1 - x²)) a Ha) in H.
  - subst d. ev. pose proof (om_sq x Hx). replace (- (x * x - 1)) with (1 - x * x) by ring.
    unfold k_sqrt. rewrite Rgtb_f by lra. pose proof (sqrt_lt_R0 _ H).
    rewrite recip_nz by lra. fin. unfold Rsqr. field. lra.
  - intros y Hy. simpl. unfold k_acos. rewrite Rgtb_f; [reflexivity|]. apply Hn in Hy. apply Rabs_le; lra.
  - now apply acos_D.
Qed.
Lemma r_atan : rule Atan.
Proof.
  intros x g d H. apply (smooth _ _ x d _ (fun y => eq_refl) (derivable_pt_lim_atan x)) in H.
  subst d. ev. assert (0 < x * x + 1) by nra. rewrite recip_nz by lra. fin. unfold Rsqr. assert (1 + x * x <> 0) by nra. field. nra.
Qed.
Lemma r_sinh : rule Sinh.
Proof.
  intros x g d H. apply (smooth _ _ x d _ (fun y => eq_refl) (derivable_pt_lim_sinh x)) in H. now subst d.
Qed.
Lemma r_cosh : rule Cosh.
Proof.
  intros x g d H. apply (smooth _ _ x d _ (fun y => eq_refl) (derivable_pt_lim_cosh x)) in H. now subst d.
Qed.
Lemma r_tanh : rule Tanh.
Proof.
  intros x g d H. apply (smooth _ tanh x d ((1 - tanh x * tanh x) * 1)) in H; [|reflexivity|apply (D_tanh (fun y => y)), D_id].
  subst d. ev. fin. ring.
Qed.
Lemma r_asinh : rule Asinh.
Proof.
  intros x g d H. apply (smooth _ _ x d _ (fun y => eq_refl) (derivable_pt_lim_arcsinh x)) in H.
  subst d. ev. assert (0 < x * x + 1) by nra. unfold k_sqrt. rewrite Rgtb_f by lra.
  pose proof (sqrt_lt_R0 _ H). rewrite recip_nz by lra. fin. f_equal.
  replace (x ^ 2 + 1) with (x * x + 1) by ring. field. lra.
Qed.
Lemma r_acosh : rule Acosh.
Proof.
  intros x g d H. destruct (Rle_lt_dec x 1) as [Hx|Hx].
  { destruct (hd_left _ _ _ H) as (e & He & Hn). elim (Hn e); [lra|]. simpl. unfold k_acosh. now rewrite Rgtb_t by lra. }
  assert (Hq : 0 < x * x - 1) by nra. pose proof (sqrt_lt_R0 _ Hq) as Hs.
  apply (smooth_loc _ (fun y => ln (y + sqrt (y * y - 1))) x d (1 / sqrt (x * x - 1)) (x - 1)) in H; [|lra| |].
  - subst d. ev. unfold k_sqrt. rewrite Rgtb_f by lra. rewrite recip_nz by lra. reflexivity.
  - intros y Hy. apply Rabs_def2 in Hy. simpl. unfold k_acosh. now rewrite Rgtb_f by lra.
  - eapply D_ext; [apply (D_ln (fun y => y + sqrt (y * y - 1))); [|lra]|reflexivity|].
    + apply (D_plus (fun y => y) (fun y => sqrt (y * y - 1))); [apply D_id|].
      apply (D_sqrt (fun y => y * y - 1)); [|exact Hq].
      apply (D_minus (fun y => y * y) (fun _ => 1)); [|apply D_const].
      apply (D_mult (fun y => y) (fun y => y)); apply D_id.
    + cbv beta. field. lra.
Qed.
Lemma r_atanh : rule Atanh.
Proof.
  intros x g d H. assert (Hx : -1 < x < 1).
  { apply (inside _ x d H). intros y Hy. simpl. unfold k_atanh. now rewrite Rgeb_t by lra. }
  destruct (near_inside x Hx) as (a & Ha & Hn). pose proof (om_sq x Hx) as Hq.
  apply (smooth_loc _ (fun y => / 2 * ln ((1 + y) / (1 - y))) x d (1 / (1 - x * x)) a Ha) in H.
  - subst d. ev. replace (- (x * x - 1)) with (1 - x * x) by ring. rewrite recip_nz by lra. reflexivity.
  - intros y Hy. simpl. unfold k_atanh. apply Hn in Hy. rewrite Rgeb_f; [reflexivity|]. apply Rabs_def1; lra.
  - eapply D_ext; [apply (D_mult (fun _ => / 2) (fun y => ln ((1 + y) / (1 - y)))); [apply D_const|]|reflexivity|].
    + apply (D_ln (fun y => (1 + y) / (1 - y))); [|apply Rdiv_lt_0_compat; lra].
      apply (D_div (fun y => 1 + y) (fun y => 1 - y)); [| |lra].
      * apply (D_plus (fun _ => 1) (fun y => y)); [apply D_const|apply D_id].
      * apply (D_minus (fun _ => 1) (fun y => y)); [apply D_const|apply D_id].
    + cbv beta. unfold Rsqr. field. lra.
Qed.

Lemma pos_only : forall F x d, has_derivative F x d -> (forall y, y <= 0 -> F y = NaN) -> 0 < x.
Proof.
  intros F x d H Hn. destruct (Rlt_le_dec 0 x) as [|Hx]; auto. exfalso.
  destruct (hd_left _ _ _ H) as (e & He & L). apply (L e); [lra|]. apply Hn. lra.
Qed.
Lemma r_ln : rule Ln.
Proof.
  intros x g d H. assert (Hx : 0 < x).
  { apply (pos_only _ x d H). intros y Hy. simpl. unfold k_ln. now rewrite Rgtb_f. }
  apply (smooth_loc _ ln x d (/ x) x Hx) in H.
  - subst d. ev. rewrite recip_nz by lra. fin. field. lra.
  - intros y Hy. apply Rabs_def2 in Hy. simpl. unfold k_ln. now rewrite Rgtb_t by lra.
  - now apply derivable_pt_lim_ln.
Qed.
Lemma ln_gt1 : forall b, 1 < b -> 0 < ln b.
Proof. intros b H. rewrite <- ln_1. apply ln_increasing; lra. Qed.
Lemma log_D : forall b x, 1 < b -> 0 < x -> D (fun y => ln y / ln b) x (1 / (x * ln b)).
Proof.
  intros b x Hb Hx. pose proof (ln_gt1 b Hb).
  eapply D_ext; [apply (D_div ln (fun _ => ln b)); [now apply derivable_pt_lim_ln|apply D_const|lra]|reflexivity|].
  cbv beta. unfold Rsqr. field. lra.
Qed.
Lemma r_log10 : rule Log10.
Proof.
  intros x g d H. assert (Hx : 0 < x).
  { apply (pos_only _ x d H). intros y Hy. simpl. unfold k_log10. now rewrite Rgtb_f. }
  pose proof (ln_gt1 10 ltac:(lra)).
  apply (smooth_loc _ (fun y => ln y / ln 10) x d (1 / (x * ln 10)) x Hx) in H.
  - subst d. ev. rewrite recip_nz by nra. reflexivity.
  - intros y Hy. apply Rabs_def2 in Hy. simpl. unfold k_log10. now rewrite Rgtb_t by lra.
  - apply log_D; lra.
Qed.
Lemma r_log2 : rule Log2.
Proof.
  intros x g d H. assert (Hx : 0 < x).
  { apply (pos_only _ x d H). intros y Hy. simpl. unfold k_log2. now rewrite Rgtb_f. }
  pose proof (ln_gt1 2 ltac:(lra)).
  apply (smooth_loc _ (fun y => ln y / ln 2) x d (1 / (x * ln 2)) x Hx) in H.
  - subst d. ev. rewrite recip_nz by nra. reflexivity.
  - intros y Hy. apply Rabs_def2 in Hy. simpl. unfold k_log2. now rewrite Rgtb_t by lra.
  - apply log_D; lra.
Qed.
Lemma r_exp : rule Exp.
Proof.
  intros x g d H. apply (smooth _ _ x d _ (fun y => eq_refl) (derivable_pt_lim_exp x)) in H. now subst d.
Qed.
Lemma expb_D : forall b x, D (fun y => exp (y * ln b)) x (exp (x * ln b) * ln b).
Proof.
  intros b x. eapply D_ext; [apply (D_exp (fun y => y * ln b))|reflexivity|].
  - apply (D_mult (fun y => y) (fun _ => ln b)); [apply D_id|apply D_const].
  - cbv beta. ring.
Qed.
Lemma r_exp10 : rule Exp10.
Proof.
  intros x g d H. apply (smooth _ _ x d _ (fun y => eq_refl) (expb_D 10 x)) in H. now subst d.
Qed.
Lemma r_exp2 : rule Exp2.
Proof.
  intros x g d H. apply (smooth _ _ x d _ (fun y => eq_refl) (expb_D 2 x)) in H. now subst d.
Qed.
Lemma r_ceil : rule Ceil.
Proof.
  intros x g d H. apply (hd_fun _ Rceil) in H; [|reflexivity]. apply (int_D0 _ _ _ ceil_int) in H.
  subst d. ev. fin. ring.
Qed.
Lemma r_floor : rule Floor.
Proof.
  intros x g d H. apply (hd_fun _ Rfloor) in H; [|reflexivity]. apply (int_D0 _ _ _ floor_int) in H.
  subst d. ev. fin. ring.
Qed.
Lemma r_round : rule Round.
Proof.
  intros x g d H. apply (hd_fun _ Rround) in H; [|reflexivity]. apply (int_D0 _ _ _ round_int) in H.
  subst d. ev. fin. ring.
Qed.
End Unary.
