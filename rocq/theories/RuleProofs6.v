(** Where the functions are differentiable; chains of unary operations; which
    scalar operations run. *)
From Coq Require Import Reals Lra Lia ZArith Bool List.
From Verif Require Import Base RuleModel RuleSpec RuleProofs RuleProofs2 RuleProofs3 RuleProofs4 RuleProofs5.
Import ListNotations.
Open Scope R_scope.

Section U.
Variable erf : R -> R.
Hypothesis Herf : is_erf erf.

Definition sound_rule (o : unary_op) : bool :=
  match o with HardSigmoid | HardSilu | Gelu | Tan => false | _ => true end.

Lemma u_rules : forall o, sound_rule o = true -> forall x g d, has_derivative (kernel erf o) x d ->
  u_vjp o (Fl x) (kernel erf o x) (Fl g) = Ok (Fl (g * d)).
Proof.
  intros o Ho x g d H. destruct o; try discriminate Ho.
  - exact (r_neg erf x g d H).
  - exact (r_abs erf x g d H).
  - exact (r_sign erf x g d H).
  - exact (r_softsign erf x g d H).
  - exact (r_square erf x g d H).
  - exact (r_sqrt erf x g d H).
  - exact (r_recip erf x g d H).
  - exact (r_relu erf x g d H).
  - exact (r_sigmoid erf x g d H).
  - exact (r_softplus erf x g d H).
  - exact (r_silu erf x g d H).
  - exact (r_mish erf x g d H).
  - exact (r_selu erf x g d H).
  - exact (r_celu erf x g d H).
  - exact (r_sin erf x g d H).
  - exact (r_cos erf x g d H).
  - exact (r_asin erf x g d H).
  - exact (r_acos erf x g d H).
  - exact (r_atan erf x g d H).
  - exact (r_sinh erf x g d H).
  - exact (r_cosh erf x g d H).
  - exact (r_tanh erf x g d H).
  - exact (r_asinh erf x g d H).
  - exact (r_acosh erf x g d H).
  - exact (r_atanh erf x g d H).
  - exact (r_exp erf x g d H).
  - exact (r_exp2 erf x g d H).
  - exact (r_exp10 erf x g d H).
  - exact (r_ln erf x g d H).
  - exact (r_log2 erf x g d H).
  - exact (r_log10 erf x g d H).
  - exact (r_ceil erf x g d H).
  - exact (r_floor erf x g d H).
  - exact (r_round erf x g d H).
  - exact (r_erf erf Herf x g d H).
Qed.

(** A set on which each function has a derivative. *)
Lemma all_D : forall o f x d, (forall y, kernel erf o y = Fl (f y)) -> D f x d ->
  exists d, has_derivative (kernel erf o) x d.
Proof. intros o f x d E H. exists d. eapply hd_all; eauto. Qed.

Lemma domain_D : forall o x, smooth_on o x -> exists d, has_derivative (kernel erf o) x d.
Proof.
  intros o x H. destruct o; simpl in H; try contradiction.
  - apply (all_D Neg (fun y => - y) x (- 1)); [reflexivity|apply D_opp, D_id].
  - eapply (all_D Abs Rabs); [reflexivity|now apply abs_D].
  - destruct (Rtotal_order x 0) as [L|[|G]]; [|contradiction|].
    + exists 0. apply (hd_intro _ (fun _ => -1) x 0 (- x)); [lra| |apply D_const].
      intros y Hy. apply Rabs_def2 in Hy. simpl. unfold k_sign. now rewrite Rgtb_f, Rgtb_t by lra.
    + exists 0. apply (hd_intro _ (fun _ => 1) x 0 x); [lra| |apply D_const].
      intros y Hy. apply Rabs_def2 in Hy. simpl. unfold k_sign. now rewrite Rgtb_t by lra.
  - eapply (all_D Softsign); [reflexivity|apply softsign_D].
  - eapply (all_D Square (fun y => y * y)); [reflexivity|apply (D_mult (fun y => y) (fun y => y)); apply D_id].
  - eexists. apply (hd_intro _ sqrt x _ x); [lra| |apply (D_sqrt (fun y => y)); [apply D_id|auto]].
    intros y Hy. apply Rabs_def2 in Hy. simpl. unfold k_sqrt. now rewrite Rgtb_f by lra.
  - eexists. apply (hd_intro _ (fun y => 1 / y) x _ (Rabs x));
      [now apply Rabs_pos_lt| |apply (D_div (fun _ => 1) (fun y => y)); auto; [apply D_const|apply D_id]].
    intros y Hy. simpl. apply recip_nz. intros ->.
    replace (0 - x) with (- x) in Hy by ring. rewrite Rabs_Ropp in Hy. lra.
  - destruct (Rtotal_order x 0) as [L|[|G]]; [|contradiction|].
    + eapply (all_D Relu (fun y => if Rgtb y 0 then y else 0)); [reflexivity|].
      apply (branch_D' (fun y => y) (fun _ => 0) x 0 L), D_const.
    + eapply (all_D Relu (fun y => if Rgtb y 0 then y else 0)); [reflexivity|].
      apply (branch_D (fun y => y) (fun _ => 0) x 1 G), D_id.
  - eapply (all_D Sigmoid); [reflexivity|apply sigmoid_D].
  - eapply (all_D Gelu); [reflexivity|apply gelu_D].
  - eapply (all_D Softplus); [reflexivity|apply softplus_D].
  - eapply (all_D Silu (fun y => y / (1 + exp (- y)))); [reflexivity|].
    pose proof (sig_den x). apply (D_div (fun y => y) (fun y => 1 + exp (- y))); [apply D_id| |lra].
    apply (D_plus (fun _ => 1) (fun y => exp (- y))); [apply D_const|apply (D_exp (fun y => - y)), D_opp, D_id].
  - eapply (all_D Mish (fun y => y * tanh (softplus y))); [reflexivity|].
    apply (D_mult (fun y => y) (fun y => tanh (softplus y))); [apply D_id|apply (D_tanh softplus), softplus_D].
  - destruct (Rtotal_order x 0) as [L|[|G]]; [|contradiction|].
    + eapply (all_D Selu (fun y => selu_scale * (if Rgtb y 0 then y else selu_alpha * (exp y - 1)))); [reflexivity|].
      apply (D_mult (fun _ => selu_scale) (fun y => if Rgtb y 0 then y else selu_alpha * (exp y - 1))); [apply D_const|].
      apply (branch_D' (fun y => y) (fun y => selu_alpha * (exp y - 1)) x _ L).
      apply (D_mult (fun _ => selu_alpha) (fun y => exp y - 1)); [apply D_const|].
      apply (D_minus exp (fun _ => 1)); [apply derivable_pt_lim_exp|apply D_const].
    + eapply (all_D Selu (fun y => selu_scale * (if Rgtb y 0 then y else selu_alpha * (exp y - 1)))); [reflexivity|].
      apply (D_mult (fun _ => selu_scale) (fun y => if Rgtb y 0 then y else selu_alpha * (exp y - 1))); [apply D_const|].
      apply (branch_D (fun y => y) (fun y => selu_alpha * (exp y - 1)) x _ G), D_id.
  - apply (all_D Celu (fun y => if Rgtb y 0 then y else exp y - 1) x (if Rgtb x 0 then 1 else exp x)).
    { intro y. simpl. unfold k_celu. now rewrite celu_is. }
    assert (Dn : forall z, D (fun y => exp y - 1) z (exp z)).
    { intro z. eapply D_ext; [apply (D_minus exp (fun _ => 1)); [apply derivable_pt_lim_exp|apply D_const]|reflexivity|ring]. }
    destruct (Rtotal_order x 0) as [L|[->|G]].
    + rewrite (Rgtb_f x 0) by lra. apply (branch_D' (fun y => y) (fun y => exp y - 1) x _ L), Dn.
    + rewrite (Rgtb_f 0 0) by lra.
      apply (glue _ (fun y => y) (fun y => exp y - 1) 0 _ 1); [lra| |apply Dn| |].
      * rewrite exp_0. apply D_id.
      * intros y Hy. destruct (Req_dec y 0) as [->|]; [rewrite Rgtb_f, exp_0 by lra; ring|]. now rewrite Rgtb_t by lra.
      * intros y Hy. now rewrite Rgtb_f by lra.
    + rewrite (Rgtb_t x 0) by lra. apply (branch_D (fun y => y) (fun y => exp y - 1) x _ G), D_id.
  - eapply (all_D Sin); [reflexivity|apply derivable_pt_lim_sin].
  - eapply (all_D Cos); [reflexivity|apply derivable_pt_lim_cos].
  - now apply tan_domain.
  - destruct (near_inside x H) as (a & Ha & Hn). eexists. apply (hd_intro _ asin x _ a Ha); [|now apply asin_D].
    intros y Hy. simpl. unfold k_asin. rewrite Rgtb_f; [reflexivity|]. apply Hn in Hy. apply Rabs_le; lra.
  - destruct (near_inside x H) as (a & Ha & Hn). eexists. apply (hd_intro _ acos x _ a Ha); [|now apply acos_D].
    intros y Hy. simpl. unfold k_acos. rewrite Rgtb_f; [reflexivity|]. apply Hn in Hy. apply Rabs_le; lra.
  - eapply (all_D Atan); [reflexivity|apply derivable_pt_lim_atan].
  - eapply (all_D Sinh); [reflexivity|apply derivable_pt_lim_sinh].
  - eapply (all_D Cosh); [reflexivity|apply derivable_pt_lim_cosh].
  - eapply (all_D Tanh); [reflexivity|apply (D_tanh (fun y => y)), D_id].
  - eapply (all_D Asinh); [reflexivity|apply derivable_pt_lim_arcsinh].
  - eexists. apply (hd_intro _ (fun y => ln (y + sqrt (y * y - 1))) x _ (x - 1)); [lra| |].
    + intros y Hy. apply Rabs_def2 in Hy. simpl. unfold k_acosh. now rewrite Rgtb_f by lra.
    + assert (Hq : 0 < x * x - 1) by nra. pose proof (sqrt_lt_R0 _ Hq).
      apply (D_ln (fun y => y + sqrt (y * y - 1))); [|lra].
      apply (D_plus (fun y => y) (fun y => sqrt (y * y - 1))); [apply D_id|].
      apply (D_sqrt (fun y => y * y - 1)); [|exact Hq].
      apply (D_minus (fun y => y * y) (fun _ => 1)); [|apply D_const].
      apply (D_mult (fun y => y) (fun y => y)); apply D_id.
  - destruct (near_inside x H) as (a & Ha & Hn).
    eexists. apply (hd_intro _ (fun y => / 2 * ln ((1 + y) / (1 - y))) x _ a Ha).
    + intros y Hy. simpl. unfold k_atanh. apply Hn in Hy. rewrite Rgeb_f; [reflexivity|]. apply Rabs_def1; lra.
    + apply (D_mult (fun _ => / 2) (fun y => ln ((1 + y) / (1 - y)))); [apply D_const|].
      apply (D_ln (fun y => (1 + y) / (1 - y))); [|apply Rdiv_lt_0_compat; lra].
      apply (D_div (fun y => 1 + y) (fun y => 1 - y)); [| |lra].
      * apply (D_plus (fun _ => 1) (fun y => y)); [apply D_const|apply D_id].
      * apply (D_minus (fun _ => 1) (fun y => y)); [apply D_const|apply D_id].
  - eapply (all_D Exp); [reflexivity|apply derivable_pt_lim_exp].
  - eapply (all_D Exp2); [reflexivity|apply expb_D].
  - eapply (all_D Exp10); [reflexivity|apply expb_D].
  - eexists. apply (hd_intro _ ln x _ x H); [|now apply derivable_pt_lim_ln].
    intros y Hy. apply Rabs_def2 in Hy. simpl. unfold k_ln. now rewrite Rgtb_t by lra.
  - eexists. apply (hd_intro _ (fun y => ln y / ln 2) x _ x H); [|apply log_D; lra].
    intros y Hy. apply Rabs_def2 in Hy. simpl. unfold k_log2. now rewrite Rgtb_t by lra.
  - eexists. apply (hd_intro _ (fun y => ln y / ln 10) x _ x H); [|apply log_D; lra].
    intros y Hy. apply Rabs_def2 in Hy. simpl. unfold k_log10. now rewrite Rgtb_t by lra.
  - eapply (all_D Ceil Rceil); [reflexivity|]. unfold Rceil. apply D_opp.
    apply (D_comp (fun y => - y) Rfloor); [apply D_opp, D_id|]. apply floor_D. intro E.
    apply (H (- Int_part (- x))%Z). rewrite opp_IZR. unfold Rfloor in E. lra.
  - eapply (all_D Floor Rfloor); [reflexivity|]. apply floor_D. intro E. apply (H (Int_part x)). symmetry. exact E.
  - exists 0. apply (hd_intro _ (fun _ => 0) x 0 (1 / 2 - Rabs x)); [lra| |apply D_const].
    intros y Hy. simpl. unfold k_round, Rround. f_equal.
    assert (Ha : Rabs y < 1 / 2).
    { replace y with (y - x + x) by ring. eapply Rle_lt_trans; [apply Rabs_triang|lra]. }
    apply Rabs_def2 in Ha. destruct (Rle_dec 0 y); rewrite (floor_is 0) by (simpl; lra); simpl; lra.
  - eapply (all_D Erf erf); [reflexivity|now apply erf_D].
Qed.

(** ** Chains *)
Lemma hd_comp : forall F G x y a b, F x = Fl y -> has_derivative F x a -> has_derivative G y b ->
  has_derivative (fun t => after F G t) x (b * a).
Proof.
  intros F G x y a b E (f & e & He & Hf & Df) (h & e' & He' & Hg & Dg).
  assert (Ex : f x = y).
  { specialize (Hf x). rewrite E in Hf. replace (x - x) with 0 in Hf by ring. rewrite Rabs_R0 in Hf.
    specialize (Hf He). congruence. }
  destruct (D_cont f x a Df e' He') as (r & Hr & Hc).
  exists (fun t => h (f t)), (Rmin e r). split; [apply Rmin_glb_lt; auto|]. split.
  - intros t Ht. pose proof (Rmin_l e r). pose proof (Rmin_r e r). unfold after.
    rewrite Hf by lra. apply Hg. rewrite <- Ex. apply Hc. lra.
  - apply D_comp; auto. now rewrite Ex.
Qed.

Lemma chain : forall os x y g, run_chain erf os x y ->
  (forall o, In o os -> sound_rule o = true) ->
  forall (Hd : differentiable_along erf os x),
  exists d, has_derivative (chain_fun erf os) x d /\ back_chain erf os x g = Ok (Fl (g * d)).
Proof.
  induction os as [|o os IH]; intros x y g Hr Hs Hd.
  - exists 1. simpl. split; [|now rewrite Rmult_1_r]. apply (hd_all _ (fun t => t)); [reflexivity|apply D_id].
  - simpl in Hr. destruct Hr as (z & Ez & Hr). simpl in Hd. destruct Hd as [[a Ha] Hd]. specialize (Hd z Ez).
    destruct (IH z y g Hr (fun o' Ho => Hs o' (or_intror Ho)) Hd) as (b & Hb & Eb).
    exists (b * a). split.
    + apply (hd_comp (kernel erf o) (chain_fun erf os) x z); auto.
    + simpl. rewrite Ez, Eb. cbn [bind]. rewrite <- Ez.
      rewrite (u_rules o (Hs o (or_introl eq_refl)) x (g * b) a Ha). fin. ring.
Qed.
End U.

(** ** Which operations with a scalar run *)
Lemma s_served : forall o c x, served o = true -> exists e, s_kernel o c x = Ok e.
Proof. intros o c x H. destruct o; try discriminate H; simpl; eauto. Qed.
Lemma s_unserved : forall o c x, served o = false -> s_kernel o c x = Panic.
Proof. intros o c x H. destruct o; try discriminate H; reflexivity. Qed.
