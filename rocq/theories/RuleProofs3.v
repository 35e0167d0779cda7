(** Rules that need a longer argument or are wrong: erf, tan, gelu, hardsigmoid,
    hardsilu. *)
From Coq Require Import Reals Lra Lia ZArith Bool List.
From Verif Require Import Base RuleModel RuleSpec RuleProofs RuleProofs2.
Open Scope R_scope.

(** ** erf *)
Lemma gauss_cont : forall x, continuity_pt gauss x.
Proof.
  intro x. apply derivable_continuous_pt. eexists. unfold gauss.
  apply (D_mult (fun _ => 2 / sqrt PI) (fun t => exp (- (t * t)))); [apply D_const|].
  apply (D_exp (fun t => - (t * t))), D_opp, (D_mult (fun t => t) (fun t => t)); apply D_id.
Qed.

Lemma erf_D : forall erf, is_erf erf -> forall x, D erf x (gauss x).
Proof.
  intros erf He x. assert (h : x - 1 <= x + 1) by lra.
  assert (C0 : forall y, x - 1 <= y <= x + 1 -> continuity_pt gauss y) by (intros; apply gauss_cont).
  pose proof (RiemannInt_P28 h C0 (conj (Rlt_le (x - 1) x ltac:(lra)) (Rlt_le x (x + 1) ltac:(lra)))) as H.
  apply (D_loc (fun y => erf (x - 1) + primitive h (FTC_P1 h C0) y) erf x (gauss x) 1); [lra| |].
  - intros y Hy. apply Rabs_def2 in Hy. unfold primitive.
    destruct (Rle_dec (x - 1) y) as [r|]; [|lra]. destruct (Rle_dec y (x + 1)) as [r'|]; [|lra].
    rewrite <- (He (x - 1) y). lra.
  - eapply D_ext; [apply (D_plus (fun _ => erf (x - 1)) (primitive h (FTC_P1 h C0))); [apply D_const|exact H]
      |reflexivity|ring].
Qed.

Lemma r_erf : forall erf, is_erf erf -> forall x g d, has_derivative (kernel erf Erf) x d ->
  u_vjp Erf (Fl x) (kernel erf Erf x) (Fl g) = Ok (Fl (g * d)).
Proof.
  intros erf He x g d H. apply (smooth _ erf x d (gauss x)) in H; [|reflexivity|now apply erf_D].
  subst d. ev. fin. unfold gauss. ring.
Qed.

(** ** tan *)
Lemma sin_per : forall k x, sin (x + IZR k * (2 * PI)) = sin x.
Proof.
  assert (P : forall n x, sin (x + INR n * (2 * PI)) = sin x).
  { intros n x. rewrite <- (sin_period x n). f_equal. ring. }
  intros k x. destruct (Z_le_dec 0 k) as [Hk|Hk].
  - rewrite <- (Z2Nat.id k Hk), <- INR_IZR_INZ. apply P.
  - rewrite <- (P (Z.to_nat (- k)) (x + IZR k * (2 * PI))). f_equal.
    rewrite INR_IZR_INZ, Z2Nat.id by lia. rewrite opp_IZR. ring.
Qed.
Lemma cos_per : forall k x, cos (x + IZR k * (2 * PI)) = cos x.
Proof.
  assert (P : forall n x, cos (x + INR n * (2 * PI)) = cos x).
  { intros n x. rewrite <- (cos_period x n). f_equal. ring. }
  intros k x. destruct (Z_le_dec 0 k) as [Hk|Hk].
  - rewrite <- (Z2Nat.id k Hk), <- INR_IZR_INZ. apply P.
  - rewrite <- (P (Z.to_nat (- k)) (x + IZR k * (2 * PI))). f_equal.
    rewrite INR_IZR_INZ, Z2Nat.id by lia. rewrite opp_IZR. ring.
Qed.

Lemma fmod_range : forall x y, 0 < y -> - y < Rfmod x y < y.
Proof.
  intros x y Hy. unfold Rfmod, Rtrunc. assert (E : x = x / y * y) by (field; lra).
  set (q := x / y) in *. destruct (Rle_dec 0 q) as [Hq|Hq].
  - pose proof (floor_bounds q). rewrite E. nra.
  - pose proof (floor_bounds (- q)). rewrite E. nra.
Qed.
Lemma reduce_per : forall x, exists k, tan_reduce x = x + IZR k * (2 * PI).
Proof.
  intro x. unfold tan_reduce, Rfmod. destruct (trunc_int (x / (2 * PI))) as [n ->].
  destruct (Rgtb _ PI); [exists (- n - 1)%Z|destruct (Rgtb (- PI) _); [exists (- n + 1)%Z|exists (- n)%Z]];
    rewrite ?minus_IZR, ?plus_IZR, ?opp_IZR; ring.
Qed.
Lemma reduce_range : forall x, - PI <= tan_reduce x <= PI.
Proof.
  intro x. pose proof PI_RGT_0 as Hp. pose proof (fmod_range x (2 * PI) ltac:(lra)) as H.
  unfold tan_reduce. unfold Rgtb. destruct (Rlt_dec PI (Rfmod x (2 * PI))); [lra|].
  destruct (Rlt_dec (Rfmod x (2 * PI)) (- PI)); lra.
Qed.
Lemma reduce_cos : forall x, tan_eps <= Rabs (Rabs (tan_reduce x) - PI / 2) -> cos x <> 0.
Proof.
  intros x H. destruct (reduce_per x) as [k Ek]. pose proof (reduce_range x) as Hr.
  rewrite <- (cos_per k x), <- Ek. set (r := tan_reduce x) in *. clearbody r.
  pose proof PI_RGT_0 as Hp. unfold tan_eps in H.
  assert (Ha : 0 <= Rabs r <= PI) by (split; [apply Rabs_pos|apply Rabs_le; lra]).
  assert (Ec : cos r = cos (Rabs r)).
  { unfold Rabs. destruct (Rcase_abs r); [now rewrite cos_neg|reflexivity]. }
  rewrite Ec. destruct (Rtotal_order (Rabs r) (PI / 2)) as [L|[E|G]].
  - apply Rgt_not_eq. apply cos_gt_0; lra.
  - rewrite E in H. replace (PI / 2 - PI / 2) with 0 in H by ring. rewrite Rabs_R0 in H. lra.
  - apply Rlt_not_eq. apply cos_lt_0; lra.
Qed.
Lemma reduce_tan : forall x, tan_eps <= Rabs (Rabs (tan_reduce x) - PI / 2) -> k_tan x = Fl (sin x / cos x).
Proof.
  intros x H. unfold k_tan. cbv zeta. rewrite Rgtb_f by auto.
  destruct (reduce_per x) as [k Ek]. now rewrite Ek, sin_per, cos_per.
Qed.

Lemma r_tan : forall erf x g d delta, 0 < delta ->
  (forall y, Rabs (y - x) < delta -> tan_eps <= Rabs (Rabs (tan_reduce y) - PI / 2)) ->
  has_derivative (kernel erf Tan) x d ->
  u_vjp Tan (Fl x) (kernel erf Tan x) (Fl g) = Ok (Fl (g * d)).
Proof.
  intros erf x g d delta Hd Ho H.
  assert (H0 : tan_eps <= Rabs (Rabs (tan_reduce x) - PI / 2)).
  { apply Ho. replace (x - x) with 0 by ring. now rewrite Rabs_R0. }
  pose proof (reduce_cos x H0) as Hc.
  apply (smooth_loc _ (fun y => sin y / cos y) x d ((cos x * cos x - - sin x * sin x) / (cos x)²) delta) in H; auto.
  - subst d. change (kernel erf Tan x) with (k_tan x). rewrite (reduce_tan x H0). ev. fin. unfold Rsqr. field. auto.
  - intros y Hy. simpl. apply reduce_tan. auto.
  - apply (D_div sin cos); auto; [apply derivable_pt_lim_sin|apply derivable_pt_lim_cos].
Qed.

Lemma reduce_small : forall y, Rabs y < PI -> tan_reduce y = y.
Proof.
  intros y Hy. pose proof PI_RGT_0 as Hp. apply Rabs_def2 in Hy.
  assert (E : Rfmod y (2 * PI) = y).
  { unfold Rfmod, Rtrunc. destruct (Rle_dec 0 (y / (2 * PI))) as [Hq|Hq].
    - rewrite (floor_is 0); [ring|]. split; [exact Hq|]. apply Rmult_lt_reg_r with (2 * PI); [lra|]. unfold Rdiv.
      rewrite Rmult_assoc, Rinv_l by lra. lra.
    - rewrite (floor_is 0); [ring|]. split; [lra|]. apply Rmult_lt_reg_r with (2 * PI); [lra|]. unfold Rdiv.
      rewrite Ropp_mult_distr_l_reverse, Rmult_assoc, Rinv_l by lra. lra. }
  unfold tan_reduce. rewrite E. rewrite !Rgtb_f by lra. reflexivity.
Qed.

(** A whole interval is outside the band. *)
Lemma tan_domain : forall erf x, Rabs x <= 1 -> exists d, has_derivative (kernel erf Tan) x d.
Proof.
  intros erf x Hx. pose proof PI2_3_2 as Hp.
  assert (Ho : forall y, Rabs (y - x) < 1 / 4 -> tan_eps <= Rabs (Rabs (tan_reduce y) - PI / 2)).
  { intros y Hy. assert (Rabs y < 5 / 4).
    { replace y with (y - x + x) by ring. eapply Rle_lt_trans; [apply Rabs_triang|lra]. }
    rewrite reduce_small by lra. rewrite Rabs_left by lra. unfold tan_eps. lra. }
  assert (H0 : tan_eps <= Rabs (Rabs (tan_reduce x) - PI / 2)).
  { apply Ho. replace (x - x) with 0 by ring. rewrite Rabs_R0. lra. }
  eexists. apply (hd_intro _ (fun y => sin y / cos y) x _ (1 / 4)); [lra| |].
  - intros y Hy. simpl. apply reduce_tan. auto.
  - apply (D_div sin cos); [apply derivable_pt_lim_sin|apply derivable_pt_lim_cos|now apply reduce_cos].
Qed.

(** In the band around pi/2 the forward function is constant. *)
Lemma tan_band : forall erf y, Rabs (y - PI / 2) < tan_eps -> kernel erf Tan y = Fl 1000000.
Proof.
  intros erf y Hy. pose proof PI2_3_2 as Hp. pose proof PI_4 as Hq. apply Rabs_def2 in Hy.
  assert (Hs : Rabs y < PI) by (unfold tan_eps in Hy; rewrite Rabs_right; lra).
  simpl. unfold k_tan. cbv zeta. rewrite (reduce_small y Hs).
  unfold tan_eps in *. rewrite (Rabs_right y) by lra.
  rewrite Rgtb_t by (apply Rabs_def1; lra). now rewrite Rgtb_t by lra.
Qed.
Lemma tan_wrong : forall erf g, g <> 0 -> has_derivative (kernel erf Tan) (PI / 2) 0 /\
  u_vjp Tan (Fl (PI / 2)) (kernel erf Tan (PI / 2)) (Fl g) = Ok (Fl (g * 1000000000001)).
Proof.
  intros erf g Hg. split.
  - apply (hd_intro _ (fun _ => 1000000) _ 0 tan_eps); [unfold tan_eps; lra|apply tan_band|apply D_const].
  - rewrite tan_band.
    + ev. fin. ring.
    + unfold tan_eps. replace (PI / 2 - PI / 2) with 0 by ring. rewrite Rabs_R0. lra.
Qed.

(** ** gelu *)
Definition gelu_d (c x : R) : R :=
  0.5 * (1 + tanh (c * (x + 0.044715 * x * x * x))) +
  0.5 * x * ((1 - tanh (c * (x + 0.044715 * x * x * x)) * tanh (c * (x + 0.044715 * x * x * x))) *
             (c * (1 + 3 * 0.044715 * x * x))).
Lemma gelu_D : forall c x, D (gelu_c c) x (gelu_d c x).
Proof.
  intros c x. unfold gelu_c, gelu_d. set (k := 0.044715). set (h := 0.5).
  eapply D_ext; [apply (D_mult (fun y => h * y) (fun y => 1 + tanh (c * (y + k * y * y * y))))|reflexivity|].
  - apply (D_mult (fun _ => h) (fun y => y)); [apply D_const|apply D_id].
  - apply (D_plus (fun _ => 1) (fun y => tanh (c * (y + k * y * y * y)))); [apply D_const|].
    apply (D_tanh (fun y => c * (y + k * y * y * y))).
    apply (D_mult (fun _ => c) (fun y => y + k * y * y * y)); [apply D_const|].
    apply (D_plus (fun y => y) (fun y => k * y * y * y)); [apply D_id|].
    apply (D_mult (fun y => k * y * y) (fun y => y)); [|apply D_id].
    apply (D_mult (fun y => k * y) (fun y => y)); [|apply D_id].
    apply (D_mult (fun _ => k) (fun y => y)); [apply D_const|apply D_id].
  - cbv beta. ring.
Qed.
Lemma gelu_vjp : forall x out g, u_vjp Gelu (Fl x) out (Fl g) = Ok (Fl (g * gelu_d 0.797885 x)).
Proof.
  intros x out g. ev. fin. unfold gelu_d. set (c := 0.797885). set (k := 0.044715). set (h := 0.5).
  replace ((x + x * x * x * k) * c) with (c * (x + k * x * x * x)) by ring. ring.
Qed.
Lemma tanh_inj : forall x y, tanh x = tanh y -> x = y.
Proof.
  assert (E : forall x, tanh x = 1 - 2 / (exp (2 * x) + 1)).
  { intro x. unfold tanh, sinh, cosh. rewrite exp_Ropp. replace (2 * x) with (x + x) by ring. rewrite exp_plus.
    pose proof (exp_pos x). assert (0 < exp x * exp x) by nra. field; repeat split; nra. }
  intros x y H. rewrite !E in H.
  pose proof (exp_pos (2 * x)) as Hx. pose proof (exp_pos (2 * y)) as Hy.
  assert (Q : exp (2 * x) = exp (2 * y)).
  { assert (Q : 2 / (exp (2 * x) + 1) = 2 / (exp (2 * y) + 1)) by lra.
    apply (f_equal (fun t => t * (exp (2 * x) + 1) * (exp (2 * y) + 1))) in Q.
    field_simplify in Q; lra. }
  apply exp_inv in Q. lra.
Qed.
Lemma gelu_wrong : forall erf, ~ (forall x g d, has_derivative (kernel erf Gelu) x d ->
  u_vjp Gelu (Fl x) (kernel erf Gelu x) (Fl g) = Ok (Fl (g * d))).
Proof.
  intros erf H. set (c := 0.7978845608) in *. set (c' := 0.797885) in *.
  assert (E : forall x, gelu_d c' x = gelu_d c x).
  { intro x. specialize (H x 1 (gelu_d c x)). rewrite gelu_vjp in H.
    rewrite !Rmult_1_l in H. injection (H (hd_all _ _ _ _ (fun y => eq_refl) (gelu_D c x))). auto. }
  assert (Z : forall x, D (fun y => gelu_c c' y - gelu_c c y) x 0).
  { intro x. eapply D_ext; [apply (D_minus (gelu_c c') (gelu_c c)); apply gelu_D|reflexivity|]. rewrite E. ring. }
  assert (pr : derivable (fun y => gelu_c c' y - gelu_c c y)) by (intro x; exists 0; apply Z).
  assert (K : gelu_c c' 1 - gelu_c c 1 = gelu_c c' 0 - gelu_c c 0).
  { apply (null_derivative_1 _ pr). intro x. apply derive_pt_eq_0, Z. }
  assert (T : tanh (c' * (1 + 0.044715 * 1 * 1 * 1)) = tanh (c * (1 + 0.044715 * 1 * 1 * 1))).
  { unfold gelu_c in K. lra. }
  apply tanh_inj in T. unfold c, c' in T. lra.
Qed.

(** ** hardsigmoid, hardsilu *)
Lemma hard_err : forall x out g, u_vjp HardSigmoid (Fl x) (Fl out) (Fl g) = Err EDType /\
  u_vjp HardSilu (Fl x) (Fl out) (Fl g) = Err EDType.
Proof. intros. split; reflexivity. Qed.
Lemma hard_mid : forall y, Rabs (y - 0) < 1 -> hardsigmoid y = (y + 3) / 6.
Proof.
  intros y Hy. apply Rabs_def2 in Hy. unfold hardsigmoid. rewrite Rmin_right, Rmax_right; lra.
Qed.
Lemma hard_D : forall x, D (fun y => (y + 3) / 6) x (1 / 6).
Proof.
  intro x. eapply D_ext; [apply (D_div (fun y => y + 3) (fun _ => 6)); [|apply D_const|lra]|reflexivity|].
  - apply (D_plus (fun y => y) (fun _ => 3)); [apply D_id|apply D_const].
  - cbv beta. unfold Rsqr. field.
Qed.
Lemma hard_derivatives : forall erf,
  has_derivative (kernel erf HardSigmoid) 0 (1 / 6) /\ has_derivative (kernel erf HardSilu) 0 (1 / 2).
Proof.
  intro erf. split.
  - apply (hd_intro _ (fun y => (y + 3) / 6) _ _ 1); [lra| |apply hard_D].
    intros y Hy. simpl. unfold k_hardsigmoid. now rewrite hard_mid.
  - apply (hd_intro _ (fun y => y * ((y + 3) / 6)) _ _ 1); [lra| |].
    + intros y Hy. simpl. unfold k_hardsilu. now rewrite hard_mid.
    + eapply D_ext; [apply (D_mult (fun y => y) (fun y => (y + 3) / 6)); [apply D_id|apply hard_D]|reflexivity|].
      cbv beta. field.
Qed.

(** There is such a function. *)
Definition gauss_int (a b : R) : Riemann_integrable gauss a b :=
  match Rle_dec a b with
  | left h => continuity_implies_RiemannInt h (fun x _ => gauss_cont x)
  | right h => RiemannInt_P1 (continuity_implies_RiemannInt (Rlt_le _ _ (Rnot_le_lt _ _ h)) (fun x _ => gauss_cont x))
  end.
Lemma erf_exists : is_erf (fun x => RiemannInt (gauss_int 0 x)).
Proof.
  intros a b pr. rewrite <- (RiemannInt_P26 (gauss_int 0 a) pr (gauss_int 0 b)). ring.
Qed.
