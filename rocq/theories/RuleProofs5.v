(** The rules of the operations with a scalar and of the binary operations, continued. *)
From Coq Require Import Reals Lra Lia ZArith Bool List.
From Verif Require Import Base RuleModel RuleSpec RuleProofs RuleProofs2 RuleProofs4.
Open Scope R_scope.

Ltac ev2 := cbv [s_vjp b_vjp s_kernel b_kernel bind un arith t_add t_sub t_mul t_div t_pow
  add_s sub_s mul_s pow_s gt_s ge_s lt_s le_s cmp_s cmp_t to_float ones_like k_neg k_exp k_floor].

(** ** Scalars *)
Lemma lin_D : forall c x, D (fun y => y * c) x c.
Proof.
  intros c x. eapply D_ext; [apply (D_mult (fun y => y) (fun _ => c)); [apply D_id|apply D_const]|reflexivity|ring].
Qed.
Lemma add_D : forall c x, D (fun y => y + c) x 1.
Proof.
  intros c x. eapply D_ext; [apply (D_plus (fun y => y) (fun _ => c)); [apply D_id|apply D_const]|reflexivity|ring].
Qed.
(** [p] above [c], [n] elsewhere *)
Lemma cut_above : forall (p n : R -> R) c x a d, c < x -> D p x a ->
  D (fun y => if Rgtb y c then p y else n y) x d -> d = a.
Proof.
  intros p n c x a d Hx H Hd. apply (uniqueness_limite _ _ _ _ Hd). apply (D_loc p _ x a (x - c)); auto; [lra|].
  intros y Hy. apply Rabs_def2 in Hy. now rewrite Rgtb_t by lra.
Qed.
Lemma cut_below : forall (p n : R -> R) c x a d, x < c -> D n x a ->
  D (fun y => if Rgtb y c then p y else n y) x d -> d = a.
Proof.
  intros p n c x a d Hx H Hd. apply (uniqueness_limite _ _ _ _ Hd). apply (D_loc n _ x a (c - x)); auto; [lra|].
  intros y Hy. apply Rabs_def2 in Hy. now rewrite Rgtb_f by lra.
Qed.
Lemma cut_at : forall (p n : R -> R) c a b d, p c = n c -> D p c a -> D n c b ->
  D (fun y => if Rgtb y c then p y else n y) c d -> d = a /\ d = b.
Proof.
  intros p n c a b d E Hp Hn H. split.
  - apply (right_deriv _ p c d a 1) in H; auto; [lra|]. intros y Hy.
    destruct (Req_dec y c) as [->|]; [rewrite Rgtb_f by lra; congruence|]. now rewrite Rgtb_t by lra.
  - apply (left_deriv _ n c d b 1) in H; auto; [lra|]. intros y Hy. now rewrite Rgtb_f by lra.
Qed.

Lemma max_d : forall c x d, D (fun y => if Rgtb y c then y else c) x d ->
  x <> c /\ d = (if Rgtb x c then 1 else 0).
Proof.
  intros c x d H. destruct (Rtotal_order x c) as [L|[->|G]].
  - split; [lra|]. rewrite Rgtb_f by lra.
    apply (cut_below (fun y => y) (fun _ => c) c x 0 d L (D_const c x) H).
  - exfalso. apply (cut_at (fun y => y) (fun _ => c) c 1 0) in H; [lra|reflexivity|apply D_id|apply D_const].
  - split; [lra|]. rewrite Rgtb_t by lra.
    apply (cut_above (fun y => y) (fun _ => c) c x 1 d G (D_id x) H).
Qed.
Lemma min_d : forall c x d, D (fun y => if Rgtb c y then y else c) x d ->
  x <> c /\ d = (if Rgtb c x then 1 else 0).
Proof.
  intros c x d H.
  assert (H' : D (fun y => if Rgtb y c then c else y) x d).
  { eapply D_ext; [exact H| |reflexivity]. intro y. cbv beta. unfold Rgtb.
    destruct (Rlt_dec y c), (Rlt_dec c y); lra. }
  destruct (Rtotal_order x c) as [L|[->|G]].
  - split; [lra|]. rewrite Rgtb_t by lra.
    apply (cut_below (fun _ => c) (fun y => y) c x 1 d L (D_id x) H').
  - exfalso. apply (cut_at (fun _ => c) (fun y => y) c 0 1) in H'; [lra|reflexivity|apply D_const|apply D_id].
  - split; [lra|]. rewrite Rgtb_f by lra.
    apply (cut_above (fun _ => c) (fun y => y) c x 0 d G (D_const c x) H').
Qed.


(** The kernel as a total function into elements, when it does not panic. *)
Definition s_total (o : scalar_op) (c x : R) : el :=
  match s_kernel o c x with Ok e => e | _ => NaN end.
Lemma s_total_eq : forall o c F, (forall y, s_kernel o c y = Ok (F y)) -> forall y, F y = s_total o c y.
Proof. intros o c F H y. unfold s_total. now rewrite H. Qed.
Lemma hd_ext : forall F G x d, (forall y, F y = G y) -> has_derivative F x d -> has_derivative G x d.
Proof.
  intros F G x d E (f & a & Ha & Hf & HD). exists f, a. repeat split; auto. intros y Hy. rewrite <- E. auto.
Qed.

Lemma s_rules : forall o c x,
  (o = DivScalar -> c = 0 \/ epsilon <= Rabs c) ->
  (o = PowScalar -> ~ (x = 0 /\ c = 0) /\ ~ (x < 0 /\ c = -31)) -> 
  forall g d F, (forall y, s_kernel o c y = Ok (F y)) -> has_derivative F x d ->
  s_vjp o c (Fl x) (F x) (Fl g) = Ok (Fl (g * d)).
Proof.
  intros o c x Hdiv Hpow g d F HF H.
  assert (E : forall y, F y = s_total o c y) by now apply s_total_eq.
  apply (hd_ext _ _ _ _ E) in H. rewrite E. clear E.
  destruct o.
  - apply (smooth _ (fun y => y + c) x d 1) in H; [|reflexivity|apply add_D].
    subst d. ev2. fin. ring.
  - apply (smooth _ (fun y => y - c) x d (1 - 0)) in H;
      [|reflexivity|apply (D_minus (fun y => y) (fun _ => c)); [apply D_id|apply D_const]].
    subst d. ev2. fin. ring.
  - apply (smooth _ (fun y => y * c) x d c) in H; [|reflexivity|apply lin_D]. subst d. reflexivity.
  - destruct (Req_dec c 0) as [->|Hc].
    { destruct (hd_left _ _ _ H) as (e & He & Hl). elim (Hl 0); [lra|]. unfold s_total. simpl. now rewrite Reqb_t. }
    destruct (Hdiv eq_refl) as [|Hd]; [contradiction|].
    apply (smooth _ (fun y => y * (1 / c)) x d (1 / c)) in H.
    + subst d. unfold s_vjp. rewrite Rgtb_f by auto. reflexivity.
    + intro y. unfold s_total. simpl. rewrite Reqb_f by auto. f_equal. field. auto.
    + apply lin_D.
  - discriminate (HF 0).
  - destruct (Hpow eq_refl) as [N0 N31].
    destruct (pow_base c x d H N0 N31) as (p & Ep & ->). ev2. rewrite Ep. fin. ring.
  - apply (hd_fun _ (fun y => if Rgtb y c then y else c)) in H; [|reflexivity].
    apply max_d in H. destruct H as [Hne ->]. ev2. destruct (Rlt_le_dec c x) as [L|L].
    + now rewrite Rgeb_t, Rgtb_t by lra.
    + now rewrite Rgeb_f, Rgtb_f by lra.
  - apply (hd_fun _ (fun y => if Rgtb c y then y else c)) in H; [|reflexivity].
    apply min_d in H. destruct H as [Hne ->]. ev2. destruct (Rlt_le_dec x c) as [L|L].
    + now rewrite Rgeb_t, Rgtb_t by lra.
    + now rewrite Rgeb_f, Rgtb_f by lra.
  - discriminate (HF 0).
  - discriminate (HF 0).
  - discriminate (HF 0).
Qed.

(** Wrong rules *)
Lemma div_wrong : forall c x g, 0 < Rabs c < epsilon ->
  s_kernel DivScalar c x = Ok (Fl (x / c)) /\
  has_derivative (s_total DivScalar c) x (1 / c) /\
  s_vjp DivScalar c (Fl x) (s_total DivScalar c x) (Fl g) = Err EInternal.
Proof.
  intros c x g Hc. assert (c <> 0) by (intros ->; rewrite Rabs_R0 in Hc; lra). split; [|split].
  - simpl. now rewrite Reqb_f.
  - apply (hd_all _ (fun y => y * (1 / c))); [|apply lin_D].
    intro y. unfold s_total. simpl. rewrite Reqb_f by auto. f_equal. field. auto.
  - unfold s_vjp. now rewrite Rgtb_t.
Qed.
Lemma pow_wrong0 : forall g, has_derivative (s_total PowScalar 0) 0 0 /\
  s_vjp PowScalar 0 (Fl 0) (s_total PowScalar 0 0) (Fl g) = Ok NaN.
Proof.
  intro g. split.
  - apply (hd_all _ (fun _ => 1)); [|apply D_const]. intro y. unfold s_total. simpl. unfold pow_opt. now rewrite Reqb_t.
  - ev2. assert (Ep : pow_opt 0 (0 - 1) = NaN).
    { unfold pow_opt. rewrite (Reqb_f (0 - 1) 0), Reqb_t, Rgtb_f by lra. reflexivity. }
    now rewrite Ep.
Qed.
Lemma pow_wrong31 : forall x g, x < 0 ->
  has_derivative (s_total PowScalar (-31)) x (-31 * powerRZ x (-32)) /\
  s_vjp PowScalar (-31) (Fl x) (s_total PowScalar (-31) x) (Fl g) = Ok NaN.
Proof.
  intros x g Hx. split.
  - apply (hd_intro _ (fun y => powerRZ y (-31)) x _ (- x)); [lra| |].
    + intros y Hy. apply Rabs_def2 in Hy. apply (pow_nz y (-31)); [lra|lia].
    + apply (powerRZ_D (-31)). lra.
  - ev2. assert (Ep : pow_opt x (-31 - 1) = NaN).
    { apply pow_neg_nan; auto. intros n Hn E. assert (E' : IZR (-32) = IZR n) by (simpl; lra).
      apply eq_IZR in E'. lia. }
    now rewrite Ep.
Qed.

(** Rules of the operations that no kernel serves, against the functions they are
    named after. *)
Lemma rem_x : forall b x d, b <> 0 -> D (fun y => Rfmod y b) x d -> d = 1.
Proof.
  intros b x d Hb H.
  assert (H' : D (fun y => (y - Rfmod y b) / b) x ((1 - d) * / b)).
  { eapply D_ext; [apply (D_mult (fun y => y - Rfmod y b) (fun _ => / b)); [|apply D_const]| |].
    - apply (D_minus (fun y => y) (fun y => Rfmod y b)); [apply D_id|exact H].
    - reflexivity.
    - cbv beta. ring. }
  apply int_D0 in H'.
  - apply (Rmult_eq_compat_r b) in H'. rewrite Rmult_assoc, Rinv_l in H' by auto. lra.
  - intro y. unfold Rfmod. destruct (trunc_int (y / b)) as [n En]. exists n. rewrite En. field. auto.
Qed.

Lemma unserved_rules : forall c x g d F, has_derivative (fun y => Fl (F y)) x d ->
  (c <> 0 -> (forall y, F y = Rfmod y c) -> s_vjp RemScalar c (Fl x) (Fl (F x)) (Fl g) = Ok (Fl (g * d))) /\
  ((forall y, F y = if Rgtb y 0 then y else c * y) ->
     s_vjp LeakyRelu c (Fl x) (Fl (F x)) (Fl g) = Ok (Fl (g * d)) /\
     s_vjp Prelu c (Fl x) (Fl (F x)) (Fl g) = Ok (Fl (g * d))) /\
  ((forall y, F y = if Rgtb y 0 then y else c * (exp y - 1)) ->
     s_vjp Elu c (Fl x) (Fl (F x)) (Fl g) = Ok (Fl (g * d))).
Proof.
  intros c x g d F H. apply (hd_fun _ F) in H; [|reflexivity]. split; [|split].
  - intros Hc HF. assert (d = 1) by (apply (rem_x c x d Hc); eapply D_ext; eauto). subst d. ev2. fin. ring.
  - intros HF.
    assert (H' : D (fun y => if Rgtb y 0 then y else c * y) x d) by (eapply D_ext; eauto).
    assert (Dn : forall z, D (fun y => c * y) z c).
    { intro z. eapply D_ext; [apply (D_mult (fun _ => c) (fun y => y)); [apply D_const|apply D_id]|reflexivity|ring]. }
    destruct (Rtotal_order x 0) as [L|[->|G]].
    + apply (cut_below (fun y => y) _ 0 x c d L (Dn x)) in H'. subst d. ev2.
      rewrite Rgtb_f, Rgeb_t by lra. split; fin; ring.
    + apply (cut_at (fun y => y) (fun y => c * y) 0 1 c) in H'; [|ring|apply D_id|apply Dn].
      destruct H' as [-> <-]. ev2. rewrite Rgtb_f, Rgeb_t by lra. split; fin; ring.
    + apply (cut_above (fun y => y) (fun y => c * y) 0 x 1 d G (D_id x)) in H'. subst d. ev2.
      rewrite Rgtb_t, Rgeb_f by lra. split; fin; ring.
  - intros HF.
    assert (H' : D (fun y => if Rgtb y 0 then y else c * (exp y - 1)) x d) by (eapply D_ext; eauto).
    assert (Dn : forall z, D (fun y => c * (exp y - 1)) z (c * exp z)).
    { intro z. eapply D_ext; [apply (D_mult (fun _ => c) (fun y => exp y - 1)); [apply D_const|
        apply (D_minus exp (fun _ => 1)); [apply derivable_pt_lim_exp|apply D_const]]|reflexivity|ring]. }
    destruct (Rtotal_order x 0) as [L|[->|G]].
    + apply (cut_below (fun y => y) _ 0 x (c * exp x) d L (Dn x)) in H'. subst d. ev2.
      rewrite Rgtb_f, Rgeb_t by lra. fin; ring.
    + apply (cut_at (fun y => y) (fun y => c * (exp y - 1)) 0 1 (c * exp 0)) in H'; [|rewrite exp_0; ring|apply D_id|apply Dn].
      destruct H' as [-> E]. ev2. rewrite Rgtb_f, Rgeb_t by lra. fin. replace (exp 0 * c) with 1 by lra. ring.
    + apply (cut_above (fun y => y) (fun y => c * (exp y - 1)) 0 x 1 d G (D_id x)) in H'. subst d. ev2.
      rewrite Rgtb_t, Rgeb_f by lra. fin; ring.
Qed.

(** ** Binary operations *)
Lemma rem_y : forall a b d, b <> 0 -> D (fun y => Rfmod a y) b d -> d = - Rtrunc (a / b).
Proof.
  intros a b d Hb H.
  assert (H' : D (fun y => Rtrunc (a / y)) b (((0 - d) * b - 1 * (a - Rfmod a b)) / b²)).
  { assert (Hb' : 0 < Rabs b) by now apply Rabs_pos_lt.
    apply (D_loc (fun y => (a - Rfmod a y) / y) _ b _ (Rabs b) Hb').
    - intros y Hy. assert (y <> 0).
      { intros ->. replace (0 - b) with (- b) in Hy by ring. rewrite Rabs_Ropp in Hy. lra. }
      unfold Rfmod. field. auto.
    - apply (D_div (fun y => a - Rfmod a y) (fun y => y)); auto; [|apply D_id].
      apply (D_minus (fun _ => a) (fun y => Rfmod a y)); [apply D_const|exact H]. }
  apply int_D0 in H'; [|intro y; apply trunc_int].
  assert (Hq : b² <> 0) by (unfold Rsqr; apply Rmult_integral_contrapositive; auto).
  apply (Rmult_eq_compat_r (b²)) in H'. unfold Rdiv in H'. rewrite Rmult_assoc, Rinv_l in H' by auto.
  unfold Rfmod in H'. apply (Rmult_eq_reg_r b); [|auto]. fold (a / b) in H'. lra.
Qed.

Lemma pow_el : forall x y, (exists q, pow_opt x y = Fl q) \/ pow_opt x y = NaN.
Proof.
  intros x y. unfold pow_opt.
  repeat match goal with |- context [if ?b then _ else _] => destruct b end; eauto.
Qed.
Lemma ln_el : forall x, (exists q, k_ln x = Fl q) \/ k_ln x = NaN.
Proof. intro x. unfold k_ln. destruct (Rgtb x 0); eauto. Qed.
(** Non-integers are everywhere. *)
Lemma frac_between : forall b e, 0 < e -> exists h, 0 <= h <= e /\ forall n, b + h <> IZR n.
Proof.
  intros b e He. pose proof (floor_bounds b) as [A B].
  destruct (Req_dec (Rfloor b) b) as [E|E].
  - set (h := Rmin e (1 / 2)). assert (0 < h <= 1 / 2) by (split; [apply Rmin_glb_lt; lra|apply Rmin_r]).
    exists h. split; [split; [lra|apply Rmin_l]|]. intros n En.
    assert (F1 : Rfloor (b + h) = b + h) by (rewrite En; apply floor_IZR).
    destruct (floor_int b) as [m Em]. assert (Rfloor (b + h) = IZR m) by (apply floor_is; lra). lra.
  - exists 0. split; [lra|]. intros n En. rewrite Rplus_0_r in En. apply E. rewrite En. apply floor_IZR.
Qed.

Lemma b_rules1 : forall o a b, (o = Pow -> ~ (a = 0 /\ b = 0) /\ ~ (a < 0 /\ b = -31)) ->
  forall g d, has_derivative (fun x => b_kernel o x b) a d ->
  exists gb, b_vjp o (Fl a) (Fl b) (b_kernel o a b) (Fl g) = Ok (Fl (g * d), gb).
Proof.
  intros o a b Hpow g d H. destruct o.
  - apply (smooth _ (fun y => y + b) a d 1) in H; [|reflexivity|apply add_D].
    subst d. ev2. rewrite Rmult_1_r. eauto.
  - apply (smooth _ (fun y => y - b) a d (1 - 0)) in H;
      [|reflexivity|apply (D_minus (fun y => y) (fun _ => b)); [apply D_id|apply D_const]].
    subst d. ev2. rewrite Rminus_0_r, Rmult_1_r. eauto.
  - apply (smooth _ (fun y => y * b) a d b) in H; [|reflexivity|apply lin_D]. subst d. ev2. eauto.
  - destruct (Req_dec b 0) as [->|Hb].
    { destruct (hd_left _ _ _ H) as (e & He & Hl). elim (Hl 0); [lra|]. simpl. now rewrite Reqb_t. }
    apply (smooth _ (fun y => y * (1 / b)) a d (1 / b)) in H.
    + subst d. ev2. rewrite (Reqb_f b 0) by auto. rewrite Reqb_f by (apply Rmult_integral_contrapositive; auto).
      eexists. replace (g / b) with (g * (1 / b)) by (field; auto). reflexivity.
    + intro y. simpl. rewrite Reqb_f by auto. f_equal. field. auto.
    + apply lin_D.
  - destruct (Req_dec b 0) as [->|Hb].
    { destruct (hd_left _ _ _ H) as (e & He & Hl). elim (Hl 0); [lra|]. simpl. now rewrite Reqb_t. }
    apply (hd_fun _ (fun y => Rfmod y b)) in H; [|intro y; simpl; now rewrite Reqb_f by auto].
    apply rem_x in H; auto. subst d. ev2. rewrite Reqb_f by auto. rewrite Rmult_1_r. eauto.
  - destruct (Hpow eq_refl) as [N0 N31].
    destruct (pow_base b a d H N0 N31) as (p & Ep & ->). ev2. rewrite Ep.
    destruct (pow_el a b) as [[q ->]| ->]; destruct (ln_el a) as [[l ->]| ->]; eauto.
  - apply (hd_fun _ (fun y => if Rgtb y b then y else b)) in H; [|reflexivity].
    apply max_d in H. destruct H as [Hne ->]. ev2. destruct (Rlt_le_dec b a) as [L|L].
    + rewrite (Rgeb_t a b), (Rgtb_t a b) by lra. destruct (Rgtb b a); eauto.
    + rewrite (Rgeb_f a b), (Rgtb_f a b) by lra. destruct (Rgtb b a); eauto.
  - apply (hd_fun _ (fun y => if Rgtb b y then y else b)) in H; [|reflexivity].
    apply min_d in H. destruct H as [Hne ->]. ev2. destruct (Rlt_le_dec a b) as [L|L].
    + rewrite (Rgeb_t b a), (Rgtb_t b a) by lra. destruct (Rgtb a b); eauto.
    + rewrite (Rgeb_f b a), (Rgtb_f b a) by lra. destruct (Rgtb a b); eauto.
Qed.

Lemma b_rules2 : forall o a b, (o = Rem -> 0 <= a / b) -> (o = Pow -> a <> 0) ->
  forall g d, has_derivative (fun y => b_kernel o a y) b d ->
  exists ga, b_vjp o (Fl a) (Fl b) (b_kernel o a b) (Fl g) = Ok (ga, Fl (g * d)).
Proof.
  intros o a b Hrem Hpow g d H. destruct o.
  - apply (smooth _ (fun y => a + y) b d (0 + 1)) in H;
      [|reflexivity|apply (D_plus (fun _ => a) (fun y => y)); [apply D_const|apply D_id]].
    subst d. ev2. rewrite Rplus_0_l, Rmult_1_r. eauto.
  - apply (smooth _ (fun y => a - y) b d (0 - 1)) in H;
      [|reflexivity|apply (D_minus (fun _ => a) (fun y => y)); [apply D_const|apply D_id]].
    subst d. ev2. replace (g * (0 - 1)) with (- g) by ring. eauto.
  - apply (smooth _ (fun y => a * y) b d (0 * b + a * 1)) in H;
      [|reflexivity|apply (D_mult (fun _ => a) (fun y => y)); [apply D_const|apply D_id]].
    subst d. ev2. replace (g * (0 * b + a * 1)) with (g * a) by ring. eauto.
  - destruct (Req_dec b 0) as [->|Hb].
    { destruct (hd_left _ _ _ H) as (e & He & Hl). elim (Hl 0); [lra|]. simpl. now rewrite Rminus_0_r, Reqb_t. }
    apply (smooth_loc _ (fun y => a / y) b d ((0 * b - 1 * a) / b²) (Rabs b)) in H.
    + subst d. ev2. rewrite (Reqb_f b 0) by auto. rewrite Reqb_f by (apply Rmult_integral_contrapositive; auto).
      eexists. repeat apply f_equal. unfold Rsqr. field. auto.
    + now apply Rabs_pos_lt.
    + intros y Hy. simpl. rewrite Reqb_f; auto. intros ->.
      replace (0 - b) with (- b) in Hy by ring. rewrite Rabs_Ropp in Hy. lra.
    + apply (D_div (fun _ => a) (fun y => y)); auto; [apply D_const|apply D_id].
  - destruct (Req_dec b 0) as [->|Hb].
    { destruct (hd_left _ _ _ H) as (e & He & Hl). elim (Hl 0); [lra|]. simpl. now rewrite Rminus_0_r, Reqb_t. }
    specialize (Hrem eq_refl).
    assert (H' : D (fun y => Rfmod a y) b d).
    { destruct H as (f & e & He & Hf & HD).
      apply (D_loc f _ b d (Rmin e (Rabs b))); auto.
      - apply Rmin_glb_lt; auto. now apply Rabs_pos_lt.
      - intros y Hy. pose proof (Rmin_l e (Rabs b)). pose proof (Rmin_r e (Rabs b)).
        specialize (Hf y ltac:(lra)). simpl in Hf. rewrite Reqb_f in Hf; [congruence|]. intros ->.
        replace (0 - b) with (- b) in Hy by ring. rewrite Rabs_Ropp in Hy. lra. }
    apply rem_y in H'; auto. subst d. ev2. rewrite Reqb_f by auto. eexists. repeat apply f_equal.
    unfold Rtrunc. destruct (Rle_dec 0 (a / b)); [ring|contradiction].
  - specialize (Hpow eq_refl). destruct (Rlt_le_dec 0 a) as [Ha|Ha].
    + apply (smooth _ (fun y => exp (y * ln a)) b d (exp (b * ln a) * ln a)) in H.
      * subst d. ev2. rewrite (pow_pos a b), (pow_pos a (b - 1)) by auto. unfold k_ln. rewrite Rgtb_t by auto.
        eauto.
      * intro y. simpl. now apply pow_pos.
      * apply expb_D.
    + exfalso. destruct (hd_right _ _ _ H) as (e & He & Hl).
      destruct (frac_between b e He) as (h & Hh & Hn).
      apply (Hl h); [lra|]. simpl. apply pow_neg_nan; [lra|]. intros n _. apply Hn.
  - assert (Hc : d = (if Rgtb a b then 0 else 1) /\ a <> b).
    { apply (hd_fun _ (fun y => if Rgtb a y then a else y)) in H; [|reflexivity].
      assert (H' : D (fun y => if Rgtb y a then y else a) b d).
      { eapply D_ext; [exact H| |reflexivity]. intro y. cbv beta. unfold Rgtb.
        destruct (Rlt_dec y a), (Rlt_dec a y); lra. }
      apply max_d in H'. destruct H' as [Hne ->]. split; [|lra]. unfold Rgtb.
      destruct (Rlt_dec a b), (Rlt_dec b a); lra. }
    destruct Hc as [-> Hne]. ev2. destruct (Rlt_le_dec b a) as [L|L].
    + rewrite (Rgeb_t a b), (Rgtb_t a b), (Rgtb_f b a) by lra. eauto.
    + rewrite (Rgeb_f a b), (Rgtb_f a b), (Rgtb_t b a) by lra. eauto.
  - assert (Hc : d = (if Rgtb b a then 0 else 1) /\ a <> b).
    { apply (hd_fun _ (fun y => if Rgtb y a then a else y)) in H; [|reflexivity].
      assert (H' : D (fun y => if Rgtb a y then y else a) b d).
      { eapply D_ext; [exact H| |reflexivity]. intro y. cbv beta. unfold Rgtb.
        destruct (Rlt_dec y a), (Rlt_dec a y); lra. }
      apply min_d in H'. destruct H' as [Hne ->]. split; [|lra]. unfold Rgtb.
      destruct (Rlt_dec a b), (Rlt_dec b a); lra. }
    destruct Hc as [-> Hne]. ev2. destruct (Rlt_le_dec a b) as [L|L].
    + rewrite (Rgeb_t b a), (Rgtb_t b a), (Rgtb_f a b) by lra. eauto.
    + rewrite (Rgeb_f b a), (Rgtb_f b a), (Rgtb_t a b) by lra. eauto.
Qed.

(** Wrong rules *)
Lemma rem_wrong : forall g, g <> 0 -> has_derivative (fun y => b_kernel Rem (-7) y) 4 1 /\
  b_vjp Rem (Fl (-7)) (Fl 4) (b_kernel Rem (-7) 4) (Fl g) = Ok (Fl g, Fl (g * 2)).
Proof.
  intros g Hg. split.
  - apply (hd_intro _ (fun y => -7 + y) 4 1 (1 / 4)); [lra| |].
    + intros y Hy. apply Rabs_def2 in Hy. simpl. rewrite Reqb_f by lra. f_equal.
      unfold Rfmod, Rtrunc.
      assert (B : 1 <= 7 / y < 2).
      { split; apply (Rmult_le_reg_r y) || apply (Rmult_lt_reg_r y); try lra;
          unfold Rdiv; rewrite Rmult_assoc, Rinv_l by lra; lra. }
      assert (E : -7 / y = - (7 / y)) by (field; lra). rewrite E.
      destruct (Rle_dec 0 (- (7 / y))) as [L|L]; [lra|]. rewrite Ropp_involutive.
      rewrite (floor_is 1) by (simpl; lra). simpl. ring.
    + eapply D_ext; [apply (D_plus (fun _ => -7) (fun y => y)); [apply D_const|apply D_id]|reflexivity|ring].
  - ev2. rewrite (Reqb_f 4 0) by lra. rewrite (floor_is (-2)) by (simpl; lra).
    repeat apply f_equal. simpl. ring.
Qed.
Lemma pow_y_wrong : forall b g, 0 < b -> has_derivative (fun y => b_kernel Pow 0 y) b 0 /\
  exists ga, b_vjp Pow (Fl 0) (Fl b) (b_kernel Pow 0 b) (Fl g) = Ok (ga, NaN).
Proof.
  intros b g Hb. split.
  - apply (hd_intro _ (fun _ => 0) b 0 b); [lra| |apply D_const]. intros y Hy. apply Rabs_def2 in Hy.
    simpl. unfold pow_opt. rewrite (Reqb_f y 0), Reqb_t, Rgtb_t by lra. reflexivity.
  - ev2. unfold k_ln. rewrite (Rgtb_f 0 0) by lra.
    destruct (pow_el 0 (b - 1)) as [[q ->]| ->]; destruct (pow_el 0 b) as [[q' ->]| ->]; eauto.
Qed.
Lemma pow_x_wrong : forall g, has_derivative (fun x => b_kernel Pow x 0) 0 0 /\
  exists gb, b_vjp Pow (Fl 0) (Fl 0) (b_kernel Pow 0 0) (Fl g) = Ok (NaN, gb).
Proof.
  intros g. split.
  - apply (hd_all _ (fun _ => 1)); [|apply D_const]. intro y. simpl. unfold pow_opt. now rewrite Reqb_t.
  - ev2. assert (Ep : pow_opt 0 (0 - 1) = NaN).
    { unfold pow_opt. rewrite (Reqb_f (0 - 1) 0), Reqb_t, Rgtb_f by lra. reflexivity. }
    rewrite Ep. unfold k_ln. rewrite (Rgtb_f 0 0) by lra. destruct (pow_el 0 0) as [[q' ->]| ->]; eauto.
Qed.
