(** Derivatives of the element-wise operations. *)
From Coq Require Import Reals Lra Lia ZArith Bool List.
From Verif Require Import Base RuleModel RuleSpec.
Open Scope R_scope.

(** *** Calculus in lambda form *)
Notation D := derivable_pt_lim.

Lemma D_ext : forall f g x a b, D f x a -> (forall y, f y = g y) -> a = b -> D g x b.
Proof. intros f g x a b H E <-. eapply derivable_pt_lim_ext; eauto. Qed.

Lemma D_loc : forall f g x a delta, 0 < delta ->
  (forall y, Rabs (y - x) < delta -> f y = g y) -> D f x a -> D g x a.
Proof.
  intros f g x a delta Hd E H. apply (derivable_pt_lim_locally_ext f g x (x - delta) (x + delta)); auto.
  - lra.
  - intros z Hz. apply E. apply Rabs_def1; lra.
Qed.

Lemma D_const : forall c x, D (fun _ => c) x 0.
Proof. intros. apply derivable_pt_lim_const. Qed.
Lemma D_id : forall x, D (fun y => y) x 1.
Proof. intros. apply derivable_pt_lim_id. Qed.
Lemma D_plus : forall f g x a b, D f x a -> D g x b -> D (fun y => f y + g y) x (a + b).
Proof. intros. now apply derivable_pt_lim_plus. Qed.
Lemma D_minus : forall f g x a b, D f x a -> D g x b -> D (fun y => f y - g y) x (a - b).
Proof. intros. now apply derivable_pt_lim_minus. Qed.
Lemma D_opp : forall f x a, D f x a -> D (fun y => - f y) x (- a).
Proof. intros. now apply derivable_pt_lim_opp. Qed.
Lemma D_mult : forall f g x a b, D f x a -> D g x b -> D (fun y => f y * g y) x (a * g x + f x * b).
Proof. intros. now apply derivable_pt_lim_mult. Qed.
Lemma D_div : forall f g x a b, D f x a -> D g x b -> g x <> 0 ->
  D (fun y => f y / g y) x ((a * g x - b * f x) / (g x)²).
Proof. intros. now apply derivable_pt_lim_div. Qed.
Lemma D_comp : forall f h x a b, D f x a -> D h (f x) b -> D (fun y => h (f y)) x (b * a).
Proof. intros. now apply derivable_pt_lim_comp. Qed.
Lemma D_exp : forall f x a, D f x a -> D (fun y => exp (f y)) x (exp (f x) * a).
Proof. intros. apply (D_comp f exp); auto. apply derivable_pt_lim_exp. Qed.
Lemma D_ln : forall f x a, D f x a -> 0 < f x -> D (fun y => ln (f y)) x (/ f x * a).
Proof. intros. apply (D_comp f ln); auto. now apply derivable_pt_lim_ln. Qed.
Lemma D_sqrt : forall f x a, D f x a -> 0 < f x -> D (fun y => sqrt (f y)) x (/ (2 * sqrt (f x)) * a).
Proof. intros. apply (D_comp f sqrt); auto. now apply derivable_pt_lim_sqrt. Qed.

Lemma cosh_pos : forall x, 0 < cosh x.
Proof. intro x. unfold cosh. pose proof (exp_pos x). pose proof (exp_pos (- x)). lra. Qed.
Lemma cosh_sinh : forall x, cosh x * cosh x - sinh x * sinh x = 1.
Proof.
  intro x. unfold cosh, sinh. replace (- x) with (-x) by ring.
  assert (exp x * exp (- x) = 1) by (rewrite <- exp_plus; replace (x + - x) with 0 by ring; apply exp_0).
  nra.
Qed.
Lemma tanh_sq : forall x, 1 - tanh x * tanh x = / (cosh x * cosh x).
Proof.
  intro x. unfold tanh. pose proof (cosh_pos x). pose proof (cosh_sinh x).
  field_simplify_eq; [nra|lra].
Qed.
Lemma D_tanh : forall f x a, D f x a ->
  D (fun y => tanh (f y)) x ((1 - tanh (f x) * tanh (f x)) * a).
Proof.
  intros f x a H. apply (D_comp f tanh); auto.
  pose proof (cosh_pos (f x)). pose proof (cosh_sinh (f x)).
  eapply D_ext; [apply (D_div sinh cosh)| |].
  - apply derivable_pt_lim_sinh.
  - apply derivable_pt_lim_cosh.
  - lra.
  - reflexivity.
  - unfold tanh, Rsqr. field. lra.
Qed.

(** *** Kernels *)
Lemma hd_intro : forall F f x d delta, 0 < delta ->
  (forall y, Rabs (y - x) < delta -> F y = Fl (f y)) -> D f x d -> has_derivative F x d.
Proof. intros F f x d delta H1 H2 H3. exists f, delta. auto. Qed.

Lemma hd_all : forall F f x d, (forall y, F y = Fl (f y)) -> D f x d -> has_derivative F x d.
Proof. intros F f x d H1 H2. apply (hd_intro F f x d 1); auto. lra. Qed.

Lemma hd_fun : forall F f x d, (forall y, F y = Fl (f y)) -> has_derivative F x d -> D f x d.
Proof.
  intros F f x d E (f' & delta & Hd & HF & HD).
  apply (D_loc f' f x d delta); auto. intros y Hy. specialize (HF y Hy). rewrite E in HF. congruence.
Qed.

Lemma hd_unique : forall F x d d', has_derivative F x d -> has_derivative F x d' -> d = d'.
Proof.
  intros F x d d' (f & a & Ha & HF & HD) (g & b & Hb & HG & HE).
  apply (uniqueness_limite f x d d'); auto.
  apply (D_loc g f x d' (Rmin a b)); auto.
  - now apply Rmin_glb_lt.
  - intros y Hy. assert (H1 : F y = Fl (f y)) by (apply HF; eapply Rlt_le_trans; [exact Hy|apply Rmin_l]).
    assert (H2 : F y = Fl (g y)) by (apply HG; eapply Rlt_le_trans; [exact Hy|apply Rmin_r]). congruence.
Qed.

Lemma hd_near : forall F x d, has_derivative F x d ->
  exists delta, 0 < delta /\ forall y, Rabs (y - x) < delta -> F y <> NaN.
Proof.
  intros F x d (f & a & Ha & HF & _). exists a. split; auto. intros y Hy. rewrite HF by auto. discriminate.
Qed.

(** Points arbitrarily near on either side. *)
Lemma hd_right : forall F x d, has_derivative F x d ->
  exists e, 0 < e /\ forall h, 0 <= h <= e -> F (x + h) <> NaN.
Proof.
  intros F x d H. destruct (hd_near _ _ _ H) as (a & Ha & Hn). exists (a / 2). split; [lra|].
  intros h Hh. apply Hn. replace (x + h - x) with h by ring. rewrite Rabs_right; lra.
Qed.
Lemma hd_left : forall F x d, has_derivative F x d ->
  exists e, 0 < e /\ forall h, 0 <= h <= e -> F (x - h) <> NaN.
Proof.
  intros F x d H. destruct (hd_near _ _ _ H) as (a & Ha & Hn). exists (a / 2). split; [lra|].
  intros h Hh. apply Hn. replace (x - h - x) with (- h) by ring. rewrite Rabs_Ropp, Rabs_right; lra.
Qed.

(** *** One-sided agreement *)
Lemma right_deriv : forall f f1 x d a delta, 0 < delta -> D f x d -> D f1 x a ->
  (forall y, x <= y < x + delta -> f y = f1 y) -> d = a.
Proof.
  intros f f1 x d a delta Hd H H1 E.
  destruct (Req_dec d a) as [|Hne]; auto. exfalso.
  assert (He : 0 < Rabs (d - a) / 2) by (assert (0 < Rabs (d - a)) by (apply Rabs_pos_lt; lra); lra).
  destruct (H _ He) as [d1 Hd1]. destruct (H1 _ He) as [d2 Hd2].
  set (h := Rmin (delta / 2) (Rmin (d1 / 2) (d2 / 2))).
  pose proof (cond_pos d1). pose proof (cond_pos d2).
  assert (Hh : 0 < h) by (unfold h; repeat apply Rmin_glb_lt; lra).
  assert (h <= delta / 2) by apply Rmin_l.
  assert (h <= d1 / 2) by (unfold h; eapply Rle_trans; [apply Rmin_r|apply Rmin_l]).
  assert (h <= d2 / 2) by (unfold h; eapply Rle_trans; [apply Rmin_r|apply Rmin_r]).
  specialize (Hd1 h ltac:(lra) ltac:(rewrite Rabs_right; lra)).
  specialize (Hd2 h ltac:(lra) ltac:(rewrite Rabs_right; lra)).
  rewrite (E (x + h)) in Hd1 by lra. rewrite (E x) in Hd1 by lra.
  set (q := (f1 (x + h) - f1 x) / h) in *.
  assert (Rabs (d - a) <= Rabs (q - d) + Rabs (q - a)).
  { replace (d - a) with (- (q - d) + (q - a)) by ring. eapply Rle_trans; [apply Rabs_triang|].
    rewrite Rabs_Ropp. lra. }
  lra.
Qed.

Lemma left_deriv : forall f f1 x d a delta, 0 < delta -> D f x d -> D f1 x a ->
  (forall y, x - delta < y <= x -> f y = f1 y) -> d = a.
Proof.
  intros f f1 x d a delta Hd H H1 E.
  assert (HM : D (fun y => 2 * x - y) x (-1)).
  { eapply D_ext; [apply (D_minus (fun _ => 2 * x) (fun y => y)); [apply D_const|apply D_id]|reflexivity|lra]. }
  assert (H' : D (fun y => f (2 * x - y)) x (d * -1)).
  { apply (D_comp (fun y => 2 * x - y) f); auto. replace (2 * x - x) with x by ring. auto. }
  assert (H1' : D (fun y => f1 (2 * x - y)) x (a * -1)).
  { apply (D_comp (fun y => 2 * x - y) f1); auto. replace (2 * x - x) with x by ring. auto. }
  assert (d * -1 = a * -1); [|lra].
  apply (right_deriv _ _ x _ _ delta Hd H' H1'). intros y Hy. apply E. lra.
Qed.

Lemma glue : forall f f1 f2 x d delta, 0 < delta -> D f1 x d -> D f2 x d ->
  (forall y, x <= y < x + delta -> f y = f1 y) -> (forall y, x - delta < y <= x -> f y = f2 y) ->
  D f x d.
Proof.
  intros f f1 f2 x d delta Hd H1 H2 E1 E2 eps He.
  destruct (H1 _ He) as [d1 Hd1]. destruct (H2 _ He) as [d2 Hd2].
  pose proof (cond_pos d1). pose proof (cond_pos d2).
  assert (Hp : 0 < Rmin delta (Rmin d1 d2)) by (repeat apply Rmin_glb_lt; lra).
  exists (mkposreal _ Hp). intros h Hh Hlt. simpl in Hlt.
  assert (Rabs h < delta) by (eapply Rlt_le_trans; [exact Hlt|apply Rmin_l]).
  assert (Rabs h < d1).
  { eapply Rlt_le_trans; [exact Hlt|]. eapply Rle_trans; [apply Rmin_r|apply Rmin_l]. }
  assert (Rabs h < d2).
  { eapply Rlt_le_trans; [exact Hlt|]. eapply Rle_trans; [apply Rmin_r|apply Rmin_r]. }
  destruct (Rle_lt_dec 0 h) as [Hs|Hs].
  - rewrite Rabs_right in H3 by lra. rewrite (E1 (x + h)), (E1 x) by lra. auto.
  - rewrite Rabs_left in H3 by lra. rewrite (E2 (x + h)), (E2 x) by lra. auto.
Qed.

(** *** Continuity; integer-valued functions *)
Lemma D_cont : forall f x d, D f x d -> forall eps, 0 < eps ->
  exists delta, 0 < delta /\ forall y, Rabs (y - x) < delta -> Rabs (f y - f x) < eps.
Proof.
  intros f x d H eps He.
  assert (Hc : continuity_pt f x) by (apply derivable_continuous_pt; exists d; exact H).
  destruct (Hc eps He) as (a & Ha & Hy). exists a. split; auto. intros y Hyx.
  destruct (Req_dec x y) as [<-|Hne].
  - replace (f x - f x) with 0 by ring. now rewrite Rabs_R0.
  - apply (Hy y). split; [split; [exact I|exact Hne]|exact Hyx].
Qed.

Lemma int_close : forall m n, Rabs (IZR m - IZR n) < 1 -> m = n.
Proof.
  intros m n H. rewrite <- minus_IZR in H. apply Rabs_def2 in H. destruct H as [A B].
  apply lt_IZR in A. replace (- (1)) with (IZR (-1)) in B by (simpl; ring). apply lt_IZR in B. lia.
Qed.

(** Around a point of continuity an integer-valued function is constant. *)
Lemma int_const : forall f x d, (forall y, exists n, f y = IZR n) -> D f x d ->
  exists delta, 0 < delta /\ forall y, Rabs (y - x) < delta -> f y = f x.
Proof.
  intros f x d Hi H. destruct (D_cont f x d H 1 ltac:(lra)) as (a & Ha & Hy).
  exists a. split; auto. intros y Hyx. destruct (Hi y) as [m Em], (Hi x) as [n En].
  specialize (Hy y Hyx). rewrite Em, En in *. apply int_close in Hy. now subst.
Qed.

Lemma int_D0 : forall f x d, (forall y, exists n, f y = IZR n) -> D f x d -> d = 0.
Proof.
  intros f x d Hi H. destruct (int_const f x d Hi H) as (a & Ha & E).
  apply (uniqueness_limite f x d 0); auto.
  apply (D_loc (fun _ => f x) f x 0 a Ha); [intros y Hy; symmetry; auto|apply D_const].
Qed.

(** *** Floor and friends *)
Lemma floor_is : forall n x, IZR n <= x < IZR n + 1 -> Rfloor x = IZR n.
Proof.
  intros n x [A B]. unfold Rfloor. f_equal. destruct (base_Int_part x) as [C E].
  apply int_close. apply Rabs_def1; lra.
Qed.
Lemma floor_bounds : forall x, Rfloor x <= x < Rfloor x + 1.
Proof. intro x. unfold Rfloor. destruct (base_Int_part x). lra. Qed.
Lemma floor_int : forall y, exists n, Rfloor y = IZR n.
Proof. intro y. unfold Rfloor. eauto. Qed.
Lemma floor_IZR : forall n, Rfloor (IZR n) = IZR n.
Proof. intro n. apply floor_is. lra. Qed.
Lemma ceil_int : forall y, exists n, Rceil y = IZR n.
Proof. intro y. unfold Rceil, Rfloor. rewrite <- opp_IZR. eauto. Qed.
Lemma round_int : forall y, exists n, Rround y = IZR n.
Proof. intro y. unfold Rround, Rfloor. destruct (Rle_dec 0 y); rewrite <- ?opp_IZR; eauto. Qed.
Lemma trunc_int : forall y, exists n, Rtrunc y = IZR n.
Proof. intro y. unfold Rtrunc, Rfloor. destruct (Rle_dec 0 y); rewrite <- ?opp_IZR; eauto. Qed.

Lemma floor_D : forall x, Rfloor x <> x -> D Rfloor x 0.
Proof.
  intros x Hx. pose proof (floor_bounds x) as [A B].
  assert (Hd : 0 < Rmin (x - Rfloor x) (Rfloor x + 1 - x)) by (apply Rmin_glb_lt; lra).
  apply (D_loc (fun _ => Rfloor x) Rfloor x 0 _ Hd); [|apply D_const].
  intros y Hy. apply Rabs_def2 in Hy. destruct Hy as [Y1 Y2].
  pose proof (Rmin_l (x - Rfloor x) (Rfloor x + 1 - x)). pose proof (Rmin_r (x - Rfloor x) (Rfloor x + 1 - x)).
  symmetry. unfold Rfloor at 2. apply floor_is. fold (Rfloor x). lra.
Qed.
