(** Softmax and log-softmax. *)
From Coq Require Import List Arith ZArith Lia Bool Permutation Reals Lra.
From Verif Require Import Base IndexSpec LayoutModel ViewSpec LayoutProofs LayoutProofs2 BcastProofs.
From Verif Require Import KernelModel TensorModel TensorSpec KernelProofs TensorProofs ElementwiseProofs.
From Verif Require Import EncodeModel ReduceModel ReduceSpec ReduceProofs ReduceProofs2 SelectModel.
From Verif Require Import NumModel DenSpec DenProofs NnModel NnSpec NnProofs.
Import ListNotations.
Open Scope nat_scope.

(* ---------- the maximum of numbers and -infinity ---------- *)

Lemma xmax_low : forall a b, low a -> low b -> low (xmax a b).
Proof. intros a b Ha Hb. unfold xmax. destruct (xltb b a); auto. Qed.
Lemma xmax_swap : forall b x y, low b -> low x -> low y -> xmax (xmax b x) y = xmax (xmax b y) x.
Proof.
  intros [r| | |] [x| | |] [y| | |] Hb Hx Hy; try contradiction; unfold xmax, xltb, Rltb;
    repeat (destruct (Rlt_dec _ _); cbn); auto; try (exfalso; lra); f_equal; lra.
Qed.
Lemma fold_perm_on : forall A B (P : B -> Prop) (Q : A -> Prop) (f : B -> A -> B) l l',
  (forall b x, P b -> Q x -> P (f b x)) ->
  (forall b x y, P b -> Q x -> Q y -> f (f b x) y = f (f b y) x) ->
  Permutation l l' -> Forall Q l -> forall b, P b -> fold_left f l b = fold_left f l' b.
Proof.
  intros A B P Q f l l' HP HC PM. induction PM as [|x l l' PM IH|x y l|l1 l2 l3 P1 IH1 P2 IH2]; intros F b Hb; cbn; auto.
  - inversion F; subst. apply IH; auto.
  - inversion F as [|? ? F1 F2]; subst. inversion F2; subst. f_equal. now apply HC.
  - rewrite IH1 by auto. apply IH2; auto. now apply (Permutation_Forall P1).
Qed.
Lemma fold_xmax_perm : forall l l', Permutation l l' -> Forall low l ->
  fold_left xmax l NInf = fold_left xmax l' NInf.
Proof.
  intros l l' P F. apply (fold_perm_on xr xr low low); auto.
  - apply xmax_low.
  - apply xmax_swap.
  - exact I.
Qed.
Lemma fold_xmax_fin : forall l b, Forall low l -> low b -> (exists x, b = Fin x) \/ (exists x, In (Fin x) l) ->
  exists m, fold_left xmax l b = Fin m.
Proof.
  induction l as [|v l IH]; intros b F Hb H; cbn.
  - destruct H as [[x ->]|[x []]]. now exists x.
  - inversion F; subst. apply IH; auto; [now apply xmax_low|].
    destruct H as [[x ->]|[x [->|I]]].
    + left. unfold xmax. destruct v as [y| | |]; try contradiction; cbn; [|eauto]. destruct (Rltb y x); eauto.
    + left. unfold xmax. destruct b as [y| | |]; try contradiction; cbn; [|eauto]. destruct (Rltb x y); eauto.
    + right. eauto.
Qed.

(* ---------- weights ---------- *)

Lemma weight_nonneg : forall v, (0 <= weight v)%R.
Proof. intros [x| | |]; cbn; try lra. left. apply exp_pos. Qed.
Lemma weight_shift : forall v m, low v -> xexp (xsub v (Fin m)) = Fin (weight v * exp (- m)).
Proof.
  intros [x| | |] m H; try contradiction; cbn; f_equal; [|lra].
  now rewrite <- exp_plus.
Qed.
Lemma weights_pos : forall l, (exists x, In (Fin x) l) -> (0 < Rsum (map weight l))%R.
Proof.
  intros l [x I]. apply Rlt_le_trans with (exp x); [apply exp_pos|].
  apply (Rsum_ge (map weight l)).
  - apply Forall_forall. intros y Hy. apply in_map_iff in Hy. destruct Hy as [v [<- _]]. apply weight_nonneg.
  - apply in_map_iff. now exists (Fin x).
Qed.

Lemma soft_axes : forall n dim, axis_ok n dim -> n <= 16 ->
  ReduceSpec.axes_of n [soft_axis n dim] [axis_of n dim].
Proof.
  intros n dim [H1 H2] H3. cbn [ReduceSpec.axes_of]. constructor; [|constructor].
  unfold soft_axis, axis_of. destruct (dim <? 0)%Z eqn:E.
  - replace (Z.of_nat n + dim <? 0)%Z with false by lia. split; [lia|]. left. lia.
  - split; [lia|]. left. lia.
Qed.

Section Soft.
Variable e : env.
Hypothesis He : env_ok e.
Variables (x : xtensor) (dt : dtype) (s : list nat) (f : list nat -> xr) (dim : Z) (n : nat).
Let d := axis_of (length s) dim.
Hypothesis HF : is_float dt = true.
Hypothesis HX : xden x dt s f.
Hypothesis HD : axis_ok (length s) dim.
Hypothesis HN : nth_error s d = Some n.
Hypothesis HR : length s <= 16.
Hypothesis HL : forall i, valid s i -> low (f i).
Hypothesis HP : forall i, valid s i -> exists k r, k < n /\ f (upd i d k) = Fin r.

Lemma line_low : forall j, valid (upd s d 1) j -> 0 < n -> Forall low (line f d n j).
Proof.
  intros j V N. apply Forall_forall. intros v Hv. apply in_map_iff in Hv. destruct Hv as [k [<- K]].
  apply in_seq in K. apply HL. eapply valid_upd; eauto; [|lia]. eapply valid_upd1_inv; eauto.
Qed.
Lemma n_pos : 0 < n.
Proof.
  pose proof (xden_pos _ _ _ _ HX) as P. unfold all_pos in P. rewrite Forall_forall in P.
  apply P. eapply nth_error_In; eauto.
Qed.

(** the steps shared by the two functions *)
Lemma soft_steps : exists mx sh ex su,
  x_max x [soft_axis (length (xshape x)) dim] true = Ok mx /\
  x_sub e x mx = Ok sh /\ x_exp e sh = Ok ex /\
  x_sum ex [soft_axis (length (xshape x)) dim] true = Ok su /\
  exists m : list nat -> R,
  xden sh dt s (fun i => xsub (f i) (Fin (m (upd i d 0)))) /\
  xden ex dt s (fun i => Fin (weight (f i) * exp (- m (upd i d 0)))) /\
  xden su dt (upd s d 1) (fun j => Fin (Rsum (map weight (line f d n j)) * exp (- m j))).
Proof.
  rewrite (xden_shape _ _ _ _ HX). pose proof n_pos as NP.
  assert (Hax : ReduceSpec.axes_of (length s) [soft_axis (length s) dim] [d]) by now apply soft_axes.
  assert (ND : NoDup [d]) by (constructor; [intros []|constructor]).
  destruct (xden_reduce NoBool NInf xmax (fun _ b => b) x [soft_axis (length s) dim] [d] true dt s f
              (fun j => fold_left xmax (line f d n j) NInf)) as [mx [Em Dm]]; auto.
  { now apply float_allowed. }
  { intros j l V P. rewrite rshape_one in V. apply fold_xmax_perm.
    - eapply Permutation_trans; [apply Permutation_map; exact P|].
      apply Permutation_sym. unfold line. rewrite <- map_map. apply Permutation_map. now apply fibre_one.
    - apply Forall_forall. intros v Hv. apply in_map_iff in Hv. destruct Hv as [i [<- Hi]].
      apply HL. eapply fibre_in. eapply Permutation_in; eauto. }
  rewrite rshape_one in Dm.
  set (m := fun j => match fold_left xmax (line f d n j) NInf with Fin r => r | _ => 0%R end).
  assert (Hm : forall j, valid (upd s d 1) j -> fold_left xmax (line f d n j) NInf = Fin (m j)).
  { intros j V. unfold m. destruct (fold_xmax_fin (line f d n j) NInf) as [r Er].
    - now apply line_low.
    - exact I.
    - right. destruct (HP j) as [k [r [K Ek]]]; [eapply valid_upd1_inv; eauto|].
      exists r. apply in_map_iff. exists k. split; auto. apply in_seq. lia.
    - now rewrite Er. }
  assert (Dm' : xden mx dt (upd s d 1) (fun j => Fin (m j))) by (eapply xden_ext; [exact Dm|auto]).
  destruct (xden_binary_axis e He NoBool xsub x mx dt s d f (fun j => Fin (m j))) as [sh [Es Ds]]; auto.
  { now apply float_allowed. }
  destruct (xden_unary e He Floats xexp sh dt s _ (float_allowed _ _ HF) Ds) as [ex [Ee De]].
  assert (De' : xden ex dt s (fun i => Fin (weight (f i) * exp (- m (upd i d 0))))).
  { eapply xden_ext; [exact De|]. intros i V. cbn beta. apply weight_shift. auto. }
  destruct (xden_sum ex [soft_axis (length s) dim] [d] true dt s _ HF De' Hax ND HR) as [su [Eu Du]].
  rewrite rshape_one in Du.
  exists mx, sh, ex, su. split; [exact Em|]. split; [exact Es|]. split; [exact Ee|]. split; [exact Eu|].
  exists m. split; auto. split; auto.
  eapply xden_ext; [exact Du|]. intros j V. cbn beta. f_equal.
  rewrite (Rsum_perm _ (map (fun i => (weight (f i) * exp (- m (upd i d 0%nat)))%R) (map (fun k => upd j d k) (seq 0 n)))).
  - rewrite map_map. unfold line. rewrite map_map. rewrite <- Rsum_scale. apply Rsum_ext.
    intros k K. rewrite upd_upd. do 4 f_equal. rewrite <- (valid_upd1_zero s j d n V HN). apply upd_same.
  - apply Permutation_map. apply Permutation_sym. now apply fibre_one.
Qed.

Lemma line_sum_pos : forall i, valid s i -> (0 < Rsum (map weight (line f d n i)))%R.
Proof.
  intros i V. apply weights_pos. destruct (HP i V) as [k [r [K E]]]. exists r.
  apply in_map_iff. exists k. split; auto. apply in_seq. lia.
Qed.
Lemma line_base : forall i, line f d n (upd i d 0) = line f d n i.
Proof. intros i. unfold line. apply map_ext. intros k. now rewrite upd_upd. Qed.

Lemma softmax_ok : exists y, x_softmax e x dim = Ok y /\ xden y dt s (fun i => Fin (softmax_at f d n i)).
Proof.
  destruct soft_steps as [mx [sh [ex [su [E1 [E2 [E3 [E4 [m [D1 [D2 D3]]]]]]]]]]].
  unfold x_softmax. rewrite E1; cbn [bind]. rewrite E2; cbn [bind]. rewrite E3; cbn [bind].
  rewrite E4; cbn [bind].
  destruct (xden_binary_axis e He Floats xdiv ex su dt s d _ _ (float_allowed _ _ HF) D2 D3) as [y [Ey Dy]].
  exists y. split; [exact Ey|]. eapply xden_ext; [exact Dy|]. intros i V. cbn beta.
  rewrite line_base. pose proof (line_sum_pos i V) as SP. pose proof (exp_pos (- m (upd i d 0))) as EP.
  rewrite xdiv_fin by (apply Rgt_not_eq; apply Rmult_lt_0_compat; auto).
  f_equal. unfold softmax_at. field. split; lra.
Qed.

Lemma log_softmax_ok : exists y, x_log_softmax e x dim = Ok y /\
  xden y dt s (fun i => xsub (f i) (Fin (ln (Rsum (map weight (line f d n i)))))).
Proof.
  destruct soft_steps as [mx [sh [ex [su [E1 [E2 [E3 [E4 [m [D1 [D2 D3]]]]]]]]]]].
  unfold x_log_softmax. rewrite E1; cbn [bind]. rewrite E2; cbn [bind]. rewrite E3; cbn [bind].
  rewrite E4; cbn [bind].
  destruct (xden_unary e He Floats xln su dt (upd s d 1) _ (float_allowed _ _ HF) D3) as [lg [El Dl]].
  unfold x_ln. rewrite El; cbn [bind].
  destruct (xden_binary_axis e He NoBool xsub sh lg dt s d _ _ (float_allowed _ _ HF) D1 Dl) as [y [Ey Dy]].
  exists y. split; [exact Ey|]. eapply xden_ext; [exact Dy|]. intros i V. cbn beta.
  rewrite line_base. pose proof (line_sum_pos i V) as SP. pose proof (exp_pos (- m (upd i d 0))) as EP.
  set (S := Rsum (map weight (line f d n i))) in *. set (q := m (upd i d 0)) in *.
  assert (L : xln (Fin (S * exp (- q))) = Fin (ln S - q)).
  { unfold xln, Rltb. assert (0 < S * exp (- q))%R by now apply Rmult_lt_0_compat.
    destruct (Rlt_dec 0 (S * exp (- q))); [|contradiction]. f_equal.
    rewrite ln_mult by auto. rewrite ln_exp. lra. }
  rewrite L. destruct (f i); cbn; auto. f_equal. lra.
Qed.
End Soft.
