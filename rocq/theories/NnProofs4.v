(** Losses that never return a value; consequences of the softmax formula. *)
From Coq Require Import List Arith ZArith Lia Bool Permutation Reals Lra.
From Verif Require Import Base IndexSpec LayoutModel ViewSpec LayoutProofs LayoutProofs2 BcastProofs.
From Verif Require Import KernelModel TensorModel TensorSpec KernelProofs TensorProofs ElementwiseProofs.
From Verif Require Import EncodeModel ReduceModel ReduceSpec ReduceProofs ReduceProofs2 SelectModel.
From Verif Require Import NumModel DenSpec DenProofs NnModel NnSpec NnProofs NnProofs2.
Import ListNotations.
Open Scope nat_scope.

Definition returns {A} (o : outcome A) : Prop := exists a, o = Ok a.

Section Never.
Variable e : env.

Lemma cmp_bool : forall c f a s t, x_cmp_scalar e c f a s = Ok t -> xdtype t = BOOL.
Proof.
  intros c f a s t. unfold x_cmp_scalar. destruct (negb _); [discriminate|]. destruct (negb _); [discriminate|].
  destruct (t_unary _ _ _ _); cbn; try discriminate. intros H. now inversion H.
Qed.
Lemma mul_bool : forall a b, xdtype a = BOOL -> ~ returns (x_mul e a b).
Proof.
  intros a b H [t E]. unfold x_mul, x_binary in E. rewrite H in E.
  destruct (negb (same_dtype BOOL (xdtype b))); cbn in E; discriminate.
Qed.
Lemma bind_returns : forall A B (x : outcome A) (f : A -> outcome B), returns (bind x f) ->
  exists a, x = Ok a /\ returns (f a).
Proof. intros A B [a| |] f [b E]; cbn in E; try discriminate. exists a. split; auto. now exists b. Qed.
End Never.

Ltac step H := apply bind_returns in H; let a := fresh "a" in let E := fresh "E" in destruct H as [a [E H]].

Lemma mae_never : forall e p t, ~ returns (mae_loss e p t).
Proof.
  intros e p t H. unfold mae_loss in H. do 4 step H. destruct H as [r H].
  unfold x_div_scalar, x_scalar in H. cbn [fst] in H.
  destruct (allowed Floats (xdtype a2)) eqn:F; cbn [negb] in H; [|discriminate].
  destruct (same_dtype U32 (xdtype a2)) eqn:S; cbn [negb] in H; [|discriminate].
  apply same_dtype_iff in S. rewrite <- S in F. discriminate.
Qed.
Lemma huber_never : forall e delta p t, ~ returns (huber_loss e delta p t).
Proof.
  intros e delta p t H. unfold huber_loss in H. do 7 step H. apply cmp_bool in E5.
  step H. exact (mul_bool e a5 a2 E5 (ex_intro _ _ E6)).
Qed.
Lemma smooth_l1_never : forall e beta p t, ~ returns (smooth_l1_loss e beta p t).
Proof.
  intros e beta p t H. unfold smooth_l1_loss in H. do 7 step H. apply cmp_bool in E5.
  step H. refine (mul_bool e a5 _ E5 (ex_intro _ _ E6)).
Qed.
Lemma cosine_never : forall e margin eps x1 x2 y, ~ returns (cosine_loss e margin eps x1 x2 y).
Proof.
  intros e margin eps x1 x2 y H. unfold cosine_loss in H. do 16 step H. apply cmp_bool in E14.
  step H. refine (mul_bool e _ _ E14 (ex_intro _ _ E15)).
Qed.

(* ---------- softmax is a probability distribution ---------- *)

Section Dist.
Variables (f : list nat -> xr) (d n : nat) (i : list nat).
Hypothesis HP : exists k r, k < n /\ f (upd i d k) = Fin r.
Lemma dist_pos : (0 < Rsum (map weight (line f d n i)))%R.
Proof.
  destruct HP as [k [r [K E]]]. apply weights_pos. exists r. apply in_map_iff. exists k. split; auto.
  apply in_seq. lia.
Qed.
Lemma dist_sum : Rsum (line (softmax_at f d n) d n i) = 1%R.
Proof.
  pose proof dist_pos as P. unfold line at 1, softmax_at.
  rewrite (Rsum_ext _ _ _ (fun k => (weight (f (upd i d k)) * / Rsum (map weight (line f d n i)))%R)).
  - rewrite Rsum_scale.
    replace (Rsum (map (fun k => weight (f (upd i d k))) (seq 0 n))) with (Rsum (map weight (line f d n i)))
      by (unfold line; now rewrite map_map).
    apply Rinv_r. lra.
  - intros k _. unfold Rdiv. do 4 f_equal. unfold line. apply map_ext. intros q. now rewrite upd_upd.
Qed.
Lemma dist_range : In i (map (upd i d) (seq 0 n)) -> (0 <= softmax_at f d n i <= 1)%R.
Proof.
  intros I. pose proof dist_pos as P. unfold softmax_at.
  assert (W : (weight (f i) <= Rsum (map weight (line f d n i)))%R).
  { apply Rsum_ge.
    - apply Forall_forall. intros y Hy. apply in_map_iff in Hy. destruct Hy as [v [<- _]]. apply weight_nonneg.
    - apply in_map_iff in I. destruct I as [k [E K]]. apply in_map_iff. exists (f i). split; auto.
      unfold line. apply in_map_iff. exists k. split; auto. now rewrite E. }
  pose proof (weight_nonneg (f i)) as N. split.
  - apply Rmult_le_pos; auto. left. now apply Rinv_0_lt_compat.
  - apply (Rmult_le_reg_r (Rsum (map weight (line f d n i)))); auto. unfold Rdiv.
    rewrite Rmult_assoc, Rinv_l by lra. lra.
Qed.
End Dist.

Lemma softmax_shift : forall f g d n i c, (exists k r, k < n /\ f (upd i d k) = Fin r) ->
  (forall k, g (upd i d k) = xadd (f (upd i d k)) (Fin c)) -> g i = xadd (f i) (Fin c) ->
  (forall k, low (f (upd i d k))) -> low (f i) ->
  softmax_at g d n i = softmax_at f d n i.
Proof.
  intros f g d n i c HP HG HGi HL HLi. pose proof (dist_pos f d n i HP) as P.
  assert (W : forall v, low v -> weight (xadd v (Fin c)) = (weight v * exp c)%R).
  { intros [x| | |] H; try contradiction; cbn; [apply exp_plus|lra]. }
  unfold softmax_at. rewrite HGi, W by auto.
  replace (Rsum (map weight (line g d n i))) with (Rsum (map weight (line f d n i)) * exp c)%R.
  - pose proof (exp_pos c). field. split; lra.
  - unfold line. rewrite !map_map. rewrite <- Rsum_scale. apply Rsum_ext. intros k _. rewrite HG, W by auto. reflexivity.
Qed.

Lemma in_line : forall s i d n, valid s i -> nth_error s d = Some n -> In i (map (upd i d) (seq 0 n)).
Proof.
  intros s i d n V E. apply in_map_iff. exists (nth d i 0). split; [apply upd_same|].
  apply in_seq. pose proof (valid_nth s i d n V E). lia.
Qed.

(** an axis out of range panics *)
Lemma softmax_axis_panic : forall e x dim, is_float (xdtype x) = true -> length (xshape x) <= 16 ->
  ~ axis_ok (length (xshape x)) dim -> x_softmax e x dim = Panic.
Proof.
  intros e x dim F L H. unfold x_softmax, x_max, x_reduce. rewrite (float_allowed NoBool _ F). cbn [negb].
  unfold t_reduce. fold (xshape x). set (nd := length (xshape x)) in *.
  assert (G : exists o, reduce_axes nd [soft_axis nd dim] = [o] /\ forall d, o = Some d -> nd <= d).
  { unfold reduce_axes. cbn [map]. eexists. split; [reflexivity|]. intros d Ed. unfold soft_axis, axis_ok in *.
    destruct (dim <? 0)%Z eqn:D.
    - destruct (Z.of_nat nd + dim <? 0)%Z eqn:D2.
      + change (2147483647 <? 0)%Z with false in Ed. cbv iota in Ed. unfold as_usize in Ed.
        change (2147483647 <? 0)%Z with false in Ed. cbv iota in Ed. apply Z.ltb_lt in D, D2.
        assert (E : d = Z.to_nat 2147483647) by congruence. clear Ed. lia.
      + apply Z.ltb_lt in D. apply Z.ltb_ge in D2. lia.
    - rewrite D in Ed. unfold as_usize in Ed. rewrite D in Ed. apply Z.ltb_ge in D. inversion Ed. lia. }
  destruct G as [o [E G]]. rewrite E. cbn [mark_axes]. destruct o as [d|]; [|reflexivity].
  specialize (G d eq_refl). fold (xshape x). 
  replace (d <? length (xshape x)) with false by (symmetry; apply Nat.ltb_ge; exact G). reflexivity.
Qed.

(* ---------- KL divergence ---------- *)

Lemma bin_dtype : forall e c f a b t, x_binary e c f a b = Ok t -> xdtype t = xdtype a.
Proof.
  intros e c f a b t. unfold x_binary. destruct (negb _); [discriminate|]. destruct (negb _); [discriminate|].
  destruct (t_binary _ _ _ _ _ _ _); cbn; try discriminate. intros H. now inversion H.
Qed.
Lemma un_dtype : forall e c f a t, x_unary e c f a = Ok t -> xdtype t = xdtype a.
Proof.
  intros e c f a t. unfold x_unary. destruct (negb _); [discriminate|].
  destruct (t_unary _ _ _ _); cbn; try discriminate. intros H. now inversion H.
Qed.
Lemma red_dtype : forall c i f g a d k t, x_reduce c i f g a d k = Ok t -> xdtype t = xdtype a.
Proof.
  intros c i f g a d k t. unfold x_reduce. destruct (negb _); [discriminate|].
  destruct (t_reduce _ _ _ _ _ _ _); cbn; try discriminate. intros H. now inversion H.
Qed.
Lemma scalar_dtype : forall e c f a s, returns (x_scalar e c f a s) -> xdtype a = fst s.
Proof.
  intros e c f a s [t H]. unfold x_scalar in H. destruct (negb _); [discriminate|].
  destruct (same_dtype (fst s) (xdtype a)) eqn:E; [|discriminate]. apply same_dtype_iff in E. auto.
Qed.
Lemma kl_dtype : forall e l x t, returns (kl_div_loss e l x t) -> xdtype t = EncodeModel.F32.
Proof.
  intros e l x t H. unfold kl_div_loss in H. step H. step H. step H. apply scalar_dtype in H. cbn [fst] in H.
  unfold x_sum_all, x_sum in E0. apply red_dtype in E0. rewrite E0 in H. clear - E H.
  assert (E' : xdtype a = xdtype t).
  { destruct l.
    - destruct (x_exp e t) as [u| |] eqn:E1; cbn [bind] in E; try discriminate.
      destruct (x_sub e t x) as [w| |] eqn:E2; cbn [bind] in E; try discriminate.
      unfold x_mul in E. unfold x_exp in E1. apply bin_dtype in E. apply un_dtype in E1. congruence.
    - destruct (x_ln e t) as [u| |] eqn:E1; cbn [bind] in E; try discriminate.
      destruct (x_mul e t u) as [w| |] eqn:E2; cbn [bind] in E; try discriminate.
      destruct (x_mul e t x) as [v| |] eqn:E3; cbn [bind] in E; try discriminate.
      unfold x_sub in E. unfold x_mul in E2. apply bin_dtype in E. apply bin_dtype in E2. congruence. }
  congruence.
Qed.

Lemma fold_xadd_nan : forall l a, In Nan l -> fold_left xadd l a = Nan.
Proof.
  assert (N : forall l, fold_left xadd l Nan = Nan) by (induction l; cbn; auto).
  induction l as [|x l IH]; intros a H; [contradiction|]. cbn. destruct H as [->|H]; auto.
  replace (xadd a Nan) with Nan by (destruct a; auto). apply N.
Qed.
Lemma xln_zero : xln (Fin 0) = NInf.
Proof. unfold xln, Rltb. destruct (Rlt_dec 0 0); [lra|reflexivity]. Qed.

Lemma kl_zero : forall e x t s n f g i0, env_ok e -> xden x EncodeModel.F32 (n :: s) (fun i => Fin (f i)) ->
  xden t EncodeModel.F32 (n :: s) (fun i => Fin (g i)) -> length s < 16 ->
  valid (n :: s) i0 -> g i0 = 0%R ->
  exists l, kl_div_loss e false x t = Ok l /\ xden l EncodeModel.F32 [] (fun _ => Nan).
Proof.
  intros e x t s n f g i0 He X T HR V0 G0. unfold kl_div_loss.
  assert (F : is_float EncodeModel.F32 = true) by reflexivity.
  destruct (xden_unary e He Floats xln t _ (n :: s) _ (float_allowed _ _ F) T) as [lt_ [El Dl]].
  unfold x_ln. rewrite El. cbn [bind].
  destruct (xden_binary_same e He NoBool xmul t lt_ _ (n :: s) _ _ (float_allowed _ _ F) T Dl) as [a [Ea Da]].
  unfold x_mul. rewrite Ea. cbn [bind].
  destruct (xden_binary_same e He NoBool xmul t x _ (n :: s) _ _ (float_allowed _ _ F) T X) as [b [Eb Db]].
  rewrite Eb. cbn [bind].
  destruct (xden_binary_same e He NoBool xsub a b _ (n :: s) _ _ (float_allowed _ _ F) Da Db) as [ls [Els Dls]].
  unfold x_sub. rewrite Els. cbn [bind].
  destruct (xden_reduce NoBool (Fin 0) xadd (fun _ b => b) ls [] (seq 0 (length (n :: s))) false _ (n :: s) _
    (fun _ => Nan) (float_allowed _ _ F) Dls) as [su [Eu Du]].
  - reflexivity.
  - apply seq_NoDup.
  - cbn; lia.
  - intros j l Vj PL. rewrite rshape_all in Vj. apply valid_nil in Vj. subst j. rewrite fibre_all in PL.
    apply fold_xadd_nan. apply in_map_iff. exists i0. split.
    + rewrite G0, xln_zero. cbn. unfold xscale, Rltb. destruct (Rlt_dec 0 0); [lra|]. reflexivity.
    + apply (Permutation_in _ (Permutation_sym PL)). now apply in_all_idx.
  - unfold x_sum_all, x_sum. rewrite Eu. cbn [bind]. rewrite rshape_all in Du.
    unfold dim0. rewrite (xden_shape _ _ _ _ X). cbn [idx_or_panic nth_error bind].
    destruct (xden_scalar e He Floats xdiv su _ [] _ (nat_x n) (float_allowed _ _ F) Du) as [l [Ell Dll]].
    exists l. split; [exact Ell|]. eapply xden_ext; [exact Dll|]. reflexivity.
Qed.
