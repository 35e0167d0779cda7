(** C108: the reductions prod, var, std, norm, logsum, logsumexp, max and min. *)
From Coq Require Import List Arith ZArith Bool Lia Lra Reals SpecFloat.
From Verif Require Import Base IndexSpec LayoutModel ViewSpec KernelModel KernelProofs TensorModel TensorSpec TensorProofs BcastProofs ElementwiseProofs
  ReduceModel ReduceSpec ReduceProofs EncodeModel NumModel DenSpec DenProofs NnModel NnSpec NnProofs
  RuleModel RuleProofs2 RedModel RedSpec RedProofs.
Import ListNotations.
Open Scope nat_scope.

(** Finite numbers, exact arithmetic, at most 16 axes, no axis named twice. *)
Theorem C108_prod_partial : forall a dims ds keep d s r, is_float d = true -> xden a d s (fun i => Fin (r i)) ->
  ReduceSpec.axes_of (length s) dims ds -> NoDup ds -> length s <= 16 ->
  exists t, x_prod a dims keep = Ok t /\ xden t d (rshape keep ds s) (fun j => Fin (Rprod (map r (fibre keep ds s j)))).
Proof. exact prod_den. Qed.
Print Assumptions C108_prod_partial.
Theorem C108_var_partial : forall a dims ds keep d s r, is_float d = true -> xden a d s (fun i => Fin (r i)) ->
  ReduceSpec.axes_of (length s) dims ds -> NoDup ds -> length s <= 16 ->
  exists t, x_var a dims keep = Ok t /\ xden t d (rshape keep ds s) (fun j => Fin (Rvar (map r (fibre keep ds s j)))).
Proof. exact var_den. Qed.
Print Assumptions C108_var_partial.
Theorem C108_std_partial : forall a dims ds keep d s r, is_float d = true -> xden a d s (fun i => Fin (r i)) ->
  ReduceSpec.axes_of (length s) dims ds -> NoDup ds -> length s <= 16 ->
  exists t, x_std a dims keep = Ok t /\ xden t d (rshape keep ds s) (fun j => Fin (sqrt (Rvar (map r (fibre keep ds s j))))).
Proof. exact std_den. Qed.
Print Assumptions C108_std_partial.
Theorem C108_logsum_partial : forall a dims ds keep d s r, is_float d = true -> xden a d s (fun i => Fin (r i)) ->
  ReduceSpec.axes_of (length s) dims ds -> NoDup ds -> length s <= 16 ->
  (forall j, valid (rshape keep ds s) j -> 0 < Rsum (map r (fibre keep ds s j)))%R ->
  exists t, x_logsum a dims keep = Ok t /\ xden t d (rshape keep ds s) (fun j => Fin (ln (Rsum (map r (fibre keep ds s j))))).
Proof.
  intros a dims ds keep d s r F Ha Hax ND HR P. destruct (logsum_den a dims ds keep d s r F Ha Hax ND HR) as (t & E & D).
  exists t. split; auto. eapply xden_ext; [exact D|]. intros j V. specialize (P j V). cbn [xln]. unfold Rltb. now destruct (Rlt_dec _ _).
Qed.
Print Assumptions C108_logsum_partial.
Theorem C108_logsumexp_partial : forall lo a dims ds keep d s r, is_float d = true -> xden a d s (fun i => Fin (r i)) ->
  ReduceSpec.axes_of (length s) dims ds -> NoDup ds -> length s <= 16 ->
  exists t, x_logsumexp lo a dims keep = Ok t /\ xden t d (rshape keep ds s) (fun j => Fin (Rlse (map r (fibre keep ds s j)))).
Proof. exact logsumexp_den. Qed.
Print Assumptions C108_logsumexp_partial.

Theorem C108_max_partial : forall a dims ds keep d s r, is_float d = true -> xden a d s (fun i => Fin (r i)) ->
  ReduceSpec.axes_of (length s) dims ds -> NoDup ds -> length s <= 16 ->
  exists t m, x_max a dims keep = Ok t /\ xden t d (rshape keep ds s) (fun j => Fin (m j)) /\
    forall j, valid (rshape keep ds s) j -> let l := map r (fibre keep ds s j) in In (m j) l /\ Forall (fun x => x <= m j)%R l.
Proof.
  intros a dims ds keep d s r F Ha Hax ND HR. destruct (max_den a dims ds keep d s r F Ha Hax ND HR) as (t & E & D).
  exists t. eexists. split; [exact E|]. split; [exact D|]. intros j V l. apply top_spec.
  pose proof (fibre_nonempty keep ds s j (xden_pos _ _ _ _ Ha) ND (axes_lt' _ _ _ Hax) V) as L. unfold l. destruct (fibre keep ds s j); [cbn in L; lia|discriminate].
Qed.
Print Assumptions C108_max_partial.
Theorem C108_min_partial : forall a dims ds keep d s r, is_float d = true -> xden a d s (fun i => Fin (r i)) ->
  ReduceSpec.axes_of (length s) dims ds -> NoDup ds -> length s <= 16 ->
  exists t m, x_min a dims keep = Ok t /\ xden t d (rshape keep ds s) (fun j => Fin (m j)) /\
    forall j, valid (rshape keep ds s) j -> let l := map r (fibre keep ds s j) in In (m j) l /\ Forall (fun x => m j <= x)%R l.
Proof.
  intros a dims ds keep d s r F Ha Hax ND HR. destruct (min_den a dims ds keep d s r F Ha Hax ND HR) as (t & E & D).
  exists t. eexists. split; [exact E|]. split; [exact D|]. intros j V l. apply bot_spec.
  pose proof (fibre_nonempty keep ds s j (xden_pos _ _ _ _ Ha) ND (axes_lt' _ _ _ Hax) V) as L. unfold l. destruct (fibre keep ds s j); [cbn in L; lia|discriminate].
Qed.
Print Assumptions C108_min_partial.

Lemma trunc_at : forall p (n : Z), (IZR n <= p < IZR n + 1)%R -> (0 <= p)%R -> Rtrunc p = IZR n.
Proof.
  intros p n H P. unfold Rtrunc. destruct (Rle_dec 0 p); [|contradiction]. unfold Rfloor. f_equal.
  unfold Int_part. rewrite <- (tech_up p (n + 1)%Z); [lia| |]; rewrite plus_IZR; lra.
Qed.
Lemma trunc_not : forall p (n : Z), (0 <= p)%R -> (p < IZR n \/ IZR n + 1 <= p)%R -> Rtrunc p <> IZR n.
Proof.
  intros p n P H E. destruct (archimed p) as [U1 U2].
  assert (T : Rtrunc p = IZR (up p - 1)). { apply trunc_at; auto. rewrite minus_IZR. lra. }
  rewrite minus_IZR in T. rewrite T in E. lra.
Qed.
Lemma Rpow_1 : forall x, Rpow (Rabs x) 1 = Rabs x.
Proof.
  intros x. unfold Rpow. destruct (Req_EM_T _ _) as [->|N]; auto. pose proof (Rabs_pos x). apply Rpower_1. lra.
Qed.
Lemma Rpow_1' : forall x, (0 <= x)%R -> Rpow x 1 = x.
Proof. intros x H. rewrite <- (Rabs_pos_eq x) at 1 by auto. rewrite Rpow_1. now apply Rabs_pos_eq. Qed.
Lemma pnorm_1 : forall l, Rpnorm 1 l = Rsum (map Rabs l).
Proof.
  intros l. unfold Rpnorm. replace (1 / 1)%R with 1%R by lra. rewrite (map_ext _ _ Rpow_1). apply Rpow_1'.
  apply Rsum_nonneg. apply Forall_forall. intros y Hy. apply in_map_iff in Hy. destruct Hy as (z & <- & _). apply Rabs_pos.
Qed.
Lemma Rpow_2 : forall x, Rpow (Rabs x) 2 = (x ^ 2)%R.
Proof.
  intros x. unfold Rpow. destruct (Req_EM_T _ _) as [E|N].
  - assert (x = 0)%R by (unfold Rabs in E; destruct (Rcase_abs x); lra). subst. ring.
  - pose proof (Rabs_pos x). replace 2%R with (INR 2) by (cbn; lra). rewrite Rpower_pow by lra. apply pow2_abs.
Qed.
Lemma pnorm_2 : forall l, Rpnorm 2 l = Rnorm2 l.
Proof.
  intros l. unfold Rpnorm, Rnorm2. rewrite (map_ext _ _ Rpow_2). pose proof (squares_nonneg _ l (fun x => x)) as H.
  unfold Rpow. destruct (Req_EM_T _ _) as [E|N]; [now rewrite E, sqrt_0|].
  replace (1 / 2)%R with (/ 2)%R by lra. apply Rpower_sqrt. cbn in *. lra.
Qed.

(** The p-norm, for every positive p but the fractions between 1 and 3. *)
Theorem C108_norm_partial : forall e p a dims ds keep d s r, env_ok e -> is_float d = true -> xden a d s (fun i => Fin (r i)) ->
  (0 < p)%R -> (p <= 1 \/ p = 2 \/ 3 <= p)%R ->
  ReduceSpec.axes_of (length s) dims ds -> NoDup ds -> length s <= 16 ->
  exists t, x_norm e p a dims keep = Ok t /\ xden t d (rshape keep ds s) (fun j => Fin (Rpnorm p (map r (fibre keep ds s j)))).
Proof.
  intros e p a dims ds keep d s r He F Ha Hp Hr Hax ND HR.
  destruct (Req_dec p 1) as [->|N1].
  - unfold x_norm. rewrite (trunc_at 1 1) by lra. rewrite Reqb_t.
    destruct (l1_den e He a dims ds keep d s r F Ha Hax ND HR) as (t & E & D). exists t. split; auto.
    eapply xden_ext; [exact D|]. intros j V. cbn beta. f_equal. symmetry. apply pnorm_1.
  - destruct (Req_dec p 2) as [->|N2].
    + unfold x_norm. rewrite (trunc_at 2 2) by lra. rewrite Reqb_f, Reqb_t by lra.
      destruct (norm2_den a dims ds keep d s r F Ha Hax ND HR) as (t & E & D). exists t. split; auto.
      eapply xden_ext; [exact D|]. intros j V. cbn beta. f_equal. symmetry. apply pnorm_2.
    + apply norm_den; auto; apply trunc_not; lra.
Qed.
Print Assumptions C108_norm_partial.

(** norm(1.5) of [1, 1] is 2, the 1-norm, instead of 2^(2/3): the fraction of p is dropped before it is compared
    with 1 and 2. *)
Theorem C108_norm_refuted : exists t,
  x_norm e1 1.5 (mkX F32 (mkT [Fin 1; Fin 1] (from_shape [2]))) [0%Z] false = Ok t /\ xden t F32 [] (fun _ => Fin 2) /\
  (Rpnorm 1.5 [1; 1] < 2)%R.
Proof.
  set (a := mkX F32 (mkT [Fin 1; Fin 1] (from_shape [2]))).
  assert (D : xden a F32 [2] (fun _ => Fin 1)).
  { split; [reflexivity|]. apply (t_full_good_den xr (Fin 1) [2]). repeat constructor. }
  unfold x_norm. rewrite (trunc_at 1.5 1) by lra. rewrite Reqb_t.
  destruct (l1_den e1 e1_ok a [0%Z] [0] false F32 [2] (fun _ => 1%R) eq_refl D) as (t & E & Dt).
  - constructor; [|constructor]. split; [simpl; lia|left; reflexivity].
  - repeat constructor; auto.
  - cbn; lia.
  - exists t. split; auto. split.
    + eapply xden_ext; [exact Dt|]. intros j V. cbn beta. f_equal. destruct j; [|contradiction].
      change (fibre false [0] [2] []) with [[0]; [1]]. cbn [map Rsum]. rewrite Rabs_R1. lra.
    + unfold Rpnorm. cbn [map Rsum]. rewrite Rabs_R1.
      assert (O : Rpow 1 1.5 = 1%R) by (unfold Rpow; destruct (Req_EM_T 1 0); [lra|]; unfold Rpower; now rewrite ln_1, Rmult_0_r, exp_0).
      rewrite O. unfold Rpow. destruct (Req_EM_T _ _); [lra|]. replace (1 + (1 + 0))%R with 2%R by lra.
      rewrite <- (Rpower_1 2) at 2 by lra. apply Rpower_lt; lra.
Qed.
Print Assumptions C108_norm_refuted.

(** logsumexp of a row with +infinity in it is NaN instead of +infinity. *)
Theorem C108_logsumexp_refuted : forall lo x,
  x_logsumexp lo (mkX F32 (mkT [PInf; Fin x] (from_shape [2]))) [0%Z] false = Ok (mkX F32 (mkT [Nan] (from_shape []))).
Proof. intros. reflexivity. Qed.
Print Assumptions C108_logsumexp_refuted.

(** max keeps or drops a NaN according to its position. *)
Theorem C108_max_refuted : forall x,
  x_max (mkX F32 (mkT [Nan; Fin x] (from_shape [2]))) [0%Z] false = Ok (mkX F32 (mkT [Fin x] (from_shape []))) /\
  x_max (mkX F32 (mkT [Fin x; Nan] (from_shape [2]))) [0%Z] false = Ok (mkX F32 (mkT [Nan] (from_shape []))).
Proof. intros. split; reflexivity. Qed.
Print Assumptions C108_max_refuted.

(** f32 arithmetic: the standard deviation of 1.7, 1.7, 1.7 is NaN, their variance negative. *)
Definition f32_of_nat (n : nat) : spec_float := binary_normalize 24 128 (Z.of_nat n) 0 false.
Definition f32_1_7 : spec_float := S754_finite false 14260634 (-23).
Theorem C108_std_refuted : let t := mkT [f32_1_7; f32_1_7; f32_1_7] (from_shape [3]) in
  t_std (S754_zero false) (SFadd 24 128) (SFsub 24 128) (SFmul 24 128) (SFdiv 24 128) (SFsqrt 24 128) f32_of_nat t [0%Z] false
    = Ok (mkT [S754_nan] (from_shape [])) /\
  t_var (S754_zero false) (SFadd 24 128) (SFsub 24 128) (SFmul 24 128) (SFdiv 24 128) f32_of_nat t [0%Z] false
    = Ok (mkT [S754_finite true 8388608 (-44)] (from_shape [])).
Proof. vm_compute. split; reflexivity. Qed.
Print Assumptions C108_std_refuted.

(** Concrete instance: the rows 3, 4 and -1, 1. *)
Definition rows : xtensor := xlist F32 [2; 2] [Fin 3; Fin 4; Fin (-1); Fin 1].
Definition rows_at (i : list nat) : R := nth (ravel [2; 2] i) [3; 4; -1; 1]%R 0%R.
Lemma rows_den : xden rows F32 [2; 2] (fun i => Fin (rows_at i)).
Proof.
  eapply xden_ext; [apply xlist_den; [reflexivity|repeat constructor]|].
  intros i V. apply in_all_idx in V. cbn in V. destruct V as [<-|[<-|[<-|[<-|[]]]]]; reflexivity.
Qed.
Lemma rows_axes : ReduceSpec.axes_of (length [2; 2]) [(-1)%Z] [1].
Proof. constructor; [|constructor]. split; [simpl; lia|right; reflexivity]. Qed.
Example C108_prod_ex : exists t, x_prod rows [(-1)%Z] true = Ok t /\ elem (xdata t) [0; 0] = Some (Fin 12) /\ elem (xdata t) [1; 0] = Some (Fin (-1)).
Proof.
  destruct (C108_prod_partial rows [(-1)%Z] [1] true F32 [2; 2] rows_at eq_refl rows_den rows_axes) as (t & E & D); [repeat constructor; auto|cbn; lia|].
  exists t. split; auto. destruct D as (_ & _ & _ & _ & _ & H). rewrite !H by (cbn; lia).
  change (fibre true [1] [2; 2] [0; 0]) with [[0; 0]; [0; 1]]. change (fibre true [1] [2; 2] [1; 0]) with [[1; 0]; [1; 1]].
  change (map rows_at [[0; 0]; [0; 1]]) with [3; 4]%R. change (map rows_at [[1; 0]; [1; 1]]) with [-1; 1]%R. unfold Rprod. cbn [fold_right].
  split; do 2 f_equal; lra.
Qed.
Example C108_std_ex : exists t, x_std rows [(-1)%Z] true = Ok t /\ elem (xdata t) [1; 0] = Some (Fin 1).
Proof.
  destruct (C108_std_partial rows [(-1)%Z] [1] true F32 [2; 2] rows_at eq_refl rows_den rows_axes) as (t & E & D); [repeat constructor; auto|cbn; lia|].
  exists t. split; auto. destruct D as (_ & _ & _ & _ & _ & H). rewrite !H by (cbn; lia).
  change (fibre true [1] [2; 2] [1; 0]) with [[1; 0]; [1; 1]]. do 2 f_equal. change (map rows_at [[1; 0]; [1; 1]]) with [-1; 1]%R. unfold Rvar, Ravg. cbn [map Rsum length INR].
  match goal with |- sqrt ?x = _ => replace x with 1%R by field end. apply sqrt_1.
Qed.
Example C108_norm_ex : exists t, x_norm e1 2 rows [(-1)%Z] true = Ok t /\ elem (xdata t) [0; 0] = Some (Fin 5).
Proof.
  destruct (C108_norm_partial e1 2 rows [(-1)%Z] [1] true F32 [2; 2] rows_at e1_ok eq_refl rows_den) as (t & E & D); try lra; [apply rows_axes|repeat constructor; auto|cbn; lia|].
  exists t. split; auto. destruct D as (_ & _ & _ & _ & _ & H). rewrite !H by (cbn; lia).
  change (fibre true [1] [2; 2] [0; 0]) with [[0; 0]; [0; 1]]. do 2 f_equal. rewrite pnorm_2. change (map rows_at [[0; 0]; [0; 1]]) with [3; 4]%R. unfold Rnorm2. cbn [map Rsum].
  match goal with |- sqrt ?x = _ => replace x with (5 * 5)%R by ring end. apply sqrt_square. lra.
Qed.
