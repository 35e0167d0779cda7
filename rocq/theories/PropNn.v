(** C92-C95: softmax and the loss functions, on the real numbers with the two infinities and
    NaN ([NumModel.xr]); rounding is not modelled here. *)
From Coq Require Import List Arith ZArith Lia Bool Reals Lra.
From Verif Require Import Base IndexSpec LayoutModel ViewSpec KernelModel TensorModel TensorSpec EncodeModel.
From Verif Require Import LayoutProofs LayoutProofs2 BcastProofs KernelProofs TensorProofs ElementwiseProofs NumModel DenSpec NnModel NnSpec NnProofs NnProofs2 NnProofs3 NnProofs4.
Import ListNotations.
Open Scope nat_scope.

Definition F32 := EncodeModel.F32.
(** a tensor of reals written out *)
Definition xt (s : list nat) (l : list R) : xtensor := xlist F32 s (map Fin l).
Lemma xt_den : forall s l, length l = nelem s -> all_pos s -> xden (xt s l) F32 s (fun i => Fin (nth (ravel s i) l 0%R)).
Proof.
  intros s l L P. eapply xden_ext; [apply xlist_den; auto; now rewrite map_length|].
  intros i V. cbn beta. rewrite (nth_indep _ Nan (Fin 0%R)) by (rewrite map_length, L; now apply ravel_lt).
  apply map_nth.
Qed.

(** ** C92 *)
(** Softmax of a float tensor of rank at most 16 without +infinity or NaN, no line of which is
    -infinity throughout: a probability distribution along the axis, exp(x_i) / sum_k exp(x_k).
    Missing: rounding; offset views (refuted below); bad axes (refuted below). *)
Theorem C92_softmax_partial : forall e, env_ok e -> forall x dt s f dim n,
  is_float dt = true -> xden x dt s f -> axis_ok (length s) dim ->
  nth_error s (axis_of (length s) dim) = Some n -> length s <= 16 ->
  (forall i, valid s i -> low (f i)) ->
  (forall i, valid s i -> exists k r, k < n /\ f (upd i (axis_of (length s) dim) k) = Fin r) ->
  exists y p, x_softmax e x dim = Ok y /\ xden y dt s (fun i => Fin (p i)) /\
    forall i, valid s i ->
      p i = softmax_at f (axis_of (length s) dim) n i /\ (0 <= p i <= 1)%R /\
      Rsum (line p (axis_of (length s) dim) n i) = 1%R.
Proof.
  intros e He x dt s f dim n F X AX N HR L P.
  destruct (softmax_ok e He x dt s f dim n F X AX N HR L P) as [y [E D]].
  exists y, (softmax_at f (axis_of (length s) dim) n). split; [exact E|]. split; [exact D|].
  intros i V. split; [reflexivity|]. split.
  - apply dist_range; auto. eapply in_line; eauto.
  - apply dist_sum; auto.
Qed.
Print Assumptions C92_softmax_partial.
(** Adding a constant to a line does not change its softmax. *)
Theorem C92_shift : forall f g d n i c,
  (exists k r, k < n /\ f (upd i d k) = Fin r) ->
  (forall k, g (upd i d k) = xadd (f (upd i d k)) (Fin c)) -> g i = xadd (f i) (Fin c) ->
  (forall k, low (f (upd i d k))) -> low (f i) ->
  softmax_at g d n i = softmax_at f d n i.
Proof. exact softmax_shift. Qed.
Print Assumptions C92_shift.
(** An axis out of range is not reported: the program panics. *)
Theorem C92_axis_refuted : forall e x dim, is_float (xdtype x) = true -> length (xshape x) <= 16 ->
  ~ axis_ok (length (xshape x)) dim -> x_softmax e x dim = Panic.
Proof. exact softmax_axis_panic. Qed.
Print Assumptions C92_axis_refuted.
(** the second row of a 2x2 matrix *)
Definition row1 : xtensor := mkX F32 (mkT [Fin 0; Fin 0; Fin 0; Fin 0] (mkLayout [2] [1] 2)).
Theorem C92_offset_refuted : good (xdata row1) /\ xshape row1 = [2] /\ x_softmax e1 row1 (-1) = Panic.
Proof.
  split; [|split; [reflexivity|]].
  - split; [reflexivity|]. cbn. intros i V. destruct i as [|a [|? ?]]; cbn in V; try (inversion V; fail).
    all: inversion V; subst; cbn; try lia; inversion H4.
  - lazy -[xmax xsub xexp xadd xdiv xln xneg]. reflexivity.
Qed.
Print Assumptions C92_offset_refuted.
(** The hypotheses are met by a row [0, -infinity, 0]; the result is [1/2, 0, 1/2]. *)
Example C92_example : exists y p,
  x_softmax e1 (xlist F32 [1; 3] [Fin 0; NInf; Fin 0]) (-1) = Ok y /\ xden y F32 [1; 3] (fun i => Fin (p i)) /\
  p [0; 0] = (1 / 2)%R /\ p [0; 1] = 0%R /\ p [0; 2] = (1 / 2)%R.
Proof.
  destruct (C92_softmax_partial e1 e1_ok (xlist F32 [1; 3] [Fin 0; NInf; Fin 0]) F32 [1; 3] _ (-1) 3
    eq_refl (xlist_den F32 [1; 3] [Fin 0; NInf; Fin 0] eq_refl ltac:(repeat constructor))) as (y & p & E & D & H).
  - unfold axis_ok. cbn. lia.
  - reflexivity.
  - cbn. lia.
  - intros i V. apply in_all_idx in V. vm_compute in V.
    repeat (destruct V as [<-|V]; [exact I|]); destruct V.
  - intros i V. apply in_all_idx in V. vm_compute in V.
    repeat (destruct V as [<-|V]; [exists 0, 0%R; split; [lia|reflexivity]|]); destruct V.
  - exists y, p. split; [exact E|]. split; [exact D|].
    assert (V : forall k, k < 3 -> valid [1; 3] [0; k]) by (intros k K; constructor; [lia|constructor; [lia|constructor]]).
    destruct (H [0; 0]) as [-> _]; [apply V; lia|]. destruct (H [0; 1]) as [-> _]; [apply V; lia|].
    destruct (H [0; 2]) as [-> _]; [apply V; lia|].
    lazy -[exp Rplus Rmult Rinv Rdiv IZR]. rewrite !exp_0. repeat split; lra.
Qed.

(** ** C93 *)
(** log_softmax = x - ln(sum exp x), the logarithm of softmax where it is not zero *)
Theorem C93_log_softmax_partial : forall e, env_ok e -> forall x dt s f dim n,
  is_float dt = true -> xden x dt s f -> axis_ok (length s) dim ->
  nth_error s (axis_of (length s) dim) = Some n -> length s <= 16 ->
  (forall i, valid s i -> low (f i)) ->
  (forall i, valid s i -> exists k r, k < n /\ f (upd i (axis_of (length s) dim) k) = Fin r) ->
  exists y, x_log_softmax e x dim = Ok y /\
    xden y dt s (fun i => xsub (f i) (Fin (ln (Rsum (map weight (line f (axis_of (length s) dim) n i)))))).
Proof. exact log_softmax_ok. Qed.
Print Assumptions C93_log_softmax_partial.
(** NLL and cross entropy with the classes on the last axis.  Missing: classes on another axis
    (refuted below), rounding. *)
Theorem C93_nll_partial : forall e, env_ok e -> forall lp dt s n r target c dim,
  is_float dt = true -> xden lp dt (s ++ [n]) (fun i => Fin (r i)) -> den target s c -> length s < 16 ->
  dim = (-1)%Z \/ dim = Z.of_nat (length s) ->
  (forall i, valid s i -> (0 <= c i < Z.of_nat n)%Z) ->
  exists t, nll_loss e dim lp target = Ok t /\
    xden t dt [] (fun _ => Fin (Rmean s (fun i => - r (i ++ [Z.to_nat (c i)])))%R).
Proof. exact nll_ok. Qed.
Print Assumptions C93_nll_partial.
Theorem C93_cross_entropy_partial : forall e, env_ok e -> forall lg dt s n r target c dim,
  is_float dt = true -> xden lg dt (s ++ [n]) (fun i => Fin (r i)) -> den target s c -> length s < 16 ->
  dim = (-1)%Z \/ dim = Z.of_nat (length s) ->
  (forall i, valid s i -> (0 <= c i < Z.of_nat n)%Z) ->
  exists t, cross_entropy_loss e dim lg target = Ok t /\
    xden t dt [] (fun _ => Fin (Rmean s (fun i =>
      - ln (softmax_at (fun i => Fin (r i)) (length s) n (i ++ [Z.to_nat (c i)]))))%R).
Proof. exact cross_entropy_ok. Qed.
Print Assumptions C93_cross_entropy_partial.
(** Classes on axis 1 of [1; 2; 2], both targets class 0: the loss is -(0 + -2)/2 = 1; the
    program answers 0, for it reads the first position twice. *)
Definition lp122 : xtensor := xt [1; 2; 2] [0; -2; 5; 6]%R.
Definition tg12 : tensor Z := mkT [0%Z; 0%Z] (from_shape [1; 2]).
Definition at122 (i : list nat) : R := nth (ravel [1; 2; 2] i) [0; -2; 5; 6]%R 0%R.
Theorem C93_class_axis_refuted : exists y, nll_loss e1 1 lp122 tg12 = Ok y /\ elem (xdata y) [] = Some (Fin 0) /\
  Rmean [1; 2] (fun i => match i with [b; l] => (- at122 [b; 0%nat; l])%R | _ => 0%R end) = 1%R.
Proof.
  eexists. split; [lazy -[xmax xsub xexp xadd xdiv xln xneg IZR Rplus Rminus Rdiv INR Ropp Rmult Rinv]; reflexivity|].
  split.
  - lazy -[xadd xdiv xneg IZR Rplus Rminus Rdiv INR Ropp Rmult Rinv]. cbn [xneg xadd].
    rewrite xdiv_fin by (cbn; lra). f_equal. f_equal. cbn [INR]. lra.
  - unfold Rmean, at122. lazy -[IZR Rplus Rminus Rdiv INR Ropp Rmult Rinv]. cbn [INR]. lra.
Qed.
Print Assumptions C93_class_axis_refuted.
(** The hypotheses are met: two rows of two equal logits, targets 0 and 1; the loss is ln 2. *)
Example C93_example : exists y,
  cross_entropy_loss e1 (-1) (xt [2; 2] [0; 0; 3; 3]%R) (mkT [0; 1]%Z (from_shape [2])) = Ok y /\
  elem (xdata y) [] = Some (Fin (ln 2)).
Proof.
  destruct (C93_cross_entropy_partial e1 e1_ok (xt [2; 2] [0; 0; 3; 3]%R) F32 [2] 2 _
    (mkT [0; 1]%Z (from_shape [2])) (fun i => nth (ravel [2] i) [0; 1]%Z 0%Z) (-1)
    eq_refl (xt_den [2; 2] [0; 0; 3; 3]%R eq_refl ltac:(repeat constructor))) as (y & E & D).
  - split; [now apply from_shape_good|]. split; [left; reflexivity|]. split; [reflexivity|].
    split; [repeat constructor|]. intros i V. apply in_all_idx in V. vm_compute in V.
    repeat (destruct V as [<-|V]; [reflexivity|]); destruct V.
  - cbn. lia.
  - now left.
  - intros i V. apply in_all_idx in V. vm_compute in V.
    repeat (destruct V as [<-|V]; [split; vm_compute; congruence|]); destruct V.
  - exists y. split; [exact E|]. destruct D as [_ (_ & _ & _ & _ & D)]. rewrite D by constructor.
    f_equal. f_equal. unfold Rmean, softmax_at, line.
    lazy -[exp ln IZR Rplus Rminus Rdiv INR Ropp Rmult Rinv]. cbn [INR].
    rewrite exp_0. replace (1 / (1 + (1 + 0)))%R with (/ 2)%R by lra.
    assert (P := exp_pos 3). replace (exp 3 / (exp 3 + (exp 3 + 0)))%R with (/ 2)%R by (field; lra).
    rewrite ln_Rinv by lra. lra.
Qed.

(** ** C94 *)
(** Mean squared error, any target that broadcasts to the prediction.  Missing: rounding. *)
Theorem C94_mse_partial : forall e, env_ok e -> forall p t dt s sb f g,
  is_float dt = true -> xden p dt s (fun i => Fin (f i)) -> xden t dt sb (fun i => Fin (g i)) ->
  bcast s sb s -> length s <= 16 ->
  exists l, mse_loss e p t = Ok l /\
    xden l dt [] (fun _ => Fin (Rmean s (fun i => (f i - g (bidx sb i)) * (f i - g (bidx sb i)))%R)).
Proof. exact mse_ok. Qed.
Print Assumptions C94_mse_partial.
(** The mean absolute error, Huber, smooth L1 and cosine embedding losses return no value for
    any input at all. *)
Theorem C94_mae_refuted : forall e p t, ~ returns (mae_loss e p t).
Proof. exact mae_never. Qed.
Print Assumptions C94_mae_refuted.
Theorem C94_huber_refuted : forall e delta p t, ~ returns (huber_loss e delta p t).
Proof. exact huber_never. Qed.
Print Assumptions C94_huber_refuted.
Theorem C94_smooth_l1_refuted : forall e beta p t, ~ returns (smooth_l1_loss e beta p t).
Proof. exact smooth_l1_never. Qed.
Print Assumptions C94_smooth_l1_refuted.
Theorem C94_cosine_refuted : forall e margin eps x1 x2 y, ~ returns (cosine_loss e margin eps x1 x2 y).
Proof. exact cosine_never. Qed.
Print Assumptions C94_cosine_refuted.
Example C94_example : exists y, mse_loss e1 (xt [2] [1; 3]%R) (xt [1] [0]%R) = Ok y /\ elem (xdata y) [] = Some (Fin 5).
Proof.
  destruct (C94_mse_partial e1 e1_ok (xt [2] [1; 3]%R) (xt [1] [0]%R) F32 [2] [1] _ _ eq_refl
    (xt_den [2] [1; 3]%R eq_refl ltac:(repeat constructor)) (xt_den [1] [0]%R eq_refl ltac:(repeat constructor)))
    as (y & E & D).
  - apply bcast_ones. constructor; [now right|constructor].
  - cbn; lia.
  - exists y. split; [exact E|]. destruct D as [_ (_ & _ & _ & _ & D)]. rewrite D by constructor.
    f_equal. f_equal. unfold Rmean. lazy -[IZR Rplus Rminus Rdiv INR Ropp Rmult Rinv]. cbn [INR]. lra.
Qed.

(** ** C95 *)
(** Binary cross entropy with logits.  Missing: broadcast targets, rounding. *)
Theorem C95_logits_partial : forall e, env_ok e -> forall x t dt s f g,
  is_float dt = true -> xden x dt s (fun i => Fin (f i)) -> xden t dt s (fun i => Fin (g i)) -> length s <= 16 ->
  exists l, bce_logits_loss e x t = Ok l /\
    xden l dt [] (fun _ => Fin (Rmean s (fun i => cross_entropy2 (sigma (f i)) (g i)))).
Proof. exact bce_logits_ok. Qed.
Print Assumptions C95_logits_partial.
(** Binary cross entropy of probabilities does not depend on the prediction: its [clamp] is the
    constant [1 - eps] (see C25), so any two predictions have the same loss. *)
Theorem C95_bce_refuted : forall e, env_ok e -> forall eps p t dt s f g,
  is_float dt = true -> (0 < eps < 1 / 2)%R ->
  xden p dt s (fun i => Fin (f i)) -> xden t dt s (fun i => Fin (g i)) -> length s <= 16 ->
  exists l, bce_loss e (dt, Fin eps) p t = Ok l /\
    xden l dt [] (fun _ => Fin (Rmean s (fun i => cross_entropy2 (1 - eps) (g i))))%R.
Proof. exact bce_actual. Qed.
Print Assumptions C95_bce_refuted.
(** KL divergence, of positive targets and of log targets, for F32.  Missing: rounding. *)
Theorem C95_kl_partial : forall e, env_ok e -> forall x t s n f g,
  xden x F32 (n :: s) (fun i => Fin (f i)) -> xden t F32 (n :: s) (fun i => Fin (g i)) -> length s < 16 ->
  (forall i, valid (n :: s) i -> (0 < g i)%R) ->
  exists l, kl_div_loss e false x t = Ok l /\
    xden l F32 [] (fun _ => Fin (Rsum (map (fun i => g i * (ln (g i) - f i)) (all_idx (n :: s))) / INR n)%R).
Proof. exact kl_ok. Qed.
Print Assumptions C95_kl_partial.
Theorem C95_kl_log_partial : forall e, env_ok e -> forall x t s n f g,
  xden x F32 (n :: s) (fun i => Fin (f i)) -> xden t F32 (n :: s) (fun i => Fin (g i)) -> length s < 16 ->
  exists l, kl_div_loss e true x t = Ok l /\
    xden l F32 [] (fun _ => Fin (Rsum (map (fun i => exp (g i) * (g i - f i)) (all_idx (n :: s))) / INR n)%R).
Proof. exact kl_log_ok. Qed.
Print Assumptions C95_kl_log_partial.
(** A target with probability 0 anywhere makes the divergence NaN (its term is 0), *)
Theorem C95_kl_zero_refuted : forall e x t s n f g i0, env_ok e ->
  xden x F32 (n :: s) (fun i => Fin (f i)) -> xden t F32 (n :: s) (fun i => Fin (g i)) -> length s < 16 ->
  valid (n :: s) i0 -> g i0 = 0%R ->
  exists l, kl_div_loss e false x t = Ok l /\ xden l F32 [] (fun _ => Nan).
Proof. exact kl_zero. Qed.
Print Assumptions C95_kl_zero_refuted.
(** and only F32 is accepted. *)
Theorem C95_kl_dtype_refuted : forall e l x t, returns (kl_div_loss e l x t) -> xdtype t = F32.
Proof. exact kl_dtype. Qed.
Print Assumptions C95_kl_dtype_refuted.
(** one logit 0 with target 1: ln 2 *)
Example C95_example : exists y, bce_logits_loss e1 (xt [1] [0]%R) (xt [1] [1]%R) = Ok y /\
  elem (xdata y) [] = Some (Fin (ln 2)).
Proof.
  destruct (C95_logits_partial e1 e1_ok (xt [1] [0]%R) (xt [1] [1]%R) F32 [1] _ _ eq_refl
    (xt_den [1] [0]%R eq_refl ltac:(repeat constructor)) (xt_den [1] [1]%R eq_refl ltac:(repeat constructor)))
    as (y & E & D).
  - cbn; lia.
  - exists y. split; [exact E|]. destruct D as [_ (_ & _ & _ & _ & D)]. rewrite D by constructor.
    f_equal. f_equal. unfold Rmean, cross_entropy2, sigma.
    lazy -[exp ln IZR Rplus Rminus Rdiv INR Ropp Rmult Rinv]. cbn [INR].
    rewrite Ropp_0, exp_0. replace (/ (1 + 1))%R with (/ 2)%R by lra. rewrite ln_Rinv by lra. lra.
Qed.
