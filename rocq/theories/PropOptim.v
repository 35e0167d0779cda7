(** C51, C52, C74, C75: the optimizers. *)
From Coq Require Import List Arith Bool Lia ZArith Reals Lra.
From Verif Require Import Base OptimModel OptimSpec OptimProofs OptimProofs2 OptimReal.
Import ListNotations.

(* ================ C51 ================ *)

(** [k] parameters, the [i]-th with [n i] elements [X i 0], [X i 1], …; [h] lists
    the learning rate and all gradients of each step.  In every arithmetic, every
    element follows the recursion of the method. *)
Theorem C51_sgd : forall T (sub mul : T -> T -> T) k n X G h, exists s G',
  train (sgd_step' sub mul) tt (params k n X G) (grads k n h)
  = (s, params k n (fun i j => sgd_spec sub mul (X i j) (elem_hist h i j)) G', Ok tt).
Proof. exact @sgd_train. Qed.
Print Assumptions C51_sgd.

Theorem C51_adamw : forall T (zero one : T) (add sub mul div : T -> T -> T) (sqrt : T -> T) k n c X G h, exists s G',
  train (adamw_step zero one add sub mul div sqrt c) adam_new (params k n X G) (grads k n h)
  = (s, params k n (fun i j => adamw_spec zero one add sub mul div sqrt (beta1 c) (beta2 c) (eps c) (wdecay c)
                                          (X i j) (elem_hist h i j)) G', Ok tt).
Proof. intros. apply adamw_train. Qed.
Print Assumptions C51_adamw.

(** [Hw]: adding a multiple of a zero weight decay changes nothing (floats: away
    from -0, infinity and NaN; a weight decay that f32 rounds to zero is ignored) *)
Theorem C51_adagrad : forall T (zero one : T) (add sub mul div : T -> T -> T) (sqrt : T -> T) of_nat (is_zero : T -> bool) k n c X G h,
  (is_zero (g_wdecay c) = true -> forall a x, add a (mul x (g_wdecay c)) = a) ->
  (is_zero (g_init c) = true -> g_init c = zero) ->
  exists s G',
  train (adagrad_step zero one add sub mul div sqrt of_nat is_zero c) adagrad_new (params k n X G) (grads k n h)
  = (s, params k n (fun i j => snd (fst (adagrad_spec one add sub mul div sqrt of_nat (g_decay c) (g_eps c) (g_wdecay c)
                                          (g_init c) (X i j) (elem_hist h i j)))) G', Ok tt).
Proof. intros T zero one add sub mul div sqrt of_nat is_zero k n c X G h Hw Hi. exact (adagrad_train zero one add sub mul div sqrt of_nat is_zero k n c Hw Hi X G h). Qed.
Print Assumptions C51_adagrad.

Theorem C51_rmsprop : forall T (zero one : T) (add sub mul div : T -> T -> T) (sqrt : T -> T) (is_zero : T -> bool) k n c X G h,
  (is_zero (r_wdecay c) = true -> forall a x, add a (mul x (r_wdecay c)) = a) ->
  exists s G',
  train (rms_step zero one add sub mul div sqrt is_zero c) [] (params k n X G) (grads k n h)
  = (s, params k n (fun i j => fst (fst (fst (rms_spec zero one add sub mul div sqrt (r_alpha c) (r_eps c) (r_wdecay c)
                                          (if is_zero (r_momentum c) then None else Some (r_momentum c)) (r_centered c)
                                          (X i j) (elem_hist h i j))))) G', Ok tt).
Proof. intros T zero one add sub mul div sqrt is_zero k n c X G h Hw. exact (rms_train zero one add sub mul div sqrt is_zero k n c Hw X G h). Qed.
Print Assumptions C51_rmsprop.

Open Scope R_scope.
(** Over the reals: the closed forms behind the recursions. *)
Theorem C51_sgd_closed : forall x h, sgd_spec Rminus Rmult x h = x - lsum (map (fun lg => fst lg * snd lg) h).
Proof. intros. apply sgd_closed. Qed.
Print Assumptions C51_sgd_closed.
Theorem C51_moments_closed : forall b gs,
  mom1 0 1 Rplus Rminus Rmult b gs = (1 - b) * wsum b gs
  /\ mom2 0 1 Rplus Rminus Rmult b gs = (1 - b) * wsum b (map (fun g => g * g) gs)
  /\ forall n, pw 1 Rmult b n = b ^ n.
Proof. intros. split; [apply mom1_closed|]. split; [apply mom2_closed|]. intro. apply pw_pow. Qed.
Print Assumptions C51_moments_closed.
(** the bias correction is right: a constant gradient is its own corrected average *)
Theorem C51_unbiased : forall b gs g, Forall (eq g) gs -> b ^ length gs <> 1 ->
  mom1 0 1 Rplus Rminus Rmult b gs / (1 - pw 1 Rmult b (length gs)) = g.
Proof.
  intros b gs g H Hb. rewrite mom1_closed, pw_pow, (wsum_const b gs g H). field. lra.
Qed.
Print Assumptions C51_unbiased.
Theorem C51_adagrad_sum : forall decay eps init x h,
  snd (adagrad_spec 1 Rplus Rminus Rmult Rdiv sqrt INR decay eps 0 init x h) = init + lsum (map (fun lg => snd lg * snd lg) h).
Proof. intros. apply adagrad_acc. Qed.
Print Assumptions C51_adagrad_sum.
(** RMSprop's doc comment multiplies the learning rate into the momentum buffer; for
    a fixed learning rate the parameters are the same. *)
Theorem C51_rmsprop_documented : forall a eps wd mu centered lr x gs,
  fst (fst (fst (rms_spec 0 1 Rplus Rminus Rmult Rdiv sqrt a eps wd (Some mu) centered x (map (fun g => (lr, g)) gs))))
  = fst (fst (fst (rms_doc a eps wd mu centered x (map (fun g => (lr, g)) gs)))).
Proof. intros. apply rms_doc_const. Qed.
Print Assumptions C51_rmsprop_documented.
Close Scope R_scope.

Example C51_example_sgd : exists s,
  train (sgd_step' Z.sub Z.mul) tt [mkP [10; 20]%Z None; mkP [5]%Z None]
    [(2%Z, [Some [1; 2]%Z; Some [3]%Z]); (1%Z, [Some [1; 1]%Z; Some [-4]%Z])]
  = (s, [mkP [7; 15]%Z (Some [1; 1]%Z); mkP [3]%Z (Some [-4]%Z)], Ok tt).
Proof. exists tt. reflexivity. Qed.
(** integer division and root stand in for those of floats *)
Example C51_example_adamw : exists s,
  train (adamw_step 0%Z 1%Z Z.add Z.sub Z.mul Z.div Z.sqrt (mkAC 0 0 1 0)%Z) adam_new [mkP [10; 20]%Z None]
    [(2%Z, [Some [4; -4]%Z]); (10%Z, [Some [0; 8]%Z])]
  = (s, [mkP [10; 22]%Z (Some [0; 8]%Z)], Ok tt).
Proof. eexists. reflexivity. Qed.
Example C51_example_adagrad : exists s,
  train (adagrad_step 0%Z 1%Z Z.add Z.sub Z.mul Z.div Z.sqrt Z.of_nat (Z.eqb 0) (mkGC 1 0 0 0)%Z) adagrad_new [mkP [10; 20]%Z None]
    [(6%Z, [Some [3; -5]%Z]); (6%Z, [Some [4; 12]%Z])]
  = (s, [mkP [4; 26]%Z (Some [4; 12]%Z)], Ok tt).
Proof. eexists. reflexivity. Qed.
Example C51_example_rmsprop : exists s,
  train (rms_step 0%Z 1%Z Z.add Z.sub Z.mul Z.div Z.sqrt (Z.eqb 0) (mkRC 0 0 2 0 false)%Z) [] [mkP [10]%Z None]
    [(1%Z, [Some [3]%Z]); (2%Z, [Some [-4]%Z])]
  = (s, [mkP [7]%Z (Some [-4]%Z)], Ok tt).
Proof. eexists. reflexivity. Qed.

(* ================ C52 ================ *)

(** What Adam computes: [adam_code] of OptimSpec, in every arithmetic. *)
Theorem C52_code_partial : forall T (zero one : T) (add sub mul div : T -> T -> T) (sqrt : T -> T) k n c X G h, exists s G',
  train (adam_step zero one add sub mul div sqrt c) adam_new (params k n X G) (grads k n h)
  = (s, params k n (fun i j => adam_code zero one add sub mul div sqrt (beta1 c) (beta2 c) (eps c) (X i j) (elem_hist h i j)) G', Ok tt).
Proof. intros. apply adam_train. Qed.
Print Assumptions C52_code_partial.

Open Scope R_scope.
(** The published recursion moves the first parameter by [lr]; Adam by another
    amount, less than a fifth of it with the default hyper-parameters. *)
Theorem C52_first_step_refuted : forall b1 b2 lr x g, 0 <= b1 < 1 -> 0 <= b2 < 1 -> 0 < g ->
  adam_spec 0 1 Rplus Rminus Rmult Rdiv sqrt b1 b2 0 x [(lr, g)] = x - lr
  /\ adam_code 0 1 Rplus Rminus Rmult Rdiv sqrt b1 b2 0 x [(lr, g)]
     = x - lr * ((1 + b2) * sqrt (1 - b2) / ((1 + b1) * (1 + b1) * (1 - b1))).
Proof. intros. split; [now apply adam_first|now apply adam_code_first]. Qed.
Print Assumptions C52_first_step_refuted.
Theorem C52_default_refuted : forall lr x g, 0 < lr -> 0 < g ->
  x - adam_code 0 1 Rplus Rminus Rmult Rdiv sqrt (9/10) (999/1000) 0 x [(lr, g)]
  < (x - adam_spec 0 1 Rplus Rminus Rmult Rdiv sqrt (9/10) (999/1000) 0 x [(lr, g)]) / 5.
Proof.
  intros lr x g Hl Hg. rewrite adam_first, adam_code_first by lra. pose proof adam_default_first as K.
  apply (Rmult_lt_compat_l lr) in K; [|exact Hl]. lra.
Qed.
Print Assumptions C52_default_refuted.
(** Adam is right only where both averages are switched off. *)
Theorem C52_no_averaging_partial : forall eps x h,
  adam_code 0 1 Rplus Rminus Rmult Rdiv sqrt 0 0 eps x h = adam_spec 0 1 Rplus Rminus Rmult Rdiv sqrt 0 0 eps x h.
Proof. intros. apply adam_no_betas. Qed.
Print Assumptions C52_no_averaging_partial.
Close Scope R_scope.
Example C52_example : exists s,
  train (adam_step 0%Z 1%Z Z.add Z.sub Z.mul Z.div Z.sqrt (mkAC 0 0 1 0)%Z) adam_new [mkP [10; 20]%Z None]
    [(2%Z, [Some [4; -4]%Z]); (10%Z, [Some [0; 8]%Z])]
  = (s, [mkP [10; 22]%Z (Some [0; 8]%Z)], Ok tt).
Proof. eexists. reflexivity. Qed.

(* ================ C74 ================ *)

(** SGD: the parameters before the first failure are updated, the others are not. *)
Theorem C74_sgd_partial : forall T (sub mul : T -> T -> T) lr ps ps' o, sgd_step sub mul lr ps = (ps', o) ->
  exists k, k <= length ps /\ Forall2 (fun p p' => sgd_one sub mul lr p = Ok p') (firstn k ps) (firstn k ps')
    /\ skipn k ps' = skipn k ps /\ length ps' = length ps
    /\ match o with
       | Ok _ => k = length ps
       | Err e => exists p, nth_error ps k = Some p /\ sgd_one sub mul lr p = Err e
       | Panic => exists p, nth_error ps k = Some p /\ sgd_one sub mul lr p = Panic
       end.
Proof. intros T sub mul. exact (sgd_prefix sub mul). Qed.
Print Assumptions C74_sgd_partial.
(** so a failing step is not without effect *)
Theorem C74_atomic_refuted : forall T (sub mul : T -> T -> T) lr x g y,
  sgd_step sub mul lr [mkP [x] (Some [g]); mkP [y] None]
  = ([mkP [sub x (mul g lr)] (Some [g]); mkP [y] None], Err EInternal).
Proof. reflexivity. Qed.
Print Assumptions C74_atomic_refuted.
(** Adam and AdamW: parameters beyond those of the first step are left as they are,
    and the step can succeed. *)
Theorem C74_late_parameters_refuted : forall T (zero one : T) add sub mul upd c (s : @adam T) ps s' ps' o,
  a_m s <> [] -> a_v s <> [] ->
  adam_step_with zero one add sub mul upd c s ps = (s', ps', o) ->
  skipn (length (a_m s)) ps' = skipn (length (a_m s)) ps.
Proof.
  intros T zero one add sub mul upd c s ps s' ps' o Hm Hv. unfold adam_step_with.
  destruct (a_m s) as [|m ms] eqn:Em; [congruence|]. destruct (a_v s) as [|v vs] eqn:Ev; [congruence|]. cbn [is_nil orb].
  destruct (adam_loop one add sub mul (upd (S (a_t s))) c ps (m :: ms) (v :: vs)) as [[[a b] d] o'] eqn:E.
  intro H. injection H as <- <- <-. exact (proj1 (adam_loop_skip _ _ _ _ _ _ _ _ _ _ _ _ _ E)).
Qed.
Print Assumptions C74_late_parameters_refuted.
Example C74_late_example : exists s,
  adamw_step 0%Z 1%Z Z.add Z.sub Z.mul Z.div Z.sqrt (mkAC 0 0 1 0)%Z 20%Z (mkA 1 [[0%Z]] [[0%Z]])
    [mkP [10]%Z (Some [-4]%Z); mkP [10]%Z (Some [-4]%Z)]
  = (s, [mkP [30]%Z (Some [-4]%Z); mkP [10]%Z (Some [-4]%Z)], Ok tt).
Proof. eexists. reflexivity. Qed.
(** Adagrad and RMSprop then fail (by panic, unless an earlier error comes first). *)
Theorem C74_late_fails_partial : forall T (zero one : T) (add sub mul div : T -> T -> T) (sqrt : T -> T) of_nat is_zero,
  (forall c lr (s : @adagrad T) ps s' ps' o, g_v s <> [] -> length (g_v s) < length ps ->
     adagrad_step zero one add sub mul div sqrt of_nat is_zero c lr s ps = (s', ps', o) -> o <> Ok tt)
  /\ (forall c lr (s : list (@rms1 T)) ps s' ps' o, s <> [] -> length s < length ps ->
     rms_step zero one add sub mul div sqrt is_zero c lr s ps = (s', ps', o) -> o <> Ok tt).
Proof.
  intros. split.
  - intros c lr s ps s' ps' o Hn L. unfold adagrad_step. destruct (g_v s) as [|v vs] eqn:Ev; [congruence|]. cbn [is_nil].
    destruct (adagrad_loop one add sub mul div sqrt of_nat is_zero c lr (S (g_t s)) ps (v :: vs)) as [[a b] o'] eqn:E.
    intro H. injection H as <- <- <-. eapply adagrad_loop_short; [|exact E]. exact L.
  - intros c lr s ps s' ps' o Hn L. unfold rms_step. destruct s as [|v vs]; [congruence|]. cbn [is_nil].
    destruct (rms_loop one add sub mul div sqrt is_zero c lr ps (v :: vs)) as [[a b] o'] eqn:E.
    intro H. injection H as <- <- <-. eapply rms_loop_short; [|exact E]. exact L.
Qed.
Print Assumptions C74_late_fails_partial.
(** With the parameters of the first step, success means that each was updated from
    its own moments. *)
Theorem C74_adam_partial : forall T (zero one : T) add sub mul upd c (s : @adam T) ps s' ps',
  length (a_m s) = length ps -> length (a_v s) = length ps ->
  adam_step_with zero one add sub mul upd c s ps = (s', ps', Ok tt) ->
  length ps' = length ps /\ length (a_m s') = length ps /\ length (a_v s') = length ps /\ a_t s' = S (a_t s) /\
  forall i p m v, nth_error ps i = Some p -> nth_error (a_m s) i = Some m -> nth_error (a_v s) i = Some v ->
    exists g m' v' p', p_grad p = Some g /\ moment1 one add sub mul c m g = Ok m' /\ moment2 one add sub mul c v g = Ok v'
      /\ upd (a_t s') p m' v' = Ok p'
      /\ nth_error ps' i = Some p' /\ nth_error (a_m s') i = Some m' /\ nth_error (a_v s') i = Some v'.
Proof.
  intros T zero one add sub mul upd c s ps s' ps' Lm Lv. unfold adam_step_with.
  assert (E0 : (if is_nil (a_m s) || is_nil (a_v s) then map (zeros_like zero) ps else a_m s) = a_m s
               /\ (if is_nil (a_m s) || is_nil (a_v s) then map (zeros_like zero) ps else a_v s) = a_v s).
  { destruct (a_m s), (a_v s), ps; cbn in *; try discriminate; auto. }
  destruct E0 as [-> ->].
  destruct (adam_loop one add sub mul (upd (S (a_t s))) c ps (a_m s) (a_v s)) as [[[a b] d] o'] eqn:E.
  intro H. injection H as <- <- ->. cbn [a_m a_v a_t].
  destruct (adam_loop_all _ _ _ _ _ _ _ _ _ _ _ _ Lm Lv E) as (H1 & H2 & H3 & H4). repeat split; auto.
Qed.
Print Assumptions C74_adam_partial.

(* ================ C75 ================ *)

(** Changing the learning rate between steps departs from RMSprop's documented
    recursion; C51 above holds for any learning rates for the other methods. *)
Theorem C75_rmsprop_refuted : forall mu lr1 lr2 x : R,
  (mu * (lr1 - lr2) <> 0)%R ->
  fst (fst (fst (rms_spec 0%R 1%R Rplus Rminus Rmult Rdiv R_sqrt.sqrt 0%R 0%R 0%R (Some mu) false x [(lr1, 1%R); (lr2, 1%R)])))
  <> fst (fst (fst (rms_doc 0%R 0%R 0%R mu false x [(lr1, 1%R); (lr2, 1%R)]))).
Proof. intros mu lr1 lr2 x H. destruct (rms_doc_change mu lr1 lr2 x) as [-> ->]. intro K. apply H. lra. Qed.
Print Assumptions C75_rmsprop_refuted.
(** without momentum there is no difference *)
Theorem C75_no_momentum_partial : forall a eps wd centered (x : R) h,
  fst (fst (fst (rms_spec 0%R 1%R Rplus Rminus Rmult Rdiv R_sqrt.sqrt a eps wd None centered x h)))
  = fst (fst (fst (rms_doc a eps wd 0%R centered x h))).
Proof.
  intros a eps wd centered x h. unfold rms_spec, rms_doc.
  assert (K : forall h x v m m' ga,
    fst (fst (fst (fold_left (rms_next 1%R Rplus Rminus Rmult Rdiv R_sqrt.sqrt a eps wd None centered) h (x, v, m, ga))))
    = fst (fst (fst (fold_left (rms_doc_next a eps wd 0%R centered) h (x, v, m', ga))))).
  { clear. induction h as [|[lr g] h IH]; intros x v m m' ga; [reflexivity|]. cbn [fold_left].
    unfold rms_next at 2, rms_doc_next at 2. cbn [fst snd].
    match goal with |- context [Rplus (Rmult 0%R m') ?w] => replace (Rplus (Rmult 0%R m') w) with
      (Rmult (Rdiv (Rplus g (Rmult x wd)) (Rplus (R_sqrt.sqrt
         (if centered then (v * a + (g + x * wd) * (g + x * wd) * (1 - a) - (if centered then ga * a + (g + x * wd) * (1 - a) else ga) * (if centered then ga * a + (g + x * wd) * (1 - a) else ga))%R
          else (v * a + (g + x * wd) * (g + x * wd) * (1 - a))%R)) eps)) lr) by (unfold Rdiv; ring) end.
    apply IH. }
  apply K.
Qed.
Print Assumptions C75_no_momentum_partial.
Example C75_example :
  fst (fst (fst (rms_doc 0%R 0%R 0%R 1%R false 0%R [(1%R, 1%R); (2%R, 1%R)]))) = (-4)%R.
Proof. destruct (rms_doc_change 1 1 2 0) as [_ ->]. lra. Qed.
