(** The recursions of [OptimSpec] over the real numbers: closed forms, and the
    comparison of Adam and of RMSprop with their documentation. *)
From Coq Require Import List Arith Bool Lia Reals Lra.
From Verif Require Import Base OptimModel OptimSpec.
Import ListNotations.
Open Scope R_scope.

Definition is0 (x : R) : bool := if Req_EM_T x 0 then true else false.
Lemma is0_true : forall x, is0 x = true <-> x = 0.
Proof. intro x. unfold is0. destruct (Req_EM_T x 0); split; congruence. Qed.

Notation rpw := (pw 1 Rmult).
Notation rmom1 := (mom1 0 1 Rplus Rminus Rmult).
Notation rmom2 := (mom2 0 1 Rplus Rminus Rmult).
Notation radam := (adam_spec 0 1 Rplus Rminus Rmult Rdiv sqrt).
Notation radam_code := (adam_code 0 1 Rplus Rminus Rmult Rdiv sqrt).
Notation rsgd := (sgd_spec Rminus Rmult).

Lemma pw_pow : forall b n, rpw b n = b ^ n.
Proof.
  intros b n. induction n as [|n IH]; [reflexivity|]. destruct n as [|n]; [cbn; lra|].
  change (rpw b (S n) * b = b ^ S (S n)). rewrite IH. cbn. lra.
Qed.

(** sums over a list *)
Fixpoint lsum (l : list R) : R := match l with [] => 0 | x :: r => x + lsum r end.
Lemma sgd_closed : forall h x, rsgd x h = x - lsum (map (fun lg => fst lg * snd lg) h).
Proof.
  unfold sgd_spec. induction h as [|[lr g] h IH]; intro x; cbn [fold_left map lsum]; [lra|]. rewrite IH. cbn. lra.
Qed.
(** sum of [b^(t-1-i) g_i] *)
Fixpoint wsum (b : R) (l : list R) : R := match l with [] => 0 | x :: r => b ^ length r * x + wsum b r end.
Lemma mom1_gen : forall b gs m, fold_left (fun m g => m * b + g * (1 - b)) gs m = b ^ length gs * m + (1 - b) * wsum b gs.
Proof.
  intros b. induction gs as [|g gs IH]; intro m; cbn [fold_left length wsum pow]; [lra|]. rewrite IH. ring.
Qed.
Lemma mom1_closed : forall b gs, rmom1 b gs = (1 - b) * wsum b gs.
Proof. intros. unfold mom1. rewrite mom1_gen. ring. Qed.
Lemma mom2_closed : forall b gs, rmom2 b gs = (1 - b) * wsum b (map (fun g => g * g) gs).
Proof.
  intros b gs. rewrite <- mom1_closed. unfold mom1, mom2. generalize 0 at 1 2. induction gs as [|g gs IH]; intro m; cbn; auto.
Qed.
Lemma wsum_const : forall b gs g, Forall (eq g) gs -> (1 - b) * wsum b gs = (1 - b ^ length gs) * g.
Proof.
  intros b gs g H. induction H as [|x gs <- H IH]; cbn [wsum length pow]; [lra|].
  rewrite Rmult_plus_distr_l, IH. ring.
Qed.

(** ** Adam *)
(** the first step, without eps *)
Lemma adam_first : forall b1 b2 lr x g, 0 <= b1 < 1 -> 0 <= b2 < 1 -> 0 < g ->
  radam b1 b2 0 x [(lr, g)] = x - lr.
Proof.
  intros b1 b2 lr x g H1 H2 Hg. unfold adam_spec. cbn [rev app adam_rev map snd length pw]. unfold adam_dir.
  cbn [length pw]. unfold mom1, mom2. cbn [fold_left].
  replace ((0 * b2 + g * g * (1 - b2)) / (1 - b2)) with (g * g) by (field; lra).
  rewrite sqrt_square by lra. field. lra.
Qed.
Lemma adam_code_first : forall b1 b2 lr x g, 0 <= b1 < 1 -> 0 <= b2 < 1 -> 0 < g ->
  radam_code b1 b2 0 x [(lr, g)] = x - lr * ((1 + b2) * sqrt (1 - b2) / ((1 + b1) * (1 + b1) * (1 - b1))).
Proof.
  intros b1 b2 lr x g H1 H2 Hg. unfold adam_code. cbn [rev app adam_code_rev map snd length]. unfold adam_code_dir, adam_code_lr.
  cbn [length pw]. unfold mom1, mom2. cbn [fold_left].
  assert (P2 : 0 < 1 - b2 * b2) by nra.
  assert (P1 : 0 < 1 - b1 * b1) by nra.
  replace ((0 * b2 + g * g * (1 - b2)) / (1 - b2 * b2)) with (g * g / (1 + b2)) by (field; split; nra).
  rewrite sqrt_div_alt by lra. rewrite sqrt_square by lra.
  replace (1 - b2 * b2) with ((1 + b2) * (1 - b2)) by ring. rewrite sqrt_mult by lra.
  set (s := sqrt (1 + b2)).
  assert (S1 : 0 < s) by (apply sqrt_lt_R0; lra).
  assert (S2 : (1 + b2) = s * s) by (subst s; rewrite sqrt_sqrt; lra).
  rewrite S2. replace (1 - b1 * b1) with ((1 - b1) * (1 + b1)) in * by ring.
  field. repeat split; nra.
Qed.
(** with the default hyper-parameters less than a fifth of the published step *)
Lemma adam_default_first : (1 + 999/1000) * sqrt (1 - 999/1000) / ((1 + 9/10) * (1 + 9/10) * (1 - 9/10)) < 1 / 5.
Proof.
  assert (S : sqrt (1 - 999/1000) < 36 / 1000).
  { replace (36/1000) with (sqrt (36/1000 * (36/1000))) by (apply sqrt_square; lra). apply sqrt_lt_1; lra. }
  replace ((1 + 9/10) * (1 + 9/10) * (1 - 9/10)) with (361/1000) by field.
  apply (Rmult_lt_reg_r (361/1000)); [lra|]. unfold Rdiv at 1. rewrite Rmult_assoc, Rinv_l by lra. lra.
Qed.
(** without averaging, Adam is right *)
Lemma pw0 : forall n, rpw 0 (S n) = 0.
Proof. intro n. rewrite pw_pow. apply pow_i. lia. Qed.
Lemma adam_no_betas : forall eps x h, radam_code 0 0 eps x h = radam 0 0 eps x h.
Proof.
  intros eps x h. unfold adam_code, adam_spec. generalize (rev h) as r. induction r as [|[lr g] r IH]; [reflexivity|].
  cbn [adam_code_rev adam_rev]. rewrite IH. f_equal. unfold adam_code_dir, adam_code_lr, adam_dir.
  set (gs := rev (map snd ((lr, g) :: r))).
  assert (L : length gs = S (length r)) by (subst gs; now rewrite rev_length, map_length).
  rewrite L. cbn [length]. rewrite !pw0. rewrite !Rminus_0_r, sqrt_1. replace (lr * 1 / 1) with lr by field. reflexivity.
Qed.

(** ** RMSprop with momentum, as documented (rmsprop.rs:11-14, with the weight
    decay and centering of the options): parameter, v, momentum buffer, average *)
Definition rms_doc_next (a eps wd mu : R) (centered : bool) (s : R * R * R * R) (lg : R * R) : R * R * R * R :=
  let '(x, v, m, ga) := s in
  let g := snd lg + x * wd in
  let v' := v * a + g * g * (1 - a) in
  let ga' := if centered then ga * a + g * (1 - a) else ga in
  let avg := if centered then v' - ga' * ga' else v' in
  let m' := mu * m + fst lg * g / (sqrt avg + eps) in
  (x - m', v', m', ga').
Definition rms_doc (a eps wd mu : R) (centered : bool) (x : R) (h : list (R * R)) : R * R * R * R :=
  fold_left (rms_doc_next a eps wd mu centered) h (x, 0, 0, 0).
Notation rrms := (rms_spec 0 1 Rplus Rminus Rmult Rdiv sqrt).
Notation rrms_next := (rms_next 1 Rplus Rminus Rmult Rdiv sqrt).
Lemma rms_doc_const : forall a eps wd mu centered lr x gs,
  fst (fst (fst (rrms a eps wd (Some mu) centered x (map (fun g => (lr, g)) gs))))
  = fst (fst (fst (rms_doc a eps wd mu centered x (map (fun g => (lr, g)) gs)))).
Proof.
  intros a eps wd mu centered lr x gs. unfold rms_spec, rms_doc.
  assert (K : forall gs x v m ga,
    let c := fold_left (rrms_next a eps wd (Some mu) centered) (map (fun g => (lr, g)) gs) (x, v, m, ga) in
    let d := fold_left (rms_doc_next a eps wd mu centered) (map (fun g => (lr, g)) gs) (x, v, m * lr, ga) in
    fst (fst (fst c)) = fst (fst (fst d))).
  { clear. induction gs as [|g gs IH]; intros x v m ga; [reflexivity|]. cbn [map fold_left].
    unfold rms_next at 2, rms_doc_next at 2. cbn [fst snd].
    set (ga' := if centered then ga * a + (g + x * wd) * (1 - a) else ga).
    set (avg := if centered then v * a + (g + x * wd) * (g + x * wd) * (1 - a) - ga' * ga' else v * a + (g + x * wd) * (g + x * wd) * (1 - a)).
    replace (mu * (m * lr) + lr * (g + x * wd) / (sqrt avg + eps)) with ((m * mu + (g + x * wd) / (sqrt avg + eps)) * lr)
      by (unfold Rdiv; ring).
    apply IH. }
  specialize (K gs x 0 0 0). cbn zeta in K. rewrite Rmult_0_l in K. exact K.
Qed.
(** the learning rate is changed after the first step; alpha = 0, eps = 0 *)
Lemma rms_doc_change : forall mu lr1 lr2 x,
  fst (fst (fst (rrms 0 0 0 (Some mu) false x [(lr1, 1); (lr2, 1)]))) = x - lr1 - lr2 * (mu + 1)
  /\ fst (fst (fst (rms_doc 0 0 0 mu false x [(lr1, 1); (lr2, 1)]))) = x - lr1 - (mu * lr1 + lr2).
Proof.
  intros mu lr1 lr2 x. unfold rms_spec, rms_doc, rms_doc_next, rms_next. cbn [fold_left fst snd].
  replace (0 * 0 + (1 + x * 0) * (1 + x * 0) * (1 - 0)) with 1 by ring.
  replace (1 * 0 + (1 + (x - (0 * mu + (1 + x * 0) / (sqrt 1 + 0)) * lr1) * 0) * (1 + (x - (0 * mu + (1 + x * 0) / (sqrt 1 + 0)) * lr1) * 0) * (1 - 0)) with 1 by ring.
  replace (1 * 0 + (1 + (x - (mu * 0 + lr1 * (1 + x * 0) / (sqrt 1 + 0))) * 0) * (1 + (x - (mu * 0 + lr1 * (1 + x * 0) / (sqrt 1 + 0))) * 0) * (1 - 0)) with 1 by ring.
  rewrite sqrt_1. split; field.
Qed.

(** ** Adagrad: the accumulator is the sum of the squared gradients *)
Notation radagrad := (adagrad_spec 1 Rplus Rminus Rmult Rdiv sqrt INR).
Lemma adagrad_acc : forall decay eps init x h,
  snd (radagrad decay eps 0 init x h) = init + lsum (map (fun lg => snd lg * snd lg) h).
Proof.
  intros decay eps init x h. unfold adagrad_spec. generalize 0%nat as t. revert x init.
  induction h as [|[lr g] h IH]; intros x init t; cbn [fold_left map lsum]; [cbn; lra|].
  unfold adagrad_next at 2. cbn [fst snd]. rewrite IH. rewrite Rmult_0_r, Rplus_0_r. lra.
Qed.
