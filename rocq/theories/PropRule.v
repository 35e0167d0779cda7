(** C38, C82: the element-wise gradient rules; scalar operations on the CPU. *)
From Coq Require Import Reals Lra Lia ZArith Bool List.
From Verif Require Import Base RuleModel RuleSpec RuleProofs RuleProofs2 RuleProofs3 RuleProofs4
  RuleProofs5 RuleProofs6.
Import ListNotations.
Open Scope R_scope.

(* ================ C38 ================ *)

(** Unary operations, but for four. *)
Theorem C38_unary_partial : forall erf o, is_erf erf ->
  o <> HardSigmoid -> o <> HardSilu -> o <> Gelu -> o <> Tan ->
  forall x g d, has_derivative (kernel erf o) x d ->
  u_vjp o (Fl x) (kernel erf o x) (Fl g) = Ok (Fl (g * d)).
Proof.
  intros erf o He H1 H2 H3 H4 x g d H. apply (u_rules erf He o); auto. destruct o; auto; contradiction.
Qed.
Print Assumptions C38_unary_partial.

(** The hypothesis is met on these sets. *)
Theorem C38_domains : forall erf o x, is_erf erf -> smooth_on o x ->
  exists d, has_derivative (kernel erf o) x d.
Proof. intros erf o x He H. exact (domain_D erf He o x H). Qed.
Print Assumptions C38_domains.

(** hardsigmoid and hardsilu: the rule always fails (it multiplies two BOOL masks). *)
Theorem C38_hard_refuted : forall erf,
  has_derivative (kernel erf HardSigmoid) 0 (1 / 6) /\ has_derivative (kernel erf HardSilu) 0 (1 / 2)
  /\ forall x g, u_vjp HardSigmoid (Fl x) (kernel erf HardSigmoid x) (Fl g) = Err EDType
              /\ u_vjp HardSilu (Fl x) (kernel erf HardSilu x) (Fl g) = Err EDType.
Proof.
  intro erf. destruct (hard_derivatives erf) as [H1 H2]. split; [exact H1|]. split; [exact H2|].
  intros x g. split; apply hard_err; exact 0.
Qed.
Print Assumptions C38_hard_refuted.

(** tan: right away from the band around the poles in which the forward value is cut off. *)
Theorem C38_tan_partial : forall erf x g d delta, 0 < delta ->
  (forall y, Rabs (y - x) < delta -> tan_eps <= Rabs (Rabs (tan_reduce y) - PI / 2)) ->
  has_derivative (kernel erf Tan) x d ->
  u_vjp Tan (Fl x) (kernel erf Tan x) (Fl g) = Ok (Fl (g * d)).
Proof. exact r_tan. Qed.
Print Assumptions C38_tan_partial.

Theorem C38_tan_refuted : forall erf g, g <> 0 -> has_derivative (kernel erf Tan) (PI / 2) 0 /\
  u_vjp Tan (Fl (PI / 2)) (kernel erf Tan (PI / 2)) (Fl g) = Ok (Fl (g * 1000000000001)).
Proof. exact tan_wrong. Qed.
Print Assumptions C38_tan_refuted.

(** gelu: the rule is the derivative of the same formula with another constant ... *)
Theorem C38_gelu_partial : forall x out g d, derivable_pt_lim (gelu_c 0.797885) x d ->
  u_vjp Gelu (Fl x) out (Fl g) = Ok (Fl (g * d)).
Proof.
  intros x out g d H. rewrite gelu_vjp. fin. f_equal. symmetry.
  exact (uniqueness_limite _ _ _ _ H (gelu_D 0.797885 x)).
Qed.
Print Assumptions C38_gelu_partial.

(** ... which is not the derivative of the function computed. *)
Theorem C38_gelu_refuted : forall erf, ~ (forall x g d, has_derivative (kernel erf Gelu) x d ->
  u_vjp Gelu (Fl x) (kernel erf Gelu x) (Fl g) = Ok (Fl (g * d))).
Proof. exact gelu_wrong. Qed.
Print Assumptions C38_gelu_refuted.

(** A chain of unary operations: going back through it gives the derivative of the
    composed function. *)
Theorem C38_chain : forall erf os x y g, is_erf erf ->
  (forall o, In o os -> o <> HardSigmoid /\ o <> HardSilu /\ o <> Gelu /\ o <> Tan) ->
  run_chain erf os x y -> differentiable_along erf os x ->
  exists d, has_derivative (chain_fun erf os) x d /\ back_chain erf os x g = Ok (Fl (g * d)).
Proof.
  intros erf os x y g He Hs Hr Hd. apply (chain erf He os x y g); auto. intros o Ho.
  destruct (Hs o Ho) as (A & B & C & E). destruct o; auto; contradiction.
Qed.
Print Assumptions C38_chain.

(** Operations with a scalar that have a kernel. *)
Theorem C38_scalar_partial : forall o c x g d F,
  (o = DivScalar -> c = 0 \/ epsilon <= Rabs c) ->
  (o = PowScalar -> ~ (x = 0 /\ c = 0) /\ ~ (x < 0 /\ c = -31)) ->
  (forall y, s_kernel o c y = Ok (F y)) -> has_derivative F x d ->
  s_vjp o c (Fl x) (F x) (Fl g) = Ok (Fl (g * d)).
Proof. intros o c x g d F H1 H2 H3 H4. exact (s_rules o c x H1 H2 g d F H3 H4). Qed.
Print Assumptions C38_scalar_partial.

(** Division by a small scalar has no gradient at all. *)
Theorem C38_div_scalar_refuted : forall c x g, 0 < Rabs c < epsilon ->
  s_kernel DivScalar c x = Ok (Fl (x / c)) /\
  has_derivative (s_total DivScalar c) x (1 / c) /\
  s_vjp DivScalar c (Fl x) (s_total DivScalar c x) (Fl g) = Err EInternal.
Proof. exact div_wrong. Qed.
Print Assumptions C38_div_scalar_refuted.

Theorem C38_pow_scalar_refuted :
  (forall g, has_derivative (s_total PowScalar 0) 0 0 /\
     s_vjp PowScalar 0 (Fl 0) (s_total PowScalar 0 0) (Fl g) = Ok NaN) /\
  (forall x g, x < 0 -> has_derivative (s_total PowScalar (-31)) x (-31 * powerRZ x (-32)) /\
     s_vjp PowScalar (-31) (Fl x) (s_total PowScalar (-31) x) (Fl g) = Ok NaN).
Proof. split; [exact pow_wrong0|exact pow_wrong31]. Qed.
Print Assumptions C38_pow_scalar_refuted.

(** The rules of the four operations without a kernel are right for the functions
    they are named after. *)
Theorem C38_unserved : forall c x g d F, has_derivative (fun y => Fl (F y)) x d ->
  (c <> 0 -> (forall y, F y = Rfmod y c) -> s_vjp RemScalar c (Fl x) (Fl (F x)) (Fl g) = Ok (Fl (g * d))) /\
  ((forall y, F y = if Rgtb y 0 then y else c * y) ->
     s_vjp LeakyRelu c (Fl x) (Fl (F x)) (Fl g) = Ok (Fl (g * d)) /\
     s_vjp Prelu c (Fl x) (Fl (F x)) (Fl g) = Ok (Fl (g * d))) /\
  ((forall y, F y = if Rgtb y 0 then y else c * (exp y - 1)) ->
     s_vjp Elu c (Fl x) (Fl (F x)) (Fl g) = Ok (Fl (g * d))).
Proof. exact unserved_rules. Qed.
Print Assumptions C38_unserved.

(** Binary operations, derivative in the first operand. *)
Theorem C38_binary_first_partial : forall o a b g d,
  (o = Pow -> ~ (a = 0 /\ b = 0) /\ ~ (a < 0 /\ b = -31)) ->
  has_derivative (fun x => b_kernel o x b) a d ->
  exists gb, b_vjp o (Fl a) (Fl b) (b_kernel o a b) (Fl g) = Ok (Fl (g * d), gb).
Proof. intros o a b g d Hp H. exact (b_rules1 o a b Hp g d H). Qed.
Print Assumptions C38_binary_first_partial.

(** ... and in the second. *)
Theorem C38_binary_second_partial : forall o a b g d,
  (o = Rem -> 0 <= a / b) -> (o = Pow -> a <> 0) ->
  has_derivative (fun y => b_kernel o a y) b d ->
  exists ga, b_vjp o (Fl a) (Fl b) (b_kernel o a b) (Fl g) = Ok (ga, Fl (g * d)).
Proof. intros o a b g d H1 H2 H. exact (b_rules2 o a b H1 H2 g d H). Qed.
Print Assumptions C38_binary_second_partial.

(** Remainder of a negative quotient: forward truncates, the rule rounds down. *)
Theorem C38_rem_refuted : forall g, g <> 0 -> has_derivative (fun y => b_kernel Rem (-7) y) 4 1 /\
  b_vjp Rem (Fl (-7)) (Fl 4) (b_kernel Rem (-7) 4) (Fl g) = Ok (Fl g, Fl (g * 2)).
Proof. exact rem_wrong. Qed.
Print Assumptions C38_rem_refuted.

(** Power with base 0. *)
Theorem C38_pow_refuted :
  (forall g, has_derivative (fun x => b_kernel Pow x 0) 0 0 /\
     exists gb, b_vjp Pow (Fl 0) (Fl 0) (b_kernel Pow 0 0) (Fl g) = Ok (NaN, gb)) /\
  (forall b g, 0 < b -> has_derivative (fun y => b_kernel Pow 0 y) b 0 /\
     exists ga, b_vjp Pow (Fl 0) (Fl b) (b_kernel Pow 0 b) (Fl g) = Ok (ga, NaN)).
Proof. split; [exact pow_x_wrong|exact pow_y_wrong]. Qed.
Print Assumptions C38_pow_refuted.

(** The assumption about erf can be met. *)
Example C38_ex_erf : exists erf, is_erf erf.
Proof. eexists. exact erf_exists. Qed.
(** Concrete instances: log of a square at -2, with incoming gradient 3; a product. *)
Example C38_ex_chain : forall erf, is_erf erf ->
  run_chain erf [Square; Ln] (-2) (ln 4) /\ differentiable_along erf [Square; Ln] (-2)
  /\ back_chain erf [Square; Ln] (-2) 3 = Ok (Fl (-3)).
Proof.
  intros erf He. simpl. unfold k_square, k_ln. replace (-2 * -2) with 4 by ring. split; [|split; [|]].
  - exists 4. split; [reflexivity|]. exists (ln 4). rewrite Rgtb_t by lra. auto.
  - split; [apply (domain_D erf He Square); exact I|]. intros z Ez. injection Ez as <-.
    split; [|intros; exact I]. apply (domain_D erf He Ln). simpl. lra.
  - rewrite Rgtb_t by lra. ev. rewrite recip_nz by lra. fin. field.
Qed.
Example C38_ex_binary : has_derivative (fun x => b_kernel Mul x 5) 2 5 /\
  b_vjp Mul (Fl 2) (Fl 5) (b_kernel Mul 2 5) (Fl 3) = Ok (Fl (3 * 5), Fl (3 * 2)).
Proof. split; [apply (hd_all _ (fun y => y * 5)); [reflexivity|apply lin_D]|reflexivity]. Qed.
Example C38_ex_pow : has_derivative (s_total PowScalar 3) (-2) (IZR 3 * powerRZ (-2) 2) /\
  s_vjp PowScalar 3 (Fl (-2)) (s_total PowScalar 3 (-2)) (Fl 1) = Ok (Fl (1 * (IZR 3 * powerRZ (-2) 2))).
Proof.
  assert (H : has_derivative (s_total PowScalar 3) (-2) (IZR 3 * powerRZ (-2) 2)).
  { apply (hd_intro _ (fun y => powerRZ y 3) (-2) _ 2); [lra| |apply (powerRZ_D 3); lra].
    intros y Hy. apply Rabs_def2 in Hy. apply (pow_nz y 3); [lra|lia]. }
  split; [exact H|]. apply (C38_scalar_partial PowScalar 3 (-2) 1 _ (s_total PowScalar 3)); auto.
  - discriminate.
  - intros _. split; intros [A B]; lra.
Qed.

(* ================ C82 ================ *)

(** The CPU serves these operations with a scalar ... *)
Theorem C82_partial : forall o c x, ~ In o [RemScalar; LeakyRelu; Elu; Prelu] ->
  exists e, s_kernel o c x = Ok e.
Proof. intros o c x H. apply s_served. destruct o; auto; elim H; simpl; auto. Qed.
Print Assumptions C82_partial.

(** ... and panics on the other four, whatever the operands. *)
Theorem C82_refuted : forall c x,
  s_kernel RemScalar c x = Panic /\ s_kernel LeakyRelu c x = Panic /\
  s_kernel Elu c x = Panic /\ s_kernel Prelu c x = Panic.
Proof. intros c x. repeat split; apply s_unserved; reflexivity. Qed.
Print Assumptions C82_refuted.
