(** C113: the gradient rule of einsum. *)
From Coq Require Import List Arith ZArith Bool Lia Reals Lra.
From Verif Require Import Base IndexSpec LayoutModel ViewSpec LayoutProofs KernelModel TensorModel TensorSpec TensorProofs EinsumModel EinsumSpec EinsumProofs3.
From Verif Require Import ConvReal EinGradModel EinGradProofs.
Import ListNotations.
Open Scope nat_scope.

(** Operand [i], with labels [s], none twice, each in the result or in another operand; the labels of the result
    are in the operands, none twice.  The equation of the rule is accepted and names the shape of the operand, and
    the kernel, given the layouts of all operands, computes the adjoint of the contraction in operand [i].
    Missing: the call passes other layouts (refuted below), and the other equations. *)
Theorem C113_rule_partial : forall size subs out (ts : list (tensor R)) g z i s x,
  nth_error subs i = Some s -> nth_error ts i = Some x -> length subs = length ts ->
  Forall label (concat subs) -> sized subs ts size -> Forall good ts -> good g -> tshape g = map size out ->
  Forall (fun t => length (tshape t) <= 16) ts -> length out <= 16 -> length ts <= 4 ->
  length (nodup Nat.eq_dec (concat subs)) <= 16 ->
  NoDup out -> incl out (concat subs) -> NoDup s -> incl s (out ++ concat (without i subs)) ->
  nelem (map size out) <> 0 -> nelem (tshape x) <> 0 ->
  exists p p' r r', parse (text subs out) (map tshape ts) = Ok p /\ out_shape p = tshape g /\
    parse (grad_equation subs out i) (map tshape (g :: without i ts)) = Ok p' /\ out_shape p' = tshape x /\
    einsum_kernel (fun v : R => v) (fun v : R => v) 0%R 1%R Rplus Rmult (map tstore ts) (repeat z (nelem (tshape g))) (einsum_metadata p (map tlay ts)) = Some r /\
    einsum_kernel (fun v : R => v) (fun v : R => v) 0%R 1%R Rplus Rmult (map tstore (g :: without i ts)) (repeat z (nelem (tshape x)))
      (einsum_metadata p' (map tlay (g :: without i ts))) = Some r' /\
    length r = nelem (tshape g) /\ length r' = nelem (tshape x) /\
    pairing g (mkT r (from_shape (tshape g))) = pairing (mkT r' (from_shape (tshape x))) x.
Proof.
  intros size subs out ts g z i s x Hs Hx L LB S G Gg Sg RK R16 L4 H16 No I1 Ns I2 Z1 Z2.
  destruct (nth_error_split _ _ Hs) as (pre & post & E1 & L1). destruct (nth_error_split _ _ Hx) as (tpre & tpost & E2 & L2). subst subs ts.
  assert (W1 : without i (pre ++ s :: post) = pre ++ post) by (rewrite <- L1; apply without_at).
  assert (W2 : without i (tpre ++ x :: tpost) = tpre ++ tpost) by (rewrite <- L2; apply without_at).
  assert (W3 : nth i (pre ++ s :: post) [] = s) by (apply (nth_error_nth _ _ _ Hs)).
  unfold grad_equation. rewrite W1, W2, W3 in *.
  destruct (einsum_rule size pre s post out tpre x tpost g z) as (p & p' & P1 & P2 & P3 & P4 & K); auto; [congruence|].
  destruct (K H16) as (r & r' & K1 & K2 & K3 & K4 & K5). exists p, p', r, r'. repeat (split; [assumption|]). assumption.
Qed.
Print Assumptions C113_rule_partial.

(** The gradient of every operand is the einsum of the incoming gradient and the other operands, in their order, by the equation
    that takes the labels of the result and of the others to those of the operand. *)
Theorem C113_calls : forall A B up down (zero one : B) add mul (z : A) subs out ts g gs,
  vjp_einsum up down zero one add mul z subs out ts g = Ok gs ->
  length gs = length ts /\
  forall pre s post tpre x tpost, subs = pre ++ s :: post -> ts = tpre ++ x :: tpost -> length pre = length tpre ->
    exists gx, nth_error gs (length pre) = Some gx /\
      t_einsum up down zero one add mul z (text (out :: pre ++ post) s) (g :: tpre ++ tpost) = Ok gx.
Proof.
  intros A B up down zero one add mul z subs out ts g gs E. unfold vjp_einsum in E.
  assert (K : forall k i r, vjp_einsum_from up down zero one add mul z subs out ts g i k = Ok r ->
    length r = k /\ forall j, j < k -> exists gx, nth_error r j = Some gx /\ vjp_einsum_one up down zero one add mul z subs out ts g (i + j) = Ok gx).
  { induction k as [|k IH]; intros i r F; cbn [vjp_einsum_from] in F; [injection F as <-; split; [reflexivity|intros; lia]|].
    destruct (vjp_einsum_one up down zero one add mul z subs out ts g i) as [gx|e|] eqn:E1; try discriminate. cbn [bind] in F.
    destruct (vjp_einsum_from up down zero one add mul z subs out ts g (S i) k) as [r'|e|] eqn:E2; try discriminate. injection F as <-.
    destruct (IH _ _ E2) as [L H]. split; [cbn; now rewrite L|]. intros [|j] J; [exists gx; rewrite Nat.add_0_r; now split|].
    destruct (H j) as (y & Y1 & Y2); [lia|]. exists y. split; [exact Y1|]. replace (i + S j) with (S i + j) by lia. exact Y2. }
  destruct (K _ _ _ E) as [L H]. split; [exact L|]. intros pre s post tpre x tpost -> -> LP.
  destruct (H (length pre)) as (gx & G1 & G2); [rewrite LP, app_length; cbn; lia|]. exists gx. split; [exact G1|].
  unfold vjp_einsum_one, grad_equation in G2. cbn [Nat.add] in G2. rewrite without_at in G2.
  rewrite app_nth2, Nat.sub_diag in G2 by lia. cbn [nth] in G2. rewrite LP, without_at in G2. exact G2.
Qed.
Print Assumptions C113_calls.

(** A label of an operand that is neither in the result nor in another operand (the sum "ij->i"): the rule is an error,
    whatever the operands. *)
Theorem C113_summed_refuted : forall A B up down (zero one : B) add mul (z : A) subs out ts g i s c,
  nth_error subs i = Some s -> In c s -> ~ In c out -> ~ In c (concat (without i subs)) ->
  Forall label (concat subs) -> Forall label out ->
  forall gx, vjp_einsum_one up down zero one add mul z subs out ts g i <> Ok gx.
Proof.
  intros A B up down zero one add mul z subs out ts g i s c Hs Ic N1 N2 LB LO gx E. unfold vjp_einsum_one, t_einsum, grad_equation in E.
  rewrite (nth_error_nth _ _ _ Hs) in E. destruct ((length _ =? 0) || _); [discriminate|].
  destruct (parse _ _) as [p|e|] eqn:P; try discriminate.
  destruct (nth_error_split _ _ Hs) as (pre & post & E1 & L1). subst subs. rewrite <- L1, without_at in *.
  assert (LS : Forall label s /\ Forall label (concat (pre ++ post))).
  { rewrite concat_app in LB. cbn [concat] in LB. rewrite !Forall_app in LB. rewrite concat_app, Forall_app. tauto. }
  destruct LS as [LS LR]. destruct (parse_accepts _ _ _ P) as [_ I].
  apply parse_text in P; auto; [|discriminate|cbn [concat]; now apply Forall_app]. destruct P as [Q1 Q2]. rewrite Q1, Q2 in I.
  specialize (I c Ic). cbn [concat] in I. apply in_app_or in I. tauto.
Qed.
Print Assumptions C113_summed_refuted.

(** One operand (a transpose "ij->ji"): the gradient does not depend on the incoming gradient. *)
Theorem C113_blind_refuted : forall A B up down (zero one : B) add mul (z : A) s out t g g', tshape g = tshape g' ->
  vjp_einsum up down zero one add mul z [s] out [t] g = vjp_einsum up down zero one add mul z [s] out [t] g'.
Proof.
  intros. unfold vjp_einsum. cbn [length vjp_einsum_from]. unfold vjp_einsum_one, without. cbn [firstn skipn app].
  rewrite (t_einsum_blind up down zero one add mul z (grad_equation [s] out 0) g g') by auto. reflexivity.
Qed.
Print Assumptions C113_blind_refuted.

Definition zt (s : list nat) (v : list Z) : tensor Z := mkT v (from_shape s).
Notation zvjp := (vjp_einsum (fun v : Z => v) (fun v : Z => v) 0%Z 1%Z Z.add Z.mul 0%Z).
Notation zat := (einsum_at (fun v : Z => v) 0%Z 1%Z Z.add Z.mul).
Notation i_ := 105.
Notation j_ := 106.
Notation k_ := 107.
Definition two (c : nat) : nat := 2.
(** The matrix product: the rule returns wrong matrices; the equations of the rule mean the right ones. *)
Theorem C113_matmul_refuted : exists ga gb,
  zvjp [[i_; j_]; [j_; k_]] [i_; k_] [zt [2; 2] [1; 2; 3; 4]%Z; zt [2; 2] [5; 6; 7; 8]%Z] (zt [2; 2] [1; 0; 0; 1]%Z) = Ok [ga; gb] /\
  map (zat [[i_; k_]; [j_; k_]] [i_; j_] [k_] two [zt [2; 2] [1; 0; 0; 1]%Z; zt [2; 2] [5; 6; 7; 8]%Z]) (all_idx [2; 2]) = map Some [5; 7; 6; 8]%Z /\
  tstore ga = [1; 1; 1; 1]%Z /\
  map (zat [[i_; k_]; [i_; j_]] [j_; k_] [i_] two [zt [2; 2] [1; 0; 0; 1]%Z; zt [2; 2] [1; 2; 3; 4]%Z]) (all_idx [2; 2]) = map Some [1; 3; 2; 4]%Z /\
  tstore gb = [1; 1; 1; 1]%Z.
Proof.
  do 2 eexists. split; [vm_compute; reflexivity|]. split; [vm_compute; reflexivity|]. split; [reflexivity|]. split; [vm_compute; reflexivity|]. reflexivity.
Qed.
Print Assumptions C113_matmul_refuted.
(** The diagonal "ii->i": the equation "i->ii" of the rule is accepted and fills whole rows, even with the right layouts. *)
Theorem C113_repeated_refuted : exists p r, grad_equation [[i_; i_]] [i_] 0 = text [[i_]] [i_; i_] /\ parse (grad_equation [[i_; i_]] [i_] 0) [[2]] = Ok p /\
  einsum_kernel (fun v : Z => v) (fun v : Z => v) 0%Z 1%Z Z.add Z.mul [[10; 20]%Z] (repeat 0%Z 4) (einsum_metadata p [from_shape [2]]) = Some r /\
  r = [10; 10; 20; 20]%Z /\ r <> [10; 0; 0; 20]%Z.
Proof. do 2 eexists. split; [reflexivity|]. split; [vm_compute; reflexivity|]. split; [vm_compute; reflexivity|]. split; [reflexivity|discriminate]. Qed.
Print Assumptions C113_repeated_refuted.

(** the hypotheses hold of the matrix product *)
Example C113_rule_ex : exists p p' r r', let a := mkT [1; 2; 3; 4]%R (from_shape [2; 2]) in let b := mkT [5; 6; 7; 8]%R (from_shape [2; 2]) in let g := mkT [1; 0; 0; 1]%R (from_shape [2; 2]) in
  parse (text [[i_; j_]; [j_; k_]] [i_; k_]) [[2; 2]; [2; 2]] = Ok p /\ grad_equation [[i_; j_]; [j_; k_]] [i_; k_] 1 = text [[i_; k_]; [i_; j_]] [j_; k_] /\
  parse (text [[i_; k_]; [i_; j_]] [j_; k_]) [[2; 2]; [2; 2]] = Ok p' /\
  length r = 4 /\ pairing g (mkT r (from_shape [2; 2])) = pairing (mkT r' (from_shape [2; 2])) b.
Proof.
  cbv zeta. assert (G : forall l : list R, length l = 4 -> good (mkT l (from_shape [2; 2]))) by (intros l L; apply from_shape_good; rewrite L; reflexivity).
  destruct (C113_rule_partial two [[i_; j_]; [j_; k_]] [i_; k_] [mkT [1; 2; 3; 4]%R (from_shape [2; 2]); mkT [5; 6; 7; 8]%R (from_shape [2; 2])] (mkT [1; 0; 0; 1]%R (from_shape [2; 2])) 0%R 1 [j_; k_] (mkT [5; 6; 7; 8]%R (from_shape [2; 2])))
    as (p & p' & r & r' & P1 & _ & P2 & _ & _ & _ & L1 & _ & K); try reflexivity; try (repeat constructor; fail).
  - repeat constructor; discriminate.
  - constructor; [now apply G|constructor; [now apply G|constructor]].
  - now apply G.
  - repeat (constructor; [cbn; lia|]). constructor.
  - intros c [<-|[<-|[]]]; cbn; tauto.
  - repeat (constructor; [cbn; lia|]). constructor.
  - intros c [<-|[<-|[]]]; cbn; tauto.
  - cbn. discriminate.
  - cbn. discriminate.
  - exists p, p', r, r'. split; [exact P1|]. split; [reflexivity|]. split; [exact P2|]. split; [exact L1|exact K].
Qed.
