(** C42: tensor handles. *)
From Coq Require Import List Arith ZArith Bool Lia.
From Verif Require Import Base LifeModel LifeSpec LifeProofs LifeProofs2.
Import ListNotations.

(** Histories in which no removed tensor shares its gradient: whatever is held
    exists, and so does every gradient.  Missing: other histories (refuted below). *)
Theorem C42_valid_partial : forall os, history (fun w o => legal w o /\ calm w o) start os ->
  let w := run os start in
  (forall k, 0 < handles w k -> reg w k <> None) /\
  (forall k e g, reg w k = Some e -> e_link e = Some g -> reg w g <> None).
Proof.
  intros os H w. pose proof (run_inv os start inv_start H) as Hi. fold w in Hi. split.
  - intros k Hk. now apply held_exists.
  - intros k e g E El. destruct (inv_link w k e g Hi E El) as (ge & Eg & _). congruence.
Qed.
Print Assumptions C42_valid_partial.

(** Histories that assign no gradients: no condition. *)
Lemma unlinked_remove : forall w k, (forall j e, reg w j = Some e -> e_link e = None) ->
  forall j e, reg (reg_remove w k) j = Some e -> e_link e = None.
Proof.
  intros w k H j e. unfold reg_remove. destruct (reg w k) as [ke|] eqn:E.
  - rewrite (H k ke E). simpl. unfold fset. destruct (j =? k); [discriminate|apply H].
  - simpl. unfold fset. destruct (j =? k); [discriminate|apply H].
Qed.
Lemma unlinked_put : forall w k e', (forall j e, reg w j = Some e -> e_link e = None) -> e_link e' = None ->
  forall j e, reg (put w k e') j = Some e -> e_link e = None.
Proof. intros w k e' H He j e. simpl. unfold fset. destruct (j =? k); [intros [= <-]; auto|apply H]. Qed.
Lemma unlinked_step : forall w o, (forall k g, o <> Link k g) -> (forall j e, reg w j = Some e -> e_link e = None) ->
  forall j e, reg (step w o) j = Some e -> e_link e = None.
Proof.
  intros w o Ho H. destruct o as [ow r q|k|k|k|k g|k|c k|b|k b]; simpl step.
  - intros j e. simpl. unfold fset. destruct (j =? next w); [intros [= <-]; auto|apply H].
  - unfold clone, incr, change_rc. destruct (reg w k) as [e0|] eqn:E; [|exact H]. intros j e. simpl. unfold fset.
    destruct (j =? k); [intros [= <-]; simpl; eauto|apply H].
  - unfold drop_handle. destruct (reg w k) as [e0|] eqn:E; [|exact H]. rewrite (H k e0 E).
    match goal with |- context [if ?b then _ else _] => destruct b end.
    + intros j e. cbn [reg release]. apply unlinked_remove. intros j' e'. apply unlinked_put; auto. simpl. eauto.
    + intros j e. cbn [reg release]. apply unlinked_put; auto. simpl. eauto.
  - unfold grad. destruct (reg w k) as [e0|] eqn:E; auto. rewrite (H k e0 E). exact H.
  - elim (Ho k g). reflexivity.
  - unfold zero_grad. destruct (reg w k) as [e0|] eqn:E; auto. destruct (negb (e_reqgrad e0)); auto.
    rewrite (H k e0 E). cbn [snd]. now apply unlinked_put.
  - unfold clean_one. destruct (reg w k) as [e0|] eqn:E; auto. rewrite (H k e0 E).
    match goal with |- context [if ?b then _ else _] => destruct b end; auto. now apply unlinked_remove.
  - exact H.
  - destruct (reg w k) as [e0|] eqn:E; auto. apply unlinked_put; auto. simpl. eauto.
Qed.
Theorem C42_no_gradients_partial : forall os, history legal start os -> (forall k g, ~ In (Link k g) os) ->
  let w := run os start in forall k, 0 < handles w k -> reg w k <> None.
Proof.
  intros os H Hn. apply C42_valid_partial.
  assert (G : forall os w, (forall j e, reg w j = Some e -> e_link e = None) -> history legal w os ->
    (forall k g, ~ In (Link k g) os) -> history (fun w o => legal w o /\ calm w o) w os).
  { clear. intros os. induction os as [|o os IH]; intros w Hu H Hn; simpl; auto. destruct H as [Hl H]. split.
    - split; auto. destruct o as [ow r q|k|k|k|k g|k|c k|b|k b]; simpl; auto.
      + intros e g E _ _ _ _ _ El. rewrite (Hu k e E) in El. discriminate.
      + elim (Hn k g). now left.
      + intros e g E _ _ _ El. rewrite (Hu k e E) in El. discriminate.
    - apply IH; auto.
      + apply unlinked_step; auto. intros k g ->. apply (Hn k g). now left.
      + intros k g Hi. apply (Hn k g). now right. }
  apply G; auto. discriminate.
Qed.
Print Assumptions C42_no_gradients_partial.

(** The counts are exact, so a tensor goes with its last handle, unless it is an
    operation's result, a zeroed gradient, a graph-building tensor, or backward() is
    running. *)
Theorem C42_release_partial : forall os, history (fun w o => legal w o /\ calm w o) start os ->
  let w := run os start in
  (forall k e, reg w k = Some e -> e_rc e = Z.of_nat (handles w k + links w k)) /\
  (forall k e, reg w k = Some e -> handles w k = 1 -> links w k = 0 ->
    computing w = false -> e_runtime e = true -> e_owner e = None -> e_isgrad e = false ->
    reg (step w (Drop k)) k = None).
Proof.
  intros os H w. pose proof (run_inv os start inv_start H) as Hi. fold w in Hi. split.
  - intros k e E. now apply inv_rc.
  - intros k e E. now apply last_drop.
Qed.
Print Assumptions C42_release_partial.

(** Any history: a new identifier has no entry, no handle, and is nobody's
    gradient, and it is never given out again. *)
Theorem C42_ids : forall os, history legal start os ->
  let w := run os start in
  reg w (next w) = None /\ handles w (next w) = 0 /\ (forall k, points w k (next w) = false) /\
  forall ow r q os', history legal (step w (Make ow r q)) os' ->
    next w < next (run os' (step w (Make ow r q))).
Proof.
  intros os H w.
  assert (B0 : below start) by (split; [auto|discriminate]).
  destruct (run_any os start B0 H) as [B _]. fold w in B. destruct (proj1 B (next w) (le_n _)) as [E Hh].
  split; auto. split; auto. split.
  - intro k. unfold points. destruct (reg w k) as [e|] eqn:Ek; auto. destruct (e_link e) as [g|] eqn:El; auto.
    destruct (Nat.eqb_spec g (next w)) as [->|]; auto. pose proof (proj2 B k e _ Ek El). lia.
  - intros ow r q os' H'. assert (B1 : below (step w (Make ow r q))) by (apply below_create; auto).
    destruct (run_any os' _ B1 H') as [_ N]. change (next (step w (Make ow r q))) with (S (next w)) in N. lia.
Qed.
Print Assumptions C42_ids.

Local Ltac legal_history := vm_compute; repeat split; try lia.

(** A gradient held when its tensor goes: its count drops twice, and a clone of the
    handle takes the tensor away from under the handle. *)
Definition held_gradient : list op :=
  [Make None true true; Make None true false; Link 0 1; Drop 1; Grad 0; Drop 0; Clone 1; Drop 1].
Theorem C42_held_refuted : history legal start held_gradient /\
  handles (run held_gradient start) 1 = 1 /\ reg (run held_gradient start) 1 = None.
Proof. split; [legal_history|]. split; reflexivity. Qed.
Print Assumptions C42_held_refuted.

(** loss = (x + w).sum(); backward(): x (0), w (1) and the temporary x + w (2) share a
    gradient (4).  The clean-up removes 2 and counts it off twice; zero_grad() on
    x then removes the gradient of w, and zero_grad() on w is an error. *)
Definition shared_gradient : list op :=
  [Make None true true; Make None true true; Make (Some 0) true true; Make (Some 0) true true; Drop 2;
   Computing true; Make None true false; Link 2 4; Link 0 4; Link 1 4; Drop 4; Computing false;
   Clean 0 2; ZeroGrad 0].
Theorem C42_shared_refuted : history legal start shared_gradient /\
  let w := run shared_gradient start in
  handles w 1 = 1 /\ points w 1 4 = true /\ reg w 4 = None /\ fst (zero_grad w 1) = false.
Proof. split; [legal_history|]. repeat split; reflexivity. Qed.
Print Assumptions C42_shared_refuted.

(** Entries nobody refers to any more: an operation's result stays until a clean-up ... *)
Theorem C42_result_refuted : let w := run [Make (Some 0) true false; Drop 0] start in
  handles w 0 = 0 /\ links w 0 = 0 /\ exists e, reg w 0 = Some e /\ e_rc e = 0%Z.
Proof. split; [reflexivity|]. split; [reflexivity|]. eexists. split; reflexivity. Qed.
Print Assumptions C42_result_refuted.

(** ... and a zeroed gradient stays for ever: its count wraps below zero, and no
    drop removes it. *)
Definition zeroed_gradient : list op :=
  [Make (Some 0) true true; Make None true false; Link 0 1; Drop 1; ZeroGrad 0; Drop 0; Clean 0 0].
Theorem C42_zeroed_refuted : history legal start zeroed_gradient /\
  let w := run zeroed_gradient start in
  handles w 2 = 0 /\ links w 2 = 0 /\ exists e, reg w 2 = Some e /\ e_rc e = (2 ^ 64 - 1)%Z.
Proof. split; [legal_history|]. split; [reflexivity|]. split; [reflexivity|]. eexists. split; reflexivity. Qed.
Print Assumptions C42_zeroed_refuted.

(** A concrete history of the good kind: a leaf with a gradient, replaced, zeroed,
    cloned and dropped; everything is gone at the end. *)
Definition quiet : list op :=
  [Make None true true; Make None true false; Link 0 1; Drop 1; Make None true false; Link 0 2; Drop 2;
   Clone 0; Drop 0; ZeroGrad 0; Drop 0].
Example C42_ex : history (fun w o => legal w o /\ calm w o) start quiet /\
  forall k, k < 4 -> reg (run quiet start) k = None.
Proof.
  split.
  - assert (Hd : forall w k, calm w (Drop k) <-> (forall e g, reg w k = Some e -> e_rc e = 1%Z -> e_runtime e = true ->
      e_owner e = None -> e_isgrad e = false -> computing w = false -> e_link e = Some g -> only_link w g)) by (intros; reflexivity).
    simpl history. repeat split; try (vm_compute; lia); try (vm_compute; discriminate);
      (intros e g E Hrc Hr Ho Hg Hc El; vm_compute in E; injection E as <-; simpl in *; try discriminate).
    injection El as <-. eexists. split; [vm_compute; reflexivity|]. repeat split.
  - intros k Hk. do 4 (destruct k as [|k]; [reflexivity|]). lia.
Qed.
