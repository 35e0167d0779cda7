(** Which parameters a step changes. *)
From Coq Require Import List Arith Bool Lia.
From Verif Require Import Base OptimModel.
Import ListNotations.

Section S.
Context {T : Type}.
Variables (zero one : T) (add sub mul div : T -> T -> T) (sqrt : T -> T) (of_nat : nat -> T).
Variable is_zero : T -> bool.

Lemma sgd_prefix : forall lr ps ps' o, sgd_step sub mul lr ps = (ps', o) ->
  exists k, k <= length ps /\ Forall2 (fun p p' => sgd_one sub mul lr p = Ok p') (firstn k ps) (firstn k ps')
    /\ skipn k ps' = skipn k ps /\ length ps' = length ps
    /\ match o with
       | Ok _ => k = length ps
       | Err e => exists p, nth_error ps k = Some p /\ sgd_one sub mul lr p = Err e
       | Panic => exists p, nth_error ps k = Some p /\ sgd_one sub mul lr p = Panic
       end.
Proof.
  intros lr. induction ps as [|p ps IH]; intros ps' o; cbn [sgd_step].
  - intro H. injection H as <- <-. exists 0. cbn. repeat split; auto.
  - destruct (sgd_one sub mul lr p) as [p1|e|] eqn:E.
    + destruct (sgd_step sub mul lr ps) as [r o'] eqn:Er. intro H. injection H as <- <-.
      destruct (IH r o' eq_refl) as (k & Hk & F & Hs & Hl & Ho). exists (S k). cbn.
      split; [lia|]. split; [constructor; assumption|]. split; [exact Hs|]. split; [lia|]. destruct o'; auto.
    + intro H. injection H as <- <-. exists 0. cbn. split; [lia|]. split; [constructor|]. split; [reflexivity|]. split; [reflexivity|]. exists p. auto.
    + intro H. injection H as <- <-. exists 0. cbn. split; [lia|]. split; [constructor|]. split; [reflexivity|]. split; [reflexivity|]. exists p. auto.
Qed.

(** Adam and AdamW leave the parameters beyond the stored moments as they are *)
Lemma adam_loop_skip : forall upd c ps ms vs ps' ms' vs' o,
  adam_loop one add sub mul upd c ps ms vs = (ps', ms', vs', o) ->
  skipn (length ms) ps' = skipn (length ms) ps /\ (length ps' = length ps).
Proof.
  intros upd c. induction ps as [|p ps IH]; intros [|m ms] [|v vs] ps' ms' vs' o; cbn [adam_loop];
    try (intro H; injection H as <- <- <- <-; split; reflexivity).
  destruct (do g <- grad p ; do m' <- moment1 one add sub mul c m g ; Ok (g, m')) as [[g m']|e|];
    [|intro H; injection H as <- <- <- <-; split; reflexivity|intro H; injection H as <- <- <- <-; split; reflexivity].
  destruct (moment2 one add sub mul c v g) as [v'|e|];
    [|intro H; injection H as <- <- <- <-; split; reflexivity|intro H; injection H as <- <- <- <-; split; reflexivity].
  destruct (upd p m' v') as [p'|e|];
    [|intro H; injection H as <- <- <- <-; split; reflexivity|intro H; injection H as <- <- <- <-; split; reflexivity].
  destruct (adam_loop one add sub mul upd c ps ms vs) as [[[a b] d] o'] eqn:E.
  intro H. injection H as <- <- <- <-. destruct (IH ms vs a b d o' E) as [H1 H2]. cbn. split; [exact H1|lia].
Qed.
(** with moments for every parameter, success means that all were updated *)
Lemma adam_loop_all : forall upd c ps ms vs ps' ms' vs',
  length ms = length ps -> length vs = length ps ->
  adam_loop one add sub mul upd c ps ms vs = (ps', ms', vs', Ok tt) ->
  length ps' = length ps /\ length ms' = length ps /\ length vs' = length ps /\
  forall i p m v, nth_error ps i = Some p -> nth_error ms i = Some m -> nth_error vs i = Some v ->
    exists g m' v' p', p_grad p = Some g /\ moment1 one add sub mul c m g = Ok m' /\ moment2 one add sub mul c v g = Ok v'
      /\ upd p m' v' = Ok p' /\ nth_error ps' i = Some p' /\ nth_error ms' i = Some m' /\ nth_error vs' i = Some v'.
Proof.
  intros upd c. induction ps as [|p ps IH]; intros [|m ms] [|v vs] ps' ms' vs' Lm Lv; try discriminate; cbn [adam_loop].
  - intro H. injection H as <- <- <-. repeat split; auto. intros [|i]; discriminate.
  - unfold grad. destruct (p_grad p) as [g|] eqn:Eg; cbn [ok_or bind]; [|discriminate].
    destruct (moment1 one add sub mul c m g) as [m'|e|] eqn:E1; cbn [bind fail_of]; try discriminate.
    destruct (moment2 one add sub mul c v g) as [v'|e|] eqn:E2; cbn [fail_of]; try discriminate.
    destruct (upd p m' v') as [p'|e|] eqn:E3; cbn [fail_of]; try discriminate.
    destruct (adam_loop one add sub mul upd c ps ms vs) as [[[a b] d] o'] eqn:E.
    intro H. injection H as <- <- <- ->.
    destruct (IH ms vs a b d) as (H1 & H2 & H3 & H4); [cbn in *; lia|cbn in *; lia|exact E|].
    cbn [length]. repeat split; try lia.
    intros [|i] p0 m0 v0; cbn [nth_error]; [|apply H4].
    intros K1 K2 K3. injection K1 as <-. injection K2 as <-. injection K3 as <-. exists g, m', v', p'. repeat split; auto.
Qed.

Lemma adagrad_loop_short : forall c lr t ps vs ps' vs' o,
  length vs < length ps ->
  adagrad_loop one add sub mul div sqrt of_nat is_zero c lr t ps vs = (ps', vs', o) -> o <> Ok tt.
Proof.
  intros c lr t. induction ps as [|p ps IH]; intros [|v vs] ps' vs' o L; cbn in L; try lia; cbn [adagrad_loop].
  - intro H. injection H as <- <- <-. destruct (do g <- grad p ; add_decay add mul is_zero (g_wdecay c) p g); discriminate.
  - destruct (adagrad_one one add sub mul div sqrt of_nat is_zero c lr t p v) as [v1 o1]. destruct o1 as [p1|e|].
    + destruct (adagrad_loop one add sub mul div sqrt of_nat is_zero c lr t ps vs) as [[a b] o'] eqn:E.
      intro H. injection H as <- <- <-. eapply IH; [|exact E]. lia.
    + intro H. injection H as <- <- <-. discriminate.
    + intro H. injection H as <- <- <-. discriminate.
Qed.
Lemma rms_loop_short : forall c lr ps vs ps' vs' o,
  length vs < length ps ->
  rms_loop one add sub mul div sqrt is_zero c lr ps vs = (ps', vs', o) -> o <> Ok tt.
Proof.
  intros c lr. induction ps as [|p ps IH]; intros [|v vs] ps' vs' o L; cbn in L; try lia; cbn [rms_loop].
  - intro H. injection H as <- <- <-. destruct (do g <- grad p ; add_decay add mul is_zero (r_wdecay c) p g); discriminate.
  - destruct (rms_one one add sub mul div sqrt is_zero c lr p v) as [v1 o1]. destruct o1 as [p1|e|].
    + destruct (rms_loop one add sub mul div sqrt is_zero c lr ps vs) as [[a b] o'] eqn:E.
      intro H. injection H as <- <- <-. eapply IH; [|exact E]. lia.
    + intro H. injection H as <- <- <-. discriminate.
    + intro H. injection H as <- <- <-. discriminate.
Qed.
End S.
