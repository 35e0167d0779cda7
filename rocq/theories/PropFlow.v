(** C105: every tensor a result is computed from receives its gradient. *)
From Coq Require Import List Arith ZArith Bool Lia.
From Verif Require Import Base LayoutModel KernelModel TensorModel MatrixModel GradModel GradSpec PropGrad FlowModel FlowSpec FlowProofs.
Import ListNotations.

(** The tape leads from one result to another exactly if one is computed from the other along operands that were not copied. *)
Theorem C105_tape : forall V p vs (w : world V) l v x y, forward p = Ok (vs, w) ->
  nth_error vs l = Some x -> nth_error vs v = Some y -> hreq x = true ->
  (exists path, is_path (get_tape 0 (snd w)) (hid y) (hid x) path) <-> uses (uncopied (layout_at vs)) p l v.
Proof. intros V p vs w l v x y E Hx Hy R. destruct (forward_inv _ _ _ _ E) as (_ & _ & _ & _ & _ & I6). exact (I6 l v x y Hx Hy R). Qed.
Print Assumptions C105_tape.

(** What backward() needs of the rules of the recorded operations (as in C37). *)
Definition rules {V} (vjp : entry kind -> V -> list (entry kind) * outcome (list V)) (vadd : V -> V -> list (entry kind) * outcome V)
    (plus : V -> V -> V) (J : entry kind -> nat -> V -> V) (tape : list (entry kind)) : Prop :=
  (forall a b c, plus a (plus b c) = plus (plus a b) c) /\
  (forall a b, snd (vadd a b) = Ok (plus a b)) /\
  (forall e, In e tape -> forall g, snd (vjp e g) = Ok (map (fun k => J e k g) (seq 0 (length (e_ins e))))) /\
  (forall e, In e tape -> forall k a b, J e k (plus a b) = plus (J e k a) (J e k b)).

Lemma osum_some : forall V (plus : V -> V -> V) xs, xs <> [] -> exists g, osum plus xs = Some g.
Proof.
  intros V plus [|x xs] H; [congruence|]. clear H. revert x. induction xs as [|y xs IH]; intros x; [cbn; eauto|].
  change (exists g, match osum plus (y :: xs) with Some r => Some (plus x r) | None => Some x end = Some g).
  destruct (osum plus (y :: xs)); eauto.
Qed.

Theorem C105_gradient : forall V p vs (w : world V) l v x y vjp vadd ones is_float plus J seed s',
  forward p = Ok (vs, w) -> nth_error vs l = Some x -> nth_error vs v = Some y -> hreq x = true -> l <> v ->
  rules vjp vadd plus J (get_tape 0 (snd w)) -> ones (hid y) = Ok seed ->
  backward vjp vadd ones is_float (hid y) (snd w) = (s', Ok tt) ->
  (exists g, grads s' (hid x) = Some g) <-> uses (uncopied (layout_at vs)) p l v.
Proof.
  intros V p vs w l v x y vjp vadd ones is_float plus J seed s' E Hx Hy R N (R1 & R2 & R3 & R4) O B.
  destruct (forward_inv _ _ _ _ E) as ((C1 & C2 & C3 & C4 & C5 & C6 & C7 & C8 & C9) & I2 & I3 & I4 & I5 & I6).
  assert (A : active (snd w) = 0) by (unfold active; now rewrite C3).
  destruct (C37_paths kind V vjp vadd ones is_float plus J (hid y) seed (snd w) s' R1 O R2 ltac:(rewrite A; exact R3) ltac:(rewrite A; exact R4) ltac:(rewrite A; exact C8) B (hid x))
    as (ps & _ & P1 & P2 & P3).
  rewrite A in *. rewrite Forall_forall in I3. destruct (I3 x (nth_error_In _ _ Hx)) as [K1 K2].
  assert (NE : hid x <> hid y).
  { destruct (Nat.lt_gt_cases l v) as [H _]. destruct (H N) as [L|L]; [specialize (I5 l v x y Hx Hy L)|specialize (I5 v l y x Hy Hx L)]; lia. }
  rewrite <- (I6 l v x y Hx Hy R). destruct ps as [|q qs].
  - rewrite P3 by auto. rewrite C7. split; [intros (g & H); discriminate|]. intros [q H]. apply P1 in H. destruct H.
  - split; [intros _; exists q; apply P1; now left|]. intros _. rewrite P2; [|unfold requires; rewrite C5, K2 by auto; exact R|discriminate].
    apply osum_some. discriminate.
Qed.
Print Assumptions C105_gradient.

(** Partial: if no operand is copied, backward() succeeds and every operand, near or far, receives its gradient. *)
Theorem C105_flow_partial : forall V p vs (w : world V) l v x y vjp vadd ones is_float plus J seed,
  forward p = Ok (vs, w) -> nth_error vs l = Some x -> nth_error vs v = Some y -> hreq x = true -> l <> v ->
  rules vjp vadd plus J (get_tape 0 (snd w)) -> ones (hid y) = Ok seed -> is_float (hid y) = true ->
  (forall i, In i p -> uncopied (layout_at vs) i = operands i) ->
  uses operands p l v ->
  exists s' g, backward vjp vadd ones is_float (hid y) (snd w) = (s', Ok tt) /\ grads s' (hid x) = Some g.
Proof.
  intros V p vs w l v x y vjp vadd ones is_float plus J seed E Hx Hy R N RU O F H U.
  assert (U2 : uses (uncopied (layout_at vs)) p l v).
  { refine (uses_mono _ _ _ _ _ _ _ U). intros j i Hj. split; auto. intros a Ha. rewrite H; auto. eapply nth_error_In; eauto. }
  destruct (forward_inv _ _ _ _ E) as ((C1 & C2 & C3 & C4 & C5 & C6 & C7 & C8 & C9) & I2 & I3 & I4 & I5 & I6).
  assert (A : active (snd w) = 0) by (unfold active; now rewrite C3). rewrite Forall_forall in I3.
  destruct (I3 x (nth_error_In _ _ Hx)) as [K1 K2]. destruct (I3 y (nth_error_In _ _ Hy)) as [K3 K4].
  destruct RU as (R1 & R2 & R3 & R4).
  destruct (C37_succeeds kind V vjp vadd ones is_float plus J (hid y) seed (snd w) R1 O F) as [s' B].
  - unfold requires. rewrite C5 by auto. cbn [andb]. apply (C9 (hid x)); auto; [congruence|]. apply (I6 l v x y Hx Hy R). exact U2.
  - exact R2.
  - rewrite A. exact R3.
  - rewrite A. exact R4.
  - rewrite A. intros e i He Hi. apply C5. apply (proj2 (C6 e He)). exact Hi.
  - exists s'. assert (G : exists g, grads s' (hid x) = Some g).
    { apply (C105_gradient V p vs w l v x y vjp vadd ones is_float plus J seed s' E Hx Hy R N (conj R1 (conj R2 (conj R3 R4))) O B). exact U2. }
    destruct G as [g G]. exists g. auto.
Qed.
Print Assumptions C105_flow_partial.

(** Refuted: a product of a stack with a transposed matrix (nn Linear on a 3-axis input: linear.rs L40 multiplies by the transposed weight).
    The matrix is copied before it is broadcast to the stack.  Its gradient stays unset whatever the rules, though backward() reports success;
    if the stack is not a stack but a matrix, the weight does receive one. *)
Definition linear (x : shape) : list instr := [Leaf x false; Leaf [3; 2] true; View (VTranspose (-2) (-1)) 1; Prod 0 2].
Theorem C105_linear_refuted : forall V, exists vs (w : world V) x y,
  forward (linear [4; 5; 2]) = Ok (vs, w) /\ nth_error vs 1 = Some x /\ nth_error vs 3 = Some y /\
  hreq x = true /\ hreq y = true /\ uses operands (linear [4; 5; 2]) 1 3 /\
  forall vjp vadd ones is_float seed, ones (hid y) = Ok seed -> is_float (hid y) = true ->
    exists s', backward vjp vadd ones is_float (hid y) (snd w) = (s', Ok tt) /\ grads s' (hid x) = None.
Proof.
  intros V. eexists _, _, _, _. split; [lazy; reflexivity|]. split; [reflexivity|]. split; [reflexivity|]. split; [reflexivity|]. split; [reflexivity|]. split.
  - apply (uses_step _ _ _ _ (Prod 0 2) 2); [reflexivity|right; now left|]. apply (uses_step _ _ _ _ (View (VTranspose (-2) (-1)) 1) 1); [reflexivity|now left|]. constructor.
  - intros vjp vadd ones is_float seed O F. cbn [hid] in *. eexists. split.
    + unfold backward. cbn [requires alive req snd fst]. cbn. rewrite F. unfold compute_gradients. cbn. rewrite O. cbn. reflexivity.
    + reflexivity.
Qed.
Print Assumptions C105_linear_refuted.

(** Refuted: adding a transposed tensor to another one. *)
Definition add_t : list instr := [Leaf [2; 2] true; Leaf [2; 2] true; View (VTranspose 0 1) 0; Zip 2 1].
Theorem C105_transposed_sum_refuted : forall V, exists vs (w : world V) x y,
  forward add_t = Ok (vs, w) /\ nth_error vs 0 = Some x /\ nth_error vs 3 = Some y /\
  hreq x = true /\ hreq y = true /\ uses operands add_t 0 3 /\
  forall vjp vadd ones is_float plus J seed s', rules vjp vadd plus J (get_tape 0 (snd w)) -> ones (hid y) = Ok seed ->
    backward vjp vadd ones is_float (hid y) (snd w) = (s', Ok tt) -> grads s' (hid x) = None.
Proof.
  intros V.
  assert (E : exists vs (w : world V), forward add_t = Ok (vs, w) /\ exists x y, nth_error vs 0 = Some x /\ nth_error vs 3 = Some y /\ hreq x = true /\ hreq y = true /\
    uncopied (layout_at vs) (Zip 2 1) = [1] /\ nth_error vs 1 <> None).
  { eexists _, _. split; [lazy; reflexivity|]. eexists _, _. do 5 (split; [reflexivity|]). discriminate. }
  destruct E as (vs & w & E & x & y & Hx & Hy & R & Ry & HU & H1). exists vs, w, x, y. do 5 (split; [assumption|]). split.
  - apply (uses_step _ _ _ _ (Zip 2 1) 2); [reflexivity|now left|]. apply (uses_step _ _ _ _ (View (VTranspose 0 1) 0) 0); [reflexivity|now left|]. constructor.
  - intros vjp vadd ones is_float plus J seed s' RU O B. destruct (grads s' (hid x)) as [g|] eqn:G; [exfalso|reflexivity].
    assert (U : uses (uncopied (layout_at vs)) add_t 0 3).
    { apply (C105_gradient V add_t vs w 0 3 x y vjp vadd ones is_float plus J seed s' E Hx Hy R ltac:(discriminate) RU O B). eauto. }
    inversion U as [|v i a H Ha U2]; subst. injection H as <-. rewrite HU in Ha. destruct Ha as [<-|[]].
    inversion U2 as [|v i a H Ha U3]; subst. injection H as <-. destruct Ha.
Qed.
Print Assumptions C105_transposed_sum_refuted.

(** The hypotheses, met: the layer on a matrix, with integers as gradients and every rule handing on what it gets. *)
Definition hand_on (e : entry kind) (g : Z) : list (entry kind) * outcome (list Z) := ([], Ok (map (fun _ => g) (seq 0 (length (e_ins e))))).
Definition plain_add (a b : Z) : list (entry kind) * outcome Z := ([], Ok (a + b)%Z).
Example C105_example : exists vs (w : world Z) x y,
  forward (linear [4; 2]) = Ok (vs, w) /\ nth_error vs 1 = Some x /\ nth_error vs 3 = Some y /\ hreq x = true /\
  rules hand_on plain_add Z.add (fun _ _ g => g) (get_tape 0 (snd w)) /\
  (forall i, In i (linear [4; 2]) -> uncopied (layout_at vs) i = operands i) /\ uses operands (linear [4; 2]) 1 3 /\
  length (get_tape 0 (snd w)) = 2 /\
  exists s', backward hand_on plain_add (fun _ => Ok 1%Z) (fun _ => true) (hid y) (snd w) = (s', Ok tt) /\ grads s' (hid x) = Some 1%Z.
Proof.
  eexists _, _, _, _. split; [lazy; reflexivity|]. split; [reflexivity|]. split; [reflexivity|]. split; [reflexivity|]. split; [|split; [|split; [|split; [reflexivity|]]]].
  - split; [intros; lia|]. split; [reflexivity|]. split; reflexivity.
  - intros i [<-|[<-|[<-|[<-|[]]]]]; reflexivity.
  - apply (uses_step _ _ _ _ (Prod 0 2) 2); [reflexivity|right; now left|]. apply (uses_step _ _ _ _ (View (VTranspose (-2) (-1)) 1) 1); [reflexivity|now left|]. constructor.
  - eexists. split; reflexivity.
Qed.
(** A stack of products of contiguous tensors. *)
Example C105_stack_example : exists vs (w : world Z) x y,
  forward [Leaf [2; 1; 3] true; Leaf [3; 2] true; Prod 0 1; Map 2] = Ok (vs, w) /\ nth_error vs 1 = Some x /\ nth_error vs 3 = Some y /\
  exists s', backward hand_on plain_add (fun _ => Ok 1%Z) (fun _ => true) (hid y) (snd w) = (s', Ok tt) /\ grads s' (hid x) = Some 1%Z.
Proof. eexists _, _, _, _. split; [lazy; reflexivity|]. split; [reflexivity|]. split; [reflexivity|]. eexists. split; reflexivity. Qed.
