(** C37, C41, C78-C81: the gradient tape and backward(). *)
From Coq Require Import List Arith ZArith Bool Lia Reals.
From Verif Require Import Base GradModel GradSpec GradProofs GradProofs2 GradProofs3 GradProofs4.
Import ListNotations.
From Verif Require Import GradSample.

(* ================ C37 ================ *)

(** The gradient of every tensor that requires one and is reached is the sum, over
    all paths to the loss, of the local rules composed along the path; all others
    keep what they had. *)
Theorem C37_paths : forall OP V vjp vadd ones is_float (plus : V -> V -> V) (J : entry OP -> nat -> V -> V)
    loss seed (s s' : gstate OP V),
  (forall a b c, plus a (plus b c) = plus (plus a b) c) ->
  ones loss = Ok seed ->
  (forall a b, snd (vadd a b) = Ok (plus a b)) ->
  (forall e, In e (get_tape (active s) s) -> forall g,
     snd (vjp e g) = Ok (map (fun k => J e k g) (seq 0 (length (e_ins e))))) ->
  (forall e, In e (get_tape (active s) s) -> forall k a b, J e k (plus a b) = plus (J e k a) (J e k b)) ->
  ordered (get_tape (active s) s) ->
  backward vjp vadd ones is_float loss s = (s', Ok tt) ->
  forall x, exists ps,
    NoDup ps /\ (forall p, In p ps <-> is_path (get_tape (active s) s) loss x p)
    /\ (requires s x = true -> ps <> [] -> grads s' x = osum plus (map (along J seed) ps))
    /\ (requires s x = false \/ ps = [] -> x <> loss -> grads s' x = grads s x).
Proof.
  intros OP V vjp vadd ones is_float plus J loss seed s s' Ha Ho R1 R2 R3 Hord Hb x.
  set (tape := get_tape (active s) s) in *.
  exists (paths OP loss tape 0 x). split; [apply paths_NoDup|].
  split; [intro p; apply paths_complete; auto|].
  pose proof (backward_paths OP V vjp vadd ones is_float plus J Ha loss seed s s' Ho
                (conj R1 (conj R2 R3)) Hb x) as Hg. fold tape in Hg. split.
  - intros Hr Hne. rewrite Hg, Hr. simpl. destruct (extended OP _) eqn:Ee; [reflexivity|].
    destruct (not_extended OP tape loss x Hord Ee Hne) as [-> E]. rewrite E, Nat.eqb_refl. reflexivity.
  - intros [Hr|Hr] Hx; rewrite Hg.
    + rewrite Hr. simpl. apply Nat.eqb_neq in Hx. now rewrite Hx.
    + rewrite Hr. simpl. rewrite andb_false_r. apply Nat.eqb_neq in Hx. now rewrite Hx.
Qed.
Print Assumptions C37_paths.

(** backward() succeeds whenever the rules do and no operand has disappeared. *)
Theorem C37_succeeds : forall OP V vjp vadd ones is_float (plus : V -> V -> V) (J : entry OP -> nat -> V -> V)
    loss seed (s : gstate OP V),
  (forall a b c, plus a (plus b c) = plus (plus a b) c) ->
  ones loss = Ok seed -> is_float loss = true -> requires s loss = true ->
  (forall a b, snd (vadd a b) = Ok (plus a b)) ->
  (forall e, In e (get_tape (active s) s) -> forall g,
     snd (vjp e g) = Ok (map (fun k => J e k g) (seq 0 (length (e_ins e))))) ->
  (forall e, In e (get_tape (active s) s) -> forall k a b, J e k (plus a b) = plus (J e k a) (J e k b)) ->
  (forall e i, In e (get_tape (active s) s) -> In i (e_ins e) -> alive s i = true) ->
  exists s', backward vjp vadd ones is_float loss s = (s', Ok tt).
Proof.
  intros OP V vjp vadd ones is_float plus J loss seed s Ha Ho Hf Hr R1 R2 R3 Hal.
  apply (backward_succeeds OP V vjp vadd ones is_float plus J Ha loss seed s Ho Hf Hr
           (conj R1 (conj R2 R3)) Hal).
Qed.
Print Assumptions C37_succeeds.

(** Tapes are ordered: every tape any program can produce, ids coming from one counter. *)
Theorem C37_tapes_ordered : forall OP V vjp vadd ones is_float (p : list (act OP)) c t,
  counted OP 0 (flat_map (ops_of OP) p) ->
  tapes (run vjp vadd ones is_float p (@init OP V)) c = Some t ->
  ordered t /\ NoDup (map (@e_out OP) t).
Proof. exact recorded_ok. Qed.
Print Assumptions C37_tapes_ordered.

(** The transposed Jacobian: pairing the seed with the loss' tangent is pairing the
    stored gradients with the tangents of the leaves. *)
Theorem C37_transpose : forall OP V K vjp vadd ones is_float
    (plus : V -> V -> V) (zero : V) (kplus : K -> K -> K) (kzero : K) (pair : V -> V -> K)
    (J D : entry OP -> nat -> V -> V) loss seed (s s' : gstate OP V) (t : nat -> V) L,
  (forall a b c, kplus a (kplus b c) = kplus (kplus a b) c) ->
  (forall a b, kplus a b = kplus b a) -> (forall a, kplus kzero a = a) ->
  (forall a b c, plus a (plus b c) = plus (plus a b) c) ->
  (forall a b u, pair (plus a b) u = kplus (pair a u) (pair b u)) ->
  (forall g a b, pair g (plus a b) = kplus (pair g a) (pair g b)) ->
  (forall g, pair g zero = kzero) ->
  let tape := get_tape (active s) s in
  ordered tape -> NoDup (map (@e_out OP) tape) -> ones loss = Ok seed ->
  (forall a b, snd (vadd a b) = Ok (plus a b)) ->
  (forall e, In e tape -> forall g,
     snd (vjp e g) = Ok (map (fun k => J e k g) (seq 0 (length (e_ins e))))) ->
  (forall e, In e tape -> forall k a b, J e k (plus a b) = plus (J e k a) (J e k b)) ->
  (forall e, In e tape -> forall k g u, pair (J e k g) u = pair g (D e k u)) ->
  backward vjp vadd ones is_float loss s = (s', Ok tt) ->
  NoDup L -> (forall x, In x L <-> is_leaf tape x /\ exists p, is_path tape loss x p) ->
  (forall x, ~ is_leaf tape x \/ requires s x = false -> t x = zero) ->
  pair seed (tangents plus zero D tape t loss) =
  fold_right kplus kzero
    (map (fun x => match grads s' x with Some g => pair g (t x) | None => kzero end) L).
Proof.
  intros OP V K vjp vadd ones is_float plus zero kplus kzero pair J D loss seed s s' t L
    k1 k2 k3 a1 p1 p2 p3 tape Ho Hd H1 R1 R2 R3 Hadj Hb HL HLi Ht.
  exact (backward_transpose OP V K vjp vadd ones is_float plus zero kplus kzero pair k1 k2 k3 a1 p1 p2 p3
           J D loss seed s s' t L Ho Hd H1 (conj R1 (conj R2 R3)) Hadj Hb HL HLi Ht).
Qed.
Print Assumptions C37_transpose.

(** Scalars over the reals: along every curve of leaf values the loss has the
    derivative sum of gradient times velocity. *)
Theorem C37_derivative : forall OP (f : entry OP -> list R -> R) (c : entry OP -> nat -> R)
    vjp vadd ones is_float loss (s s' : gstate OP R) (v : R -> nat -> R) (t : nat -> R) z0 L,
  let tape := get_tape (active s) s in
  ordered tape -> NoDup (map (@e_out OP) tape) -> ones loss = Ok 1%R ->
  (forall a b, snd (vadd a b) = Ok (a + b)%R) ->
  (forall e, In e tape -> forall g,
     snd (vjp e g) = Ok (map (fun k => (g * c e k)%R) (seq 0 (length (e_ins e))))) ->
  (forall e, In e tape -> partials OP f c z0 (values f tape (v z0)) e) ->
  backward vjp vadd ones is_float loss s = (s', Ok tt) ->
  NoDup L -> (forall x, In x L <-> is_leaf tape x /\ exists p, is_path tape loss x p) ->
  (forall x, is_leaf tape x -> derivable_pt_lim (fun z => v z x) z0 (t x)) ->
  (forall x, requires s x = false -> t x = 0%R) ->
  derivable_pt_lim (fun z => values f tape (v z) loss) z0
    (fold_right Rplus 0%R (map (fun x => (grad_or_0 (grads s' x) * t x)%R) L)).
Proof. exact backward_derivative. Qed.
Print Assumptions C37_derivative.

(** loss = (x^2 + x) * x^2 at x = 3: the derivative is 4 x^3 + 3 x^2 = 135. *)
Example C37_tape_is : get_tape 0 s0 = ops. Proof. reflexivity. Qed.
Example C37_ids : counted op 0 (flat_map (ops_of op) (setup ++ map ARecord ops)).
Proof. cbn. repeat split; try lia; repeat constructor. Qed.
Example C37_grads_are :
  let '(s', r) := backward vjp vadd ones fl 5 s0 in
  r = Ok tt /\ map (grads s') [0; 1; 2; 3; 4; 5]%nat
             = [Some 135; None; Some 21; None; Some 9; Some 1]%Z.
Proof. vm_compute. split; reflexivity. Qed.
(** Five paths lead from x to the loss. *)
Example C37_paths_are : length (paths op 5 ops 0 0) = 5. Proof. reflexivity. Qed.
Example C37_rules : (forall a b c, a + (b + c) = a + b + c)%Z
  /\ (forall e, In e ops -> forall g,
     snd (vjp e g) = Ok (map (fun k => J e k g) (seq 0 (length (e_ins e)))))
  /\ (forall e, In e ops -> forall k a b, J e k (a + b) = J e k a + J e k b)%Z.
Proof.
  split; [intros; lia|]. split.
  - intros e [<-|[<-|[<-|[<-|[]]]]] g; reflexivity.
  - intros e _ k a b. unfold J. destruct (e_op e); lia.
Qed.
Example C37_is_ordered : ordered ops.
Proof.
  exact (proj1 (recorded_ok op Z vjp vadd ones fl (setup ++ map ARecord ops) 0 ops C37_ids eq_refl)).
Qed.

(* ================ C41 ================ *)

(** After any program - any operations, failing or successful backward() calls,
    optimizer calls and properly nested contexts - no gradient computation is left
    marked as running and the context stack is as before. *)
Theorem C41_flags : forall OP V vjp vadd ones is_float (p : list (act OP)) (s : gstate OP V),
  computing s = false -> 1 <= next_ctx s -> active s < next_ctx s ->
  let s' := run vjp vadd ones is_float p s in
  computing s' = false /\ stack s' = stack s /\ active s' = active s
  /\ (forall c, c < next_ctx s -> c <> active s -> tapes s' c = tapes s c).
Proof.
  intros OP V vjp vadd ones is_float p s Hc H1 H2 s'.
  destruct (run_contained OP V vjp vadd ones is_float p s Hc (conj H1 H2)) as (A&B&C&D&E).
  fold s' in A, B, C, D, E. repeat split; auto. unfold active. now rewrite B.
Qed.
Print Assumptions C41_flags.
Theorem C41_reachable : forall OP V vjp vadd ones is_float (p : list (act OP)),
  let s := run vjp vadd ones is_float p (@init OP V) in
  computing s = false /\ stack s = [] /\ active s = 0.
Proof.
  intros OP V vjp vadd ones is_float p s.
  destruct (C41_flags OP V vjp vadd ones is_float p init eq_refl) as (A&B&C&_); simpl; auto.
Qed.
Print Assumptions C41_reachable.

(** One call: nothing it computes is recorded; on success the tape in use is empty
    and the others untouched, on failure all tapes are as before. *)
Theorem C41_backward : forall OP V vjp vadd ones is_float loss (s s' : gstate OP V) r,
  computing s = false ->
  backward vjp vadd ones is_float loss s = (s', r) ->
  computing s' = false /\ in_step s' = in_step s /\ stack s' = stack s /\ req s' = req s /\
  match r with
  | Ok _ => get_tape (active s) s' = [] /\
            forall c, c <> active s -> tapes s' c = tapes s c
  | _ => tapes s' = tapes s
  end.
Proof.
  intros OP V vjp vadd ones is_float loss s s' r Hc H.
  destruct (backward_frame OP V vjp vadd ones is_float loss s s' r Hc H) as (A&B&C&D&E&F&G).
  repeat split; auto. destruct r; auto. destruct G as [G1 G2]. split; auto.
  unfold get_tape. rewrite G1. now destruct (tapes s (active s)).
Qed.
Print Assumptions C41_backward.

(** Recording works after it: an operation with an operand that requires gradients
    goes to the end of the active tape. *)
Theorem C41_recording : forall OP V vjp vadd ones is_float loss (s s' : gstate OP V) r e i t,
  computing s = false -> in_step s = false ->
  backward vjp vadd ones is_float loss s = (s', r) ->
  In i (e_ins e) -> requires s' i = true -> tapes s' (active s') = Some t ->
  tapes (record e s') (active s') = Some (t ++ [e]).
Proof.
  intros OP V vjp vadd ones is_float loss s s' r e i t Hc Hi H Hin Hr Ht.
  destruct (backward_frame OP V vjp vadd ones is_float loss s s' r Hc H) as (A&B&_).
  unfold record. rewrite A, B, Hi.
  assert (existsb (requires s') (e_ins e) = true) as -> by (apply existsb_exists; eauto).
  simpl. unfold push_entry. rewrite Ht. simpl. unfold fupd. now rewrite Nat.eqb_refl.
Qed.
Print Assumptions C41_recording.

(** Leaving a context: the one active before is active again, all tapes that existed
    are unchanged, and the context's own tape is gone. *)
Theorem C41_contexts : forall OP V vjp vadd ones is_float body (s : gstate OP V),
  computing s = false -> 1 <= next_ctx s -> active s < next_ctx s ->
  let s' := run1 vjp vadd ones is_float (AWith body) s in
  computing s' = false /\ stack s' = stack s /\
  (forall c, c < next_ctx s -> tapes s' c = tapes s c) /\
  tapes s' (next_ctx s) = None.
Proof.
  intros OP V vjp vadd ones is_float body s Hc H1 H2.
  exact (with_outside OP V vjp vadd ones is_float body s Hc (conj H1 H2)).
Qed.
Print Assumptions C41_contexts.

(** A failing backward (the rule of the last operation fails) inside two nested
    contexts, then an operation outside. *)
Definition prog : list (act op) :=
  setup ++ [ARecord (mkE 2 (Mul 3 3) [0; 0]);
            AWith [ARecord (mkE 4 Add [2; 0]);
                   AWith [ARecord (mkE 5 Bad [4; 0]); ABackward 5];
                   ARecord (mkE 6 Add [4; 0])];
            ARecord (mkE 7 Add [2; 0])].
Example C41_outer : tapes (run vjp vadd ones fl prog init) 0
  = Some [mkE 2 (Mul 3 3) [0; 0]; mkE 7 Add [2; 0]].
Proof. reflexivity. Qed.
Example C41_failing : snd (backward vjp vadd ones fl 5 (record (mkE 5 Bad [4; 0]) s0)) = Err EInternal.
Proof. reflexivity. Qed.

(* ================ C78 ================ *)

(** An optimizer step, successful or failing, and a successful zero_grad() leave
    recording enabled and record nothing. *)
Theorem C78_partial : forall OP V (s : gstate OP V),
  in_step s = false ->
  (forall ops r, r <> Panic -> fst (opt_step ops r s) = s) /\
  (forall rs, snd (opt_zero_grad rs s) = Ok tt -> fst (opt_zero_grad rs s) = s).
Proof.
  intros OP V s Hi. assert (E : set_in_step false s = s) by (destruct s; simpl in *; now subst).
  split.
  - intros ops r Hr. unfold opt_step. rewrite record_all_in_step by reflexivity.
    destruct r; simpl; try congruence; destruct s; simpl in *; now subst.
  - intros rs H. unfold opt_zero_grad in *. destruct (zero_loop rs); try discriminate.
    simpl. destruct s; simpl in *; now subst.
Qed.
Print Assumptions C78_partial.

(** A zero_grad() that fails switches recording off for good: whatever operations
    follow, nothing is recorded, and backward() then returns success without
    computing any gradient. *)
Theorem C78_refuted : forall OP V vjp vadd ones is_float (s : gstate OP V) rs x,
  zero_loop rs = Err x ->
  let s1 := fst (opt_zero_grad rs s) in
  in_step s1 = true /\
  forall es, record_all es s1 = s1 /\
  forall loss seed, computing s = false -> get_tape (active s) s = [] ->
    ones loss = Ok seed -> is_float loss = true -> requires s loss = true ->
    exists s2, backward vjp vadd ones is_float loss (record_all es s1) = (s2, Ok tt)
      /\ in_step s2 = true /\ forall i, i <> loss -> grads s2 i = grads s i.
Proof.
  intros OP V vjp vadd ones is_float s rs x H s1.
  assert (E : s1 = set_in_step true s) by (unfold s1, opt_zero_grad; rewrite H; reflexivity).
  rewrite E. split; [reflexivity|]. intro es. rewrite record_all_in_step by reflexivity.
  split; [reflexivity|]. intros loss seed Hc Ht Ho Hf Hr.
  rewrite (backward_unfold OP V vjp vadd ones is_float loss seed) by auto.
  change (get_tape (active (set_in_step true s)) (set_in_step true s)) with (get_tape (active s) s).
  rewrite Ht. simpl. eexists. split; [reflexivity|]. unfold clear_tape. simpl.
  destruct (tapes s (active (set_in_step true s))); simpl; split; auto;
    intros i Hi; unfold fupd; apply Nat.eqb_neq in Hi; now rewrite Hi.
Qed.
Print Assumptions C78_refuted.
Example C78_witness : zero_loop [Ok tt; Err EInternal; Ok tt] = Err EInternal. Proof. reflexivity. Qed.

(* ================ C79 ================ *)

(** Calls that are refused change nothing. *)
Theorem C79_partial : forall OP V vjp vadd ones is_float loss (s : gstate OP V),
  is_float loss = false \/ requires s loss = false \/ (forall g, ones loss <> Ok g) ->
  fst (backward vjp vadd ones is_float loss s) = s.
Proof.
  intros OP V vjp vadd ones is_float loss s H. unfold backward.
  destruct (is_float loss) eqn:E1; [|reflexivity]. destruct (requires s loss) eqn:E2; [|reflexivity].
  simpl. unfold compute_gradients. destruct (ones loss) as [g| |] eqn:E3; try reflexivity.
  destruct H as [H|[H|H]]; try discriminate. now elim (H g).
Qed.
Print Assumptions C79_partial.

(** A call that fails half-way leaves the gradients of the operations handled so far. *)
Theorem C79_refuted : exists (OP V : Type) (vjp : entry OP -> V -> list (entry OP) * outcome (list V))
    vadd ones is_float loss (s s' : gstate OP V) x,
  computing s = false /\ backward vjp vadd ones is_float loss s = (s', Err EInternal)
  /\ loss <> x /\ grads s x = None /\ grads s' x <> None.
Proof.
  exists GradSample.op, Z, GradSample.vjp, GradSample.vadd, GradSample.ones, GradSample.fl, 6,
    (run GradSample.vjp GradSample.vadd GradSample.ones GradSample.fl
       (GradSample.setup ++ [ASetReq 6 true; ARecord (mkE 4 GradSample.Bad [0; 0]);
                         ARecord (mkE 6 GradSample.Add [4; 2])]) init).
  eexists. exists 2. split; [reflexivity|]. split; [vm_compute; reflexivity|].
  split; [discriminate|]. split; [reflexivity|]. discriminate.
Qed.
Print Assumptions C79_refuted.

(* ================ C80 ================ *)

(** In its own context a computation does not disturb the enclosing tape: the outer
    loss' backward() afterwards works on the same tape as without it. *)
Theorem C80_partial : forall OP V vjp vadd ones is_float body (s : gstate OP V),
  computing s = false -> 1 <= next_ctx s -> active s < next_ctx s ->
  let s' := run1 vjp vadd ones is_float (AWith body) s in
  get_tape (active s') s' = get_tape (active s) s.
Proof.
  intros OP V vjp vadd ones is_float body s Hc H1 H2 s'.
  destruct (with_outside OP V vjp vadd ones is_float body s Hc (conj H1 H2)) as (A&B&C&D).
  fold s' in A, B, C, D. assert (E : active s' = active s) by (unfold active; now rewrite B).
  rewrite E. unfold get_tape. now rewrite C.
Qed.
Print Assumptions C80_partial.

(** In one context, the first backward() discards the tape; the next one - of any
    other loss - reports success and leaves every gradient except that loss' own as
    it was. *)
Theorem C80_refuted : forall OP V vjp vadd ones is_float l1 l2 (s s1 : gstate OP V) seed,
  computing s = false -> backward vjp vadd ones is_float l1 s = (s1, Ok tt) ->
  ones l2 = Ok seed -> is_float l2 = true -> requires s1 l2 = true ->
  exists s2, backward vjp vadd ones is_float l2 s1 = (s2, Ok tt)
    /\ forall x, x <> l2 -> grads s2 x = grads s1 x.
Proof.
  intros OP V vjp vadd ones is_float l1 l2 s s1 seed Hc Hb Ho Hf Hr.
  destruct (backward_frame OP V vjp vadd ones is_float l1 s s1 (Ok tt) Hc Hb) as (A&B&C&D&E&F&G&H).
  rewrite (backward_unfold OP V vjp vadd ones is_float l2 seed) by auto.
  assert (get_tape (active s1) s1 = []) as ->.
  { unfold active in *. rewrite C. unfold get_tape. rewrite G. now destruct (tapes s (hd 0 (stack s))). }
  simpl. eexists. split; [reflexivity|]. unfold clear_tape. simpl.
  intros x Hx. apply Nat.eqb_neq in Hx.
  destruct (tapes s1 (active s1)); simpl; unfold fupd; now rewrite Hx.
Qed.
Print Assumptions C80_refuted.
(** y = x * x is not reached by the second call although it uses it. *)
Example C80_witness :
  let s1 := fst (backward GradSample.vjp GradSample.vadd GradSample.ones GradSample.fl 4 GradSample.s0) in
  let s2 := fst (backward GradSample.vjp GradSample.vadd GradSample.ones GradSample.fl 3 s1) in
  (grads s1 0, grads s2 0, grads (fst (backward GradSample.vjp GradSample.vadd GradSample.ones GradSample.fl 3 GradSample.s0)) 0)
  = (Some 7, Some 7, Some 42)%Z.
Proof. reflexivity. Qed.

(* ================ C81 ================ *)

(** Contexts dropped in the reverse order of their creation. *)
Theorem C81_partial : forall OP V (s : gstate OP V),
  1 <= next_ctx s -> active s < next_ctx s ->
  let '(a, s1) := new_ctx s in
  let '(b, s2) := new_ctx s1 in
  let s3 := drop_ctx b s2 in
  let s4 := drop_ctx a s3 in
  active s3 = a /\ tapes s3 a = Some [] /\ stack s4 = stack s
  /\ forall c, c < next_ctx s -> tapes s4 c = tapes s c.
Proof.
  intros OP V s H1 H2. simpl. unfold drop_ctx. destruct (Nat.eqb_spec (next_ctx s) 0); [lia|].
  simpl. unfold fupd. rewrite !Nat.eqb_refl.
  split; [reflexivity|]. split.
  - destruct (Nat.eqb_spec (next_ctx s) (S (next_ctx s))); [lia|reflexivity].
  - split; [reflexivity|]. intros c Hc.
    destruct (Nat.eqb_spec c (next_ctx s)); [lia|].
    destruct (Nat.eqb_spec c (S (next_ctx s))); [lia|]. reflexivity.
Qed.
Print Assumptions C81_partial.

(** Dropped the other way round, the younger one - still held by the program - is
    not active any more; the active one has no tape, so no operation is recorded. *)
Theorem C81_refuted : forall OP V (s : gstate OP V), 1 <= next_ctx s ->
  let '(a, s1) := new_ctx s in
  let '(b, s2) := new_ctx s1 in
  let s3 := drop_ctx a s2 in
  active s3 <> b /\ tapes s3 b = Some [] /\ forall e, record e s3 = s3.
Proof.
  intros OP V s H1. simpl. unfold drop_ctx. destruct (Nat.eqb_spec (next_ctx s) 0); [lia|].
  simpl. split; [unfold active; simpl; lia|]. unfold fupd. rewrite Nat.eqb_refl.
  destruct (Nat.eqb_spec (S (next_ctx s)) (next_ctx s)); [lia|]. split; [reflexivity|].
  intro e. unfold record. simpl. destruct (computing s); [reflexivity|]. destruct (in_step s); [reflexivity|].
  destruct (negb _); [reflexivity|]. unfold push_entry, active. simpl. rewrite Nat.eqb_refl. reflexivity.
Qed.
Print Assumptions C81_refuted.
