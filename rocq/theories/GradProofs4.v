(** The stored gradients are the transposed derivative; over the reals, the
    derivative itself. *)
From Coq Require Import List Arith Lia Bool Sorted Reals.
From Verif Require Import Base GradModel GradSpec GradProofs GradProofs2 GradProofs3.
Import ListNotations.

Section Transpose.
Variables OP V K : Type.
Notation entry := (entry OP).
Variable plus : V -> V -> V.
Variable zero : V.
Variable kplus : K -> K -> K.
Variable kzero : K.
Variable pair : V -> V -> K.
Hypothesis kassoc : forall a b c, kplus a (kplus b c) = kplus (kplus a b) c.
Hypothesis kcomm : forall a b, kplus a b = kplus b a.
Hypothesis kzero_l : forall a, kplus kzero a = a.
Hypothesis assoc : forall a b c, plus a (plus b c) = plus (plus a b) c.
Hypothesis pair_l : forall a b t, pair (plus a b) t = kplus (pair a t) (pair b t).
Hypothesis pair_r : forall g a b, pair g (plus a b) = kplus (pair g a) (pair g b).
Hypothesis pair_0 : forall g, pair g zero = kzero.

Definition ksum (l : list K) : K := fold_right kplus kzero l.
Definition pairo (g : option V) (t : V) : K :=
  match g with Some g => pair g t | None => kzero end.

Lemma kzero_r : forall a, kplus a kzero = a.
Proof. intro a. now rewrite kcomm. Qed.

Lemma ksum_plus : forall A (f g : A -> K) S,
  ksum (map (fun x => kplus (f x) (g x)) S) = kplus (ksum (map f S)) (ksum (map g S)).
Proof.
  induction S as [|x S IH]; simpl; [now rewrite kzero_l|].
  rewrite IH. rewrite <- !kassoc. f_equal. rewrite !kassoc. f_equal. apply kcomm.
Qed.

Lemma ksum_zero : forall A (f : A -> K) S, (forall x, In x S -> f x = kzero) ->
  ksum (map f S) = kzero.
Proof.
  induction S as [|x S IH]; intro H; simpl; auto.
  rewrite H, kzero_l by (now left). apply IH. intros; apply H; now right.
Qed.

Lemma ksum_ext : forall A (f g : A -> K) S, (forall x, In x S -> f x = g x) ->
  ksum (map f S) = ksum (map g S).
Proof.
  induction S as [|x S IH]; intro H; simpl; auto.
  rewrite H by (now left). f_equal. apply IH. intros; apply H; now right.
Qed.

(** A function that vanishes away from one point. *)
Lemma ksum_point : forall (f : nat -> K) i S, NoDup S -> In i S ->
  (forall x, x <> i -> f x = kzero) -> ksum (map f S) = f i.
Proof.
  induction S as [|x S IH]; intros Hn Hi Hz; [destruct Hi|]. inversion Hn; subst. simpl.
  destruct Hi as [->|Hi].
  - rewrite ksum_zero, kzero_r; auto. intros y Hy. apply Hz. congruence.
  - rewrite Hz, kzero_l by congruence. auto.
Qed.

Lemma pairo_oplus : forall a b t, pairo (oplus V plus a b) t = kplus (pairo a t) (pairo b t).
Proof. intros [a|] [b|] t; simpl; rewrite ?kzero_l, ?kzero_r; auto. Qed.

Lemma pairo_0 : forall g, pairo g zero = kzero.
Proof. intros [g|]; simpl; auto. Qed.

Variables (J D : entry -> nat -> V -> V).

Lemma sel_sum : forall (t : nat -> V) S ins gs, NoDup S -> incl ins S -> length gs = length ins ->
  ksum (map (fun x => pairo (osum plus (sel V x ins gs)) (t x)) S) =
  ksum (map (fun gi => pair (fst gi) (t (snd gi))) (combine gs ins)).
Proof.
  intros t S ins. induction ins as [|i ins IH]; intros gs Hn Hi Hl.
  - destruct gs; [|discriminate]. simpl. apply ksum_zero. auto.
  - destruct gs as [|g gs]; [discriminate|]. simpl combine. simpl map. simpl ksum.
    rewrite <- IH by (auto; try (intros y Hy; apply Hi; now right)).
    rewrite (ksum_ext _ _ (fun x => kplus (if Nat.eqb i x then pair g (t x) else kzero)
               (pairo (osum plus (sel V x ins gs)) (t x)))).
    2:{ intros x _. simpl. rewrite (osum_app V plus assoc).
        rewrite pairo_oplus. destruct (Nat.eqb i x); reflexivity. }
    rewrite ksum_plus. f_equal.
    rewrite (ksum_point _ i); auto.
    + now rewrite Nat.eqb_refl.
    + apply Hi. now left.
    + intros x Hx. destruct (Nat.eqb_spec i x); congruence.
Qed.

Lemma pair_sum : forall g l, pair g (fold_right plus zero l) = ksum (map (pair g) l).
Proof. induction l as [|x l IH]; simpl; auto. now rewrite pair_r, IH. Qed.

Lemma transpose_loop : forall loss seed suf o (t : nat -> V) S,
  (forall e, In e suf -> forall k a b, J e k (plus a b) = plus (J e k a) (J e k b)) ->
  (forall e, In e suf -> forall k g u, pair (J e k g) u = pair g (D e k u)) ->
  NoDup (map (@e_out OP) suf) -> (forall e, In e suf -> t (e_out e) = zero) ->
  NoDup S -> (forall x, paths OP loss suf o x <> [] -> In x S) ->
  pair seed (tangents plus zero D suf t loss) =
  ksum (map (fun x => pairo (osum plus (map (along J seed) (paths OP loss suf o x))) (t x)) S).
Proof.
  intros loss seed suf. induction suf as [|e suf IH]; intros o t S Hlin Hadj Hd Hz Hn HS.
  - simpl. rewrite (ksum_point _ loss); auto.
    + rewrite Nat.eqb_refl. reflexivity.
    + apply HS. simpl. rewrite Nat.eqb_refl. discriminate.
    + intros x Hx. apply Nat.eqb_neq in Hx. simpl. now rewrite Hx.
  - simpl tangents. inversion Hd; subst.
    set (P := paths OP loss suf (Datatypes.S o) (e_out e)).
    rewrite (IH (Datatypes.S o) _ S); auto.
    2:{ intros e' He'. apply Hlin. now right. }
    2:{ intros e' He'. apply Hadj. now right. }
    2:{ intros e' He'. unfold fupd. destruct (Nat.eqb_spec (e_out e') (e_out e)) as [E|].
        - exfalso. apply H1. rewrite <- E. now apply in_map.
        - apply Hz. now right. }
    2:{ intros x Hx. apply HS. simpl. intro E. apply app_eq_nil in E. tauto. }
    set (G := fun x => osum plus (map (along J seed) (paths OP loss suf (Datatypes.S o) x))).
    (* split off the new tensor on the left *)
    rewrite (ksum_ext _ _ (fun x => kplus (pairo (G x) (t x))
        (if Nat.eqb x (e_out e) then pairo (G x) (tangent_out plus zero D e t) else kzero))).
    2:{ intros x _. unfold fupd. fold (G x). destruct (Nat.eqb_spec x (e_out e)) as [->|].
        - rewrite (Hz e), pairo_0, kzero_l by (now left). reflexivity.
        - now rewrite kzero_r. }
    rewrite ksum_plus.
    (* split off the new contributions on the right *)
    rewrite (ksum_ext _ (fun x => pairo (osum plus (map (along J seed) (paths OP loss (e :: suf) o x))) (t x))
       (fun x => kplus (pairo (G x) (t x))
          (pairo (osum plus (map (along J seed) (ext OP e o P (e_ins e) 0 x))) (t x)))).
    2:{ intros x _. simpl. rewrite map_app, (osum_app V plus assoc), pairo_oplus. reflexivity. }
    rewrite ksum_plus. f_equal.
    destruct (osum plus (map (along J seed) P)) as [g|] eqn:EP.
    + assert (HoutS : In (e_out e) S).
      { apply HS. simpl. intro E. apply app_eq_nil in E. destruct E as [E _].
        fold P in E. rewrite E in EP. discriminate. }
      rewrite (ksum_point _ (e_out e)); auto.
      2:{ intros x Hx. apply Nat.eqb_neq in Hx. now rewrite Hx. }
      rewrite Nat.eqb_refl. unfold G. fold P. rewrite EP. simpl.
      rewrite (ksum_ext _ _ (fun x => pairo (osum plus (sel V x (e_ins e)
               (map (fun k => J e k g) (seq 0 (length (e_ins e)))))) (t x))).
      2:{ intros x _. f_equal. apply osum_ext; auto. intro k. apply Hlin. now left. }
      rewrite sel_sum; auto.
      * unfold tangent_out. rewrite pair_sum, map_map.
        assert (Ha : forall k u, pair (J e k g) u = pair g (D e k u)) by (intros; apply Hadj; now left).
        clear - Ha. generalize (seq 0 (length (e_ins e))) as ks. generalize (e_ins e) as ins.
        intros ins ks. revert ins. induction ks as [|k ks IHk]; intros [|i ins]; simpl; auto.
        rewrite Ha. f_equal. apply IHk.
      * intros i Hi. apply HS. simpl. intro E. apply app_eq_nil in E. destruct E as [_ E].
        fold P in E. destruct (In_nth_error _ _ Hi) as [k Hk].
        assert (HP : exists q, In q P).
        { destruct P as [|q P']; [discriminate|]. exists q. now left. }
        destruct HP as [q Hq].
        assert (In ((o, e, k) :: q) (ext OP e o P (e_ins e) 0 i)) as Hin.
        { apply in_ext. exists k, q. split; auto. split; [lia|]. rewrite Nat.sub_0_r. auto. }
        rewrite E in Hin. destruct Hin.
      * now rewrite map_length, seq_length.
    + apply osum_none in EP. apply map_eq_nil in EP.
      rewrite ksum_zero, ksum_zero; auto.
      * intros x _. fold P. rewrite EP, ext_nil. reflexivity.
      * intros x _. destruct (Nat.eqb_spec x (e_out e)) as [->|]; auto.
        unfold G. fold P. rewrite EP. reflexivity.
Qed.
End Transpose.

Section BackwardTranspose.
Variables OP V K : Type.
Notation entry := (entry OP).
Notation gstate := (gstate OP V).
Variable vjp : entry -> V -> list entry * outcome (list V).
Variable vadd : V -> V -> list entry * outcome V.
Variable ones : nat -> outcome V.
Variable is_float : nat -> bool.
Variable plus : V -> V -> V.
Variable zero : V.
Variable kplus : K -> K -> K.
Variable kzero : K.
Variable pair : V -> V -> K.
Hypothesis kassoc : forall a b c, kplus a (kplus b c) = kplus (kplus a b) c.
Hypothesis kcomm : forall a b, kplus a b = kplus b a.
Hypothesis kzero_l : forall a, kplus kzero a = a.
Hypothesis assoc : forall a b c, plus a (plus b c) = plus (plus a b) c.
Hypothesis pair_l : forall a b t, pair (plus a b) t = kplus (pair a t) (pair b t).
Hypothesis pair_r : forall g a b, pair g (plus a b) = kplus (pair g a) (pair g b).
Hypothesis pair_0 : forall g, pair g zero = kzero.
Variables (J D : entry -> nat -> V -> V).

Lemma leaf_dec : forall (tape : list entry) x, {In x (map (@e_out OP) tape)} + {is_leaf tape x}.
Proof.
  intros tape x. destruct (in_dec Nat.eq_dec x (map (@e_out OP) tape)) as [H|H]; auto.
  right. intros e He E. apply H. rewrite <- E. now apply in_map.
Qed.

Lemma in_paths_ne : forall (tape : list entry) loss x, ordered tape ->
  (paths OP loss tape 0 x <> [] <-> exists p, is_path tape loss x p).
Proof.
  intros tape loss x Ho. split.
  - intro H. destruct (paths OP loss tape 0 x) as [|p l] eqn:E; [congruence|].
    exists p. apply paths_complete; auto. rewrite E. now left.
  - intros [p Hp] E. apply paths_complete in Hp; auto. rewrite E in Hp. destruct Hp.
Qed.

Lemma not_extended : forall (tape : list entry) loss x, ordered tape ->
  extended OP (paths OP loss tape 0 x) = false -> paths OP loss tape 0 x <> [] ->
  x = loss /\ paths OP loss tape 0 x = [[]].
Proof.
  intros tape loss x Ho He Hn.
  assert (A : forall p, In p (paths OP loss tape 0 x) -> p = []).
  { intros p Hp. unfold extended in He.
    destruct p as [|st p]; auto. exfalso.
    assert (existsb (nonnil (A := GradSpec.step OP)) (paths OP loss tape 0 x) = true); [|congruence].
    apply existsb_exists. exists (st :: p). split; auto. }
  pose proof (paths_NoDup OP loss tape 0 x) as ND.
  destruct (paths OP loss tape 0 x) as [|p [|q l]] eqn:E; [congruence| |].
  - pose proof (A p (or_introl eq_refl)) as ->. split; auto.
    assert (Hp : is_path tape loss x []) by (apply paths_complete; auto; rewrite E; now left).
    now inversion Hp.
  - pose proof (A p (or_introl eq_refl)) as ->. pose proof (A q (or_intror (or_introl eq_refl))) as ->.
    inversion ND; subst. exfalso. apply H1. now left.
Qed.

Lemma backward_transpose : forall loss seed (s s' : gstate) (t : nat -> V) L,
  let tape := get_tape (active s) s in
  ordered tape -> NoDup (map (@e_out OP) tape) ->
  ones loss = Ok seed -> rules_ok OP V vjp vadd plus J tape ->
  (forall e, In e tape -> forall k g u, pair (J e k g) u = pair g (D e k u)) ->
  backward vjp vadd ones is_float loss s = (s', Ok tt) ->
  NoDup L -> (forall x, In x L <-> is_leaf tape x /\ exists p, is_path tape loss x p) ->
  (forall x, ~ is_leaf tape x \/ requires s x = false -> t x = zero) ->
  pair seed (tangents plus zero D tape t loss) =
  ksum K kplus kzero (map (fun x => pairo V K kzero pair (grads s' x) (t x)) L).
Proof.
  intros loss seed s s' t L tape Ho Hd Hone Hr Hadj Hb HL HLi Ht.
  pose proof (backward_paths OP V vjp vadd ones is_float plus J assoc loss seed s s' Hone Hr Hb) as Hg.
  fold tape in Hg. destruct Hr as (R1 & R2 & R3).
  destruct (backward_requires OP V vjp vadd ones is_float _ _ _ Hb) as (_ & Hreq & _).
  set (S := L ++ map (@e_out OP) tape).
  assert (Hout : forall x, In x (map (@e_out OP) tape) -> t x = zero).
  { intros x Hx. apply Ht. left. intro Hl. apply in_map_iff in Hx.
    destruct Hx as [e [E He]]. apply (Hl e He E). }
  rewrite (transpose_loop OP V K plus zero kplus kzero pair kassoc kcomm kzero_l assoc pair_l pair_r pair_0
             J D loss seed tape 0 t S); auto.
  - unfold S. rewrite map_app. unfold ksum. rewrite fold_right_app.
    fold (ksum K kplus kzero (map (fun x => pairo V K kzero pair
        (osum plus (map (along J seed) (paths OP loss tape 0 x))) (t x)) (map (@e_out OP) tape))).
    rewrite (ksum_zero K kplus kzero kzero_l).
    2:{ intros x Hx. rewrite Hout by auto. apply pairo_0. auto. }
    apply (ksum_ext K kplus kzero). intros x Hx. apply HLi in Hx. destruct Hx as [Hl Hp].
    destruct (requires s x) eqn:Ex.
    2:{ rewrite (Ht x) by auto. rewrite !pairo_0; auto. }
    f_equal. rewrite Hg, Ex. simpl.
    destruct (extended OP _) eqn:Ee; auto.
    destruct (not_extended tape loss x Ho Ee) as [-> ->].
    { apply in_paths_ne; auto. }
    rewrite Nat.eqb_refl. reflexivity.
  - intros e He. apply Hout. now apply in_map.
  - unfold S. apply NoDup_app2; auto. intros x Hx Hx'. apply HLi in Hx.
    apply in_map_iff in Hx'. destruct Hx' as [e [E He]]. destruct Hx as [Hl _]. apply (Hl e He E).
  - intros x Hx. unfold S. apply in_app_iff. destruct (leaf_dec tape x) as [H|H]; auto.
    left. apply HLi. split; auto. apply in_paths_ne; auto.
Qed.
End BackwardTranspose.

(** *** Over the reals *)
Section Real.
Open Scope R_scope.
Variable OP : Type.
Notation entry := (entry OP).
Variable f : entry -> list R -> R.
Variable c : entry -> nat -> R.

Notation DR := (fun e k u => c e k * u).
Notation tout := (tangent_out Rplus 0 DR).

(** [c e k] are the partial derivatives of [f e] at the values [val]. *)
Definition partials (s0 : R) (val : nat -> R) (e : entry) : Prop :=
  forall (w : R -> nat -> R) (u : nat -> R),
    (forall i, In i (e_ins e) -> w s0 i = val i) ->
    (forall i, In i (e_ins e) -> derivable_pt_lim (fun s => w s i) s0 (u i)) ->
    derivable_pt_lim (fun s => f e (map (w s) (e_ins e))) s0 (tout e u).

Lemma values_other : forall suf (v : nat -> R) x, ~ In x (map (@e_out OP) suf) ->
  values f suf v x = v x.
Proof.
  induction suf as [|e suf IH]; intros v x H; simpl; auto.
  rewrite IH by (intro Hx; apply H; now right).
  unfold fupd. destruct (Nat.eqb_spec x (e_out e)) as [->|]; auto. exfalso. apply H. now left.
Qed.

Lemma values_derivable : forall tape s0, ordered tape ->
  forall suf pre (w : R -> nat -> R) (u : nat -> R),
  tape = pre ++ suf ->
  (forall e, In e suf -> partials s0 (values f suf (w s0)) e) ->
  (forall x, ~ In x (map (@e_out OP) suf) -> derivable_pt_lim (fun s => w s x) s0 (u x)) ->
  forall x, derivable_pt_lim (fun s => values f suf (w s) x) s0 (tangents Rplus 0 DR suf u x).
Proof.
  intros tape s0 Ho suf. induction suf as [|e suf IH]; intros pre w u Et Hp Hd x.
  - simpl. apply Hd. simpl. tauto.
  - assert (Hins : forall i, In i (e_ins e) -> ~ In i (map (@e_out OP) (e :: suf))).
    { intros i Hi Hc. apply in_map_iff in Hc. destruct Hc as [g [E Hg]].
      destruct (In_nth_error _ _ Hg) as [j Hj].
      assert (A1 : nth_error tape (length pre) = Some e).
      { rewrite Et, nth_error_app2, Nat.sub_diag by lia. reflexivity. }
      assert (A2 : nth_error tape (length pre + j) = Some g).
      { rewrite Et, nth_error_app2 by lia. replace (length pre + j - length pre)%nat with j by lia. exact Hj. }
      apply (Ho _ _ _ _ A1 A2); [lia|]. now rewrite E. }
    simpl values. simpl tangents.
    apply (IH (pre ++ [e]) (fun s => fupd (w s) (e_out e) (f e (map (w s) (e_ins e))))
              (fupd u (e_out e) (tout e u))).
    + now rewrite <- app_assoc.
    + intros e' He'. apply (Hp e'). now right.
    + intros y Hy. unfold fupd. destruct (Nat.eqb_spec y (e_out e)) as [->|Hne].
      * apply (Hp e (or_introl eq_refl)).
        -- intros i Hi. symmetry. apply values_other. auto.
        -- intros i Hi. apply Hd. auto.
      * apply Hd. simpl. intros [E|E]; [congruence|contradiction].
Qed.

Variable vjp : entry -> R -> list entry * outcome (list R).
Variable vadd : R -> R -> list entry * outcome R.
Variable ones : nat -> outcome R.
Variable is_float : nat -> bool.

Definition grad_or_0 (g : option R) : R := match g with Some g => g | None => 0 end.

Lemma backward_derivative : forall loss (s s' : gstate OP R) (v : R -> nat -> R) (t : nat -> R) s0 L,
  let tape := get_tape (active s) s in
  ordered tape -> NoDup (map (@e_out OP) tape) ->
  ones loss = Ok 1 ->
  (forall a b, snd (vadd a b) = Ok (a + b)) ->
  (forall e, In e tape -> forall g,
     snd (vjp e g) = Ok (map (fun k => g * c e k) (seq 0 (length (e_ins e))))) ->
  (forall e, In e tape -> partials s0 (values f tape (v s0)) e) ->
  backward vjp vadd ones is_float loss s = (s', Ok tt) ->
  NoDup L -> (forall x, In x L <-> is_leaf tape x /\ exists p, is_path tape loss x p) ->
  (forall x, is_leaf tape x -> derivable_pt_lim (fun z => v z x) s0 (t x)) ->
  (forall x, requires s x = false -> t x = 0) ->
  derivable_pt_lim (fun z => values f tape (v z) loss) s0
    (fold_right Rplus 0 (map (fun x => grad_or_0 (grads s' x) * t x) L)).
Proof.
  intros loss s s' v t s0 L tape Ho Hd H1 Hadd Hvjp Hpar Hb HL HLi Hder Hreq.
  set (t' := fun x => if in_dec Nat.eq_dec x (map (@e_out OP) tape) then 0 else t x).
  assert (Et' : forall x, is_leaf tape x -> t' x = t x).
  { intros x Hx. unfold t'. destruct (in_dec _ _ _) as [Hi|]; auto.
    apply in_map_iff in Hi. destruct Hi as [e [E He]]. exfalso. apply (Hx e He E). }
  assert (T : 1 * tangents Rplus 0 DR tape t' loss =
      ksum R Rplus 0 (map (fun x => pairo R R 0 Rmult (grads s' x) (t' x)) L)).
  { apply (backward_transpose OP R R vjp vadd ones is_float Rplus 0 Rplus 0 Rmult)
      with (s := s) (J := fun e k g => g * c e k); auto; try (intros; ring).
    - split; auto. split; auto. intros; ring.
    - intros x [Hx|Hx].
      + unfold t'. destruct (in_dec _ _ _) as [|Hn]; auto. exfalso. apply Hx.
        intros e He E. apply Hn. rewrite <- E. now apply in_map.
      + unfold t'. destruct (in_dec _ _ _); auto. }
  rewrite Rmult_1_l in T.
  assert (E2 : fold_right Rplus 0 (map (fun x => grad_or_0 (grads s' x) * t x) L) =
               tangents Rplus 0 DR tape t' loss).
  { rewrite T. unfold ksum. f_equal. apply map_ext_in. intros x Hx.
    apply HLi in Hx. rewrite Et' by tauto. unfold pairo, grad_or_0.
    destruct (grads s' x); ring. }
  rewrite E2.
  apply (values_derivable tape s0 Ho tape [] v t'); auto.
  intros x Hx. assert (is_leaf tape x) as Hl.
  { intros e He E. apply Hx. rewrite <- E. now apply in_map. }
  rewrite Et' by auto. auto.
Qed.
End Real.
