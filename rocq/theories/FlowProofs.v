(** Paths on the tape and the computations that recorded it. *)
From Coq Require Import List Arith Bool Lia.
From Verif Require Import Base LayoutModel KernelModel TensorModel MatrixModel GradModel GradSpec FlowModel FlowSpec.
Import ListNotations.

Section Link.
Variable OP : Type.
Notation entry := (entry OP).
Definition linked (t : list entry) (x y : nat) : Prop := exists p : list (nat * entry * nat), is_path t y x p.
Lemma linked_refl : forall (t : list entry) x, linked t x x.
Proof. intros. exists []. constructor. Qed.
Lemma path_mono : forall (t : list entry) e x y p, is_path t y x p -> is_path (t ++ [e]) y x p.
Proof.
  intros t e x y p H. induction H as [|i f k x p Hi Hk H IH]; [constructor|]. econstructor; eauto.
  rewrite nth_error_app1; auto. apply nth_error_Some. congruence.
Qed.
Definition unused (k : nat) (t : list entry) : Prop := forall f, In f t -> ~ In k (e_ins f).
Lemma path_old : forall (t : list entry) e x y p, unused (e_out e) (t ++ [e]) -> y <> e_out e -> is_path (t ++ [e]) y x p -> is_path t y x p.
Proof.
  intros t e x y p U N H. induction H as [|i f k x p Hi Hk H IH]; [constructor|].
  destruct (Nat.lt_ge_cases i (length t)) as [L|L].
  - rewrite nth_error_app1 in Hi by auto. econstructor; eauto.
  - rewrite nth_error_app2 in Hi by auto. destruct (i - length t) as [|j]; cbn in Hi; [|now destruct j]. inversion Hi; subst f. exfalso.
    inversion H as [E|i2 f2 k2 x2 p2 Hi2 Hk2 H2]; subst; [congruence|]. apply (U f2); [eapply nth_error_In; eauto|]. eapply nth_error_In; eauto.
Qed.
Lemma linked_old : forall (t : list entry) e x y, unused (e_out e) (t ++ [e]) -> y <> e_out e -> linked (t ++ [e]) x y <-> linked t x y.
Proof.
  intros t e x y U N. split; intros [p H]; exists p; [eapply path_old; eauto|now apply path_mono].
Qed.
(** the last step of a path *)
Lemma path_snoc : forall (t : list entry) x y i e k p, is_path t y x p -> nth_error t i = Some e -> nth_error (e_ins e) k = Some y -> is_path t (e_out e) x (p ++ [(i, e, k)]).
Proof.
  intros t x y i e k p H Hi Hk. induction H; cbn; econstructor; eauto. constructor.
Qed.
Lemma path_last : forall (t : list entry) x y p, is_path t y x p -> x = y \/ exists q i e k z, p = q ++ [(i, e, k)] /\ nth_error t i = Some e /\ e_out e = y /\ nth_error (e_ins e) k = Some z /\ is_path t z x q.
Proof.
  intros t x y p H. induction H as [|i e k x p Hi Hk H IH]; [now left|]. right. destruct IH as [E|(q & i2 & e2 & k2 & z & -> & H1 & H2 & H3 & H4)].
  - subst y. inversion H as [E|i2 e2 k2 x2 p2 Hi2 Hk2 H2]; subst.
    + exists [], i, e, k, x. cbn. repeat split; auto. constructor.
    + (* a path from the output to itself: take it whole *)
      destruct (@exists_last _ ((i2, e2, k2) :: p2) ltac:(discriminate)) as (q & [[i3 e3] k3] & E). rewrite E in *.
      assert (G : forall (t : list entry) y x p i e k, is_path t y x (p ++ [(i, e, k)]) -> nth_error t i = Some e /\ e_out e = y /\ exists z, nth_error (e_ins e) k = Some z /\ is_path t z x p).
      { clear. intros t y x p i e k. revert x. induction p as [|[[i0 e0] k0] p IH]; intros x H; cbn in H; inversion H as [|? ? ? ? ? H1 H2 H3]; subst.
        - inversion H3; subst. split; auto. split; auto. exists x. split; auto. constructor.
        - destruct (IH _ H3) as (A & B & z & C & D). split; auto. split; auto. exists z. split; auto. econstructor; eauto. }
      destruct (G _ _ _ _ _ _ _ H) as (A & B & z & C & D). exists ((i, e, k) :: q), i3, e3, k3, z. cbn. repeat split; auto. econstructor; eauto.
  - exists ((i, e, k) :: q), i2, e2, k2, z. cbn. repeat split; auto. econstructor; eauto.
Qed.
Lemma linked_new : forall (t : list entry) e x, unused (e_out e) (t ++ [e]) -> (forall f, In f t -> e_out f <> e_out e) ->
  linked (t ++ [e]) x (e_out e) <-> x = e_out e \/ exists i, In i (e_ins e) /\ linked t x i.
Proof.
  intros t e x U N. split.
  - intros [p H]. destruct (path_last _ _ _ _ H) as [->|(q & i & f & k & z & -> & H1 & H2 & H3 & H4)]; [now left|]. right.
    destruct (Nat.lt_ge_cases i (length t)) as [L|L].
    + rewrite nth_error_app1 in H1 by auto. apply nth_error_In in H1. now apply N in H1.
    + rewrite nth_error_app2 in H1 by auto. destruct (i - length t) as [|j]; cbn in H1; [|now destruct j]. inversion H1; subst f.
      exists z. apply nth_error_In in H3. split; auto. exists q. apply (path_old t e); auto. intros ->. apply (U e); auto. apply in_or_app. right. now left.
  - intros [->|(i & Hi & [p H])]; [apply linked_refl|]. apply In_nth_error in Hi. destruct Hi as [k Hk].
    exists (p ++ [(length t, e, k)]). eapply path_snoc; eauto using path_mono. rewrite nth_error_app2, Nat.sub_diag by lia. reflexivity.
Qed.
End Link.
Arguments linked {OP}. Arguments unused {OP}.

Section Flow.
Variable V : Type.
Notation world := (world V).
Notation tape w := (get_tape 0 (snd w)).

(** the registry between operations *)
Definition sane (w : world) : Prop :=
  computing (snd w) = false /\ in_step (snd w) = false /\ stack (snd w) = [] /\ (exists t, tapes (snd w) 0 = Some t) /\
  (forall i, i < fst w -> alive (snd w) i = true) /\
  (forall f, In f (tape w) -> e_out f < fst w /\ forall i, In i (e_ins f) -> i < fst w) /\
  (forall i, grads (snd w) i = None) /\
  ordered (tape w) /\
  (forall x y, x < fst w -> y < fst w -> req (snd w) x = true -> linked (tape w) x y -> req (snd w) y = true).

(** a new tensor *)
Lemma emit_ok : forall k ins r l w h w', sane w -> (forall i, In i ins -> i < fst w) -> (forall i, In i ins -> req (snd w) i = true -> r = true) -> emit k ins r l w = (h, w') ->
  sane w' /\ hid h = fst w /\ hreq h = r /\ hlay h = l /\ fst w' = S (fst w) /\ req (snd w') (fst w) = r /\
  (forall i, i < fst w -> req (snd w') i = req (snd w) i) /\
  (forall x y, y < fst w -> linked (tape w') x y <-> linked (tape w) x y) /\
  (forall x, linked (tape w') x (fst w) <->
     x = fst w \/ (k <> None /\ existsb (req (snd w)) ins = true /\ exists i, In i ins /\ linked (tape w) x i)).
Proof.
  intros k ins r l [n g] h w' (C1 & C2 & C3 & [t C4] & C5 & C6 & C7 & C8 & C9) Hi Hr E. cbn [fst snd] in *. unfold emit in E. injection E as <- <-. cbn [hid hreq hlay fst snd].
  assert (GT : get_tape 0 g = t) by (unfold get_tape; now rewrite C4). rewrite GT in *.
  set (g1 := set_req (fupd (req g) n r) (set_alive (fupd (alive g) n true) g)).
  assert (AL : forall i, i < S n -> fupd (alive g) n true i = true).
  { intros i H. unfold fupd. destruct (Nat.eqb_spec i n); auto. apply C5. lia. }
  assert (RQ : fupd (req g) n r n = r) by (unfold fupd; now rewrite Nat.eqb_refl).
  assert (RO : forall i, i < n -> fupd (req g) n r i = req g i) by (intros i H; unfold fupd; destruct (Nat.eqb_spec i n); [lia|auto]).
  assert (EX : existsb (requires g1) ins = existsb (req g) ins).
  { clear - Hi AL RO. induction ins as [|i ins IH]; auto. cbn [existsb]. rewrite IH by (intros; apply Hi; now right). f_equal. unfold requires, g1. cbn.
    rewrite AL, RO; auto; [apply Hi; now left|]. specialize (Hi i (or_introl eq_refl)). lia. }
  assert (CUT : forall x, linked t x n <-> x = n).
  { intros x. split; [|intros ->; apply linked_refl]. intros [p H]. destruct (path_last _ _ _ _ _ H) as [->|(q & i & e & k0 & z & _ & H1 & H2 & _)]; auto.
    apply nth_error_In in H1. apply C6 in H1. lia. }
  (* whether it is recorded *)
  set (b := match k with Some _ => r && existsb (req g) ins | None => false end).
  assert (CASE : (match k with Some k => if r then record (mkE n k ins) g1 else g1 | None => g1 end) =
    if b then set_tapes (fupd (tapes g) 0 (Some (t ++ [mkE n (match k with Some k => k | None => KMap end) ins]))) g1 else g1).
  { unfold b. destruct k as [k|]; [|reflexivity]. destruct r; [|reflexivity]. unfold record. cbn [computing in_step g1 set_req set_alive e_ins]. fold g1.
    rewrite EX. change (computing g1) with (computing g). change (in_step g1) with (in_step g). rewrite C1, C2. cbn [andb]. destruct (existsb (req g) ins); cbn [negb]; [|reflexivity].
    unfold active, push_entry. change (stack g1) with (stack g). rewrite C3. cbn [hd]. change (tapes g1) with (tapes g). now rewrite C4. }
  rewrite CASE. clear CASE. 
  set (g2 := if b then _ else g1).
  assert (RQ2 : req g2 = fupd (req g) n r) by (unfold g2; destruct b; reflexivity).
  assert (SAME : computing g2 = computing g /\ in_step g2 = in_step g /\ stack g2 = stack g /\ alive g2 = fupd (alive g) n true /\ grads g2 = grads g)
    by (unfold g2; destruct b; repeat split).
  destruct SAME as (S1 & S2 & S3 & S4 & S5).
  assert (LK : (forall x y, y < n -> linked (get_tape 0 g2) x y <-> linked t x y) /\
    (forall x, linked (get_tape 0 g2) x n <-> x = n \/ (k <> None /\ existsb (req g) ins = true /\ exists i, In i ins /\ linked t x i)) /\
    (exists u, tapes g2 0 = Some u) /\ ordered (get_tape 0 g2) /\
    (forall f, In f (get_tape 0 g2) -> e_out f < S n /\ forall i, In i (e_ins f) -> i < S n)).
  { unfold g2. destruct b eqn:Eb.
    - set (e := mkE n _ ins). match goal with |- context [get_tape 0 ?g] => change (get_tape 0 g) with (t ++ [e]) end.
      assert (U : unused (e_out e) (t ++ [e])).
      { intros f Hf Hn. cbn in Hn. apply in_app_or in Hf. destruct Hf as [Hf|[<-|[]]]; [apply C6 in Hf; destruct Hf as [_ Hf]; apply Hf in Hn; lia|]. apply Hi in Hn. lia. }
      assert (N : forall f, In f t -> e_out f <> e_out e) by (intros f Hf; apply C6 in Hf; cbn; lia).
      split; [|split; [|split; [|split]]].
      + intros x y Hy. apply linked_old; auto. cbn. lia.
      + intros x. change n with (e_out e) at 1 2. rewrite linked_new by auto. cbn [e_out e_ins e]. unfold b in Eb. destruct k as [k|]; [|discriminate].
        apply andb_true_iff in Eb. destruct Eb as [_ E2]. split; intros [H|H]; auto; right; [|tauto]. repeat split; auto. discriminate.
      + eexists. reflexivity.
      + intros i j e1 f H1 H2 Hij Hin.
        assert (J : forall j (f : entry kind), nth_error (t ++ [e]) j = Some f -> (j < length t /\ nth_error t j = Some f) \/ (j = length t /\ f = e)).
        { clear. intros j f H. destruct (Nat.lt_ge_cases j (length t)); [rewrite nth_error_app1 in H by auto; auto|]. rewrite nth_error_app2 in H by auto.
          destruct (j - length t) as [|d] eqn:D; cbn in H; [|now destruct d]. right. split; [lia|congruence]. }
        destruct (J _ _ H2) as [[L2 H2']|[L2 ->]].
        * destruct (J _ _ H1) as [[L1 H1']|[L1 ->]]; [|lia]. exact (C8 i j e1 f H1' H2' Hij Hin).
        * apply (U e1); auto. eapply nth_error_In; eauto.
      + intros f Hf. apply in_app_or in Hf. destruct Hf as [Hf|[<-|[]]]; cbn.
        * apply C6 in Hf. destruct Hf as [A B]. split; [lia|]. intros i Hx. apply B in Hx. lia.
        * split; [lia|]. intros i Hx. apply Hi in Hx. lia.
    - change (get_tape 0 g1) with (get_tape 0 g). rewrite GT. split; [tauto|split; [|split; [|split]]].
      + intros x. rewrite CUT. split; [tauto|]. intros [H|(H1 & H2 & H3)]; auto. unfold b in Eb. destruct k as [k|]; [|tauto].
        rewrite H2 in Eb. apply existsb_exists in H2. destruct H2 as (i & I1 & I2). rewrite (Hr i I1 I2) in Eb. discriminate.
      + eexists. exact C4.
      + exact C8.
      + intros f Hf. apply C6 in Hf. destruct Hf as [A B]. split; [lia|]. intros i Hx. apply B in Hx. lia. }
  destruct LK as (L1 & L2 & L3 & L4 & L5).
  split; [|split; [reflexivity|split; [reflexivity|split; [reflexivity|split; [reflexivity|split; [now rewrite RQ2|split; [now rewrite RQ2|split; assumption]]]]]]].
  unfold sane. cbn [fst snd]. rewrite S1, S2, S3, S4, S5. split; [auto|split; [auto|split; [auto|split; [auto|split; [exact AL|split; [auto|split; [auto|split; [auto|]]]]]]]].
  intros x y Hx Hy Rx Hl. rewrite RQ2 in *. destruct (Nat.eq_dec y n) as [->|Ny].
  - apply L2 in Hl. destruct Hl as [->|(_ & He & i & I1 & I2)]; [exact Rx|]. rewrite RQ. apply existsb_exists in He. destruct He as (j & J1 & J2). exact (Hr j J1 J2).
  - assert (y < n) by lia. apply L1 in Hl; auto. rewrite RO by auto. destruct (Nat.eq_dec x n) as [->|Nx].
    + exfalso. destruct Hl as [q Hq]. inversion Hq as [E1|i f k0 x0 p0 H1 H2 H3]; subst; [lia|]. apply nth_error_In in H1, H2. apply C6 in H1. destruct H1 as [_ H1]. apply H1 in H2. lia.
    + rewrite RO in Rx by lia. apply (C9 x y); auto. lia.
Qed.

(** what an operation on [w] with result [h] and new state [w'] does; [T] are the tensors it passes gradients to *)
Definition does (w : world) (h : handle) (w' : world) (T : list handle) : Prop :=
  sane w' /\ fst w <= hid h < fst w' /\ req (snd w') (hid h) = hreq h /\
  (forall i, i < fst w -> req (snd w') i = req (snd w) i) /\
  (forall x y, y < fst w -> linked (tape w') x y <-> linked (tape w) x y) /\
  (forall x, x < fst w -> req (snd w) x = true -> linked (tape w') x (hid h) <-> exists c, In c T /\ linked (tape w) x (hid c)).
Definition known (w : world) (h : handle) : Prop := hid h < fst w /\ req (snd w) (hid h) = hreq h.
Lemma does_known : forall w h w' T c, does w h w' T -> known w c -> known w' c.
Proof. intros w h w' T c (D1 & D2 & D3 & D4 & D5 & D6) [K1 K2]. split; [lia|]. rewrite D4; auto. Qed.

(** one recorded operation on known tensors *)
Lemma emit_does : forall k cs r l w h w', sane w -> Forall (known w) cs -> (forall c, In c cs -> hreq c = true -> r = true) ->
  emit (Some k) (map hid cs) r l w = (h, w') -> does w h w' cs /\ hlay h = l /\ hreq h = r.
Proof.
  intros k cs r l w h w' SA K R E. rewrite Forall_forall in K.
  destruct (emit_ok (Some k) (map hid cs) r l w h w' SA) as (A1 & A2 & A3 & A4 & A5 & A6 & A7 & A8 & A9); auto.
  - intros i Hi. apply in_map_iff in Hi. destruct Hi as (c & <- & Hc). apply K in Hc. apply Hc.
  - intros i Hi Q. apply in_map_iff in Hi. destruct Hi as (c & <- & Hc). apply (R c Hc). destruct (K c Hc) as [_ <-]. exact Q.
  - split; [|now split]. unfold does. rewrite A2, A5, A6. split; [exact A1|split; [lia|split; [auto|split; [auto|split; [auto|]]]]].
    intros x Hx Rx. rewrite A9. split.
    + intros [->|(_ & _ & i & Hi & Hl)]; [lia|]. apply in_map_iff in Hi. destruct Hi as (c & <- & Hc). exists c. auto.
    + intros (c & Hc & Hl). right. split; [discriminate|]. destruct (K c Hc) as [Kc _]. split.
      * apply existsb_exists. exists (hid c). split; [now apply in_map|]. destruct SA as (_ & _ & _ & _ & _ & _ & _ & _ & C9). apply (C9 x); auto.
      * exists (hid c). split; auto. now apply in_map.
Qed.
(** a tensor that is not recorded *)
Lemma emit_fresh : forall r l w h w', sane w -> emit None [] r l w = (h, w') -> does w h w' [] /\ hlay h = l /\ hreq h = r.
Proof.
  intros r l w h w' SA E. destruct (emit_ok None [] r l w h w' SA) as (A1 & A2 & A3 & A4 & A5 & A6 & A7 & A8 & A9); auto; try (intros i []).
  split; [|now split]. unfold does. rewrite A2, A5, A6. split; [exact A1|split; [lia|split; [auto|split; [auto|split; [auto|]]]]].
  intros x Hx _. rewrite A9. split; [intros [->|(H & _)]; [lia|congruence]|intros (c & [] & _)].
Qed.
(** two in a row *)
Lemma does_two : forall w h1 w1 T1 h2 w2 T2, does w h1 w1 T1 -> does w1 h2 w2 T2 ->
  fst w <= fst w1 /\ sane w2 /\ (forall i, i < fst w -> req (snd w2) i = req (snd w) i) /\ (forall x y, y < fst w -> linked (tape w2) x y <-> linked (tape w) x y).
Proof.
  intros w h1 w1 T1 h2 w2 T2 (D1 & D2 & D3 & D4 & D5 & D6) (F1 & F2 & F3 & F4 & F5 & F6). split; [lia|]. split; auto. split.
  - intros i Hi. rewrite F4, D4; auto. lia.
  - intros x y Hy. rewrite F5 by lia. now apply D5.
Qed.

Definition kept (cs : list handle) : list handle := filter (fun c => is_contiguous (hlay c)) cs.
Lemma view_does : forall o a w h w', sane w -> known w a -> view o a w = Ok (h, w') ->
  does w h w' (kept [a]) /\ (hreq h = true -> hreq a = true).
Proof.
  intros o a w h w' SA KA E.
  assert (E2 : (let '(c, w1) := contiguous a w in do l <- apply_view (hlay c) o ; Ok (emit (Some (KView o)) [hid c] (hreq c) l w1)) = Ok (h, w')).
  { unfold view in E. destruct o; auto. destruct (negb _); [discriminate|auto]. }
  clear E. unfold contiguous in E2. unfold kept. cbn [filter]. destruct (is_contiguous (hlay a)).
  - destruct (apply_view (hlay a) o) as [l| |]; try discriminate. injection E2 as E2. destruct (emit_does (KView o) [a] (hreq a) l w h w' SA) as (D & _ & R); auto.
    + intros c [<-|[]]. auto.
    + split; auto. congruence.
  - destruct (emit None [] false _ w) as [c w1] eqn:EC. destruct (emit_fresh _ _ _ _ _ SA EC) as (D1 & L1 & R1).
    destruct (apply_view (hlay c) o) as [l| |]; try discriminate. injection E2 as E2.
    assert (Kc : known w1 c) by (destruct D1 as (? & ? & ? & ?); split; [lia|auto]).
    destruct (emit_does (KView o) [c] (hreq c) l w1 h w' (proj1 D1)) as (D2 & _ & R2); auto.
    { intros q [<-|[]]. auto. }
    split; [|congruence]. destruct (does_two _ _ _ _ _ _ _ D1 D2) as (B1 & B2 & B3 & B4).
    destruct D1 as (P1 & P2 & P3 & P4 & P5 & P6). destruct D2 as (Q1 & Q2 & Q3 & Q4 & Q5 & Q6).
    split; [auto|split; [lia|split; [auto|split; [auto|split; [auto|]]]]].
    intros x Hx Rx. rewrite Q6; [|lia|now rewrite P4]. split.
    + intros (q & [<-|[]] & Hl). apply P6 in Hl; auto.
    + intros (q & [] & _).
Qed.
(** two views and the operation on them *)
Lemma pair_does : forall k o1 o2 a b r w h1 w1 h2 w2 l h w', sane w -> known w a -> known w b ->
  view o1 a w = Ok (h1, w1) -> view o2 b w1 = Ok (h2, w2) ->
  (hreq h1 = true -> r = true) -> (hreq h2 = true -> r = true) ->
  emit (Some k) [hid h1; hid h2] r l w2 = (h, w') ->
  does w h w' (kept [a; b]) /\ hlay h = l /\ hreq h = r.
Proof.
  intros k o1 o2 a b r w h1 w1 h2 w2 l h w' SA KA KB V1 V2 R1 R2 E.
  destruct (view_does _ _ _ _ _ SA KA V1) as [D1 _]. destruct (view_does _ _ _ _ _ (proj1 D1) (does_known _ _ _ _ _ D1 KB) V2) as [D2 _].
  assert (K1 : known w1 h1) by (destruct D1 as (? & ? & ? & ?); split; [lia|auto]).
  assert (K2 : known w2 h2) by (destruct D2 as (? & ? & ? & ?); split; [lia|auto]).
  destruct (emit_does k [h1; h2] r l w2 h w' (proj1 D2)) as (D3 & L & R); auto.
  - constructor; [exact (does_known _ _ _ _ _ D2 K1)|constructor; auto].
  - intros c [<-|[<-|[]]]; auto.
  - split; [|auto]. destruct (does_two _ _ _ _ _ _ _ D1 D2) as (B1 & B2 & B3 & B4).
    destruct D1 as (P1 & P2 & P3 & P4 & P5 & P6). destruct D2 as (Q1 & Q2 & Q3 & Q4 & Q5 & Q6). destruct D3 as (S1 & S2 & S3 & S4 & S5 & S6).
    split; [auto|split; [lia|split; [auto|split; [|split]]]].
    + intros i Hi. rewrite S4, B3; auto. lia.
    + intros x y Hy. rewrite S5, B4; auto; [tauto|lia].
    + intros x Hx Rx. rewrite S6; [|lia|now rewrite B3]. 
      assert (X1 : linked (tape w2) x (hid h1) <-> exists c, In c (kept [a]) /\ linked (tape w) x (hid c)) by (rewrite Q5 by apply K1; now apply P6).
      assert (X2 : linked (tape w2) x (hid h2) <-> exists c, In c (kept [b]) /\ linked (tape w) x (hid c)).
      { rewrite Q6; [|lia|now rewrite P4]. split; intros (c & Hc & Hl); exists c; (split; [auto|]).
        - apply P5; auto. unfold kept in Hc. apply filter_In in Hc. destruct Hc as [[<-|[]] _]. apply KB.
        - apply P5; auto. unfold kept in Hc. apply filter_In in Hc. destruct Hc as [[<-|[]] _]. apply KB. }
      unfold kept in *. split.
      * intros (c & [<-|[<-|[]]] & Hl).
        -- apply X1 in Hl. destruct Hl as (c & Hc & Hl). exists c. split; auto. apply filter_In in Hc. apply filter_In. split; [|tauto]. left. destruct Hc as [[Hc|[]] _]. auto.
        -- apply X2 in Hl. destruct Hl as (c & Hc & Hl). exists c. split; auto. apply filter_In in Hc. apply filter_In. split; [|tauto]. right. apply Hc.
      * intros (c & Hc & Hl). apply filter_In in Hc. destruct Hc as [[<-|[<-|[]]] Hc].
        -- exists h1. split; [now left|]. apply X1. exists a. split; auto. apply filter_In. split; [now left|auto].
        -- exists h2. split; [right; now left|]. apply X2. exists b. split; auto. apply filter_In. split; [now left|auto].
Qed.
Lemma zip_does : forall a b w h w', sane w -> known w a -> known w b -> zip a b w = Ok (h, w') -> does w h w' (kept [a; b]).
Proof.
  intros a b w h w' SA KA KB E. unfold zip in E. destruct (bt2_dims _ _) as [s|]; [|discriminate].
  destruct (view (VBroadcast s) a w) as [[h1 w1]| |] eqn:V1; cbn [bind] in E; try discriminate. cbn [fst snd] in E.
  destruct (view (VBroadcast s) b w1) as [[h2 w2]| |] eqn:V2; cbn [bind] in E; try discriminate. cbn [fst snd] in E.
  injection E as E. refine (proj1 (pair_does _ _ _ a b _ w h1 w1 h2 w2 _ h w' SA KA KB V1 V2 _ _ E)); intros ->; auto using orb_true_r.
Qed.
Lemma prod_does : forall a b w h w', sane w -> known w a -> known w b -> prod a b w = Ok (h, w') ->
  does w h w' (if (length (lshape (hlay a)) =? 2) && (length (lshape (hlay b)) =? 2) then [a; b] else kept [a; b]).
Proof.
  intros a b w h w' SA KA KB E. unfold prod in E. cbv zeta in E. destruct (_ || _); [discriminate|]. destruct (negb _); [discriminate|].
  destruct (_ && _).
  - injection E as E. refine (proj1 (emit_does _ [a; b] _ _ w h w' SA _ _ E)); [repeat (apply Forall_cons; [assumption|]); apply Forall_nil|].
    intros c [<-|[<-|[]]] H; rewrite H; auto using orb_true_r.
  - destruct (mat_batch _ _) as [s|]; [|discriminate].
    match type of E with (do p <- view ?o a w ; _) = _ => destruct (view o a w) as [[h1 w1]| |] eqn:V1 end; cbn [bind] in E; try discriminate. cbn [fst snd] in E.
    match type of E with (do p <- view ?o b w1 ; _) = _ => destruct (view o b w1) as [[h2 w2]| |] eqn:V2 end; cbn [bind] in E; try discriminate. cbn [fst snd] in E.
    injection E as E. destruct (view_does _ _ _ _ _ SA KA V1) as [D1 R1]. destruct (view_does _ _ _ _ _ (proj1 D1) (does_known _ _ _ _ _ D1 KB) V2) as [_ R2].
    refine (proj1 (pair_does _ _ _ a b _ w h1 w1 h2 w2 _ h w' SA KA KB V1 V2 _ _ E)); intros H; [rewrite (R1 H)|rewrite (R2 H)]; auto using orb_true_r.
Qed.
Lemma map_does : forall a w h w', sane w -> known w a -> map1 a w = (h, w') -> does w h w' [a].
Proof.
  intros a w h w' SA KA E. unfold map1 in E. refine (proj1 (emit_does _ [a] _ _ w h w' SA _ _ E)); [repeat (apply Forall_cons; [assumption|]); apply Forall_nil|]. intros c [<-|[]]. auto.
Qed.

(** programs *)
Definition inv (p : list instr) (vs : list handle) (w : world) : Prop :=
  sane w /\ length vs = length p /\ Forall (known w) vs /\
  (forall j i a, nth_error p j = Some i -> In a (operands i) -> a < j) /\
  (forall a b x y, nth_error vs a = Some x -> nth_error vs b = Some y -> a < b -> hid x < hid y) /\
  (forall l v x y, nth_error vs l = Some x -> nth_error vs v = Some y -> hreq x = true ->
     linked (tape w) (hid x) (hid y) <-> uses (uncopied (layout_at vs)) p l v).

Lemma uncopied_in : forall lay i a, In a (uncopied lay i) -> In a (operands i).
Proof.
  intros lay [s r|o a|a|a b|a b] c H; cbn [uncopied operands] in *; auto; try (apply filter_In in H; tauto).
  destruct (_ && _); auto. apply filter_In in H. tauto.
Qed.
Lemma uncopied_ext : forall lay lay' i, (forall a, In a (operands i) -> lay a = lay' a) -> uncopied lay i = uncopied lay' i.
Proof.
  intros lay lay' [s r|o a|a|a b|a b] H; cbn [uncopied operands filter In] in *; auto.
  - now rewrite (H a (or_introl eq_refl)).
  - now rewrite (H a (or_introl eq_refl)), (H b (or_intror (or_introl eq_refl))).
  - now rewrite (H a (or_introl eq_refl)), (H b (or_intror (or_introl eq_refl))).
Qed.
Lemma uses_mono : forall t1 t2 p q l v,
  (forall j i, nth_error p j = Some i -> nth_error q j = Some i /\ forall a, In a (t1 i) -> In a (t2 i)) ->
  uses t1 p l v -> uses t2 q l v.
Proof.
  intros t1 t2 p q l v H U. induction U as [|v i a Hv Ha U IH]; [constructor|]. destruct (H _ _ Hv) as [H1 H2]. econstructor; eauto.
Qed.
Lemma uses_le : forall t p l v, (forall j i a, nth_error p j = Some i -> In a (t i) -> a < j) -> uses t p l v -> l <= v.
Proof. intros t p l v H U. induction U as [|v i a Hv Ha U IH]; [lia|]. specialize (H _ _ _ Hv Ha). lia. Qed.

Lemma step_inv : forall p vs w i h w' T, inv p vs w -> (forall a, In a (operands i) -> a < length p) ->
  does w h w' T -> (forall c, In c T <-> exists a, In a (uncopied (layout_at vs) i) /\ nth_error vs a = Some c) ->
  inv (p ++ [i]) (vs ++ [h]) w'.
Proof.
  intros p vs w i h w' T (I1 & I2 & I3 & I4 & I5 & I6) OPS D HT. pose proof D as (D1 & D2 & D3 & D4 & D5 & D6).
  assert (KN : forall a x, nth_error vs a = Some x -> known w x) by (intros a x H; apply nth_error_In in H; rewrite Forall_forall in I3; auto).
  assert (SP : forall A (u : list A) z j y, nth_error (u ++ [z]) j = Some y -> (j < length u /\ nth_error u j = Some y) \/ (j = length u /\ y = z)).
  { clear. intros A u z j y H. destruct (Nat.lt_ge_cases j (length u)); [rewrite nth_error_app1 in H by auto; auto|]. rewrite nth_error_app2 in H by auto.
    destruct (j - length u) as [|d] eqn:E; cbn in H; [|now destruct d]. right. split; [lia|congruence]. }
  assert (O2 : forall j i0 a, nth_error (p ++ [i]) j = Some i0 -> In a (operands i0) -> a < j).
  { intros j i0 a H Ha. apply SP in H. destruct H as [[L H]|[-> ->]]; [eapply I4; eauto|auto]. }
  assert (LAY : forall a, a < length vs -> layout_at (vs ++ [h]) a = layout_at vs a) by (intros a H; unfold layout_at; now rewrite app_nth1).
  assert (UE : forall j i0, nth_error (p ++ [i]) j = Some i0 -> uncopied (layout_at (vs ++ [h])) i0 = uncopied (layout_at vs) i0).
  { intros j i0 H. apply uncopied_ext. intros a Ha. apply LAY. rewrite I2. apply SP in H. destruct H as [[L H]|[-> ->]]; auto. specialize (I4 _ _ _ H Ha). lia. }
  (* uses of the longer program *)
  assert (UO : forall l v, v < length p -> uses (uncopied (layout_at (vs ++ [h]))) (p ++ [i]) l v <-> uses (uncopied (layout_at vs)) p l v).
  { intros l v Hv. split; intros U.
    - induction U as [|v i0 a H Ha U IH]; [constructor|]. rewrite (UE _ _ H) in Ha. econstructor; [|exact Ha|].
      + apply SP in H. destruct H as [[_ H]|[-> _]]; [exact H|lia].
      + apply IH. specialize (O2 _ _ _ H (uncopied_in _ _ _ Ha)). lia.
    - apply (uses_mono _ _ _ _ _ _ ltac:(intros j i0 H; split; [rewrite nth_error_app1; [exact H|]; apply nth_error_Some; congruence|
        intros a Ha; rewrite (UE j i0); [exact Ha|]; rewrite nth_error_app1; [exact H|]; apply nth_error_Some; congruence]) U). }
  assert (NI : nth_error (p ++ [i]) (length p) = Some i) by (rewrite nth_error_app2, Nat.sub_diag by lia; reflexivity).
  assert (UN : forall l, l < length p -> uses (uncopied (layout_at (vs ++ [h]))) (p ++ [i]) l (length p) <-> exists a, In a (uncopied (layout_at vs) i) /\ uses (uncopied (layout_at vs)) p l a).
  { intros l Hl. split.
    - intros U. inversion U as [E|v i0 a H Ha U2 E]; [lia|]. subst v. rewrite NI in H. injection H as <-. rewrite (UE _ _ NI) in Ha. exists a. split; auto.
      apply UO; auto. apply OPS. eapply uncopied_in; eauto.
    - intros (a & Ha & U). apply (uses_step _ _ _ _ i a); auto; [rewrite (UE _ _ NI); auto|]. apply UO; auto. apply OPS. eapply uncopied_in; eauto. }
  split; [exact D1|split; [rewrite !app_length, I2; reflexivity|split; [|split; [exact O2|split]]]].
  - apply Forall_app. split; [|constructor; [split; [lia|auto]|constructor]]. eapply Forall_impl; [|exact I3]. intros c K. eapply does_known; eauto.
  - intros a b x y Ha Hb Hab. apply SP in Ha, Hb. destruct Hb as [[Lb Hb]|[-> ->]]; destruct Ha as [[La Ha]|[-> ->]]; try lia; eauto.
    apply KN in Ha. destruct Ha. lia.
  - intros l v x y Hx Hy R. apply SP in Hx, Hy. destruct Hy as [[Lv Hy]|[-> ->]]; destruct Hx as [[Lx Hx]|[-> ->]].
    + rewrite D5 by (apply (KN _ _ Hy)). rewrite UO by lia. eapply I6; eauto.
    + split.
      * intros Hl. exfalso. apply KN in Hy. destruct Hy as [Hy _]. apply D5 in Hl; auto. destruct I1 as (_ & _ & _ & _ & _ & C6 & _).
        destruct Hl as [q Hq]. inversion Hq as [E1|i1 f k0 x0 p0 H1 H2 H3]; subst; [lia|]. apply nth_error_In in H1, H2. apply C6 in H1. destruct H1 as [_ H1]. apply H1 in H2. lia.
      * intros U. apply uses_le in U; [lia|]. intros j i0 a H Ha. eapply O2; eauto. eapply uncopied_in; eauto.
    + pose proof (KN _ _ Hx) as [K1 K2]. rewrite D6; [|auto|congruence]. rewrite I2, UN by lia. split.
      * intros (c & Hc & Hl). apply HT in Hc. destruct Hc as (a & Ha & Hn). exists a. split; auto. apply (I6 l a x c); auto.
      * intros (a & Ha & U). destruct (nth_error vs a) as [c|] eqn:En.
        -- exists c. split; [apply HT; eauto|]. apply (I6 l a x c); auto.
        -- apply nth_error_None in En. specialize (OPS a (uncopied_in _ _ _ Ha)). lia.
    + split; intros _; [rewrite I2; constructor|apply linked_refl].
Qed.

Lemma fetch_some : forall vs a h, fetch vs a = Ok h -> nth_error vs a = Some h.
Proof. intros vs a h. unfold fetch, idx_or_panic. destruct (nth_error vs a); congruence. Qed.
Lemma layout_some : forall vs a h, nth_error vs a = Some h -> layout_at vs a = hlay h.
Proof. intros vs a h H. unfold layout_at. now rewrite (nth_error_nth _ _ _ H). Qed.
Lemma exec1_inv : forall p vs w i h w', inv p vs w -> exec1 i vs w = Ok (h, w') -> inv (p ++ [i]) (vs ++ [h]) w'.
Proof.
  intros p vs w i h w' I E. pose proof I as (I1 & I2 & I3 & I4 & I5 & I6). rewrite Forall_forall in I3.
  assert (KN : forall a x, fetch vs a = Ok x -> nth_error vs a = Some x /\ known w x /\ a < length p).
  { intros a x H. apply fetch_some in H. split; [auto|split; [apply I3; eapply nth_error_In; eauto|]]. rewrite <- I2. apply nth_error_Some. congruence. }
  destruct i as [s r|o a|a|a b|a b]; cbn [exec1] in E.
  - injection E as E. destruct (emit_fresh _ _ _ _ _ I1 E) as (D & _). apply (step_inv p vs w _ h w' [] I); auto; [intros a []|].
    intros c. split; [intros []|intros (a & [] & _)].
  - destruct (fetch vs a) as [x| |] eqn:Fa; cbn [bind] in E; try discriminate. destruct (KN _ _ Fa) as (N1 & K1 & L1).
    destruct (view_does _ _ _ _ _ I1 K1 E) as [D _]. apply (step_inv p vs w _ h w' _ I) with (2 := D); [intros c [<-|[]]; auto|].
    intros c. cbn [uncopied]. unfold kept. rewrite filter_In. split.
    + intros [[<-|[]] H]. exists a. split; auto. apply filter_In. split; [now left|]. now rewrite (layout_some _ _ _ N1).
    + intros (a0 & H & Hn). apply filter_In in H. destruct H as [[<-|[]] H]. rewrite (layout_some _ _ _ N1) in H. assert (c = x) by congruence. subst c. split; [now left|auto].
  - destruct (fetch vs a) as [x| |] eqn:Fa; cbn [bind] in E; try discriminate. destruct (KN _ _ Fa) as (N1 & K1 & L1). injection E as E.
    pose proof (map_does _ _ _ _ I1 K1 E) as D. apply (step_inv p vs w _ h w' _ I) with (2 := D); [intros c [<-|[]]; auto|].
    intros c. cbn [uncopied]. split; [intros [<-|[]]; exists a; split; [now left|auto]|intros (a0 & [<-|[]] & Hn)]. left. congruence.
  - destruct (fetch vs a) as [x| |] eqn:Fa; cbn [bind] in E; try discriminate. destruct (KN _ _ Fa) as (N1 & K1 & L1).
    destruct (fetch vs b) as [y| |] eqn:Fb; cbn [bind] in E; try discriminate. destruct (KN _ _ Fb) as (N2 & K2 & L2).
    pose proof (zip_does _ _ _ _ _ I1 K1 K2 E) as D. apply (step_inv p vs w _ h w' _ I) with (2 := D); [intros c [<-|[<-|[]]]; auto|].
    intros c. cbn [uncopied]. unfold kept. rewrite filter_In. split.
    + intros [[<-|[<-|[]]] H]; [exists a|exists b]; (split; [|assumption]); apply filter_In; (split; [cbn; auto|]);
        [rewrite (layout_some _ _ _ N1)|rewrite (layout_some _ _ _ N2)]; auto.
    + intros (a0 & H & Hn). apply filter_In in H. destruct H as [[<-|[<-|[]]] H].
      * rewrite (layout_some _ _ _ N1) in H. assert (c = x) by congruence. subst c. cbn; auto.
      * rewrite (layout_some _ _ _ N2) in H. assert (c = y) by congruence. subst c. cbn; auto.
  - destruct (fetch vs a) as [x| |] eqn:Fa; cbn [bind] in E; try discriminate. destruct (KN _ _ Fa) as (N1 & K1 & L1).
    destruct (fetch vs b) as [y| |] eqn:Fb; cbn [bind] in E; try discriminate. destruct (KN _ _ Fb) as (N2 & K2 & L2).
    pose proof (prod_does _ _ _ _ _ I1 K1 K2 E) as D. apply (step_inv p vs w _ h w' _ I) with (2 := D); [intros c [<-|[<-|[]]]; auto|].
    intros c. cbn [uncopied]. rewrite (layout_some _ _ _ N1), (layout_some _ _ _ N2). destruct (_ && _).
    + split.
      * intros [<-|[<-|[]]]; [exists a|exists b]; cbn; auto.
      * intros (a0 & [<-|[<-|[]]] & Hn); cbn; [left|right; left]; congruence.
    + unfold kept. rewrite filter_In. split.
      * intros [[<-|[<-|[]]] H]; [exists a|exists b]; (split; [|assumption]); apply filter_In; (split; [cbn; auto|]);
        [rewrite (layout_some _ _ _ N1)|rewrite (layout_some _ _ _ N2)]; auto.
      * intros (a0 & H & Hn). apply filter_In in H. destruct H as [[<-|[<-|[]]] H].
        -- rewrite (layout_some _ _ _ N1) in H. assert (c = x) by congruence. subst c. cbn; auto.
        -- rewrite (layout_some _ _ _ N2) in H. assert (c = y) by congruence. subst c. cbn; auto.
Qed.
Lemma exec_inv : forall q p vs w vs' w', inv p vs w -> exec q vs w = Ok (vs', w') -> inv (p ++ q) vs' w'.
Proof.
  induction q as [|i q IH]; intros p vs w vs' w' I E; cbn [exec] in E.
  - injection E as <- <-. now rewrite app_nil_r.
  - destruct (exec1 i vs w) as [[h w1]| |] eqn:E1; cbn [bind] in E; try discriminate. cbn [fst snd] in E.
    change (i :: q) with ([i] ++ q). rewrite app_assoc. apply (IH _ _ _ _ _ (exec1_inv _ _ _ _ _ _ I E1) E).
Qed.
Lemma forward_inv : forall p vs w, forward p = Ok (vs, w) -> inv p vs w.
Proof.
  intros p vs w E. apply (exec_inv p [] [] (0, init) vs w); [|exact E]. unfold inv, sane. cbn [fst snd init computing in_step stack tapes alive grads get_tape req].
  repeat split; auto; try lia; try discriminate.
  - eexists. reflexivity.
  - destruct H.
  - intros i Hi. destruct H.
  - intros i j e f H. now destruct i.
  - intros j i a H. now destruct j.
  - intros a b x y H. now destruct a.
  - now destruct l.
  - now destruct l.
Qed.
End Flow.
