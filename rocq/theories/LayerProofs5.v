(** RNN, GRU and LSTM. *)
From Coq Require Import List Arith ZArith Lia Bool Reals Lra.
From Verif Require Import Base IndexSpec LayoutModel ViewSpec LayoutProofs BcastProofs.
From Verif Require Import KernelModel TensorModel TensorSpec KernelProofs TensorProofs.
From Verif Require Import EncodeModel MatrixModel DenSpec DenProofs MatrixProofs2.
From Verif Require Import NumModel NnModel NnSpec NnProofs LayerModel LayerSpec LayerProofs LayerProofs2 LayerProofs3 LayerProofs4.
Import ListNotations.
Open Scope nat_scope.

Section Recurrent.
Variable e : env.
Hypothesis He : env_ok e.
Hypothesis Hm : mat_env_ok e.
Variable blas : bool.

Definition relm (d : dtype) (B h : nat) (s : xtensor) (m : matrix) : Prop := solid s /\ xmat s d B h m.

Lemma rows_ok : forall x d L B h X, xcube x d L B h X -> forall n a, a + n <= L ->
  exists st, seq_all (map (x_row x) (seq a n)) = Ok st /\ length st = n /\ Forall2 (relm d B h) st (map X (seq a n)).
Proof.
  intros x d L B h X Xx. induction n as [|n IH]; intros a Hn; cbn [seq map seq_all].
  - exists []. auto.
  - destruct (xcube_row x d L B h X a Xx ltac:(lia)) as [r [E R]]. rewrite E. cbn [bind].
    destruct (IH (S a) ltac:(lia)) as [st [E2 [L2 F2]]]. rewrite E2. cbn [bind]. exists (r :: st).
    split; auto. split; [cbn; lia|]. constructor; auto.
Qed.
Lemma init_ok : forall h0 d L B h H0, 0 < B -> 0 < h -> xinit h0 d L B h H0 ->
  exists st, init_states L h d h0 B = Ok st /\ length st = L /\ Forall2 (relm d B h) st (map H0 (seq 0 L)).
Proof.
  intros [x|] d L B h H0 PB Ph X; cbn [init_states xinit] in *.
  - eapply rows_ok; eauto.
  - eexists. split; [reflexivity|]. split; [apply repeat_length|].
    assert (Q : forall m, (forall b j, m b j = 0%R) ->
      relm d B h (mkX d (mkT (repeat (Fin 0) (B * h)) (from_shape [B; h]))) m).
    { intros m Hm0. assert (N : nelem [B; h] = B * h) by (rewrite !nelem_cons; change (nelem []) with 1; lia). split.
      - split; [reflexivity|]. cbn [xdata tstore xshape]. rewrite repeat_length. symmetry. exact N.
      - split; [reflexivity|]. cbn [xdata]. rewrite <- N. eapply den_ext; [apply t_full_good_den; constructor; auto|].
        intros i V. cbn beta. now rewrite Hm0. }
    generalize 0 as a. induction L as [|L IH]; intros a; cbn; constructor; auto.
Qed.

Definition stack_ok (nexts : list (matrix -> matrix -> matrix)) (cells : list cell) d (T B h : nat) (bf : bool)
    (X H0 : nat -> matrix) (r : outcome (xtensor * xtensor)) : Prop :=
  let st0 := map H0 (seq 0 (length cells)) in
  exists o hn, r = Ok (o, hn) /\
    (if bf then xcube o d B T h (fun b t => output_at (fun m => m) nexts X st0 t b)
     else xcube o d T B h (output_at (fun m => m) nexts X st0)) /\
    xcube hn d (length cells) B h (fun l => nth l (states_at (fun m => m) nexts X st0 T) (fun _ _ => 0%R)).

Lemma states_rel : forall d B h st sg, Forall2 (relm d B h) st sg ->
  forall j x, nth_error st j = Some x -> solid x /\ xmat x d B h (nth j sg (fun _ _ => 0%R)).
Proof.
  intros d B h st sg F. induction F as [|s m st sg R F IH]; intros [|j] x J; cbn in J; try discriminate.
  - inversion J; subst. exact R.
  - cbn [nth]. now apply IH.
Qed.

Lemma stack_forward : forall (step : cell -> xtensor -> xtensor -> outcome xtensor) (next : weights -> nat -> matrix -> matrix -> matrix)
    g cells ws d k h T B (bf : bool) input X h0 H0,
  (forall c w kk x X s M, xcell c d kk h g w -> xmat x d B kk X -> xmat s d B h M -> fit blas x -> fit blas s ->
     exists r, step c x s = Ok r /\ solid r /\ xmat r d B h (next w kk X M)) ->
  cells <> [] -> xcells cells d k h g ws ->
  (if bf then xcube input d B T k (fun b t => X t b) else xcube input d T B k X) ->
  xinit h0 d (length cells) B h H0 ->
  stack_ok (sized next k h ws) cells d T B h bf X H0
    (do r <- forward_seq (map step cells) (fun s => s) bf (init_states (length cells) h (xdtype input) h0) input ;
     do h_n <- x_stack (snd r) ; Ok (fst r, h_n)).
Proof.
  intros step next g cells ws d k h T B bf input X h0 H0 Hs NE Xc Xi Xh.
  assert (PB : 0 < B /\ xdtype input = d).
  { destruct bf; (split; [destruct (xcube_pos _ _ _ _ _ _ Xi) as [? [? ?]]; auto|apply Xi]). }
  destruct PB as [PB Di].
  assert (Ph : 0 < h).
  { destruct cells as [|c cells]; [congruence|]. destruct ws as [|w ws]; [destruct Xc|]. destruct Xc as [[_ [Xw _]] _].
    now destruct (xmat_pos _ _ _ _ _ Xw). }
  rewrite Di. destruct (init_ok h0 d (length cells) B h H0 PB Ph Xh) as [st [Es [Ls FR]]].
  assert (LO : layers_ok blas (relm d B h) d B h k (map step cells) (sized next k h ws)).
  { clear - Hs Xc. revert k ws Xc. induction cells as [|c cells IH]; intros k ws Xc.
    - destruct ws; [exact I|destruct Xc].
    - destruct ws as [|w ws]; [destruct Xc|]. destruct Xc as [X1 X2]. cbn [map sized layers_ok]. split.
      + intros x X s sg Xx Fx [So Xs]. destruct (Hs c w k x X s sg X1 Xx Xs Fx) as [r [E [Sr Xr]]].
        { eapply solid_fit; eauto. }
        exists r. split; auto. split; auto.
      + specialize (IH h ws X2). destruct ws; exact IH. }
  destruct (forward_seq_ok blas (fun s => s) (fun m => m) (relm d B h) d B h (fun s g R => R)
              (map step cells) (sized next k h ws) k T input X bf (init_states (length cells) h d h0) st (map H0 (seq 0 (length cells)))) as [o [st' [E [L' [F' Xo]]]]]; auto.
  - intro Q. apply map_eq_nil in Q. congruence.
  - rewrite map_length. exact Ls.
  - rewrite E. cbn [bind fst snd]. rewrite map_length in L'.
    destruct (x_stack_cube st' d B h (fun l => nth l (states_at (fun m => m) (sized next k h ws) X (map H0 (seq 0 (length cells))) T) (fun _ _ => 0%R))) as [hn [Eh Xn]]; auto.
    + intros ->. destruct cells; [congruence|discriminate].
    + apply states_rel. exact F'.
    + rewrite Eh. cbn [bind]. exists o, hn. split; auto. split; auto. rewrite L' in Xn. exact Xn.
Qed.

Lemma rnn_forward_ok : forall (relu : bool) cells ws d k h T B (bf : bool) input X h0 H0, is_float d = true ->
  cells <> [] -> xcells cells d k h 1 ws ->
  (if bf then xcube input d B T k (fun b t => X t b) else xcube input d T B k X) ->
  xinit h0 d (length cells) B h H0 ->
  stack_ok (sized (rnn_next_m (if relu then Rmax 0 else tanh) h) k h ws) cells d T B h bf X H0
    (rnn_forward e blas relu cells h bf input h0).
Proof.
  intros relu cells ws d k h T B bf input X h0 H0 F NE Xc Xi Xh. unfold rnn_forward.
  apply (stack_forward (rnn_step e blas relu) (rnn_next_m (if relu then Rmax 0 else tanh) h) 1); auto.
  intros c w kk x X0 s M Xcw Xx Xs Fx Fs. exact (rnn_step_ok e He Hm blas relu c d B kk h w x s X0 M F Xcw Xx Xs Fx Fs).
Qed.
Lemma gru_forward_ok : forall cells ws d k h T B (bf : bool) input X h0 H0, is_float d = true ->
  cells <> [] -> xcells cells d k h 3 ws ->
  (if bf then xcube input d B T k (fun b t => X t b) else xcube input d T B k X) ->
  xinit h0 d (length cells) B h H0 ->
  stack_ok (sized (gru_next_m h) k h ws) cells d T B h bf X H0 (gru_forward e blas cells h bf input h0).
Proof.
  intros cells ws d k h T B bf input X h0 H0 F NE Xc Xi Xh. unfold gru_forward.
  apply (stack_forward (gru_step e blas h) (gru_next_m h) 3); auto.
  intros c w kk x X0 s M Xcw Xx Xs Fx Fs. exact (gru_step_ok e He Hm blas c d B kk h w x s X0 M F Xcw Xx Xs Fx Fs).
Qed.

Definition relp (d : dtype) (B h : nat) (s : xtensor * xtensor) (m : matrix * matrix) : Prop :=
  relm d B h (fst s) (fst m) /\ relm d B h (snd s) (snd m).
Lemma combine_rel : forall d B h a a' b b', Forall2 (relm d B h) a a' -> Forall2 (relm d B h) b b' ->
  Forall2 (relp d B h) (combine a b) (combine a' b').
Proof.
  intros d B h a a' b b' F. revert b b'. induction F as [|x m a a' R F IH]; intros b b' G; cbn; [constructor|].
  destruct G as [|y n b b' R2 G]; constructor; auto. split; auto.
Qed.
Lemma rel_parts : forall d B h st sg, Forall2 (relp d B h) st sg ->
  Forall2 (relm d B h) (map fst st) (map fst sg) /\ Forall2 (relm d B h) (map snd st) (map snd sg).
Proof. intros d B h st sg F. induction F as [|s m st sg [R1 R2] F [IH1 IH2]]; cbn; split; constructor; auto. Qed.

Lemma lstm_forward_ok : forall cells ws d k h T B (bf : bool) input X h0 c0 H0 C0, is_float d = true ->
  cells <> [] -> xcells cells d k h 4 ws ->
  (if bf then xcube input d B T k (fun b t => X t b) else xcube input d T B k X) ->
  xinit h0 d (length cells) B h H0 -> xinit c0 d (length cells) B h C0 ->
  let nexts := sized (lstm_next_m h) k h ws in
  let st0 := map (fun l => (H0 l, C0 l)) (seq 0 (length cells)) in
  exists o hn cn, lstm_forward e blas cells h bf input h0 c0 = Ok (o, hn, cn) /\
    (if bf then xcube o d B T h (fun b t => output_at fst nexts X st0 t b)
     else xcube o d T B h (output_at fst nexts X st0)) /\
    xcube hn d (length cells) B h (fun l => nth l (map fst (states_at fst nexts X st0 T)) (fun _ _ => 0%R)) /\
    xcube cn d (length cells) B h (fun l => nth l (map snd (states_at fst nexts X st0 T)) (fun _ _ => 0%R)).
Proof.
  intros cells ws d k h T B bf input X h0 c0 H0 C0 F NE Xc Xi Xh Xc0 nexts st0.
  assert (PB : 0 < B /\ xdtype input = d).
  { destruct bf; (split; [destruct (xcube_pos _ _ _ _ _ _ Xi) as [? [? ?]]; auto|apply Xi]). }
  destruct PB as [PB Di].
  assert (Ph : 0 < h).
  { destruct cells as [|c cells]; [congruence|]. destruct ws as [|w ws]; [destruct Xc|]. destruct Xc as [[_ [Xw _]] _].
    now destruct (xmat_pos _ _ _ _ _ Xw). }
  unfold lstm_forward. rewrite Di.
  destruct (init_ok h0 d (length cells) B h H0 PB Ph Xh) as [sh [Eh [Lh Fh]]].
  destruct (init_ok c0 d (length cells) B h C0 PB Ph Xc0) as [sc [Ec [Lc Fc]]].
  assert (E0 : combine (map H0 (seq 0 (length cells))) (map C0 (seq 0 (length cells))) = st0).
  { unfold st0. generalize (seq 0 (length cells)). induction l as [|x l IH]; cbn; congruence. }
  pose proof (combine_rel d B h _ _ _ _ Fh Fc) as FR. rewrite E0 in FR.
  set (step := fun c x (s : xtensor * xtensor) => lstm_step e blas h c x (fst s) (snd s)).
  assert (LO : layers_ok blas (relp d B h) d B h k (map step cells) nexts).
  { unfold nexts. clear - He Hm F Xc. revert k ws Xc. induction cells as [|c cells IH]; intros k ws Xc.
    - destruct ws; [exact I|destruct Xc].
    - destruct ws as [|w ws]; [destruct Xc|]. destruct Xc as [X1 X2]. cbn [map sized layers_ok]. split.
      + intros x X s sg Xx Fx [[S1 Y1] [S2 Y2]].
        destruct (lstm_step_ok e He Hm blas c d B k h w x (fst s) (snd s) X (fst sg) (snd sg) F X1 Xx Y1 Y2 Fx) as [h' [c' [E [Sh [Sc [Xh Xcc]]]]]].
        { eapply solid_fit; eauto. }
        exists (h', c'). split; [exact E|]. split; split; auto.
      + specialize (IH h ws X2). destruct ws; exact IH. }
  destruct (forward_seq_ok blas fst fst (relp d B h) d B h (fun s g R => proj1 R)
              (map step cells) nexts k T input X bf
              (fun batch => do hh <- init_states (length cells) h d h0 batch ;
                          do c <- init_states (length cells) h d c0 batch ;
                          Ok (combine hh c)) (combine sh sc) st0) as [o [st' [E [L' [F' Xo]]]]]; auto.
  - intro Q. apply map_eq_nil in Q. congruence.
  - rewrite Eh. cbn [bind]. rewrite Ec. reflexivity.
  - rewrite map_length, combine_length. lia.
  - rewrite E. cbn [bind fst snd]. rewrite map_length in L'. destruct (rel_parts _ _ _ _ _ F') as [F1 F2].
    destruct (x_stack_cube (map fst st') d B h (fun l => nth l (map fst (states_at fst nexts X st0 T)) (fun _ _ => 0%R))) as [hn [En Xn]]; auto.
    { intro Q. apply map_eq_nil in Q. subst st'. destruct cells; [congruence|discriminate]. }
    { apply states_rel. exact F1. }
    destruct (x_stack_cube (map snd st') d B h (fun l => nth l (map snd (states_at fst nexts X st0 T)) (fun _ _ => 0%R))) as [cn [Ecn Xcn]]; auto.
    { intro Q. apply map_eq_nil in Q. subst st'. destruct cells; [congruence|discriminate]. }
    { apply states_rel. exact F2. }
    rewrite En. cbn [bind]. rewrite Ecn. cbn [bind]. exists o, hn, cn. rewrite map_length, L' in Xn, Xcn. auto.
Qed.
End Recurrent.
