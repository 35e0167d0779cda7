(** Proofs about window reductions. *)
From Coq Require Import List Arith ZArith Lia Bool ZifyBool Sorted.
From Verif Require Import Base IndexSpec LayoutModel ViewSpec LayoutProofs BcastProofs.
From Verif Require Import KernelModel TensorModel TensorSpec KernelProofs TensorProofs.
From Verif Require Import ReduceModel ReduceProofs ScanModel ScanProofs MoveModel MoveProofs WindowModel.
Import ListNotations.

(** Input index [i] lies in the window of output position [o]: on every axis
    [o*stride <= i + pad_before < o*stride + window], and [i] is in range. *)
Fixpoint in_window (o st W lo s i : list nat) : Prop :=
  match o, st, W, lo, s, i with
  | o0 :: o', t0 :: st', w0 :: W', p0 :: lo', n0 :: s', x :: i' =>
    x < n0 /\ o0 * t0 <= x + p0 < o0 * t0 + w0 /\ in_window o' st' W' lo' s' i'
  | [], [], [], [], [], [] => True
  | _, _, _, _, _, _ => False
  end.

Lemma in_window_valid : forall o st W lo s i, in_window o st W lo s i -> valid s i.
Proof.
  induction o as [|o0 o IH]; intros [|t0 st] [|w0 W] [|p0 lo] [|n0 s] [|x i] H; cbn in *; auto; try tauto.
  destruct H as [H1 [H2 H3]]. split; eauto.
Qed.

Lemma win_coords_in : forall W o st lo s w i, length o = length W -> length st = length W -> length lo = length W ->
  length s = length W -> valid W w -> win_coords o st w lo s = Some i -> in_window o st W lo s i.
Proof.
  induction W as [|w0 W IH]; intros [|o0 o] [|t0 st] [|p0 lo] [|n0 s] [|x w] i L1 L2 L3 L4 V H;
    try discriminate; cbn [valid] in V; try tauto.
  - cbn in H. injection H as <-. exact I.
  - cbn [win_coords] in H. destruct (o0 * t0 + x <? p0) eqn:E1; [discriminate|].
    destruct (n0 <=? o0 * t0 + x - p0) eqn:E2; [discriminate|].
    destruct (win_coords o st w lo s) as [i'|] eqn:E3; [|discriminate].
    injection H as <-. cbn [in_window]. split; [lia|]. split; [lia|].
    eapply IH; eauto. tauto.
Qed.
Lemma win_coords_onto : forall W o st lo s i, in_window o st W lo s i ->
  exists w, valid W w /\ win_coords o st w lo s = Some i.
Proof.
  induction W as [|w0 W IH]; intros [|o0 o] [|t0 st] [|p0 lo] [|n0 s] [|x i] H; cbn [in_window] in H; try tauto.
  - exists []. cbn. auto.
  - destruct H as [H1 [H2 H3]]. destruct (IH _ _ _ _ _ H3) as [w [V E]].
    exists (x + p0 - o0 * t0 :: w). cbn [valid win_coords]. split; [split; auto; lia|].
    replace (o0 * t0 + (x + p0 - o0 * t0)) with (x + p0) by lia.
    replace (x + p0 <? p0) with false by lia. replace (n0 <=? x + p0 - p0) with false by lia.
    rewrite E. cbn [option_map]. do 2 f_equal. lia.
Qed.
Lemma win_coords_mono : forall W o st lo s w w' i i', length o = length W -> length st = length W ->
  length lo = length W -> length s = length W -> valid W w -> valid W w' -> lex_lt w w' ->
  win_coords o st w lo s = Some i -> win_coords o st w' lo s = Some i' -> lex_lt i i'.
Proof.
  induction W as [|w0 W IH]; intros [|o0 o] [|t0 st] [|p0 lo] [|n0 s] [|x w] [|x' w'] i i' L1 L2 L3 L4 V V' LX H H';
    try discriminate; cbn [valid lex_lt] in V, V', LX; try tauto.
  cbn [win_coords] in H, H'.
  destruct (o0 * t0 + x <? p0) eqn:E1; [discriminate|].
  destruct (n0 <=? o0 * t0 + x - p0) eqn:E2; [discriminate|].
  destruct (win_coords o st w lo s) as [j|] eqn:E3; [|discriminate]. injection H as <-.
  destruct (o0 * t0 + x' <? p0) eqn:E1'; [discriminate|].
  destruct (n0 <=? o0 * t0 + x' - p0) eqn:E2'; [discriminate|].
  destruct (win_coords o st w' lo s) as [j'|] eqn:E3'; [|discriminate]. injection H' as <-.
  cbn [lex_lt]. destruct LX as [LX|[-> LX]]; [left; lia|right]. split; auto.
  eapply (IH o st lo s w w'); eauto; tauto.
Qed.

Definition opt_list {X} (o : option X) : list X := match o with Some x => [x] | None => [] end.

(** the elements of one window, in row-major order *)
Definition win_srcs (o st W lo s : list nat) : list (list nat) :=
  flat_map (fun w => opt_list (win_coords o st w lo s)) (all_idx W).

Lemma all_idx_sorted : forall s, StronglySorted lex_lt (all_idx s).
Proof.
  intros s. rewrite all_idx_map_unravel.
  assert (G : forall n k, k + n = nelem s -> StronglySorted lex_lt (map (unravel s) (seq k n))).
  { induction n as [|n IH]; intros k H; [constructor|]. cbn [seq map]. constructor; [apply IH; lia|].
    apply Forall_forall. intros x Hx. apply in_map_iff in Hx. destruct Hx as [y [<- Hy]]. apply in_seq in Hy.
    apply (ravel_lex s); try (apply unravel_valid; lia). rewrite !ravel_unravel by lia. lia. }
  apply G. lia.
Qed.

Lemma win_srcs_spec : forall o st W lo s, length o = length W -> length st = length W ->
  length lo = length W -> length s = length W ->
  StronglySorted lex_lt (win_srcs o st W lo s) /\ forall i, In i (win_srcs o st W lo s) <-> in_window o st W lo s i.
Proof.
  intros o st W lo s L1 L2 L3 L4. split.
  - unfold win_srcs. assert (G : forall l, StronglySorted lex_lt l -> (forall w, In w l -> valid W w) ->
      StronglySorted lex_lt (flat_map (fun w => opt_list (win_coords o st w lo s)) l)).
    { induction 1 as [|w l S IH F]; intros HV; [constructor|]. cbn [flat_map].
      destruct (win_coords o st w lo s) as [i|] eqn:E; cbn [opt_list app].
      - constructor; [apply IH; intros; apply HV; now right|]. apply Forall_forall. intros j Hj.
        apply in_flat_map in Hj. destruct Hj as [w' [Hw' Hj]].
        destruct (win_coords o st w' lo s) as [j'|] eqn:E'; cbn in Hj; [|tauto]. destruct Hj as [<-|[]].
        eapply (win_coords_mono W o st lo s w w'); eauto.
        + apply HV. now left. + apply HV. now right. + rewrite Forall_forall in F. auto.
      - apply IH. intros. apply HV. now right. }
    apply G; [apply all_idx_sorted|]. intros w Hw. now apply in_all_idx.
  - intros i. unfold win_srcs. rewrite in_flat_map. split.
    + intros [w [Hw Hi]]. apply in_all_idx in Hw. destruct (win_coords o st w lo s) as [j|] eqn:E; cbn in Hi; [|tauto].
      destruct Hi as [<-|[]]. eapply win_coords_in; eauto.
    + intros H. destruct (win_coords_onto _ _ _ _ _ _ H) as [w [V E]]. exists w. split; [now apply in_all_idx|].
      rewrite E. now left.
Qed.

Lemma pad_lo_eq : forall (padding : list (nat * nat)),
  map (fun i => nth (i * 2) (flat_map (fun p : nat * nat => [fst p; snd p]) padding) 0) (seq 0 (length padding)) =
  map fst padding.
Proof.
  induction padding as [|[lo hi] r IH]; auto. cbn [length seq map flat_map fst snd app]. f_equal.
  rewrite <- seq_shift, map_map. exact IH.
Qed.
Lemma flat_pad_length : forall (padding : list (nat * nat)),
  length (flat_map (fun p : nat * nat => [fst p; snd p]) padding) = 2 * length padding.
Proof. induction padding as [|p r IH]; auto. cbn [flat_map app length]. rewrite IH. lia. Qed.

(** the output size along each axis *)
Definition out_sizes (s window strides : list nat) (padding : list (nat * nat)) : list nat :=
  map (fun q => let '(d, (w, (st, (lo, hi)))) := q in (d + lo + hi - w) / st + 1)
    (combine s (combine window (combine strides padding))).
Definition window_fits (s window strides : list nat) (padding : list (nat * nat)) : Prop :=
  Forall (fun q => let '(d, (w, (st, (lo, hi)))) := q in w <= d + lo + hi /\ 0 < st)
    (combine s (combine window (combine strides padding))).

Lemma window_dims_ok : forall s window strides padding, length window = length s -> length strides = length s ->
  length padding = length s -> window_fits s window strides padding ->
  window_dims s window strides padding = Ok (out_sizes s window strides padding) /\
  length (out_sizes s window strides padding) = length s.
Proof.
  induction s as [|d s IH]; intros [|w window] [|st strides] [|[lo hi] padding] L1 L2 L3 F; try discriminate; auto.
  unfold window_fits in F. cbn [combine] in F. apply Forall_cons_iff in F. destruct F as [[H1 H2] H3].
  cbn [window_dims]. replace (d + lo + hi <? w) with false by lia. replace (st =? 0) with false by lia.
  destruct (IH window strides padding) as [E L]; auto. rewrite E. cbn [bind out_sizes combine map length].
  split; auto.
Qed.
Lemma window_dims_panic : forall s window strides padding, length window = length s -> length strides = length s ->
  length padding = length s -> ~ window_fits s window strides padding ->
  window_dims s window strides padding = Panic.
Proof.
  induction s as [|d s IH]; intros [|w window] [|st strides] [|[lo hi] padding] L1 L2 L3 F; try discriminate.
  - exfalso. apply F. constructor.
  - cbn [window_dims]. destruct (d + lo + hi <? w) eqn:E1; auto. destruct (st =? 0) eqn:E2; auto.
    rewrite IH; auto. intro X. apply F. unfold window_fits. cbn [combine]. constructor; auto. lia.
Qed.

Section R.
Variables (A B C : Type) (init : B) (f : B -> A -> B) (oob : option A) (fin : nat -> B -> C).
(** padding leaves the accumulator alone; [P] describes the accumulators that
    occur *)
Variable P : B -> Prop.
Variable Q : A -> Prop.
Hypothesis P0 : P init.
Hypothesis Pf : forall b a, Q a -> P b -> P (f b a).
Hypothesis Hoob : forall v b, oob = Some v -> P b -> f b v = b.

Lemma window_loop : forall (input : list A) l (o st lo : list nat) (s W : list nat) (val : list nat -> A),
  length o = length W -> length st = length W -> length lo = length W -> length s = length W ->
  (forall i, valid s i -> nth_error input (addr l i) = Some (val i)) -> (forall i, valid s i -> Q (val i)) ->
  forall n k acc, k + n = nelem W -> P acc ->
  loopO (fun win_idx acc =>
        let? wc := c_unravel win_idx W in
        match win_coords o st wc lo s with
        | Some ic => let? v := nth_error input (flat_index (loffset l) ic (lstrides l)) in Some (f acc v)
        | None => match oob with Some v => Some (f acc v) | None => Some acc end
        end) (seq k n) acc =
  Some (fold_left f (map val (flat_map (fun w => opt_list (win_coords o st w lo s)) (map (unravel W) (seq k n)))) acc).
Proof.
  intros input l o st lo s W val L1 L2 L3 L4 Hval HQ. induction n as [|n IH]; intros k acc Hk Hacc; auto.
  cbn [seq loopO map flat_map]. rewrite c_unravel_spec by lia. cbn [obind].
  assert (V : valid W (unravel W k)) by (apply unravel_valid; lia).
  destruct (win_coords o st (unravel W k) lo s) as [i|] eqn:E; cbn [opt_list app map].
  - assert (Vi : valid s i) by
      (apply (in_window_valid o st W lo s), (win_coords_in W o st lo s (unravel W k)); auto).
    rewrite flat_index_dot. fold (addr l i). rewrite Hval by auto. cbn [obind fold_left]. apply IH; auto. lia.
  - destruct oob as [v|] eqn:EO; cbn [obind].
    + rewrite (Hoob v acc) by auto. apply IH; auto. lia.
    + apply IH; auto. lia.
Qed.

Lemma reduce_window_kernel_spec : forall (input : list A) (out : list C) l window strides padding os val,
  wf_layout l -> length window = length (lshape l) -> length strides = length (lshape l) ->
  length padding = length (lshape l) -> length os = length (lshape l) -> length (lshape l) <= 16 ->
  (forall i, valid (lshape l) i -> nth_error input (addr l i) = Some (val i)) ->
  (forall i, valid (lshape l) i -> Q (val i)) ->
  length out = nelem os ->
  reduce_window_kernel init f oob fin input out
    (reduce_window_metadata l window strides (flat_map (fun p : nat * nat => [fst p; snd p]) padding) os) =
  Some (map (fun k => fin (nelem window)
     (fold_left f (map val (win_srcs (unravel os k) strides window (map fst padding) (lshape l))) init))
     (seq 0 (nelem os))).
Proof.
  intros input out l window strides padding os val Hw LW LT LP LO H16 Hval HQ Hout. unfold reduce_window_kernel.
  set (s := lshape l) in *. set (nd := length s) in *.
  set (pf := flat_map (fun p : nat * nat => [fst p; snd p]) padding).
  assert (LPF : length pf = 2 * nd) by (unfold pf; rewrite flat_pad_length; lia).
  set (md := reduce_window_metadata l window strides pf os).
  assert (LS : length (lstrides l) = nd) by exact Hw.
  assert (EM : md = [nelem os; nd] ++ s ++ lstrides l ++ [loffset l] ++ window ++ strides ++ pf ++ os) by reflexivity.
  clearbody md.
  assert (M0 : nth_error md 0 = Some (nelem os)) by (now rewrite EM).
  assert (M1 : nth_error md 1 = Some nd) by (now rewrite EM).
  assert (M2 : md_slice md 2 nd = Some s).
  { rewrite EM. apply (md_at _ [nelem os; nd] s (lstrides l ++ [loffset l] ++ window ++ strides ++ pf ++ os)); auto. }
  assert (M3 : md_slice md (2 + nd) nd = Some (lstrides l)).
  { rewrite EM. apply (md_at _ ([nelem os; nd] ++ s) (lstrides l) ([loffset l] ++ window ++ strides ++ pf ++ os));
      [assoc|rewrite !app_length; cbn [length]; fold nd; lia|auto]. }
  assert (M4 : nth_error md (2 + 2 * nd) = Some (loffset l)).
  { rewrite EM. apply (nth_at _ ([nelem os; nd] ++ s ++ lstrides l) (window ++ strides ++ pf ++ os)); [assoc|].
    rewrite !app_length, LS. cbn [length]. fold nd. lia. }
  assert (M5 : md_slice md (2 + 2 * nd + 1) nd = Some window).
  { rewrite EM. apply (md_at _ ([nelem os; nd] ++ s ++ lstrides l ++ [loffset l]) window (strides ++ pf ++ os));
      [assoc|rewrite !app_length, LS; cbn [length]; fold nd; lia|auto]. }
  assert (M6 : md_slice md (2 + 3 * nd + 1) nd = Some strides).
  { rewrite EM. apply (md_at _ ([nelem os; nd] ++ s ++ lstrides l ++ [loffset l] ++ window) strides (pf ++ os));
      [assoc|rewrite !app_length, LS, LW; cbn [length]; fold nd; lia|auto]. }
  assert (M7 : md_slice md (2 + 4 * nd + 1) (2 * nd) = Some pf).
  { rewrite EM. apply (md_at _ ([nelem os; nd] ++ s ++ lstrides l ++ [loffset l] ++ window ++ strides) pf os);
      [assoc|rewrite !app_length, LS, LW, LT; cbn [length]; fold nd; lia|auto]. }
  assert (M8 : md_slice md (2 + 6 * nd + 1) nd = Some os).
  { rewrite EM. apply (md_at _ ([nelem os; nd] ++ s ++ lstrides l ++ [loffset l] ++ window ++ strides ++ pf) os []);
      [rewrite app_nil_r; assoc|rewrite !app_length, LS, LW, LT, LPF; cbn [length]; fold nd; lia|auto]. }
  rewrite M0, M1. cbn [obind]. rewrite M2. cbn [obind]. rewrite M3. cbn [obind]. rewrite M4. cbn [obind].
  rewrite M5. cbn [obind]. rewrite M6. cbn [obind]. rewrite M7. cbn [obind]. rewrite M8. cbn [obind]. cbv zeta.
  apply seq_for_total; auto. intros k Hk. cbv beta. replace (16 <? nd) with false by lia.
  rewrite c_unravel_spec by exact Hk. cbn [obind].
  assert (EL : map (fun i => nth (i * 2) pf 0) (seq 0 nd) = map fst padding).
  { unfold pf. rewrite <- LP. apply pad_lo_eq. }
  rewrite EL. change shape_size with nelem.
  assert (Lu : length (unravel os k) = length window) by (rewrite unravel_length; congruence).
  rewrite (window_loop input l (unravel os k) strides (map fst padding) s window val); auto; try congruence.
  - cbn [obind]. unfold win_srcs. now rewrite all_idx_map_unravel.
  - rewrite map_length. congruence.
Qed.

Lemma t_reduce_window_spec : forall (z : C) (t : tensor A) window strides padding val, good t ->
  length window = length (tshape t) -> length strides = length (tshape t) -> length padding = length (tshape t) ->
  length (tshape t) <= 16 -> window_fits (tshape t) window strides padding ->
  (forall i, valid (tshape t) i -> elem t i = Some (val i)) -> (forall i, valid (tshape t) i -> Q (val i)) ->
  exists r, t_reduce_window init f oob fin z t window strides padding = Ok r /\ good r /\
    tlay r = from_shape (out_sizes (tshape t) window strides padding) /\
    forall o, valid (tshape r) o -> exists srcs,
      StronglySorted lex_lt srcs /\
      (forall i, In i srcs <-> in_window o strides window (map fst padding) (tshape t) i) /\
      elem r o = Some (fin (nelem window) (fold_left f (map val srcs) init)).
Proof.
  intros z t window strides padding val Hg LW LT LP H16 HF Hval HQ. unfold t_reduce_window. fold (tshape t).
  rewrite LW, LT, LP, !Nat.eqb_refl. cbn [negb].
  destruct (window_dims_ok _ _ _ _ LW LT LP HF) as [E L]. rewrite E. cbn [bind].
  set (os := out_sizes (tshape t) window strides padding) in *.
  rewrite (reduce_window_kernel_spec (tstore t) _ (tlay t) window strides padding os val); auto;
    [|apply Hg|apply repeat_length].
  fold (tshape t). cbn [ub bind]. eexists. split; [reflexivity|].
  split; [apply from_shape_good; now rewrite map_length, seq_length|]. split; [reflexivity|].
  intros o V. change (valid os o) in V. assert (Lo := valid_length _ _ V).
  exists (win_srcs o strides window (map fst padding) (tshape t)).
  destruct (win_srcs_spec o strides window (map fst padding) (tshape t)) as [S1 S2]; try rewrite map_length; try congruence.
  split; auto. split; auto. rewrite elem_fresh by auto. cbv zeta. now rewrite unravel_ravel by auto.
Qed.
End R.
