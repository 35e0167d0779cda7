(** The pooling layers. *)
From Coq Require Import List Arith ZArith Lia Bool Permutation Sorted Reals Lra.
From Verif Require Import Base IndexSpec LayoutModel ViewSpec LayoutProofs LayoutProofs2 BcastProofs.
From Verif Require Import KernelModel TensorModel TensorSpec KernelProofs TensorProofs ElementwiseProofs.
From Verif Require Import EncodeModel ReduceSpec WindowModel WindowProofs DenSpec DenProofs.
From Verif Require Import NumModel NnModel NnSpec NnProofs NnProofs2 LayerModel NormProofs PoolModel PoolSpec PoolProofs.
Import ListNotations.
Open Scope nat_scope.

Lemma largest_fold : forall A (l : list A) (f : A -> R), largest l f (fold_left xmax (map (fun q => Fin (f q)) l) NInf).
Proof.
  intros A l f. destruct l as [|x l]; [left; auto|]. right. cbn [map fold_left].
  replace (xmax NInf (Fin (f x))) with (Fin (f x)) by reflexivity.
  assert (G : forall l y, exists m, fold_left xmax (map (fun q => Fin (f q)) l) (Fin y) = Fin m /\ (y <= m)%R /\
    (forall q, In q l -> (f q <= m)%R) /\ (m = y \/ exists q, In q l /\ f q = m)).
  { clear. induction l as [|x l IH]; intros y; cbn [map fold_left]; [exists y; repeat split; auto; [lra|intros q []]|].
    unfold xmax at 2. cbn [xltb]. unfold Rltb. destruct (Rlt_dec (f x) y) as [L|L].
    - destruct (IH y) as [m [E [H1 [H2 H3]]]]. exists m. split; [exact E|]. split; [lra|]. split.
      + intros q [<-|Hq]; [lra|auto].
      + destruct H3 as [->|[q [Hq Hm]]]; auto. right. exists q. split; auto. now right.
    - destruct (IH (f x)) as [m [E [H1 [H2 H3]]]]. exists m. split; [exact E|]. split; [lra|]. split.
      + intros q [<-|Hq]; [lra|auto].
      + right. destruct H3 as [->|[q [Hq Hm]]]; [exists x; split; auto; now left|]. exists q. split; auto. now right. }
  destruct (G l (f x)) as [m [E [H1 [H2 H3]]]]. exists m. split; [exact E|]. split.
  - destruct H3 as [->|[q [Hq Hm]]]; [exists x; split; auto; now left|]. exists q. split; auto. now right.
  - intros q [<-|Hq]; auto.
Qed.
Lemma xmax_ninf : forall b, low b -> xmax b NInf = b.
Proof. intros [x| | |] H; try contradiction; reflexivity. Qed.

Lemma mean_window : forall x d n c l f ws, is_float d = true -> xden x d (n :: c :: l) (fun i => Fin (f i)) ->
  Forall2 fits ws l -> length l <= 14 -> 0 < nelem (map wsize ws) ->
  exists r, x_window_mean x (1 :: 1 :: map wsize ws) (1 :: 1 :: map wstep ws) ((0, 0) :: (0, 0) :: map (fun w => (wpad w, wpad w)) ws) = Ok r /\
    xden r d (n :: c :: counts ws l)
      (fun i => Fin (Rsum (map (fun q => f (in_channel i q)) (region ws l (skipn 2 i))) / INR (nelem (map wsize ws)))%R).
Proof.
  intros x d n c l f ws F X HF L NZ. pose proof X as [D H]. assert (LW : length ws = length l) by (eapply Forall2_len; eauto).
  unfold x_window_mean. rewrite (xden_shape _ _ _ _ X). cbn [length]. rewrite !map_length, LW, !Nat.eqb_refl. cbn [negb].
  rewrite D, (float_allowed Floats _ F). cbn [negb].
  destruct (window_den (Fin 0) xadd None (fun n b => xdiv b (nat_x n)) (fun _ => True) (fun _ => True) I (fun _ _ _ _ => I)
    ltac:(discriminate) (xdata x) n c l _ ws H HF L (fun _ _ => I)) as [r [E Hr]].
  rewrite E. cbn [bind]. eexists. split; [reflexivity|]. split; [reflexivity|]. cbn [xdata].
  eapply den_ext; [exact Hr|]. intros i V. cbn beta. rewrite (map_map _ (fun i => Fin (f i))).
  rewrite (fold_xadd _ _ (fun q => f (in_channel i q))). unfold nat_x. rewrite xdiv_fin; [f_equal; f_equal; apply Rplus_0_l|].
  apply not_0_INR. lia.
Qed.
Lemma max_window : forall x d n c l f ws, allowed NoBool d = true -> xden x d (n :: c :: l) (fun i => Fin (f i)) ->
  Forall2 fits ws l -> length l <= 14 ->
  exists r g, x_window_max x (1 :: 1 :: map wsize ws) (1 :: 1 :: map wstep ws) ((0, 0) :: (0, 0) :: map (fun w => (wpad w, wpad w)) ws) = Ok r /\
    xden r d (n :: c :: counts ws l) g /\
    forall i, valid (n :: c :: counts ws l) i -> largest (region ws l (skipn 2 i)) (fun q => f (in_channel i q)) (g i).
Proof.
  intros x d n c l f ws F X HF L. pose proof X as [D H]. assert (LW : length ws = length l) by (eapply Forall2_len; eauto).
  unfold x_window_max. rewrite (xden_shape _ _ _ _ X). cbn [length]. rewrite !map_length, LW, !Nat.eqb_refl. cbn [negb].
  rewrite D, F. cbn [negb].
  destruct (window_den NInf xmax (Some NInf) (fun _ b => b) low low I ltac:(intros b a Ha Hb; now apply xmax_low)
    ltac:(intros v b Hv Hb; inversion Hv; subst; now apply xmax_ninf) (xdata x) n c l _ ws H HF L (fun _ _ => I)) as [r [E Hr]].
  rewrite E. cbn [bind]. eexists. eexists. split; [reflexivity|]. split; [split; [reflexivity|exact Hr]|].
  intros i V. cbn beta. rewrite (map_map _ (fun i => Fin (f i))). apply largest_fold.
Qed.

(* ---------- the same window on every axis ---------- *)
Lemma map_repeat_win : forall A (g : win -> A) w k, map g (repeat w k) = repeat (g w) k.
Proof. intros A g w. induction k as [|k IH]; cbn; congruence. Qed.
Lemma nelem_repeat : forall n k, nelem (repeat n k) = n ^ k.
Proof. intros n. induction k as [|k IH]; [reflexivity|]. cbn [repeat]. rewrite nelem_cons, IH. reflexivity. Qed.
Lemma fits_repeat : forall w l, Forall (fits w) l -> Forall2 fits (repeat w (length l)) l.
Proof. induction 1; cbn; constructor; auto. Qed.

Lemma avg_pool_ok : forall x d n c l f k s p, is_float d = true -> xden x d (n :: c :: l) (fun i => Fin (f i)) ->
  0 < k -> 0 < s -> Forall (fun D => k <= D + 2 * p) l -> length l <= 14 ->
  let ws := repeat (mkWin k s p) (length l) in
  exists r, avg_pool (length l) k s p x = Ok r /\
    xden r d (n :: c :: counts ws l)
      (fun i => Fin (Rsum (map (fun q => f (in_channel i q)) (region ws l (skipn 2 i))) / INR (k ^ length l))%R).
Proof.
  intros x d n c l f k s p F X Hk Hs HF L ws. unfold avg_pool. rewrite (xden_shape _ _ _ _ X). cbn [length]. rewrite Nat.eqb_refl. cbn [negb].
  destruct (mean_window x d n c l f ws F X) as [r [E Hr]].
  - apply fits_repeat. eapply Forall_impl; [|exact HF]. intros D HD. split; cbn; auto.
  - exact L.
  - unfold ws. rewrite map_repeat_win, nelem_repeat. cbn [wsize]. assert (k ^ length l <> 0) by (apply Nat.pow_nonzero; lia). lia.
  - exists r. unfold ws in *. rewrite !map_repeat_win in *. cbn [wsize wstep wpad] in *. rewrite nelem_repeat in Hr. split; [exact E|exact Hr].
Qed.
Lemma max_pool_ok : forall x d n c l f k s p, allowed NoBool d = true -> xden x d (n :: c :: l) (fun i => Fin (f i)) ->
  0 < s -> Forall (fun D => k <= D + 2 * p) l -> length l <= 14 ->
  let ws := repeat (mkWin k s p) (length l) in
  exists r g, max_pool (length l) k s p x = Ok r /\ xden r d (n :: c :: counts ws l) g /\
    forall i, valid (n :: c :: counts ws l) i -> largest (region ws l (skipn 2 i)) (fun q => f (in_channel i q)) (g i).
Proof.
  intros x d n c l f k s p F X Hs HF L ws. unfold max_pool. rewrite (xden_shape _ _ _ _ X). cbn [length]. rewrite Nat.eqb_refl. cbn [negb].
  destruct (max_window x d n c l f ws F X) as [r [g [E Hr]]].
  - apply fits_repeat. eapply Forall_impl; [|exact HF]. intros D HD. split; cbn; auto.
  - exact L.
  - exists r, g. unfold ws in *. rewrite !map_repeat_win in *. cbn [wsize wstep wpad] in *. split; [exact E|exact Hr].
Qed.

(* ---------- adaptive windows ---------- *)
Lemma step_le : forall L o, 0 < o -> (o - 1) * (L / o) + L / o <= L.
Proof.
  intros L o H. pose proof (Nat.mul_div_le L o ltac:(lia)) as M. generalize dependent (L / o). intros q M.
  replace ((o - 1) * q + q) with (o * q); [exact M|]. destruct o; [lia|]. cbn [Nat.sub]. rewrite Nat.sub_0_r. cbn [Nat.mul]. lia.
Qed.
Lemma step_pos : forall L o, 0 < o <= L -> 0 < L / o.
Proof. intros L o H. apply Nat.div_str_pos. exact H. Qed.
Lemma adaptive_fits : forall L o, 0 < o <= L -> fits (adaptive_win L o) L /\ count (adaptive_win L o) L = o.
Proof.
  intros L o H. pose proof (step_pos L o H) as SP. pose proof (step_le L o (proj1 H)) as SL.
  unfold fits, count, adaptive_win. cbn [wsize wstep wpad]. generalize dependent (L / o). intros q SP SL.
  split; [split; [apply Nat.le_trans with L; [apply Nat.le_sub_l|apply Nat.le_add_r]|exact SP]|].
  replace (L + 2 * 0 - (L - (o - 1) * q)) with ((o - 1) * q) by (generalize dependent ((o - 1) * q); intros; lia). rewrite Nat.div_mul by lia. lia.
Qed.
Lemma adaptive_size : forall L o, 0 < o <= L -> 0 < wsize (adaptive_win L o).
Proof.
  intros L o H. pose proof (step_pos L o H) as SP. pose proof (step_le L o (proj1 H)) as SL. cbn [adaptive_win wsize].
  generalize dependent (L / o). intros q SP SL. generalize dependent ((o - 1) * q). intros; lia.
Qed.
Lemma adaptive_fits_all : forall l os, Forall2 (fun L o => 0 < o <= L) l os ->
  Forall2 fits (adaptive_wins l os) l /\ counts (adaptive_wins l os) l = os /\ 0 < nelem (map wsize (adaptive_wins l os)) /\
  seq_all (map (fun p => adaptive_axis (fst p) (snd p)) (combine l os)) = Ok (map (fun w => (wstep w, wsize w)) (adaptive_wins l os)) /\
  Forall (fun w => wpad w = 0) (adaptive_wins l os) /\ length (adaptive_wins l os) = length os.
Proof.
  induction 1 as [|L o l os H F IH]; cbn [adaptive_wins counts map combine seq_all].
  - repeat split; try constructor.
  - destruct IH as [I1 [I2 [I3 [I4 [I5 I6]]]]]. destruct (adaptive_fits L o H) as [A1 A2]. pose proof (adaptive_size L o H) as A3.
    split; [constructor; auto|]. split; [congruence|]. split; [rewrite nelem_cons; apply Nat.mul_pos_pos; auto|].
    split; [|split; [constructor; auto|cbn; congruence]].
    cbn [fst snd]. rewrite I4. destruct o as [|o']; [lia|]. cbn [adaptive_axis bind]. unfold adaptive_win. cbn [wstep wsize].
    replace (S o' - 1) with o' by lia. reflexivity.
Qed.
Lemma pad_zero : forall ws, Forall (fun w => wpad w = 0) ws -> map (fun w => (wpad w, wpad w)) ws = repeat (0, 0) (length ws).
Proof. induction 1 as [|w ws H F IH]; cbn; [auto|]. now rewrite H, IH. Qed.

Lemma adaptive_avg_ok : forall x d n c l f os, is_float d = true -> xden x d (n :: c :: l) (fun i => Fin (f i)) ->
  Forall2 (fun L o => 0 < o <= L) l os -> length l <= 14 ->
  let ws := adaptive_wins l os in
  exists r, adaptive_pool false os x = Ok r /\
    xden r d (n :: c :: os)
      (fun i => Fin (Rsum (map (fun q => f (in_channel i q)) (region ws l (skipn 2 i))) / INR (nelem (map wsize ws)))%R).
Proof.
  intros x d n c l f os F X HF L ws. destruct (adaptive_fits_all l os HF) as [A1 [A2 [A3 [A4 [A5 A6]]]]].
  assert (LO : length l = length os) by (eapply Forall2_len; eauto).
  unfold adaptive_pool. rewrite (xden_shape _ _ _ _ X). cbn [length]. rewrite LO. cbn [Nat.add]. rewrite Nat.eqb_refl. cbn [negb skipn]. rewrite A4. cbn [bind].
  destruct (mean_window x d n c l f ws F X A1 L A3) as [r [E Hr]]. exists r. rewrite !map_map. cbn [fst snd repeat]. unfold ws in *. rewrite A2 in Hr.
  rewrite (pad_zero _ A5), A6 in E. split; [exact E|exact Hr].
Qed.
Lemma adaptive_max_ok : forall x d n c l f os, allowed NoBool d = true -> xden x d (n :: c :: l) (fun i => Fin (f i)) ->
  Forall2 (fun L o => 0 < o <= L) l os -> length l <= 14 ->
  let ws := adaptive_wins l os in
  exists r g, adaptive_pool true os x = Ok r /\ xden r d (n :: c :: os) g /\
    forall i, valid (n :: c :: os) i -> largest (region ws l (skipn 2 i)) (fun q => f (in_channel i q)) (g i).
Proof.
  intros x d n c l f os F X HF L ws. destruct (adaptive_fits_all l os HF) as [A1 [A2 [A3 [A4 [A5 A6]]]]].
  assert (LO : length l = length os) by (eapply Forall2_len; eauto).
  unfold adaptive_pool. rewrite (xden_shape _ _ _ _ X). cbn [length]. rewrite LO. cbn [Nat.add]. rewrite Nat.eqb_refl. cbn [negb skipn]. rewrite A4. cbn [bind].
  destruct (max_window x d n c l f ws F X A1 L) as [r [g [E Hr]]]. exists r, g. rewrite !map_map. cbn [fst snd repeat]. unfold ws in *. rewrite A2 in Hr.
  rewrite (pad_zero _ A5), A6 in E. split; [exact E|exact Hr].
Qed.
