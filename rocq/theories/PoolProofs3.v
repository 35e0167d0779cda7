(** Adaptive and global pooling. *)
From Coq Require Import List Arith ZArith Lia Bool Permutation Sorted Reals Lra.
From Verif Require Import Base IndexSpec LayoutModel ViewSpec LayoutProofs LayoutProofs2 BcastProofs.
From Verif Require Import KernelModel TensorModel TensorSpec KernelProofs TensorProofs ElementwiseProofs.
From Verif Require Import EncodeModel ReduceSpec WindowModel WindowProofs DenSpec DenProofs.
From Verif Require Import NumModel NnModel NnSpec NnProofs NnProofs2 LayerModel NormProofs PoolModel PoolSpec PoolProofs PoolProofs2.
Import ListNotations.
Open Scope nat_scope.

(* ---------- adaptive windows ---------- *)
Lemma adaptive_even : forall k o, 0 < o -> adaptive_win (o * k) o = mkWin k k 0.
Proof.
  intros k o H. unfold adaptive_win. rewrite Nat.mul_comm, Nat.div_mul by lia. f_equal.
  rewrite Nat.mul_comm. destruct o; [lia|]. cbn [Nat.sub]. rewrite Nat.sub_0_r. cbn [Nat.mul]. lia.
Qed.
(** each position belongs to a window *)
Lemma adaptive_covers : forall L o q, 0 < o <= L -> q < L -> exists p, p < o /\ in_win (adaptive_win L o) p q = true.
Proof.
  intros L o q H Hq. pose proof (step_pos L o H) as SP. pose proof (step_le L o (proj1 H)) as SL. unfold in_win, adaptive_win. cbn [wsize wstep wpad].
  generalize dependent (L / o). intros t SP SL. exists (Nat.min (q / t) (o - 1)).
  pose proof (Nat.mul_div_le q t ltac:(lia)) as D1. pose proof (Nat.mul_succ_div_gt q t ltac:(lia)) as D2.
  split; [apply Nat.le_lt_trans with (o - 1); [apply Nat.le_min_r|lia]|].
  rewrite andb_true_iff, Nat.leb_le, Nat.ltb_lt, Nat.add_0_r. generalize dependent (q / t). intros m D1 D2.
  destruct (Nat.min_spec m (o - 1)) as [[M ->]|[M ->]].
  - split; [rewrite Nat.mul_comm; exact D1|].
    assert (m * t + t <= L - (o - 1) * t + m * t); [|rewrite Nat.mul_succ_r, (Nat.mul_comm t m) in D2; lia].
    generalize dependent ((o - 1) * t). intros; lia.
  - split; [apply Nat.le_trans with (m * t); [now apply Nat.mul_le_mono_r|rewrite Nat.mul_comm; exact D1]|].
    generalize dependent ((o - 1) * t). intros; lia.
Qed.
Lemma adaptive_covers_all : forall l os q, Forall2 (fun L o => 0 < o <= L) l os -> valid l q ->
  exists p, valid os p /\ In q (region (adaptive_wins l os) l p).
Proof.
  intros l os q F V.
  assert (G : exists p, valid os p /\ in_wins (adaptive_wins l os) p q = true).
  { revert q V. induction F as [|L o l os H F IH]; intros q V.
    - destruct q; cbn in V; [|tauto]. exists []. cbn. auto.
    - destruct q as [|a q]; cbn in V; [tauto|]. destruct V as [Va V]. destruct (IH q V) as [p [Vp Hp]].
      destruct (adaptive_covers L o a H Va) as [b [Hb Hw]]. exists (b :: p). cbn [valid adaptive_wins in_wins]. rewrite Hw, Hp. auto. }
  destruct G as [p [Vp Hp]]. exists p. split; auto. apply filter_In. split; auto. now apply in_all_idx.
Qed.
(** more outputs than positions: the stride is zero *)
Lemma adaptive_axes_ok : forall l os, length l = length os -> Forall (fun o => 0 < o) os ->
  seq_all (map (fun p => adaptive_axis (fst p) (snd p)) (combine l os)) = Ok (map (fun w => (wstep w, wsize w)) (adaptive_wins l os)) /\
  Forall (fun w => wpad w = 0) (adaptive_wins l os) /\ length (adaptive_wins l os) = length os.
Proof.
  induction l as [|L l IH]; intros [|o os] LO F; try discriminate; cbn [adaptive_wins map combine seq_all].
  - repeat split; try constructor.
  - inversion F as [|? ? H F']; subst. destruct (IH os ltac:(cbn in LO; lia) F') as [I1 [I2 I3]].
    split; [|split; [constructor; auto|cbn; congruence]]. cbn [fst snd]. rewrite I1. destruct o as [|o']; [lia|]. cbn [adaptive_axis bind]. unfold adaptive_win. cbn [wstep wsize].
    replace (S o' - 1) with o' by lia. reflexivity.
Qed.
Lemma adaptive_step_zero : forall l os k, length l = length os -> k < length l -> nth k l 0 < nth k os 0 -> nth k (map wstep (adaptive_wins l os)) 0 = 0.
Proof.
  induction l as [|L l IH]; intros [|o os] k LO Hk H; try discriminate; [cbn in Hk; lia|]. destruct k as [|k]; cbn [adaptive_wins map nth] in *.
  - cbn [adaptive_win wstep]. now apply Nat.div_small.
  - apply IH; cbn in *; auto; lia.
Qed.
Lemma misfit : forall s W st pad k, length W = length s -> length st = length s -> length pad = length s -> k < length s -> nth k st 0 = 0 -> ~ window_fits s W st pad.
Proof.
  induction s as [|d s IH]; intros [|w W] [|t st] [|[p q] pad] k L1 L2 L3 Hk H F; try discriminate; [cbn in Hk; lia|].
  unfold window_fits in F. cbn [combine] in F. apply Forall_cons_iff in F. destruct F as [[_ F1] F2]. destruct k as [|k]; [cbn in H; lia|].
  apply (IH W st pad k); cbn in *; auto; lia.
Qed.
Lemma adaptive_panics : forall (mx : bool) x d n c l f os k, allowed NoBool d = true -> (mx = false -> is_float d = true) -> xden x d (n :: c :: l) f ->
  length l = length os -> Forall (fun o => 0 < o) os -> k < length l -> nth k l 0 < nth k os 0 -> adaptive_pool mx os x = Panic.
Proof.
  intros mx x d n c l f os k C HF X LO F Hk H. destruct (adaptive_axes_ok l os LO F) as [I1 [I2 I3]]. pose proof X as [D _]. pose proof (xden_shape _ _ _ _ X) as SX.
  unfold adaptive_pool. rewrite SX. cbn [length]. rewrite LO. cbn [Nat.add]. rewrite Nat.eqb_refl. cbn [negb skipn]. rewrite I1. cbn [bind].
  rewrite !map_map. cbn [fst snd].
  assert (T : forall A B (init : B) (g : B -> xr -> B) oob (fin : nat -> B -> A) z,
    t_reduce_window init g oob fin z (xdata x) (1 :: 1 :: map wsize (adaptive_wins l os)) (1 :: 1 :: map wstep (adaptive_wins l os)) (repeat (0, 0) (2 + length os)) = Panic).
  { intros A B init g oob fin z. unfold t_reduce_window. change (lshape (tlay (xdata x))) with (xshape x). rewrite SX. cbn [length repeat Nat.add].
    rewrite !map_length, repeat_length, I3, LO, !Nat.eqb_refl. cbn [negb]. rewrite window_dims_panic; auto.
    1-3: cbn [length]; rewrite ?map_length, ?repeat_length; lia.
    apply (misfit _ _ _ _ (2 + k)); cbn [length]; rewrite ?map_length, ?repeat_length; try lia. cbn [Nat.add nth]. now apply adaptive_step_zero. }
  assert (LL : forall A (v : list A), length v = length os -> (S (S (length v)) =? S (S (length l))) = true) by (intros A v Hv; apply Nat.eqb_eq; lia).
  destruct mx; unfold x_window_max, x_window_mean; rewrite SX; cbn [length Nat.add repeat]; rewrite !map_length, repeat_length, I3, LO, !Nat.eqb_refl; cbn [negb]; rewrite D.
  - rewrite C. cbn [negb]. cbn [Nat.add repeat] in T. now rewrite T.
  - rewrite (float_allowed Floats _ (HF eq_refl)). cbn [negb]. cbn [Nat.add repeat] in T. now rewrite T.
Qed.
Lemma adaptive_zero : forall mx x os, length (xshape x) = 2 + length os -> In 0 os -> adaptive_pool mx os x = Panic.
Proof.
  intros mx x os L H. unfold adaptive_pool. rewrite L, Nat.eqb_refl. cbn [negb].
  assert (LS : length (skipn 2 (xshape x)) = length os) by (rewrite skipn_length; lia).
  replace (seq_all _) with (@Panic (list (nat * nat))); [reflexivity|]. symmetry.
  revert os H L LS. generalize (skipn 2 (xshape x)). intros l os H _ LS. revert os H LS.
  induction l as [|a l IH]; intros [|o os] H LS; try discriminate; [destruct H|]. cbn [combine map seq_all fst snd].
  destruct o as [|o]; [reflexivity|]. cbn [adaptive_axis bind]. rewrite IH; auto. destruct H as [H|H]; [discriminate|exact H].
Qed.

(* ---------- global pooling ---------- *)
Lemma set_tail : forall A (v : A) k l j, (forall q, q < length l -> 2 <= j + q < 2 + k) -> set_axes (seq 2 k) v j l = repeat v (length l).
Proof.
  intros A v k. induction l as [|x l IH]; intros j H; cbn [set_axes length repeat]; auto.
  destruct (in_dec Nat.eq_dec j (seq 2 k)) as [I|I].
  - f_equal. apply IH. intros q Hq. specialize (H (S q)). cbn in H. lia.
  - exfalso. apply I. apply in_seq. specialize (H 0). cbn in H. lia.
Qed.
Lemma set_spatial : forall A (v : A) a b l, set_axes (seq 2 (length l)) v 0 (a :: b :: l) = a :: b :: repeat v (length l).
Proof.
  intros A v a b l. cbn [set_axes].
  destruct (in_dec Nat.eq_dec 0 (seq 2 (length l))) as [I|_]; [apply in_seq in I; lia|].
  destruct (in_dec Nat.eq_dec 1 (seq 2 (length l))) as [I|_]; [apply in_seq in I; lia|].
  f_equal. f_equal. apply set_tail. lia.
Qed.
Lemma global_fibre : forall n c l i, valid (n :: c :: repeat 1 (length l)) i ->
  Permutation (fibre true (seq 2 (length l)) (n :: c :: l) i) (map (in_channel i) (all_idx l)).
Proof.
  intros n c l i V. apply NoDup_Permutation.
  - apply NoDup_filter, all_idx_NoDup.
  - apply FinFun.Injective_map_NoDup; [|apply all_idx_NoDup]. intros a b E. unfold in_channel in E. congruence.
  - destruct i as [|a [|b p]]; cbn [valid] in V; try tauto. destruct V as [Va [Vb Vp]].
    assert (EP : p = repeat 0 (length l)).
    { clear - Vp. revert p Vp. induction (length l) as [|k IH]; intros [|x p] V; cbn in *; try tauto. destruct V as [H V]. f_equal; [lia|auto]. }
    intros q. unfold fibre. rewrite filter_In, in_all_idx, in_map_iff. unfold in_channel. cbn [nth].
    split.
    + intros [Vq H]. destruct (list_eq_dec _ _ _) as [E|]; [|discriminate]. unfold rproj in E.
      destruct q as [|x [|y q]]; cbn [valid] in Vq; try tauto. destruct Vq as [Vx [Vy Vq]]. rewrite <- (valid_length _ _ Vq) in E.
      rewrite set_spatial in E. inversion E; subst. exists q. split; auto. now apply in_all_idx.
    + intros [r [<- Hr]]. apply in_all_idx in Hr. split; [cbn [valid]; auto|].
      destruct (list_eq_dec _ _ _) as [E|NE]; auto. exfalso. apply NE. unfold rproj. rewrite <- (valid_length _ _ Hr), set_spatial, EP.
      now rewrite (valid_length _ _ Hr).
Qed.
Lemma extents_tail : forall l n c, extents (seq 2 (length l)) (n :: c :: l) = l.
Proof.
  intros l n c. unfold extents. apply (list_ext). intros k. rewrite nth_error_map.
  destruct (Nat.lt_ge_cases k (length l)) as [L|L].
  - rewrite (nth_error_nth' _ 0) by (now rewrite seq_length). rewrite seq_nth by exact L. cbn [option_map].
    replace (2 + k) with (S (S k)) by lia. cbn [nth]. symmetry. now apply nth_error_nth'.
  - rewrite (proj2 (nth_error_None _ _)) by (now rewrite seq_length). cbn. symmetry. now apply nth_error_None.
Qed.
Lemma spatial_axes : forall (l : list nat) n c, l <> [] -> ReduceSpec.axes_of (length (n :: c :: l)) (map Z.of_nat (seq 2 (length l))) (seq 2 (length l)).
Proof.
  intros l n c NE. apply axes_nat.
  - apply Forall_forall. intros x Hx. apply in_seq in Hx. cbn. lia.
  - destruct l; [congruence|discriminate].
Qed.
Lemma global_avg_ok : forall x d n c l f, is_float d = true -> xden x d (n :: c :: l) (fun i => Fin (f i)) -> l <> [] -> length l <= 14 ->
  exists r, global_avg_pool (length l) x = Ok r /\
    xden r d (n :: c :: repeat 1 (length l)) (fun i => Fin (Rsum (map (fun q => f (in_channel i q)) (all_idx l)) / INR (nelem l))%R).
Proof.
  intros x d n c l f F X NE L. unfold global_avg_pool. rewrite (xden_shape _ _ _ _ X). cbn [length]. rewrite Nat.eqb_refl. cbn [negb].
  destruct (xden_mean x (map Z.of_nat (seq 2 (length l))) (seq 2 (length l)) true d (n :: c :: l) f F X (spatial_axes l n c NE) (seq_NoDup _ _) ltac:(cbn; lia)) as [r [E Hr]].
  exists r. split; [exact E|]. unfold rshape in Hr. rewrite set_spatial, extents_tail in Hr. eapply xden_ext; [exact Hr|].
  intros i V. cbn beta. f_equal. f_equal. rewrite <- (map_map (in_channel i) f). apply Rsum_perm. apply Permutation_map. now apply global_fibre.
Qed.
Lemma global_max_ok : forall x d n c l f, allowed NoBool d = true -> xden x d (n :: c :: l) (fun i => Fin (f i)) -> l <> [] -> length l <= 14 ->
  exists r g, global_max_pool (length l) x = Ok r /\ xden r d (n :: c :: repeat 1 (length l)) g /\
    forall i, valid (n :: c :: repeat 1 (length l)) i -> largest (all_idx l) (fun q => f (in_channel i q)) (g i).
Proof.
  intros x d n c l f C X NE L. unfold global_max_pool. rewrite (xden_shape _ _ _ _ X). cbn [length]. rewrite Nat.eqb_refl. cbn [negb].
  destruct (xden_reduce NoBool NInf xmax (fun _ b => b) x (map Z.of_nat (seq 2 (length l))) (seq 2 (length l)) true d (n :: c :: l) _
    (fun i => fold_left xmax (map (fun q => Fin (f (in_channel i q))) (all_idx l)) NInf) C X (spatial_axes l n c NE) (seq_NoDup _ _) ltac:(cbn; lia)) as [r [E Hr]].
  - intros i L' V P. unfold rshape in V. rewrite set_spatial in V. rewrite <- (map_map (in_channel i) (fun i => Fin (f i))).
    apply fold_xmax_perm.
    + apply Permutation_map. rewrite P. now apply global_fibre.
    + apply Forall_forall. intros y Hy. apply in_map_iff in Hy as [q [<- _]]. exact I.
  - unfold rshape in Hr. rewrite set_spatial in Hr. exists r. eexists. split; [exact E|]. split; [exact Hr|]. intros i V. cbn beta. apply largest_fold.
Qed.
