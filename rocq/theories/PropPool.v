(** C76: the pooling layers, on the real numbers; rounding is not modelled here.
    The input has batch size n, c channels and spatial axes [l] of any number; [in_channel i q] is
    position [q] in the batch and channel of output index [i], [skipn 2 i] its position. *)
From Coq Require Import List Arith ZArith Lia Bool Permutation Reals Lra.
From Verif Require Import Base IndexSpec LayoutModel ViewSpec LayoutProofs KernelModel TensorModel TensorSpec EncodeModel KernelProofs TensorProofs BcastProofs.
From Verif Require Import NumModel DenSpec DenProofs NnModel NnSpec NnProofs LayerModel PropNn.
From Verif Require Import PoolModel PoolSpec PoolProofs PoolProofs2 PoolProofs3 PoolProofs4.
Import ListNotations.
Open Scope nat_scope.

(** Average pooling: the sum over the window, divided by its size; padding counts as zero. *)
Theorem C76_avg : forall x d n c l f k s p, is_float d = true -> xden x d (n :: c :: l) (fun i => Fin (f i)) ->
  0 < k -> 0 < s -> Forall (fun D => k <= D + 2 * p) l -> length l <= 14 ->
  let ws := repeat (mkWin k s p) (length l) in
  exists r, avg_pool (length l) k s p x = Ok r /\
    xden r d (n :: c :: counts ws l)
      (fun i => Fin (Rsum (map (fun q => f (in_channel i q)) (region ws l (skipn 2 i))) / INR (k ^ length l))%R).
Proof. exact avg_pool_ok. Qed.
Print Assumptions C76_avg.
(** Max pooling: the largest entry of the window; -infinity if the window lies in the padding. *)
Theorem C76_max : forall x d n c l f k s p, allowed NoBool d = true -> xden x d (n :: c :: l) (fun i => Fin (f i)) ->
  0 < s -> Forall (fun D => k <= D + 2 * p) l -> length l <= 14 ->
  let ws := repeat (mkWin k s p) (length l) in
  exists r g, max_pool (length l) k s p x = Ok r /\ xden r d (n :: c :: counts ws l) g /\
    forall i, valid (n :: c :: counts ws l) i -> largest (region ws l (skipn 2 i)) (fun q => f (in_channel i q)) (g i).
Proof. exact max_pool_ok. Qed.
Print Assumptions C76_max.

(** Adaptive pooling to [os] of axes whose lengths are multiples of it: equal consecutive blocks. *)
Definition multiples (os ks : list nat) : list nat := map (fun p => fst p * snd p) (combine os ks).
Lemma even_wins : forall os ks, length os = length ks -> Forall (fun o => 0 < o) os -> Forall (fun k => 0 < k) ks ->
  adaptive_wins (multiples os ks) os = map (fun k => mkWin k k 0) ks /\ Forall2 (fun L o => 0 < o <= L) (multiples os ks) os /\ length (multiples os ks) = length ks.
Proof.
  induction os as [|o os IH]; intros [|k ks] H F G; cbn in H; try lia; [cbn; auto|].
  inversion F; subst. inversion G; subst. destruct (IH ks) as [A [B C]]; auto. cbn [multiples combine map fst snd adaptive_wins].
  fold (multiples os ks). rewrite adaptive_even by auto. rewrite A. split; auto. split; [constructor; auto; nia|]. cbn. now rewrite C.
Qed.
Theorem C76_adaptive_avg_partial : forall x d n c f os ks, is_float d = true -> length os = length ks -> length os <= 14 ->
  Forall (fun o => 0 < o) os -> Forall (fun k => 0 < k) ks -> xden x d (n :: c :: multiples os ks) (fun i => Fin (f i)) ->
  exists r, adaptive_pool false os x = Ok r /\
    xden r d (n :: c :: os)
      (fun i => Fin (Rsum (map (fun q => f (in_channel i q)) (region (map (fun k => mkWin k k 0) ks) (multiples os ks) (skipn 2 i))) / INR (nelem ks))%R).
Proof.
  intros x d n c f os ks F L L14 Po Pk X. destruct (even_wins os ks L Po Pk) as [A [B C]].
  destruct (adaptive_avg_ok x d n c (multiples os ks) f os F X B ltac:(lia)) as [r [E D]].
  rewrite A in D. rewrite map_map in D. cbn [wsize] in D. rewrite map_id in D. eauto.
Qed.
Print Assumptions C76_adaptive_avg_partial.
Theorem C76_adaptive_max_partial : forall x d n c f os ks, allowed NoBool d = true -> length os = length ks -> length os <= 14 ->
  Forall (fun o => 0 < o) os -> Forall (fun k => 0 < k) ks -> xden x d (n :: c :: multiples os ks) (fun i => Fin (f i)) ->
  exists r g, adaptive_pool true os x = Ok r /\ xden r d (n :: c :: os) g /\
    forall i, valid (n :: c :: os) i ->
      largest (region (map (fun k => mkWin k k 0) ks) (multiples os ks) (skipn 2 i)) (fun q => f (in_channel i q)) (g i).
Proof.
  intros x d n c f os ks F L L14 Po Pk X. destruct (even_wins os ks L Po Pk) as [A [B C]].
  destruct (adaptive_max_ok x d n c (multiples os ks) f os F X B ltac:(lia)) as [r [g [E [D M]]]].
  rewrite A in M. eauto.
Qed.
Print Assumptions C76_adaptive_max_partial.

(** For other lengths: windows of size L - (o-1) * floor(L/o), floor(L/o) apart. *)
Theorem C76_adaptive_avg_windows : forall x d n c l f os, is_float d = true -> xden x d (n :: c :: l) (fun i => Fin (f i)) ->
  Forall2 (fun L o => 0 < o <= L) l os -> length l <= 14 ->
  let ws := adaptive_wins l os in
  exists r, adaptive_pool false os x = Ok r /\
    xden r d (n :: c :: os)
      (fun i => Fin (Rsum (map (fun q => f (in_channel i q)) (region ws l (skipn 2 i))) / INR (nelem (map wsize ws)))%R).
Proof. exact adaptive_avg_ok. Qed.
Print Assumptions C76_adaptive_avg_windows.
Theorem C76_adaptive_max_windows : forall x d n c l f os, allowed NoBool d = true -> xden x d (n :: c :: l) (fun i => Fin (f i)) ->
  Forall2 (fun L o => 0 < o <= L) l os -> length l <= 14 ->
  let ws := adaptive_wins l os in
  exists r g, adaptive_pool true os x = Ok r /\ xden r d (n :: c :: os) g /\
    forall i, valid (n :: c :: os) i -> largest (region ws l (skipn 2 i)) (fun q => f (in_channel i q)) (g i).
Proof. exact adaptive_max_ok. Qed.
Print Assumptions C76_adaptive_max_windows.
(** Those windows cover every position. *)
Theorem C76_adaptive_covers : forall l os q, Forall2 (fun L o => 0 < o <= L) l os -> valid l q ->
  exists p, valid os p /\ In q (region (adaptive_wins l os) l p).
Proof. exact adaptive_covers_all. Qed.
Print Assumptions C76_adaptive_covers.

(** Output position p should average the positions from floor(pL/o) up to ceil((p+1)L/o); it does not. *)
Definition usual (L o p : nat) : list nat := filter (fun q => (p * L / o <=? q) && (q <? (((p + 1) * L) + o - 1) / o)) (seq 0 L).
Theorem C76_adaptive_windows_refuted : ~ (forall x d L o f, is_float d = true -> 0 < o <= L -> xden x d [1; 1; L] (fun i => Fin (f (nth 2 i 0))) ->
  exists r g, adaptive_pool false [o] x = Ok r /\ xden r d [1; 1; o] (fun i => Fin (g (nth 2 i 0))) /\
    forall p, p < o -> g p = (Rsum (map f (usual L o p)) / INR (length (usual L o p)))%R).
Proof.
  intros H. assert (X : xden (xt [1; 1; 5] [0; 0; 3; 0; 0]%R) F32 [1; 1; 5] (fun i => Fin (nth (nth 2 i 0) [0; 0; 3; 0; 0]%R 0%R))).
  { eapply xden_ext; [apply xt_den; [reflexivity|repeat constructor]|]. intros i V. apply in_all_idx in V. vm_compute in V.
    repeat (destruct V as [<-|V]; [reflexivity|]); destruct V. }
  destruct (H _ F32 5 3 (fun q => nth q [0; 0; 3; 0; 0]%R 0%R) eq_refl ltac:(lia) X) as [r [g [E [D G]]]].
  assert (X2 : xden (xt [1; 1; 5] [0; 0; 3; 0; 0]%R) F32 [1; 1; 5] (fun i => Fin ((fun i => nth (nth 2 i 0) [0; 0; 3; 0; 0]%R 0%R) i))) by exact X.
  destruct (adaptive_avg_ok _ F32 1 1 [5] (fun i => nth (nth 2 i 0) [0; 0; 3; 0; 0]%R 0%R) [3] eq_refl X2 ltac:(constructor; [lia|constructor]) ltac:(cbn; lia)) as [r2 [E2 D2]].
  rewrite E in E2. inversion E2; subst r2.
  destruct D as [_ [_ [_ [_ [_ D]]]]]. destruct D2 as [_ [_ [_ [_ [_ D2]]]]].
  assert (V : valid [1; 1; 3] [0; 0; 0]) by (cbn; lia). specialize (D _ V). specialize (D2 _ V). rewrite D2 in D. clear D2.
  inversion D as [Q]. clear D. cbn [nth] in Q. rewrite (G 0 ltac:(lia)) in Q.
  change (region (adaptive_wins [5] [3]) [5] (skipn 2 [0; 0; 0])) with [[0]; [1]; [2]] in Q.
  change (usual 5 3 0) with [0; 1] in Q. change (nelem (map wsize (adaptive_wins [5] [3]))) with 3 in Q.
  unfold in_channel in Q. cbn [map nth length] in Q. cbn [Rsum fold_right] in Q. cbn [INR] in Q. lra.
Qed.
Print Assumptions C76_adaptive_windows_refuted.
(** An output longer than the input should repeat entries; it panics, as does an empty output. *)
Theorem C76_adaptive_longer_refuted : forall (mx : bool) x d n c l f os k, allowed NoBool d = true -> (mx = false -> is_float d = true) -> xden x d (n :: c :: l) f ->
  length l = length os -> Forall (fun o => 0 < o) os -> k < length l -> nth k l 0 < nth k os 0 -> adaptive_pool mx os x = Panic.
Proof. exact adaptive_panics. Qed.
Print Assumptions C76_adaptive_longer_refuted.
Theorem C76_adaptive_empty_refuted : forall mx x os, length (xshape x) = 2 + length os -> In 0 os -> adaptive_pool mx os x = Panic.
Proof. exact adaptive_zero. Qed.
Print Assumptions C76_adaptive_empty_refuted.

(** Global pooling: the mean and the largest entry of the whole channel. *)
Theorem C76_global_avg : forall x d n c l f, is_float d = true -> xden x d (n :: c :: l) (fun i => Fin (f i)) -> l <> [] -> length l <= 14 ->
  exists r, global_avg_pool (length l) x = Ok r /\
    xden r d (n :: c :: repeat 1 (length l)) (fun i => Fin (Rsum (map (fun q => f (in_channel i q)) (all_idx l)) / INR (nelem l))%R).
Proof. exact global_avg_ok. Qed.
Print Assumptions C76_global_avg.
Theorem C76_global_max : forall x d n c l f, allowed NoBool d = true -> xden x d (n :: c :: l) (fun i => Fin (f i)) -> l <> [] -> length l <= 14 ->
  exists r g, global_max_pool (length l) x = Ok r /\ xden r d (n :: c :: repeat 1 (length l)) g /\
    forall i, valid (n :: c :: repeat 1 (length l)) i -> largest (all_idx l) (fun q => f (in_channel i q)) (g i).
Proof. exact global_max_ok. Qed.
Print Assumptions C76_global_max.

(** Fractional max pooling, when the rounded cuts rise: the largest entry of each block, *)
Theorem C76_fractional_partial : forall cut x d n c l os f, allowed NoBool d = true -> xden x d (n :: c :: l) (fun i => Fin (f i)) -> length l <= 13 ->
  Forall2 (fun L o => rising L o (cut L o)) l os ->
  exists r g, fractional_max_pool cut os x = Ok r /\ xden r d (n :: c :: os) g /\
    forall i, valid (n :: c :: os) i -> largest (filter (between (cut_lists cut l os) (skipn 2 i)) (all_idx l)) (fun q => f (in_channel i q)) (g i).
Proof. exact fractional_ok. Qed.
Print Assumptions C76_fractional_partial.
(** and each position of an axis is in exactly one block; exact rounding of i * L / o gives such cuts. *)
Theorem C76_fractional_blocks : forall cut L o q, rising L o cut -> q < L -> let c := cut_points cut L o in
  length c = S o /\ exists! p, S p < length c /\ nth p c 0 <= q < nth (S p) c 0.
Proof.
  intros cut L o q R Hq c. unfold c. rewrite <- (fseq_points _ _ _ R). split; [apply fseq_length|]. apply (cuts_partition L); auto; [now apply fseq_cuts|].
  intros E. apply (f_equal (@length nat)) in E. rewrite fseq_length in E. discriminate.
Qed.
Print Assumptions C76_fractional_blocks.
Theorem C76_fractional_round : forall L o, 0 < o <= L -> rising L o (fun i => (2 * L * i + o) / (2 * o)).
Proof. exact rising_round. Qed.
Print Assumptions C76_fractional_round.

(** Inputs of the wrong rank are errors. *)
Theorem C76_rank : forall x mx cut k kernel stride padding os, length (xshape x) <> 2 + k -> length (xshape x) <> 2 + length os ->
  avg_pool k kernel stride padding x = Err EInternal /\ max_pool k kernel stride padding x = Err EInternal /\
  adaptive_pool mx os x = Err EInternal /\ global_avg_pool k x = Err EInternal /\ global_max_pool k x = Err EInternal /\
  fractional_max_pool cut os x = Err EInternal.
Proof.
  intros x mx cut k kernel stride padding os H1 H2. apply Nat.eqb_neq in H1. apply Nat.eqb_neq in H2.
  unfold avg_pool, max_pool, adaptive_pool, global_avg_pool, global_max_pool, fractional_max_pool. rewrite H1, H2. repeat (split; [reflexivity|]). reflexivity.
Qed.
Print Assumptions C76_rank.

(** ** Examples *)
Lemma ex_pool : forall s l, length l = nelem s -> all_pos s -> xden (xt s l) F32 s (fun i => Fin ((fun i => nth (ravel s i) l 0%R) i)).
Proof. exact xt_den. Qed.
(** mean of [1 2; 4 5] with kernel 2 and stride 1, of the window at the first corner with padding *)
Example C76_avg_ex : exists r, avg_pool 2 2 1 0 (xt [1; 1; 2; 3] [1; 2; 3; 4; 5; 6]%R) = Ok r /\
  elem (xdata r) [0; 0; 0; 0] = Some (Fin 3) /\ elem (xdata r) [0; 0; 0; 1] = Some (Fin 4).
Proof.
  destruct (C76_avg _ F32 1 1 [2; 3] _ 2 1 0 eq_refl (ex_pool [1; 1; 2; 3] [1; 2; 3; 4; 5; 6]%R eq_refl ltac:(repeat constructor))) as [r [E D]].
  - lia.
  - lia.
  - repeat constructor.
  - cbn. lia.
  - exists r. split; [exact E|]. destruct D as [_ [_ [_ [_ [_ D]]]]].
    rewrite !D by (cbn; lia). split; f_equal; f_equal.
    + change (region (repeat (mkWin 2 1 0) (length [2; 3])) [2; 3] (skipn 2 [0; 0; 0; 0])) with [[0; 0]; [0; 1]; [1; 0]; [1; 1]].
      unfold in_channel. lazy -[IZR Rplus Rminus Rdiv INR Ropp Rmult Rinv]. cbn [INR]. lra.
    + change (region (repeat (mkWin 2 1 0) (length [2; 3])) [2; 3] (skipn 2 [0; 0; 0; 1])) with [[0; 1]; [0; 2]; [1; 1]; [1; 2]].
      unfold in_channel. lazy -[IZR Rplus Rminus Rdiv INR Ropp Rmult Rinv]. cbn [INR]. lra.
Qed.
(** three values, kernel 2, stride 3, padding 1: the windows {0} and {2} *)
Example C76_max_ex : exists r, max_pool 1 2 3 1 (xt [1; 1; 3] [7; 9; 8]%R) = Ok r /\
  elem (xdata r) [0; 0; 0] = Some (Fin 7) /\ elem (xdata r) [0; 0; 1] = Some (Fin 8).
Proof.
  destruct (C76_max _ F32 1 1 [3] _ 2 3 1 eq_refl (ex_pool [1; 1; 3] [7; 9; 8]%R eq_refl ltac:(repeat constructor))) as [r [g [E [D M]]]].
  - lia.
  - repeat constructor.
  - cbn. lia.
  - exists r. split; [exact E|]. destruct D as [_ [_ [_ [_ [_ D]]]]]. rewrite !D by (cbn; lia).
    pose proof (M [0; 0; 0] ltac:(cbn; lia)) as M0. pose proof (M [0; 0; 1] ltac:(cbn; lia)) as M1.
    change (region (repeat (mkWin 2 3 1) (length [3])) [3] (skipn 2 [0; 0; 0])) with [[0]] in M0.
    change (region (repeat (mkWin 2 3 1) (length [3])) [3] (skipn 2 [0; 0; 1])) with [[2]] in M1.
    split; f_equal.
    + destruct M0 as [[Q _]|[m [-> [[q [[<-|[]] <-]] _]]]]; [discriminate|]. reflexivity.
    + destruct M1 as [[Q _]|[m [-> [[q [[<-|[]] <-]] _]]]]; [discriminate|]. reflexivity.
Qed.
(** a window that lies in the padding *)
Example C76_padding_ex : exists r, max_pool 1 1 1 1 (xt [1; 1; 1] [7]%R) = Ok r /\ elem (xdata r) [0; 0; 0] = Some NInf.
Proof.
  destruct (C76_max _ F32 1 1 [1] _ 1 1 1 eq_refl (ex_pool [1; 1; 1] [7]%R eq_refl ltac:(repeat constructor))) as [r [g [E [D M]]]].
  - lia.
  - repeat constructor.
  - cbn. lia.
  - exists r. split; [exact E|]. destruct D as [_ [_ [_ [_ [_ D]]]]]. rewrite !D by (cbn; lia).
    pose proof (M [0; 0; 0] ltac:(cbn; lia)) as M0.
    change (region (repeat (mkWin 1 1 1) (length [1])) [1] (skipn 2 [0; 0; 0])) with (@nil (list nat)) in M0.
    f_equal. destruct M0 as [[_ ->]|[m [_ [[q [[] _]] _]]]]. reflexivity.
Qed.
Example C76_adaptive_ex : exists r, adaptive_pool false [2] (xt [1; 1; 4] [1; 3; 5; 9]%R) = Ok r /\ elem (xdata r) [0; 0; 1] = Some (Fin 7).
Proof.
  destruct (C76_adaptive_avg_partial _ F32 1 1 _ [2] [2] eq_refl eq_refl ltac:(cbn; lia) ltac:(repeat constructor) ltac:(repeat constructor)
    (ex_pool [1; 1; 4] [1; 3; 5; 9]%R eq_refl ltac:(repeat constructor))) as [r [E D]].
  exists r. split; [exact E|]. destruct D as [_ [_ [_ [_ [_ D]]]]]. rewrite D by (cbn; lia). f_equal. f_equal.
  change (region (map (fun k => mkWin k k 0) [2]) (multiples [2] [2]) (skipn 2 [0; 0; 1])) with [[2]; [3]].
  unfold in_channel. lazy -[IZR Rplus Rminus Rdiv INR Ropp Rmult Rinv]. cbn [INR]. lra.
Qed.
Example C76_adaptive_longer_ex : adaptive_pool true [2] (xt [1; 1; 1] [7]%R) = Panic.
Proof.
  apply (C76_adaptive_longer_refuted true _ F32 1 1 [1] _ [2] 0 eq_refl ltac:(discriminate) (ex_pool [1; 1; 1] [7]%R eq_refl ltac:(repeat constructor)));
    [reflexivity|repeat constructor|cbn; lia|cbn; lia].
Qed.
Example C76_global_ex : exists r, global_avg_pool 1 (xt [1; 2; 2] [1; 3; 5; 9]%R) = Ok r /\ elem (xdata r) [0; 1; 0] = Some (Fin 7).
Proof.
  destruct (C76_global_avg _ F32 1 2 [2] _ eq_refl (ex_pool [1; 2; 2] [1; 3; 5; 9]%R eq_refl ltac:(repeat constructor)) ltac:(discriminate) ltac:(cbn; lia)) as [r [E D]].
  exists r. split; [exact E|]. destruct D as [_ [_ [_ [_ [_ D]]]]]. rewrite D by (cbn; lia). f_equal. f_equal.
  change (all_idx [2]) with [[0]; [1]]. unfold in_channel. lazy -[IZR Rplus Rminus Rdiv INR Ropp Rmult Rinv]. cbn [INR]. lra.
Qed.
(** five positions in three blocks: 0 1 | 2 | 3 4 *)
Example C76_fractional_ex : cut_points (fun i => (2 * 5 * i + 3) / (2 * 3)) 5 3 = [0; 2; 3; 5] /\
  exists r, fractional_max_pool (fun L o i => (2 * L * i + o) / (2 * o)) [3] (xt [1; 1; 5] [1; 4; 0; 2; 3]%R) = Ok r /\
  elem (xdata r) [0; 0; 1] = Some (Fin 0).
Proof.
  split; [reflexivity|].
  destruct (C76_fractional_partial (fun L o i => (2 * L * i + o) / (2 * o)) _ F32 1 1 [5] [3] _ eq_refl
    (ex_pool [1; 1; 5] [1; 4; 0; 2; 3]%R eq_refl ltac:(repeat constructor)) ltac:(cbn; lia)) as [r [g [E [D M]]]].
  - constructor; [apply C76_fractional_round; lia|constructor].
  - exists r. split; [exact E|]. destruct D as [_ [_ [_ [_ [_ D]]]]]. rewrite D by (cbn; lia). f_equal.
    pose proof (M [0; 0; 1] ltac:(cbn; lia)) as M0.
    match type of M0 with largest ?l _ _ => change l with [[2]] in M0 end.
    destruct M0 as [[Q _]|[m [-> [[q [[<-|[]] <-]] _]]]]; [discriminate|]. reflexivity.
Qed.
