(** The normalisation layers: proofs. *)
From Coq Require Import List Arith ZArith Lia Bool Permutation Reals Lra.
From Verif Require Import Base IndexSpec LayoutModel ViewSpec LayoutProofs LayoutProofs2 BcastProofs.
From Verif Require Import KernelModel TensorModel TensorSpec KernelProofs TensorProofs ElementwiseProofs.
From Verif Require Import EncodeModel ReduceModel ReduceSpec ReduceProofs ReduceProofs2 SelectModel.
From Verif Require Import NumModel DenSpec DenProofs NnModel NnSpec NnProofs LayerModel LayerProofs2 NormModel NormSpec.
Import ListNotations.
Open Scope nat_scope.

(* ---------- axes ---------- *)

Lemma length_fibre : forall keep ds s j, NoDup ds -> Forall (fun d => d < length s) ds ->
  valid (rshape keep ds s) j -> length (fibre keep ds s j) = nelem (extents ds s).
Proof.
  intros keep ds s j ND F V. rewrite <- (Permutation_length (visit_fibre keep ds s j ND F V)).
  unfold visit. now rewrite map_length, all_idx_length.
Qed.

Lemma set_axes_valid : forall ds s i k, valid s i -> valid (set_axes ds 1 k s) (set_axes ds 0 k i).
Proof.
  induction s as [|n s IH]; intros [|x i] k V; cbn in *; try tauto. destruct V. split; auto.
  destruct in_dec; lia.
Qed.
Lemma set_axes_bcast : forall ds s, bcast s (set_axes ds 1 0 s) s.
Proof.
  intros ds s. apply bcast_ones.
  assert (G : forall k, Forall2 (fun x y => y = x \/ y = 1) s (set_axes ds 1 k s)).
  { induction s as [|n s IH]; intros k; cbn; constructor; auto. destruct in_dec; auto. }
  apply G.
Qed.
Lemma set_axes_bidx : forall ds s i, valid s i -> bidx (set_axes ds 1 0 s) i = set_axes ds 0 0 i.
Proof.
  intros ds s i V. pose proof (valid_length _ _ V) as L. unfold bidx.
  rewrite set_axes_length, L, Nat.sub_diag. cbn [skipn]. clear L.
  cut (forall k, map (fun p => if fst p =? 1 then 0 else snd p) (combine (set_axes ds 1 k s) i) = set_axes ds 0 k i); auto.
  revert i V. induction s as [|n s IH]; intros [|x i] V k; cbn in *; try tauto; auto. destruct V as [V1 V2].
  rewrite IH by auto. destruct in_dec; cbn; auto.
  destruct (Nat.eqb_spec n 1); f_equal. lia.
Qed.
Lemma set_axes_in : forall A ds (v : A) l k, (forall q, k <= q < k + length l -> In q ds) ->
  set_axes ds v k l = repeat v (length l).
Proof.
  intros A ds v. induction l as [|x l IH]; intros k H; cbn; auto.
  destruct in_dec as [_|N]; [|exfalso; apply N; apply H; cbn; lia].
  f_equal. apply IH. intros q Hq. apply H. cbn. lia.
Qed.
Lemma set_axes_out : forall A ds (v : A) l k, (forall q, k <= q < k + length l -> ~ In q ds) -> set_axes ds v k l = l.
Proof.
  intros A ds v. induction l as [|x l IH]; intros k H; cbn; auto.
  destruct in_dec as [I|_]; [exfalso; apply (H k); cbn; auto; lia|].
  f_equal. apply IH. intros q Hq. apply H. cbn. lia.
Qed.
Lemma set_axes_app : forall A ds (v : A) a b k,
  set_axes ds v k (a ++ b) = set_axes ds v k a ++ set_axes ds v (k + length a) b.
Proof.
  intros A ds v. induction a as [|x a IH]; intros b k; cbn; [now rewrite Nat.add_0_r|].
  f_equal. rewrite IH. f_equal. now replace (S k + length a) with (k + S (length a)) by lia.
Qed.
(** the trailing axes *)
Lemma set_axes_tail : forall A (v : A) m k l, length l = m + k ->
  set_axes (seq m k) v 0 l = firstn m l ++ repeat v k.
Proof.
  intros A v m k l L. rewrite <- (firstn_skipn m l) at 1. rewrite set_axes_app.
  assert (L1 : length (firstn m l) = m) by (rewrite firstn_length; lia).
  assert (L2 : length (skipn m l) = k) by (rewrite skipn_length; lia).
  rewrite L1. f_equal.
  - apply set_axes_out. intros q Hq I. apply in_seq in I. lia.
  - rewrite <- L2 at 2. apply set_axes_in. intros q Hq. apply in_seq. lia.
Qed.
(** all axes but axis 1 *)
Lemma set_axes_channel : forall A (v : A) k x y l, length l = k ->
  set_axes (0 :: seq 2 k) v 0 (x :: y :: l) = v :: y :: repeat v k.
Proof.
  intros A v k x y l L. cbn [set_axes].
  destruct in_dec as [_|N]; [|exfalso; apply N; now left].
  destruct in_dec as [[I|I]|_]; [discriminate|apply in_seq in I; lia|]. do 2 f_equal.
  rewrite <- L. apply set_axes_in. intros q Hq. right. apply in_seq. lia.
Qed.

Definition key_of (key : list nat -> list nat) (ds s : list nat) : Prop :=
  forall i j, valid s i -> valid s j -> (rproj true ds i = rproj true ds j <-> key i = key j).

Lemma peers_fibre : forall key ds s i, key_of key ds s -> valid s i ->
  fibre true ds s (rproj true ds i) = peers key s i.
Proof.
  intros key ds s i K V. unfold fibre, peers. apply filter_ext_in. intros j Hj. apply in_all_idx in Hj.
  specialize (K j i Hj V). destruct list_eq_dec as [E|N], list_eq_dec as [E'|N']; auto; tauto.
Qed.
Lemma peers_eq : forall key s i j, key i = key j -> peers key s i = peers key s j.
Proof. intros key s i j E. unfold peers. now rewrite E. Qed.
Lemma in_peers : forall key s i j, In j (peers key s i) <-> valid s j /\ key j = key i.
Proof.
  intros key s i j. unfold peers. rewrite filter_In, in_all_idx.
  destruct list_eq_dec as [E|N]; intuition congruence.
Qed.
Lemma peers_pos : forall key s i, valid s i -> 0 < length (peers key s i).
Proof.
  intros key s i V. assert (In i (peers key s i)) by (apply in_peers; auto).
  destruct (peers key s i); cbn; [contradiction|lia].
Qed.

Lemma Ravg_ext : forall l r r', (forall j, In j l -> r j = r' j) -> Ravg l r = Ravg l r'.
Proof. intros l r r' H. unfold Ravg. f_equal. now apply Rsum_ext. Qed.
Lemma Ravg_nonneg : forall l r, (forall j, In j l -> 0 <= r j)%R -> (0 <= Ravg l r)%R.
Proof.
  intros l r H. unfold Ravg. destruct l as [|x l].
  - cbn. unfold Rdiv. rewrite Rmult_0_l. lra.
  - apply Rmult_le_pos.
    + apply Rsum_nonneg. apply Forall_forall. intros y Hy. apply in_map_iff in Hy.
      destruct Hy as [j [<- Hj]]. now apply H.
    + apply Rlt_le, Rinv_0_lt_compat. apply lt_0_INR. cbn. lia.
Qed.
Lemma Rvar_nonneg : forall l r, (0 <= Rvar l r)%R.
Proof. intros l r. apply Ravg_nonneg. intros j _. apply Rle_0_sqr. Qed.

(* ---------- the pieces ---------- *)

Section Real.
Variable e : env.
Hypothesis He : env_ok e.

Lemma mean_ok : forall x axes ds key d s r, is_float d = true -> xden x d s (fun i => Fin (r i)) ->
  ReduceSpec.axes_of (length s) axes ds -> NoDup ds -> length s <= 16 -> key_of key ds s ->
  exists m M, x_mean x axes true = Ok m /\ xden m d (rshape true ds s) (fun j => Fin (M j)) /\
    forall i, valid s i -> M (rproj true ds i) = Ravg (peers key s i) r.
Proof.
  intros x axes ds key d s r F X Hax ND HR K.
  destruct (xden_mean x axes ds true d s r F X Hax ND HR) as [m [E D]].
  exists m. eexists. split; [exact E|]. split; [exact D|]. intros i V. cbn beta. unfold Ravg.
  rewrite (peers_fibre key) by auto. f_equal. f_equal.
  rewrite <- (peers_fibre key ds s i K V). symmetry. apply length_fibre; auto.
  - eapply axes_lt; eauto.
  - now apply set_axes_valid.
Qed.

Lemma spread_ok : forall c op a b d s ds f g, allowed c d = true ->
  xden a d s f -> xden b d (rshape true ds s) g ->
  exists t, x_binary e c op a b = Ok t /\ xden t d s (fun i => op (f i) (g (rproj true ds i))).
Proof.
  intros c op a b d s ds f g C A B.
  destruct (xden_binary e He c op a b d s (rshape true ds s) f g C A B (set_axes_bcast ds s)) as [t [E D]].
  exists t. split; auto. eapply xden_ext; [exact D|]. intros i V. cbn beta. unfold rshape, rproj. now rewrite set_axes_bidx.
Qed.

Lemma moments_ok : forall bs x axes ds key d s r, is_float d = true -> xden x d s (fun i => Fin (r i)) ->
  ReduceSpec.axes_of (length s) axes ds -> NoDup ds -> length s <= 16 -> key_of key ds s ->
  exists m c v M V, moments e bs x axes = Ok (m, c, v) /\
    xden m d (rshape true ds s) (fun j => Fin (M j)) /\
    xden c d s (fun i => Fin (r i - Ravg (peers key s i) r)) /\
    xden v d (rshape true ds s) (fun j => Fin (V j)) /\
    forall i, valid s i -> M (rproj true ds i) = Ravg (peers key s i) r /\
                           V (rproj true ds i) = Rvar (peers key s i) r.
Proof.
  intros bs x axes ds key d s r F X Hax ND HR K. unfold moments.
  destruct (mean_ok x axes ds key d s r F X Hax ND HR K) as [m [M [Em [Dm HM]]]]. rewrite Em. cbn [bind].
  destruct (spread_ok NoBool xsub x m d s ds _ _ (float_allowed _ _ F) X Dm) as [c [Ec Dc]].
  unfold x_sub. rewrite Ec. cbn [bind].
  assert (Dc' : xden c d s (fun i => Fin (r i - Ravg (peers key s i) r))).
  { eapply xden_ext; [exact Dc|]. intros i V. cbn beta. rewrite HM by auto. reflexivity. }
  assert (Q : exists q, (if bs then x_square e c else x_mul e c c) = Ok q /\
    xden q d s (fun i => Fin ((r i - Ravg (peers key s i) r) * (r i - Ravg (peers key s i) r)))).
  { destruct bs.
    - unfold x_square. destruct (xden_unary e He NoBool xsq c d s _ (float_allowed _ _ F) Dc') as [q [E D]].
      exists q. split; auto.
    - unfold x_mul. destruct (xden_binary_same e He NoBool xmul c c d s _ _ (float_allowed _ _ F) Dc' Dc') as [q [E D]].
      exists q. split; auto. }
  destruct Q as [q [Eq Dq]]. rewrite Eq. cbn [bind].
  destruct (mean_ok q axes ds key d s _ F Dq Hax ND HR K) as [v [V [Ev [Dv HV]]]]. rewrite Ev. cbn [bind].
  exists m, c, v, M, V. repeat (split; auto). rewrite HV by auto. unfold Rvar. apply Ravg_ext.
  intros j Hj. apply in_peers in Hj. destruct Hj as [_ Hj]. now rewrite (peers_eq key s j i Hj).
Qed.

Lemma divide_ok : forall d eps c v s ds cc V, is_float d = true ->
  xden c d s (fun i => Fin (cc i)) -> xden v d (rshape true ds s) (fun j => Fin (V j)) ->
  (forall i, valid s i -> 0 < V (rproj true ds i) + eps)%R ->
  exists y, divide e d eps c v = Ok y /\
    xden y d s (fun i => Fin (cc i / sqrt (V (rproj true ds i) + eps))).
Proof.
  intros d eps c v s ds cc V F C Dv HV. unfold divide.
  destruct (xden_scalar e He NoBool xadd v d (rshape true ds s) _ (Fin eps) (float_allowed _ _ F) Dv) as [a [Ea Da]].
  unfold x_add_scalar. rewrite Ea. cbn [bind].
  destruct (xden_unary e He Floats xsqrt a d (rshape true ds s) _ (float_allowed _ _ F) Da) as [b [Eb Db]].
  unfold x_sqrt. rewrite Eb. cbn [bind].
  destruct (spread_ok Floats xdiv c b d s ds _ _ (float_allowed _ _ F) C Db) as [y [Ey Dy]].
  unfold x_div. exists y. split; auto. eapply xden_ext; [exact Dy|]. intros i Vi. cbn beta.
  specialize (HV i Vi). cbn [xadd xsqrt]. unfold Rltb. destruct Rlt_dec; [lra|].
  apply xdiv_fin. apply Rgt_not_eq. now apply sqrt_lt_R0.
Qed.

(** parameters along all trailing axes *)
Lemma bcast_skipn : forall s m, bcast s (skipn m s) s.
Proof.
  intros s m. destruct (le_lt_dec (length s) m) as [H|H].
  { rewrite skipn_all2 by lia. split; [cbn; lia|]. intros k. right. right. split; auto. now destruct k. }
  split; [rewrite skipn_length; lia|].
  intros k. rewrite <- (firstn_skipn m s) at 1 3. rewrite rev_app_distr.
  destruct (lt_dec k (length (rev (skipn m s)))) as [K|K].
  - left. rewrite app_nth1 by auto. auto.
  - right. right. split; auto. now rewrite nth_overflow by lia.
Qed.
Lemma bidx_skipn : forall s m i, valid s i -> bidx (skipn m s) i = skipn m i.
Proof.
  intros s m i V. pose proof (valid_length _ _ V) as L. unfold bidx.
  rewrite skipn_length. replace (length i - (length s - m)) with (Nat.min m (length i)) by lia.
  assert (S1 : skipn (Nat.min m (length i)) i = skipn m i).
  { destruct (Nat.min_spec m (length i)) as [[H ->]|[H ->]]; auto. now rewrite !skipn_all2 by lia. }
  rewrite S1. assert (V' : valid (skipn m s) (skipn m i)).
  { clear L S1. revert s i V. induction m as [|m IH]; intros [|n s] [|x i] V; cbn in *; try tauto; auto. apply IH; tauto. }
  revert V'. generalize (skipn m i), (skipn m s). clear. intros i s. revert i.
  induction s as [|n s IH]; intros [|x i] V; cbn in *; try tauto; auto. destruct V.
  rewrite IH by auto. destruct (Nat.eqb_spec n 1); f_equal. lia.
Qed.
Lemma scale_shift_ok : forall y gb d s m f g b, is_float d = true ->
  xden y d s (fun i => Fin (f i)) -> xaffine gb d (skipn m s) g b ->
  exists z, scale_shift e y gb = Ok z /\
    xden z d s (fun i => Fin (f i * g (skipn m i) + b (skipn m i))).
Proof.
  intros y [[ga be]|] d s m f g b F Y P; cbn [scale_shift xaffine] in *.
  - destruct P as [G B].
    destruct (xden_binary e He NoBool xmul y ga d s _ _ _ (float_allowed _ _ F) Y G (bcast_skipn s m)) as [q [E D]].
    unfold x_mul. rewrite E. cbn [bind].
    destruct (xden_binary e He NoBool xadd q be d s _ _ _ (float_allowed _ _ F) D B (bcast_skipn s m)) as [z [E' D']].
    exists z. split; auto. eapply xden_ext; [exact D'|]. intros i V. cbn. now rewrite bidx_skipn.
  - exists y. split; auto. eapply xden_ext; [exact Y|]. intros i V. cbn. destruct (P (skipn m i)) as [-> ->]. f_equal. lra.
Qed.

(** parameters along axis 1 *)
Lemma nelem_ones : forall k, nelem (repeat 1 k) = 1.
Proof. induction k as [|k IH]; auto. cbn [repeat]. rewrite nelem_cons, IH. reflexivity. Qed.
Lemma valid_ones : forall k i, valid (repeat 1 k) i -> ravel (repeat 1 k) i = 0.
Proof.
  induction k as [|k IH]; intros [|x i] V; cbn in *; try tauto; auto. destruct V as [V1 V2].
  rewrite IH by auto. replace x with 0 by lia. reflexivity.
Qed.
Lemma channel_ok : forall c n a d f, xden a d [c] f ->
  exists t, x_view (VReshape (channel_shape c n)) a = Ok t /\
    xden t d (channel_shape c n) (fun j => f [nth 1 j 0]).
Proof.
  intros c n a d f [D H]. unfold x_view.
  destruct (den_reshape _ (Fin 0) (xdata a) [c] (channel_shape c n) f H) as [t [E Dt]].
  { unfold channel_shape. rewrite !nelem_cons, nelem_ones. change (nelem []) with 1. lia. }
  rewrite E. eexists. split; [reflexivity|]. split; auto. cbn [xdata].
  eapply den_ext; [exact Dt|]. intros j V. cbn beta. f_equal. unfold channel_shape in *.
  destruct j as [|j0 [|j1 j]]; cbn [valid] in V; try tauto. destruct V as [V0 [V1 V2]].
  cbn [ravel nth unravel]. rewrite valid_ones by auto. rewrite nelem_cons, nelem_ones.
  change (nelem []) with 1. replace j0 with 0 by lia. rewrite Nat.div_1_r. f_equal. lia.
Qed.
Lemma channel_rshape : forall n c l, channel_shape c (length (n :: c :: l)) = rshape true (0 :: seq 2 (length l)) (n :: c :: l).
Proof.
  intros n c l. unfold channel_shape, rshape. rewrite set_axes_channel by auto. cbn [length].
  now replace (S (S (length l)) - 2) with (length l) by lia.
Qed.
Lemma scale_shift_channels_ok : forall y gb d n c l f g b, is_float d = true ->
  xden y d (n :: c :: l) (fun i => Fin (f i)) -> xaffine gb d [c] g b ->
  exists z, scale_shift_channels e c (length (n :: c :: l)) y gb = Ok z /\
    xden z d (n :: c :: l) (fun i => Fin (f i * g [nth 1 i 0] + b [nth 1 i 0])).
Proof.
  intros y [[ga be]|] d n c l f g b F Y P; cbn [scale_shift_channels xaffine] in *.
  - destruct P as [G B].
    destruct (channel_ok c (length (n :: c :: l)) ga d _ G) as [g' [Eg Dg]].
    destruct (channel_ok c (length (n :: c :: l)) be d _ B) as [b' [Eb Db]].
    rewrite Eg. cbn [bind]. rewrite Eb. cbn [bind]. rewrite channel_rshape in Dg, Db.
    destruct (spread_ok NoBool xmul y g' d _ _ _ _ (float_allowed _ _ F) Y Dg) as [q [E D]].
    unfold x_mul. rewrite E. cbn [bind].
    destruct (spread_ok NoBool xadd q b' d _ _ _ _ (float_allowed _ _ F) D Db) as [z [E' D']].
    exists z. split; auto. eapply xden_ext; [exact D'|]. intros i V. cbn beta.
    destruct i as [|i0 [|i1 i]]; cbn [valid] in V; try tauto. destruct V as [_ [_ V]]. apply valid_length in V.
    unfold rproj. rewrite set_axes_channel by auto. reflexivity.
  - exists y. split; auto. eapply xden_ext; [exact Y|]. intros i V. cbn.
    destruct (P [nth 1 i 0]) as [-> ->]. f_equal. lra.
Qed.

(* ---------- which entries go together ---------- *)

Lemma key_prefix : forall s m k, length s = m + k -> key_of (by_prefix m) (seq m k) s.
Proof.
  intros s m k L i j Vi Vj. apply valid_length in Vi. apply valid_length in Vj. unfold rproj, by_prefix.
  rewrite !set_axes_tail by lia. split; [|now intros ->].
  intros E. apply app_inv_tail in E. exact E.
Qed.
Lemma key_channel : forall n c l, key_of by_channel (0 :: seq 2 (length l)) (n :: c :: l).
Proof.
  intros n c l i j Vi Vj.
  destruct i as [|i0 [|i1 i]]; cbn [valid] in Vi; try tauto. destruct Vi as [_ [_ Vi]]. apply valid_length in Vi.
  destruct j as [|j0 [|j1 j]]; cbn [valid] in Vj; try tauto. destruct Vj as [_ [_ Vj]]. apply valid_length in Vj.
  unfold rproj, by_channel. rewrite !set_axes_channel by auto. cbn [nth].
  split; [now intros [= ->]|now intros [= ->]].
Qed.
Lemma key_instance : forall n c l, key_of by_instance (seq 2 (length l)) (n :: c :: l).
Proof.
  intros n c l i j Vi Vj. pose proof (valid_length _ _ Vi) as Li. pose proof (valid_length _ _ Vj) as Lj. cbn [length] in *.
  unfold rproj, by_instance. rewrite !set_axes_tail by lia.
  destruct i as [|i0 [|i1 i]]; cbn [valid] in Vi; try tauto.
  destruct j as [|j0 [|j1 j]]; cbn [valid] in Vj; try tauto. cbn [firstn app nth].
  split; [now intros [= -> ->]|now intros [= -> ->]].
Qed.

Lemma axes_nat : forall n l, Forall (fun d => d < n) l -> l <> [] -> ReduceSpec.axes_of n (map Z.of_nat l) l.
Proof.
  intros n l F N. destruct l as [|a l]; [contradiction|]. unfold ReduceSpec.axes_of. cbn [map].
  change (Z.of_nat a :: map Z.of_nat l) with (map Z.of_nat (a :: l)).
  clear N. induction F as [|x r H F IH]; cbn; constructor; auto.
Qed.
Lemma axes_tail : forall m k n, k <> 0 -> m + k <= n -> ReduceSpec.axes_of n (map Z.of_nat (seq m k)) (seq m k).
Proof.
  intros m k n K H. apply axes_nat.
  - apply Forall_forall. intros d I. apply in_seq in I. lia.
  - destruct k; [lia|discriminate].
Qed.
Lemma axes_channel : forall k n, k + 2 <= n -> ReduceSpec.axes_of n (map Z.of_nat (0 :: seq 2 k)) (0 :: seq 2 k).
Proof.
  intros k n H. apply axes_nat; [|discriminate]. constructor; [lia|].
  apply Forall_forall. intros d I. apply in_seq in I. lia.
Qed.
Lemma NoDup_channel : forall k, NoDup (0 :: seq 2 k).
Proof. intros k. constructor; [|apply seq_NoDup]. intros I. apply in_seq in I. lia. Qed.
End Real.
