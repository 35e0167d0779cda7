(** Matrix products, transposes, slices and biases on tensors of real numbers. *)
From Coq Require Import List Arith ZArith Lia Bool Reals Lra.
From Verif Require Import Base IndexSpec LayoutModel ViewSpec LayoutProofs LayoutProofs2 BcastProofs.
From Verif Require Import KernelModel TensorModel TensorSpec KernelProofs TensorProofs ElementwiseProofs.
From Verif Require Import EncodeModel ReduceModel ReduceSpec ReduceProofs ReduceProofs2 ScanModel MoveProofs.
From Verif Require Import MatrixModel MatrixProofs2 MatrixProofs3 MatrixProofs4 DenSpec DenProofs.
From Verif Require Import NumModel NnModel NnSpec NnProofs LayerModel LayerSpec.
Import ListNotations.
Open Scope nat_scope.

Lemma matmul_dispatch : forall A (zero : A) add mul z dotk matk e (a b : tensor A) lb rb M K K' N,
  tshape a = lb ++ [M; K] -> tshape b = rb ++ [K'; N] -> lb <> [] \/ rb <> [] ->
  t_matmul zero add mul z dotk matk e a b = t_matmul_batched z matk a b.
Proof.
  intros A zero add mul z dotk matk e a b lb rb M K K' N Sa Sb H. unfold t_matmul. fold (tshape a) (tshape b).
  rewrite Sa, Sb. destruct lb as [|x [|y [|? ?]]], rb as [|p [|q [|? ?]]]; cbn [app]; auto; destruct H; congruence.
Qed.

Lemma fold_dot : forall f g l a,
  fold_left (fun acc (k : nat) => xadd acc (xmul (Fin (f k)) (Fin (g k)))) l (Fin a) =
  Fin (a + Rsum (map (fun k => f k * g k) l))%R.
Proof.
  intros f g l. induction l as [|k l IH]; intros a; cbn.
  - now rewrite Rplus_0_r.
  - rewrite IH. f_equal. ring.
Qed.

(** a product read through [dot_at] *)
Lemma dot_value : forall (a b : tensor xr) sa sb f g ia ib K r,
  den a sa (fun i => Fin (f i)) -> den b sb (fun i => Fin (g i)) ->
  (forall k, k < K -> valid sa (ia k)) -> (forall k, k < K -> valid sb (ib k)) ->
  dot_at (Fin 0) xadd xmul a b ia ib K r ->
  r = Some (Fin (Rsum (map (fun k => f (ia k) * g (ib k))%R (seq 0 K)))).
Proof.
  intros a b sa sb f g ia ib K r [_ [_ [_ [_ Ha]]]] [_ [_ [_ [_ Hb]]]] Va Vb [fa [fb [Ea [Eb ->]]]].
  f_equal. rewrite <- (Rplus_0_l (Rsum _)). rewrite <- fold_dot.
  assert (G : forall l (acc : xr), (forall k, In k l -> k < K) ->
    fold_left (fun acc k => xadd acc (xmul (fa k) (fb k))) l acc =
    fold_left (fun acc k => xadd acc (xmul (Fin (f (ia k))) (Fin (g (ib k))))) l acc).
  { induction l as [|k l IH]; intros acc Hl; cbn [fold_left]; auto.
    assert (Hk : k < K) by (apply Hl; now left).
    specialize (Ea k Hk). specialize (Eb k Hk). rewrite Ha in Ea by auto. rewrite Hb in Eb by auto.
    inversion Ea. inversion Eb. apply IH. intros q Hq. apply Hl. now right. }
  apply G. intros k Hk. apply in_seq in Hk. lia.
Qed.

Lemma dot_2d_layout : forall A (z : A) dotk a b r, t_dot_2d z dotk a b = Ok r -> exists s, tlay r = from_shape s.
Proof.
  intros A z dotk a b r E. unfold t_dot_2d in E. destruct (negb _); [discriminate|]. destruct (negb _); [discriminate|].
  destruct (ub _); try discriminate. cbn in E. inversion E. eexists. reflexivity.
Qed.
Lemma batched_layout : forall A (z : A) matk a b r, t_matmul_batched z matk a b = Ok r -> exists s, tlay r = from_shape s.
Proof.
  intros A z matk a b r E. unfold t_matmul_batched in E. destruct (_ || _); [discriminate|]. destruct (negb _); [discriminate|].
  destruct (mat_batch _ _); [|discriminate]. destruct (t_broadcast _ _ _); try discriminate. cbn [bind] in E.
  destruct (t_broadcast _ _ _); try discriminate. cbn [bind] in E. destruct (mat_batch _ _); [|discriminate].
  destruct (ub _); try discriminate. cbn in E. inversion E. eexists. reflexivity.
Qed.

Lemma bidx_valid : forall a b r i, bcast a b r -> valid r i -> valid a (bidx a i).
Proof.
  intros a b r i B V.
  destruct (t_broadcast_spec unit tt (mkT (repeat tt (nelem a)) (from_shape a)) r) as [t [_ [_ [_ H]]]].
  - apply from_shape_good, repeat_length.
  - apply (proj1 (bcast_views _ _ _ B)).
  - now apply H.
Qed.

Section Real.
Variable e : env.
Hypothesis He : env_ok e.
Hypothesis Hm : mat_env_ok e.
Variable blas : bool.

Definition dense (x : xtensor) : Prop := is_contiguous (tlay (xdata x)) = true.
Lemma dense_fit : forall x d m n f, xden x d [m; n] f -> dense x -> fit blas x.
Proof.
  intros x d m n f [_ [G [_ [S _]]]] D _. unfold dense in D. apply is_contiguous_iff in D; [|apply G].
  unfold xshape. rewrite D. unfold tshape in S. rewrite S. rewrite !compute_strides_cons, nelem_cons. change (nelem []) with 1. rewrite Nat.mul_1_r. cbn. left. lia.
Qed.

(** two matrices *)
Lemma x_matmul_2 : forall a b d m k n A B, allowed NoBool d = true ->
  xmat a d m k A -> xmat b d k n B -> fit blas a -> fit blas b ->
  exists r, x_matmul e blas a b = Ok r /\ dense r /\
    xmat r d m n (fun i j => Rsum (map (fun q => A i q * B q j)%R (seq 0 k))).
Proof.
  intros a b d m k n A B C Xa Xb Fa Fb.
  assert (Pk : 0 < k). { pose proof (xden_pos _ _ _ _ Xb) as P. now inversion P. }
  assert (Pm : 0 < m). { pose proof (xden_pos _ _ _ _ Xa) as P. now inversion P. }
  assert (Pn : 0 < n). { pose proof (xden_pos _ _ _ _ Xb) as P. inversion P; subst. now inversion H2. }
  destruct Xa as [Da Ha]. destruct Xb as [Db Hb]. pose proof Ha as [Ga [_ [Sa _]]]. pose proof Hb as [Gb [_ [Sb _]]].
  unfold fit, xshape in Fa, Fb. unfold tshape in Sa, Sb. rewrite Da, Sa in Fa. rewrite Db, Sb in Fb.
  unfold x_matmul. rewrite Da, Db, same_dtype_refl, C. cbn [negb]. unfold t_matmul. rewrite Sa, Sb.
  assert (H : exists r, t_dot_2d (Fin 0) (x_dotk e blas d) (xdata a) (xdata b) = Ok r /\ good r /\ tshape r = [m; n] /\
    forall i j, i < m -> j < n -> dot_at (Fin 0) xadd xmul (xdata a) (xdata b) (fun q => [i; q]) (fun q => [q; j]) k (elem r [i; j])).
  { unfold x_dotk. destruct (by_blas blas d) eqn:EB.
    - apply dot_2d_blas; auto.
    - apply dot_2d_spec; auto. }
  destruct H as [r [E [G [S H]]]]. rewrite E. eexists. split; [reflexivity|].
  destruct (dot_2d_layout _ _ _ _ _ _ E) as [s L]. split; [unfold dense; cbn; rewrite L; apply from_shape_contiguous|].
  split; [reflexivity|]. split; [exact G|]. split; [left; cbn; rewrite L; reflexivity|]. split; [exact S|].
  split; [constructor; auto|]. intros i V. destruct i as [|i [|j [|? ?]]]; cbn in V; try tauto. cbn [nth xdata].
  apply (dot_value (xdata a) (xdata b) [m; k] [k; n] (fun i => A (nth 0 i 0) (nth 1 i 0)) (fun i => B (nth 0 i 0) (nth 1 i 0))
           (fun q => [i; q]) (fun q => [q; j])); auto; try (intros q Hq; cbn; tauto). apply H; tauto.
Qed.

(** a vector and a matrix *)
Lemma x_matmul_1 : forall a b d k n A B, allowed NoBool d = true ->
  xvec a d k A -> xmat b d k n B -> fit blas b ->
  exists r, x_matmul e blas a b = Ok r /\
    xvec r d n (fun j => Rsum (map (fun q => A q * B q j)%R (seq 0 k))).
Proof.
  intros a b d k n A B C Xa Xb Fb.
  assert (Pk : 0 < k). { pose proof (xden_pos _ _ _ _ Xb) as P. now inversion P. }
  assert (Pn : 0 < n). { pose proof (xden_pos _ _ _ _ Xb) as P. inversion P; subst. now inversion H2. }
  destruct Xa as [Da Ha]. destruct Xb as [Db Hb]. pose proof Ha as [Ga [_ [Sa _]]]. pose proof Hb as [Gb [_ [Sb _]]].
  unfold fit, xshape in Fb. rewrite Db in Fb. change (lshape (tlay (xdata b))) with (tshape (xdata b)) in Fb. rewrite Sb in Fb.
  unfold x_matmul. rewrite Da, Db, same_dtype_refl, C. cbn [negb].
  assert (H : exists r, t_matmul (Fin 0) xadd xmul (Fin 0) (x_dotk e blas d) (x_matk e blas d) e (xdata a) (xdata b) = Ok r /\
    good r /\ tshape r = [n] /\
    forall j, j < n -> dot_at (Fin 0) xadd xmul (xdata a) (xdata b) (fun q => [q]) (fun q => [q; j]) k (elem r [j])).
  { apply vec_mat_gen; auto. intros a' G S [o L]. unfold x_dotk. destruct (by_blas blas d) eqn:EB.
    - apply dot_2d_blas; auto. rewrite L. cbn. left. auto.
    - apply dot_2d_spec; auto. }
  destruct H as [r [E [G [S H]]]]. rewrite E. eexists. split; [reflexivity|].
  split; [reflexivity|]. split; [exact G|]. split.
  { left. cbn. unfold t_matmul in E. fold (tshape (xdata a)) (tshape (xdata b)) in E. rewrite Sa, Sb, Nat.eqb_refl in E. cbn [negb] in E.
    destruct (t_view (Fin 0) _ (xdata a)) as [a'| |]; try discriminate. cbn [bind] in E.
    destruct (t_dot_2d _ _ _ _) as [r'| |] eqn:Ed; try discriminate. cbn [bind] in E.
    destruct (dot_2d_layout _ _ _ _ _ _ Ed) as [s L].
    destruct r' as [st l]. cbn in L. subst l. unfold t_view, t_contiguous in E. cbn [tlay] in E.
    rewrite from_shape_contiguous in E. cbn [bind tlay tstore] in E.
    destruct (apply_view (from_shape s) (VSqueeze [0%Z])) as [l| |] eqn:Ev; try discriminate. cbn in E. inversion E. cbn.
    assert (N : forall a b c d, VSqueeze [0%Z] <> VSlice a b c d) by discriminate. rewrite (apply_view_offset _ _ _ N Ev). reflexivity. }
  split; [exact S|].
  split; [constructor; auto|]. intros i V. destruct i as [|j [|? ?]]; cbn in V; try tauto. cbn [nth xdata].
  apply (dot_value (xdata a) (xdata b) [k] [k; n] (fun i => A (nth 0 i 0)) (fun i => B (nth 0 i 0) (nth 1 i 0))
           (fun q => [q]) (fun q => [q; j])); auto; try (intros q Hq; cbn; tauto). apply H; tauto.
Qed.

(** stacks of matrices; with BLAS, at most one batch axis *)
Lemma x_matmul_n : forall a b d lb rb s m k n A B, allowed NoBool d = true -> lb <> [] \/ rb <> [] ->
  xden a d (lb ++ [m; k]) (fun i => Fin (A i)) -> xden b d (rb ++ [k; n]) (fun i => Fin (B i)) ->
  bcast lb rb s -> length s <= (if by_blas blas d then 1 else 16) ->
  exists r, x_matmul e blas a b = Ok r /\ dense r /\
    xden r d (s ++ [m; n]) (fun i =>
      let p := firstn (length s) i in
      let x := nth (length s) i 0 in let y := nth (S (length s)) i 0 in
      Fin (Rsum (map (fun q => A (bidx lb p ++ [x; q]) * B (bidx rb p ++ [q; y]))%R (seq 0 k)))).
Proof.
  intros a b d lb rb s m k n A B C NE Xa Xb BC HR.
  pose proof (xden_pos _ _ _ _ Xa) as Pa. pose proof (xden_pos _ _ _ _ Xb) as Pb.
  apply Forall_app in Pa. destruct Pa as [Pla Pma]. apply Forall_app in Pb. destruct Pb as [Plb Pmb].
  assert (Pk : 0 < k) by (now inversion Pmb).
  assert (Pm : 0 < m) by (now inversion Pma).
  assert (Pn : 0 < n) by (inversion Pmb; subst; now inversion H2).
  assert (Ps : all_pos s) by (eapply bcast_all_pos; eauto).
  destruct Xa as [Da Ha]. destruct Xb as [Db Hb]. pose proof Ha as [Ga [_ [Sa _]]]. pose proof Hb as [Gb [_ [Sb _]]].
  unfold x_matmul. rewrite Da, Db, same_dtype_refl, C. cbn [negb].
  rewrite (matmul_dispatch _ _ _ _ _ _ _ _ (xdata a) (xdata b) lb rb m k k n); auto.
  assert (H : exists r, t_matmul_batched (Fin 0) (x_matk e blas d) (xdata a) (xdata b) = Ok r /\ good r /\ tshape r = s ++ [m; n] /\
    forall bi i j, valid s bi -> i < m -> j < n ->
      dot_at (Fin 0) xadd xmul (xdata a) (xdata b) (fun q => bidx lb bi ++ [i; q]) (fun q => bidx rb bi ++ [q; j]) k (elem r (bi ++ [i; j]))).
  { unfold x_matk. destruct (by_blas blas d) eqn:EB.
    - apply batched_blas; auto.
    - apply batched_spec; auto. }
  destruct H as [r [E [G [S H]]]]. rewrite E. eexists. split; [reflexivity|].
  destruct (batched_layout _ _ _ _ _ _ E) as [s' L]. split; [unfold dense; cbn; rewrite L; apply from_shape_contiguous|].
  split; [reflexivity|]. split; [exact G|]. split; [left; cbn; rewrite L; reflexivity|]. split; [exact S|].
  split; [apply Forall_app; split; auto|]. intros i V.
  pose proof (valid_length _ _ V) as LV. rewrite app_length in LV. cbn in LV.
  rewrite <- (firstn_skipn (length s) i) in V |- *. set (p := firstn (length s) i) in *.
  assert (Lp : length p = length s) by (unfold p; rewrite firstn_length; lia).
  destruct (skipn (length s) i) as [|x [|y [|? ?]]] eqn:Es;
    apply (f_equal (@length nat)) in Es as Es'; rewrite skipn_length in Es'; cbn in Es'; try lia.
  apply valid_app in V; [|lia]. destruct V as [Vp Vq]. cbn in Vq.
  cbn zeta. rewrite !app_nth2 by lia. rewrite Lp. replace (length s - length s) with 0 by lia. replace (Datatypes.S (length s) - length s) with 1 by lia.
  cbn [nth]. rewrite firstn_app, Lp, Nat.sub_diag, firstn_O, app_nil_r, (firstn_all2 p) by lia.
  assert (Vl : valid lb (bidx lb p)). { eapply bidx_valid; eauto. }
  assert (Vr : valid rb (bidx rb p)). { eapply bidx_valid; eauto. apply bcast_sym. exact BC. }
  apply (dot_value (xdata a) (xdata b) (lb ++ [m; k]) (rb ++ [k; n]) A B
           (fun q => bidx lb p ++ [x; q]) (fun q => bidx rb p ++ [q; y])); auto.
  - intros q Hq. apply valid_app; [now apply valid_length|]. split; auto. cbn. tauto.
  - intros q Hq. apply valid_app; [now apply valid_length|]. split; auto. cbn. tauto.
  - apply H; tauto.
Qed.
End Real.
