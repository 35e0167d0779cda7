(** Transposes, slices, biases; what is dense; the linear layer. *)
From Coq Require Import List Arith ZArith Lia Bool Reals Lra.
From Verif Require Import Base IndexSpec LayoutModel ViewSpec LayoutProofs LayoutProofs2 BcastProofs.
From Verif Require Import KernelModel TensorModel TensorSpec KernelProofs TensorProofs ElementwiseProofs.
From Verif Require Import EncodeModel MatrixModel MatrixProofs3 DenSpec DenProofs.
From Verif Require Import ReduceModel ReduceSpec ReduceProofs ReduceProofs2 ScanModel MoveProofs MatrixProofs2 MatrixProofs4.
From Verif Require Import NumModel NnModel NnSpec NnProofs LayerModel LayerSpec LayerProofs.
Import ListNotations.
Open Scope nat_scope.

Lemma strides2 : forall m n, compute_strides [m; n] = [n; 1].
Proof. intros. rewrite !compute_strides_cons, nelem_cons. change (nelem []) with 1. now rewrite Nat.mul_1_r. Qed.

Lemma broadcast_strides_same : forall s st, length st = length s -> broadcast_strides 0 s s st = Ok st.
Proof.
  induction s as [|d s IH]; intros [|x st] L; cbn in L; try lia; auto.
  cbn [broadcast_strides]. rewrite Nat.eqb_refl, IH by lia. reflexivity.
Qed.
(** broadcasting to the operand's own shape gives a contiguous tensor *)
Lemma t_broadcast_dense : forall A (z : A) t t', good t -> t_broadcast z t (tshape t) = Ok t' ->
  is_contiguous (tlay t') = true.
Proof.
  intros A z t t' G E. destruct (t_contiguous_spec A z t G) as [c [Ec [Gc [Sc [Cc _]]]]].
  unfold t_broadcast in E. rewrite (t_view_unfold A z _ t c G Ec) in E. cbn [apply_view] in E.
  unfold broadcast_to in E. change (lshape (tlay c)) with (tshape c) in E. rewrite Sc, Nat.ltb_irrefl, Nat.sub_diag in E.
  cbn [repeat app] in E. rewrite broadcast_strides_same in E.
  - cbn in E. inversion E. cbn [tlay]. change (tshape t) with (lshape (tlay t)).
    replace {| lshape := lshape (tlay t); lstrides := lstrides (tlay c); loffset := loffset (tlay c) |} with (tlay c); auto.
    unfold tshape in Sc. rewrite <- Sc. now destruct (tlay c).
  - rewrite <- Sc. apply Gc.
Qed.
Lemma t_binary_dense : forall A C B e (za : A) (zc : C) (z : B) op a b t, good a -> tshape t = tshape a ->
  t_binary e za zc z op a b = Ok t -> is_contiguous (tlay t) = true.
Proof.
  intros A C B e za zc z op a b t G S E. unfold t_binary in E.
  destruct (broadcast_tensors2 za zc a b) as [[a' b']| |] eqn:Eb; try discriminate. cbn [bind] in E.
  destruct (call_ops_binary _ _ _ _ _ _ _); try discriminate. cbn in E. inversion E. subst t. clear E. cbn in S |- *.
  unfold broadcast_tensors2 in Eb. destruct (bt2_dims _ _) as [s|]; [|discriminate].
  destruct (t_broadcast za a s) as [a2| |] eqn:Ea; try discriminate. cbn [bind] in Eb.
  destruct (t_broadcast zc b s) as [b2| |]; try discriminate. cbn [bind] in Eb. inversion Eb; subst.
  destruct (t_broadcast_spec A za a s G (t_broadcast_Ok A za a s a' G Ea)) as [a3 [E3 [_ [S3 _]]]].
  rewrite Ea in E3. inversion E3; subst a3. assert (Es : s = tshape a) by (rewrite <- S3; exact S). rewrite Es in Ea.
  exact (t_broadcast_dense A za a a' G Ea).
Qed.
Lemma x_binary_dense : forall e c op a b d s f g t, xden a d s f -> xden t d s g ->
  x_binary e c op a b = Ok t -> dense t.
Proof.
  intros e c op a b d s f g t [_ [G [_ [Sa _]]]] [_ [_ [_ [St _]]]] E. unfold x_binary in E.
  destruct (negb _); [discriminate|]. destruct (negb _); [discriminate|].
  destruct (t_binary _ _ _ _ _ _ _) as [u| |] eqn:Eu; try discriminate. cbn in E. inversion E; subst. unfold dense. cbn in *.
  eapply (t_binary_dense _ _ _ _ _ _ _ _ (xdata a) _ u G); eauto; congruence.
Qed.
Lemma x_unary_dense : forall e c op a t, x_unary e c op a = Ok t -> dense t.
Proof.
  intros e c op a t E. unfold x_unary in E. destruct (negb _); [discriminate|].
  unfold t_unary in E. destruct (ub _); try discriminate. cbn in E. inversion E. unfold dense. cbn. apply from_shape_contiguous.
Qed.

(** row-major, and filling the storage *)
Definition solid (x : xtensor) : Prop :=
  tlay (xdata x) = from_shape (xshape x) /\ length (tstore (xdata x)) = nelem (xshape x).
Lemma solid_dense : forall x, solid x -> dense x.
Proof. intros x [L _]. unfold dense. rewrite L. apply from_shape_contiguous. Qed.
Lemma dense_layout : forall x d s f, xden x d s f -> dense x -> tlay (xdata x) = from_shape s.
Proof.
  intros x d s f [_ [G [U [S _]]]] D. unfold dense in D. destruct U as [U|U]; [|congruence].
  apply is_contiguous_iff in D; [|apply G]. unfold tshape in S. destruct (tlay (xdata x)) as [a b c]. cbn in *. subst. reflexivity.
Qed.
Lemma x_binary_solid : forall e c op a b d s sb f g h t, env_ok e -> xden a d s f -> xden b d sb g -> bcast s sb s ->
  xden t d s h -> x_binary e c op a b = Ok t -> solid t.
Proof.
  intros e c op a b d s sb f g h t He Xa Xb BC Xt E.
  pose proof (dense_layout t d s h Xt (x_binary_dense e c op a b d s f h t Xa Xt E)) as L.
  unfold solid. rewrite (xden_shape _ _ _ _ Xt). split; auto.
  destruct Xa as [_ [Ga [_ [Sa [Pa _]]]]]. destruct Xb as [_ [Gb [_ [Sb [Pb _]]]]].
  unfold x_binary in E. destruct (negb _); [discriminate|]. destruct (negb _); [discriminate|]. subst s sb.
  destruct (t_binary_storage _ _ _ e (Fin 0) (Fin 0) (Fin 0) op (xdata a) (xdata b) _ He Ga Gb Pa Pb BC) as [u [a' [Eu [Su [_ [_ [Lu _]]]]]]].
  rewrite Eu in E. cbn in E. inversion E; subst t. exact Lu.
Qed.
Lemma x_unary_solid : forall e c op a d s f t, env_ok e -> xden a d s f -> x_unary e c op a = Ok t -> solid t.
Proof.
  intros e c op a d s f t He [_ [G [U [S [P _]]]]] E. unfold x_unary in E. destruct (negb _); [discriminate|].
  assert (OR : offset_read (tlay (xdata a))).
  { destruct U as [U|U]; [right; auto|left]. intro E'. unfold is_contiguous in U. rewrite E' in U.
    rewrite combine_nil in U. discriminate. }
  destruct (t_unary_spec _ _ e (Fin 0) op (xdata a) He G OR) as [t' [E' [_ [S' [L [Ln _]]]]]]. rewrite E' in E. cbn in E. inversion E; subst t.
  unfold solid, xshape. cbn [xdata]. rewrite L. cbn [from_shape lshape]. auto.
Qed.

(* ---------- views ---------- *)

Lemma xden_view : forall o a d s s' f g, (forall a b c d, o <> VSlice a b c d) ->
  xden a d s f -> regular o s -> shape_rel o s s' -> all_pos s' ->
  (forall i j, valid s' i -> valid s j -> index_rel o s s' i j -> g i = f j) ->
  exists t, x_view o a = Ok t /\ xden t d s' g.
Proof.
  intros o a d s s' f g N [D H] R SR P HI. unfold x_view.
  destruct (den_view _ (Fin 0) o (xdata a) s s' f g N H R SR P HI) as [t [E Ht]]. rewrite E.
  eexists. split; [reflexivity|]. split; auto.
Qed.

Lemma xmat_transpose : forall blas w d n k W, xmat w d n k W ->
  exists t, x_view (VTranspose (-2) (-1)) w = Ok t /\ fit blas t /\ xmat t d k n (fun i j => W j i).
Proof.
  intros blas w d n k W X. pose proof (xden_pos _ _ _ _ X) as P.
  destruct (xden_view (VTranspose (-2) (-1)) w d [n; k] [k; n] _ (fun i => Fin (W (nth 1 i 0) (nth 0 i 0))) ltac:(discriminate) X) as [t [E D]].
  - exact I.
  - cbn [shape_rel length]. repeat split; try (unfold axis_ok; cbn; lia).
    intros q Hq. destruct q as [|[|q]]; try lia; reflexivity.
  - inversion P; subst. inversion H2; subst. constructor; auto.
  - intros i j Vi Vj [L IR]. cbn [length] in *.
    destruct i as [|i0 [|i1 [|? ?]]]; cbn in Vi; try tauto. destruct j as [|j0 [|j1 [|? ?]]]; cbn in Vj; try tauto.
    pose proof (IR 0 ltac:(lia)) as I0. pose proof (IR 1 ltac:(lia)) as I1. cbn in I0, I1. inversion I0. inversion I1. reflexivity.
  - exists t. split; auto. split; auto. intros _.
    unfold xshape. rewrite (xden_shape _ _ _ _ D : lshape (tlay (xdata t)) = _). cbn [nth].
    destruct X as [_ [G [_ [S _]]]]. unfold x_view in E.
    destruct (t_contiguous_spec _ (Fin 0) (xdata w) G) as [c [Ec [Gc [Sc [Cc _]]]]].
    rewrite (t_view_unfold _ (Fin 0) _ (xdata w) c G Ec) in E. cbn [apply_view] in E.
    unfold transpose in E. unfold tshape in Sc, S. apply is_contiguous_iff in Cc; [|apply Gc].
    rewrite Cc, Sc, S, strides2 in E. cbn in E. inversion E. cbn. unfold blas_ok.
    destruct (Nat.eqb_spec k 1) as [->|Hk]; [right; auto|]. left. auto.
Qed.

Lemma xmat_cols : forall x d m n A a b, xmat x d m n A -> a < b <= n ->
  exists t, x_view (cols a b) x = Ok t /\ xmat t d m (b - a) (fun i j => A i (a + j)).
Proof.
  intros x d m n A a b X Hab. pose proof (xden_pos _ _ _ _ X) as P. destruct X as [D [G [U [S [_ H]]]]].
  assert (SR : shape_rel (cols a b) (tshape (xdata x)) [m; b - a]).
  { rewrite S. cbn. repeat split; try (unfold axis_ok; cbn; lia).
    - intros [|[|k]] Hk; auto. exfalso. apply Hk. reflexivity.
    - exists n, (b - a). split; [reflexivity|]. split; [reflexivity|]. split; [lia|]. unfold py_count, py_start, py_stop.
      replace (Z.of_nat a <? 0)%Z with false by (symmetry; apply Z.ltb_ge; lia).
      replace (Z.of_nat b <? 0)%Z with false by (symmetry; apply Z.ltb_ge; lia). cbn [Z.gtb Z.compare]. split; [lia|]. intros. lia. }
  unfold x_view. destruct (t_view_total _ (Fin 0) (cols a b) (xdata x) _ G ltac:(cbn; lia) SR) as [t [E St]].
  rewrite E. eexists. split; [reflexivity|].
  destruct (t_view_spec _ (Fin 0) (cols a b) (xdata x) t G ltac:(cbn; lia) E) as [Gt [_ HI]].
  split; [exact D|]. split; [exact Gt|]. split.
  { cbn [xdata]. destruct (t_contiguous_spec _ (Fin 0) (xdata x) G) as [c [Ec [Gc [Sc [Cc _]]]]].
    rewrite (t_view_unfold _ (Fin 0) _ (xdata x) c G Ec) in E.
    destruct (apply_view (tlay c) (cols a b)) as [l| |] eqn:Ev; try discriminate. cbn in E. inversion E; subst t. clear E.
    cbn [apply_view cols] in Ev. unfold slice in Ev. apply is_contiguous_iff in Cc; [|apply Gc].
    unfold tshape in Sc, S. rewrite Cc, Sc, S, strides2 in Ev. cbn -[slice_bounds Z.to_nat Nat.mul] in Ev.
    change (Z.to_nat 1) with 1 in Ev. cbn -[slice_bounds Z.to_nat Nat.mul] in Ev.
    destruct (slice_bounds _ _ _ _) as [st sz] eqn:Eb. destruct (sz <=? 0)%Z; [discriminate|].
    cbn -[Z.to_nat Nat.mul] in Ev. inversion Ev; subst l. clear Ev. cbn [tlay] in *.
    pose proof (usable_contig _ _ _ _ G U Ec) as O. unfold usable. cbn [tlay loffset]. rewrite O.
    unfold slice_bounds in Eb. inversion Eb. unfold tshape in St. cbn in St. inversion St.
    destruct (Nat.eq_dec a 0) as [->|Ha].
    - left. cbn. replace (zclamp 0 0 (Z.of_nat n)) with 0%Z; [reflexivity|]. unfold zclamp. lia.
    - right. match goal with |- is_contiguous ?l = false => destruct (is_contiguous l) eqn:Ci; auto end. exfalso.
      apply is_contiguous_iff in Ci; [|reflexivity]. cbn [lshape lstrides] in Ci. rewrite strides2 in Ci. inversion Ci. lia. }
  split; [exact St|]. split; [inversion P; subst; constructor; [auto|constructor; [lia|constructor]]|].
  intros i V. cbn [xdata]. rewrite St in HI. destruct (HI i V) as [j [IR [Vj Ej]]]. rewrite Ej. rewrite S in Vj. rewrite (H j Vj). f_equal. f_equal.
  destruct IR as [L [Hk [dd [u [v [E1 [E2 [E3 E4]]]]]]]]. rewrite S in *. cbn in E1, E2, E3, Hk, L.
  destruct i as [|i0 [|i1 [|? ?]]]; cbn in V; try tauto. destruct j as [|j0 [|j1 [|? ?]]]; cbn in Vj; try tauto.
  cbn in E2, E3. change (axis_of 2 1) with 1 in *. cbn in E2, E3.
  pose proof (Hk 0 ltac:(discriminate)) as H0. cbn in H0. inversion H0; inversion E1; inversion E2; inversion E3; subst. cbn [nth].
  f_equal. unfold py_start in E4. replace (Z.of_nat a <? 0)%Z with false in E4 by (symmetry; apply Z.ltb_ge; lia).
  cbn [Z.gtb Z.compare] in E4. lia.
Qed.
