(** Stacks of matrices: products, transposes, softmax of the rows. *)
From Coq Require Import List Arith ZArith Lia Bool Reals Lra.
From Verif Require Import Base IndexSpec LayoutModel ViewSpec LayoutProofs LayoutProofs2 BcastProofs.
From Verif Require Import KernelModel TensorModel TensorSpec KernelProofs TensorProofs ElementwiseProofs.
From Verif Require Import EncodeModel ReduceModel ReduceSpec ReduceProofs ReduceProofs2 ScanModel MoveProofs.
From Verif Require Import MatrixModel MatrixProofs2 MatrixProofs3 MatrixProofs4 DenSpec DenProofs.
From Verif Require Import NumModel NnModel NnSpec NnProofs NnProofs2 LayerModel LayerSpec LayerProofs LayerProofs2 AttnSpec.
Import ListNotations.
Open Scope nat_scope.

(** an index of a stack *)
Lemma stack_idx : forall s m n i, valid (s ++ [m; n]) i ->
  exists p x y, i = p ++ [x; y] /\ valid s p /\ x < m /\ y < n.
Proof.
  intros s m n i V. pose proof (valid_length _ _ V) as LV. rewrite app_length in LV. cbn in LV.
  rewrite <- (firstn_skipn (length s) i) in V. set (p := firstn (length s) i) in *.
  assert (Lp : length p = length s) by (unfold p; rewrite firstn_length; lia).
  assert (E : i = p ++ skipn (length s) i) by (symmetry; apply firstn_skipn).
  destruct (skipn (length s) i) as [|x [|y [|? ?]]] eqn:Es;
    apply (f_equal (@length nat)) in Es as Es'; rewrite skipn_length in Es'; cbn in Es'; try lia.
  apply valid_app in V; [|lia]. destruct V as [Vp Vq]. cbn in Vq. exists p, x, y. repeat split; auto; tauto.
Qed.
Lemma stack_parts : forall (s p : list nat) x y, length p = length s ->
  firstn (length s) (p ++ [x; y]) = p /\ nth (length s) (p ++ [x; y]) 0 = x /\ nth (S (length s)) (p ++ [x; y]) 0 = y.
Proof.
  intros s p x y L. rewrite <- L. rewrite firstn_app, Nat.sub_diag, firstn_O, app_nil_r, firstn_all.
  rewrite !app_nth2 by lia. rewrite Nat.sub_diag. replace (S (length p) - length p) with 1 by lia. auto.
Qed.
Lemma stack_valid : forall s m n p x y, valid s p -> x < m -> y < n -> valid (s ++ [m; n]) (p ++ [x; y]).
Proof. intros. apply valid_app; [now apply valid_length|]. split; auto. cbn. tauto. Qed.

(** entry [x; y] of a product of matrices *)
Definition dotx (k : nat) (f g : nat -> xr) : xr :=
  fold_left (fun acc q => xadd acc (xmul (f q) (g q))) (seq 0 k) (Fin 0).
Lemma dotx_ext : forall k f g f' g', (forall q, q < k -> f q = f' q) -> (forall q, q < k -> g q = g' q) -> dotx k f g = dotx k f' g'.
Proof.
  intros k f g f' g' Hf Hg. unfold dotx. generalize (Fin 0).
  assert (H : forall l a, (forall q, In q l -> q < k) ->
    fold_left (fun acc q => xadd acc (xmul (f q) (g q))) l a = fold_left (fun acc q => xadd acc (xmul (f' q) (g' q))) l a).
  { induction l as [|q l IH]; intros a Hl; cbn; auto. rewrite Hf, Hg by (apply Hl; now left). apply IH. intros. apply Hl. now right. }
  intros a. apply H. intros q Hq. apply in_seq in Hq. lia.
Qed.
Lemma dotx_fin : forall k f g, dotx k (fun q => Fin (f q)) (fun q => Fin (g q)) = Fin (Rsum (map (fun q => f q * g q)%R (seq 0 k))).
Proof. intros. unfold dotx. rewrite fold_dot. f_equal. ring. Qed.

Lemma dot_valx : forall (a b : tensor xr) sa sb f g ia ib K r, den a sa f -> den b sb g ->
  (forall k, k < K -> valid sa (ia k)) -> (forall k, k < K -> valid sb (ib k)) ->
  dot_at (Fin 0) xadd xmul a b ia ib K r -> r = Some (dotx K (fun k => f (ia k)) (fun k => g (ib k))).
Proof.
  intros a b sa sb f g ia ib K r [_ [_ [_ [_ Ha]]]] [_ [_ [_ [_ Hb]]]] Va Vb [fa [fb [Ea [Eb ->]]]]. f_equal.
  apply (dotx_ext K fa fb); intros q Hq.
  - specialize (Ea q Hq). rewrite Ha in Ea by auto. now inversion Ea.
  - specialize (Eb q Hq). rewrite Hb in Eb by auto. now inversion Eb.
Qed.

Section Stack.
Variable e : env.
Hypothesis He : env_ok e.
Hypothesis Hm : mat_env_ok e.
Variable blas : bool.

Lemma x_matmul_x : forall a b d s m k n A B, allowed NoBool d = true ->
  xden a d (s ++ [m; k]) A -> xden b d (s ++ [k; n]) B -> (s = [] -> fit blas a /\ fit blas b) ->
  length s <= (if by_blas blas d then 1 else 16) ->
  exists r, x_matmul e blas a b = Ok r /\ dense r /\
    xden r d (s ++ [m; n]) (fun i =>
      let p := firstn (length s) i in
      let x := nth (length s) i 0 in let y := nth (S (length s)) i 0 in
      dotx k (fun q => A (p ++ [x; q])) (fun q => B (p ++ [q; y]))).
Proof.
  intros a b d s m k n A B C Xa Xb HF HR.
  pose proof (xden_pos _ _ _ _ Xa) as Pa. pose proof (xden_pos _ _ _ _ Xb) as Pb.
  apply Forall_app in Pa. destruct Pa as [Ps Pma]. apply Forall_app in Pb. destruct Pb as [_ Pmb].
  assert (Pk : 0 < k) by (now inversion Pmb).
  assert (Pm : 0 < m) by (now inversion Pma).
  assert (Pn : 0 < n) by (inversion Pmb; subst; now inversion H2).
  destruct Xa as [Da Ha]. destruct Xb as [Db Hb]. pose proof Ha as [Ga [_ [Sa _]]]. pose proof Hb as [Gb [_ [Sb _]]].
  unfold x_matmul. rewrite Da, Db, same_dtype_refl, C. cbn [negb].
  assert (H : exists r, t_matmul (Fin 0) xadd xmul (Fin 0) (x_dotk e blas d) (x_matk e blas d) e (xdata a) (xdata b) = Ok r /\
    good r /\ tshape r = s ++ [m; n] /\ (exists s', tlay r = from_shape s') /\
    forall p i j, valid s p -> i < m -> j < n ->
      dot_at (Fin 0) xadd xmul (xdata a) (xdata b) (fun q => p ++ [i; q]) (fun q => p ++ [q; j]) k (elem r (p ++ [i; j]))).
  { destruct s as [|s0 s].
    - cbn [app] in *. destruct (HF eq_refl) as [Fa Fb].
      unfold fit, xshape in Fa, Fb. unfold tshape in Sa, Sb. rewrite Da, Sa in Fa. rewrite Db, Sb in Fb.
      unfold t_matmul. rewrite Sa, Sb.
      assert (H : exists r, t_dot_2d (Fin 0) (x_dotk e blas d) (xdata a) (xdata b) = Ok r /\ good r /\ tshape r = [m; n] /\
        forall i j, i < m -> j < n -> dot_at (Fin 0) xadd xmul (xdata a) (xdata b) (fun q => [i; q]) (fun q => [q; j]) k (elem r [i; j])).
      { unfold x_dotk. destruct (by_blas blas d) eqn:EB.
        - apply dot_2d_blas; auto.
        - apply dot_2d_spec; auto. }
      destruct H as [r [E [G [S H]]]]. rewrite E. exists r. split; auto. split; auto. split; auto.
      split; [exact (dot_2d_layout _ _ _ _ _ _ E)|]. intros p i j V Hi Hj. destruct p; [|contradiction]. cbn [app]. auto.
    - set (s1 := s0 :: s) in *.
      rewrite (matmul_dispatch _ _ _ _ _ _ _ _ (xdata a) (xdata b) s1 s1 m k k n); auto; [|left; discriminate].
      assert (H : exists r, t_matmul_batched (Fin 0) (x_matk e blas d) (xdata a) (xdata b) = Ok r /\ good r /\ tshape r = s1 ++ [m; n] /\
        forall bi i j, valid s1 bi -> i < m -> j < n ->
          dot_at (Fin 0) xadd xmul (xdata a) (xdata b) (fun q => bidx s1 bi ++ [i; q]) (fun q => bidx s1 bi ++ [q; j]) k (elem r (bi ++ [i; j]))).
      { unfold x_matk. destruct (by_blas blas d) eqn:EB.
        - apply batched_blas; auto. apply bcast_idem.
        - apply batched_spec; auto. apply bcast_idem. }
      destruct H as [r [E [G [S H]]]]. rewrite E. exists r. split; auto. split; auto. split; auto.
      split; [exact (batched_layout _ _ _ _ _ _ E)|]. intros p i j V Hi Hj. specialize (H p i j V Hi Hj).
      now rewrite TensorProofs.bidx_self in H. }
  destruct H as [r [E [G [S [[s' L] H]]]]]. rewrite E. eexists. split; [reflexivity|].
  split; [unfold dense; cbn; rewrite L; apply from_shape_contiguous|].
  split; [reflexivity|]. split; [exact G|]. split; [left; cbn; rewrite L; reflexivity|]. split; [exact S|].
  split; [apply Forall_app; split; auto|]. intros i V. destruct (stack_idx _ _ _ _ V) as [p [x [y [-> [Vp [Hx Hy]]]]]].
  cbn zeta. destruct (stack_parts s p x y (valid_length _ _ Vp)) as [-> [-> ->]]. cbn [xdata].
  apply (dot_valx (xdata a) (xdata b) (s ++ [m; k]) (s ++ [k; n]) A B (fun q => p ++ [x; q]) (fun q => p ++ [q; y])); auto.
  - intros q Hq. now apply stack_valid.
  - intros q Hq. now apply stack_valid.
Qed.

Lemma xstack_ext : forall x d s m n A B, xstack x d s m n A ->
  (forall p i j, valid s p -> i < m -> j < n -> A p i j = B p i j) -> xstack x d s m n B.
Proof.
  intros x d s m n A B X H. eapply xden_ext; [exact X|]. intros i V. cbn beta.
  destruct (stack_idx _ _ _ _ V) as [p [a [b [-> [Vp [Ha Hb]]]]]].
  destruct (stack_parts s p a b (valid_length _ _ Vp)) as [-> [-> ->]]. f_equal. auto.
Qed.
Lemma xstack_of : forall x d s m n f A, xden x d (s ++ [m; n]) f ->
  (forall p i j, valid s p -> i < m -> j < n -> f (p ++ [i; j]) = Fin (A p i j)) -> xstack x d s m n A.
Proof.
  intros x d s m n f A X H. eapply xden_ext; [exact X|]. intros i V. cbn beta.
  destruct (stack_idx _ _ _ _ V) as [p [a [b [-> [Vp [Ha Hb]]]]]].
  destruct (stack_parts s p a b (valid_length _ _ Vp)) as [-> [-> ->]]. auto.
Qed.

Lemma x_matmul_stack : forall a b d s m k n A B, allowed NoBool d = true ->
  xstack a d s m k A -> xstack b d s k n B -> (s = [] -> fit blas a /\ fit blas b) ->
  length s <= (if by_blas blas d then 1 else 16) ->
  exists r, x_matmul e blas a b = Ok r /\ dense r /\
    xstack r d s m n (fun p i j => Rsum (map (fun q => A p i q * B p q j)%R (seq 0 k))).
Proof.
  intros a b d s m k n A B C Xa Xb HF HR.
  destruct (x_matmul_x a b d s m k n _ _ C Xa Xb HF HR) as [r [E [D X]]]. exists r. split; auto. split; auto.
  eapply xstack_of; [exact X|]. intros p i j Vp Hi Hj. cbn zeta.
  destruct (stack_parts s p i j (valid_length _ _ Vp)) as [-> [-> ->]].
  rewrite <- dotx_fin. apply dotx_ext; intros q Hq; f_equal.
  - destruct (stack_parts s p i q (valid_length _ _ Vp)) as [-> [-> ->]]. reflexivity.
  - destruct (stack_parts s p q j (valid_length _ _ Vp)) as [-> [-> ->]]. reflexivity.
Qed.
End Stack.

Lemma nth_error_stack : forall (p : list nat) x y k, k < length p + 2 ->
  nth_error (p ++ [x; y]) k = if k =? length p then Some x else if k =? S (length p) then Some y else nth_error p k.
Proof.
  intros p x y k H. destruct (Nat.eqb_spec k (length p)) as [->|N1].
  - rewrite nth_error_app2, Nat.sub_diag by lia. reflexivity.
  - destruct (Nat.eqb_spec k (S (length p))) as [->|N2].
    + rewrite nth_error_app2 by lia. replace (S (length p) - length p) with 1 by lia. reflexivity.
    + apply nth_error_app1. lia.
Qed.
Lemma stack_axis : forall n, axis_of (n + 2) (-1) = S n /\ axis_of (n + 2) (-2) = n.
Proof. intros n. unfold axis_of. cbn [Z.ltb Z.compare]. lia. Qed.

Lemma xden_transpose : forall x d s m n A, xden x d (s ++ [m; n]) (fun i => A (firstn (length s) i) (nth (length s) i 0) (nth (S (length s)) i 0)) ->
  exists t, x_view (VTranspose (-2) (-1)) x = Ok t /\ xden t d (s ++ [n; m]) (fun i => A (firstn (length s) i) (nth (S (length s)) i 0) (nth (length s) i 0)).
Proof.
  intros x d s m n A X. pose proof (xden_pos _ _ _ _ X) as P. apply Forall_app in P. destruct P as [Ps Pm].
  destruct (stack_axis (length s)) as [A1 A2].
  destruct (xden_view (VTranspose (-2) (-1)) x d (s ++ [m; n]) (s ++ [n; m]) _
     (fun i => A (firstn (length s) i) (nth (S (length s)) i 0) (nth (length s) i 0)) ltac:(discriminate) X) as [t [E D]].
  - exact I.
  - cbn [shape_rel]. rewrite !app_length. cbn [length]. rewrite A1, A2. split; [lia|]. split; [unfold axis_ok; lia|]. split; [unfold axis_ok; lia|].
    split; [auto|]. intros k Hk. rewrite !nth_error_stack by (repeat (destruct (_ =? _)); lia).
    destruct (Nat.eqb_spec k (length s)) as [->|N1].
    + replace (S (length s) =? length s) with false by (symmetry; apply Nat.eqb_neq; lia). now rewrite Nat.eqb_refl.
    + destruct (Nat.eqb_spec k (S (length s))) as [->|N2]; [now rewrite Nat.eqb_refl|].
      destruct (Nat.eqb_spec k (length s)); [lia|]. destruct (Nat.eqb_spec k (S (length s))); [lia|auto].
  - inversion Pm; subst. inversion H2; subst. apply Forall_app. split; auto.
  - intros i j Vi Vj [L IR]. rewrite app_length in *. cbn [length] in *. rewrite A1, A2 in IR.
    destruct (stack_idx _ _ _ _ Vi) as [p [a [b [-> [Vp [Ha Hb]]]]]]. destruct (stack_idx _ _ _ _ Vj) as [p' [a' [b' [-> [Vp' [Ha' Hb']]]]]].
    pose proof (valid_length _ _ Vp) as Lp. pose proof (valid_length _ _ Vp') as Lp'.
    destruct (stack_parts s p a b Lp) as [-> [-> ->]]. destruct (stack_parts s p' a' b' Lp') as [-> [-> ->]].
    pose proof (IR (length s) ltac:(lia)) as I0. pose proof (IR (S (length s)) ltac:(lia)) as I1.
    rewrite Nat.eqb_refl in I0. replace (S (length s) =? length s) with false in I1 by (symmetry; apply Nat.eqb_neq; lia). rewrite Nat.eqb_refl in I1.
    rewrite !nth_error_stack in I0, I1 by lia. rewrite Lp, Lp', Nat.eqb_refl in I0, I1.
    replace (S (length s) =? length s) with false in I0, I1 by (symmetry; apply Nat.eqb_neq; lia). rewrite Nat.eqb_refl in I0, I1.
    inversion I0. inversion I1. subst. f_equal. apply list_ext. intros k. 
    destruct (Nat.lt_ge_cases k (length s)) as [Hk|Hk]; [|rewrite !(proj2 (nth_error_None _ _)) by lia; auto].
    specialize (IR k ltac:(lia)). rewrite !nth_error_stack in IR by (repeat (destruct (_ =? _)); lia). rewrite Lp, Lp' in IR.
    destruct (Nat.eqb_spec k (length s)); [lia|]. destruct (Nat.eqb_spec k (S (length s))); [lia|].
    destruct (Nat.eqb_spec k (length s)); [lia|]. destruct (Nat.eqb_spec k (S (length s))); [lia|]. auto.
  - exists t. split; auto.
Qed.
Lemma xstack_transpose : forall blas x d s m n A, xstack x d s m n A ->
  exists t, x_view (VTranspose (-2) (-1)) x = Ok t /\ (s = [] -> fit blas t) /\ xstack t d s n m (fun p i j => A p j i).
Proof.
  intros blas x d s m n A X. destruct (xden_transpose x d s m n (fun p i j => Fin (A p i j)) X) as [t [E D]].
  exists t. split; auto. split; [|exact D]. intros ->.
    destruct (xmat_transpose blas x d m n (fun i j => A [] i j)) as [t' [E' [F' _]]].
    + eapply xden_ext; [exact X|]. reflexivity.
    + rewrite E in E'. inversion E'. auto.
Qed.
