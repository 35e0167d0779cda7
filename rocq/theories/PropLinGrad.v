(** C103: the gradient rules of determinant, inverse and trace, on the real numbers (rounding is not modelled).
    [bump A i j t] is [A] with [t] added to one entry: the gradient of entry (i, j) is the derivative at t = 0. *)
From Coq Require Import List Arith ZArith Lia Bool Reals Lra.
From Verif Require Import Base IndexSpec LayoutModel ViewSpec LayoutProofs LayoutProofs2 KernelModel TensorModel TensorSpec EncodeModel KernelProofs TensorProofs ElementwiseProofs BcastProofs MatrixModel MatrixProofs3.
From Verif Require Import NumModel DenSpec DenProofs NnModel NnSpec NnProofs LayerModel LayerSpec LayerProofs LayerProofs2 AttnSpec AttnProofs PropNn PropLayer.
From Verif Require Import LinSpec LinProofs LinModel LinModel2 LinProofs2 LinProofs3 LinProofs4 LinProofs5 LinGradModel LinGradProofs LinGradProofs2 PropLin.
Import ListNotations.
Open Scope nat_scope.

(** Determinant of batches of nonsingular matrices ([out] is the determinant, [g] the incoming gradient). *)
Theorem C103_det_partial : forall e a out g d s n A gr, env_ok e -> allowed NoBool d = true -> xstack a d s n n A -> s <> [] ->
  (forall p, valid s p -> nonsingular n (A p)) -> xden out d s (fun p => Fin (det n (A p))) -> xden g d s (fun p => Fin (gr p)) ->
  exists r G, det_vjp e a out g = Ok r /\ xstack r d s n n G /\
    forall p i j, valid s p -> i < n -> j < n -> derivable_pt_lim (fun t => gr p * det n (bump (A p) i j t))%R 0 (G p i j).
Proof.
  intros e a out g d s n A gr He C X NE N Xo Xg.
  destruct (det_vjp_den e He a out g d s n A _ gr C X NE Xo Xg) as (r & b & E & D & H).
  set (B := fun p i j => match b p i j with Fin x => x | _ => 0%R end).
  assert (HB : forall p, valid s p -> entries n n (b p) (B p) /\ inverse n (A p) (B p)).
  { intros p V. destruct (H p V) as [H1 _]. destruct H1 as (B' & E1 & I1); [now apply nonsingular_det, N|].
    assert (Q : meq n B' (B p)) by (intros i j Hi Hj; unfold B; now rewrite E1).
    split; [intros i j Hi Hj; rewrite E1, Q by auto; reflexivity|]. destruct I1 as [I1 I2]. split; intros i j Hi Hj.
    - rewrite <- I1 by auto. apply sumn_ext. intros l Hl. now rewrite Q.
    - rewrite <- I2 by auto. apply sumn_ext. intros l Hl. now rewrite Q. }
  exists r, (fun p i j => gr p * det n (A p) * B p j i)%R. split; [exact E|]. split.
  - eapply xstack_of; [exact D|]. intros p i j V Hi Hj. cbn beta. destruct (stack_parts s p i j (valid_length _ _ V)) as [-> [-> ->]].
    destruct (HB p V) as [EB _]. rewrite EB by auto. cbn [xmul]. f_equal. ring.
  - intros p i j V Hi Hj. apply det_derivative; auto. now apply HB.
Qed.
Print Assumptions C103_det_partial.
(** A singular matrix: no entry of the gradient is a finite number, although the determinant is differentiable. *)
Theorem C103_det_singular_refuted : forall e a out g d s n A gr, env_ok e -> allowed NoBool d = true -> xstack a d s n n A -> s <> [] ->
  (forall p, valid s p -> det n (A p) = 0%R) -> xden out d s (fun p => Fin (det n (A p))) -> xden g d s (fun p => Fin (gr p)) ->
  exists r, det_vjp e a out g = Ok r /\ xden r d (s ++ [n; n]) (fun _ => Nan).
Proof.
  intros e a out g d s n A gr He C X NE N Xo Xg.
  destruct (det_vjp_den e He a out g d s n A _ gr C X NE Xo Xg) as (r & b & E & D & H). exists r. split; [exact E|].
  eapply xden_ext; [exact D|]. intros i V. cbn beta. destruct (stack_idx _ _ _ _ V) as (p & x & y & -> & Vp & Hx & Hy).
  destruct (stack_parts s p x y (valid_length _ _ Vp)) as [-> [-> ->]]. destruct (H p Vp) as [_ H2]. specialize (H2 (N p Vp) y x Hy Hx).
  rewrite (N p Vp), Rmult_0_r. destruct (b p y x); try contradiction; cbn; try reflexivity; unfold xscale, Rltb; destruct (Rlt_dec 0 0); try lra; destruct (Rlt_dec 0 0); try lra; reflexivity.
Qed.
Print Assumptions C103_det_singular_refuted.
(** Inverse: [out] is the inverse [B p] of [A p], and the output is paired with the incoming gradient [G p]. *)
Theorem C103_inverse : forall e blas out g d s n A B G, env_ok e -> mat_env_ok e -> is_float d = true -> xstack out d s n n B -> xstack g d s n n G ->
  (s = [] -> fit blas g) -> length s <= (if by_blas blas d then 1 else 16) -> (forall p, valid s p -> inverse n (A p) (B p)) ->
  exists r D, inv_vjp e blas out g = Ok r /\ xstack r d s n n D /\
    forall p k l, valid s p -> k < n -> l < n ->
      exists Bt q, (0 < q)%R /\ (forall t, (Rabs t < q)%R -> inverse n (bump (A p) k l t) (Bt t)) /\
        derivable_pt_lim (fun t => sumn n (fun i => sumn n (fun j => G p i j * Bt t i j)))%R 0 (D p k l).
Proof.
  intros e blas out g d s n A B G He Hm C Xo Xg F L H. destruct (inv_vjp_ok e He Hm blas out g d s n B G C Xo Xg F L) as (r & E & X).
  exists r. eexists. split; [exact E|]. split; [exact X|]. intros p k l V Hk Hl.
  destruct (inverse_near n (A p) (B p) k l (H p V) Hk Hl) as (Bt & q & Hq & HI). exists Bt, q. split; [exact Hq|]. split; [exact HI|].
  exact (inverse_derivative n (A p) (B p) (G p) k l Bt q (H p V) Hk Hl Hq HI).
Qed.
Print Assumptions C103_inverse.
(** Trace: right if the incoming gradient is the same for all matrices. *)
Theorem C103_trace_partial : forall e a g d s n A c, env_ok e -> allowed NoBool d = true -> xstack a d s n n A -> xden g d s (fun _ => Fin c) ->
  exists r, trace_vjp e a g = Ok r /\ xshape r = s ++ [n; n] /\
    forall p i j, valid s p -> i < n -> j < n -> exists x, elem (xdata r) (p ++ [i; j]) = Some (Fin x) /\
      derivable_pt_lim (fun t => c * sumn n (fun q => bump (A p) i j t q q))%R 0 x.
Proof.
  intros e a g d s n A c He C X Xg. destruct (xstack_parts _ _ _ _ _ _ X) as (D & _ & SH & _ & P & _).
  assert (LN : nth (length (xshape a) - 1) (xshape a) 0 = n).
  { change (xshape a) with (tshape (xdata a)). rewrite SH, app_length. cbn [length]. rewrite app_nth2 by lia. replace (length s + 2 - 1 - length s) with 1 by lia. reflexivity. }
  destruct (trace_vjp_value e He a g d s n (fun _ => c) C D LN P Xg) as (r & E & _ & S & H). exists r. split; [exact E|]. split; [exact S|].
  intros p i j V Hi Hj. eexists. split; [apply H; auto|]. apply trace_derivative; auto.
Qed.
Print Assumptions C103_trace_partial.
(** In general every matrix is given the gradient of the first one. *)
Theorem C103_trace_batch_refuted : forall e a g d s n A gr, env_ok e -> allowed NoBool d = true -> xstack a d s n n A -> xden g d s (fun p => Fin (gr p)) ->
  exists r, trace_vjp e a g = Ok r /\ xshape r = s ++ [n; n] /\
    forall p i, valid s p -> i < n -> elem (xdata r) (p ++ [i; i]) = Some (Fin (gr (repeat 0 (length s)))).
Proof.
  intros e a g d s n A gr He C X Xg. destruct (xstack_parts _ _ _ _ _ _ X) as (D & _ & SH & _ & P & _).
  assert (LN : nth (length (xshape a) - 1) (xshape a) 0 = n).
  { change (xshape a) with (tshape (xdata a)). rewrite SH, app_length. cbn [length]. rewrite app_nth2 by lia. replace (length s + 2 - 1 - length s) with 1 by lia. reflexivity. }
  destruct (trace_vjp_value e He a g d s n gr C D LN P Xg) as (r & E & _ & S & H). exists r. split; [exact E|]. split; [exact S|].
  intros p i V Hi. rewrite H by auto. rewrite Nat.eqb_refl. do 2 f_equal. ring.
Qed.
Print Assumptions C103_trace_batch_refuted.
(** A single n x n matrix: its determinant and trace have shape [1], and their gradients shape [1, n, n]. *)
Theorem C103_single_refuted : forall e a out g d n A v gr, env_ok e -> allowed NoBool d = true -> xmat a d n n A -> xden out d [1] v -> xden g d [1] (fun p => Fin (gr p)) ->
  (exists r, det_vjp e a out g = Ok r /\ xshape r = [1; n; n]) /\ (exists r, trace_vjp e a g = Ok r /\ xshape r = [1; n; n]).
Proof.
  intros e a out g d n A v gr He C X Xo Xg. split; [exact (det_vjp_single e He a out g d n A v _ C X Xo Xg)|].
  destruct X as [D (_ & _ & SH & P & _)]. assert (LN : nth (length (xshape a) - 1) (xshape a) 0 = n) by (change (xshape a) with (tshape (xdata a)); now rewrite SH).
  destruct (trace_vjp_value e He a g d [1] n gr C D LN ltac:(inversion P; auto) Xg) as (r & E & _ & S & _). eauto.
Qed.
Print Assumptions C103_single_refuted.

(** det [2 1; 1 1] = 1; with an incoming gradient of 3 the gradient of the first entry is 3 *)
Example C103_det_example : exists r,
  det_vjp e1 (xt [1; 2; 2] [2; 1; 1; 1]%R) (xt [1] [1]%R) (xt [1] [3]%R) = Ok r /\ elem (xdata r) [0; 0; 0] = Some (Fin 3%R).
Proof.
  pose proof (listed EncodeModel.F32 [1] 2 2 [2; 1; 1; 1]%R eq_refl ltac:(repeat constructor)) as X.
  destruct (C103_det_partial e1 _ (xt [1] [1]%R) (xt [1] [3]%R) F32 [1] 2 _ (fun _ => 3%R) e1_ok eq_refl X) as (r & G & E & XG & H); try discriminate.
  - intros p V. apply in_all_idx in V. vm_compute in V. destruct V as [<-|[]]. apply (det_nonsingular _ _ 1%R); [lra|]. numeric. lra.
  - eapply xden_ext; [exact (xt_den [1] [1]%R eq_refl ltac:(repeat constructor))|]. intros i V. apply in_all_idx in V. vm_compute in V. destruct V as [<-|[]].
    cbn beta. f_equal. numeric. lra.
  - eapply xden_ext; [exact (xt_den [1] [3]%R eq_refl ltac:(repeat constructor))|]. intros i V. apply in_all_idx in V. vm_compute in V. destruct V as [<-|[]]. reflexivity.
  - exists r. split; [exact E|]. change [0; 0; 0] with ([0] ++ [0; 0]). rewrite (xstack_elem _ _ _ _ _ _ [0] 0 0 XG) by (cbn; auto). do 2 f_equal.
    apply (uniqueness_limite (fun t => (3 * det 2 (bump (entry [1; 2; 2]%nat [2; 1; 1; 1] [0%nat]) 0 0 t))%R) 0%R).
    + apply (H [0] 0 0); cbn; auto.
    + apply (affine_derivative _ 3%R). intros t. numeric. lra.
Qed.
(** [1 0; 0 0]: the derivative of the determinant along the last entry is 1, the gradient NaN *)
Example C103_det_singular_example : exists r,
  det_vjp e1 (xt [1; 2; 2] [1; 0; 0; 0]%R) (xt [1] [0]%R) (xt [1] [1]%R) = Ok r /\ elem (xdata r) [0; 1; 1] = Some Nan /\
  derivable_pt_lim (fun t => det 2 (bump (entry [1; 2; 2] [1; 0; 0; 0]%R [0]) 1 1 t)) 0%R 1%R.
Proof.
  pose proof (listed EncodeModel.F32 [1] 2 2 [1; 0; 0; 0]%R eq_refl ltac:(repeat constructor)) as X.
  destruct (C103_det_singular_refuted e1 _ (xt [1] [0]%R) (xt [1] [1]%R) F32 [1] 2 _ (fun _ => 1%R) e1_ok eq_refl X) as (r & E & D); try discriminate.
  - intros p V. apply in_all_idx in V. vm_compute in V. destruct V as [<-|[]]. numeric. lra.
  - eapply xden_ext; [exact (xt_den [1] [0]%R eq_refl ltac:(repeat constructor))|]. intros i V. apply in_all_idx in V. vm_compute in V. destruct V as [<-|[]].
    cbn beta. f_equal. numeric. lra.
  - eapply xden_ext; [exact (xt_den [1] [1]%R eq_refl ltac:(repeat constructor))|]. intros i V. apply in_all_idx in V. vm_compute in V. destruct V as [<-|[]]. reflexivity.
  - exists r. split; [exact E|]. destruct D as [_ (_ & _ & _ & _ & D)]. split; [now rewrite D by (cbn; auto)|].
    apply (affine_derivative _ 0%R). intros t. numeric. lra.
Qed.
(** diag(2, 1): the inverse of its first entry is 1/2, with derivative -1/4 *)
Example C103_inverse_example : exists r,
  inv_vjp e1 true (xt [2; 2] [1 / 2; 0; 0; 1]%R) (xt [2; 2] [1; 0; 0; 0]%R) = Ok r /\ elem (xdata r) [0; 0] = Some (Fin (- (1 / 4)))%R.
Proof.
  pose proof (listed EncodeModel.F32 [] 2 2 [1 / 2; 0; 0; 1]%R eq_refl ltac:(repeat constructor)) as X.
  pose proof (listed EncodeModel.F32 [] 2 2 [1; 0; 0; 0]%R eq_refl ltac:(repeat constructor)) as XG.
  destruct (C103_inverse e1 true _ _ F32 [] 2 (entry [2; 2] [2; 0; 0; 1]%R) _ _ e1_ok e1_mat eq_refl X XG) as (r & D & E & XD & H).
  - intros _. eapply dense_fit; [exact XG|]. apply is_contiguous_iff; [apply compute_strides_length|reflexivity].
  - cbn. lia.
  - intros p V. destruct p; [|destruct V]. split; intros i j Hi Hj; assert (CI : i = 0 \/ i = 1) by lia; assert (CJ : j = 0 \/ j = 1) by lia;
      destruct CI as [->| ->]; destruct CJ as [->| ->]; unfold mid; cbn [Nat.eqb]; numeric; lra.
  - exists r. split; [exact E|]. change [0; 0] with ([] ++ [0; 0]). rewrite (xstack_elem _ _ _ _ _ _ [] 0 0 XD) by (cbn; auto). do 2 f_equal.
    destruct (H [] 0 0 I ltac:(lia) ltac:(lia)) as (Bt & q & Hq & HI & HD).
    eapply uniqueness_limite; [exact HD|].
    pose proof (inverse_derivative 2 (entry [2; 2] [2; 0; 0; 1]%R []) (entry [2; 2] [1 / 2; 0; 0; 1]%R []) (entry [2; 2] [1; 0; 0; 0]%R []) 0 0 Bt q) as Q.
    match type of Q with _ -> _ -> _ -> _ -> _ -> derivable_pt_lim _ _ ?v => assert (VV : v = (- (1 / 4))%R) end; [numeric; lra|]. rewrite VV in Q. apply Q; auto.
    split; intros i j Hi Hj; assert (CI : i = 0 \/ i = 1) by lia; assert (CJ : j = 0 \/ j = 1) by lia;
      destruct CI as [->| ->]; destruct CJ as [->| ->]; unfold mid; cbn [Nat.eqb]; numeric; lra.
Qed.
(** two 1 x 1 matrices with incoming gradients 1 and 2: both get 1 *)
Example C103_trace_example : exists r,
  trace_vjp e1 (xt [2; 1; 1] [5; 7]%R) (xt [2] [1; 2]%R) = Ok r /\ elem (xdata r) [1; 0; 0] = Some (Fin 1%R).
Proof.
  pose proof (listed EncodeModel.F32 [2] 1 1 [5; 7]%R eq_refl ltac:(repeat constructor)) as X.
  destruct (C103_trace_batch_refuted e1 _ (xt [2] [1; 2]%R) F32 [2] 1 _ (fun p => nth (ravel [2] p) [1; 2]%R 0%R) e1_ok eq_refl X) as (r & E & _ & H).
  - exact (xt_den [2] [1; 2]%R eq_refl ltac:(repeat constructor)).
  - exists r. split; [exact E|]. exact (H [1] 0 ltac:(cbn; lia) ltac:(lia)).
Qed.
Example C103_single_example : exists r, det_vjp e1 (xt [2; 2] [2; 1; 1; 1]%R) (xt [1] [1]%R) (xt [1] [1]%R) = Ok r /\ xshape r = [1; 2; 2].
Proof.
  refine (proj1 (C103_single_refuted e1 _ _ _ F32 2 (fun i j => nth (ravel [2; 2] [i; j]) [2; 1; 1; 1]%R 0%R) _ _ e1_ok eq_refl _
    (xt_den [1] [1]%R eq_refl ltac:(repeat constructor)) (xt_den [1] [1]%R eq_refl ltac:(repeat constructor)))).
  eapply xden_ext; [exact (xt_den [2; 2] [2; 1; 1; 1]%R eq_refl ltac:(repeat constructor))|]. intros i V. apply in_all_idx in V. vm_compute in V.
  repeat (destruct V as [<-|V]; [reflexivity|]); destruct V.
Qed.
