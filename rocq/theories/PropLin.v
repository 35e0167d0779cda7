(** C100-C102: determinant, inverse, solve and trace, on the real numbers (rounding is not modelled here)
    and, for the determinant and the inverse, on signed integers of [w] bits.
    A stack [xstack a d s n n A] has one n x n matrix [A p] for each index [p] of shape [s]; it has no empty
    axis, and is not a contiguous view starting inside its storage (C18). *)
From Coq Require Import List Arith ZArith Lia Bool Reals Lra.
From Verif Require Import Base IndexSpec LayoutModel ViewSpec LayoutProofs LayoutProofs2 KernelModel TensorModel TensorSpec EncodeModel KernelProofs TensorProofs ElementwiseProofs BcastProofs MatrixModel MatrixProofs3.
From Verif Require Import NumModel DenSpec DenProofs NnModel NnSpec NnProofs LayerModel LayerSpec LayerProofs LayerProofs2 AttnSpec AttnProofs PropNn PropLayer.
From Verif Require Import LinSpec LinProofs LinModel LinModel2 LinProofs2 LinProofs3 LinProofs4 LinProofs5 LinProofs6.
Import ListNotations.
Open Scope nat_scope.

(** one number for each matrix of the stack; the result of a single matrix has shape [1] *)
Definition numbers (r : xtensor) (d : dtype) (s : list nat) (v : list nat -> xr) : Prop :=
  xden r d (match s with [] => [1] | _ => s end) (fun q => v (match s with [] => [] | _ => q end)).
Definition threshold (d : dtype) : bool := same_dtype d EncodeModel.F32 || same_dtype d EncodeModel.F64.

Lemma below_0 : forall d, threshold d = true -> below d (Fin 0) = true.
Proof.
  intros d H. unfold below. fold (threshold d). rewrite H. cbn [andb xltb]. unfold Rltb. destruct (Rlt_dec 0 (1 / 10 ^ 15)) as [_|Q]; auto.
  exfalso. apply Q. apply Rdiv_lt_0_compat; [lra|apply pow_lt; lra].
Qed.
Lemma below_no : forall d v, threshold d = false -> below d v = false.
Proof. intros d v H. unfold below. fold (threshold d). now rewrite H. Qed.

(** The determinant of matrices up to 3 x 3. *)
Theorem C100_small : forall a d s n A, allowed NoBool d = true -> xstack a d s n n A -> n <= 3 ->
  exists r, x_det a = Ok r /\ numbers r d s (fun p => Fin (det n (A p))).
Proof.
  intros a d s n A C X H. destruct (xstack_parts _ _ _ _ _ _ X) as (_ & _ & _ & _ & P & _).
  apply (x_det_ok a d s n A (fun p => Fin (det n (A p))) C X). intros p m V E. apply det_small; auto.
Qed.
Print Assumptions C100_small.
(** Of any size: the determinant, except that F32 and F64 may give 0 instead from 4 x 4 on, and the other
    types are only covered when the determinant is not 0. *)
Theorem C100_large_partial : forall a d s n A, allowed NoBool d = true -> xstack a d s n n A ->
  threshold d = true \/ (forall p, valid s p -> det n (A p) <> 0%R) ->
  exists r v, x_det a = Ok r /\ numbers r d s (fun p => Fin (v p)) /\
    forall p, valid s p -> v p = det n (A p) \/ (threshold d = true /\ 4 <= n /\ v p = 0%R).
Proof.
  intros a d s n A C X H. destruct (x_det_read a d s n A C X) as (rd & RD & K).
  set (v := fun p => match det_matrix (Fin 0) (Fin 1) xadd xsub xmul xquot xneg xltb (below d) n (rd p) with Some (Fin x) => x | _ => 0%R end).
  assert (W : forall p, valid s p ->
    det_matrix (Fin 0) (Fin 1) xadd xsub xmul xquot xneg xltb (below d) n (rd p) = Some (Fin (v p)) /\
    (v p = det n (A p) \/ (threshold d = true /\ 4 <= n /\ v p = 0%R))).
  { intros p V. unfold v. destruct (det_large (below d) n (rd p) (A p) (RD p V)) as [R|(R & N & x & _ & T)].
    - destruct H as [H|H]; [left; now apply below_0|right; auto].
    - change xdivo with xquot in R. rewrite R. auto.
    - change xdivo with xquot in R. rewrite R. split; auto. right. destruct (threshold d) eqn:TD; auto. now rewrite below_no in T. }
  destruct (K (fun p => Fin (v p))) as (r & E & D); [intros p V; now apply W|].
  exists r, v. split; [exact E|]. split; [exact D|]. intros p V. now apply W.
Qed.
Print Assumptions C100_large_partial.
(** F32 and F64: exact if in each column the diagonal entry exceeds the others together by 1e-15. *)
Theorem C100_dominant_partial : forall a d s n A, allowed NoBool d = true -> xstack a d s n n A ->
  (forall p, valid s p -> dominant (1 / 10 ^ 15) 0 n (A p)) ->
  exists r, x_det a = Ok r /\ numbers r d s (fun p => Fin (det n (A p))).
Proof.
  intros a d s n A C X H. apply (x_det_ok a d s n A (fun p => Fin (det n (A p))) C X). intros p m V E.
  apply (det_dominant (below d) (1 / 10 ^ 15)); auto.
  - apply Rdiv_lt_0_compat; [lra|apply pow_lt; lra].
  - intros x Hx. unfold below. cbn [xltb]. unfold Rltb. destruct (Rlt_dec x (1 / 10 ^ 15)); [lra|]. apply andb_false_r.
Qed.
Print Assumptions C100_dominant_partial.
(** A first column below 1e-15 gives 0, whatever the determinant. *)
Theorem C100_small_column_refuted : forall a d s n A, threshold d = true -> xstack a d s n n A -> 4 <= n ->
  (forall p i, valid s p -> i < n -> (Rabs (A p i 0%nat) < 1 / 10 ^ 15)%R) ->
  exists r, x_det a = Ok r /\ numbers r d s (fun _ => Fin 0).
Proof.
  intros a d s n A T X N H. assert (C : allowed NoBool d = true) by (destruct d; cbn in T; auto; discriminate).
  apply (x_det_ok a d s n A (fun p => Fin 0) C X). intros p m V E. apply (det_tiny_column (below d) n m (A p)); auto.
  intros i Hi. unfold below. fold (threshold d). rewrite T. cbn [andb xltb]. unfold Rltb.
  destruct (Rlt_dec (Rabs (A p i 0%nat)) (1 / 10 ^ 15)) as [_|Q]; [reflexivity|]. exfalso. apply Q, H; auto.
Qed.
Print Assumptions C100_small_column_refuted.
(** In the other float types a zero first column gives NaN instead of 0. *)
Theorem C100_zero_column_refuted : forall a d s n A, allowed NoBool d = true -> threshold d = false -> xstack a d s n n A -> 4 <= n ->
  (forall p i, valid s p -> i < n -> A p i 0 = 0%R) ->
  exists r, x_det a = Ok r /\ numbers r d s (fun _ => Nan) /\ forall p, valid s p -> det n (A p) = 0%R.
Proof.
  intros a d s n A C T X N H. destruct (x_det_read a d s n A C X) as (rd & RD & K).
  destruct (K (fun _ => Nan)) as (r & E & D).
  - intros p V. rewrite <- (det_zero_column n (rd p) (A p) N (RD p V)) by (intros; now apply H).
    destruct d; try discriminate T; reflexivity.
  - exists r. split; [exact E|]. split; [exact D|]. intros p V. destruct n as [|n]; [lia|]. apply det_column_zero. intros i Hi. now apply H.
Qed.
Print Assumptions C100_zero_column_refuted.
(** Integers up to 3 x 3: the determinant, reduced into the range of the type. *)
Theorem C100_integers_partial : forall w a s n A, (0 < w)%Z -> n <= 3 -> den a (s ++ [n; n]) (fun i => A (firstn (length s) i) (nth (length s) i 0) (nth (S (length s)) i 0)) ->
  (forall p i j, valid s p -> i < n -> j < n -> (- 2 ^ (w - 1) <= A p i j < 2 ^ (w - 1))%Z) ->
  exists r z, i_det w a = Ok r /\ den r (match s with [] => [1] | _ => s end) (fun q => wrap w (z (match s with [] => [] | _ => q end))) /\
    forall p, valid s p -> IZR (z p) = det n (fun i j => IZR (A p i j)).
Proof.
  intros w a s n A W N (G & U & SH & P & E) R. apply Forall_app in P. destruct P as [P Q]. assert (n0 : 0 < n) by (inversion Q; auto).
  assert (EL : forall p i j, valid s p -> i < n -> j < n -> elem a (p ++ [i; j]) = Some (A p i j)).
  { intros p i j V Hi Hj. rewrite E; [|apply valid_app; [now apply valid_length|cbn; auto]].
    destruct (stack_parts s p i j (valid_length _ _ V)) as [-> [-> ->]]. reflexivity. }
  unfold i_det, t_det. rewrite (square_ok _ s n SH). cbn [negb].
  destruct (one_each 0%Z a s n A G SH P EL
    (fun n m => let? d := det_matrix 0%Z 1%Z (iadd w) (isub w) (imul w) (iquot w) (ineg w) Z.ltb (fun v => (v <? 0)%Z) n m in Some [d])
    (fun p => wrap w (zdet n (A p)))) as (st & RR & L & D).
  - intros p m V Hm. rewrite idet_small; auto.
    + cbn [obind]. do 3 f_equal. now apply zdet_ext.
    + intros i j Hi Hj. rewrite Hm by auto. now apply R.
  - rewrite RR. cbn [ub bind]. rewrite (batch_shape_ok _ s n SH). eexists. exists (fun p => zdet n (A p)). split; [reflexivity|].
    split; [|intros p _; apply zdet_IZR].
    split; [now apply from_shape_good|]. split; [left; reflexivity|]. split; [reflexivity|]. split; [destruct s; [repeat constructor|exact P]|].
    intros q V. destruct s as [|x s']; [|exact (D q V)]. destruct q as [|q [|? ?]]; cbn in V; try tauto. replace q with 0 by lia. exact (D [] I).
Qed.
Print Assumptions C100_integers_partial.
(** Integers from 4 x 4 on divide with the remainder dropped: a wrong number, or a division by zero. *)
Definition zt (s : list nat) (l : list Z) : tensor Z := mkT l (from_shape s).
Theorem C100_integers_refuted :
  (exists a r, a = zt [4; 4] [3; 1; 0; 0; 2; 1; 0; 0; 0; 0; 1; 0; 0; 0; 0; 1]%Z /\ i_det 32 a = Ok r /\ elem r [0] = Some 3%Z) /\
  i_det 32 (zt [4; 4] (repeat 0%Z 16)) = Panic /\
  i_det 8 (zt [4; 4] [-128; 0; 0; 0; 0; 1; 0; 0; 0; 0; 1; 0; 0; 0; 0; 1]%Z) = Panic.
Proof. split; [|split; vm_compute; reflexivity]. do 2 eexists. split; [reflexivity|]. split; vm_compute; reflexivity. Qed.
Print Assumptions C100_integers_refuted.

(** A stack of no matrices: the kernel still computes one, outside the storage. *)
Lemma empty_kernel : forall om size t s n, nelem s = 0 -> tshape t = s ++ [n; n] -> 0 < size ->
  linalg_kernel (Fin 0) om size (tstore t) (tlay t) 0 = None.
Proof.
  intros om size t s n Z SH P. unfold linalg_kernel. unfold tshape in SH. rewrite SH, app_length. cbn [length].
  replace (length s + 2 - 2) with (length s) by lia. rewrite firstn_app, Nat.sub_diag, firstn_all. cbn [firstn]. rewrite app_nil_r.
  destruct (map_opt _ _); [|reflexivity]. cbn [obind]. unfold batch_count. change (fold_right Nat.mul 1 s) with (nelem s). rewrite Z. cbn [Nat.eqb].
  destruct (Nat.ltb_spec 0 (1 * size)); [reflexivity|lia].
Qed.
Theorem C100_empty_refuted : forall a s n, allowed NoBool (xdtype a) = true -> xshape a = s ++ [n; n] -> nelem s = 0 -> x_det a = Panic.
Proof.
  intros a s n C SH Z. assert (NE : s <> []) by (intros ->; discriminate Z).
  unfold x_det. rewrite C. cbn [negb]. unfold t_det. rewrite (square_ok _ s n SH). cbn [negb].
  rewrite (batch_shape_ok _ s n SH). replace (shape_size (spot_shape s)) with 0 by (destruct s; [congruence|now symmetry]).
  rewrite (empty_kernel _ 1 _ s n); auto.
Qed.
Print Assumptions C100_empty_refuted.
(** Anything but a stack of square matrices is an error. *)
Theorem C100_not_square : forall a, allowed NoBool (xdtype a) = true -> (forall s n, xshape a <> s ++ [n; n]) ->
  x_det a = Err EInternal /\ x_inv a = Err EInternal /\ x_trace a = Err EInternal.
Proof.
  intros a C H. assert (Q : square (lshape (tlay (xdata a))) = false).
  { change (lshape (tlay (xdata a))) with (xshape a). unfold square. destruct (Nat.leb_spec 2 (length (xshape a))) as [L|L]; [|reflexivity].
    cbn [andb]. destruct (Nat.eqb_spec (nth (length (xshape a) - 1) (xshape a) 0) (nth (length (xshape a) - 2) (xshape a) 0)) as [E|]; [|reflexivity].
    exfalso. revert H L E. generalize (xshape a). intros l. destruct l as [|x l] using rev_ind; [cbn; lia|]. clear IHl.
    destruct l as [|y l] using rev_ind; [cbn; lia|]. clear IHl. intros H L E. rewrite <- app_assoc, !app_length in *. cbn [length app] in *.
    rewrite !app_nth2 in E by lia. replace (length l + (1 + 1) - 1 - length l) with 1 in E by lia. replace (length l + (1 + 1) - 2 - length l) with 0 in E by lia.
    cbn [nth] in E. subst y. exact (H l x eq_refl). }
  unfold x_det, x_inv, x_trace, t_det, t_inv, t_trace. rewrite C, Q. auto.
Qed.
Print Assumptions C100_not_square.

(** stacks given by the list of their entries *)
Definition entry (sh : list nat) (l : list R) (p : list nat) (i j : nat) : R := nth (ravel sh (p ++ [i; j])) l 0%R.
Lemma listed : forall d s m n l, length l = nelem (s ++ [m; n]) -> all_pos (s ++ [m; n]) ->
  xstack (xlist d (s ++ [m; n]) (map Fin l)) d s m n (entry (s ++ [m; n]) l).
Proof.
  intros d s m n l L P. eapply xstack_of; [apply xlist_den; auto; now rewrite map_length|].
  intros p i j V Hi Hj. cbn beta. assert (VV : valid (s ++ [m; n]) (p ++ [i; j])) by (apply valid_app; [now apply valid_length|cbn; auto]).
  rewrite (nth_indep _ Nan (Fin 0%R)) by (rewrite map_length, L; now apply ravel_lt). apply map_nth.
Qed.
Ltac numeric := cbn [det]; lazy -[IZR Rplus Rminus Rdiv Ropp Rmult Rinv Rpow_def.pow Rabs Rle Rlt].
(** two 2 x 2 matrices in F16: 1*4 - 2*3 and 0*0 - 1*1 *)
Example C100_small_example : exists r,
  x_det (xlist F16 [2; 2; 2] (map Fin [1; 2; 3; 4; 0; 1; 1; 0]%R)) = Ok r /\ elem (xdata r) [0] = Some (Fin (-2)%R) /\ elem (xdata r) [1] = Some (Fin (-1)%R).
Proof.
  destruct (C100_small _ F16 _ _ _ eq_refl (listed F16 [2] 2 2 [1; 2; 3; 4; 0; 1; 1; 0]%R eq_refl ltac:(repeat constructor)) ltac:(lia)) as (r & E & D).
  exists r. split; [exact E|]. destruct D as [_ (_ & _ & _ & _ & D)]. rewrite !D by (cbn; auto). split; do 2 f_equal; numeric; lra.
Qed.
(** a 4 x 4 matrix with a dominant diagonal, and its determinant *)
Definition four : list R := [3; 1; 0; 0; 1; 3; 0; 0; 0; 0; 2; 0; 0; 0; 0; 2]%R.
Example C100_dominant_example : exists r, x_det (xt [4; 4] four) = Ok r /\ elem (xdata r) [0] = Some (Fin 32%R).
Proof.
  destruct (C100_dominant_partial _ EncodeModel.F32 _ _ _ eq_refl (listed EncodeModel.F32 [] 4 4 four eq_refl ltac:(repeat constructor))) as (r & E & D).
  - intros p V. destruct p; [|destruct V]. intros j Hj. assert (TT : (1 / 10 ^ 15 <= 1)%R).
    { apply (Rmult_le_reg_r (10 ^ 15)); [apply pow_lt; lra|]. unfold Rdiv. rewrite Rmult_assoc, Rinv_l by (apply pow_nonzero; lra). 
      rewrite !Rmult_1_l. apply pow_R1_Rle. lra. }
    assert (C : j = 0 \/ j = 1 \/ j = 2 \/ j = 3) by lia. revert TT. generalize (1 / 10 ^ 15)%R. intros q TT.
    destruct C as [->|[->|[->| ->]]]; numeric; rewrite ?Rabs_R0, ?Rabs_R1, ?(Rabs_right 2), ?(Rabs_right 3) by lra; lra.
  - exists r. split; [exact E|]. destruct D as [_ (_ & _ & _ & _ & D)]. rewrite !D by (cbn; auto). do 2 f_equal. unfold four. numeric. lra.
Qed.
(** diag(e, 1/e, 1, 1) for a small e has determinant 1; the result is 0 *)
Example C100_small_column_example : forall e, (0 < e < 1 / 10 ^ 15)%R -> let l := [e; 0; 0; 0; 0; 1 / e; 0; 0; 0; 0; 1; 0; 0; 0; 0; 1]%R in
  det 4 (entry [4; 4] l []) = 1%R /\ exists r, x_det (xt [4; 4] l) = Ok r /\ elem (xdata r) [0] = Some (Fin 0%R).
Proof.
  intros e He l. split; [unfold l; numeric; field; lra|].
  destruct (C100_small_column_refuted _ EncodeModel.F32 _ _ _ eq_refl (listed EncodeModel.F32 [] 4 4 l eq_refl ltac:(repeat constructor)) ltac:(lia)) as (r & E & D).
  - intros p i V Hi. destruct p; [|destruct V]. revert He. generalize (1 / 10 ^ 15)%R. intros q He.
    assert (C : i = 0 \/ i = 1 \/ i = 2 \/ i = 3) by lia. destruct C as [->|[->|[->| ->]]]; unfold l; numeric; rewrite ?Rabs_R0; try rewrite Rabs_right by lra; lra.
  - exists r. split; [exact E|]. destruct D as [_ (_ & _ & _ & _ & D)]. now rewrite !D by (cbn; auto).
Qed.
Example C100_zero_column_example : exists r, x_det (xlist F16 [4; 4] (map Fin (repeat 0%R 16))) = Ok r /\ elem (xdata r) [0] = Some Nan.
Proof.
  destruct (C100_zero_column_refuted _ F16 _ _ _ eq_refl eq_refl (listed F16 [] 4 4 (repeat 0%R 16) eq_refl ltac:(repeat constructor)) ltac:(lia)) as (r & E & D & _).
  - intros p i V Hi. destruct p; [|destruct V]. assert (C : i = 0 \/ i = 1 \/ i = 2 \/ i = 3) by lia. destruct C as [->|[->|[->| ->]]]; reflexivity.
  - exists r. split; [exact E|]. destruct D as [_ (_ & _ & _ & _ & D)]. now rewrite !D by (cbn; auto).
Qed.
Example C100_integers_example : exists r, i_det 8 (zt [2; 2] [100; 2; 3; 4]%Z) = Ok r /\ elem r [0] = Some (394 - 512)%Z.
Proof. eexists. split; vm_compute; reflexivity. Qed.
Example C100_empty_example : x_det (xlist F16 [0; 2; 2] []) = Panic.
Proof. now apply (C100_empty_refuted (xlist F16 [0; 2; 2] []) [0] 2). Qed.
Example C100_not_square_example : x_det (xt [2; 3] [1; 2; 3; 4; 5; 6]%R) = Err EInternal.
Proof. reflexivity. Qed.

(** * C101: inverse and solve *)
(** Every matrix of the stack: the inverse if there is one, otherwise no entry is a finite number. *)
Theorem C101_inverse : forall a d s n A, allowed NoBool d = true -> xstack a d s n n A ->
  exists r b, x_inv a = Ok r /\ xden r d (s ++ [n; n]) (fun i => b (firstn (length s) i) (nth (length s) i 0) (nth (S (length s)) i 0)) /\
    forall p, valid s p ->
      (nonsingular n (A p) -> exists B, inverse n (A p) B /\ forall i j, i < n -> j < n -> b p i j = Fin (B i j)) /\
      (~ nonsingular n (A p) -> forall i j x, i < n -> j < n -> b p i j <> Fin x).
Proof.
  intros a d s n A C X. destruct (x_inv_ok a d s n A C X) as (r & b & E & _ & D & H). exists r, b. split; [exact E|]. split; [exact D|].
  intros p V. destruct (H p V) as [H1 H2]. split.
  - intros N. apply nonsingular_det in N. destruct (H1 N) as (B & EB & IB). exists B. split; [exact IB|]. exact EB.
  - intros N i j x Hi Hj Q. assert (Z : det n (A p) = 0%R).
    { destruct (Req_dec (det n (A p)) 0) as [Z|Z]; [exact Z|]. exfalso. apply N. now apply nonsingular_det. }
    specialize (H2 Z i j Hi Hj). rewrite Q in H2. exact H2.
Qed.
Print Assumptions C101_inverse.
(** Matrix right-hand sides with the same batch axes. *)
Theorem C101_solve_partial : forall e blas a b d s n k A b0, mat_env_ok e -> allowed NoBool d = true -> xstack a d s n n A -> xstack b d s n k b0 ->
  (s = [] -> fit blas b) -> length s <= (if by_blas blas d then 1 else 16) -> (forall p, valid s p -> nonsingular n (A p)) ->
  exists r Y, x_solve e blas a b = Ok r /\ xstack r d s n k Y /\
    forall p i j, valid s p -> i < n -> j < k -> mapply n (A p) (fun l => Y p l j) i = b0 p i j.
Proof. intros e blas a b d s n k A b0 Hm C X Y F L N. apply (x_solve_stack e Hm blas a b d s n k A b0 C X Y F L). intros p V. now apply nonsingular_det, N. Qed.
Print Assumptions C101_solve_partial.
(** A vector as right-hand side. *)
Theorem C101_solve_vector : forall e blas a b d n A b0, mat_env_ok e -> allowed NoBool d = true -> xmat a d n n A -> xvec b d n b0 -> nonsingular n A ->
  exists r y, x_solve e blas a b = Ok r /\ xvec r d n y /\ forall i, i < n -> mapply n A y i = b0 i.
Proof. intros e blas a b d n A b0 Hm C X Y N. apply (x_solve_vec e Hm blas a b d n (fun _ => A) b0 C X Y). now apply nonsingular_det. Qed.
Print Assumptions C101_solve_vector.

(** A batch of right-hand vectors, [n;n] against [n;n;n] here, is taken for one matrix. *)
Theorem C101_batched_vector_refuted : forall e blas a b d n A b0, mat_env_ok e -> allowed NoBool d = true -> xstack a d [n] n n A -> xmat b d n n b0 ->
  (forall p, valid [n] p -> nonsingular n (A p)) ->
  exists r, x_solve e blas a b = Ok r /\ xshape r = [n; n; n] /\ (1 < n -> xshape r <> xshape b).
Proof.
  intros e blas a b d n A b0 Hm C X Y N. destruct (x_solve_repeats e Hm blas a b d n A b0 C X Y) as (r & E & S).
  - intros p V. now apply nonsingular_det, N.
  - exists r. split; [exact E|]. split; [exact S|]. intros _ Q. rewrite S in Q. assert (SB : xshape b = [n; n]) by (destruct Y as [_ (_ & _ & SB & _)]; exact SB).
    rewrite SB in Q. discriminate.
Qed.
Print Assumptions C101_batched_vector_refuted.
(** Integers: the entries are divided with the remainder dropped, a singular matrix is a division by zero. *)
Theorem C101_integers_refuted :
  (exists r, i_inv 32 (zt [2; 2] [2; 0; 0; 1]%Z) = Ok r /\ tstore r = [0; 0; 0; 0]%Z) /\
  i_inv 32 (zt [2; 2] [1; 1; 1; 1]%Z) = Panic.
Proof. split; [eexists; split; vm_compute; reflexivity|vm_compute; reflexivity]. Qed.
Print Assumptions C101_integers_refuted.
Theorem C101_empty_refuted : forall a s n, allowed NoBool (xdtype a) = true -> xshape a = s ++ [n; n] -> nelem s = 0 -> 0 < n -> x_inv a = Panic.
Proof.
  intros a s n C SH Z N. unfold x_inv. rewrite C. cbn [negb]. unfold t_inv. rewrite (square_ok _ s n SH). cbn [negb].
  change (lshape (tlay (xdata a))) with (xshape a). assert (Q : shape_size (xshape a) = 0).
  { rewrite SH. change (nelem (s ++ [n; n]) = 0). rewrite nelem_app. now rewrite Z. }
  assert (QN : nth (length (xshape a) - 1) (xshape a) 0 = n).
  { rewrite SH, app_length. cbn [length]. rewrite app_nth2 by lia. replace (length s + 2 - 1 - length s) with 1 by lia. reflexivity. }
  rewrite Q, QN, (empty_kernel _ _ _ s n); auto. nia.
Qed.
Print Assumptions C101_empty_refuted.

Lemma det_nonsingular : forall n A x, x <> 0%R -> det n A = x -> nonsingular n A.
Proof. intros n A x H E. apply nonsingular_det. congruence. Qed.
(** [2 1; 1 1] with right-hand side (3, 2): the solution is (1, 1) *)
Example C101_solve_example : exists r y, x_solve e1 true (xt [2; 2] [2; 1; 1; 1]%R) (xt [2] [3; 2]%R) = Ok r /\ xvec r F32 2 y /\ y 0 = 1%R /\ y 1 = 1%R.
Proof.
  destruct (C101_solve_vector e1 true (xt [2; 2] [2; 1; 1; 1]%R) (xt [2] [3; 2]%R) F32 2 (entry [2; 2] [2; 1; 1; 1]%R []) (fun i => nth i [3; 2]%R 0%R) e1_mat eq_refl) as (r & y & E & X & H).
  - eapply xden_ext; [exact (xt_den [2; 2] [2; 1; 1; 1]%R eq_refl ltac:(repeat constructor))|]. intros i V. apply in_all_idx in V. vm_compute in V.
    repeat (destruct V as [<-|V]; [reflexivity|]); destruct V.
  - eapply xden_ext; [exact (xt_den [2] [3; 2]%R eq_refl ltac:(repeat constructor))|]. intros i V. apply in_all_idx in V. vm_compute in V.
    repeat (destruct V as [<-|V]; [reflexivity|]); destruct V.
  - apply (det_nonsingular _ _ 1%R); [lra|]. numeric. lra.
  - exists r, y. split; [exact E|]. split; [exact X|]. pose proof (H 0 ltac:(lia)) as H0. pose proof (H 1 ltac:(lia)) as H1.
    revert H0 H1. unfold mapply; cbn [sumn]; generalize (y 0) (y 1); intros u v; numeric. lra.
Qed.
(** the first of two matrices is singular: its result has no number, the other one is [1/2 0; 0 1] *)
Example C101_inverse_example : exists r,
  x_inv (xlist F16 [2; 2; 2] (map Fin [1; 1; 1; 1; 2; 0; 0; 1]%R)) = Ok r /\ (forall x, elem (xdata r) [0; 0; 1] <> Some (Fin x)) /\
  elem (xdata r) [1; 0; 0] = Some (Fin (1 / 2)%R).
Proof.
  destruct (C101_inverse _ F16 _ _ _ eq_refl (listed F16 [2] 2 2 [1; 1; 1; 1; 2; 0; 0; 1]%R eq_refl ltac:(repeat constructor))) as (r & b & E & D & H).
  exists r. split; [exact E|]. destruct D as [_ (_ & _ & _ & _ & D)]. split.
  - intros x Q. rewrite D in Q by (cbn; auto). cbn [length firstn nth] in Q. destruct (H [0]) as [_ H2]; [cbn; auto|]. apply (H2 ltac:(clear; intros N; apply nonsingular_det in N; apply N; numeric; lra) 0 1 x); [lia|lia|congruence].
  - destruct (H [1]) as [H1 _]; [cbn; auto|]. destruct H1 as (B & [IB _] & EB); [apply (det_nonsingular _ _ 2%R); [lra|]; numeric; lra|].
    rewrite D by (cbn; auto with arith). cbn [length firstn nth]. rewrite EB by lia. do 2 f_equal. pose proof (IB 0 0 ltac:(lia) ltac:(lia)) as Q. revert Q. unfold mmul, mid. cbn [sumn Nat.eqb]. generalize (B 0 0) (B 1 0). intros u v. numeric. lra.
Qed.

(** * C102: trace *)
Theorem C102_trace : forall a d s n A, allowed NoBool d = true -> xstack a d s n n A ->
  exists r, x_trace a = Ok r /\ numbers r d s (fun p => Fin (sumn n (fun i => A p i i))).
Proof. exact x_trace_ok. Qed.
Print Assumptions C102_trace.
Theorem C102_empty_refuted : forall a s n, allowed NoBool (xdtype a) = true -> xshape a = s ++ [n; n] -> nelem s = 0 -> x_trace a = Panic.
Proof.
  intros a s n C SH Z. assert (NE : s <> []) by (intros ->; discriminate Z).
  unfold x_trace. rewrite C. cbn [negb]. unfold t_trace. rewrite (square_ok _ s n SH). cbn [negb].
  rewrite (batch_shape_ok _ s n SH). replace (shape_size (spot_shape s)) with 0 by (destruct s; [congruence|now symmetry]).
  rewrite (empty_kernel _ 1 _ s n); auto.
Qed.
Print Assumptions C102_empty_refuted.
Example C102_example : exists r, x_trace (xt [1; 3; 3] [1; 2; 3; 4; 5; 6; 7; 8; 10]%R) = Ok r /\ elem (xdata r) [0] = Some (Fin 16%R).
Proof.
  destruct (C102_trace _ EncodeModel.F32 _ _ _ eq_refl (listed EncodeModel.F32 [1] 3 3 [1; 2; 3; 4; 5; 6; 7; 8; 10]%R eq_refl ltac:(repeat constructor))) as (r & E & D).
  exists r. split; [exact E|]. destruct D as [_ (_ & _ & _ & _ & D)]. rewrite !D by (cbn; auto). do 2 f_equal. numeric. lra.
Qed.
