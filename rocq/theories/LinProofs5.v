(** Determinant, inverse, trace and solve of float tensors. *)
From Coq Require Import List Arith ZArith Lia Bool Reals Lra.
From Verif Require Import Base IndexSpec LayoutModel ViewSpec KernelModel TensorModel TensorSpec EncodeModel CountModel.
From Verif Require Import LayoutProofs BcastProofs KernelProofs TensorProofs CountProofs MatrixModel NumModel DenSpec NnModel NnSpec LayerModel LayerSpec.
From Verif Require Import AttnSpec NnProofs NnProofs2 LayerProofs LayerProofs2 AttnProofs LinSpec LinProofs LinModel LinModel2 LinProofs2 LinProofs3 LinProofs4.
Import ListNotations.
Open Scope nat_scope.

Lemma float_nobool : forall d, is_float d = true -> allowed NoBool d = true.
Proof. intros []; cbn; auto; discriminate. Qed.
Lemma xstack_elem : forall a d s m n A p i j, xstack a d s m n A -> valid s p -> i < m -> j < n -> elem (xdata a) (p ++ [i; j]) = Some (Fin (A p i j)).
Proof.
  intros a d s m n A p i j [_ (_ & _ & _ & _ & H)] V Hi Hj. rewrite H.
  - destruct (stack_parts s p i j (valid_length _ _ V)) as [-> [-> ->]]. reflexivity.
  - apply valid_app; [now apply valid_length|]. cbn. auto.
Qed.
Lemma xstack_parts : forall a d s m n A, xstack a d s m n A -> xdtype a = d /\ good (xdata a) /\ tshape (xdata a) = s ++ [m; n] /\ all_pos s /\ 0 < m /\ 0 < n.
Proof.
  intros a d s m n A [D (G & _ & S & P & _)]. apply Forall_app in P. destruct P as [P Q]. inversion Q as [|? ? Q1 Q2]; subst. inversion Q2; subst. auto 8.
Qed.
Lemma spot_den : forall d s st D, length st = nelem (spot_shape s) -> all_pos s ->
  (forall p, valid s p -> elem (mkT st (from_shape (spot_shape s))) (spot s p) = Some (D p)) ->
  xden (mkX d (mkT st (from_shape (spot_shape s)))) d (spot_shape s) (fun q => D (match s with [] => [] | _ => q end)).
Proof.
  intros d s st D L P H. split; [reflexivity|]. split; [now apply from_shape_good|]. split; [left; reflexivity|]. split; [reflexivity|]. split.
  - destruct s; [repeat constructor|exact P].
  - intros q V. destruct s as [|x s']; [|exact (H q V)]. destruct q as [|q [|? ?]]; cbn in V; try tauto. replace q with 0 by lia. exact (H [] I).
Qed.

Lemma x_det_ok : forall a d s n A v, allowed NoBool d = true -> xstack a d s n n A ->
  (forall p m, valid s p -> entries n n m (A p) -> det_matrix (Fin 0) (Fin 1) xadd xsub xmul xquot xneg xltb (below d) n m = Some (v p)) ->
  exists r, x_det a = Ok r /\ xden r d (spot_shape s) (fun q => v (match s with [] => [] | _ => q end)).
Proof.
  intros a d s n A v C X H. destruct (xstack_parts _ _ _ _ _ _ X) as (D & G & SH & P & _).
  unfold x_det. rewrite D, C. cbn [negb]. unfold t_det. rewrite (square_ok _ s n SH). cbn [negb].
  destruct (one_each (Fin 0) (xdata a) s n (fun p i j => Fin (A p i j)) G SH P (fun p i j V Hi Hj => xstack_elem _ _ _ _ _ _ _ _ _ X V Hi Hj)
    (fun n m => let? d := det_matrix (Fin 0) (Fin 1) xadd xsub xmul xquot xneg xltb (below d) n m in Some [d]) v) as (st & R & L & E).
  - intros p m V Hm. rewrite (H p m V Hm). reflexivity.
  - rewrite R. cbn [ub bind]. rewrite (batch_shape_ok _ s n SH). eexists. split; [reflexivity|]. apply spot_den; auto.
Qed.
Lemma x_det_read : forall a d s n A, allowed NoBool d = true -> xstack a d s n n A ->
  exists rd, (forall p, valid s p -> entries n n (rd p) (A p)) /\
    forall v, (forall p, valid s p -> det_matrix (Fin 0) (Fin 1) xadd xsub xmul xquot xneg xltb (below d) n (rd p) = Some (v p)) ->
      exists r, x_det a = Ok r /\ xden r d (spot_shape s) (fun q => v (match s with [] => [] | _ => q end)).
Proof.
  intros a d s n A C X. destruct (xstack_parts _ _ _ _ _ _ X) as (D & G & SH & P & _).
  exists (fun p => read_at (Fin 0) (xdata a) s p). split.
  - intros p V i j Hi Hj. apply (read_ok (Fin 0) (xdata a) s n (fun p i j => Fin (A p i j)) G SH); auto.
    intros q x y Vq Hx Hy. exact (xstack_elem _ _ _ _ _ _ _ _ _ X Vq Hx Hy).
  - intros v H. unfold x_det. rewrite D, C. cbn [negb]. unfold t_det. rewrite (square_ok _ s n SH). cbn [negb].
    destruct (one_each_read (Fin 0) (xdata a) s n (fun p i j => Fin (A p i j)) G SH P (fun p i j V Hi Hj => xstack_elem _ _ _ _ _ _ _ _ _ X V Hi Hj)
      (fun n m => let? d := det_matrix (Fin 0) (Fin 1) xadd xsub xmul xquot xneg xltb (below d) n m in Some [d]) v) as (st & R & L & E).
    + intros p V. rewrite (H p V). reflexivity.
    + rewrite R. cbn [ub bind]. rewrite (batch_shape_ok _ s n SH). eexists. split; [reflexivity|]. apply spot_den; auto.
Qed.
Lemma x_trace_ok : forall a d s n A, allowed NoBool d = true -> xstack a d s n n A ->
  exists r, x_trace a = Ok r /\ xden r d (spot_shape s) (fun q => Fin (sumn n (fun i => A (match s with [] => [] | _ => q end) i i))).
Proof.
  intros a d s n A C X. destruct (xstack_parts _ _ _ _ _ _ X) as (D & G & SH & P & _).
  unfold x_trace. rewrite D, C. cbn [negb]. unfold t_trace. rewrite (square_ok _ s n SH). cbn [negb].
  destruct (one_each (Fin 0) (xdata a) s n (fun p i j => Fin (A p i j)) G SH P (fun p i j V Hi Hj => xstack_elem _ _ _ _ _ _ _ _ _ X V Hi Hj)
    (fun n m => Some [trace_matrix (Fin 0) xadd n m]) (fun p => Fin (sumn n (fun i => A p i i)))) as (st & R & L & E).
  - intros p m V Hm. do 2 f_equal. unfold trace_matrix.
    assert (Q : forall k, k <= n -> fold_left (fun s i => xadd s (m i i)) (seq 0 k) (Fin 0) = Fin (sumn k (fun i => A p i i))).
    { induction k as [|k IH]; intros Hk; [reflexivity|]. rewrite seq_S, fold_left_app, IH by lia. cbn [fold_left]. rewrite Hm by lia. reflexivity. }
    now apply Q.
  - rewrite R. cbn [ub bind]. rewrite (batch_shape_ok _ s n SH). eexists. split; [reflexivity|].
    apply (spot_den d s st (fun p => Fin (sumn n (fun i => A p i i)))); auto.
Qed.

(** what the inverse of a matrix looks like *)
Definition inv_result (n : nat) (A : matrix) (b : nat -> nat -> xr) : Prop :=
  (det n A <> 0%R -> exists B, entries n n b B /\ inverse n A B) /\ (det n A = 0%R -> spoiled n n b).
Lemma x_inv_ok : forall a d s n A, allowed NoBool d = true -> xstack a d s n n A ->
  exists r b, x_inv a = Ok r /\ is_contiguous (tlay (xdata r)) = true /\
    xden r d (s ++ [n; n]) (fun i => b (firstn (length s) i) (nth (length s) i 0) (nth (S (length s)) i 0)) /\
    forall p, valid s p -> inv_result n (A p) (b p).
Proof.
  intros a d s n A C X. destruct (xstack_parts _ _ _ _ _ _ X) as (D & G & SH & P & Pn & _).
  set (rd := fun p => read_at (Fin 0) (xdata a) s p).
  assert (RD : forall p, valid s p -> entries n n (rd p) (A p)).
  { intros p V i j Hi Hj. apply (read_ok (Fin 0) (xdata a) s n (fun p i j => Fin (A p i j)) G SH); auto.
    intros q x y Vq Hx Hy. exact (xstack_elem _ _ _ _ _ _ _ _ _ X Vq Hx Hy). }
  set (b := fun p => match inv_matrix (Fin 0) (Fin 1) xadd xsub xmul xquot xneg xltb n (rd p) with Some b => b | None => fun _ _ => Nan end).
  assert (K : forall p, valid s p -> inv_matrix (Fin 0) (Fin 1) xadd xsub xmul xquot xneg xltb n (rd p) = Some (b p) /\ inv_result n (A p) (b p)).
  { intros p V. destruct (inv_ok n (rd p) (A p) (RD p V)) as (m' & E & R). unfold b. change xdivo with xquot in E. rewrite E. split; [reflexivity|exact R]. }
  unfold x_inv. rewrite D, C. cbn [negb]. unfold t_inv. rewrite (square_ok _ s n SH). cbn [negb].
  assert (NN : nth (length (lshape (tlay (xdata a))) - 1) (lshape (tlay (xdata a))) 0 = n).
  { unfold tshape in SH. rewrite SH, app_length. cbn [length]. rewrite app_nth2 by lia. replace (length s + 2 - 1 - length s) with 1 by lia. reflexivity. }
  rewrite NN. assert (NE : nelem (s ++ [n; n]) = nelem s * (n * n)) by (rewrite nelem_app; rewrite !nelem_cons; change (nelem []) with 1; lia).
  unfold tshape in SH. rewrite SH. change (shape_size (s ++ [n; n])) with (nelem (s ++ [n; n])).
  rewrite (linalg_read (Fin 0) (xdata a) s n (fun p i j => Fin (A p i j)) G SH P
    (fun p i j V Hi Hj => xstack_elem _ _ _ _ _ _ _ _ _ X V Hi Hj) _ (n * n) _
    (fun p => map (fun q => b p (fst q) (snd q)) (list_prod (seq 0 n) (seq 0 n)))).
  - set (g := fun i => b (firstn (length s) i) (nth (length s) i 0) (nth (S (length s)) i 0)).
    assert (ST : concat (map (fun p => map (fun q => b p (fst q) (snd q)) (list_prod (seq 0 n) (seq 0 n))) (all_idx s))
                 = map (fun k => g (unravel (s ++ [n; n]) k)) (seq 0 (nelem (s ++ [n; n])))).
    { transitivity (map g (all_idx (s ++ [n; n]))); [|rewrite all_idx_map_unravel, map_map; reflexivity].
      rewrite all_idx_app, all_idx_2. assert (LI : forall p, In p (all_idx s) -> length p = length s) by (intros p Hp; apply in_all_idx in Hp; now apply valid_length).
      revert LI. generalize (all_idx s). induction l as [|p l IH]; intros LI; [reflexivity|]. cbn [map concat flat_map]. rewrite map_app, IH by (intros; apply LI; right; auto).
      f_equal. rewrite !map_map. apply map_ext. intros [x y]. cbn [fst snd]. unfold g.
      destruct (stack_parts s p x y (LI p (or_introl eq_refl))) as [-> [-> ->]]. reflexivity. }
    rewrite ST. cbn [ub bind]. eexists. exists b. split; [reflexivity|]. split; [apply from_shape_contiguous|]. split; [|intros p V; now apply K].
    split; [reflexivity|]. split; [apply from_shape_good; now rewrite map_length, seq_length|]. split; [left; reflexivity|]. split; [reflexivity|]. split.
    + apply Forall_app. split; auto.
    + intros i V. cbn [xdata]. rewrite (elem_fresh _ (fun k => g (unravel (s ++ [n; n]) k))) by auto. now rewrite unravel_ravel.
  - intros p V. fold rd. change (read_at (Fin 0) (xdata a) s p) with (rd p). rewrite (proj1 (K p V)). reflexivity.
  - lia.
Qed.

(** ** solve *)
Lemma Rsum_sumn : forall k f, Rsum (map f (seq 0 k)) = sumn k f.
Proof.
  induction k as [|k IH]; intros f; [reflexivity|]. rewrite seq_S, map_app, Rsum_app, IH. cbn. ring.
Qed.
Lemma solve_product : forall n A B b, inverse n A B -> forall i, i < n -> sumn n (fun l => (A i l * sumn n (fun q => B l q * b q))%R) = b i.
Proof.
  intros n A B b [AB _] i Hi. transitivity (sumn n (fun q => (mmul n A B i q * b q)%R)).
  - unfold mmul. transitivity (sumn n (fun l => sumn n (fun q => (A i l * (B l q * b q))%R))).
    + apply sumn_ext. intros l _. now rewrite sumn_scale.
    + rewrite sumn_swap. apply sumn_ext. intros q _. rewrite Rmult_comm, <- sumn_scale. apply sumn_ext. intros l _. ring.
  - rewrite (sumn_one n _ i); auto.
    + rewrite AB by auto. unfold mid. rewrite Nat.eqb_refl. ring.
    + intros q Hq NE. rewrite AB by auto. unfold mid. destruct (Nat.eqb_spec i q); [congruence|ring].
Qed.
Lemma x_inv_stack : forall a d s n A, allowed NoBool d = true -> xstack a d s n n A -> (forall p, valid s p -> det n (A p) <> 0%R) ->
  exists r B, x_inv a = Ok r /\ is_contiguous (tlay (xdata r)) = true /\ xstack r d s n n B /\ forall p, valid s p -> inverse n (A p) (B p).
Proof.
  intros a d s n A C X N. destruct (x_inv_ok a d s n A C X) as (r & b & E & K & Y & H).
  set (B := fun p i j => match b p i j with Fin x => x | _ => 0%R end).
  assert (HB : forall p, valid s p -> entries n n (b p) (B p) /\ inverse n (A p) (B p)).
  { intros p V. destruct (H p V) as [H1 _]. destruct (H1 (N p V)) as (B' & E1 & [I1 I2]).
    assert (Q : meq n (B p) B') by (intros i j Hi Hj; unfold B; now rewrite E1).
    split; [intros i j Hi Hj; rewrite E1, Q by auto; reflexivity|]. split; intros i j Hi Hj.
    - rewrite <- I1 by auto. apply sumn_ext. intros l Hl. now rewrite Q.
    - rewrite <- I2 by auto. apply sumn_ext. intros l Hl. now rewrite Q. }
  exists r, B. split; [exact E|]. split; [exact K|]. split; [|intros p V; apply HB; auto].
  eapply xstack_of; [exact Y|]. intros p i j V Hi Hj. cbn beta.
  destruct (stack_parts s p i j (valid_length _ _ V)) as [-> [-> ->]]. apply HB; auto.
Qed.
Section S.
Variable e : env.
Hypothesis He : env_ok e.
Hypothesis Hm : mat_env_ok e.
Variable blas : bool.
Lemma x_solve_stack : forall a b d s n k A b0, allowed NoBool d = true -> xstack a d s n n A -> xstack b d s n k b0 ->
  (s = [] -> fit blas b) -> length s <= (if by_blas blas d then 1 else 16) -> (forall p, valid s p -> det n (A p) <> 0%R) ->
  exists r Y, x_solve e blas a b = Ok r /\ xstack r d s n k Y /\
    forall p i j, valid s p -> i < n -> j < k -> sumn n (fun l => (A p i l * Y p l j)%R) = b0 p i j.
Proof.
  intros a b d s n k A b0 C X Xb F L N. destruct (x_inv_stack a d s n A C X N) as (ia & B & E & K & XB & HI).
  unfold x_solve. rewrite E. cbn [bind]. assert (SB : xshape b = s ++ [n; k]) by (destruct Xb as [_ (_ & _ & SB & _)]; exact SB).
  rewrite SB, app_length. cbn [length]. destruct (Nat.eqb_spec (length s + 2) 1); [lia|].
  destruct (x_matmul_stack e Hm blas ia b d s n n k B b0 C XB Xb) as (r & Er & _ & Xr); auto.
  - intros Z. split; [|auto]. subst s. exact (dense_fit blas ia d n n _ XB K).
  - exists r. eexists. split; [exact Er|]. split; [exact Xr|]. intros p i j V Hi Hj. cbn beta.
    rewrite <- (solve_product n (A p) (B p) (fun q => b0 p q j) (HI p V) i Hi). apply sumn_ext. intros l Hl. f_equal. apply Rsum_sumn.
Qed.
Lemma x_solve_vec : forall a b d n A b0, allowed NoBool d = true -> xstack a d [] n n A -> xvec b d n b0 -> det n (A []) <> 0%R ->
  exists r y, x_solve e blas a b = Ok r /\ xvec r d n y /\ forall i, i < n -> sumn n (fun l => (A [] i l * y l)%R) = b0 i.
Proof.
  intros a b d n A b0 C X Xb N. destruct (x_inv_stack a d [] n A C X) as (ia & B & E & K & XB & HI).
  { intros [|? ?] V; [exact N|destruct V]. }
  assert (Pn : 0 < n) by (destruct (xstack_parts _ _ _ _ _ _ X); tauto).
  unfold x_solve. rewrite E. cbn [bind]. assert (SB : xshape b = [n]) by (destruct Xb as [_ (_ & _ & SB & _)]; exact SB).
  rewrite SB. cbn [length Nat.eqb].
  destruct (xden_view (VUnsqueeze (-1)) b d [n] [n; 1] (fun i => Fin (b0 (nth 0 i 0))) (fun i => Fin (b0 (nth 0 i 0)))) as (bc & E1 & X1); auto; try discriminate.
  { exact I. }
  { split; [unfold axis_ok; cbn; lia|]. exists [n], []. repeat split. }
  { repeat constructor. auto. }
  { intros i j V V' IR. destruct i as [|i [|i2 [|? ?]]]; cbn in V; try tauto. destruct j as [|j [|? ?]]; cbn in V'; try tauto.
    cbn in IR. cbn. do 2 f_equal. change (nelem [1]) with 1 in IR. change (nelem []) with 1 in IR. lia. }
  assert (D1 : is_contiguous (tlay (xdata bc)) = true).
  { unfold x_view in E1. destruct (t_view (Fin 0) (VUnsqueeze (-1)) (xdata b)) as [t| |] eqn:ET; cbn in E1; try discriminate. inversion E1; subst bc. cbn [xdata].
    unfold t_view in ET. destruct (t_contiguous (Fin 0) (xdata b)) as [c| |]; cbn [bind] in ET; try discriminate.
    destruct (apply_view (tlay c) (VUnsqueeze (-1))) as [l| |] eqn:EL; cbn [bind] in ET; try discriminate. inversion ET; subst t. cbn [tlay].
    cbn [apply_view] in EL. unfold unsqueeze in EL. destruct (as_usize _); try discriminate. destruct (_ <? _); try discriminate.
    destruct (negb (is_contiguous (tlay c))); try discriminate. inversion EL. apply is_contiguous_iff; [apply compute_strides_length|reflexivity]. }
  rewrite E1. cbn [bind].
  assert (X1' : xstack bc d [] n 1 (fun _ i _ => b0 i)) by exact X1.
  destruct (x_matmul_stack e Hm blas ia bc d [] n n 1 B _ C XB X1') as (r & Er & _ & Xr).
  { intros _. split; [exact (dense_fit blas ia d n n _ XB K)|exact (dense_fit blas bc d n 1 _ X1 D1)]. }
  { cbn. destruct (by_blas blas d); lia. }
  rewrite Er. cbn [bind].
  destruct (xden_view (VSqueeze [(-1)%Z]) r d [n; 1] [n] _ (fun i => Fin (sumn n (fun q => (B [] (nth 0 i 0%nat) q * b0 q)%R))) ltac:(discriminate) Xr) as (y & E2 & X2).
  { cbn. repeat constructor; auto. }
  { split; [|reflexivity]. intros a0 [<-|[]]. split; [unfold axis_ok; cbn; lia|reflexivity]. }
  { repeat constructor. auto. }
  { intros i j V V' IR. destruct i as [|i [|? ?]]; cbn in V; try tauto. destruct j as [|j [|j2 [|? ?]]]; cbn in V'; try tauto.
    cbn in IR. cbn. change (nelem [1]) with 1 in IR. change (nelem []) with 1 in IR. f_equal. replace j with i by lia. symmetry. apply Rsum_sumn. }
  exists y, (fun i => sumn n (fun q => (B [] i q * b0 q)%R)). split; [exact E2|]. split; [exact X2|]. intros i Hi.
  exact (solve_product n (A []) (B []) b0 (HI [] I) i Hi).
Qed.
End S.

(** a stack of n matrices and a matrix of right-hand sides: the matrix is repeated for every matrix of the stack *)
Section V.
Variable e : env.
Hypothesis Hm : mat_env_ok e.
Lemma x_solve_repeats : forall blas a b d n A b0, allowed NoBool d = true -> xstack a d [n] n n A -> xmat b d n n b0 ->
  (forall p, valid [n] p -> det n (A p) <> 0%R) ->
  exists r, x_solve e blas a b = Ok r /\ xshape r = [n; n; n].
Proof.
  intros blas a b d n A b0 C X Xb N. destruct (x_inv_stack a d [n] n A C X N) as (ia & B & E & K & XB & HI).
  unfold x_solve. rewrite E. cbn [bind]. assert (SB : xshape b = [n; n]) by (destruct Xb as [_ (_ & _ & SB & _)]; exact SB).
  rewrite SB. cbn [length Nat.eqb].
  set (B' := fun i => B (firstn 1 i) (nth 1 i 0) (nth 2 i 0)). set (c' := fun i => b0 (nth 0 i 0) (nth 1 i 0)).
  assert (X1 : xden ia d ([n] ++ [n; n]) (fun i => Fin (B' i))) by exact XB.
  assert (X2 : xden b d ([] ++ [n; n]) (fun i => Fin (c' i))) by exact Xb. clearbody B' c'.
  assert (NE : [n] <> [] \/ @nil nat <> []) by (left; discriminate).
  assert (BC : bcast [n] [] [n]) by (split; [reflexivity|]; intros [|[|k]]; unfold bcast_dim; cbn [rev app nth]; auto).
  assert (HR : length [n] <= (if by_blas blas d then 1 else 16)) by (destruct (by_blas blas d); cbn [length]; lia).
  destruct (x_matmul_n e Hm blas ia b d [n] [] [n] n n n B' c' C NE X1 X2 BC HR) as (r & Er & _ & Xr).
  exists r. split; [exact Er|]. destruct Xr as [_ (_ & _ & SR & _)]. exact SR.
Qed.
End V.
