(** C146: determinant, inverse and trace on CUDA. *)
From Coq Require Import List Arith ZArith Bool Lia SpecFloat Reals.
From Verif Require Import Base IndexSpec LayoutModel ViewSpec KernelModel TensorModel TensorSpec TensorProofs EncodeModel LinModel.
From Verif Require Import LaunchModel LaunchSpec LaunchProofs PropCudaMove CudaReduceModel CudaLinModel CudaLinProofs.
From Verif Require ScalarModel.
From Verif Require Import NumModel DenSpec DenProofs NnModel NnSpec LayerModel AttnSpec LinSpec LinModel2 LinProofs2 LinProofs3 LinProofs4 LinProofs5 LinProofs6 PropLin.
Import ListNotations.
Local Open Scope nat_scope.

(** The determinant, under every schedule that ends, is the one the CPU's algorithm gives on the
    elements converted to float; matrices of at most 16 x 16; from 4 x 4 on if -0 is 0. *)
Theorem C146_det_partial : forall A T sched (conv : A -> T) (down : T -> A) zero one add sub mul div neg lt tiny dt (t : tensor A) r,
  (forall n, over (execute Once n (sched n))) ->
  In dt [F32; F64; F16; BF16] -> nth (length (tshape t) - 1) (tshape t) 0 <= 16 ->
  (nth (length (tshape t) - 1) (tshape t) 0 <= 3 /\ nth (length (tshape t) - 1) (tshape t) 0 <> 0 \/ neg zero = zero) ->
  nelem (tshape r) <> 0 -> (Z.of_nat (nelem (tshape r)) < 2 ^ 32)%Z ->
  t_det zero one add sub mul div neg lt tiny (mkT (map conv (tstore t)) (tlay t)) = Ok r ->
  cuda_t_det sched conv down zero one add sub mul div neg lt tiny dt t = Ok (mkT (map down (tstore r)) (tlay r)).
Proof.
  intros A T sched conv down zero one add sub mul div neg lt tiny dt t r EN D. apply t_det_same; [exact EN|].
  destruct dt; try reflexivity; exfalso; cbn in D; repeat destruct D as [D|D]; try discriminate; exact D.
Qed.
Print Assumptions C146_det_partial.
(** The inverse likewise. *)
Theorem C146_inv_partial : forall A T sched (conv : A -> T) (down : T -> A) zero one add sub mul div neg lt dt (t : tensor A) r,
  (forall n, over (execute Once n (sched n))) ->
  In dt [F32; F64; F16; BF16] -> nth (length (tshape t) - 1) (tshape t) 0 <= 16 ->
  nelem (tshape r) <> 0 -> (Z.of_nat (nelem (tshape r)) < 2 ^ 32)%Z ->
  t_inv zero one add sub mul div neg lt (mkT (map conv (tstore t)) (tlay t)) = Ok r ->
  cuda_t_inv sched conv down zero one add sub mul div neg lt dt t = Ok (mkT (map down (tstore r)) (tlay r)).
Proof.
  intros A T sched conv down zero one add sub mul div neg lt dt t r EN D. apply t_inv_same; [exact (fun _ => false)|exact EN|].
  destruct dt; try reflexivity; exfalso; cbn in D; repeat destruct D as [D|D]; try discriminate; exact D.
Qed.
Print Assumptions C146_inv_partial.

Definition f32 := ScalarModel.of_z ScalarModel.F32.
Definition f64 := ScalarModel.of_z ScalarModel.F64.
(** fabsf(pivot) < 1e-15f *)
Definition f32_tiny (x : spec_float) : bool := SFltb x (S754_finite false 9444733 (-73)).
Definition det_f32 := t_det (S754_zero false) (f32 1) (SFadd 24 128) (SFsub 24 128) (SFmul 24 128) (fun a b => Some (SFdiv 24 128 a b)) SFopp SFltb f32_tiny.
Definition cuda_det_f32 sched := cuda_t_det sched (fun x => x) (fun x => x) (S754_zero false) (f32 1) (SFadd 24 128) (SFsub 24 128) (SFmul 24 128)
  (fun a b => Some (SFdiv 24 128 a b)) SFopp SFltb f32_tiny F32.
Definition cuda_det_f64 sched := cuda_t_det sched (resized 24 128) (resized 53 1024) (S754_zero false) (f32 1) (SFadd 24 128) (SFsub 24 128) (SFmul 24 128)
  (fun a b => Some (SFdiv 24 128 a b)) SFopp SFltb f32_tiny F64.

(** two 2x2 matrices, transposed: -2 and -2 *)
Example C146_det_ex : cuda_det_f32 each_thread (mkT (map f32 [1; 2; 3; 4; 5; 6; 7; 8]%Z) (mkLayout [2; 2; 2] [4; 1; 2] 0))
  = Ok (mkT (map f32 [-2; -2]%Z) (from_shape [2])).
Proof.
  unfold cuda_det_f32. rewrite (C146_det_partial _ _ _ _ _ _ _ _ _ _ _ _ _ _ _ _ (mkT (map f32 [-2; -2]%Z) (from_shape [2])) each_thread_over).
  - reflexivity.
  - now left.
  - cbn. lia.
  - left. cbn. lia.
  - discriminate.
  - now vm_compute.
  - now vm_compute.
Qed.
(** the inverse of [[1, 2], [3, 5]] *)
Example C146_inv_ex : cuda_t_inv each_thread (fun x => x) (fun x => x) (S754_zero false) (f32 1) (SFadd 24 128) (SFsub 24 128) (SFmul 24 128)
    (fun a b => Some (SFdiv 24 128 a b)) SFopp SFltb F32 (mkT (map f32 [1; 2; 3; 5]%Z) (from_shape [2; 2]))
  = Ok (mkT (map f32 [-5; 2; 3; -1]%Z) (from_shape [2; 2])).
Proof.
  rewrite (C146_inv_partial _ _ _ _ _ _ _ _ _ _ _ _ _ _ _ (mkT (map f32 [-5; 2; 3; -1]%Z) (from_shape [2; 2])) each_thread_over).
  - reflexivity.
  - now left.
  - cbn. lia.
  - discriminate.
  - now vm_compute.
  - now vm_compute.
Qed.

(** Over exact numbers: the determinant of matrices up to 3 x 3, and up to 16 x 16 if in each
    column the diagonal entry exceeds the others together by 1e-15. *)
Definition cuda_x_det sched (a : xtensor) : outcome (tensor xr) :=
  cuda_t_det sched (fun x => x) (fun x => x) (Fin 0) (Fin 1) xadd xsub xmul xquot xneg xltb (below F32) (xdtype a) (xdata a).
Theorem C146_exact_partial : forall sched a s n A, (forall n, over (execute Once n (sched n))) -> xstack a F32 s n n A ->
  n <= 16 -> nelem s <> 0 -> (Z.of_nat (nelem s) < 2 ^ 32)%Z ->
  (n <= 3 \/ forall p, valid s p -> dominant (1 / 10 ^ 15) 0 n (A p)) ->
  exists r, cuda_x_det sched a = Ok r /\ numbers (mkX F32 r) F32 s (fun p => Fin (det n (A p))).
Proof.
  intros sched a s n A EN X N Z0 CAP H.
  assert (E : exists r, x_det a = Ok r /\ numbers r F32 s (fun p => Fin (det n (A p)))).
  { destruct H as [H|H]; [now apply C100_small|now apply C100_dominant_partial]. }
  destruct E as (r & E & NB). unfold x_det in E.
  destruct (xstack_parts _ _ _ _ _ _ X) as (DT & _ & SH & _).
  rewrite DT in E. cbn [allowed negb] in E.
  match type of E with context [negb ?b] => destruct b; [|discriminate] end. cbn [negb] in E.
  destruct (t_det _ _ _ _ _ _ _ _ _ _) as [t| |] eqn:K; try discriminate. cbn [bind] in E. injection E as <-.
  exists t. split; [|exact NB]. unfold cuda_x_det. rewrite DT.
  assert (ST : tshape t = match s with [] => [1] | _ => s end) by apply NB.
  rewrite (C146_det_partial _ _ sched _ _ _ _ _ _ _ _ _ _ _ _ _ t EN).
  - f_equal. destruct t as [st l]. cbn [tstore tlay]. now rewrite map_id.
  - now left.
  - rewrite SH, app_length. cbn [length]. replace (length s + 2 - 1) with (length s + 1) by lia. rewrite app_nth2_plus. exact N.
  - right. cbn [xneg]. now rewrite Ropp_0.
  - rewrite ST. destruct s; [discriminate|exact Z0].
  - rewrite ST. destruct s; [reflexivity|exact CAP].
  - rewrite map_id. destruct (xdata a) as [st l]. exact K.
Qed.
Print Assumptions C146_exact_partial.

(** C146 is false of the trace: the kernel has four parameters and is given three arguments. *)
Theorem C146_trace_refuted : forall A T sched (conv : A -> T) (down : T -> A) zero add dt (t r : tensor A),
  cuda_t_trace sched conv down zero add dt t <> Ok r.
Proof.
  intros A T sched conv down zero add dt t r. unfold cuda_t_trace. destruct (negb (square _)); [discriminate|].
  destruct (negb (cuda_linalgs dt)); discriminate.
Qed.
Print Assumptions C146_trace_refuted.
Example C146_trace_ex : cuda_t_trace each_thread (fun x => x) (fun x => x) 0%Z Z.add F32 (mkT [1; 2; 3; 4]%Z (from_shape [2; 2])) = Panic /\
  t_trace 0%Z Z.add (mkT [1; 2; 3; 4]%Z (from_shape [2; 2])) = Ok (mkT [5]%Z (from_shape [1])).
Proof. split; reflexivity. Qed.
(** Of f64: the determinant of the matrix [[2^24 + 1]] is 2^24. *)
Theorem C146_f64_refuted : forall sched, (forall n, over (execute Once n (sched n))) ->
  cuda_det_f64 sched (mkT [f64 16777217] (from_shape [1; 1])) = Ok (mkT [f64 16777216] (from_shape [1])).
Proof.
  intros sched EN. unfold cuda_det_f64.
  rewrite (C146_det_partial _ _ _ _ _ _ _ _ _ _ _ _ _ _ _ _ (mkT [f32 16777216] (from_shape [1])) EN).
  - now vm_compute.
  - right. now left.
  - cbn. lia.
  - left. cbn. lia.
  - discriminate.
  - now vm_compute.
  - now vm_compute.
Qed.
Print Assumptions C146_f64_refuted.
(** Of the other element types, for which there are kernels but for bool. *)
Theorem C146_types_refuted : forall A T sched (conv : A -> T) (down : T -> A) zero one add sub mul div neg lt tiny dt (t : tensor A),
  ~ In dt [F32; F64; F16; BF16] ->
  cuda_t_det sched conv down zero one add sub mul div neg lt tiny dt t = Err EInternal /\
  cuda_t_inv sched conv down zero one add sub mul div neg lt dt t = Err EInternal /\
  cuda_t_trace sched conv down zero add dt t = Err EInternal.
Proof.
  intros A T sched conv down zero one add sub mul div neg lt tiny dt t D.
  assert (L : cuda_linalgs dt = false) by (destruct dt; try reflexivity; exfalso; apply D; cbn; tauto).
  unfold cuda_t_det, cuda_t_inv, cuda_t_trace. rewrite L. cbn [negb]. now destruct (negb (square _)).
Qed.
Print Assumptions C146_types_refuted.
(** Of matrices larger than 16 x 16, which overflow the array of the thread. *)
Theorem C146_size_refuted : forall A T sched (conv : A -> T) (down : T -> A) zero one add sub mul div neg lt tiny dt (t r : tensor A),
  (forall n, over (execute Once n (sched n))) -> 16 < nth (length (tshape t) - 1) (tshape t) 0 ->
  (Z.of_nat (batch_count (firstn (length (tshape t) - 2) (tshape t))) < 2 ^ 32)%Z ->
  cuda_t_det sched conv down zero one add sub mul div neg lt tiny dt t <> Ok r /\
  cuda_t_inv sched conv down zero one add sub mul div neg lt dt t <> Ok r.
Proof.
  intros A T sched conv down zero one add sub mul div neg lt tiny dt t r EN N CAP.
  split; intro H; [unfold cuda_t_det in H|unfold cuda_t_inv in H]; change (lshape (tlay t)) with (tshape t) in H;
    (destruct (negb (square _)); [discriminate|]); (destruct (negb (cuda_linalgs dt)); [discriminate|]); cbv zeta in H.
  - rewrite linalg_none in H; [discriminate|exact EN|exact CAP|]. intro a. change (lshape (tlay t)) with (tshape t).
    destruct (nth (length (tshape t) - 1) (tshape t) 0) as [|[|[|[|n]]]]; try lia. unfold cuda_det_matrix.
    now rewrite (proj2 (Nat.ltb_lt _ _) N).
  - rewrite linalg_none in H; [discriminate|exact EN|exact CAP|]. intro a. change (lshape (tlay t)) with (tshape t).
    unfold cuda_inv_matrix. now rewrite (proj2 (Nat.ltb_lt _ _) N).
Qed.
Print Assumptions C146_size_refuted.
(** Of the sign of the zero a singular matrix gives: -0 after an odd number of exchanges, 0 on the CPU. *)
Definition singular : list Z := [0; 1; 0; 0; 1; 0; 0; 0; 0; 0; 0; 0; 0; 0; 0; 0]%Z.
Theorem C146_zero_refuted : forall sched, (forall n, over (execute Once n (sched n))) ->
  cuda_det_f32 sched (mkT (map f32 singular) (from_shape [4; 4])) = Ok (mkT [S754_zero true] (from_shape [1])) /\
  det_f32 (mkT (map f32 singular) (from_shape [4; 4])) = Ok (mkT [S754_zero false] (from_shape [1])).
Proof.
  intros sched EN. split; [|now vm_compute].
  unfold cuda_det_f32, cuda_t_det. change (lshape (tlay (mkT (map f32 singular) (from_shape [4; 4])))) with [4; 4]. cbn [square length Nat.leb Nat.sub nth Nat.eqb andb negb cuda_linalgs].
  change det_params with given_args.
  match goal with |- context [cuda_linalg _ _ _ _ _ ?om _ _ _ _] =>
    rewrite (linalg_same sched (fun x => x) (fun x => x) (S754_zero false) EN om om _ _ _ _ [S754_zero true]);
    [reflexivity| |reflexivity|now vm_compute|now vm_compute] end.
  intros a xs X. split; [|exact X]. destruct (cuda_det_matrix _ _ _ _ _ _ _ _ _ _ _); [|discriminate]. cbn [obind] in X. now injection X as <-.
Qed.
Print Assumptions C146_zero_refuted.
