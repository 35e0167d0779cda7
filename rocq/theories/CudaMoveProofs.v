(** Proofs: the operations that move elements give on CUDA what they give on the CPU. *)
From Coq Require Import List Arith ZArith Bool Lia Permutation.
From Verif Require Import Base IndexSpec LayoutModel ViewSpec KernelModel TensorModel TensorSpec ReduceModel MoveModel EncodeModel.
From Verif Require Import TileSpec LaunchModel LaunchSpec LaunchProofs LaunchProofs2 CudaIndexProofs CudaMoveModel.
Import ListNotations.

(** as CudaIndexProofs.elementwise_same *)
Lemma once_same : forall B sched n (g : nat -> option B) out0 out r,
  over (execute Once n (sched n)) -> (Z.of_nat n < 2 ^ 32)%Z -> length out0 = n -> length out = n ->
  seq_for n g out0 = Some r -> once_each sched n g out = Some r.
Proof.
  intros B sched n g out0 out r EN N L0 L H. destruct (seq_for_nth _ _ _ _ _ L0 H) as [LR NR]. unfold once_each.
  pose proof (once_once n (sched n) N EN) as P. set (idx := log (execute Once n (sched n))) in *. clearbody idx.
  assert (M : stores g idx out = map Some r).
  { apply list_ext. intro i. rewrite nth_error_map. destruct (Nat.lt_ge_cases i n) as [I|I].
    - rewrite stores_in; [|apply (Permutation_in _ (Permutation_sym P)); apply in_seq; lia|lia].
      rewrite (NR i I). destruct (nth_error r i) eqn:V; [reflexivity|]. apply nth_error_None in V. lia.
    - rewrite (proj2 (nth_error_None r i)) by lia. apply nth_error_None. rewrite stores_length. lia. }
  rewrite M. clear. induction r as [|x r IH]; [reflexivity|]. cbn. now rewrite IH.
Qed.

Section Same.
Variables (A : Type) (z : A) (sched : nat -> list nat).
Hypothesis EN : ending sched.

Ltac steps H := repeat (match type of H with
  | obind ?x _ = Some _ => let E := fresh "M" in destruct x eqn:E; [|discriminate]; cbn [obind] in *
  end).

Lemma concat_same : forall (input : list A) out0 out md r n0, nth_error md 0 = Some n0 -> (Z.of_nat n0 <= 2 ^ 32 - 256)%Z ->
  length out0 = n0 -> length out = n0 -> concat_kernel input out0 md = Some r -> cuda_concat sched input out md = Some r.
Proof.
  intros input out0 out md r n0 M0 N L0 L H. unfold concat_kernel in H. unfold cuda_concat. rewrite M0 in *. cbn [obind] in *.
  steps H. apply (elementwise_same _ sched n0 _ _ out0 out r EN N L0 L H). intros i v I G. cbv beta in *.
  destruct (16 <? n); [discriminate|]. steps G.
  exact G.
Qed.

Lemma call_concat_same : forall dt sts ls dim r, cuda_joins dt = true ->
  let s0 := match ls with l :: _ => lshape l | [] => [] end in
  (Z.of_nat (nelem (upd s0 dim (list_sum (map (fun l => nth dim (lshape l) 0%nat) ls)))) <= 2 ^ 32 - 256)%Z ->
  call_ops_concat z sts ls dim = Ok r -> cuda_call_concat sched dt sts ls dim = Ok r.
Proof.
  intros dt sts ls dim r D s0 N H. unfold call_ops_concat in H. unfold cuda_call_concat. fold s0 in H |- *.
  destruct (length s0 <=? dim); [discriminate|]. destruct (negb (forallb _ ls)); [discriminate|]. rewrite D. cbn [negb].
  change shape_size with nelem in *. set (o := upd s0 dim _) in *.
  destruct (concat_kernel _ _ _) as [x|] eqn:K; [|discriminate]. cbn [ub] in H. injection H as <-.
  rewrite (concat_same _ _ (repeat None (nelem o)) (concat_metadata ls dim o) _ (nelem o) eq_refl N (repeat_length _ _) (repeat_length _ _) K). reflexivity.
Qed.

Lemma concat_dims_is : forall ls s d r, concat_dims s (Some d) ls = Ok r ->
  r = upd s d (nth d s 0 + list_sum (map (fun l => nth d (lshape l) 0) ls)).
Proof.
  induction ls as [|l ls IH]; intros s d r H; cbn [concat_dims] in H.
  - injection H as <-. unfold list_sum. cbn. rewrite Nat.add_0_r. apply list_ext. intro i.
    destruct (Nat.eq_dec i d) as [->|NE].
    + destruct (Nat.lt_ge_cases d (length s)) as [L|L].
      * rewrite nth_error_upd_eq by exact L. apply nth_error_nth'. exact L.
      * rewrite !(proj2 (nth_error_None _ _)); auto. now rewrite upd_length.
    + now rewrite nth_error_upd_neq by auto.
  - destruct (negb _); [discriminate|]. destruct (nth_error s d) as [x|] eqn:X; [|discriminate].
    apply IH in H. rewrite H. assert (L : d < length s) by (apply nth_error_Some; congruence).
    assert (Y : nth d s 0 = x) by (now apply nth_error_nth). rewrite Y. cbn [map]. change (list_sum (?a :: ?b)) with (a + list_sum b).
    apply list_ext. intro i. destruct (Nat.eq_dec i d) as [->|NE].
    + rewrite !nth_error_upd_eq by (rewrite ?upd_length; exact L). f_equal.
      rewrite (nth_error_nth _ d 0 (nth_error_upd_eq _ s d _ L)). lia.
    + now rewrite !nth_error_upd_neq by auto.
Qed.

Theorem t_concat_same : forall dt ts dim r, cuda_joins dt = true -> (Z.of_nat (nelem (tshape r)) <= 2 ^ 32 - 256)%Z ->
  t_concat z ts dim = Ok r -> cuda_t_concat sched dt ts dim = Ok r.
Proof.
  intros dt ts dim r D N H. unfold t_concat in H. unfold cuda_t_concat. destruct ts as [|t0 ts]; [discriminate|].
  destruct (concat_dims _ _ _) as [out| |] eqn:C; try discriminate. cbn [bind] in *.
  destruct (call_ops_concat z _ _ _) as [st| |] eqn:K; try discriminate. cbn [bind] in H. injection H as <-.
  rewrite (call_concat_same dt _ _ _ st D); [reflexivity| |exact K]. cbn [map]. unfold tshape in N. cbn [tlay from_shape lshape] in N.
  destruct (axis_usize _ dim) as [d|].
  - apply concat_dims_is in C. rewrite C in N. exact N.
  - exfalso. unfold call_ops_concat in K. cbn [map] in K. rewrite Nat.leb_refl in K. discriminate.
Qed.

Lemma split_same : forall (input : list A) out0 out md r n0, nth_error md 0 = Some n0 -> (Z.of_nat n0 <= 2 ^ 32 - 256)%Z ->
  length out0 = n0 -> length out = n0 -> split_kernel input out0 md = Some r -> cuda_split sched input out md = Some r.
Proof.
  intros input out0 out md r n0 M0 N L0 L H. unfold split_kernel in H. unfold cuda_split. rewrite M0 in *. cbn [obind] in *.
  steps H. destruct (16 <? n) eqn:B; [discriminate|].
  apply (elementwise_same _ sched n0 _ _ out0 out r EN N L0 L H). intros i v I G. exact G.
Qed.

Lemma call_split_same : forall dt st l dim start size r, cuda_joins dt = true ->
  (Z.of_nat (nelem (upd (lshape l) dim size)) <= 2 ^ 32 - 256)%Z ->
  call_ops_split z st l dim start size = Ok r -> cuda_call_split sched dt st l dim start size = Ok r.
Proof.
  intros dt st l dim start size r D N H. unfold call_ops_split in H. unfold cuda_call_split.
  destruct (nth_error (lshape l) dim) as [d|]; [|discriminate]. destruct (d <=? start); [discriminate|].
  destruct (d <? start + size); [discriminate|]. rewrite D. cbn [negb]. change shape_size with nelem in *.
  set (n := nelem _) in *. cbv zeta in *.
  destruct (split_kernel _ _ _) as [x|] eqn:K; [|discriminate]. cbn [ub] in H. injection H as <-.
  rewrite (split_same _ _ (repeat None n) (split_metadata l dim size start n) _ n eq_refl N (repeat_length _ _) (repeat_length _ _) K). reflexivity.
Qed.

Lemma split_loop_same : forall dt (t : tensor A) dim sizes start r, cuda_joins dt = true ->
  Forall (fun p => (Z.of_nat (nelem (tshape p)) <= 2 ^ 32 - 256)%Z) r ->
  split_loop z t dim start sizes = Ok r -> cuda_split_loop sched dt t dim start sizes = Ok r.
Proof.
  intros dt t dim. induction sizes as [|size sizes IH]; intros start r D N H; cbn [split_loop cuda_split_loop] in *; [exact H|].
  destruct (call_ops_split z _ _ _ _ _) as [st| |] eqn:K; try discriminate. cbn [bind] in H.
  destruct dim as [d|]; [|discriminate].
  destruct (split_loop z t (Some d) (start + size) sizes) as [rest| |] eqn:R; try discriminate. cbn [bind] in H. injection H as <-.
  inversion N as [|p ps N1 N2]. subst p ps. rewrite (call_split_same dt _ _ _ _ _ st D N1 K). cbn [bind].
  rewrite (IH _ rest D N2 R). reflexivity.
Qed.
Theorem t_split_same : forall dt (t : tensor A) sizes dim r, cuda_joins dt = true ->
  Forall (fun p => (Z.of_nat (nelem (tshape p)) <= 2 ^ 32 - 256)%Z) r ->
  t_split z t sizes dim = Ok r -> cuda_t_split sched dt t sizes dim = Ok r.
Proof. intros dt t sizes dim r. apply split_loop_same. Qed.
Theorem t_chunk_same : forall dt (t : tensor A) chunks dim r, cuda_joins dt = true ->
  Forall (fun p => (Z.of_nat (nelem (tshape p)) <= 2 ^ 32 - 256)%Z) r ->
  t_chunk z t chunks dim = Ok r -> cuda_t_chunk sched dt t chunks dim = Ok r.
Proof.
  intros dt t chunks dim r D N H. unfold t_chunk in H. unfold cuda_t_chunk.
  destruct (axis_usize _ dim) as [d|]; [|discriminate]. destruct (nth_error _ d) as [n|]; [|discriminate].
  destruct (chunks =? 0); [discriminate|]. destruct (chunk_sizes _ _ _) as [sizes| |]; try discriminate. cbn [bind] in *.
  now apply t_split_same.
Qed.

Lemma pad_same : forall m pv (input : list A) out0 out md r n0, nth_error md 0 = Some n0 -> (Z.of_nat n0 <= 2 ^ 32 - 256)%Z ->
  length out0 = n0 -> length out = n0 -> pad_kernel m pv input out0 md = Some r -> cuda_pad sched m pv input out md = Some r.
Proof.
  intros m pv input out0 out md r n0 M0 N L0 L H. unfold pad_kernel in H. unfold cuda_pad. rewrite M0 in *. cbn [obind] in *.
  steps H. apply (elementwise_same _ sched n0 _ _ out0 out r EN N L0 L H). intros i v I G. exact G.
Qed.
Theorem t_pad_same : forall m pv (t : tensor A) padding r, (Z.of_nat (nelem (tshape r)) <= 2 ^ 32 - 256)%Z ->
  t_pad z m pv t padding = Ok r -> cuda_t_pad sched m pv t padding = Ok r.
Proof.
  intros m pv t padding r N H. unfold t_pad in H. unfold cuda_t_pad. destruct (negb _); [discriminate|].
  change shape_size with nelem in *. set (o := map _ _) in *. cbv zeta in *.
  destruct (pad_kernel _ _ _ _ _) as [x|] eqn:K; [|discriminate]. cbn [ub bind] in H. injection H as <-.
  rewrite (pad_same _ _ _ _ (repeat None (nelem o)) (padding_metadata (tlay t) (map fst padding) o) _ (nelem o) eq_refl N (repeat_length _ _) (repeat_length _ _) K). reflexivity.
Qed.
End Same.

Theorem t_flip_same : forall A (z : A) sched (t : tensor A) dims r, (forall n, over (execute Once n (sched n))) ->
  (Z.of_nat (nelem (tshape r)) < 2 ^ 32)%Z -> t_flip z t dims = Ok r -> cuda_t_flip sched t dims = Ok r.
Proof.
  intros A z sched t dims r EN N H. unfold t_flip in H. unfold cuda_t_flip.
  set (ds := map _ dims) in *. cbv zeta in *. change (layout_size (tlay t)) with (nelem (tshape t)) in *.
  destruct (flip_kernel _ _ _) as [x|] eqn:K; [|discriminate]. cbn [ub bind] in H. injection H as <-.
  assert (KS : cuda_flip sched (tstore t) (repeat None (nelem (tshape t))) (flip_metadata (tlay t) ds) = Some x).
  { unfold flip_kernel in K. unfold cuda_flip.
    change (nth_error (flip_metadata (tlay t) ds) 0) with (Some (nelem (tshape t))) in *. cbn [obind] in *.
    repeat (match type of K with
      | obind ?x _ = Some _ => let E := fresh "M" in destruct x eqn:E; [|discriminate]; cbn [obind] in *
      end).
    apply (once_same _ sched _ _ (repeat z (nelem (tshape t)))); auto using repeat_length. }
  rewrite KS. reflexivity.
Qed.
