From Coq Require Import List Arith ZArith Bool Lia.
From Verif Require Import Base IndexSpec LayoutModel KernelModel KernelProofs TensorModel TensorSpec EinsumModel LaunchModel CudaMoveModel CudaMoveProofs CudaEinsumModel.
Import ListNotations.
Local Open Scope nat_scope.

Section Same.
Context {A B : Type} (sched : nat -> list nat) (up : A -> B) (down : B -> A) (zero one : B) (add mul : B -> B -> B).
Hypothesis EN : forall n, over (execute Once n (sched n)).

Lemma einsum_same : forall (ins : list (list A)) out0 out md n r, nth_error md 0 = Some n -> (Z.of_nat n < 2 ^ 32)%Z ->
  length out0 = n -> length out = n ->
  einsum_kernel up down zero one add mul ins out0 md = Some r -> cuda_einsum sched up down zero one add mul ins out md = Some r.
Proof.
  intros ins out0 out md n r M N L0 L H. unfold einsum_kernel in H. unfold cuda_einsum.
  destruct (read_n 5 md) as [[h md1]|] eqn:R; [|discriminate]. cbn [obind] in *.
  assert (E0 : nth 0 h 0 = n).
  { unfold read_n in R. destruct (5 <=? length md); [|discriminate]. injection R as <- _.
    destruct md as [|x md']; [discriminate|]. cbn in M. injection M as ->. reflexivity. }
  rewrite E0 in *. destruct (negb _); [discriminate|].
  destruct (read_n (nth 4 h 0) md1) as [[os md2]|]; [|discriminate]. cbn [obind] in *.
  destruct (read_sections (nth 1 h 0) md2) as [[secs md3]|]; [|discriminate]. cbn [obind] in *.
  destruct (read_n (nth 3 h 0) md3) as [[cids md4]|]; [|discriminate]. cbn [obind] in *.
  destruct (read_n (nth 2 h 0) md4) as [[isz md5]|]; [|discriminate]. cbn [obind] in *.
  destruct (read_n (nth 4 h 0) md5) as [[oids md6]|]; [|discriminate]. cbn [obind] in *.
  destruct (negb _); [discriminate|]. rewrite L, Nat.ltb_irrefl.
  exact (once_same _ sched n _ out0 out r (EN n) N L0 L H).
Qed.

Lemma t_einsum_same : forall z eq (ts : list (tensor A)) r, 0 < nelem (tshape r) -> (Z.of_nat (nelem (tshape r)) < 2 ^ 32)%Z ->
  t_einsum up down zero one add mul z eq ts = Ok r -> cuda_t_einsum sched up down zero one add mul eq ts = Ok r.
Proof.
  intros z eq ts r P N H. unfold t_einsum in H. unfold cuda_t_einsum.
  destruct ((length ts =? 0) || (4 <? length ts)); [discriminate|].
  destruct (parse _ _) as [p| |]; try discriminate. cbn [bind] in *.
  destruct (einsum_kernel _ _ _ _ _ _ _ _ _) as [st|] eqn:K; [|discriminate]. cbn [ub bind] in H. injection H as <-.
  change (nelem (tshape _)) with (nelem (out_shape p)) in N, P.
  assert (X : Nat.max (nelem (out_shape p)) 1 = nelem (out_shape p)) by lia.
  rewrite (einsum_same _ (repeat z (nelem (out_shape p))) _ _ (nelem (out_shape p)) st); [reflexivity|..]; try apply repeat_length; auto.
  unfold einsum_metadata. cbn [nth_error app]. now rewrite X.
Qed.
Lemma t_einsum_err : forall z eq (ts : list (tensor A)) e,
  t_einsum up down zero one add mul z eq ts = Err e <-> cuda_t_einsum sched up down zero one add mul eq ts = Err e.
Proof.
  intros z eq ts e. unfold t_einsum, cuda_t_einsum. destruct ((length ts =? 0) || (4 <? length ts)); [tauto|].
  destruct (parse _ _) as [p| |]; cbn [bind]; try tauto.
  destruct (einsum_kernel _ _ _ _ _ _ _ _ _), (cuda_einsum _ _ _ _ _ _ _ _ _ _); cbn [ub bind]; split; discriminate.
Qed.
(** no output element: thread 0 writes outside *)
Lemma einsum_short : forall (ins : list (list A)) out md n, nth_error md 0 = Some n -> length out < n ->
  cuda_einsum sched up down zero one add mul ins out md = None.
Proof.
  intros ins out md n M L. unfold cuda_einsum.
  destruct (read_n 5 md) as [[h md1]|] eqn:R; [|reflexivity]. cbn [obind] in *.
  assert (E0 : nth 0 h 0 = n).
  { unfold read_n in R. destruct (5 <=? length md); [|discriminate]. injection R as <- _.
    destruct md as [|x md']; [discriminate|]. cbn in M. injection M as ->. reflexivity. }
  rewrite E0 in *. destruct (negb _); [reflexivity|].
  destruct (read_n (nth 4 h 0) md1) as [[os md2]|]; [|reflexivity]. cbn [obind] in *.
  destruct (read_sections (nth 1 h 0) md2) as [[secs md3]|]; [|reflexivity]. cbn [obind] in *.
  destruct (read_n (nth 3 h 0) md3) as [[cids md4]|]; [|reflexivity]. cbn [obind] in *.
  destruct (read_n (nth 2 h 0) md4) as [[isz md5]|]; [|reflexivity]. cbn [obind] in *.
  destruct (read_n (nth 4 h 0) md5) as [[oids md6]|]; [|reflexivity]. cbn [obind] in *.
  destruct (negb _); [reflexivity|]. now rewrite (proj2 (Nat.ltb_lt _ _) L).
Qed.
Lemma t_einsum_empty : forall eq (ts : list (tensor A)) r, nelem (tshape r) = 0 ->
  cuda_t_einsum sched up down zero one add mul eq ts <> Ok r.
Proof.
  intros eq ts r Z0. unfold cuda_t_einsum. destruct ((length ts =? 0) || (4 <? length ts)); [discriminate|].
  destruct (parse _ _) as [p| |]; try discriminate. cbn [bind].
  destruct (cuda_einsum _ _ _ _ _ _ _ _ _ _) as [st|] eqn:K; [|discriminate]. cbn [ub bind]. intro H. injection H as <-.
  change (nelem (tshape _)) with (nelem (out_shape p)) in Z0.
  rewrite (einsum_short _ _ _ 1) in K; [discriminate| |].
  - unfold einsum_metadata. cbn [nth_error app]. now rewrite Z0.
  - rewrite repeat_length, Z0. lia.
Qed.
End Same.
