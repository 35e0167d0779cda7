(** C145: einsum on CUDA. *)
From Coq Require Import List Arith ZArith Bool Lia.
From Verif Require Import Base IndexSpec LayoutModel ViewSpec KernelModel KernelProofs TensorModel TensorSpec TensorProofs
  EinsumModel EinsumSpec EinsumProofs EinsumProofs2 EinsumProofs3 PropEinsum.
From Verif Require Import LaunchModel LaunchSpec LaunchProofs PropCudaMove CudaEinsumModel CudaEinsumProofs.
Import ListNotations.
Local Open Scope nat_scope.

(** Given the layouts of all operands the kernel stores, under every schedule that ends, the
    sum over the contracted labels of the product of all operands. *)
Theorem C145_kernel_partial : forall (A B : Type) sched (up : A -> B) (down : B -> A) (zero one : B) (add mul : B -> B -> B)
    (size : nat -> nat) (subs : list (list nat)) (out : list nat) (ts : list (tensor A)) (z : A),
  (forall n, over (execute Once n (sched n))) ->
  subs <> [] -> Forall label (concat subs) -> sized subs ts size -> Forall good ts ->
  Forall (fun t => length (tshape t) <= 16) ts -> length ts <= 4 ->
  NoDup out -> incl out (concat subs) -> nelem (map size out) <> 0 -> (Z.of_nat (nelem (map size out)) < 2 ^ 32)%Z ->
  exists p con, parse (text subs out) (map tshape ts) = Ok p /\ out_shape p = map size out /\
    contracted subs out con /\
    (length out + length con <= 16 ->
     exists r, cuda_einsum sched up down zero one add mul (map tstore ts) (repeat None (nelem (map size out)))
                 (einsum_metadata p (map tlay ts)) = Some r /\
       length r = nelem (map size out) /\
       forall o, valid (map size out) o ->
         exists s, einsum_at up zero one add mul subs out con size ts o = Some s /\
           nth_error r (ravel (map size out) o) = Some (down s)).
Proof.
  intros A B sched up down zero one add mul size subs out ts z EN H1 H2 H3 H4 H5 H6 H7 H8 H9 N.
  destruct (C35_kernel_partial A B up down zero one add mul size subs out ts z H1 H2 H3 H4 H5 H6 H7 H8 H9) as (p & con & P & S & C & F).
  exists p, con. split; [exact P|]. split; [exact S|]. split; [exact C|]. intro L. destruct (F L) as (r & K & R).
  exists r. split; [|exact R].
  apply (einsum_same sched up down zero one add mul EN _ (repeat z (nelem (map size out))) _ _ (nelem (map size out))); auto using repeat_length.
  unfold einsum_metadata. cbn [nth_error app]. rewrite S. f_equal. lia.
Qed.
Print Assumptions C145_kernel_partial.

(** Under every schedule that ends einsum gives what it gives on the CPU, errors included. *)
Theorem C145_same_partial : forall (A B : Type) sched (up : A -> B) (down : B -> A) (zero one : B) (add mul : B -> B -> B)
    (z : A) eq (ts : list (tensor A)) r, (forall n, over (execute Once n (sched n))) ->
  0 < nelem (tshape r) -> (Z.of_nat (nelem (tshape r)) < 2 ^ 32)%Z ->
  t_einsum up down zero one add mul z eq ts = Ok r -> cuda_t_einsum sched up down zero one add mul eq ts = Ok r.
Proof. intros A B sched up down zero one add mul z eq ts r EN. exact (t_einsum_same sched up down zero one add mul EN z eq ts r). Qed.
Print Assumptions C145_same_partial.
Theorem C145_errors : forall (A B : Type) sched (up : A -> B) (down : B -> A) (zero one : B) (add mul : B -> B -> B)
    (z : A) eq (ts : list (tensor A)) e,
  t_einsum up down zero one add mul z eq ts = Err e <-> cuda_t_einsum sched up down zero one add mul eq ts = Err e.
Proof. intros. apply t_einsum_err. Qed.
Print Assumptions C145_errors.

Definition cuda_einsum_nat := cuda_t_einsum each_thread (fun n : nat => n) (fun n => n) 0 1 Nat.add Nat.mul.
(** "ij,jk->ik" with the layouts of both operands: the matrix product *)
Example C145_ex : exists p, parse (text [[i_; j_]; [j_; k_]] [i_; k_]) [[2; 2]; [2; 2]] = Ok p /\
  cuda_einsum each_thread (fun n : nat => n) (fun n => n) 0 1 Nat.add Nat.mul [[1; 2; 3; 4]; [5; 6; 7; 8]] (repeat None 4)
    (einsum_metadata p [from_shape [2; 2]; from_shape [2; 2]]) = Some [19; 22; 43; 50].
Proof.
  eexists. split; [vm_compute; reflexivity|].
  apply (einsum_same each_thread _ _ _ _ _ _ each_thread_over _ (repeat 0 4) _ _ 4); try reflexivity; now vm_compute.
Qed.
Example C145_errors_ex : cuda_einsum_nat (text [[i_; j_]] [i_]) [mat [1; 2] [2]] = Err EInternal.
Proof. reflexivity. Qed.

(** C145 is false of the call, as on the CPU: the layouts of the operands after the first are
    passed as those of all, and the matrix product comes out as the row sums of the first. *)
Theorem C145_matmul_refuted : forall sched, (forall n, over (execute Once n (sched n))) ->
  exists a b r, cuda_t_einsum sched (fun n : nat => n) (fun n => n) 0 1 Nat.add Nat.mul (text [[i_; j_]; [j_; k_]] [i_; k_]) [a; b] = Ok r /\
    good a /\ good b /\ tstore r = [3; 3; 7; 7] /\
    map (at_nat [[i_; j_]; [j_; k_]] [i_; k_] [j_] two [a; b]) (all_idx [2; 2]) = [Some 19; Some 22; Some 43; Some 50].
Proof.
  intros sched EN. exists (mat [1; 2; 3; 4] [2; 2]), (mat [5; 6; 7; 8] [2; 2]), (mat [3; 3; 7; 7] [2; 2]).
  split; [|split; [|split; [|split]]]; try (now apply from_shape_good); try (vm_compute; reflexivity).
  apply (C145_same_partial nat nat sched _ _ _ _ _ _ 0); [exact EN|apply Nat.ltb_lt; reflexivity|now vm_compute|now vm_compute].
Qed.
Print Assumptions C145_matmul_refuted.
(** And of results without elements: metadata[0] is at least 1, and a thread writes it. *)
Theorem C145_empty_refuted : forall (A B : Type) sched (up : A -> B) (down : B -> A) (zero one : B) (add mul : B -> B -> B)
    eq (ts : list (tensor A)) r, nelem (tshape r) = 0 -> cuda_t_einsum sched up down zero one add mul eq ts <> Ok r.
Proof. intros. now apply t_einsum_empty. Qed.
Print Assumptions C145_empty_refuted.
Example C145_empty_ex : cuda_einsum_nat (text [[i_]; [i_]] [i_]) [mat [] [0]; mat [] [0]] = Panic.
Proof. reflexivity. Qed.
