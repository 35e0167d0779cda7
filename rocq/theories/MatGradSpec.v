(** A product of two stacks of matrices, paired with an incoming gradient. *)
From Coq Require Import List Arith Reals.
From Verif Require Import Base IndexSpec TensorSpec NnSpec LinSpec.
Import ListNotations.
Open Scope nat_scope.

(** [A] with [t] added to entry [i0] *)
Definition nudge (A : list nat -> R) (i0 : list nat) (t : R) : list nat -> R :=
  fun i => if list_eq_dec Nat.eq_dec i i0 then (A i + t)%R else A i.
(** The sum over all entries of [G * (A @ B)]: [A] is a stack of m x k matrices indexed by [lb], [B] a stack
    of k x n matrices indexed by [rb], and the product a stack indexed by their common shape [s]. *)
Definition paired (s lb rb : list nat) (m k n : nat) (G A B : list nat -> R) : R :=
  Rsum (map (fun p => sumn m (fun i => sumn n (fun j =>
    G (p ++ [i; j]) * sumn k (fun q => A (bidx lb p ++ [i; q]) * B (bidx rb p ++ [q; j]))))%R) (all_idx s)).
