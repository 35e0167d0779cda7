(** What is claimed of a launch. *)
From Coq Require Import List Arith ZArith Permutation.
From Verif Require Import Base LaunchModel.
Import ListNotations.

(** every index below [n] is worked on, exactly once, and no other *)
Definition each_once (indices : list nat) (n : nat) : Prop := Permutation indices (seq 0 n).
(** every index below [n] is worked on, and no other *)
Definition each (indices : list nat) (n : nat) : Prop := forall i, In i indices <-> i < n.

(** a choice of schedule for every number of elements under which the threads
    come to their end *)
Definition ending (sched : nat -> list nat) : Prop :=
  forall n, (Z.of_nat n <= 2 ^ 32 - 256)%Z -> over (execute Short n (sched n)).
