(** What the embedding layer should compute, on the real numbers. *)
From Coq Require Import List Arith ZArith Reals.
From Verif Require Import NumModel NnSpec.
Import ListNotations.
Open Scope nat_scope.

(** index [z] names row [k] of [n] *)
Definition points (n : nat) (z : Z) (k : nat) : Prop := k < n /\ (z = Z.of_nat k \/ z = Z.of_nat k - Z.of_nat n)%Z.
(** the length of a row of [n] numbers, and the row shortened to length [m] at most *)
Definition Rnorm (n : nat) (x : nat -> R) : R := sqrt (Rsum (map (fun q => x q * x q)%R (seq 0 n))).
Definition shorten (m : R) (n : nat) (x : nat -> R) (c : nat) : R :=
  if Rltb m (Rnorm n x) then (x c * (m / Rnorm n x))%R else x c.
