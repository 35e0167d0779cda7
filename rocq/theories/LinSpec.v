(** Matrices of exact numbers: determinant, product, inverse. *)
From Coq Require Import Arith Bool Reals.
Open Scope nat_scope.

(** an n x n matrix; entries outside are ignored *)
Definition matrix := nat -> nat -> R.
Fixpoint sumn (n : nat) (f : nat -> R) : R :=
  match n with 0 => 0%R | S m => (sumn m f + f m)%R end.
Definition sign (i : nat) : R := if Nat.even i then 1%R else (- (1))%R.
(** the matrix without row [i] and column 0 *)
Definition minor (i : nat) (A : matrix) : matrix := fun r c => A (if r <? i then r else S r) (S c).
(** Laplace expansion along the first column *)
Fixpoint det (n : nat) (A : matrix) : R :=
  match n with
  | 0 => 1%R
  | S m => sumn n (fun i => sign i * A i 0%nat * det m (minor i A))%R
  end.
Definition mmul (n : nat) (A B : matrix) : matrix := fun i j => sumn n (fun k => (A i k * B k j)%R).
Definition mid : matrix := fun i j => if i =? j then 1%R else 0%R.
Definition meq (n : nat) (A B : matrix) : Prop := forall i j, i < n -> j < n -> A i j = B i j.
(** [B] is the inverse of [A] *)
Definition inverse (n : nat) (A B : matrix) : Prop := meq n (mmul n A B) mid /\ meq n (mmul n B A) mid.
(** A x = 0 has only the zero solution *)
Definition mapply (n : nat) (A : matrix) (x : nat -> R) (i : nat) : R := sumn n (fun j => (A i j * x j)%R).
Definition nonsingular (n : nat) (A : matrix) : Prop :=
  forall x, (forall i, i < n -> mapply n A x i = 0%R) -> forall i, i < n -> x i = 0%R.
(** [A] with [t] added to entry (i, j) *)
Definition bump (A : matrix) (i j : nat) (t : R) : matrix := fun r c => if (r =? i) && (c =? j) then (A r c + t)%R else A r c.
