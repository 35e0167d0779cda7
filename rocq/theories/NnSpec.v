(** What softmax and the losses should compute, on the real numbers. *)
From Coq Require Import List Arith ZArith Reals.
From Verif Require Import Base IndexSpec EncodeModel TensorModel TensorSpec DenSpec NumModel NnModel.
Import ListNotations.
Open Scope nat_scope.

Fixpoint Rsum (l : list R) : R := match l with [] => 0%R | x :: r => (x + Rsum r)%R end.
(** the entries along axis [d], of size [n], through index [i] *)
Definition line {A} (f : list nat -> A) (d n : nat) (i : list nat) : list A :=
  map (fun k => f (upd i d k)) (seq 0 n).
(** the mean of all entries *)
Definition Rmean (s : list nat) (g : list nat -> R) : R :=
  (Rsum (map g (all_idx s)) / INR (nelem s))%R.

(** A tensor of dtype [d] and shape [s] with the given entries. *)
Definition xden (x : xtensor) (d : dtype) (s : list nat) (f : list nat -> xr) : Prop :=
  xdtype x = d /\ den (xdata x) s f.

(** exp, with exp(-infinity) = 0 *)
Definition weight (v : xr) : R := match v with Fin x => exp x | _ => 0%R end.
(** a number or -infinity *)
Definition low (v : xr) : Prop := match v with Fin _ | NInf => True | _ => False end.

(** softmax along axis [d], of size [n] *)
Definition softmax_at (f : list nat -> xr) (d n : nat) (i : list nat) : R :=
  (weight (f i) / Rsum (map weight (line f d n i)))%R.
(** the logistic function, and the two sides of binary cross entropy *)
Definition sigma (x : R) : R := (/ (1 + exp (- x)))%R.
Definition cross_entropy2 (p t : R) : R := (- (t * ln p + (1 - t) * ln (1 - p)))%R.
