(** A reduction paired with an incoming gradient. *)
From Coq Require Import List Arith Reals.
From Verif Require Import Base IndexSpec ReduceSpec NnSpec.
Import ListNotations.
Open Scope nat_scope.

(** The sum over all entries of [w] times the reduction by [h] of [r] along the axes [ds]. *)
Definition rloss (h : list R -> R) (keep : bool) (ds s : list nat) (w r : list nat -> R) : R :=
  Rsum (map (fun j => w j * h (map r (fibre keep ds s j)))%R (all_idx (rshape keep ds s))).
