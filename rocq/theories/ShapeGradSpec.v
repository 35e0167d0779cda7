(** What the gradient rules of the shape operations should compute. *)
From Coq Require Import List Arith ZArith Bool.
From Verif Require Import Base IndexSpec TensorSpec.
Import ListNotations.

(** the indices of a tensor of shape [gs] showing operand element [i], when an
    operand of shape [s] is broadcast to [gs] *)
Definition copies (s gs i : list nat) : list (list nat) :=
  filter (fun j => if list_eq_dec Nat.eq_dec (bidx s j) i then true else false) (all_idx gs).

(** the entries of [g] at the indices [L] add up to [v] *)
Definition sums {A} (zero : A) (add : A -> A -> A) (read : list nat -> option A) (L : list (list nat)) (v : A) : Prop :=
  exists vs, Forall2 (fun j x => read j = Some x) L vs /\ v = fold_left add vs zero.
