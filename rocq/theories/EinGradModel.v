(** Gradient rule of einsum: tensor/gradient/vjp_einsum.rs.

    Simplifications: the element type is a parameter, as in EinsumModel; the subscripts recorded by the
    forward call are lists of characters. *)
From Coq Require Import List Arith Bool.
From Verif Require Import Base LayoutModel KernelModel TensorModel EinsumModel EinsumSpec.
Import ListNotations.

(** L43-56: everything but position [i] *)
Definition without {X} (i : nat) (l : list X) : list X := firstn i l ++ skipn (S i) l.
(** L39-62: the subscripts of the result, then those of the other operands, to those of operand [i] *)
Definition grad_equation (subs : list (list nat)) (out : list nat) (i : nat) : list nat :=
  text (out :: without i subs) (nth i subs []).

Section Rule.
Context {A B : Type}.
Variables (up : A -> B) (down : B -> A) (zero one : B) (add mul : B -> B -> B).
(** L43-65: the gradient of operand [i] *)
Definition vjp_einsum_one (z : A) (subs : list (list nat)) (out : list nat) (ts : list (tensor A)) (g : tensor A) (i : nat) : outcome (tensor A) :=
  t_einsum up down zero one add mul z (grad_equation subs out i) (g :: without i ts).
(** L33-69: for every operand *)
Fixpoint vjp_einsum_from (z : A) (subs : list (list nat)) (out : list nat) (ts : list (tensor A)) (g : tensor A) (i k : nat) : outcome (list (tensor A)) :=
  match k with
  | 0 => Ok []
  | S k' => do gx <- vjp_einsum_one z subs out ts g i ; do r <- vjp_einsum_from z subs out ts g (S i) k' ; Ok (gx :: r)
  end.
Definition vjp_einsum (z : A) (subs : list (list nat)) (out : list nat) (ts : list (tensor A)) (g : tensor A) : outcome (list (tensor A)) :=
  vjp_einsum_from z subs out ts g 0 (length ts).
End Rule.
