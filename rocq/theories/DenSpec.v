(** A tensor seen as a function of its indices. *)
From Coq Require Import List Arith.
From Verif Require Import Base IndexSpec LayoutModel ViewSpec TensorModel TensorSpec BcastProofs.
Import ListNotations.

(** Not a contiguous view starting inside its storage: the results of
    element-wise operations on those are read at the wrong place (C18). *)
Definition usable {A} (t : tensor A) : Prop :=
  loffset (tlay t) = 0 \/ is_contiguous (tlay t) = false.

(** [t] has shape [s], without an axis of size 0, and element [f i] at index [i]. *)
Definition den {A} (t : tensor A) (s : list nat) (f : list nat -> A) : Prop :=
  good t /\ usable t /\ tshape t = s /\ all_pos s /\
  forall i, valid s i -> elem t i = Some (f i).
