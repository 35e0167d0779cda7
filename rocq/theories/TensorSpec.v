(** What a tensor means: its logical elements. *)
From Coq Require Import List Arith.
From Verif Require Import Base IndexSpec LayoutModel ViewSpec TensorModel.
Import ListNotations.

(** The element at multi-index [i], read through the tensor's layout. *)
Definition elem {A} (t : tensor A) (i : list nat) : option A :=
  nth_error (tstore t) (addr (tlay t) i).

Definition tshape {A} (t : tensor A) : list nat := lshape (tlay t).

(** A tensor whose layout stays inside its storage (every tensor built by the
    constructors and by regular views is one). *)
Definition good {A} (t : tensor A) : Prop :=
  wf_layout (tlay t) /\ in_bounds (length (tstore t)) (tlay t).

(** Operand index shown at index [i] of the broadcast to [t] of shape [s]:
    drop the added leading axes, and 0 on the axes of size 1. *)
Definition bidx (s i : list nat) : list nat :=
  map (fun p => if fst p =? 1 then 0 else snd p)
      (combine s (skipn (length i - length s) i)).
