(** What an equation and its operands mean, stated over labels, without identifiers,
    metadata or kernels. *)
From Coq Require Import List Arith Sorted.
From Verif Require Import Base IndexSpec LayoutModel TensorModel TensorSpec.
Import ListNotations.

(** The text "s1,s2,...,sn->out". *)
Fixpoint join (subs : list (list nat)) : list nat :=
  match subs with
  | [] => []
  | s :: r => match r with [] => s | _ => s ++ 44 :: join r end
  end.
Definition text (subs : list (list nat)) (out : list nat) : list nat := join subs ++ 45 :: 62 :: out.
(** Any character but space, comma and minus. *)
Definition label (c : nat) : Prop := c <> 32 /\ c <> 44 /\ c <> 45.

(** The labels to be summed over, in increasing order. *)
Definition contracted (subs : list (list nat)) (out con : list nat) : Prop :=
  StronglySorted lt con /\ forall c, In c con <-> (In c (concat subs) /\ ~ In c out).

(** Labels [ls] bound to the values [vs]. *)
Fixpoint valuation (ls vs : list nat) (c : nat) : nat :=
  match ls, vs with
  | l :: ls', v :: vs' => if l =? c then v else valuation ls' vs' c
  | _, _ => 0
  end.

Section Contraction.
  Context {A B : Type}.
  Variables (up : A -> B) (zero one : B) (add mul : B -> B -> B).

  (** The product of the operands' elements at the indices the labels name. *)
  Fixpoint term (subs : list (list nat)) (ts : list (tensor A)) (rho : nat -> nat) (acc : B) : option B :=
    match subs, ts with
    | s :: subs', t :: ts' =>
        match elem t (map rho s) with
        | Some x => term subs' ts' rho (mul acc (up x))
        | None => None
        end
    | _, _ => Some acc
    end.
  Fixpoint total (terms : list (option B)) (acc : B) : option B :=
    match terms with
    | [] => Some acc
    | Some q :: r => total r (add acc q)
    | None :: _ => None
    end.
  (** The element at the output index [o]: the sum over all values of the contracted labels. *)
  Definition einsum_at (subs : list (list nat)) (out con : list nat) (size : nat -> nat)
      (ts : list (tensor A)) (o : list nat) : option B :=
    total (map (fun v => term subs ts (valuation (out ++ con) (o ++ v)) one) (all_idx (map size con))) zero.
End Contraction.

(** Every operand has the rank of its labels, and the labels have the sizes [size]. *)
Definition sized {A} (subs : list (list nat)) (ts : list (tensor A)) (size : nat -> nat) : Prop :=
  Forall2 (fun s t => map size s = tshape t) subs ts.
