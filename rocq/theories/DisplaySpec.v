(** What printing a tensor has to show. *)
From Coq Require Import List Arith Bool.
From Verif Require Import Base IndexSpec LayoutModel TensorModel TensorSpec DisplayModel.
Import ListNotations.

(** Of an axis everything is shown up to eight positions, the first four and last four of a longer one. *)
Definition visible (n x : nat) : bool := (n <=? 8) || (x <? 4) || (n - 4 <=? x).
Fixpoint visible_idx (s i : list nat) : bool :=
  match s, i with
  | n :: s', x :: i' => visible n x && visible_idx s' i'
  | _, _ => true
  end.
Fixpoint items {A} (l : list (piece A)) : list A :=
  match l with [] => [] | Item a _ :: r => a :: items r | _ :: r => items r end.
(** Every element is inside as many brackets as the tensor has axes, and every bracket is closed. *)
Fixpoint nested {A} (rank level : nat) (l : list (piece A)) : option nat :=
  match l with
  | [] => Some level
  | Open :: r => nested rank (S level) r
  | Close :: r => match level with 0 => None | S k => nested rank k r end
  | Fixed _ :: r => nested rank level r
  | Item _ _ :: r => if level =? rank then nested rank level r else None
  end.
(** The visible elements in the order of their indices. *)
Definition shows {A} (t : tensor A) (l : list (piece A)) : Prop :=
  map Some (items l) = map (elem t) (filter (visible_idx (tshape t)) (all_idx (tshape t))) /\
  nested (length (tshape t)) 0 l = Some 0.
(** An axis other than the last has size 0. *)
Definition inner_zero (s : list nat) : Prop := In 0 (removelast s).
