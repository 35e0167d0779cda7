(** Which leaves a result is computed from, and by which operands. *)
From Coq Require Import List Arith Bool.
From Verif Require Import Base LayoutModel FlowModel.
Import ListNotations.

Definition operands (i : instr) : list nat :=
  match i with Leaf _ _ => [] | View _ a | Map a => [a] | Zip a b | Prod a b => [a; b] end.

(** [uses through p l v]: instruction [l] takes part in computing instruction [v], along operands allowed by [through]. *)
Inductive uses (through : instr -> list nat) (p : list instr) (l : nat) : nat -> Prop :=
  | uses_self : uses through p l l
  | uses_step : forall v i a, nth_error p v = Some i -> In a (through i) -> uses through p l a -> uses through p l v.

(** The operands that are not copied before use: [lay] gives the layouts of the results. *)
Definition uncopied (lay : nat -> layout) (i : instr) : list nat :=
  match i with
  | Leaf _ _ => []
  | Map a => [a]
  | View _ a => filter (fun a => is_contiguous (lay a)) [a]
  | Zip a b => filter (fun a => is_contiguous (lay a)) [a; b]
  | Prod a b =>
      if (length (lshape (lay a)) =? 2) && (length (lshape (lay b)) =? 2) then [a; b]
      else filter (fun a => is_contiguous (lay a)) [a; b]
  end.
Definition layout_at (vs : list handle) (a : nat) : layout := hlay (nth a vs (mkH 0 false (from_shape []))).
