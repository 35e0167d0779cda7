(** Padding along one axis, and which positions of a padded tensor come from the operand. *)
From Coq Require Import List Arith.
Import ListNotations.

(** the index in the padded tensor of index [j] of the operand *)
Definition shifted (padding : list (nat * nat)) (j : list nat) : list nat :=
  map (fun p : (nat * nat) * nat => fst (fst p) + snd p) (combine padding j).
(** whether an index of the padded tensor is in the operand *)
Fixpoint inside (padding : list (nat * nat)) (s i : list nat) : bool :=
  match padding, s, i with
  | (b, _) :: p, n :: s', c :: i' => (b <=? c) && (c <? b + n) && inside p s' i'
  | _, _, _ => true
  end.
(** padding only the axis after [pre] *)
Definition only (pre : list nat) (ba : nat * nat) (l : list nat) : list (nat * nat) :=
  map (fun _ => (0, 0)) pre ++ ba :: map (fun _ => (0, 0)) l.
