(** What a reduction should compute. *)
From Coq Require Import List Arith ZArith Bool.
From Verif Require Import Base IndexSpec.
Import ListNotations.

(** the list without the positions in [ds]; [k] is the position of the head *)
Fixpoint drop_axes {A} (ds : list nat) (k : nat) (l : list A) : list A :=
  match l with
  | [] => []
  | x :: r => if in_dec Nat.eq_dec k ds then drop_axes ds (S k) r else x :: drop_axes ds (S k) r
  end.
(** the list with [v] at the positions in [ds] *)
Fixpoint set_axes {A} (ds : list nat) (v : A) (k : nat) (l : list A) : list A :=
  match l with
  | [] => []
  | x :: r => (if in_dec Nat.eq_dec k ds then v else x) :: set_axes ds v (S k) r
  end.

(** shape of the result, and coordinate of the result that input index [i]
    contributes to *)
Definition rshape (keep : bool) (ds s : list nat) : list nat :=
  if keep then set_axes ds 1 0 s else drop_axes ds 0 s.
Definition rproj (keep : bool) (ds i : list nat) : list nat :=
  if keep then set_axes ds 0 0 i else drop_axes ds 0 i.

(** the input indices contributing to result index [j], in row-major order *)
Definition fibre (keep : bool) (ds s j : list nat) : list (list nat) :=
  filter (fun i => if list_eq_dec Nat.eq_dec (rproj keep ds i) j then true else false) (all_idx s).

(** the sizes of the reduced axes *)
Definition extents (ds s : list nat) : list nat := map (fun d => nth d s 0) ds.

(** signed axes: [d] or [d + rank]; no axes means all of them *)
Definition axes_of (n : nat) (dims : list Z) (ds : list nat) : Prop :=
  match dims with
  | [] => ds = seq 0 n
  | _ => Forall2 (fun z d => d < n /\ (Z.of_nat d = z \/ Z.of_nat d = z + Z.of_nat n)%Z) dims ds
  end.
