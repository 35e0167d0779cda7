(** What resizing is: coordinates, rounding and interpolation in exact rationals.  Only
    the names of the options come from the model. *)
From Coq Require Import List Arith ZArith QArith Qcanon Qround.
From Verif Require Import ResizeModel.
Import ListNotations.
Open Scope Qc_scope.

Definition qn (n : nat) : Qc := Q2Qc (inject_Z (Z.of_nat n)).
Definition qz (z : Z) : Qc := Q2Qc (inject_Z z).
Definition half : Qc := Q2Qc (1 # 2).
(** Where position [o] of [m] lies among [n] (pixel centres at the half integers,
    at the integers, or end points on end points). *)
Definition src_coord (tr : rcoord) (n m o : nat) : Qc :=
  match tr with
  | HalfPixel => (qn o + half) * (qn n / qn m) - half
  | Asymmetric => qn o * (qn n / qn m)
  | AlignCorners => qn o * (qn n - 1) / (qn m - 1)
  | PytorchHalfPixel => if (m =? 1)%nat then 0 else (qn o + half) * (qn n / qn m) - half
  end.
(** The integer chosen for a coordinate; a tie goes down or up. *)
Definition pick (near : rnear) (c : Qc) : Z :=
  match near with
  | NFloor => Qfloor c
  | NCeil => Qceiling c
  | NRoundFloor => Qceiling (c - half)
  | NRoundCeil => Qfloor (c + half)
  end.
(** Positions outside are moved to the edge. *)
Definition inside (n : nat) (z : Z) : nat := Z.to_nat (Z.min (Z.max z 0) (Z.of_nat n - 1)).

Fixpoint src_coords (tr : rcoord) (n m o : list nat) : list Qc :=
  match n, m, o with
  | n1 :: n', m1 :: m', o1 :: o' => src_coord tr n1 m1 o1 :: src_coords tr n' m' o'
  | _, _, _ => []
  end.
Fixpoint near_idx (near : rnear) (n : list nat) (c : list Qc) : list nat :=
  match n, c with
  | n1 :: n', c1 :: c' => inside n1 (pick near c1) :: near_idx near n' c'
  | _, _ => []
  end.

(** Interpolation of a sequence at a coordinate: linear between the two neighbours, and
    Catmull-Rom through four. *)
Definition frac (c : Qc) : Qc := c - qz (Qfloor c).
Definition lin1 (f : Z -> Qc) (c : Qc) : Qc :=
  (1 - frac c) * f (Qfloor c) + frac c * f (Qfloor c + 1)%Z.
Definition cub1 (f : Z -> Qc) (c : Qc) : Qc :=
  let t := frac c in let k := Qfloor c in
  (- half * t + t * t - half * t * t * t) * f (k - 1)%Z
  + (1 - Q2Qc (5 # 2) * t * t + Q2Qc (3 # 2) * t * t * t) * f k
  + (half * t + Q2Qc 2 * t * t - Q2Qc (3 # 2) * t * t * t) * f (k + 1)%Z
  + (- half * t * t + half * t * t * t) * f (k + 2)%Z.
(** Axis by axis. *)
Fixpoint interp (k : (Z -> Qc) -> Qc -> Qc) (n : list nat) (c : list Qc) (f : list nat -> Qc) : Qc :=
  match n, c with
  | n1 :: n', c1 :: c' => k (fun z => interp k n' c' (fun r => f (inside n1 z :: r))) c1
  | _, _ => f []
  end.
