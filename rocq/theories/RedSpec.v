(** What the reductions should compute, on lists of real numbers. *)
From Coq Require Import List Reals.
From Verif Require Import NnSpec.
Import ListNotations.
Open Scope R_scope.

Definition Rprod (l : list R) : R := fold_right Rmult 1 l.
Definition Ravg (l : list R) : R := Rsum l / INR (length l).
(** the mean of the squared distances from the mean *)
Definition Rvar (l : list R) : R := Rsum (map (fun x => (x - Ravg l) ^ 2) l) / INR (length l).
Definition Rnorm2 (l : list R) : R := sqrt (Rsum (map (fun x => x ^ 2) l)).
Definition Rlse (l : list R) : R := ln (Rsum (map exp l)).
Definition Rtop (l : list R) : R := match l with [] => 0 | x :: r => fold_right Rmax x r end.
Definition Rbot (l : list R) : R := match l with [] => 0 | x :: r => fold_right Rmin x r end.
(** [x] to the power [p], for [0 <= x] and [0 < p] *)
Definition Rpow (x p : R) : R := if Req_EM_T x 0 then 0 else Rpower x p.
Definition Rpnorm (p : R) (l : list R) : R := Rpow (Rsum (map (fun x => Rpow (Rabs x) p) l)) (1 / p).
