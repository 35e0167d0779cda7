(** What the normalisation layers should compute, on the real numbers. *)
From Coq Require Import List Arith Reals.
From Verif Require Import Base IndexSpec EncodeModel TensorModel TensorSpec DenSpec NumModel NnModel NnSpec.
Import ListNotations.
Open Scope nat_scope.

(** the indices of shape [s] that agree with [i] on the coordinates given by [key] *)
Definition peers (key : list nat -> list nat) (s i : list nat) : list (list nat) :=
  filter (fun j => if list_eq_dec Nat.eq_dec (key j) (key i) then true else false) (all_idx s).

(** mean and (biased) variance over a collection of indices *)
Definition Ravg (l : list (list nat)) (r : list nat -> R) : R := (Rsum (map r l) / INR (length l))%R.
Definition Rvar (l : list (list nat)) (r : list nat -> R) : R :=
  Ravg l (fun j => ((r j - Ravg l r) * (r j - Ravg l r))%R).
Definition standard (eps : R) (l : list (list nat)) (r : list nat -> R) (i : list nat) : R :=
  ((r i - Ravg l r) / sqrt (Rvar l r + eps))%R.

(** parameters of shape [s]; none are ones and zeros *)
Definition xaffine (gb : option (xtensor * xtensor)) (d : dtype) (s : list nat) (g b : list nat -> R) : Prop :=
  match gb with
  | Some (ga, be) => xden ga d s (fun i => Fin (g i)) /\ xden be d s (fun i => Fin (b i))
  | None => forall i, g i = 1%R /\ b i = 0%R
  end.

(** which entries are normalised together: those with the same leading coordinates; the
    same channel; the same sample and channel; the same sample and group of channels *)
Definition by_prefix (m : nat) (i : list nat) : list nat := firstn m i.
Definition by_channel (i : list nat) : list nat := [nth 1 i 0].
Definition by_instance (i : list nat) : list nat := [nth 0 i 0; nth 1 i 0].
Definition by_group (size : nat) (i : list nat) : list nat := [nth 0 i 0; nth 1 i 0 / size].

(** BatchNorm1D takes rank 2 and 3, the others one rank *)
Definition bn_rank (k : nat) (l : list nat) : Prop := 0 < k /\ (length l = k \/ (k = 1 /\ l = [])).
