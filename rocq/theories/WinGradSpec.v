(** Windows that tile their operand, and the sum of the outputs weighted by a gradient. *)
From Coq Require Import List Arith Reals.
From Verif Require Import IndexSpec.
Import ListNotations.

(** An axis of size [n] cut into [q] windows of [w]; one window may also have stride 1. *)
Definition tiled (n w st : nat) (pad : nat * nat) (q : nat) : Prop :=
  pad = (0, 0) /\ 0 < w /\ 0 < q /\ n = q * w /\ (st = w \/ q = 1 /\ st = 1).
(** every axis; [out] is the number of windows *)
Inductive tiling : list nat -> list nat -> list nat -> list (nat * nat) -> list nat -> Prop :=
| tiling_nil : tiling [] [] [] [] []
| tiling_cons : forall n w st pad q s window strides padding out, tiled n w st pad q -> tiling s window strides padding out ->
    tiling (n :: s) (w :: window) (st :: strides) (pad :: padding) (q :: out).
(** the window index [i] falls in *)
Fixpoint cell (window i : list nat) : list nat :=
  match window, i with
  | w :: window', x :: i' => x / w :: cell window' i'
  | _, _ => []
  end.
(** the indices of window [o] *)
Definition members (window s o : list nat) : list (list nat) :=
  filter (fun i => if list_eq_dec Nat.eq_dec (cell window i) o then true else false) (all_idx s).
(** the sum over the windows of [w o * h] of the entries of window [o] *)
Definition wloss (h : list R -> R) (window s out : list nat) (w r : list nat -> R) : R :=
  fold_right Rplus 0%R (map (fun o => (w o * h (map r (members window s o)))%R) (all_idx out)).
