(** What tensor handles should guarantee. *)
From Coq Require Import List Arith ZArith Bool.
From Verif Require Import Base LifeModel.
Import ListNotations.

(** does tensor [k] have [g] as its gradient? *)
Definition points (w : world) (k g : nat) : bool :=
  match reg w k with
  | Some e => match e_link e with Some y => y =? g | None => false end
  | None => false
  end.
(** how many tensors have [g] as their gradient *)
Fixpoint count (f : nat -> bool) (n : nat) : nat :=
  match n with 0 => 0 | S m => count f m + (if f m then 1 else 0) end.
Definition links (w : world) (g : nat) : nat := count (fun k => points w k g) (next w).

(** Operations on a tensor need a handle to it. *)
Definition legal (w : world) (o : op) : Prop :=
  match o with
  | Clone k | Drop k | Grad k | ZeroGrad k | ReqGrad k _ => 0 < handles w k
  | _ => True
  end.

(** [g] is the gradient of one tensor, nobody holds a handle to it, and it would be
    removed if that tensor went away *)
Definition only_link (w : world) (g : nat) : Prop :=
  exists e, reg w g = Some e /\ e_rc e = 1%Z /\ e_runtime e = true /\ e_owner e = None.

(** The steps that keep the counts right: when a tensor with a gradient is removed,
    it was the gradient's only user; gradients are given to tensors that exist, and
    no tensor is its own gradient. *)
Definition calm (w : world) (o : op) : Prop :=
  match o with
  | Drop k => forall e g, reg w k = Some e -> e_rc e = 1%Z -> e_runtime e = true -> e_owner e = None ->
      e_isgrad e = false -> computing w = false -> e_link e = Some g -> only_link w g
  | Clean c k => forall e g, reg w k = Some e -> e_rc e = 0%Z -> e_runtime e = true ->
      e_isgrad e = false -> e_link e = Some g ->
      only_link w g /\ exists ge, reg w g = Some ge /\ e_isgrad ge = false
  | Link k g => k <> g /\ reg w k <> None
  | _ => True
  end.

(** histories *)
Fixpoint history (ok : world -> op -> Prop) (w : world) (os : list op) : Prop :=
  match os with
  | [] => True
  | o :: r => ok w o /\ history ok (step w o) r
  end.
