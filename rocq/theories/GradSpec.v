(** Vocabulary for statements about backward(): paths in a recorded computation. *)
From Coq Require Import List Arith.
From Verif Require Import Base GradModel.
Import ListNotations.

Section GradSpec.
Variables OP V : Type.
Notation entry := (entry OP).

(** A step of a path: position of the operation on the tape, the operation, and
    which of its inputs is used. *)
Definition step : Type := (nat * entry * nat)%type.

(** [is_path tape loss x p]: [p] leads from tensor [x] to [loss] along recorded
    operations, from an input to the output of each. *)
Inductive is_path (tape : list entry) (loss : nat) : nat -> list step -> Prop :=
  | path_nil : is_path tape loss loss []
  | path_cons : forall i e k x p,
      nth_error tape i = Some e -> nth_error (e_ins e) k = Some x ->
      is_path tape loss (e_out e) p ->
      is_path tape loss x ((i, e, k) :: p).

(** No operation uses the result of itself or of a later one. *)
Definition ordered (tape : list entry) : Prop :=
  forall i j e f, nth_error tape i = Some e -> nth_error tape j = Some f -> i <= j ->
    ~ In (e_out f) (e_ins e).

(** Sum of a list of contributions; [None] if there is none. *)
Variable plus : V -> V -> V.
Fixpoint osum (l : list V) : option V :=
  match l with
  | [] => None
  | x :: l' => match osum l' with None => Some x | Some y => Some (plus x y) end
  end.

(** [J e k]: the transposed derivative of [e] with respect to its [k]-th input. *)
Variable J : entry -> nat -> V -> V.
Fixpoint along (seed : V) (p : list step) : V :=
  match p with
  | [] => seed
  | (_, e, k) :: p' => J e k (along seed p')
  end.
End GradSpec.

Arguments is_path {OP}. Arguments ordered {OP}. Arguments osum {V}. Arguments along {OP V}.

(** Forward propagation of tangents (directional derivatives) along a tape:
    [D e k t] is the derivative of [e] w.r.t. its [k]-th input applied to [t]. *)
Section Tangents.
Context {OP V : Type}.
Variable plus : V -> V -> V.
Variable zero : V.
Variable D : entry OP -> nat -> V -> V.

Definition tangent_out (e : entry OP) (t : nat -> V) : V :=
  fold_right plus zero
    (map (fun ki => D e (fst ki) (t (snd ki))) (combine (seq 0 (length (e_ins e))) (e_ins e))).

Fixpoint tangents (tape : list (entry OP)) (t : nat -> V) : nat -> V :=
  match tape with
  | [] => t
  | e :: r => tangents r (fupd t (e_out e) (tangent_out e t))
  end.
End Tangents.

(** Evaluation of the recorded operations on the values of the leaves. *)
Fixpoint values {OP T} (f : entry OP -> list T -> T) (tape : list (entry OP)) (v : nat -> T) : nat -> T :=
  match tape with
  | [] => v
  | e :: r => values f r (fupd v (e_out e) (f e (map v (e_ins e))))
  end.

(** Tensors not produced by an operation of the tape. *)
Definition is_leaf {OP} (tape : list (entry OP)) (x : nat) : Prop :=
  forall e, In e tape -> e_out e <> x.
