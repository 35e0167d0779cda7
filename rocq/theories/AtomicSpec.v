(** What an update of an element that other threads update too has to do. *)
From Coq Require Import List Arith ZArith Bool Lia Permutation.
From Verif Require Import Base EncodeModel AtomicModel.
Import ListNotations.
Open Scope Z_scope.

(** The width of an element, and of the words memory is made of. *)
Definition bytes (d : dtype) : nat :=
  match d with
  | BOOL | F8E4M3 | F8E5M2 | U8 | I8 => 1
  | BF16 | F16 | U16 | I16 => 2
  | F32 | U32 | I32 => 4
  | F64 | U64 | I64 => 8
  end%nat.
Definition bits (d : dtype) : Z := 8 * Z.of_nat (bytes d).
Definition word_bytes (d : dtype) : nat := Nat.max 4 (bytes d).

(** The element of type [d] at byte [a], in little-endian memory. *)
Definition element (d : dtype) (m : list Z) (a : nat) : Z :=
  (nth (a / word_bytes d) m 0 / 2 ^ (8 * Z.of_nat (a mod word_bytes d))) mod 2 ^ bits d.

(** [a] is the address of an element of the buffer. *)
Definition placed (d : dtype) (m : list Z) (a : nat) : Prop :=
  (a mod bytes d = 0)%nat /\ (a / word_bytes d < length m)%nat.

Definition words (d : dtype) (m : list Z) : Prop :=
  Forall (fun x => 0 <= x < 2 ^ (8 * Z.of_nat (word_bytes d))) m.

(** The calls that address the element at [a], in a given order, applied one
    after the other. *)
Definition in_turn (f : Z -> Z -> Z) (order : list call) (a : nat) (x : Z) : Z :=
  fold_left (fun y c => f y (value c)) (filter (fun c => Nat.eqb (addr c) a) order) x.

(** Every thread has returned. *)
Definition all_returned (s : state) : Prop := Forall (fun p => p = After) (places s).

(** Sum, and greatest and least under an order given by a key. *)
Definition total (order : list call) (a : nat) : Z :=
  fold_left (fun y c => y + value c) (filter (fun c => Nat.eqb (addr c) a) order) 0.
Definition key (signed : bool) (d : dtype) : Z -> Z :=
  fun b => if signed then (if b <? 2 ^ (bits d - 1) then b else b - 2 ^ bits d) else b.
(** [r] is one of the candidates and none is above it (below, for [Min]). *)
Definition extreme (c : change) (k : Z -> Z) (candidates : list Z) (r : Z) : Prop :=
  In r candidates /\
  Forall (fun x => match c with Max => k x <= k r | Min => k r <= k x | Add => True end)
         candidates.
Definition candidates (cs : list call) (a : nat) (x : Z) : list Z :=
  x :: map value (filter (fun c => Nat.eqb (addr c) a) cs).

Definition integer (d : dtype) : option bool :=
  match d with
  | U8 | U16 | U32 | U64 => Some false
  | I8 | I16 | I32 | I64 => Some true
  | _ => None
  end.
Definition eight_bit_float (d : dtype) : bool :=
  match d with F8E4M3 | F8E5M2 => true | _ => false end.
