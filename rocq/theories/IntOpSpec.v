(** Modular arithmetic on the integer types. *)
From Coq Require Import ZArith.
From Verif Require Import ScalarModel ScalarSpec IntOpModel.
Open Scope Z_scope.

(** [r] is the exact result cut to [t] *)
Definition modular (t : ity) (exact r : Z) : Prop := fits t r /\ r mod 2 ^ width t = exact mod 2 ^ width t.
(** the power of [b] that is one bit longer than [b^e] *)
Definition last_square (b : Z) (e : positive) : Z := b ^ 2 ^ Zpos (Pos.size e).
