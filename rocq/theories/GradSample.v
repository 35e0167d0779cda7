(** A recorded computation: x (id 0), c (id 1), y = x * x (id 2), unused = y * c (id 3),
    z = y + x (id 4), loss = z * y (id 5); x = 3, c = 7.  Multiplication carries its
    operands' values, addition carries none. *)
From Coq Require Import List Arith ZArith Bool.
From Verif Require Import Base GradModel.
Import ListNotations.
Local Open Scope Z_scope.
Inductive op := Mul (a b : Z) | Add | Bad.
Definition J (e : entry op) (k : nat) (g : Z) : Z :=
  match e_op e with Mul a b => g * (if Nat.eqb k 0 then b else a) | _ => g end.
Definition vjp (e : entry op) (g : Z) : list (entry op) * outcome (list Z) :=
  ([mkE 90 Add [0%nat]],
   match e_op e with
   | Bad => Err EInternal
   | _ => Ok (map (fun k => J e k g) (seq 0 (length (e_ins e))))
   end).
Definition vadd (a b : Z) : list (entry op) * outcome Z := ([mkE 91 Add [0%nat]], Ok (a + b)).
Definition ones (_ : nat) : outcome Z := Ok 1.
Definition fl (_ : nat) : bool := true.
Definition ops : list (entry op) :=
  [mkE 2 (Mul 3 3) [0; 0]; mkE 3 (Mul 9 7) [2; 1]; mkE 4 Add [2; 0]; mkE 5 (Mul 12 9) [4; 2]]%nat.
Definition setup : list (act op) :=
  map AAppear (seq 0 8) ++ map (fun i => ASetReq i true) [0; 2; 3; 4; 5]%nat.
Definition s0 : gstate op Z := run vjp vadd ones fl (setup ++ map ARecord ops) init.

