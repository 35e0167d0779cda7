(** What arange and linspace are to give, on integers. *)
From Coq Require Import List ZArith Bool.
From Verif Require Import ScalarModel SeqModel.
Import ListNotations.
Open Scope Z_scope.

(** The scalar of a kind whose value is the integer [n], and the integers that a kind holds. *)
Definition integer (k : kind) (n : Z) : scalar :=
  match k with KBool => Bool (negb (n =? 0)) | KInt t => Int t n | KFlt f => Flt f (of_z f n) end.
Definition small (n : Z) : Prop := Z.abs n < 2 ^ 24.
Definition holds (k : kind) (n : Z) : Prop :=
  match k with KBool => 0 <= n <= 1 | KInt t => lowest t <= n <= highest t | KFlt f => True end.
(** The kind of the result: that of the first float, or of the first argument. *)
Definition joint (ks : list kind) : kind :=
  match find (fun k => match k with KFlt _ => true | _ => false end) ks with Some k => k | None => hd KBool ks end.
(** [start + i * step] is before [stop], in the direction of [step] *)
Definition before (stop step n : Z) : Prop := (0 < step /\ n < stop) \/ (step < 0 /\ stop < n).
(** [l] is [start], [start + step], .. as long as they are before [stop] *)
Definition sequence (start stop step : Z) (l : list Z) : Prop :=
  forall i, match nth_error l i with
            | Some n => n = start + Z.of_nat i * step /\ before stop step n
            | None => ~ before stop step (start + Z.of_nat i * step)
            end.
(** [l] is [steps] integers from [start] to [stop] in equal steps *)
Definition evenly (start stop steps : Z) (l : list Z) : Prop :=
  Z.of_nat (length l) = steps /\
  forall i n, nth_error l i = Some n -> (steps - 1) * (n - start) = Z.of_nat i * (stop - start) /\ (i = O -> n = start).
