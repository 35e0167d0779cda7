(** C123, C124: sequences. *)
From Coq Require Import List ZArith Bool SpecFloat Lia.
From Verif Require Import Base ScalarModel FloatIntProofs SeqModel SeqSpec SeqProofs.
Import ListNotations.
Open Scope Z_scope.

(** On integers of at most 24 bits, of whatever types, arange gives the terms before the end and rejects the rest.
    Missing: greater integers and fractions, see below. *)
Theorem C123_arange_partial : forall ka kb kh start stop step,
  small start -> small stop -> small step -> small (stop - start) -> holds ka start -> holds kb stop -> holds kh step ->
  let k := joint [ka; kb; kh] in holds k start -> holds k stop ->
  (before stop step start -> exists l, arange (integer ka start) (integer kb stop) (integer kh step) = Ok (map (integer k) l) /\
     sequence start stop step l) /\
  (~ before stop step start -> arange (integer ka start) (integer kb stop) (integer kh step) = Err EInternal).
Proof. exact arange_small. Qed.
Print Assumptions C123_arange_partial.

Example C123_ex : arange (integer (KInt I8) 10) (integer (KInt I8) (-4)) (integer (KInt I8) (-3)) =
    Ok (map (integer (KInt I8)) [10; 7; 4; 1; -2]) /\
  arange (integer (KInt U8) 1) (integer (KFlt F64) 2) (integer KBool 1) = Ok [Flt F64 (of_z F64 1)] /\
  arange (integer (KInt I8) 4) (integer (KInt I8) 4) (integer (KInt I8) 1) = Err EInternal /\
  small 10 /\ small (-14) /\ holds (KInt I8) (-4) /\ before (-4) (-3) 10 /\ sequence 10 (-4) (-3) [10; 7; 4; 1; -2].
Proof.
  split; [vm_compute; reflexivity|]. split; [vm_compute; reflexivity|]. split; [vm_compute; reflexivity|]. unfold small, before. split; [lia|]. split; [lia|].
  split; [cbn; lia|]. split; [lia|]. intros i. do 5 (destruct i as [|i]; [cbn; unfold before; lia|]).
  replace (nth_error [10; 7; 4; 1; -2] (S (S (S (S (S i)))))) with (@None Z) by (destruct i; reflexivity). unfold before. lia.
Qed.

(** Everything is computed in f32.  An i32 range above 24 bits has a wrong start and a wrong number of elements, or is
    rejected although it has an element. *)
Theorem C123_large_refuted :
  arange (Int I32 16777217) (Int I32 16777218) (Int I32 1) = Ok [Int I32 16777216; Int I32 16777216] /\
  sequence 16777217 16777218 1 [16777217] /\
  arange (Int I32 16777216) (Int I32 16777217) (Int I32 1) = Err EInternal /\ before 16777217 1 16777216.
Proof.
  split; [vm_compute; reflexivity|]. split; [|split; [vm_compute; reflexivity|unfold before; lia]].
  intros i. destruct i as [|i]; [cbn; unfold before; lia|]. replace (nth_error [16777217] (S i)) with (@None Z) by (destruct i; reflexivity).
  unfold before. lia.
Qed.
(** An f64 range starts at its start rounded to f32: here 0.1, 1.0, 0.5. *)
Theorem C123_double_refuted : exists start stop step x l,
  arange (Flt F64 start) (Flt F64 stop) (Flt F64 step) = Ok (Flt F64 x :: l) /\ SFeqb x start = false /\
  SFltb start stop = true /\ SFltb (S754_zero false) step = true.
Proof.
  exists (S754_finite false 7205759403792794 (-56)), (S754_finite false 4503599627370496 (-52)), (S754_finite false 4503599627370496 (-53)).
  do 2 eexists. split; [vm_compute; reflexivity|]. split; [reflexivity|]. split; reflexivity.
Qed.
(** The end can be an element: the f32 range 0.0, 4.9, 0.7. *)
Theorem C123_end_refuted : exists stop step l x,
  arange (Flt F32 (S754_zero false)) (Flt F32 stop) (Flt F32 step) = Ok (l ++ [Flt F32 x]) /\ SFltb x stop = false /\
  SFltb (S754_zero false) step = true.
Proof.
  exists (S754_finite false 10276045 (-21)), (S754_finite false 11744051 (-24)).
  exists (map (Flt F32) [S754_zero false; S754_finite false 11744051 (-24); S754_finite false 11744051 (-23); S754_finite false 8808038 (-22);
    S754_finite false 11744051 (-22); S754_finite false 14680064 (-22); S754_finite false 8808038 (-21)]), (S754_finite false 10276045 (-21)).
  split; [vm_compute; reflexivity|]. split; reflexivity.
Qed.
(** A step that is not a number gives an empty tensor instead of an error; an infinite end panics. *)
Theorem C123_special_refuted :
  arange (Flt F32 (S754_zero false)) (Flt F32 (of_z F32 2)) (Flt F32 S754_nan) = Ok [] /\
  arange (Flt F32 (S754_zero false)) (Flt F32 (S754_infinity false)) (Flt F32 (of_z F32 1)) = Panic.
Proof. split; vm_compute; reflexivity. Qed.

(** linspace gives as many elements as asked for, whatever the ends are. *)
Theorem C124_length : forall start stop steps l, 0 <= steps -> linspace start stop steps = Ok l -> Z.of_nat (length l) = steps.
Proof. exact linspace_length. Qed.
Print Assumptions C124_length.
(** On integers of at most 24 bits whose difference the number of steps divides, they are equally far apart, from the
    start to the end.  Missing: the other integers and fractions, see below. *)
Theorem C124_linspace_partial : forall ka kb start stop steps,
  small start -> small stop -> small (stop - start) -> holds ka start -> holds kb stop ->
  let k := joint [ka; kb] in holds k start -> holds k stop ->
  0 <= steps -> small (steps - 1) -> (2 <= steps -> (steps - 1 | stop - start)) ->
  if steps =? 0 then linspace (integer ka start) (integer kb stop) steps = Err EInternal
  else exists l, linspace (integer ka start) (integer kb stop) steps = Ok (map (integer k) l) /\ evenly start stop steps l.
Proof. exact linspace_small. Qed.
Print Assumptions C124_linspace_partial.

Example C124_ex : linspace (integer (KInt I8) 10) (integer (KInt I8) (-5)) 4 = Ok (map (integer (KInt I8)) [10; 5; 0; -5]) /\
  linspace (integer (KFlt F32) 0) (integer (KFlt F32) 6) 3 = Ok (map (integer (KFlt F32)) [0; 3; 6]) /\
  linspace (integer (KInt I8) 7) (integer (KInt I8) (-5)) 1 = Ok [Int I8 7] /\ (4 - 1 | -5 - 10).
Proof. split; [vm_compute; reflexivity|]. split; [vm_compute; reflexivity|]. split; [vm_compute; reflexivity|]. exists (-5). reflexivity. Qed.

(** The last element is not always the end: 42 steps from 0 to 1 end below 1, as integers in 0. *)
Theorem C124_end_refuted :
  (exists l x, linspace (Flt F32 (of_z F32 0)) (Flt F32 (of_z F32 1)) 42 = Ok (l ++ [Flt F32 x]) /\ SFltb x (of_z F32 1) = true) /\
  exists l, linspace (Int I32 0) (Int I32 1) 42 = Ok (l ++ [Int I32 0]).
Proof.
  split.
  - exists (match linspace (Flt F32 (of_z F32 0)) (Flt F32 (of_z F32 1)) 42 with Ok l => removelast l | _ => [] end), (S754_finite false 16777215 (-24)).
    split; vm_compute; reflexivity.
  - exists (repeat (Int I32 0) 41). vm_compute. reflexivity.
Qed.
(** Equal ends above 24 bits are not kept. *)
Theorem C124_large_refuted : linspace (Int I32 16777217) (Int I32 16777217) 1 = Ok [Int I32 16777216].
Proof. vm_compute. reflexivity. Qed.
