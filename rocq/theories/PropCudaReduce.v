(** Property C140: reductions on CUDA. *)
From Coq Require Import List Arith ZArith Bool Lia SpecFloat Permutation.
From Verif Require Import Base IndexSpec LayoutModel ViewSpec LayoutProofs KernelModel TensorModel TensorSpec TensorProofs.
From Verif Require Import ReduceModel ReduceSpec ReduceProofs EncodeModel LaunchModel LaunchSpec LaunchProofs CudaIndexProofs2 CudaReduceModel CudaReduceProofs.
From Verif Require ScalarModel.
Import ListNotations.
Local Open Scope nat_scope.

(** Under every schedule that ends, a reduction gives what the CPU gives with the same
    accumulator, step and final conversion, whatever these are. *)
Theorem C140_same_partial : forall A B C sched (init : B) step (fin : nat -> B -> C) dt z (t : tensor A) dims keep r,
  ending sched -> wf_layout (tlay t) -> cuda_reduces dt = true ->
  (Z.of_nat (length (tstore r)) <= 2 ^ 32 - 256)%Z ->
  t_reduce init step fin z t dims keep = Ok r -> cuda_t_reduce sched init step fin dt t dims keep = Ok r.
Proof. intros A B C sched init step fin dt z t dims keep r EN. exact (t_reduce_same sched init step fin EN dt z t dims keep r). Qed.
Print Assumptions C140_same_partial.

(** So every element of the result accumulates exactly the elements of its fibre. *)
Theorem C140_fibre_partial : forall A B C sched (init : B) (f : B -> A -> B) (fin : nat -> B -> C) dt (z : C) (d0 : A) (t : tensor A) dims ds keep,
  ending sched -> cuda_reduces dt = true -> good t -> axes_of (length (tshape t)) dims ds -> NoDup ds -> length (tshape t) <= 16 ->
  kept_pos keep ds (tshape t) -> (Z.of_nat (nelem (rshape keep ds (tshape t))) <= 2 ^ 32 - 256)%Z ->
  exists r, cuda_t_reduce sched init (plain f) fin dt t dims keep = Ok r /\
    good r /\ tlay r = from_shape (rshape keep ds (tshape t)) /\
    forall j, valid (tshape r) j -> exists L vs,
      Permutation L (fibre keep ds (tshape t) j) /\
      Forall2 (fun i v => elem t i = Some v) L vs /\
      elem r j = Some (fin (nelem (extents ds (tshape t))) (fold_left f vs init)).
Proof. exact cuda_plain. Qed.
Print Assumptions C140_fibre_partial.

(** The sum of integers is right where the magnitudes in a fibre add up to less than 2^24. *)
Theorem C140_int_sum_partial : forall sched signed (t : tensor Z) dims ds keep, ending sched -> good t ->
  axes_of (length (tshape t)) dims ds -> NoDup ds -> length (tshape t) <= 16 -> kept_pos keep ds (tshape t) ->
  (Z.of_nat (nelem (rshape keep ds (tshape t))) <= 2 ^ 32 - 256)%Z ->
  (signed = false -> forall i v, elem t i = Some v -> 0 <= v)%Z ->
  (forall j vs, valid (rshape keep ds (tshape t)) j ->
     Forall2 (fun i v => elem t i = Some v) (fibre keep ds (tshape t) j) vs ->
     fold_right (fun v a => Z.abs v + a) 0 vs < 2 ^ 24)%Z ->
  exists r, cuda_int_sum sched signed t dims keep = Ok r /\ good r /\ tlay r = from_shape (rshape keep ds (tshape t)) /\
    forall j, valid (tshape r) j -> exists vs,
      Forall2 (fun i v => elem t i = Some v) (fibre keep ds (tshape t) j) vs /\ elem r j = Some (fold_left Z.add vs 0%Z).
Proof. exact cuda_sum. Qed.
Print Assumptions C140_int_sum_partial.

(** The maximum of integers is right where each is below 2^24 in magnitude. *)
Theorem C140_int_max_partial : forall sched signed (t : tensor Z) dims ds keep, ending sched -> good t ->
  axes_of (length (tshape t)) dims ds -> NoDup ds -> length (tshape t) <= 16 -> kept_pos keep ds (tshape t) ->
  (Z.of_nat (nelem (rshape keep ds (tshape t))) <= 2 ^ 32 - 256)%Z ->
  (forall i v, elem t i = Some v -> Z.abs v < 2 ^ 24 /\ (signed = false -> 0 <= v))%Z ->
  exists r, cuda_int_max sched signed t dims keep = Ok r /\ good r /\ tlay r = from_shape (rshape keep ds (tshape t)) /\
    forall j, valid (tshape r) j -> exists vs,
      Forall2 (fun i v => elem t i = Some v) (fibre keep ds (tshape t) j) vs /\
      elem r j = Some (fold_left Z.max vs (if signed then - 2 ^ 31 else 0)%Z).
Proof. intros sched signed. pose proof (cuda_max sched signed) as H. destruct signed; exact H. Qed.
Print Assumptions C140_int_max_partial.

(** A transposed 2x3 tensor, both axes. *)
Example C140_ex_sum : cuda_int_sum swift true (mkT [1;-2;3;4;5;6]%Z (mkLayout [3;2] [1;3] 0)) [1]%Z false = Ok (mkT [5;3;9]%Z (from_shape [3])).
Proof. apply (C140_same_partial _ _ _ _ _ _ _ _ 0%Z); [exact swift_ending|reflexivity|reflexivity|now vm_compute|now vm_compute]. Qed.
Example C140_ex_max : cuda_int_max swift false (mkT [1;2;3;4;5;6]%Z (mkLayout [3;2] [1;3] 0)) [-2]%Z true = Ok (mkT [3;6]%Z (from_shape [1;2])).
Proof. apply (C140_same_partial _ _ _ _ _ _ _ _ 0%Z); [exact swift_ending|reflexivity|reflexivity|now vm_compute|now vm_compute]. Qed.
Example C140_ex_bound : let t := mkT [1;-2;3;4;5;6]%Z (mkLayout [3;2] [1;3] 0) in
  good t /\ axes_of 2 [1]%Z [1] /\ NoDup [1] /\ kept_pos false [1] (tshape t) /\
  forall j vs, Forall2 (fun i v => elem t i = Some v) (fibre false [1] (tshape t) j) vs ->
    (fold_right (fun v a => Z.abs v + a) 0 vs < 2 ^ 24)%Z.
Proof.
  intro t. split.
  { split; [reflexivity|]. intros [|a [|b [|c i]]] I; cbn in *; unfold addr; cbn; lia. }
  split; [repeat constructor; cbn; lia|]. split; [repeat constructor; cbn; tauto|]. split; [right; intros [|[|[|i]]] d; cbn; intros; try congruence; try tauto; try (injection H as <-; lia)|].
  intros j vs. assert (K : forall L us, Forall2 (fun i v => elem t i = Some v) L us -> (fold_right (fun v a => Z.abs v + a) 0 us <= 6 * Z.of_nat (length L))%Z).
  { induction 1 as [|i v L us V F IH]; [reflexivity|]. cbn [fold_right length].
    assert (Z.abs v <= 6)%Z by (unfold elem in V; apply nth_error_In in V; cbn in V; lia). lia. }
  intro F. specialize (K _ _ F). unfold fibre in K.
  assert (FL : forall X (f : X -> bool) l, length (filter f l) <= length l) by (intros X f; induction l as [|x l IH]; cbn; [lia|destruct (f x); cbn; lia]).
  pose proof (FL _ (fun i => if list_eq_dec Nat.eq_dec (rproj false [1] i) j then true else false) (all_idx (tshape t))) as Q.
  change (length (all_idx (tshape t))) with 6 in Q. lia.
Qed.

(** C140 is false of integers: the accumulator is a float.  Two elements that add up to
    2^24 + 1 add up to 2^24, *)
Theorem C140_int_sum_refuted : forall sched, ending sched ->
  cuda_int_sum sched true (mkT [16777216; 1]%Z (from_shape [2])) [0]%Z false = Ok (mkT [16777216]%Z (from_shape [])) /\
  t_sum (mkT [16777216; 1]%Z (from_shape [2])) [0]%Z false = Ok (mkT [16777217]%Z (from_shape [])).
Proof.
  intros sched EN. split; [|reflexivity]. apply (C140_same_partial _ _ _ _ _ _ _ _ 0%Z); [exact EN|reflexivity|reflexivity|now vm_compute|now vm_compute].
Qed.
Print Assumptions C140_int_sum_refuted.
(** and the maximum need not be an element. *)
Theorem C140_int_max_refuted : forall sched, ending sched ->
  cuda_int_max sched true (mkT [5; 16777217]%Z (from_shape [2])) [0]%Z false = Ok (mkT [16777216]%Z (from_shape [])) /\
  t_max (- 2 ^ 31) (mkT [5; 16777217]%Z (from_shape [2])) [0]%Z false = Ok (mkT [16777217]%Z (from_shape [])).
Proof.
  intros sched EN. split; [|reflexivity]. apply (C140_same_partial _ _ _ _ _ _ _ _ 0%Z); [exact EN|reflexivity|reflexivity|now vm_compute|now vm_compute].
Qed.
Print Assumptions C140_int_max_refuted.

(** It is false of f64: the sum of the one element 2^24 + 1 is 2^24. *)
Theorem C140_f64_refuted : forall sched, ending sched ->
  let x := ScalarModel.of_z ScalarModel.F64 16777217 in
  cuda_f64_sum sched (mkT [x] (from_shape [1])) [0]%Z false
    = Ok (mkT [ScalarModel.of_z ScalarModel.F64 16777216] (from_shape [])) /\
  SFadd 53 1024 (S754_zero false) x = x.
Proof.
  intros sched EN x. split; [|now vm_compute].
  apply (C140_same_partial _ _ _ _ _ _ _ _ S754_nan); [exact EN|reflexivity|reflexivity|now vm_compute|now vm_compute].
Qed.
Print Assumptions C140_f64_refuted.

(** It is false of the other nine element types, though the kernels exist: there is no result. *)
Theorem C140_types_refuted : forall A B C sched (init : B) step (fin : nat -> B -> C) dt (t : tensor A) dims keep r,
  cuda_reduces dt = false -> cuda_t_reduce sched init step fin dt t dims keep <> Ok r.
Proof. intros A B C sched init step fin dt t dims keep r. exact (t_reduce_types sched init step fin dt t dims keep r). Qed.
Print Assumptions C140_types_refuted.
Example C140_ex_types : map cuda_reduces [BOOL; F8E4M3; F8E5M2; U8; U16; U64; I8; I16; I64] = repeat false 9.
Proof. reflexivity. Qed.

(** argmax stores int32 into a buffer of the operand's type: outside it for the
    two-byte floats, and as bit patterns for f32. *)
Theorem C140_argmax_f16_refuted : forall sched gtb junk, ending sched ->
  cuda_t_argmax sched F16 gtb junk (mkT [1;5;3]%Z (from_shape [3])) [0]%Z false = Panic.
Proof.
  intros sched gtb junk EN. unfold cuda_t_argmax.
  destruct (t_reduce None (argmax_step gtb) argmax_fin 0 (mkT [1;5;3]%Z (from_shape [3])) [0]%Z false) as [r| |] eqn:R.
  - assert (length (tstore r) = 1).
    { cbn in R. revert R. repeat (destruct (gtb _ _); cbn); intro R; injection R as <-; reflexivity. }
    erewrite C140_same_partial; [|exact EN|reflexivity|reflexivity| |exact R]; [|lia]. cbn [bind].
    destruct (tstore r) as [|x [|? ?]]; try discriminate. cbn. reflexivity.
  - exfalso. cbn in R. revert R. repeat (destruct (gtb _ _); cbn); discriminate.
  - exfalso. cbn in R. revert R. repeat (destruct (gtb _ _); cbn); discriminate.
Qed.
Print Assumptions C140_argmax_f16_refuted.
Theorem C140_argmax_f32_refuted : forall sched junk, ending sched ->
  cuda_t_argmax sched F32 (fun a b => (b <? a)%Z) junk (mkT [1;5;3]%Z (from_shape [3])) [0]%Z false
  = Ok (mkT [1]%Z (from_shape [])) /\ (1 <> 1065353216)%Z (* = bits of 1.0f *).
Proof.
  intros sched junk EN. split; [|discriminate]. unfold cuda_t_argmax.
  rewrite (C140_same_partial (val F32) _ _ sched None (argmax_step (fun a b : val F32 => (b <? a)%Z)) argmax_fin F32 0 (mkT [1;5;3]%Z (from_shape [3])) [0]%Z false
             (mkT [1] (from_shape []))); [reflexivity|exact EN|reflexivity|reflexivity|now vm_compute|reflexivity].
Qed.
Print Assumptions C140_argmax_f32_refuted.
(** For the two four-byte integer types the index comes out. *)
Theorem C140_argmax_i32 : forall sched junk, ending sched ->
  cuda_t_argmax sched I32 (fun a b => SFltb (float_of b) (float_of a)) junk (mkT [1;5;3]%Z (from_shape [3])) [0]%Z false
  = Ok (mkT [1]%Z (from_shape [])).
Proof.
  intros sched junk EN. unfold cuda_t_argmax.
  rewrite (C140_same_partial (val I32) _ _ sched None (argmax_step (fun a b : val I32 => SFltb (float_of b) (float_of a))) argmax_fin I32 0 (mkT [1;5;3]%Z (from_shape [3])) [0]%Z false
             (mkT [1] (from_shape []))); [reflexivity|exact EN|reflexivity|reflexivity|now vm_compute|now vm_compute].
Qed.
Print Assumptions C140_argmax_i32.
(** any stores one byte per result: four of them share an element, the rest is what was there. *)
Theorem C140_any_f32_refuted : forall sched, ending sched ->
  cuda_t_any sched F32 (fun v => negb (v =? 0)%Z) (repeat 171%Z 8) (mkT [0;7;0;0]%Z (from_shape [2;2])) [1]%Z false
  = Ok (mkT [2880110593; 2880154539]%Z (from_shape [2])).
Proof.
  intros sched EN. unfold cuda_t_any.
  rewrite (C140_same_partial (val F32) _ _ sched false (plain (fun b (v : val F32) => b || negb (v =? 0)%Z)) (fun _ b => b) F32 false (mkT [0;7;0;0]%Z (from_shape [2;2])) [1]%Z false
             (mkT [true; false] (from_shape [2]))); [reflexivity|exact EN|reflexivity|reflexivity|now vm_compute|reflexivity].
Qed.
Print Assumptions C140_any_f32_refuted.
