(** Property C134: moving a tensor to a device, and to the type it has. *)
From Coq Require Import List Arith ZArith Bool Lia.
From Verif Require Import Base IndexSpec LayoutModel ViewSpec LayoutProofs KernelModel TensorModel TensorSpec KernelProofs TensorProofs MoveProofs3.
From Verif Require Import LaunchModel LaunchSpec LaunchProofs LaunchProofs2 DeviceModel DeviceProofs.
Import ListNotations.

(** A tensor that is contiguous from the start of its storage keeps its shape
    and its elements on every device. *)
Theorem C134_to_device_partial : forall A (z : A) sched from to t,
  good t -> is_contiguous (tlay t) = true -> loffset (tlay t) = 0 ->
  exists r, t_to_device z sched from to t = Ok r /\ tshape r = tshape t /\
    forall i, valid (tshape t) i -> elem r i = elem t i.
Proof. exact to_device_spec. Qed.
Print Assumptions C134_to_device_partial.

(** Any other is read as if it were: what it gives at [i] is what the storage
    holds at the row-major position of [i]. *)
Theorem C134_to_device_reads : forall A (z : A) sched from to t, exists r, t_to_device z sched from to t = Ok r /\
  tshape r = tshape t /\ forall i, valid (tshape t) i -> elem r i = nth_error (tstore t) (ravel (tshape t) i).
Proof.
  intros A z sched from to t. exists (mkT (tstore t) (from_shape (tshape t))).
  split; [apply to_device_is|]. split; [reflexivity|]. intros i V. now apply elem_plain.
Qed.
Print Assumptions C134_to_device_reads.

(** The type a tensor has, asked for on the CPU, ... *)
Theorem C134_dtype_cpu_partial : forall A (z : A) sched t, good t -> (tshape t <> [] \/ loffset (tlay t) = 0) ->
  exists r, t_same_dtype z sched Cpu t = Ok r /\ good r /\ tshape r = tshape t /\
    forall i, valid (tshape t) i -> elem r i = elem t i.
Proof. exact same_cpu. Qed.
Print Assumptions C134_dtype_cpu_partial.

(** ... and on another device, under every schedule of the copy. *)
Theorem C134_dtype_gpu_partial : forall A (z : A) sched d t, d <> Cpu -> ending sched -> good t ->
  (Z.of_nat (nelem (tshape t)) <= 2 ^ 32 - 256)%Z -> (Z.of_nat (length (tstore t)) <= 2 ^ 32)%Z ->
  is_contiguous (tlay t) = false \/ loffset (tlay t) = 0 ->
  exists r, t_same_dtype z sched d t = Ok r /\ tshape r = tshape t /\
    forall i, valid (tshape t) i -> elem r i = elem t i.
Proof. exact same_gpu. Qed.
Print Assumptions C134_dtype_gpu_partial.

(** [0 1 2; 3 4 5], its transpose, its second row, and its first element three times over. *)
Definition whole : tensor nat := mkT [0; 1; 2; 3; 4; 5] (from_shape [2; 3]).
Definition flipped : tensor nat := mkT [0; 1; 2; 3; 4; 5] (mkLayout [3; 2] [1; 3] 0).
Definition second : tensor nat := mkT [0; 1; 2; 3; 4; 5] (mkLayout [3] [1] 3).
Definition thrice : tensor nat := mkT [7] (mkLayout [3] [0] 0).

Lemma whole_good : good whole.
Proof. apply from_shape_good. reflexivity. Qed.
Lemma flipped_good : good flipped.
Proof.
  split; [reflexivity|]. intros i V. cbn in V. destruct i as [|a [|b [|]]]; cbn in *; lia.
Qed.
Lemma second_good : good second.
Proof.
  split; [reflexivity|]. intros i V. cbn in V. destruct i as [|a [|]]; cbn in *; lia.
Qed.
Lemma thrice_good : good thrice.
Proof.
  split; [reflexivity|]. intros i V. cbn in V. destruct i as [|a [|]]; cbn in *; lia.
Qed.

(** C134 is false of to_device for transposed, sliced and broadcast tensors, from any
    device to any, the same included. *)
Theorem C134_to_device_refuted : forall sched from to,
  good flipped /\ good second /\ good thrice /\
  (exists r, t_to_device 0 sched from to flipped = Ok r /\ elem flipped [0; 1] = Some 3 /\ elem r [0; 1] = Some 1) /\
  (exists r, t_to_device 0 sched from to second = Ok r /\ elem second [0] = Some 3 /\ elem r [0] = Some 0) /\
  (exists r, t_to_device 0 sched from to thrice = Ok r /\ elem thrice [2] = Some 7 /\ elem r [2] = None).
Proof.
  intros sched from to. split; [exact flipped_good|]. split; [exact second_good|]. split; [exact thrice_good|].
  repeat split; (eexists; split; [apply to_device_is|]; split; reflexivity).
Qed.
Print Assumptions C134_to_device_refuted.

(** The move makes the storage contiguous on the device it comes from: of a given
    layout the CPU takes the part named, the others all there is. *)
Theorem C134_storage_from : forall sched to,
  storage_to_device 0 sched Cpu to (tstore second) (tlay second) = Ok [3; 4; 5] /\
  forall from, from <> Cpu -> storage_to_device 0 sched from to (tstore second) (tlay second) = Ok [0; 1; 2; 3; 4; 5].
Proof. intros sched to. split; [reflexivity|]. intros [| |] N; try reflexivity. now destruct N. Qed.
Print Assumptions C134_storage_from.

(** C134 is false of to_dtype on the other devices for every contiguous tensor that
    starts further on and does not hold the same elements there. *)
Theorem C134_dtype_gpu_refuted : forall A (z : A) sched d t i x y, d <> Cpu -> is_contiguous (tlay t) = true ->
  valid (tshape t) i -> elem t i = Some x -> nth_error (tstore t) (ravel (tshape t) i) = Some y -> x <> y ->
  exists r, t_same_dtype z sched d t = Ok r /\ elem r i = Some y /\ elem r i <> elem t i.
Proof.
  intros A z sched d t i x y D C V X Y N. eexists. split; [now apply same_gpu_is|].
  rewrite elem_plain by exact V. split; [exact Y|]. congruence.
Qed.
Print Assumptions C134_dtype_gpu_refuted.
Example C134_dtype_gpu_ex : exists r, t_same_dtype 0 in_turn (Cuda 0) second = Ok r /\ elem r [1] = Some 1 /\ elem r [1] <> elem second [1].
Proof. apply (C134_dtype_gpu_refuted _ _ _ _ _ _ 4 1); try reflexivity; try discriminate. repeat constructor. Qed.

(** C134 is false of to_dtype on the CPU for a tensor without axes further on. *)
Definition alone : tensor nat := mkT [0; 1; 2; 3] (mkLayout [] [] 2).
Theorem C134_dtype_cpu_refuted : good alone /\
  (exists r, t_same_dtype 0 in_turn Cpu alone = Ok r /\ elem alone [] = Some 2 /\ elem r [] = Some 0).
Proof.
  split.
  - split; [reflexivity|]. intros i V. destruct i; [cbn; lia|destruct V].
  - eexists. split; [vm_compute; reflexivity|]. split; reflexivity.
Qed.
Print Assumptions C134_dtype_cpu_refuted.

(** The positive theorems apply to tensors in use. *)
Example C134_ex :
  (exists r, t_to_device 0 in_turn Cpu (Cuda 0) whole = Ok r /\ tshape r = [2; 3] /\ forall i, valid [2; 3] i -> elem r i = elem whole i) /\
  (exists r, t_same_dtype 0 in_turn Cpu second = Ok r /\ good r /\ tshape r = [3] /\ forall i, valid [3] i -> elem r i = elem second i) /\
  (exists r, t_same_dtype 0 in_turn (Cuda 0) flipped = Ok r /\ tshape r = [3; 2] /\ forall i, valid [3; 2] i -> elem r i = elem flipped i).
Proof.
  split; [|split].
  - apply (C134_to_device_partial nat 0 in_turn Cpu (Cuda 0) whole); [exact whole_good|reflexivity|reflexivity].
  - apply (C134_dtype_cpu_partial nat 0 in_turn second); [exact second_good|left; discriminate].
  - apply (C134_dtype_gpu_partial nat 0 in_turn (Cuda 0) flipped); try discriminate.
    + exact in_turn_ending.
    + exact flipped_good.
    + left. reflexivity.
Qed.
