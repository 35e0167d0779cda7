(** Property C137: operations that move elements give on CUDA what they give on the CPU. *)
From Coq Require Import List Arith ZArith Bool Lia.
From Verif Require Import Base IndexSpec LayoutModel ViewSpec LayoutProofs KernelModel TensorModel TensorSpec TensorProofs MoveModel EncodeModel.
From Verif Require Import LaunchModel LaunchSpec LaunchProofs CudaIndexProofs2 CudaMoveModel CudaMoveProofs.
Import ListNotations.

(** concat, under every schedule that ends, for the element types it is written for. *)
Theorem C137_concat_partial : forall A (z : A) sched dt ts dim r, ending sched -> cuda_joins dt = true ->
  (Z.of_nat (nelem (tshape r)) <= 2 ^ 32 - 256)%Z ->
  t_concat z ts dim = Ok r -> cuda_t_concat sched dt ts dim = Ok r.
Proof. intros A z sched dt ts dim r EN. exact (t_concat_same A z sched EN dt ts dim r). Qed.
Print Assumptions C137_concat_partial.

(** split and chunk likewise *)
Theorem C137_split_partial : forall A (z : A) sched dt t sizes dim r, ending sched -> cuda_joins dt = true ->
  Forall (fun p => (Z.of_nat (nelem (tshape p)) <= 2 ^ 32 - 256)%Z) r ->
  t_split z t sizes dim = Ok r -> cuda_t_split sched dt t sizes dim = Ok r.
Proof. intros A z sched dt t sizes dim r EN. exact (t_split_same A z sched EN dt t sizes dim r). Qed.
Print Assumptions C137_split_partial.
Theorem C137_chunk_partial : forall A (z : A) sched dt t chunks dim r, ending sched -> cuda_joins dt = true ->
  Forall (fun p => (Z.of_nat (nelem (tshape p)) <= 2 ^ 32 - 256)%Z) r ->
  t_chunk z t chunks dim = Ok r -> cuda_t_chunk sched dt t chunks dim = Ok r.
Proof. intros A z sched dt t chunks dim r EN. exact (t_chunk_same A z sched EN dt t chunks dim r). Qed.
Print Assumptions C137_chunk_partial.

(** padding in its four modes, for every element type *)
Theorem C137_pad_partial : forall A (z : A) sched m pv t padding r, ending sched ->
  (Z.of_nat (nelem (tshape r)) <= 2 ^ 32 - 256)%Z ->
  t_pad z m pv t padding = Ok r -> cuda_t_pad sched m pv t padding = Ok r.
Proof. intros A z sched m pv t padding r EN. exact (t_pad_same A z sched EN m pv t padding r). Qed.
Print Assumptions C137_pad_partial.

(** flip, one thread to an element *)
Theorem C137_flip_partial : forall A (z : A) sched (t : tensor A) dims r, (forall n, over (execute Once n (sched n))) ->
  (Z.of_nat (nelem (tshape r)) < 2 ^ 32)%Z -> t_flip z t dims = Ok r -> cuda_t_flip sched t dims = Ok r.
Proof. exact t_flip_same. Qed.
Print Assumptions C137_flip_partial.

(** The inputs of C27_ex, C28, C30 and C32 on CUDA. *)
Example C137_ex_concat :
  cuda_t_concat swift F32 [mkT [1;2]%Z (from_shape [2;1]); mkT [3;4;5;6]%Z (mkLayout [2;2] [1;2] 0);
                mkT [0;0;7;8]%Z (mkLayout [2;1] [1;1] 2)] (-1)%Z
  = Ok (mkT [1;3;5;7; 2;4;6;8]%Z (from_shape [2;4])).
Proof. apply (C137_concat_partial _ 0%Z); [exact swift_ending|reflexivity|now vm_compute|reflexivity]. Qed.
Example C137_ex_split :
  cuda_t_split swift I32 (mkT [1;2;3;4;5;6]%Z (mkLayout [2;3] [1;2] 0)) [2;1]%nat 1%Z
  = Ok [mkT [1;3;2;4]%Z (from_shape [2;2]); mkT [5;6]%Z (from_shape [2;1])].
Proof.
  apply (C137_split_partial _ 0%Z); [exact swift_ending|reflexivity| |reflexivity]. repeat constructor; now vm_compute.
Qed.
Example C137_ex_chunk :
  cuda_t_chunk swift F16 (mkT [1;2;3;4;5]%Z (from_shape [5])) 3 0%Z
  = Ok [mkT [1;2]%Z (from_shape [2]); mkT [3;4]%Z (from_shape [2]); mkT [5]%Z (from_shape [1])].
Proof.
  apply (C137_chunk_partial _ 0%Z); [exact swift_ending|reflexivity| |reflexivity]. repeat constructor; now vm_compute.
Qed.
Example C137_ex_pad :
  cuda_t_pad swift PadReflect 0%Z (mkT [1;2;3]%Z (from_shape [3])) [(5,4)]%nat
  = Ok (mkT [2;1;2;3;2;1;2;3;2;1;2;3]%Z (from_shape [12])).
Proof. apply (C137_pad_partial _ 0%Z); [exact swift_ending|now vm_compute|reflexivity]. Qed.
(** every thread once *)
Definition each_thread (n : nat) : list nat := seq 0 (launched n).
Lemma each_thread_over : forall n, over (execute Once n (each_thread n)).
Proof.
  intro n. apply over_path. intros t T.
  assert (C : count_occ Nat.eq_dec (each_thread n) t = 1).
  { apply (proj1 (NoDup_count_occ' Nat.eq_dec _) (seq_NoDup (launched n) 0)). apply in_seq. lia. }
  rewrite C. cbn [path]. destruct (t <? launched n); [|reflexivity]. destruct (t <? n); reflexivity.
Qed.
Example C137_ex_flip :
  cuda_t_flip each_thread (mkT [1;2;3;4;5;6]%Z (from_shape [2;3])) [-1]%Z = Ok (mkT [3;2;1;6;5;4]%Z (from_shape [2;3])).
Proof. apply (C137_flip_partial _ 0%Z); [exact each_thread_over|now vm_compute|reflexivity]. Qed.

(** C137 is false of concat and split for the other nine element types: there is no
    result at all. *)
Theorem C137_types_refuted : forall A sched dt ts dim, cuda_joins dt = false ->
  (forall r, cuda_t_concat (A := A) sched dt ts dim <> Ok r) /\
  (forall t size sizes r, cuda_t_split (A := A) sched dt t (size :: sizes) dim <> Ok r).
Proof.
  intros A sched dt ts dim D. split.
  - intros r H. unfold cuda_t_concat in H. destruct ts as [|t0 ts]; [discriminate|].
    destruct (concat_dims _ _ _) as [out| |]; try discriminate. cbn [bind] in H.
    unfold cuda_call_concat in H. rewrite D in H. cbn [negb] in H.
    destruct (_ <=? _); [discriminate|]. destruct (negb (forallb _ _)); discriminate.
  - intros t size sizes r H. unfold cuda_t_split in H. cbn [cuda_split_loop] in H. unfold cuda_call_split in H. rewrite D in H. cbn [negb] in H.
    destruct (nth_error _ _); [|discriminate]. destruct (_ <? _); discriminate.
Qed.
Print Assumptions C137_types_refuted.
(** the types written for are exactly these six *)
Example C137_types_joined : forall d, cuda_joins d = true <-> In d [F32; F64; F16; BF16; I32; U32].
Proof. intro d. destruct d; cbn; split; intro H; try reflexivity; try discriminate; try tauto; repeat destruct H as [H|H]; try discriminate; contradiction. Qed.
Example C137_types_ex : cuda_joins U8 = false /\
  t_concat 0 [mkT [1] (from_shape [1]); mkT [2] (from_shape [1])] 0%Z = Ok (mkT [1; 2] (from_shape [2])).
Proof. split; reflexivity. Qed.

(** C137 is false of a piece of no elements at the end: refused on the CPU, given on CUDA. *)
Theorem C137_empty_piece_refuted : forall sched, ending sched ->
  let t := mkT [1; 2] (from_shape [2]) in
  t_split 0 t [2; 0] 0%Z = Err EInternal /\
  cuda_t_split sched F32 t [2; 0] 0%Z = Ok [mkT [1; 2] (from_shape [2]); mkT [] (from_shape [0])].
Proof.
  intros sched EN t. split; [reflexivity|].
  assert (H1 : cuda_call_split sched F32 [1; 2] (from_shape [2]) 0 0 2 = Ok [1; 2]).
  { apply (call_split_same _ 0 sched EN); [reflexivity|now vm_compute|reflexivity]. }
  assert (H2 : cuda_call_split sched F32 [1; 2] (from_shape [2]) 0 2 0 = Ok []).
  { unfold cuda_call_split. cbn [from_shape lshape nth_error cuda_joins negb]. change (2 <? 2 + 0) with false. cbn iota.
    change (shape_size (upd [2] 0 0)) with 0. cbn [repeat].
    rewrite (split_same nat sched EN [1; 2] [] [] _ [] 0); auto; try reflexivity. now vm_compute. }
  unfold cuda_t_split. change (axis_usize (length (lshape (tlay t))) 0) with (Some 0). cbn [cuda_split_loop].
  change (tstore t) with [1; 2]. change (tlay t) with (from_shape [2]). rewrite H1. cbn [bind Nat.add]. rewrite H2. reflexivity.
Qed.
Print Assumptions C137_empty_piece_refuted.
