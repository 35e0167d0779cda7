(** Proofs about moving tensors between devices. *)
From Coq Require Import List Arith ZArith Bool Lia.
From Verif Require Import Base IndexSpec LayoutModel ViewSpec LayoutProofs KernelModel TensorModel TensorSpec KernelProofs TensorProofs MoveProofs3.
From Verif Require Import LaunchModel LaunchSpec LaunchProofs LaunchProofs2 DeviceModel.
Import ListNotations.

Lemma from_shape_storage : forall A (z : A) sched d st s, contiguous_on z sched d st (from_shape s) = Ok st.
Proof.
  intros A z sched d st s. unfold contiguous_on, storage_contiguous.
  destruct d; now rewrite from_shape_contiguous.
Qed.

(** What to_device gives: the storage as it is, under the shape alone. *)
Lemma to_device_is : forall A (z : A) sched from to t,
  t_to_device z sched from to t = Ok (mkT (tstore t) (from_shape (tshape t))).
Proof.
  intros A z sched from to t. unfold t_to_device, storage_to_device. fold (tshape t).
  rewrite from_shape_storage. reflexivity.
Qed.

Lemma elem_plain : forall A (st : list A) s i, valid s i ->
  elem (mkT st (from_shape s)) i = nth_error st (ravel s i).
Proof.
  intros A st s i V. unfold elem. cbn [tlay tstore]. rewrite addr_contiguous.
  - reflexivity.
  - apply from_shape_wf.
  - apply from_shape_contiguous.
  - now apply valid_length.
Qed.

Lemma to_device_spec : forall A (z : A) sched from to t, good t -> is_contiguous (tlay t) = true -> loffset (tlay t) = 0 ->
  exists r, t_to_device z sched from to t = Ok r /\ tshape r = tshape t /\
    forall i, valid (tshape t) i -> elem r i = elem t i.
Proof.
  intros A z sched from to t G C O. rewrite to_device_is. eexists. split; [reflexivity|]. split; [reflexivity|].
  intros i V. rewrite elem_plain by exact V. symmetry. apply plain_elem; auto.
  - now split.
  - now apply valid_length.
Qed.

(** A tensor without axes whose element is not the first of its storage is
    read wrongly by the CPU kernels. *)
Definition readable {A} (t : tensor A) : Prop := tshape t <> [] \/ loffset (tlay t) = 0.

Lemma same_cpu : forall A (z : A) sched t, good t -> readable t ->
  exists r, t_same_dtype z sched Cpu t = Ok r /\ good r /\ tshape r = tshape t /\
    forall i, valid (tshape t) i -> elem r i = elem t i.
Proof.
  intros A z sched t G OR. pose proof G as [Hw Hb]. unfold t_same_dtype, contiguous_on, storage_contiguous.
  destruct (is_contiguous (tlay t) && (loffset (tlay t) =? 0)) eqn:P.
  - apply andb_true_iff in P. destruct P as [C O]. apply Nat.eqb_eq in O.
    assert (E : forall i, valid (tshape t) i -> elem (mkT (tstore t) (from_shape (tshape t))) i = elem t i).
    { intros i V. rewrite elem_plain by exact V. symmetry.
      apply plain_elem; auto; [now split|now apply valid_length]. }
    eexists. split; [reflexivity|]. split; [|split; [reflexivity|exact E]].
    split; [apply from_shape_wf|]. intros i V. cbn [tlay tstore] in *. unfold tshape in *. cbn [lshape from_shape] in V.
    apply nth_error_Some. specialize (E i V). unfold elem in E. cbn [tlay tstore] in E. rewrite E.
    apply nth_error_Some. now apply Hb.
  - rewrite (contiguous_kernel_spec A z); auto; [|apply repeat_length].
    cbn [ub bind]. set (s := lshape (tlay t)).
    eexists. split; [reflexivity|]. split; [apply from_shape_good; now rewrite map_length, seq_length|].
    split; [reflexivity|]. intros i Hi. change (tshape t) with s in Hi. rewrite elem_fresh by auto.
    rewrite unravel_ravel by auto. symmetry. now apply elem_rd.
Qed.

(** On the other devices, a contiguous tensor is given back as it is stored. *)
Lemma same_gpu_is : forall A (z : A) sched d t, d <> Cpu -> is_contiguous (tlay t) = true ->
  t_same_dtype z sched d t = Ok (mkT (tstore t) (from_shape (tshape t))).
Proof.
  intros A z sched d t D C. unfold t_same_dtype, contiguous_on. destruct d; [congruence| |]; now rewrite C.
Qed.

Lemma same_gpu : forall A (z : A) sched d t, d <> Cpu -> ending sched -> good t ->
  (Z.of_nat (nelem (tshape t)) <= 2 ^ 32 - 256)%Z -> (Z.of_nat (length (tstore t)) <= 2 ^ 32)%Z ->
  is_contiguous (tlay t) = false \/ loffset (tlay t) = 0 ->
  exists r, t_same_dtype z sched d t = Ok r /\ tshape r = tshape t /\
    forall i, valid (tshape t) i -> elem r i = elem t i.
Proof.
  intros A z sched d t D E G N L H. destruct (is_contiguous (tlay t)) eqn:C.
  - destruct H as [H|H]; [discriminate|]. rewrite same_gpu_is by auto. eexists. split; [reflexivity|].
    split; [reflexivity|]. intros i V. rewrite elem_plain by exact V. symmetry.
    apply plain_elem; auto; [now split|now apply valid_length].
  - destruct (cuda_unary_spec A A sched (fun x => x) t (repeat None (layout_size (tlay t))) E G N L) as (r & R & _ & V).
    { apply repeat_length. }
    exists (mkT r (from_shape (tshape t))). split.
    + unfold t_same_dtype, contiguous_on. destruct d; [congruence| |]; rewrite C, R; reflexivity.
    + split; [reflexivity|]. intros i I. rewrite elem_plain by exact I.
      destruct (V i I) as (x & X & Y). now rewrite X.
Qed.

(** Whatever the layout was, what to_device gives at [i] is what the storage
    holds at the row-major position of [i]. *)
Lemma to_device_reads : forall A (z : A) sched from to t r i, t_to_device z sched from to t = Ok r -> valid (tshape t) i ->
  elem r i = nth_error (tstore t) (ravel (tshape t) i).
Proof.
  intros A z sched from to t r i H V. rewrite to_device_is in H. inversion H; subst r. now apply elem_plain.
Qed.
