(** The cumulative sum on CUDA: crates/hodu_cuda_kernels/kernels/ops_scan.cu, launched by
    crates/hodu_cuda_kernels/src/kernels/ops_scan.rs and be_cuda/storage/ops_scan.rs.

    A schedule is a list of threads; a turn of a thread is one iteration of its loop
    over the axis, so that the loops of different threads run interleaved.

    Simplifications: as in ScanModel.v (element and accumulator types, conversions and
    addition are parameters; no BOOL); copies between host and device do not fail.
    The conversions of the eight bit floats (ops_scan.cu:150-153) are left out. *)
From Coq Require Import List Arith ZArith Bool.
From Verif Require Import Base LayoutModel KernelModel TensorModel ReduceModel ScanModel TileModel TileSpec LaunchModel.
Import ListNotations.

Section K.
Context {A B C : Type}.
Variables (init : B) (add : B -> A -> B) (fin : B -> C).

(** For each thread its [s] and [acc], and the output so far; [None] stands for a
    cell which no thread has written. *)
Definition scan_state : Type := list (nat * B) * list (option C).

(** ops_scan.cu:51-80 [CUMSUM_OP], L118-147 [CUMSUM_OP_FLOAT]: thread [t] runs one iteration *)
Definition scan_turn (input : list A) (offset : nat) (shape strides : list nat) (dim num_scans inner_size scan_size : nat)
    (p : scan_state) (t : nat) : option scan_state :=
  match nth_error (fst p) t with
  | Some (s, acc) =>
    let tid := as_u32 t in
    if (tid <? num_scans) && (s <? scan_size) then
      let outer := tid / inner_size in
      let inner := tid mod inner_size in
      let? in_idx := scan_pos shape strides dim outer inner s in
      let? out_idx := scan_pos shape (compute_strides shape) dim outer inner s in
      let? x := nth_error input (offset + in_idx) in
      let acc' := add acc x in
      let? out' := c_store (snd p) out_idx (Some (fin acc')) in
      Some (upd (fst p) t (S s, acc'), out')
    else Some p
  | None => Some p
  end.

(** The threads launched for so many scans take turns as the schedule says. *)
Variable sched : nat -> nat -> list nat.

(** ops_scan.cu:16-81 [CUMSUM_OP], L83-148 [CUMSUM_OP_FLOAT]; [out_strides] has 16
    entries, of which the first [num_dims] are set.  Reading [shape[dim]] or
    [out_strides[dim]] beyond is undefined. *)
Definition cuda_cumsum (input : list A) (out : list (option C)) (copy : A -> C) (md : list nat) : option (list C) :=
  let? num_dims := nth_error md 1 in
  let? shape := md_slice md 2 num_dims in
  let? strides := md_slice md (2 + num_dims) num_dims in
  let? offset := nth_error md (2 + 2 * num_dims) in
  let? dim := nth_error md (3 + 2 * num_dims) in
  if num_dims =? 0 then
    let? x := nth_error input offset in
    let? o := c_store out 0 (Some (copy x)) in all_some o
  else if (16 <? num_dims) || (num_dims <=? dim) then None
  else
    let? scan_size := nth_error shape dim in
    let inner_size := shape_size (skipn (S dim) shape) in
    let num_scans := shape_size (firstn dim shape) * inner_size in
    let? p := loopO (fun t p => scan_turn input offset shape strides dim num_scans inner_size scan_size p t)
                (sched num_scans scan_size) (repeat (0, init) (launched num_scans), out) in
    all_some (snd p).

(** tensor/ops/scan.rs:11-56 [Tensor::cumsum], eager branch, with
    be_cuda/storage/ops_scan.rs:10-119.  The launch multiplies up [shape[d]] for
    [d < dim] on the host (kernels/ops_scan.rs:52-55), a panic for an axis
    beyond the rank. *)
Definition cuda_t_cumsum (copy : A -> C) (t : tensor A) (dim : Z) : outcome (tensor C) :=
  let nd := length (lshape (tlay t)) in
  match (if (dim <? 0)%Z then as_usize (Z.of_nat nd + dim) else as_usize dim) with
  | None => Panic
  | Some d =>
    if nd <? d then Panic
    else
      do st <- ub (cuda_cumsum (tstore t) (repeat None (layout_size (tlay t))) copy (scan_metadata (tlay t) d)) ;
      Ok (mkT st (from_shape (lshape (tlay t))))
  end.
End K.

(** Every thread launched gets a turn for each of its iterations. *)
Definition enough_turns (sched : nat -> nat -> list nat) : Prop :=
  forall n k t, t < launched n -> k <= count_occ Nat.eq_dec (sched n k) t.
