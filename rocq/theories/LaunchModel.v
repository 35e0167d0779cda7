(** Launching the CUDA kernels that work on elements one by one, and the
    element-wise kernels themselves: crates/hodu_cuda_kernels.

    A launch for [n] elements is [width n] blocks of 256 threads
    (src/kernels/ops_binary.rs:70-71 and the same two lines in all files there
    but ops_linalg.rs and ops_matrix.rs).  A thread works on its index and, in
    two of three kinds of kernels, goes on by the number of threads.  Nothing
    orders the threads: an execution is the list of the threads that move next,
    and one move is one round of the loop.

    Simplifications: [size_t] does not wrap; the work of a round is one step;
    [None] is a value nothing determines, as in an output buffer that is not
    initialised (be_cuda/device.rs:91-101) or a read outside a buffer.  The
    driver accepts every grid of this form: it has at most 2^24 blocks. *)
From Coq Require Import List Arith ZArith Bool.
From Verif Require Import Base IndexSpec LayoutModel KernelModel TensorModel TileModel TileSpec.
Import ListNotations.

(** The three kinds:
    - [Short]: for (uint32_t i = blockIdx.x * blockDim.x + threadIdx.x; i < n;
      i += blockDim.x * gridDim.x), in ops_binary.cu, ops_bitwise.cu,
      ops_cast.cu, ops_concat_split.cu, ops_conv.cu, ops_memory.cu,
      ops_padding.cu, ops_reduce.cu, ops_resize.cu, ops_unary.cu,
      ops_windowing.cu, storage.cu and most of ops_indexing.cu;
    - [Long]: the same with size_t i, in ops_indexing.cu:462, 564, 594, 682, 705,
      735, 756, 796;
    - [Once]: const size_t tid = ...; if (tid >= n) return, in ops_einsum.cu,
      ops_linalg.cu, ops_scan.cu, ops_shape_memory.cu, ops_sort.cu. *)
Inductive counter := Short | Long | Once.

(** grid_size = (num_els as u32).div_ceil(256).max(1) *)
Definition width (n : nat) : nat := Nat.max 1 ((as_u32 n + 255) / 256).
Definition launched (n : nat) : nat := 256 * width n.
(** blockDim.x * gridDim.x, in 32 bits *)
Definition stride (n : nat) : nat := as_u32 (launched n).

(** The index after [i], [None] if the thread returns *)
Definition advance (c : counter) (n i : nat) : option nat :=
  match c with
  | Short => Some (as_u32 (i + stride n))
  | Long => Some (i + stride n)
  | Once => None
  end.

(** [at_] has the index of each thread, [None] once it has returned; [log] the
    indices worked on, in order *)
Record progress := mkProgress { at_ : list (option nat); log : list nat }.
Definition begin (n : nat) : progress := mkProgress (map (fun t => Some (as_u32 t)) (seq 0 (launched n))) [].
Definition round (c : counter) (n : nat) (p : progress) (t : nat) : progress :=
  match nth_error (at_ p) t with
  | Some (Some i) =>
    if i <? n then mkProgress (upd (at_ p) t (advance c n i)) (log p ++ [i])
    else mkProgress (upd (at_ p) t None) (log p)
  | _ => p
  end.
Definition execute (c : counter) (n : nat) (sched : list nat) : progress := fold_left (round c n) sched (begin n).
Definition over (p : progress) : Prop := Forall (fun o => o = None) (at_ p).

(** A kernel whose round for [i] is [out[i] = body i] *)
Definition stores {B} (body : nat -> option B) (indices : list nat) (out : list (option B)) : list (option B) :=
  fold_left (fun o i => upd o i (body i)) indices out.
Definition elementwise {B} (sched : nat -> list nat) (n : nat) (body : nat -> option B) (out : list (option B)) : option (list B) :=
  all_some (stores body (log (execute Short n (sched n))) out).

(** utils.cuh:21-30 [get_strided_index]: as on the CPU (utils.h:29-38), returned in
    32 bits *)
Definition strided32 (i : nat) (dims strides : list nat) : option nat :=
  let? p := c_strided i dims strides in Some (as_u32 p).

(** ops_binary.cu:8-55 [BINARY_OP] (ops_bitwise.cu:20-66 is the same) *)
Definition cuda_binary {A C B} (sched : nat -> list nat) (f : A -> C -> B) (lhs : list A) (rhs : list C)
    (out : list (option B)) (md : list nat) : option (list B) :=
  let? n := nth_error md 0 in
  let? nd := nth_error md 1 in
  let? lsh := md_slice md 2 nd in
  let? rsh := md_slice md (2 + nd) nd in
  let? lst := md_slice md (2 + 2 * nd) nd in
  let? rst := md_slice md (2 + 3 * nd) nd in
  let? lo := nth_error md (2 + 4 * nd) in
  let? ro := nth_error md (2 + 4 * nd + 1) in
  let lc := c_is_contiguous lsh lst in
  let rc := c_is_contiguous rsh rst in
  elementwise sched n (fun i =>
    let? lp := (if lc then Some i else strided32 i lsh lst) in
    let? rp := (if rc then Some i else strided32 i rsh rst) in
    let? x := nth_error lhs (lo + lp) in
    let? y := nth_error rhs (ro + rp) in Some (f x y)) out.

(** ops_unary.cu:8-31 [UNARY_OP] (also UNARY_OP_WITH_SCALAR L33-58, ops_cast.cu:8-31,
    and ops_memory.cu:6-51, where [f] is the identity): uint32_t idx = offset +
    get_strided_index(...) *)
Definition cuda_unary {A B} (sched : nat -> list nat) (f : A -> B) (input : list A)
    (out : list (option B)) (md : list nat) : option (list B) :=
  let? n := nth_error md 0 in
  let? nd := nth_error md 1 in
  let? dims := md_slice md 2 nd in
  let? strides := md_slice md (2 + nd) nd in
  let? off := nth_error md (2 + 2 * nd) in
  let cont := c_is_contiguous dims strides in
  elementwise sched n (fun i =>
    let? p := (if cont then Some (off + i) else let? q := strided32 i dims strides in Some (as_u32 (off + q))) in
    let? x := nth_error input p in Some (f x)) out.
