(** Filling with a constant: hodu_cpu_kernels/kernels/storage.c, hodu_cuda_kernels/kernels/storage.cu,
    be_cpu/storage.rs and be_cuda/storage.rs [const_set], tensor/creation.rs [zeros], [ones], [full].

    Simplifications: as in KernelModel.v and LaunchModel.v; [A] is the type of the elements of
    the storage, and a scalar of another type is only known to be of another type; outside a
    capture; [empty] leaves its cells undetermined and is left out. *)
From Coq Require Import List Arith ZArith Bool.
From Verif Require Import Base IndexSpec LayoutModel KernelModel TensorModel ScanModel SortModel EncodeModel.
From Verif Require Import TileModel LaunchModel.
Import ListNotations.

(** be_cpu/storage.rs:338-347, be_cuda/storage.rs:277-286 *)
Definition fill_metadata (l : layout) : list nat :=
  layout_size l :: length (lshape l) :: lshape l ++ firstn (length (lshape l)) (lstrides l) ++ [loffset l].

Section Fill.
Context {A : Type}.

(** storage.c:28-34: the workers of the loop, each writing [offset + i] *)
Definition shifted (offset : nat) (ths : list (nat * nat)) : list (nat * nat) :=
  map (fun '(x, y) => (offset + x, offset + y)) ths.
Definition fill_contiguous (e : env) (n offset : nat) (v : A) (out : list A) : option (list A) :=
  let k := get_optimal_threads e n in
  if 1 <? k then run_sched (fun _ => Some v) (sched e n) (shifted offset (chunks n k)) out
  else seq_for_from offset n (fun _ => Some v) out.
(** storage.c:36-82 [IMPL_CONST_SET_OP] *)
Definition cpu_const_set (e : env) (out : list A) (v : A) (md : list nat) : option (list A) :=
  let? n := nth_error md 0 in
  let? nd := nth_error md 1 in
  let? dims := md_slice md 2 nd in
  let? strides := md_slice md (2 + nd) nd in
  let? offset := if 0 <? nd then nth_error md (2 + 2 * nd) else Some 0 in
  if c_is_contiguous dims strides then fill_contiguous e n offset v out
  else loopO (fun i out => let? p := c_strided i dims strides in c_store out (offset + p) v) (seq 0 n) out.

(** storage.cu:6-27 [CONST_SET_OP]: the address of the strided case has 32 bits *)
Definition cuda_const_set (launch : nat -> list nat) (out : list A) (v : A) (md : list nat) : option (list A) :=
  let? n := nth_error md 0 in
  let? nd := nth_error md 1 in
  let? dims := md_slice md 2 nd in
  let? strides := md_slice md (2 + nd) nd in
  let? offset := nth_error md (2 + 2 * nd) in
  let cont := c_is_contiguous dims strides in
  loopO (fun i out =>
    let? p := if cont then Some (offset + i) else let? q := strided32 i dims strides in Some (as_u32 (offset + q)) in
    c_store out p v) (log (execute Short n (launch n))) out.

(** where it runs: the platform of the CPU or the schedule of the device *)
Inductive filler := OnCpu (e : env) | OnCuda (launch : nat -> list nat).
(** be_cpu/storage.rs:329-392, be_cuda/storage.rs:271-335 [const_set] of a scalar of the type [d'] *)
Definition storage_const_set (w : filler) (d d' : dtype) (st : list A) (v : A) (l : layout) : outcome (list A) :=
  if tag d =? tag d' then
    ub match w with
       | OnCpu e => cpu_const_set e st v (fill_metadata l)
       | OnCuda launch => cuda_const_set launch st v (fill_metadata l)
       end
  else Err EDType.

(** creation.rs:126-142 [zeros], be/device.rs:73-93 *)
Definition t_zeros (zero : A) (s : shape) : tensor A := mkT (repeat zero (shape_size s)) (from_shape s).
(** creation.rs:171-189 [full] of a value of the type [d]; [ones] (L148-165) is [full] of
    Scalar::one(dtype), whose type is [dtype] (scalar.rs:256-281) *)
Definition t_filled (w : filler) (zero : A) (d : dtype) (s : shape) (v : A) : outcome (tensor A) :=
  do st <- storage_const_set w d d (repeat zero (shape_size s)) v (from_shape s) ;
  Ok (mkT st (from_shape s)).
End Fill.
