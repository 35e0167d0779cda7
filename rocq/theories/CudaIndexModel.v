(** The indexing kernels of CUDA: index_select, index_put, gather and scatter,
    hodu_cuda_kernels/kernels/ops_indexing.cu L7-182, as be_cuda/storage/ops_indexing.rs
    L11-448 launches them.  The tensor operations in front of them, and the
    metadata, are those of the CPU (IndexModel.v).

    Simplifications: as in LaunchModel.v and IndexModel.v; in addition the arrays of
    16 coordinates that a kernel declares may not be exceeded ([None]). *)
From Coq Require Import List Arith ZArith Bool.
From Verif Require Import Base LayoutModel KernelModel TensorModel ReduceModel ScanModel MoveModel IndexModel LaunchModel.
Import ListNotations.

Section Elems.
Context {A : Type}.
Variable zero : A.
Variable sched : nat -> list nat.

(** ops_indexing.cu:32-35: a negative index counts from the end, and nothing is checked *)
Definition wrapped (ix : Z) (n : nat) : Z := (if ix <? 0 then ix + Z.of_nat n else ix)%Z.

(** ops_indexing.cu:7-43 [INDEX_SELECT_OP].  The terms of the flat index (L36-40) are
    summed with that of [dim] last; a sum below 0 is far outside as a size_t. *)
Definition cuda_index_select (input : list A) (indices : list Z) (out : list (option A)) (md : list nat)
    : option (list A) :=
  let? num_els := nth_error md 0 in
  let? nd := nth_error md 1 in
  let? input_shape := md_slice md 2 nd in
  let? input_strides := md_slice md (2 + nd) nd in
  let? input_offset := nth_error md (2 + 2 * nd) in
  let? dim := nth_error md (2 + 2 * nd + 1) in
  let? num_indices := nth_error md (2 + 2 * nd + 2) in
  elementwise sched num_els (fun id =>
    if 16 <? nd then None else
    let? oi := c_unravel id (adjust dim (fun _ => num_indices) input_shape) in
    let? k := nth_error oi dim in
    let? ix := nth_error indices k in
    let? n := nth_error input_shape dim in
    let? st := nth_error input_strides dim in
    let p := (Z.of_nat (flat_index input_offset (adjust dim (fun _ => 0%nat) oi) input_strides) + wrapped ix n * Z.of_nat st)%Z in
    if (p <? 0)%Z then None else nth_error input (Z.to_nat p)) out.

Definition cuda_t_index_select (t : tensor A) (dim : Z) (indices : tensor Z) : outcome (tensor A) :=
  let s := lshape (tlay t) in
  match axis_usize (length s) dim with
  | Some d =>
    if d <? length s then
      let n := layout_size (tlay indices) in
      let out := upd s d n in
      do st <- ub (cuda_index_select (tstore t) (tstore indices) (repeat None (shape_size out))
                     (index_select_metadata (tlay t) d n (shape_size out))) ;
      Ok (mkT st (from_shape out))
    else Panic
  | None => Panic
  end.

(** ops_indexing.cu:45-92 [INDEX_PUT_OP] *)
Definition cuda_index_put (input : list A) (indices : list Z) (values : list A) (out : list (option A)) (md : list nat)
    : option (list A) :=
  let? num_els := nth_error md 0 in
  let? nd := nth_error md 1 in
  let? input_shape := md_slice md 2 nd in
  let? input_strides := md_slice md (2 + nd) nd in
  let? values_strides := md_slice md (2 + 2 * nd) nd in
  let? input_offset := nth_error md (2 + 3 * nd) in
  let? values_offset := nth_error md (2 + 3 * nd + 1) in
  let? dim := nth_error md (2 + 3 * nd + 2) in
  let? num_indices := nth_error md (2 + 3 * nd + 3) in
  elementwise sched num_els (fun id =>
    if 16 <? nd then None else
    let? oi := c_unravel id input_shape in
    if num_indices =? 0 then nth_error input (flat_index input_offset oi input_strides)
    else
      let? n := nth_error md (2 + dim) in
      let? k := nth_error oi dim in
      match put_find 0 (firstn num_indices indices) n k with
      | Some j => nth_error values (flat_index values_offset (adjust dim (fun _ => j) oi) values_strides)
      | None => if length indices <? num_indices then None
                else nth_error input (flat_index input_offset oi input_strides)
      end) out.

Definition cuda_t_index_put (t : tensor A) (dim : Z) (indices : tensor Z) (values : tensor A)
    : outcome (tensor A) :=
  let s := lshape (tlay t) in
  match axis_usize (length s) dim with
  | Some d =>
    if d <? length s then
      do st <- ub (cuda_index_put (tstore t) (tstore indices) (tstore values) (repeat None (shape_size s))
                     (index_put_metadata (tlay t) (tlay values) d (layout_size (tlay indices)) (shape_size s))) ;
      Ok (mkT st (tlay t))
    else Err EAxis
  | None => Err EAxis
  end.

(** ops_indexing.cu:94-135 [GATHER_OP] *)
Definition cuda_gather (input : list A) (indices : list Z) (out : list (option A)) (md : list nat)
    : option (list A) :=
  let? num_els := nth_error md 0 in
  let? nd := nth_error md 1 in
  let? output_shape := md_slice md 2 nd in
  let? input_shape := md_slice md (2 + nd) nd in
  let? input_strides := md_slice md (2 + 2 * nd) nd in
  let? indices_strides := md_slice md (2 + 3 * nd) nd in
  let? input_offset := nth_error md (2 + 4 * nd) in
  let? indices_offset := nth_error md (2 + 4 * nd + 1) in
  let? dim := nth_error md (2 + 4 * nd + 2) in
  elementwise sched num_els (fun id =>
    if 16 <? nd then None else
    let? oi := c_unravel id output_shape in
    let? ix := nth_error indices (flat_index indices_offset oi indices_strides) in
    let? n := nth_error input_shape dim in
    let w := wrapped ix n in
    if ((w <? 0) || (w >=? Z.of_nat n))%Z then Some zero
    else nth_error input (flat_index input_offset (adjust dim (fun _ => Z.to_nat w) oi) input_strides)) out.

Definition cuda_t_gather (t : tensor A) (dim : Z) (indices : tensor Z) : outcome (tensor A) :=
  let nd := length (lshape (tlay t)) in
  match axis_usize nd dim with
  | Some d =>
    if d <? nd then
      let n := layout_size (tlay indices) in
      do st <- ub (cuda_gather (tstore t) (tstore indices) (repeat None n)
                     (gather_metadata (tlay t) (tlay indices) d n)) ;
      Ok (mkT st (tlay indices))
    else Err EAxis
  | None => Err EAxis
  end.

(** What a round writes, if anything, and where ([Some None]: nothing) *)
Definition puts (write : nat -> option (option (nat * A))) (ids : list nat) (out : list (option A)) : option (list (option A)) :=
  fold_left (fun o id =>
    let? out := o in
    let? w := write id in
    match w with
    | None => Some out
    | Some (p, v) => c_store out p (Some v)
    end) ids (Some out).

(** ops_indexing.cu:137-182 [SCATTER_OP].  [input] is not read; the output is
    addressed with the strides and the offset of the input (L170-174). *)
Definition cuda_scatter (indices : list Z) (src : list A) (out : list (option A)) (md : list nat)
    : option (list (option A)) :=
  let? num_els := nth_error md 0 in
  let? nd := nth_error md 1 in
  let? input_shape := md_slice md 2 nd in
  let? input_strides := md_slice md (2 + nd) nd in
  let? src_shape := md_slice md (2 + 2 * nd) nd in
  let? src_strides := md_slice md (2 + 3 * nd) nd in
  let? indices_strides := md_slice md (2 + 4 * nd) nd in
  let? input_offset := nth_error md (2 + 5 * nd) in
  let? src_offset := nth_error md (2 + 5 * nd + 1) in
  let? indices_offset := nth_error md (2 + 5 * nd + 2) in
  let? dim := nth_error md (2 + 5 * nd + 3) in
  puts (fun id =>
    if 16 <? nd then None else
    let? si := c_unravel id src_shape in
    let? ix := nth_error indices (flat_index indices_offset si indices_strides) in
    let? n := nth_error input_shape dim in
    let w := wrapped ix n in
    if ((w <? 0) || (w >=? Z.of_nat n))%Z then Some None
    else
      let? v := nth_error src (flat_index src_offset si src_strides) in
      Some (Some (flat_index input_offset (adjust dim (fun _ => Z.to_nat w) si) input_strides, v)))
    (log (execute Short num_els (sched num_els))) out.

(** be_cuda/storage/ops_indexing.rs:330-448.  The output has as many elements as the
    shape of the input (L397) and starts with nothing determined; the kernel is the
    same whatever the operation (L379).  The result is a storage some elements
    of which nothing may have determined. *)
Definition cuda_t_scatter (op : scatter_op) (t : tensor A) (dim : Z) (indices : tensor Z) (src : tensor A)
    : outcome (tensor (option A)) :=
  let nd := length (lshape (tlay t)) in
  match axis_usize nd dim with
  | Some d =>
    if d <? nd then
      do st <- ub (cuda_scatter (tstore indices) (tstore src) (repeat None (shape_size (lshape (tlay t))))
                     (scatter_metadata (tlay t) (tlay indices) (tlay src) d)) ;
      Ok (mkT st (tlay t))
    else Err EAxis
  | None => Err EAxis
  end.
End Elems.
