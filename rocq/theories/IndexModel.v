(** Indexed reads and writes: index_select, index_put, gather and the scatter
    family.

    Simplifications: index tensors are i32, here [Z]; adding an axis length to a
    negative index does not overflow (axis lengths below 2^31); [size_t] values
    are [nat]; dtype and device checks are left out. *)
From Coq Require Import List Arith ZArith Bool.
From Verif Require Import Base LayoutModel KernelModel TensorModel ReduceModel ScanModel MoveModel.
Import ListNotations.

(** ops_indexing.c:60-67 (and L155-160, L274-281, L380-386): negative indices
    count from the end; [None] when still out of range *)
Definition wrap_index (ix : Z) (n : nat) : option nat :=
  let i := (if ix <? 0 then ix + Z.of_nat n else ix)%Z in
  if ((i <? 0) || (i >=? Z.of_nat n))%Z then None else Some (Z.to_nat i).

Section Elems.
Context {A : Type}.
Variable zero : A.   (* (TYPENAME)0 *)
Variable z : A.      (* content of freshly allocated memory *)

(* ---------- index_select ---------- *)

(** ops_indexing.c:31-84 [INDEX_SELECT_OP]; the output coordinates are decoded
    twice (L48-57 and L70-79), once here *)
Definition index_select_kernel (input : list A) (indices : list Z) (out : list A) (md : list nat)
    : option (list A) :=
  let? num_els := nth_error md 0 in
  let? nd := nth_error md 1 in
  let? input_shape := md_slice md 2 nd in
  let? input_strides := md_slice md (2 + nd) nd in
  let? input_offset := nth_error md (2 + 2 * nd) in
  let? dim := nth_error md (2 + 2 * nd + 1) in
  let? num_indices := nth_error md (2 + 2 * nd + 2) in
  seq_for num_els (fun id =>
    let? oi := c_unravel id (adjust dim (fun _ => num_indices) input_shape) in
    let? ix := nth_error indices (nth dim oi 0) in
    let? n := nth_error input_shape dim in
    match wrap_index ix n with
    | None => Some zero
    | Some s => nth_error input (flat_index input_offset (adjust dim (fun _ => s) oi) input_strides)
    end) out.

(** op_metadatas.rs:706-728 [index_select_metadata] *)
Definition index_select_metadata (l : layout) (dim num_indices out_num_els : nat) : list nat :=
  [out_num_els; length (lshape l)] ++ lshape l ++ lstrides l ++ [loffset l; dim; num_indices].

(** tensor/ops/indexing.rs:17-96 [Tensor::index_select], eager branch, with
    be_cpu/storage/ops_indexing.rs:22-117; L37 [output_dims[dim_usize]] panics
    when out of range.  The kernel is given the storage of the index tensor
    (ops_indexing.rs:39-42, 86), not its layout. *)
Definition t_index_select (t : tensor A) (dim : Z) (indices : tensor Z) : outcome (tensor A) :=
  let s := lshape (tlay t) in
  match axis_usize (length s) dim with
  | Some d =>
    if d <? length s then
      let n := layout_size (tlay indices) in
      let out := upd s d n in
      do st <- ub (index_select_kernel (tstore t) (tstore indices) (repeat z (shape_size out))
                     (index_select_metadata (tlay t) d n (shape_size out))) ;
      Ok (mkT st (from_shape out))
    else Panic
  | None => Panic
  end.

(* ---------- index_put ---------- *)

(** ops_indexing.c:151-164: the first index naming this coordinate *)
Fixpoint put_find (i : nat) (is : list Z) (n idx_at_dim : nat) : option nat :=
  match is with
  | [] => None
  | ix :: r =>
    let t := (if ix <? 0 then ix + Z.of_nat n else ix)%Z in
    if ((t >=? 0) && (t =? Z.of_nat idx_at_dim))%Z then Some i else put_find (S i) r n idx_at_dim
  end.
(** ops_indexing.c:128-195 [INDEX_PUT_OP].  [input_shape[dim]] (L154) is
    [metadata[2 + dim]]; reading past [indices] is UB. *)
Definition index_put_kernel (input : list A) (indices : list Z) (values out : list A) (md : list nat)
    : option (list A) :=
  let? num_els := nth_error md 0 in
  let? nd := nth_error md 1 in
  let? input_shape := md_slice md 2 nd in
  let? input_strides := md_slice md (2 + nd) nd in
  let? values_strides := md_slice md (2 + 2 * nd) nd in
  let? input_offset := nth_error md (2 + 3 * nd) in
  let? values_offset := nth_error md (2 + 3 * nd + 1) in
  let? dim := nth_error md (2 + 3 * nd + 2) in
  let? num_indices := nth_error md (2 + 3 * nd + 3) in
  seq_for num_els (fun id =>
    let? oi := c_unravel id input_shape in
    if num_indices =? 0 then nth_error input (flat_index input_offset oi input_strides)
    else
      let? n := nth_error md (2 + dim) in
      match put_find 0 (firstn num_indices indices) n (nth dim oi 0) with
      | Some j => nth_error values (flat_index values_offset (adjust dim (fun _ => j) oi) values_strides)
      | None => if length indices <? num_indices then None
                else nth_error input (flat_index input_offset oi input_strides)
      end) out.

(** op_metadatas.rs:734-772 [index_put_metadata] *)
Definition index_put_metadata (l vl : layout) (dim num_indices out_num_els : nat) : list nat :=
  [out_num_els; length (lshape l)] ++ lshape l ++ lstrides l ++ [loffset l]
  ++ lshape vl ++ lstrides vl ++ [loffset vl; dim; num_indices].

(** tensor/ops/indexing.rs:98-176 [Tensor::index_put], eager branch, with
    be_cpu/storage/ops_indexing.rs:138-272; the output starts as a copy of the
    input's storage and keeps the input's layout *)
Definition t_index_put (t : tensor A) (dim : Z) (indices : tensor Z) (values : tensor A)
    : outcome (tensor A) :=
  let s := lshape (tlay t) in
  match axis_usize (length s) dim with
  | Some d =>
    if d <? length s then
      do st <- ub (index_put_kernel (tstore t) (tstore indices) (tstore values) (tstore t)
                     (index_put_metadata (tlay t) (tlay values) d (layout_size (tlay indices)) (shape_size s))) ;
      Ok (mkT st (tlay t))
    else Err EAxis
  | None => Err EAxis
  end.

(* ---------- gather ---------- *)

(** ops_indexing.c:238-288 [GATHER_OP] *)
Definition gather_kernel (input : list A) (indices : list Z) (out : list A) (md : list nat)
    : option (list A) :=
  let? num_els := nth_error md 0 in
  let? nd := nth_error md 1 in
  let? output_shape := md_slice md 2 nd in
  let? input_shape := md_slice md (2 + nd) nd in
  let? input_strides := md_slice md (2 + 2 * nd) nd in
  let? indices_strides := md_slice md (2 + 3 * nd) nd in
  let? input_offset := nth_error md (2 + 4 * nd) in
  let? indices_offset := nth_error md (2 + 4 * nd + 1) in
  let? dim := nth_error md (2 + 4 * nd + 2) in
  seq_for num_els (fun id =>
    let? oi := c_unravel id output_shape in
    let? ix := nth_error indices (flat_index indices_offset oi indices_strides) in
    let? n := nth_error input_shape dim in
    match wrap_index ix n with
    | None => Some zero
    | Some s => nth_error input (flat_index input_offset (adjust dim (fun _ => s) oi) input_strides)
    end) out.

(** [for i in 0..ndim { if i < v.len() { v[i] } else { default } }] *)
Definition padded (nd : nat) (default : nat) (v : list nat) : list nat :=
  map (fun i => nth i v default) (seq 0 nd).

(** op_metadatas.rs:778-817 [gather_metadata] *)
Definition gather_metadata (l il : layout) (dim out_num_els : nat) : list nat :=
  [out_num_els; length (lshape l)] ++ lshape il ++ lshape l ++ lstrides l
  ++ padded (length (lshape l)) 0 (lstrides il) ++ [loffset l; loffset il; dim].

(** tensor/ops/indexing.rs:178-251 [Tensor::gather], eager branch, with
    be_cpu/storage/ops_indexing.rs:289-384; the result gets the layout of the
    index tensor (L196) *)
Definition t_gather (t : tensor A) (dim : Z) (indices : tensor Z) : outcome (tensor A) :=
  let nd := length (lshape (tlay t)) in
  match axis_usize nd dim with
  | Some d =>
    if d <? nd then
      let n := layout_size (tlay indices) in
      do st <- ub (gather_kernel (tstore t) (tstore indices) (repeat z n)
                     (gather_metadata (tlay t) (tlay indices) d n)) ;
      Ok (mkT st (tlay indices))
    else Err EAxis
  | None => Err EAxis
  end.

(* ---------- scatter ---------- *)

(** ops_indexing.c:333-417 [SCATTER_OP], L450-534 [SCATTER_ADD_OP], L537-621,
    L651-738 [SCATTER_MAX_OP], L768-855 [SCATTER_MIN_OP]; [f old new] is the
    value stored (SCATTER_OP does not read the old value).  [multi_idx] holds 32
    entries. *)
Definition scatter_kernel (f : A -> A -> A) (input : list A) (indices : list Z) (src out : list A)
    (md : list nat) : option (list A) :=
  let? num_els := nth_error md 0 in
  let? nd := nth_error md 1 in
  let? input_shape := md_slice md 2 nd in
  let? input_strides := md_slice md (2 + nd) nd in
  let? src_shape := md_slice md (2 + 2 * nd) nd in
  let? src_strides := md_slice md (2 + 3 * nd) nd in
  let? indices_strides := md_slice md (2 + 4 * nd) nd in
  let? input_offset := nth_error md (2 + 5 * nd) in
  let? src_offset := nth_error md (2 + 5 * nd + 1) in
  let? indices_offset := nth_error md (2 + 5 * nd + 2) in
  let? dim := nth_error md (2 + 5 * nd + 3) in
  let total := shape_size input_shape in
  let? out1 := seq_for total (fun i =>
    let? oi := c_unravel i input_shape in
    nth_error input (flat_index input_offset oi input_strides)) out in
  loopO (fun id out =>
    let? si := c_unravel id src_shape in
    let? ix := nth_error indices (flat_index indices_offset si indices_strides) in
    let? n := nth_error input_shape dim in
    match wrap_index ix n with
    | None => Some out
    | Some tgt =>
      if 32 <? nd then None
      else
        let at_ := flat_index 0 (adjust dim (fun _ => tgt) si) (compute_strides input_shape) in
        if total <=? at_ then Some out
        else let? v := nth_error src (flat_index src_offset si src_strides) in
             let? old := nth_error out at_ in
             c_store out at_ (f old v)
    end) (seq 0 num_els) out1.

(** op_metadatas.rs:823-877 [scatter_metadata] *)
Definition scatter_metadata (l il sl : layout) (dim : nat) : list nat :=
  let nd := length (lshape l) in
  [shape_size (lshape sl); nd] ++ lshape l ++ lstrides l
  ++ padded nd 1 (lshape sl) ++ padded nd 0 (lstrides sl) ++ padded nd 0 (lstrides il)
  ++ [loffset l; loffset sl; loffset il; dim].

Inductive scatter_op := Scatter | ScatterAdd | ScatterMax | ScatterMin.

(** be_cpu/storage/ops_indexing.rs:457: the kernel name is
    [format!("hodu_cpu_scatter_{}", dtype)] whatever the operation *)
Definition scatter_kernel_of (op : scatter_op) : scatter_op := Scatter.

Variables (add max min : A -> A -> A).
(** hodu_cpu_kernels/src/kernels/ops_indexing.rs:488-506: dispatch on the name *)
Definition scatter_combine (k : scatter_op) : A -> A -> A :=
  match k with
  | Scatter => fun _ v => v
  | ScatterAdd => add
  | ScatterMax => max
  | ScatterMin => min
  end.

(** tensor/ops/indexing.rs:253-567 [Tensor::scatter], [scatter_add],
    [scatter_max], [scatter_min], eager branch, with
    be_cpu/storage/ops_indexing.rs:400-533; the output starts as a copy of the
    input's storage and keeps the input's layout *)
Definition t_scatter (op : scatter_op) (t : tensor A) (dim : Z) (indices : tensor Z) (src : tensor A)
    : outcome (tensor A) :=
  let nd := length (lshape (tlay t)) in
  match axis_usize nd dim with
  | Some d =>
    if d <? nd then
      do st <- ub (scatter_kernel (scatter_combine (scatter_kernel_of op))
                     (tstore t) (tstore indices) (tstore src) (tstore t)
                     (scatter_metadata (tlay t) (tlay indices) (tlay src) d)) ;
      Ok (mkT st (tlay t))
    else Err EAxis
  | None => Err EAxis
  end.
End Elems.
