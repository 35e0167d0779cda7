(** Operations that move elements, on CUDA: concat, split, chunk, flip and
    padding.  crates/hodu_cuda_kernels/kernels/ops_concat_split.cu,
    ops_shape_memory.cu and ops_padding.cu, launched by
    be_cuda/storage/ops_concat_split.rs, ops_shape_memory.rs and ops_padding.rs.  The
    tensor operations in front of them, the metadata and the
    element types left open (but for concat and split) are those of MoveModel.v.

    Simplifications: as in LaunchModel.v and MoveModel.v; copies between host and
    device do not fail. *)
From Coq Require Import List Arith ZArith Bool.
From Verif Require Import Base LayoutModel KernelModel TensorModel ReduceModel MoveModel TileSpec EncodeModel LaunchModel.
Import ListNotations.

(** The element types concat and split are written for
    (be_cuda/storage/ops_concat_split.rs:140-150, 222-231). *)
Definition cuda_joins (d : dtype) : bool :=
  match d with F32 | I32 | U32 | F16 | BF16 | F64 => true | _ => false end.

Section Elems.
Context {A : Type}.
Variable sched : nat -> list nat.

(** LaunchModel.elementwise for kernels of kind [Once] *)
Definition once_each {B} (n : nat) (body : nat -> option B) (out : list (option B)) : option (list B) :=
  all_some (stores body (log (execute Once n (sched n))) out).

(** ops_concat_split.cu:6-48 [CONCAT_OP] *)
Definition cuda_concat (input : list A) (out : list (option A)) (md : list nat) : option (list A) :=
  let? num_els := nth_error md 0 in
  let? nd := nth_error md 1 in
  let? output_shape := md_slice md 2 nd in
  let? concat_dim := nth_error md (2 + nd) in
  let? ni := nth_error md (2 + nd + 1) in
  let shapes_at := 2 + nd + 2 in
  let strides_at := shapes_at + ni * nd in
  let offsets_at := strides_at + ni * nd in
  let buffers_at := offsets_at + ni in
  elementwise sched num_els (fun id =>
    if 16 <? nd then None
    else
      let? oi := c_unravel id output_shape in
      let? dim_index := nth_error oi concat_dim in
      let? sizes := mapO (fun i => nth_error md (shapes_at + (i * nd + concat_dim))) (seq 0 ni) in
      let (ti, cum) := concat_find 0 0 dim_index sizes in
      let? st := md_slice md (strides_at + ti * nd) nd in
      let? off := nth_error md (offsets_at + ti) in
      let? boff := nth_error md (buffers_at + ti) in
      nth_error input (boff + flat_index off (adjust concat_dim (fun x => x - cum) oi) st)) out.

(** be_cuda/storage/ops_concat_split.rs:11-151 [call_ops_concat]: the storages are
    fetched to the host, packed and sent back (L103-118) *)
Definition cuda_call_concat (dt : dtype) (sts : list (list A)) (ls : list layout) (dim : nat) : outcome (list A) :=
  let s0 := match ls with l :: _ => lshape l | [] => [] end in
  let nd := length s0 in
  if nd <=? dim then Err EAxis
  else if negb (forallb (fun l =>
            (length (lshape l) =? nd) &&
            forallb (fun d => (d =? dim) || (nth d (lshape l) 0 =? nth d s0 0)) (seq 0 nd)) ls)
  then Err EInternal
  else
    let out := upd s0 dim (list_sum (map (fun l => nth dim (lshape l) 0) ls)) in
    if negb (cuda_joins dt) then Err EDType else
    ub (cuda_concat (concat sts) (repeat None (shape_size out)) (concat_metadata ls dim out)).

(** tensor/ops/concat_split.rs:14-108 *)
Definition cuda_t_concat (dt : dtype) (ts : list (tensor A)) (dim : Z) : outcome (tensor A) :=
  match ts with
  | [] => Err EInternal
  | t0 :: r =>
    let nd := length (lshape (tlay t0)) in
    let d := axis_usize nd dim in
    do out <- concat_dims (lshape (tlay t0)) d (map tlay r) ;
    do st <- cuda_call_concat dt (map tstore ts) (map tlay ts)
               (match d with Some d => d | None => nd end) ;
    Ok (mkT st (from_shape out))
  end.

(** ops_concat_split.cu:50-81 [SPLIT_OP] *)
Definition cuda_split (input : list A) (out : list (option A)) (md : list nat) : option (list A) :=
  let? num_els := nth_error md 0 in
  let? nd := nth_error md 1 in
  let? input_shape := md_slice md 2 nd in
  let? input_strides := md_slice md (2 + nd) nd in
  let? input_offset := nth_error md (2 + 2 * nd) in
  let? split_dim := nth_error md (2 + 2 * nd + 1) in
  let? out_size := nth_error md (2 + 2 * nd + 2) in
  let? split_offset := nth_error md (2 + 2 * nd + 3) in
  elementwise sched num_els (fun id =>
    if 16 <? nd then None
    else
      let? oi := c_unravel id (adjust split_dim (fun _ => out_size) input_shape) in
      nth_error input
        (flat_index input_offset (adjust split_dim (fun x => x + split_offset) oi) input_strides)) out.

(** be_cuda/storage/ops_concat_split.rs:153-232 [call_ops_split]; a piece may start
    at the end, unlike on the CPU (MoveModel.call_ops_split) *)
Definition cuda_call_split (dt : dtype) (storage : list A) (l : layout) (dim start size : nat) : outcome (list A) :=
  match nth_error (lshape l) dim with
  | None => Err EAxis
  | Some d =>
    if d <? start + size then Err EInternal
    else if negb (cuda_joins dt) then Err EDType
    else let n := shape_size (upd (lshape l) dim size) in
         ub (cuda_split storage (repeat None n) (split_metadata l dim size start n))
  end.

(** tensor/ops/concat_split.rs:131-240 *)
Fixpoint cuda_split_loop (dt : dtype) (t : tensor A) (dim : option nat) (start : nat) (sizes : list nat)
    : outcome (list (tensor A)) :=
  match sizes with
  | [] => Ok []
  | size :: r =>
    do st <- cuda_call_split dt (tstore t) (tlay t)
               (match dim with Some d => d | None => length (lshape (tlay t)) end) start size ;
    match dim with
    | Some d =>
      do rest <- cuda_split_loop dt t dim (start + size) r ;
      Ok (mkT st (from_shape (upd (lshape (tlay t)) d size)) :: rest)
    | None => Panic
    end
  end.
Definition cuda_t_split (dt : dtype) (t : tensor A) (sizes : list nat) (dim : Z) : outcome (list (tensor A)) :=
  cuda_split_loop dt t (axis_usize (length (lshape (tlay t))) dim) 0 sizes.

(** tensor/ops/concat_split.rs:242-268 *)
Definition cuda_t_chunk (dt : dtype) (t : tensor A) (chunks : nat) (dim : Z) : outcome (list (tensor A)) :=
  match axis_usize (length (lshape (tlay t))) dim with
  | None => Panic
  | Some d =>
    match nth_error (lshape (tlay t)) d with
    | None => Panic
    | Some n =>
      if chunks =? 0 then Panic
      else do sizes <- chunk_sizes n ((n + chunks - 1) / chunks) (seq 0 chunks) ;
           cuda_t_split dt t sizes dim
    end
  end.

(** ops_shape_memory.cu:14-40 [FLIP_OP] *)
Definition cuda_flip (input : list A) (out : list (option A)) (md : list nat) : option (list A) :=
  let? num_els := nth_error md 0 in
  let? nd := nth_error md 1 in
  let? shape := md_slice md 2 nd in
  let? mask := md_slice md (2 + nd) nd in
  once_each num_els (fun i =>
    let? y := map_walk i 1 (rev (map (fun p : nat * nat =>
        (fst p, fst p, fun c => Some (Some (if snd p =? 0 then c else fst p - 1 - c))))
        (combine shape mask))) in
    let? k := y in nth_error input k) out.

(** tensor/ops/shape_memory.rs:11-72 with be_cuda/storage/ops_shape_memory.rs:10-123 *)
Definition cuda_t_flip (t : tensor A) (dims : list Z) : outcome (tensor A) :=
  let nd := length (lshape (tlay t)) in
  let ds := map (fun d => match axis_usize nd d with Some d => d | None => nd end) dims in
  do st <- ub (cuda_flip (tstore t) (repeat None (layout_size (tlay t))) (flip_metadata (tlay t) ds)) ;
  Ok (mkT st (from_shape (lshape (tlay t)))).

(** ops_padding.cu:6-37: the three index functions are those of ops_padding.c:4-35
    (MoveModel.v), word for word; L39-76 (constant), L78-108, L110-140, L142-172: the
    kernels.  The stride of an axis is the product of the input dims after it. *)
Definition cuda_pad (m : pad_mode) (pv : A) (input : list A) (out : list (option A)) (md : list nat) : option (list A) :=
  let? num_els := nth_error md 0 in
  let? nd := nth_error md 1 in
  let? input_shape := md_slice md 2 nd in
  let? output_shape := md_slice md (2 + nd) nd in
  let? pad_before := md_slice md (2 + 2 * nd) nd in
  elementwise sched num_els (fun i =>
    let? y := map_walk i 1 (rev (map (fun p : nat * (nat * nat) =>
        (fst p, fst (snd p), pad_coord m (snd (snd p)) (fst (snd p))))
        (combine output_shape (combine input_shape pad_before)))) in
    match y with
    | None => Some pv
    | Some k => nth_error input k
    end) out.

(** tensor/ops/padding.rs:12-95 with be_cuda/storage/ops_padding.rs:12-324 *)
Definition cuda_t_pad (m : pad_mode) (pv : A) (t : tensor A) (padding : list (nat * nat)) : outcome (tensor A) :=
  let s := lshape (tlay t) in
  if negb (length padding =? length s) then Err ELayout
  else
    let out := map (fun p : nat * (nat * nat) => fst p + fst (snd p) + snd (snd p)) (combine s padding) in
    do st <- ub (cuda_pad m pv (tstore t) (repeat None (shape_size out))
                   (padding_metadata (tlay t) (map fst padding) out)) ;
    Ok (mkT st (from_shape out)).
End Elems.
