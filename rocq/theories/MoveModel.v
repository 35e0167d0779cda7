(** Operations that move elements: concat, split, chunk, flip and padding.

    Simplifications: element types are arbitrary (dtype and device checks left
    out); [size_t]/[long] values are [nat]/[Z] without wrap-around. *)
From Coq Require Import List Arith ZArith Bool.
From Verif Require Import Base LayoutModel KernelModel TensorModel ReduceModel.
Import ListNotations.

(** [dim_i32 < 0 ? (ndim + dim) as usize : dim as usize], used by every operation
    below (e.g. concat_split.rs:24-30); [None] is a huge value *)
Definition axis_usize (ndim : nat) (dim : Z) : option nat :=
  if (dim <? 0)%Z then as_usize (Z.of_nat ndim + dim) else as_usize dim.

(** change one coordinate: [(i == dim) ? f idx[i] : idx[i]] *)
Definition adjust (d : nat) (f : nat -> nat) (l : list nat) : list nat :=
  match nth_error l d with Some x => upd l d (f x) | None => l end.

Section Elems.
Context {A : Type}.
Variable z : A.

(* ---------- concat ---------- *)

(** ops_concat_split.c:52-65: which input holds coordinate [dim_index]; returns
    (tensor_idx, cumulative_size).  [sizes] are the inputs' sizes along the axis. *)
Fixpoint concat_find (i cumulative dim_index : nat) (sizes : list nat) : nat * nat :=
  match sizes with
  | [] => (0, cumulative)
  | d :: r => if dim_index <? cumulative + d then (i, cumulative)
              else concat_find (S i) (cumulative + d) dim_index r
  end.

(** ops_concat_split.c:29-81 [CONCAT_OP]; the size of input [i] along the axis is
    [input_shapes[i*num_dims + concat_dim]]. [None] when [dim_index] is below
    [cumulative_size] (wrap-around) cannot occur: then no input was found and
    [dim_index] is at least the total. *)
Definition concat_kernel (input out : list A) (md : list nat) : option (list A) :=
  let? num_els := nth_error md 0 in
  let? nd := nth_error md 1 in
  let? output_shape := md_slice md 2 nd in
  let? concat_dim := nth_error md (2 + nd) in
  let? ni := nth_error md (2 + nd + 1) in
  let shapes_at := 2 + nd + 2 in
  let strides_at := shapes_at + ni * nd in
  let offsets_at := strides_at + ni * nd in
  let buffers_at := offsets_at + ni in
  let? sizes := mapO (fun i => nth_error md (shapes_at + (i * nd + concat_dim))) (seq 0 ni) in
  seq_for num_els (fun id =>
    if 16 <? nd then None
    else
      let? oi := c_unravel id output_shape in
      let? dim_index := nth_error oi concat_dim in
      let (ti, cum) := concat_find 0 0 dim_index sizes in
      let? st := md_slice md (strides_at + ti * nd) nd in
      let? off := nth_error md (offsets_at + ti) in
      let? boff := nth_error md (buffers_at + ti) in
      nth_error input (boff + flat_index off (adjust concat_dim (fun x => x - cum) oi) st)) out.

(** op_metadatas.rs:604-651 [concat_metadata] *)
Fixpoint buffer_offsets (acc : nat) (ls : list layout) : list nat :=
  match ls with
  | [] => []
  | l :: r => acc :: buffer_offsets (acc + shape_size (lshape l)) r
  end.
Definition concat_metadata (ls : list layout) (dim : nat) (out_shape : list nat) : list nat :=
  [shape_size out_shape; length out_shape] ++ out_shape ++ [dim; length ls]
  ++ flat_map lshape ls ++ flat_map lstrides ls ++ map loffset ls ++ buffer_offsets 0 ls.

(** be_cpu/storage/ops_concat_split.rs:23-167 [call_ops_concat] (at least one
    input); the storages are packed one after the other (L121-127) *)
Definition call_ops_concat (sts : list (list A)) (ls : list layout) (dim : nat)
    : outcome (list A) :=
  let s0 := match ls with l :: _ => lshape l | [] => [] end in
  let nd := length s0 in
  if nd <=? dim then Err EAxis
  else if negb (forallb (fun l =>
            (length (lshape l) =? nd) &&
            forallb (fun d => (d =? dim) || (nth d (lshape l) 0 =? nth d s0 0)) (seq 0 nd)) ls)
  then Err EInternal
  else
    let out := upd s0 dim (list_sum (map (fun l => nth dim (lshape l) 0) ls)) in
    ub (concat_kernel (concat sts) (repeat z (shape_size out)) (concat_metadata ls dim out)).

(** tensor/ops/concat_split.rs:43-54: the output dims *)
Fixpoint concat_dims (acc : list nat) (dim : option nat) (ls : list layout) : outcome (list nat) :=
  match ls with
  | [] => Ok acc
  | l :: r =>
    if negb (length (lshape l) =? length acc) then Err EShape
    else match dim with
         | Some d =>
           match nth_error acc d with
           | Some x => concat_dims (upd acc d (x + nth d (lshape l) 0)) dim r
           | None => Panic
           end
         | None => Panic
         end
  end.

(** tensor/ops/concat_split.rs:14-108 [Tensor::concat], eager branch *)
Definition t_concat (ts : list (tensor A)) (dim : Z) : outcome (tensor A) :=
  match ts with
  | [] => Err EInternal
  | t0 :: r =>
    let nd := length (lshape (tlay t0)) in
    let d := axis_usize nd dim in
    do out <- concat_dims (lshape (tlay t0)) d (map tlay r) ;
    do st <- call_ops_concat (map tstore ts) (map tlay ts)
               (match d with Some d => d | None => nd end) ;
    Ok (mkT st (from_shape out))
  end.

(** tensor/ops/concat_split.rs:114-128 [Tensor::stack] *)
Definition t_stack (ts : list (tensor A)) (dim : Z) : outcome (tensor A) :=
  match ts with
  | [] => Err EInternal
  | _ => do us <- (fix go l := match l with
                     | [] => Ok []
                     | t :: r => do u <- t_view z (VUnsqueeze dim) t ;
                                 do us <- go r ; Ok (u :: us)
                     end) ts ;
         t_concat us dim
  end.

(* ---------- split and chunk ---------- *)

(** ops_concat_split.c:123-162 [SPLIT_OP] *)
Definition split_kernel (input out : list A) (md : list nat) : option (list A) :=
  let? num_els := nth_error md 0 in
  let? nd := nth_error md 1 in
  let? input_shape := md_slice md 2 nd in
  let? input_strides := md_slice md (2 + nd) nd in
  let? input_offset := nth_error md (2 + 2 * nd) in
  let? split_dim := nth_error md (2 + 2 * nd + 1) in
  let? out_size := nth_error md (2 + 2 * nd + 2) in
  let? split_offset := nth_error md (2 + 2 * nd + 3) in
  if 16 <? nd then None
  else
    let output_shape := adjust split_dim (fun _ => out_size) input_shape in
    seq_for num_els (fun id =>
      let? oi := c_unravel id output_shape in
      nth_error input
        (flat_index input_offset (adjust split_dim (fun x => x + split_offset) oi) input_strides)) out.

(** op_metadatas.rs:669-695 [split_metadata] *)
Definition split_metadata (l : layout) (dim size start out_num_els : nat) : list nat :=
  [out_num_els; length (lshape l)] ++ lshape l ++ lstrides l ++ [loffset l; dim; size; start].

(** be_cpu/storage/ops_concat_split.rs:182-275 [call_ops_split] *)
Definition call_ops_split (storage : list A) (l : layout) (dim start size : nat) : outcome (list A) :=
  match nth_error (lshape l) dim with
  | None => Err EAxis
  | Some d =>
    if d <=? start then Err EInternal
    else if d <? start + size then Err EInternal
    else let n := shape_size (upd (lshape l) dim size) in
         ub (split_kernel storage (repeat z n) (split_metadata l dim size start n))
  end.

(** tensor/ops/concat_split.rs:206-238: one piece per size *)
Fixpoint split_loop (t : tensor A) (dim : option nat) (start : nat) (sizes : list nat)
    : outcome (list (tensor A)) :=
  match sizes with
  | [] => Ok []
  | size :: r =>
    do st <- call_ops_split (tstore t) (tlay t)
               (match dim with Some d => d | None => length (lshape (tlay t)) end) start size ;
    match dim with
    | Some d =>
      do rest <- split_loop t dim (start + size) r ;
      Ok (mkT st (from_shape (upd (lshape (tlay t)) d size)) :: rest)
    | None => Panic
    end
  end.
(** tensor/ops/concat_split.rs:131-240 [Tensor::split], eager branch *)
Definition t_split (t : tensor A) (sizes : list nat) (dim : Z) : outcome (list (tensor A)) :=
  split_loop t (axis_usize (length (lshape (tlay t))) dim) 0 sizes.

(** tensor/ops/concat_split.rs:256-265: the sizes of the chunks; [end - start]
    underflows (a panic in debug builds, a huge value in release builds) when
    the chunk starts after the end, and [div_ceil] by 0 panics *)
Fixpoint chunk_sizes (dim_size chunk_size : nat) (is : list nat) : outcome (list nat) :=
  match is with
  | [] => Ok []
  | i :: r =>
    let start := i * chunk_size in
    let stop := Nat.min ((i + 1) * chunk_size) dim_size in
    if stop <? start then Panic
    else do rest <- chunk_sizes dim_size chunk_size r ;
         Ok (if 0 <? stop - start then (stop - start) :: rest else rest)
  end.
(** tensor/ops/concat_split.rs:242-268 [Tensor::chunk] *)
Definition t_chunk (t : tensor A) (chunks : nat) (dim : Z) : outcome (list (tensor A)) :=
  match axis_usize (length (lshape (tlay t))) dim with
  | None => Panic
  | Some d =>
    match nth_error (lshape (tlay t)) d with
    | None => Panic
    | Some n =>
      if chunks =? 0 then Panic
      else do sizes <- chunk_sizes n ((n + chunks - 1) / chunks) (seq 0 chunks) ;
           t_split t sizes dim
    end
  end.

(* ---------- kernels that map coordinates axis by axis ---------- *)

(** The loop [for (d = num_dims; d-- > 0;) { coord = remaining % out[d];
    remaining /= out[d]; ... input_idx += g(coord) * in_stride; }] of
    ops_shape_memory.c:28-35 and ops_padding.c:53-69 (L91-105, L126-140,
    L161-175); [in_stride] is the product of the input dims after [d].  An axis
    is (output dim, input dim, g); g answers [None] for undefined behaviour and
    [Some None] for "outside". *)
Definition axis_map : Type := nat * nat * (nat -> option (option nat)).
Fixpoint map_walk (remaining in_stride : nat) (axes : list axis_map) : option (option nat) :=
  match axes with
  | [] => Some (Some 0)
  | (od, id, g) :: r =>
    if od =? 0 then None
    else let? c := g (remaining mod od) in
         match c with
         | None => Some None
         | Some x => let? y := map_walk (remaining / od) (in_stride * id) r in
                     Some (option_map (fun y => x * in_stride + y) y)
         end
  end.

(** ops_shape_memory.c:13-40 [IMPL_FLIP_OP] *)
Definition flip_kernel (input out : list A) (md : list nat) : option (list A) :=
  let? num_els := nth_error md 0 in
  let? nd := nth_error md 1 in
  let? shape := md_slice md 2 nd in
  let? mask := md_slice md (2 + nd) nd in
  seq_for num_els (fun i =>
    let? y := map_walk i 1 (rev (map (fun p : nat * nat =>
        (fst p, fst p, fun c => Some (Some (if snd p =? 0 then c else fst p - 1 - c))))
        (combine shape mask))) in
    let? k := y in nth_error input k) out.

(** op_metadatas.rs:1580-1601 [flip_metadata] *)
Definition flip_metadata (l : layout) (dims : list nat) : list nat :=
  [layout_size l; length (lshape l)] ++ lshape l
  ++ map (fun d => if in_list dims d then 1 else 0) (seq 0 (length (lshape l))).

(** tensor/ops/shape_memory.rs:11-72 [Tensor::flip], eager branch, with
    be_cpu/storage/ops_shape_memory.rs:9-57.  Axes out of range are never met by
    [contains]. *)
Definition t_flip (t : tensor A) (dims : list Z) : outcome (tensor A) :=
  let nd := length (lshape (tlay t)) in
  let ds := map (fun d => match axis_usize nd d with Some d => d | None => nd end) dims in
  do st <- ub (flip_kernel (tstore t) (repeat z (layout_size (tlay t))) (flip_metadata (tlay t) ds)) ;
  Ok (mkT st (from_shape (lshape (tlay t)))).

(* ---------- padding ---------- *)

(** ops_padding.c:4-20 [reflect_index]; for size 0 [2 * (size - 1)] wraps around
    to 2^64 - 2 and the returned value is far outside any buffer: [None] *)
Definition reflect_index (idx : Z) (size : nat) : option nat :=
  let idx := (if idx <? 0 then - idx else idx)%Z in
  if (idx >=? Z.of_nat size)%Z then
    if size =? 0 then None
    else let period := (2 * (Z.of_nat size - 1))%Z in
         if (period >? 0)%Z then
           let idx := (idx mod period)%Z in
           Some (Z.to_nat (if (idx >=? Z.of_nat size)%Z then period - idx else idx)%Z)
         else Some 0
  else Some (Z.to_nat idx).

(** ops_padding.c:22-28 [replicate_index]; size 0: [size - 1] wraps around *)
Definition replicate_index (idx : Z) (size : nat) : option nat :=
  if (idx <? 0)%Z then Some 0
  else if (idx >=? Z.of_nat size)%Z then if size =? 0 then None else Some (size - 1)
  else Some (Z.to_nat idx).

(** ops_padding.c:30-35 [circular_index]; C's [%] truncates, hence [Z.rem] *)
Definition circular_index (idx : Z) (size : nat) : option nat :=
  if size =? 0 then None
  else let r := Z.rem idx (Z.of_nat size) in
       Some (Z.to_nat (if (r <? 0)%Z then r + Z.of_nat size else r)%Z).

Inductive pad_mode := PadConstant | PadReflect | PadReplicate | PadCircular.

(** ops_padding.c:57-62 and the corresponding lines of the other modes *)
Definition pad_coord (m : pad_mode) (before size c : nat) : option (option nat) :=
  let i := (Z.of_nat c - Z.of_nat before)%Z in
  match m with
  | PadConstant => Some (if ((i <? 0) || (i >=? Z.of_nat size))%Z then None else Some (Z.to_nat i))
  | PadReflect => option_map Some (reflect_index i size)
  | PadReplicate => option_map Some (replicate_index i size)
  | PadCircular => option_map Some (circular_index i size)
  end.

(** ops_padding.c:37-74 (constant), L76-109, L111-144, L146-179 *)
Definition pad_kernel (m : pad_mode) (pv : A) (input out : list A) (md : list nat) : option (list A) :=
  let? num_els := nth_error md 0 in
  let? nd := nth_error md 1 in
  let? input_shape := md_slice md 2 nd in
  let? output_shape := md_slice md (2 + nd) nd in
  let? pad_before := md_slice md (2 + 2 * nd) nd in
  seq_for num_els (fun i =>
    let? y := map_walk i 1 (rev (map (fun p : nat * (nat * nat) =>
        (fst p, fst (snd p), pad_coord m (snd (snd p)) (fst (snd p))))
        (combine output_shape (combine input_shape pad_before)))) in
    match y with
    | None => Some pv
    | Some k => nth_error input k
    end) out.

(** op_metadatas.rs:1374-1400 [padding_metadata] *)
Definition padding_metadata (l : layout) (before out_shape : list nat) : list nat :=
  [shape_size out_shape; length (lshape l)] ++ lshape l ++ out_shape ++ before.

(** tensor/ops/padding.rs:12-95 [Tensor::pad], eager branch, with
    be_cpu/storage/ops_padding.rs:11-240 *)
Definition t_pad (m : pad_mode) (pv : A) (t : tensor A) (padding : list (nat * nat))
    : outcome (tensor A) :=
  let s := lshape (tlay t) in
  if negb (length padding =? length s) then Err ELayout
  else
    let out := map (fun p : nat * (nat * nat) => fst p + fst (snd p) + snd (snd p)) (combine s padding) in
    do st <- ub (pad_kernel m pv (tstore t) (repeat z (shape_size out))
                   (padding_metadata (tlay t) (map fst padding) out)) ;
    Ok (mkT st (from_shape out)).
End Elems.
