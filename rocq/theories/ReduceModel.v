(** Reductions: kernels/ops_reduce.c, be_cpu/storage/ops_reduce.rs and
    tensor/ops/reduce.rs.

    Simplifications: element and accumulator types and the accumulating step are
    parameters; the vector loops of the f32/f64 kernels (which add in another order)
    are in SimdModel.v; early exit of [any]/[all] is not modelled (it does not change
    the result).  dtype validation left out. *)
From Coq Require Import List Arith ZArith Bool.
From Verif Require Import Base LayoutModel KernelModel TensorModel EncodeModel.
Import ListNotations.

(** ops_reduce.c:74-79 (and the same lines in the other index-decoding kernels):
    [for (d = n-1; d >= 0; d--) { idx[d] = temp % shape[d]; temp /= shape[d]; }].
    Works on the reversed shape and returns the reversed index. *)
Fixpoint c_unravel_rev (temp : nat) (rshape : list nat) : option (list nat) :=
  match rshape with
  | [] => Some []
  | d :: r => if d =? 0 then None
              else let? x := c_unravel_rev (temp / d) r in Some (temp mod d :: x)
  end.
Definition c_unravel (idx : nat) (shape : list nat) : option (list nat) :=
  option_map (@rev nat) (c_unravel_rev idx (rev shape)).

(** [in_list] : [dims.contains(&i)] (ops_reduce.rs:50), and the loop
    ops_reduce.c:90-95 *)
Definition in_list (ds : list nat) (i : nat) : bool := existsb (fun d => d =? i) ds.

(** ops_reduce.c:87-104: input indices when the reduced axes are squeezed out *)
Fixpoint spread (reduce_dims : list nat) (in_dim n : nat) (outs : list nat) : list nat :=
  match n with
  | 0 => []
  | S n' =>
    if in_list reduce_dims in_dim then 0 :: spread reduce_dims (S in_dim) n' outs
    else match outs with
         | x :: outs' => x :: spread reduce_dims (S in_dim) n' outs'
         | [] => 0 :: spread reduce_dims (S in_dim) n' []
         end
  end.

(** ops_reduce.c:108-113; [rrd] is [reduce_dims] from last to first *)
Fixpoint set_reduced (rrd : list nat) (temp : nat) (dims ii : list nat) : option (list nat) :=
  match rrd with
  | [] => Some ii
  | dim :: r =>
    let? d := nth_error dims dim in
    if d =? 0 then None
    else if dim <? length ii
         then set_reduced r (temp / d) dims (upd ii dim (temp mod d))
         else None
  end.

(** ops_reduce.c:115-118 *)
Fixpoint flat_index (acc : nat) (ii strides : list nat) : nat :=
  match ii, strides with
  | x :: ii', s :: st' => flat_index (acc + x * s) ii' st'
  | _, _ => acc
  end.

Section Kernel.
Context {A B C : Type}.
(** [step reduce_dims input_indices acc val]: the ACCUMULATE expression *)
Variable init : B.
Variable step : list nat -> list nat -> B -> A -> option B.
(** what is stored, given reduce_size and the accumulator *)
Variable fin : nat -> B -> C.

(** ops_reduce.c:106-122 *)
Fixpoint reduce_loop (input : list A) (dims strides : list nat) (offset : nat)
    (reduce_dims : list nat) (ks : list nat) (ii : list nat) (acc : B) : option B :=
  match ks with
  | [] => Some acc
  | k :: ks' =>
    let? ii' := set_reduced (rev reduce_dims) k dims ii in
    let? val := nth_error input (flat_index offset ii' strides) in
    let? acc' := step reduce_dims ii' acc val in
    reduce_loop input dims strides offset reduce_dims ks' ii' acc'
  end.

(** ops_reduce.c:48-125 [REDUCE_OP].  The local arrays hold 16 entries. *)
Definition reduce_kernel (input : list A) (out : list C) (md : list nat) : option (list C) :=
  let? num_dims := nth_error md 0 in
  let? dims := md_slice md 1 num_dims in
  let? strides := md_slice md (1 + num_dims) num_dims in
  let? offset := nth_error md (1 + 2 * num_dims) in
  let? out_len := nth_error md (2 + 2 * num_dims) in
  let? out_shape := md_slice md (3 + 2 * num_dims) out_len in
  let? num_red := nth_error md (3 + 2 * num_dims + out_len) in
  let? reduce_dims := md_slice md (4 + 2 * num_dims + out_len) num_red in
  let? keep_dim_val := nth_error md (4 + 2 * num_dims + out_len + num_red) in
  let? reduce_size := nth_error md (5 + 2 * num_dims + out_len + num_red) in
  seq_for (shape_size out_shape) (fun output_idx =>
    if (16 <? num_dims) || (16 <? out_len) then None
    else
      let? output_indices := c_unravel output_idx out_shape in
      let? input_indices :=
        (if negb (keep_dim_val =? 0)
         then md_slice output_indices 0 num_dims
         else Some (spread reduce_dims 0 num_dims output_indices)) in
      let? acc := reduce_loop input dims strides offset reduce_dims (seq 0 reduce_size)
                    input_indices init in
      Some (fin reduce_size acc)) out.
End Kernel.

(** op_metadatas.rs:529-544 and ops_reduce.rs:48-62 (the same lines) *)
Fixpoint reduced_dims (keep_dim : bool) (dims : list nat) (i : nat) (s : shape) : list nat :=
  match s with
  | [] => []
  | d :: s' =>
    let rest := reduced_dims keep_dim dims (S i) s' in
    if in_list dims i then (if keep_dim then 1 :: rest else rest) else d :: rest
  end.
Definition kernel_out_shape (keep_dim : bool) (dims : list nat) (s : shape) : list nat :=
  match reduced_dims keep_dim dims 0 s with [] => [1] | v => v end.

(** op_metadatas.rs:525-585 [reduce_metadata]; L549 [input_shape.dims()[dim]]
    panics when out of range, here 0 (the caller has checked the range) *)
Definition reduce_metadata (l : layout) (dims : list nat) (keep_dim : bool) : list nat :=
  let out := kernel_out_shape keep_dim dims (lshape l) in
  [length (lshape l)] ++ lshape l ++ lstrides l ++ [loffset l]
  ++ [length out] ++ out ++ [length dims] ++ dims
  ++ [if keep_dim then 1 else 0;
      fold_left (fun acc d => acc * nth d (lshape l) 0) dims 1].

(** be_cpu/storage/ops_reduce.rs:23-119 [call_ops_reduce] *)
Definition call_ops_reduce {A B C} (init : B) (step : list nat -> list nat -> B -> A -> option B)
    (fin : nat -> B -> C) (z : C) (storage : list A) (l : layout) (dims : list nat)
    (keep_dim : bool) : outcome (list C) :=
  if existsb (fun d => length (lshape l) <=? d) dims then Err EAxis
  else ub (reduce_kernel init step fin storage
             (repeat z (shape_size (kernel_out_shape keep_dim dims (lshape l))))
             (reduce_metadata l dims keep_dim)).

(** tensor/ops/reduce.rs:155-163: the axes as [usize]; [None] is a huge value *)
Definition reduce_axes (ndim : nat) (dims : list Z) : list (option nat) :=
  match dims with
  | [] => map Some (seq 0 ndim)
  | _ => map (fun d => if (d <? 0)%Z then as_usize (Z.of_nat ndim + d) else as_usize d) dims
  end.

(** tensor/ops/reduce.rs:165-172: [output_dims[dim] = 1 or 0], panicking when out
    of range; returns the axes too *)
Fixpoint mark_axes (keep_dim : bool) (out : list nat) (axes : list (option nat))
    : outcome (list nat * list nat) :=
  match axes with
  | [] => Ok (out, [])
  | None :: _ => Panic
  | Some d :: r =>
    if d <? length out
    then do p <- mark_axes keep_dim (upd out d (if keep_dim then 1 else 0)) r ;
         Ok (fst p, d :: snd p)
    else Panic
  end.

(** tensor/ops/reduce.rs:137-235 [reduce_operation], eager branch *)
Definition t_reduce {A B C} (init : B) (step : list nat -> list nat -> B -> A -> option B)
    (fin : nat -> B -> C) (z : C) (t : tensor A) (dims : list Z) (keep_dim : bool)
    : outcome (tensor C) :=
  let s := lshape (tlay t) in
  do p <- mark_axes keep_dim s (reduce_axes (length s) dims) ;
  let out := if keep_dim then fst p else filter (fun d => negb (d =? 0)) (fst p) in
  do st <- call_ops_reduce init step fin z (tstore t) (tlay t) (snd p) keep_dim ;
  Ok (mkT st (from_shape out)).

(** ops_reduce.c: accumulating operations that ignore the position, e.g.
    [acc += val] (L345-352), [acc = MAX(acc, val)] (L569-576) *)
Definition plain {A B} (f : B -> A -> B) : list nat -> list nat -> B -> A -> option B :=
  fun _ _ b v => Some (f b v).
Definition t_sum (t : tensor Z) (dims : list Z) (keep : bool) : outcome (tensor Z) :=
  t_reduce 0%Z (plain Z.add) (fun _ b => b) 0%Z t dims keep.
Definition t_prod (t : tensor Z) (dims : list Z) (keep : bool) : outcome (tensor Z) :=
  t_reduce 1%Z (plain Z.mul) (fun _ b => b) 0%Z t dims keep.
(** integer max/min start from the smallest / largest value of the type
    (L569-576, L793-800), here [lo] and [hi] *)
Definition t_max (lo : Z) (t : tensor Z) (dims : list Z) (keep : bool) : outcome (tensor Z) :=
  t_reduce lo (plain (fun acc v => if (acc >? v)%Z then acc else v)) (fun _ b => b) 0%Z t dims keep.
Definition t_min (hi : Z) (t : tensor Z) (dims : list Z) (keep : bool) : outcome (tensor Z) :=
  t_reduce hi (plain (fun acc v => if (acc <? v)%Z then acc else v)) (fun _ b => b) 0%Z t dims keep.
(** L1452-1471: the mean is the sum divided by reduce_size *)
Definition t_mean {A} (zero : A) (add : A -> A -> A) (div : A -> nat -> A) (t : tensor A)
    (dims : list Z) (keep : bool) : outcome (tensor A) :=
  t_reduce zero (plain add) (fun n b => div b n) zero t dims keep.

(** L2198-2284 [REDUCE_ARGMAX_OP]: state [None] while [first]; otherwise the best
    value and the coordinate along the first reduced axis. *)
Definition argmax_step {A} (gtb : A -> A -> bool)
    : list nat -> list nat -> option (A * nat) -> A -> option (option (A * nat)) :=
  fun reduce_dims ii acc v =>
    let? d0 := nth_error reduce_dims 0 in
    let? x := nth_error ii d0 in
    Some (match acc with
          | None => Some (v, x)
          | Some (m, j) => if gtb v m then Some (v, x) else acc
          end).
Definition argmax_fin {A} (n : nat) (acc : option (A * nat)) : nat :=
  match acc with None => 0 | Some (_, j) => j end.

(** ops_reduce.rs:69-73 allocates the output with the operand's dtype, while the
    argmax/argmin kernels store int32 (L2202) and any/all store bool (L2623):
    [w]-byte words written to a buffer of [n] elements of dtype [d] whose fresh
    contents are [junk] (be_cpu/device.rs:19 does not initialise it). *)
Definition reinterpret (d : dtype) (w n : nat) (junk words : list Z) : option (list (val d)) :=
  let bytes := flat_map (le_bytes w) words in
  if n * dsize d <? length bytes then None
  else Some (map (decode d) (chunks_exact (dsize d)
               (bytes ++ firstn (n * dsize d - length bytes) (skipn (length bytes) junk)))).

Definition t_argmax (d : dtype) (gtb : val d -> val d -> bool) (junk : list Z)
    (t : tensor (val d)) (dims : list Z) (keep : bool) : outcome (tensor (val d)) :=
  do r <- t_reduce None (argmax_step gtb) argmax_fin 0 t dims keep ;
  do st <- ub (reinterpret d 4 (length (tstore r)) junk (map Z.of_nat (tstore r))) ;
  Ok (mkT st (tlay r)).
(** any: [nz] is IS_NONZERO; BOOL storages have no case in ops_reduce.rs:86-113 *)
Definition t_any (d : dtype) (nz : val d -> bool) (junk : list Z)
    (t : tensor (val d)) (dims : list Z) (keep : bool) : outcome (tensor (val d)) :=
  match d with
  | BOOL => Err EInternal
  | _ =>
    do r <- t_reduce false (plain (fun b v => b || nz v)) (fun _ b => b) false t dims keep ;
    do st <- ub (reinterpret d 1 (length (tstore r)) junk
                   (map (fun b : bool => if b then 1%Z else 0%Z) (tstore r))) ;
    Ok (mkT st (tlay r))
  end.
