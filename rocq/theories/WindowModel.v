(** Window reductions: kernels/ops_windowing.c, be_cpu/storage/ops_windowing.rs
    and tensor/ops/windowing.rs.

    Simplifications: element and accumulator types and the accumulating step are
    parameters; [size_t] arithmetic does not wrap; dtype checks and the parsing
    of the reduction name (windowing.rs:24-37) left out. *)
From Coq Require Import List Arith ZArith Bool.
From Verif Require Import Base LayoutModel KernelModel TensorModel ReduceModel ScanModel.
Import ListNotations.

(** ops_windowing.c:91-105: input coordinates of one window position, [None]
    when it falls in the padding *)
Fixpoint win_coords (out_c strides win_c pad_before input_shape : list nat) : option (list nat) :=
  match out_c, strides, win_c, pad_before, input_shape with
  | o :: out_c', s :: strides', w :: win_c', p :: pad', n :: input' =>
    let padded_pos := o * s + w in
    if padded_pos <? p then None
    else if n <=? padded_pos - p then None
    else option_map (cons (padded_pos - p)) (win_coords out_c' strides' win_c' pad' input')
  | _, _, _, _, _ => Some []
  end.

Section K.
Context {A B C : Type}.
(** [oob]: what is accumulated for a position in the padding; [Some INIT_VAL] for
    max, min, sum (L116), [None] (nothing) for mean (L191-197) *)
Variables (init : B) (f : B -> A -> B) (oob : option A) (fin : nat -> B -> C).

(** ops_windowing.c:48-123 [REDUCE_WINDOW_OP], L135-204 [REDUCE_WINDOW_MEAN_OP];
    the coordinate arrays hold 16 entries *)
Definition reduce_window_kernel (input : list A) (out : list C) (md : list nat) : option (list C) :=
  let? num_els := nth_error md 0 in
  let? nd := nth_error md 1 in
  let? input_shape := md_slice md 2 nd in
  let? input_strides := md_slice md (2 + nd) nd in
  let? input_offset := nth_error md (2 + 2 * nd) in
  let? window_shape := md_slice md (2 + 2 * nd + 1) nd in
  let? strides := md_slice md (2 + 3 * nd + 1) nd in
  let? padding := md_slice md (2 + 4 * nd + 1) (2 * nd) in
  let? output_shape := md_slice md (2 + 6 * nd + 1) nd in
  let pad_before := map (fun i => nth (i * 2) padding 0) (seq 0 nd) in
  let window_size := shape_size window_shape in
  seq_for num_els (fun out_idx =>
    if 16 <? nd then None
    else
      let? oc := c_unravel out_idx output_shape in
      let? acc := loopO (fun win_idx acc =>
        let? wc := c_unravel win_idx window_shape in
        match win_coords oc strides wc pad_before input_shape with
        | Some ic => let? v := nth_error input (flat_index input_offset ic input_strides) in Some (f acc v)
        | None => match oob with Some v => Some (f acc v) | None => Some acc end
        end) (seq 0 window_size) init in
      Some (fin window_size acc)) out.

(** op_metadatas.rs:1251-1301 [reduce_window_metadata] *)
Definition reduce_window_metadata (l : layout) (window strides padding out_shape : list nat) : list nat :=
  [shape_size out_shape; length (lshape l)] ++ lshape l ++ lstrides l ++ [loffset l]
  ++ window ++ strides ++ padding ++ out_shape.

(** windowing.rs:70-74: the output dims; [padded_size - window] underflows (a
    panic in debug builds; in release builds ops_windowing.rs:80-85 then answers
    with an error) and the division by a zero stride panics *)
Fixpoint window_dims (s window strides : list nat) (padding : list (nat * nat)) : outcome (list nat) :=
  match s, window, strides, padding with
  | d :: s', w :: window', st :: strides', (lo, hi) :: padding' =>
    if d + lo + hi <? w then Panic
    else if st =? 0 then Panic
    else do r <- window_dims s' window' strides' padding' ; Ok ((d + lo + hi - w) / st + 1 :: r)
  | _, _, _, _ => Ok []
  end.

(** tensor/ops/windowing.rs:10-134 [Tensor::reduce_window], eager branch, with
    be_cpu/storage/ops_windowing.rs:25-155 (same output dims) *)
Definition t_reduce_window (z : C) (t : tensor A) (window strides : list nat) (padding : list (nat * nat))
    : outcome (tensor C) :=
  let s := lshape (tlay t) in
  if negb (length window =? length s) then Err ELayout
  else if negb (length strides =? length s) then Err ELayout
  else if negb (length padding =? length s) then Err ELayout
  else
    do out <- window_dims s window strides padding ;
    do st <- ub (reduce_window_kernel (tstore t) (repeat z (shape_size out))
                   (reduce_window_metadata (tlay t) window strides
                      (flat_map (fun p : nat * nat => [fst p; snd p]) padding) out)) ;
    Ok (mkT st (from_shape out)).
End K.

(** ops_windowing.c:212-279: the instances used by the properties *)
Definition window_sum (z : Z) := t_reduce_window 0%Z Z.add (Some 0%Z) (fun _ b => b) z.
Definition window_max (lo z : Z) :=
  t_reduce_window lo (fun acc v => if (acc >? v)%Z then acc else v) (Some lo) (fun _ b => b) z.
Definition window_min (hi z : Z) :=
  t_reduce_window hi (fun acc v => if (acc <? v)%Z then acc else v) (Some hi) (fun _ b => b) z.
(** L135-204 for a type whose values are stored as unsigned [w]-bit words: bf16,
    f16 and the 8-bit floats are typedefs of uint16_t/uint8_t (t_bf16.h:13,
    t_f16.h:12, t_f8e4m3.h:12), so [sum += input[idx]] and [sum / window_size]
    are integer operations on the bit patterns. *)
Definition window_mean_bits (w : Z) (z : Z) :=
  t_reduce_window 0%Z (fun acc v => (acc + v) mod 2 ^ w)%Z None (fun n b => (b / (Z.of_nat n mod 2 ^ w))%Z) z.
