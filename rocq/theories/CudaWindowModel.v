(** Window reductions on CUDA: crates/hodu_cuda_kernels/kernels/ops_windowing.cu, launched by
    be_cuda/storage/ops_windowing.rs.  The tensor operation in front of them and the metadata
    are those of WindowModel.v.

    Simplifications: as in LaunchModel.v and WindowModel.v; be_cuda/storage/ops_windowing.rs
    names [Arc] without importing it; it is taken for std::sync::Arc. *)
From Coq Require Import List Arith ZArith Bool SpecFloat.
From Verif Require Import Base LayoutModel KernelModel TensorModel ReduceModel ScanModel WindowModel TileModel TileSpec EncodeModel LaunchModel CudaReduceModel.
From Verif Require ScalarModel.
Import ListNotations.
Local Open Scope nat_scope.

(** The element types window reductions are written for (be_cuda/storage/ops_windowing.rs:107-128) *)
Definition cuda_windows (d : dtype) : bool :=
  match d with F32 | F64 | F16 => true | _ => false end.

Section Kernel.
Context {A B C : Type}.
Variable sched : nat -> list nat.
(** [conv]: to_float; [oob]: what is accumulated for a position in the padding, INIT_VAL for
    max, min and sum (L63), nothing for mean (L119-125); [fin]: from_float, after the division
    by the size of the window for mean *)
Variables (conv : A -> B) (init : B) (f : B -> B -> B) (oob : option B) (fin : nat -> B -> C).

(** ops_windowing.cu:7-69 [REDUCE_WINDOW_OP], L71-129 [REDUCE_WINDOW_MEAN_OP]; the local
    arrays hold 16 entries *)
Definition cuda_reduce_window (input : list A) (out : list (option C)) (md : list nat) : option (list C) :=
  let? num_els := nth_error md 0 in
  let? nd := nth_error md 1 in
  let? input_shape := md_slice md 2 nd in
  let? input_strides := md_slice md (2 + nd) nd in
  let? input_offset := nth_error md (2 + 2 * nd) in
  let? window_shape := md_slice md (2 + 2 * nd + 1) nd in
  let? strides := md_slice md (2 + 3 * nd + 1) nd in
  let? padding := md_slice md (2 + 4 * nd + 1) (2 * nd) in
  let? output_shape := md_slice md (2 + 6 * nd + 1) nd in
  let pad_before := map (fun i => nth (i * 2) padding 0) (seq 0 nd) in
  let window_size := shape_size window_shape in
  elementwise sched num_els (fun out_idx =>
    if 16 <? nd then None
    else
      let? oc := c_unravel out_idx output_shape in
      let? acc := loopO (fun win_idx acc =>
        let? wc := c_unravel win_idx window_shape in
        match win_coords oc strides wc pad_before input_shape with
        | Some ic => let? v := nth_error input (flat_index input_offset ic input_strides) in Some (f acc (conv v))
        | None => match oob with Some v => Some (f acc v) | None => Some acc end
        end) (seq 0 window_size) init in
      Some (fin window_size acc)) out.

(** tensor/ops/windowing.rs:10-134 [Tensor::reduce_window], eager branch, with
    be_cuda/storage/ops_windowing.rs:10-129 *)
Definition cuda_t_reduce_window (dt : dtype) (t : tensor A) (window strides : list nat) (padding : list (nat * nat))
    : outcome (tensor C) :=
  let s := lshape (tlay t) in
  if negb (length window =? length s) then Err ELayout
  else if negb (length strides =? length s) then Err ELayout
  else if negb (length padding =? length s) then Err ELayout
  else
    do out <- window_dims s window strides padding ;
    if negb (cuda_windows dt) then Err EDType
    else
      do st <- ub (cuda_reduce_window (tstore t) (repeat None (shape_size out))
                     (reduce_window_metadata (tlay t) window strides
                        (flat_map (fun p : nat * nat => [fst p; snd p]) padding) out)) ;
      Ok (mkT st (from_shape out)).
End Kernel.

(** ops_windowing.cu:180: reduce_window_sum_f32 *)
Definition cuda_window_sum_f32 sched : tensor spec_float -> _ :=
  cuda_t_reduce_window sched (fun x => x) (S754_zero false) (SFadd 24 128) (Some (S754_zero false)) (fun _ b => b) F32.
(** ops_windowing.cu:181: reduce_window_sum_f64, whose accumulator is a float *)
Definition cuda_window_sum_f64 sched : tensor spec_float -> _ :=
  cuda_t_reduce_window sched (resized 24 128) (S754_zero false) (SFadd 24 128) (Some (S754_zero false)) (fun _ b => resized 53 1024 b) F64.
