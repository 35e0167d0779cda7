(** Reductions on CUDA: crates/hodu_cuda_kernels/kernels/ops_reduce.cu, launched by
    be_cuda/storage/ops_reduce.rs.  The tensor operation in front of them and the
    metadata are those of ReduceModel.v.

    Simplifications: as in LaunchModel.v and ReduceModel.v; copies between host and
    device do not fail.  be_cuda/storage/ops_reduce.rs names [Arc] without importing
    it; it is taken for std::sync::Arc, as in the files beside it. *)
From Coq Require Import List Arith ZArith Bool SpecFloat.
From Verif Require Import Base LayoutModel KernelModel TensorModel ReduceModel TileModel TileSpec EncodeModel LaunchModel.
From Verif Require ScalarModel.
Import ListNotations.
Local Open Scope nat_scope.

(** The element types reductions are written for (be_cuda/storage/ops_reduce.rs:80-116) *)
Definition cuda_reduces (d : dtype) : bool :=
  match d with F32 | F64 | F16 | BF16 | I32 | U32 => true | _ => false end.

Section Kernel.
Context {A B C : Type}.
Variable sched : nat -> list nat.
(** as in ReduceModel.reduce_kernel *)
Variable init : B.
Variable step : list nat -> list nat -> B -> A -> option B.
Variable fin : nat -> B -> C.

(** ops_reduce.cu:7-75 [REDUCE_OP], and the other macros of that file with their own
    [init], [step] and [fin]: REDUCE_MEAN_OP L77, REDUCE_NORM_OP L146, REDUCE_ARGMAX_OP
    L216, REDUCE_ARGMIN_OP L293, REDUCE_ANY_OP L370, REDUCE_ALL_OP L442 (whose early exit
    is left out, as on the CPU).  The local arrays hold 16 entries. *)
Definition cuda_reduce (input : list A) (out : list (option C)) (md : list nat) : option (list C) :=
  let? num_dims := nth_error md 0 in
  let? dims := md_slice md 1 num_dims in
  let? strides := md_slice md (1 + num_dims) num_dims in
  let? offset := nth_error md (1 + 2 * num_dims) in
  let? out_len := nth_error md (2 + 2 * num_dims) in
  let? out_shape := md_slice md (3 + 2 * num_dims) out_len in
  let? num_red := nth_error md (3 + 2 * num_dims + out_len) in
  let? reduce_dims := md_slice md (4 + 2 * num_dims + out_len) num_red in
  let? keep_dim := nth_error md (4 + 2 * num_dims + out_len + num_red) in
  let? reduce_size := nth_error md (5 + 2 * num_dims + out_len + num_red) in
  elementwise sched (shape_size out_shape) (fun output_idx =>
    if (16 <? num_dims) || (16 <? out_len) then None
    else
      let? output_indices := c_unravel output_idx out_shape in
      let? input_indices :=
        (if negb (keep_dim =? 0)
         then md_slice output_indices 0 num_dims
         else Some (spread reduce_dims 0 num_dims output_indices)) in
      let? acc := reduce_loop step input dims strides offset reduce_dims (seq 0 reduce_size)
                    input_indices init in
      Some (fin reduce_size acc)) out.

(** be_cuda/storage/ops_reduce.rs:10-117 [call_ops_reduce] *)
Definition cuda_call_reduce (dt : dtype) (storage : list A) (l : layout) (dims : list nat)
    (keep_dim : bool) : outcome (list C) :=
  if existsb (fun d => length (lshape l) <=? d) dims then Err EAxis
  else if negb (cuda_reduces dt) then Err EDType
  else ub (cuda_reduce storage (repeat None (as_u32 (shape_size (kernel_out_shape keep_dim dims (lshape l)))))
             (reduce_metadata l dims keep_dim)).

(** tensor/ops/reduce.rs:137-235 [reduce_operation], eager branch *)
Definition cuda_t_reduce (dt : dtype) (t : tensor A) (dims : list Z) (keep_dim : bool) : outcome (tensor C) :=
  let s := lshape (tlay t) in
  do p <- mark_axes keep_dim s (reduce_axes (length s) dims) ;
  let out := if keep_dim then fst p else filter (fun d => negb (d =? 0)) (fst p) in
  do st <- cuda_call_reduce dt (tstore t) (tlay t) (snd p) keep_dim ;
  Ok (mkT st (from_shape out)).
End Kernel.

(** Every accumulator is a [float]: [float val = to_float(input[flat_index])] (L70), and the
    result goes through [from_float] (L73); math.cuh:24-26, 38-40.  For integers that is a
    rounding and a cut; the conversion of a float outside the range of the type is
    undefined in C++ and saturates on the device. *)
Definition float_of (n : Z) : spec_float := ScalarModel.of_z ScalarModel.F32 n.
Definition int_of (t : ScalarModel.ity) (x : spec_float) : Z := ScalarModel.float_as t x.
(** the type and the dtype of the two kinds of integers reductions are written for *)
Definition int_dtype (signed : bool) : dtype := if signed then I32 else U32.
Definition int_type (signed : bool) : ScalarModel.ity := if signed then ScalarModel.I32 else ScalarModel.U32.

(** ops_reduce.cu:522, 526: sum_i32 and sum_u32 *)
Definition cuda_int_sum sched (signed : bool) : tensor Z -> list Z -> bool -> outcome (tensor Z) :=
  cuda_t_reduce sched (S754_zero false) (plain (fun acc v => SFadd 24 128 acc (float_of v)))
    (fun _ b => int_of (int_type signed) b) (int_dtype signed).
(** ops_reduce.cu:537, 541: max_i32 and max_u32; math.cuh:58 [maximum] *)
Definition cuda_int_max sched (signed : bool) : tensor Z -> list Z -> bool -> outcome (tensor Z) :=
  cuda_t_reduce sched (float_of (ScalarModel.lowest (int_type signed)))
    (plain (fun acc v => if SFltb (float_of v) acc then acc else float_of v))
    (fun _ b => int_of (int_type signed) b) (int_dtype signed).
(** ops_reduce.cu:519: sum_f64; [static_cast<float>] rounds, [static_cast<double>] is exact *)
Definition resized (p e : Z) (x : spec_float) : spec_float :=
  match x with
  | S754_finite s m ex => binary_normalize p e (if s then Zneg m else Zpos m) ex s
  | _ => x
  end.
Definition cuda_f64_sum sched : tensor spec_float -> list Z -> bool -> outcome (tensor spec_float) :=
  cuda_t_reduce sched (S754_zero false) (plain (fun acc v => SFadd 24 128 acc (resized 24 128 v)))
    (fun _ b => resized 53 1024 b) F64.

(** The output buffer has the element type of the operand
    (be_cuda/storage/ops_reduce.rs:64), while argmax and argmin store int32_t (ops_reduce.cu:217,
    294) and any and all store bool (L371, 443): as on the CPU *)
Definition cuda_t_argmax sched (d : dtype) (gtb : val d -> val d -> bool) (junk : list Z)
    (t : tensor (val d)) (dims : list Z) (keep : bool) : outcome (tensor (val d)) :=
  do r <- cuda_t_reduce sched None (argmax_step gtb) argmax_fin d t dims keep ;
  do st <- ub (reinterpret d 4 (length (tstore r)) junk (map Z.of_nat (tstore r))) ;
  Ok (mkT st (tlay r)).
Definition cuda_t_any sched (d : dtype) (nz : val d -> bool) (junk : list Z)
    (t : tensor (val d)) (dims : list Z) (keep : bool) : outcome (tensor (val d)) :=
  do r <- cuda_t_reduce sched false (plain (fun b v => b || nz v)) (fun _ b => b) d t dims keep ;
  do st <- ub (reinterpret d 1 (length (tstore r)) junk
                 (map (fun b : bool => if b then 1%Z else 0%Z) (tstore r))) ;
  Ok (mkT st (tlay r)).
