(** From an operation and an element type to the compiled kernel: ops.rs, utils/valid.rs, the calls of be_cpu/storage/ops_*.rs,
    and the tables of crates/hodu_cpu_kernels/src/kernels/ops_*.rs.

    Simplifications: all features for element types are on; only whether a kernel is reached is modelled, not what
    it computes; the prefix "hodu_cpu_" that all kernel names have is left out.  Not modelled: the operations that
    are not validated (scan, sort, shape, cast, memory), and onehot, unique and compress, which take their
    kernels from constants or another type. *)
From Coq Require Import String.
From Coq Require Import List Bool.
From Verif Require Import Base EncodeModel.
Import ListNotations.
Open Scope string_scope.
Open Scope list_scope.

(** ops.rs L10-33 *)
Inductive binaryOp := Binary_Add | Binary_Sub | Binary_Mul | Binary_Div | Binary_Rem | Binary_Pow | Binary_Maximum | Binary_Minimum.
Definition binaryOp_name (o : binaryOp) : string :=
  match o with Binary_Add => "add" | Binary_Sub => "sub" | Binary_Mul => "mul" | Binary_Div => "div" | Binary_Rem => "rem" | Binary_Pow => "pow" | Binary_Maximum => "maximum" | Binary_Minimum => "minimum" end.
(** ops.rs L44-57 *)
Inductive binaryLogicalOp := BinaryLogical_LogicalAnd | BinaryLogical_LogicalOr | BinaryLogical_LogicalXor.
Definition binaryLogicalOp_name (o : binaryLogicalOp) : string :=
  match o with BinaryLogical_LogicalAnd => "logical_and" | BinaryLogical_LogicalOr => "logical_or" | BinaryLogical_LogicalXor => "logical_xor" end.
(** ops.rs L68-85 *)
Inductive bitwiseBinaryOp := BitwiseBinary_Shl | BitwiseBinary_Shr | BitwiseBinary_And | BitwiseBinary_Or | BitwiseBinary_Xor.
Definition bitwiseBinaryOp_name (o : bitwiseBinaryOp) : string :=
  match o with BitwiseBinary_Shl => "shl" | BitwiseBinary_Shr => "shr" | BitwiseBinary_And => "bitwise_and" | BitwiseBinary_Or => "bitwise_or" | BitwiseBinary_Xor => "bitwise_xor" end.
(** ops.rs L96-115 *)
Inductive cmpOp := Cmp_Eq | Cmp_Ne | Cmp_Lt | Cmp_Le | Cmp_Gt | Cmp_Ge.
Definition cmpOp_name (o : cmpOp) : string :=
  match o with Cmp_Eq => "eq" | Cmp_Ne => "ne" | Cmp_Lt => "lt" | Cmp_Le => "le" | Cmp_Gt => "gt" | Cmp_Ge => "ge" end.
(** ops.rs L126-145 *)
Inductive cmpScalarOp := CmpScalar_EqScalar | CmpScalar_NeScalar | CmpScalar_LtScalar | CmpScalar_LeScalar | CmpScalar_GtScalar | CmpScalar_GeScalar.
Definition cmpScalarOp_name (o : cmpScalarOp) : string :=
  match o with CmpScalar_EqScalar => "eq_scalar" | CmpScalar_NeScalar => "ne_scalar" | CmpScalar_LtScalar => "lt_scalar" | CmpScalar_LeScalar => "le_scalar" | CmpScalar_GtScalar => "gt_scalar" | CmpScalar_GeScalar => "ge_scalar" end.
(** ops.rs L156-253 *)
Inductive unaryOp := Unary_Neg | Unary_Abs | Unary_Sign | Unary_Softsign | Unary_Square | Unary_Sqrt | Unary_Recip | Unary_Relu | Unary_Sigmoid | Unary_HardSigmoid | Unary_Gelu | Unary_Softplus | Unary_Silu | Unary_HardSilu | Unary_Mish | Unary_Selu | Unary_Celu | Unary_Sin | Unary_Cos | Unary_Tan | Unary_Asin | Unary_Acos | Unary_Atan | Unary_Sinh | Unary_Cosh | Unary_Tanh | Unary_Asinh | Unary_Acosh | Unary_Atanh | Unary_Exp | Unary_Exp2 | Unary_Exp10 | Unary_Ln | Unary_Log2 | Unary_Log10 | Unary_Ceil | Unary_Floor | Unary_Round | Unary_Erf.
Definition unaryOp_name (o : unaryOp) : string :=
  match o with Unary_Neg => "neg" | Unary_Abs => "abs" | Unary_Sign => "sign" | Unary_Softsign => "softsign" | Unary_Square => "square" | Unary_Sqrt => "sqrt" | Unary_Recip => "recip" | Unary_Relu => "relu" | Unary_Sigmoid => "sigmoid" | Unary_HardSigmoid => "hardsigmoid" | Unary_Gelu => "gelu" | Unary_Softplus => "softplus" | Unary_Silu => "silu" | Unary_HardSilu => "hardsilu" | Unary_Mish => "mish" | Unary_Selu => "selu" | Unary_Celu => "celu" | Unary_Sin => "sin" | Unary_Cos => "cos" | Unary_Tan => "tan" | Unary_Asin => "asin" | Unary_Acos => "acos" | Unary_Atan => "atan" | Unary_Sinh => "sinh" | Unary_Cosh => "cosh" | Unary_Tanh => "tanh" | Unary_Asinh => "asinh" | Unary_Acosh => "acosh" | Unary_Atanh => "atanh" | Unary_Exp => "exp" | Unary_Exp2 => "exp2" | Unary_Exp10 => "exp10" | Unary_Ln => "ln" | Unary_Log2 => "log2" | Unary_Log10 => "log10" | Unary_Ceil => "ceil" | Unary_Floor => "floor" | Unary_Round => "round" | Unary_Erf => "erf" end.
(** ops.rs L264-279 *)
Inductive unaryLogicalOp := UnaryLogical_LogicalNot | UnaryLogical_IsNan | UnaryLogical_IsInf | UnaryLogical_IsFinite.
Definition unaryLogicalOp_name (o : unaryLogicalOp) : string :=
  match o with UnaryLogical_LogicalNot => "logical_not" | UnaryLogical_IsNan => "isnan" | UnaryLogical_IsInf => "isinf" | UnaryLogical_IsFinite => "isfinite" end.
(** ops.rs L290-299 *)
Inductive bitwiseUnaryOp := BitwiseUnary_Not.
Definition bitwiseUnaryOp_name (o : bitwiseUnaryOp) : string :=
  match o with BitwiseUnary_Not => "bitwise_not" end.
(** ops.rs L310-321 *)
Inductive bitwiseUnaryScalarOp := BitwiseUnaryScalar_ShlScalar | BitwiseUnaryScalar_ShrScalar.
Definition bitwiseUnaryScalarOp_name (o : bitwiseUnaryScalarOp) : string :=
  match o with BitwiseUnaryScalar_ShlScalar => "shl_scalar" | BitwiseUnaryScalar_ShrScalar => "shr_scalar" end.
(** ops.rs L332-362 *)
Inductive unaryScalarOp := UnaryScalar_AddScalar | UnaryScalar_SubScalar | UnaryScalar_MulScalar | UnaryScalar_DivScalar | UnaryScalar_RemScalar | UnaryScalar_PowScalar | UnaryScalar_MaximumScalar | UnaryScalar_MinimumScalar | UnaryScalar_LeakyRelu | UnaryScalar_Elu | UnaryScalar_Prelu.
Definition unaryScalarOp_name (o : unaryScalarOp) : string :=
  match o with UnaryScalar_AddScalar => "add_scalar" | UnaryScalar_SubScalar => "sub_scalar" | UnaryScalar_MulScalar => "mul_scalar" | UnaryScalar_DivScalar => "div_scalar" | UnaryScalar_RemScalar => "rem_scalar" | UnaryScalar_PowScalar => "pow_scalar" | UnaryScalar_MaximumScalar => "maximum_scalar" | UnaryScalar_MinimumScalar => "minimum_scalar" | UnaryScalar_LeakyRelu => "leaky_relu" | UnaryScalar_Elu => "elu" | UnaryScalar_Prelu => "prelu" end.
(** ops.rs L373-384 *)
Inductive matrixOp := Matrix_Matmul | Matrix_Dot.
Definition matrixOp_name (o : matrixOp) : string :=
  match o with Matrix_Matmul => "matmul" | Matrix_Dot => "dot" end.
(** ops.rs L395-409 *)
Inductive linalgOp := Linalg_Det | Linalg_Inv | Linalg_Trace.
Definition linalgOp_name (o : linalgOp) : string :=
  match o with Linalg_Det => "det" | Linalg_Inv => "inv" | Linalg_Trace => "trace" end.
(** ops.rs L420-455 *)
Inductive reduceOp := Reduce_Sum | Reduce_Mean | Reduce_Max | Reduce_Min | Reduce_Prod | Reduce_Std | Reduce_Var | Reduce_Norm | Reduce_LogSum | Reduce_LogSumExp | Reduce_ArgMax | Reduce_ArgMin | Reduce_Any | Reduce_All.
Definition reduceOp_name (o : reduceOp) : string :=
  match o with Reduce_Sum => "sum" | Reduce_Mean => "mean" | Reduce_Max => "max" | Reduce_Min => "min" | Reduce_Prod => "prod" | Reduce_Std => "std" | Reduce_Var => "var" | Reduce_Norm => "norm" | Reduce_LogSum => "logsum" | Reduce_LogSumExp => "logsumexp" | Reduce_ArgMax => "argmax" | Reduce_ArgMin => "argmin" | Reduce_Any => "any" | Reduce_All => "all" end.
(** ops.rs L466-475 *)
Inductive concatOp := Concat_Concat.
Definition concatOp_name (o : concatOp) : string :=
  match o with Concat_Concat => "concat" end.
(** ops.rs L486-495 *)
Inductive splitOp := Split_Split.
Definition splitOp_name (o : splitOp) : string :=
  match o with Split_Split => "split" end.
(** ops.rs L506-533 *)
Inductive indexingOp := Indexing_IndexSelect | Indexing_IndexPut | Indexing_Gather | Indexing_Scatter | Indexing_ScatterAdd | Indexing_ScatterMax | Indexing_ScatterMin | Indexing_Nonzero.
Definition indexingOp_name (o : indexingOp) : string :=
  match o with Indexing_IndexSelect => "index_select" | Indexing_IndexPut => "index_put" | Indexing_Gather => "gather" | Indexing_Scatter => "scatter" | Indexing_ScatterAdd => "scatter_add" | Indexing_ScatterMax => "scatter_max" | Indexing_ScatterMin => "scatter_min" | Indexing_Nonzero => "nonzero" end.
(** ops.rs L546-577 *)
Inductive convOp := Conv_Conv1d | Conv_Conv2d | Conv_Conv3d | Conv_ConvTranspose1d | Conv_ConvTranspose2d | Conv_ConvTranspose3d | Conv_Conv1dGradWeight | Conv_Conv2dGradWeight | Conv_Conv3dGradWeight | Conv_ConvTranspose1dGradWeight | Conv_ConvTranspose2dGradWeight | Conv_ConvTranspose3dGradWeight.
Definition convOp_name (o : convOp) : string :=
  match o with Conv_Conv1d => "conv1d" | Conv_Conv2d => "conv2d" | Conv_Conv3d => "conv3d" | Conv_ConvTranspose1d => "conv_transpose1d" | Conv_ConvTranspose2d => "conv_transpose2d" | Conv_ConvTranspose3d => "conv_transpose3d" | Conv_Conv1dGradWeight => "conv1d_grad_weight" | Conv_Conv2dGradWeight => "conv2d_grad_weight" | Conv_Conv3dGradWeight => "conv3d_grad_weight" | Conv_ConvTranspose1dGradWeight => "conv_transpose1d_grad_weight" | Conv_ConvTranspose2dGradWeight => "conv_transpose2d_grad_weight" | Conv_ConvTranspose3dGradWeight => "conv_transpose3d_grad_weight" end.
(** ops.rs L588-603 *)
Inductive windowingOp := Windowing_ReduceWindowMax | Windowing_ReduceWindowMean | Windowing_ReduceWindowSum | Windowing_ReduceWindowMin.
Definition windowingOp_name (o : windowingOp) : string :=
  match o with Windowing_ReduceWindowMax => "reduce_window_max" | Windowing_ReduceWindowMean => "reduce_window_mean" | Windowing_ReduceWindowSum => "reduce_window_sum" | Windowing_ReduceWindowMin => "reduce_window_min" end.
(** ops.rs L614-623 *)
Inductive resizeOp := Resize_Resize.
Definition resizeOp_name (o : resizeOp) : string :=
  match o with Resize_Resize => "resize" end.
(** ops.rs L634-649 *)
Inductive paddingOp := Padding_PadConstant | Padding_PadReflect | Padding_PadReplicate | Padding_PadCircular.
Definition paddingOp_name (o : paddingOp) : string :=
  match o with Padding_PadConstant => "pad_constant" | Padding_PadReflect => "pad_reflect" | Padding_PadReplicate => "pad_replicate" | Padding_PadCircular => "pad_circular" end.
(** ops.rs L700-709 *)
Inductive einsumOp := Einsum_Einsum.
Definition einsumOp_name (o : einsumOp) : string :=
  match o with Einsum_Einsum => "einsum" end.
(** ops.rs L830-865 *)
Inductive op :=
| Binary (o : binaryOp)
| BinaryLogical (o : binaryLogicalOp)
| BitwiseBinary (o : bitwiseBinaryOp)
| Cmp (o : cmpOp)
| CmpScalar (o : cmpScalarOp)
| Unary (o : unaryOp)
| UnaryLogical (o : unaryLogicalOp)
| BitwiseUnary (o : bitwiseUnaryOp)
| BitwiseUnaryScalar (o : bitwiseUnaryScalarOp)
| UnaryScalar (o : unaryScalarOp)
| Matrix (o : matrixOp)
| Linalg (o : linalgOp)
| Reduce (o : reduceOp)
| Concat (o : concatOp)
| Split (o : splitOp)
| Indexing (o : indexingOp)
| Conv (o : convOp)
| Windowing (o : windowingOp)
| Resize (o : resizeOp)
| Padding (o : paddingOp)
| Einsum (o : einsumOp).

(** types/dtype.rs L97-130 *)
Definition is_float (d : dtype) : bool := match d with F8E4M3 | F8E5M2 | BF16 | F16 | F32 | F64 => true | _ => false end.
Definition is_uint (d : dtype) : bool := match d with U8 | U16 | U32 | U64 => true | _ => false end.
Definition is_int (d : dtype) : bool := match d with I8 | I16 | I32 | I64 => true | _ => false end.
Definition is_bool (d : dtype) : bool := match d with BOOL => true | _ => false end.

(** the conditions that occur in utils/valid.rs L91-390 *)
Definition no_bool (d : dtype) : bool := negb (is_bool d).
Definition no_bool_int (d : dtype) : bool := negb (is_bool d || is_uint d || is_int d).
Definition no_bool_uint (d : dtype) : bool := negb (is_bool d || is_uint d).
Definition no_bool_float (d : dtype) : bool := negb (is_bool d || is_float d).
(** utils/valid.rs L91-390: [validate_dtype_for_op] *)
Definition accepted (o : op) (d : dtype) : bool :=
  match o with
  | Binary (Binary_Add | Binary_Sub | Binary_Mul | Binary_Rem) => no_bool d
  | Binary (Binary_Div | Binary_Pow) => no_bool_int d
  | Binary (Binary_Maximum | Binary_Minimum) => no_bool d
  | BinaryLogical _ => true
  | BitwiseBinary _ => no_bool_float d
  | Cmp (Cmp_Eq | Cmp_Ne) => true
  | Cmp _ => no_bool d
  | CmpScalar (CmpScalar_EqScalar | CmpScalar_NeScalar) => true
  | CmpScalar _ => no_bool d
  | Unary (Unary_Neg | Unary_Abs | Unary_Sign | Unary_Softsign) => no_bool_uint d
  | Unary Unary_Square => no_bool d
  | Unary Unary_Relu => no_bool_uint d
  | Unary _ => no_bool_int d
  | UnaryLogical UnaryLogical_LogicalNot => true
  | UnaryLogical _ => no_bool_int d
  | BitwiseUnary _ | BitwiseUnaryScalar _ => no_bool_float d
  | UnaryScalar (UnaryScalar_AddScalar | UnaryScalar_SubScalar | UnaryScalar_MulScalar | UnaryScalar_RemScalar) => no_bool d
  | UnaryScalar (UnaryScalar_DivScalar | UnaryScalar_PowScalar) => no_bool_int d
  | UnaryScalar (UnaryScalar_MaximumScalar | UnaryScalar_MinimumScalar) => no_bool d
  | UnaryScalar (UnaryScalar_LeakyRelu | UnaryScalar_Elu | UnaryScalar_Prelu) => no_bool_int d
  | Matrix _ | Linalg _ => no_bool d
  | Reduce (Reduce_Sum | Reduce_Prod | Reduce_Max | Reduce_Min) => no_bool d
  | Reduce (Reduce_Mean | Reduce_Std | Reduce_Var | Reduce_Norm | Reduce_LogSum | Reduce_LogSumExp) => no_bool_int d
  | Reduce (Reduce_ArgMax | Reduce_ArgMin | Reduce_Any | Reduce_All) => true
  | Concat _ | Split _ => true
  | Indexing (Indexing_ScatterAdd | Indexing_ScatterMax | Indexing_ScatterMin) => no_bool d
  | Indexing _ => true
  | Conv _ => no_bool_int d
  | Windowing Windowing_ReduceWindowMean => no_bool_int d
  | Windowing _ => no_bool d
  | Padding _ => true
  | Einsum _ => no_bool d
  | Resize _ => no_bool_int d
  end.

(** The names asked for: be_cpu/storage/ops_binary.rs L33, L141, L244, ops_bitwise.rs L37, L117, L201, ops_unary.rs L37,
    L103, L174, L249, ops_matrix.rs L109, L245, ops_linalg.rs L50, L136, L226, ops_reduce.rs L72, ops_concat_split.rs L101, L235,
    ops_indexing.rs L73, L196, L335, L457, L652, L656, ops_conv.rs L212, L332, ops_windowing.rs L104, ops_resize.rs L43,
    ops_padding.rs L55, ops_einsum.rs L21.  All scatters ask for the same. *)
Definition indexing_kernels (o : indexingOp) : list string :=
  match o with
  | Indexing_IndexSelect => ["index_select"] | Indexing_IndexPut => ["index_put"] | Indexing_Gather => ["gather"]
  | Indexing_Scatter | Indexing_ScatterAdd | Indexing_ScatterMax | Indexing_ScatterMin => ["scatter"]
  | Indexing_Nonzero => ["nonzero_count"; "nonzero_fill"]
  end.
Definition op_names (o : op) : list string :=
  match o with
  | Binary o => [binaryOp_name o] | BinaryLogical o => [binaryLogicalOp_name o] | BitwiseBinary o => [bitwiseBinaryOp_name o]
  | Cmp o => [cmpOp_name o] | CmpScalar o => [cmpScalarOp_name o] | Unary o => [unaryOp_name o] | UnaryLogical o => [unaryLogicalOp_name o]
  | BitwiseUnary o => [bitwiseUnaryOp_name o] | BitwiseUnaryScalar o => [bitwiseUnaryScalarOp_name o] | UnaryScalar o => [unaryScalarOp_name o]
  | Matrix o => [matrixOp_name o] | Linalg o => [linalgOp_name o] | Reduce o => [reduceOp_name o] | Concat _ => ["concat"] | Split _ => ["split"]
  | Indexing o => indexing_kernels o | Conv o => [convOp_name o] | Windowing o => [windowingOp_name o] | Resize _ => ["resize"]
  | Padding o => [paddingOp_name o] | Einsum _ => ["einsum"]
  end.
Definition kernel_name (n : string) (d : dtype) : string := (n ++ "_" ++ dname d)%string.

(** Whether the storage call has an arm for the type; without one it is an error.  No arm for booleans in
    ops_reduce.rs, ops_matrix.rs, ops_linalg.rs, ops_einsum.rs, only integers in ops_bitwise.rs, only floats in ops_conv.rs
    and ops_resize.rs. *)
Definition arm (o : op) (d : dtype) : bool :=
  match o with
  | BitwiseBinary _ | BitwiseUnary _ | BitwiseUnaryScalar _ => is_uint d || is_int d
  | Conv _ | Resize _ => is_float d
  | Matrix _ | Linalg _ | Reduce _ | Einsum _ => negb (is_bool d)
  | _ => true
  end.

Definition all_dtypes : list dtype := [BOOL; F8E4M3; F8E5M2; BF16; F16; F32; F64; U8; U16; U32; U64; I8; I16; I32; I64].
Definition numbers : list dtype := [F8E4M3; F8E5M2; BF16; F16; F32; F64; U8; U16; U32; U64; I8; I16; I32; I64].
Definition floats : list dtype := [F8E4M3; F8E5M2; BF16; F16; F32; F64].
Definition integers : list dtype := [U8; U16; U32; U64; I8; I16; I32; I64].
Definition signed : list dtype := [BOOL; F8E4M3; F8E5M2; BF16; F16; F32; F64; I8; I16; I32; I64].
(** ops_reduce.rs L324-379: the types listed for argmax, argmin, any and all *)
Definition listed : list dtype := [BOOL; F8E4M3; F8E5M2; BF16; F16; F32; I8; I16; I32; I64; U8; U16; U32; U64].
Definition entries (names : list string) (ds : list dtype) : list string := flat_map (fun n => map (kernel_name n) ds) names.
(** The kernel names with a kernel, per dispatch function of hodu_cpu_kernels/src/kernels: ops_binary.rs L174-191,
    ops_bitwise.rs, ops_unary.rs L307-328, ops_matrix.rs, ops_linalg.rs L172-246, ops_reduce.rs L222-383, ops_concat_split.rs L129-130,
    ops_indexing.rs L298-304 and L713-714, ops_conv.rs L464-501 and L568-677, ops_windowing.rs, ops_resize.rs L70-76,
    ops_padding.rs L259-262, ops_einsum.rs.  A reduction runs its kernel and then panics all the same if
    the name is not in a second list (L229-382). *)
Definition binary_table : list string :=
  entries ["add"; "sub"; "mul"; "div"; "pow"; "maximum"; "minimum"; "logical_and"; "logical_or"; "logical_xor"; "eq"; "ne"; "lt"; "le"; "gt"; "ge"] all_dtypes.
Definition unary_table : list string :=
  entries ["abs"; "sign"; "softsign"; "square"; "sqrt"; "recip"; "logical_not"] all_dtypes ++ entries ["neg"] signed ++
  entries ["relu"; "sigmoid"; "hardsigmoid"; "gelu"; "softplus"; "silu"; "hardsilu"; "mish"; "selu"; "celu"; "sin"; "cos"; "tan"; "asin"; "acos"; "atan";
    "sinh"; "cosh"; "tanh"; "asinh"; "acosh"; "atanh"; "exp"; "exp2"; "exp10"; "ln"; "log2"; "log10"; "ceil"; "floor"; "round"; "erf";
    "isnan"; "isinf"; "isfinite"] floats.
Definition scalar_table : list string :=
  entries ["add_scalar"; "sub_scalar"; "mul_scalar"; "div_scalar"; "pow_scalar"; "maximum_scalar"; "minimum_scalar";
    "eq_scalar"; "ne_scalar"; "lt_scalar"; "le_scalar"; "gt_scalar"; "ge_scalar"] all_dtypes.
Definition reduce_table : list string :=
  entries ["sum"; "max"; "min"; "prod"] numbers ++ entries ["std"; "var"; "mean"; "norm"; "logsum"; "logsumexp"] floats ++
  entries ["argmax"; "argmin"; "any"; "all"] listed.
Definition table (o : op) : list string :=
  match o with
  | Binary _ | BinaryLogical _ | Cmp _ => binary_table
  | BitwiseBinary _ => entries ["shl"; "shr"; "bitwise_and"; "bitwise_or"; "bitwise_xor"] integers
  | BitwiseUnary _ => entries ["bitwise_not"] integers
  | BitwiseUnaryScalar _ => entries ["shl_scalar"; "shr_scalar"] integers
  | Unary _ | UnaryLogical _ => unary_table
  | UnaryScalar _ | CmpScalar _ => scalar_table
  | Matrix _ => entries ["matmul"; "dot"] numbers
  | Linalg _ => entries ["det"; "inv"; "trace"] numbers
  | Reduce _ => reduce_table
  | Concat _ => entries ["concat"] all_dtypes
  | Split _ => entries ["split"] all_dtypes
  | Indexing _ => entries ["index_select"; "index_put"; "gather"; "scatter"; "nonzero_count"; "nonzero_fill"] all_dtypes
  | Conv _ => entries ["conv1d"; "conv2d"; "conv3d"; "conv_transpose1d"; "conv_transpose2d"; "conv_transpose3d"; "conv1d_grad_weight"; "conv2d_grad_weight";
      "conv3d_grad_weight"; "conv_transpose1d_grad_weight"; "conv_transpose2d_grad_weight"; "conv_transpose3d_grad_weight"] floats
  | Windowing _ => entries ["reduce_window_max"; "reduce_window_sum"; "reduce_window_min"] numbers ++ entries ["reduce_window_mean"] floats
  | Resize _ => entries ["resize"] floats
  | Padding _ => entries ["pad_constant"; "pad_reflect"; "pad_replicate"; "pad_circular"] all_dtypes
  | Einsum _ => entries ["einsum"] numbers
  end.
(** a dispatch function: a name without a kernel panics *)
Definition dispatch (t : list string) (n : string) : outcome unit := if existsb (String.eqb n) t then Ok tt else Panic.
Fixpoint dispatch_all (t : list string) (ns : list string) : outcome unit :=
  match ns with [] => Ok tt | n :: r => do _ <- dispatch t n ; dispatch_all t r end.
(** tensor/ops/*.rs: validation, then the storage call, then the kernel *)
Definition run (o : op) (d : dtype) : outcome unit :=
  if accepted o d then
    if arm o d then dispatch_all (table o) (map (fun n => kernel_name n d) (op_names o)) else Err EInternal
  else Err EInternal.
