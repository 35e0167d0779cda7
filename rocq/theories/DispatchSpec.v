(** What C125 says, apart from the model. *)
From Coq Require Import List Bool.
From Verif Require Import Base EncodeModel DispatchModel.
Import ListNotations.

(** Sorts of element types. *)
Inductive sort := Boolean | Unsigned | Signed | Float.
Definition sort_of (d : dtype) : sort :=
  match d with
  | BOOL => Boolean | U8 | U16 | U32 | U64 => Unsigned | I8 | I16 | I32 | I64 => Signed | _ => Float
  end.
(** Operations on anything, on numbers, on numbers with a sign, on integers, on floats only. *)
Inductive needs := Anything | Number | WithSign | Integer | Fraction.
Definition suits (n : needs) (s : sort) : Prop :=
  match n, s with
  | Anything, _ => True
  | Number, Boolean => False
  | Number, _ => True
  | WithSign, (Signed | Float) => True
  | Integer, (Unsigned | Signed) => True
  | Fraction, Float => True
  | _, _ => False
  end.
Definition need (o : op) : needs :=
  match o with
  | BinaryLogical _ | Cmp (Cmp_Eq | Cmp_Ne) | CmpScalar (CmpScalar_EqScalar | CmpScalar_NeScalar) | UnaryLogical UnaryLogical_LogicalNot
  | Reduce (Reduce_ArgMax | Reduce_ArgMin | Reduce_Any | Reduce_All) | Concat _ | Split _ | Padding _
  | Indexing (Indexing_IndexSelect | Indexing_IndexPut | Indexing_Gather | Indexing_Scatter | Indexing_Nonzero) => Anything
  | BitwiseBinary _ | BitwiseUnary _ | BitwiseUnaryScalar _ => Integer
  | Unary (Unary_Neg | Unary_Abs | Unary_Sign | Unary_Softsign | Unary_Relu) => WithSign
  | Binary (Binary_Div | Binary_Pow) | UnaryScalar (UnaryScalar_DivScalar | UnaryScalar_PowScalar | UnaryScalar_LeakyRelu | UnaryScalar_Elu | UnaryScalar_Prelu)
  | UnaryLogical _ | Reduce (Reduce_Mean | Reduce_Std | Reduce_Var | Reduce_Norm | Reduce_LogSum | Reduce_LogSumExp)
  | Conv _ | Windowing Windowing_ReduceWindowMean | Resize _ => Fraction
  | Unary Unary_Square => Number
  | Unary _ => Fraction
  | _ => Number
  end.

(** The operations with no kernel for a type. *)
Definition unserved (o : op) (d : dtype) : Prop :=
  match o with
  | Binary Binary_Rem | UnaryScalar UnaryScalar_RemScalar => sort_of d <> Boolean
  | UnaryScalar (UnaryScalar_LeakyRelu | UnaryScalar_Elu | UnaryScalar_Prelu) => sort_of d = Float
  | Unary Unary_Relu => sort_of d = Signed
  | Reduce (Reduce_ArgMax | Reduce_ArgMin | Reduce_Any | Reduce_All) => d = F64
  | _ => False
  end.
(** Accepted, then refused. *)
Definition refused_late (o : op) (d : dtype) : Prop :=
  match o with
  | Reduce (Reduce_ArgMax | Reduce_ArgMin | Reduce_Any | Reduce_All) => d = BOOL
  | _ => False
  end.
