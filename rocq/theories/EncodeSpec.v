(** What the byte encodings and the read-back functions should do. *)
From Coq Require Import List Arith ZArith.
From Verif Require Import Base IndexSpec LayoutModel TensorModel TensorSpec EncodeModel.
Import ListNotations.

(** Values an element of dtype [d] can hold: any bit pattern of the width, or
    any integer of the two's complement range. *)
Definition representable (d : dtype) : val d -> Prop :=
  match d return val d -> Prop with
  | BOOL => fun _ => True
  | I8 => fun v => (-128 <= v < 128)%Z
  | I16 => fun v => (-32768 <= v < 32768)%Z
  | I32 => fun v => (-2147483648 <= v < 2147483648)%Z
  | I64 => fun v => (-9223372036854775808 <= v < 9223372036854775808)%Z
  | F8E4M3 | F8E5M2 | U8 => fun v => (0 <= v < 256)%Z
  | BF16 | F16 | U16 => fun v => (0 <= v < 65536)%Z
  | F32 | U32 => fun v => (0 <= v < 4294967296)%Z
  | F64 | U64 => fun v => (0 <= v < 18446744073709551616)%Z
  end.

Definition byte (b : Z) : Prop := (0 <= b < 256)%Z.

(** Little-endian: byte [k] has weight 256^k, and the whole stands for [v]
    modulo the width. *)
Fixpoint weigh (k : Z) (bs : list Z) : Z :=
  match bs with
  | [] => 0
  | b :: r => b * 256 ^ k + weigh (k + 1) r
  end%Z.
Definition le_meaning (bs : list Z) (v : Z) : Prop :=
  Forall byte bs /\ exists q, (v = weigh 0 bs + q * 256 ^ Z.of_nat (length bs))%Z.

(** The logical elements in row-major order. *)
Definition reads {A} (t : tensor A) (l : list A) : Prop :=
  map (elem t) (all_idx (tshape t)) = map Some l.

(** The storage holds nothing besides the tensor's elements. *)
Definition exact_storage {A} (t : tensor A) : Prop :=
  length (tstore t) = nelem (tshape t).

(** An element as a number. *)
Definition as_int (d : dtype) : val d -> Z :=
  match d return val d -> Z with
  | BOOL => fun b => if b then 1%Z else 0%Z
  | _ => fun v => v
  end.
