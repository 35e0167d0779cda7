(** What saving a tensor as JSON and loading it have to keep. *)
From Coq Require Import List Arith ZArith Bool SpecFloat String.
From Verif Require Import Base IndexSpec LayoutModel TensorModel TensorSpec EncodeModel JsonModel.
From Verif Require ScalarModel ScalarSpec.
Import ListNotations.
Open Scope Z_scope.

(** The floats of each format.  f8e4m3 has four binary digits, exponents down to -9, 448 as its largest number and no
    infinity. *)
Definition in_format (d : dtype) (x : spec_float) : Prop :=
  match d with
  | F64 => valid_binary 53 1024 x = true
  | F32 => valid_binary 24 128 x = true
  | BF16 => valid_binary 8 128 x = true
  | F16 => valid_binary 11 16 x = true
  | F8E5M2 => valid_binary 3 16 x = true
  | F8E4M3 =>
    match x with
    | S754_finite _ m e => Z.pos m < 16 /\ -9 <= e <= 5 /\ (e = -9 \/ 8 <= Z.pos m) /\ ~ (Z.pos m = 15 /\ e = 5)
    | S754_infinity _ => False
    | _ => True
    end
  | _ => False
  end.
Definition is_float (d : dtype) : bool := match d with F8E4M3 | F8E5M2 | BF16 | F16 | F32 | F64 => true | _ => false end.
(** The range of each integer type. *)
Definition in_range (d : dtype) (n : Z) : Prop :=
  match d with
  | U8 => 0 <= n < 2 ^ 8 | U16 => 0 <= n < 2 ^ 16 | U32 => 0 <= n < 2 ^ 32 | U64 => 0 <= n < 2 ^ 64
  | I8 => - 2 ^ 7 <= n < 2 ^ 7 | I16 => - 2 ^ 15 <= n < 2 ^ 15 | I32 => - 2 ^ 31 <= n < 2 ^ 31
  | I64 => - 2 ^ 63 <= n < 2 ^ 63 | _ => False
  end.
(** An element that a tensor of the dtype can hold. *)
Definition cell_ok (d : dtype) (c : cell) : Prop :=
  match c with
  | CB _ => d = BOOL
  | CI n => is_float d = false /\ d <> BOOL /\ in_range d n
  | CF x => in_format d x
  end.
Definition finite (c : cell) : Prop :=
  match c with CF S754_nan | CF (S754_infinity _) => False | _ => True end.
(** The crate for 8-bit floats gives back a number that its format has. *)
Definition f8_ok (f8 : dtype -> spec_float -> spec_float) : Prop :=
  forall d x, d = F8E4M3 \/ d = F8E5M2 -> in_format d x -> finite (CF x) -> f8 d (round 24 128 x) = x.
(** No partial product of the sizes leaves 64 bits. *)
Definition sizes_fit (dims : list Z) : Prop :=
  forall k, fold_right Z.mul 1 (firstn k dims) < 2 ^ 64.
Definition product (dims : list Z) : Z := fold_right Z.mul 1 dims.

(** The number that an entry of a file states, for the integer types. *)
Definition states_int (v : json) (n : Z) : Prop := v = Num (from_int n).
(** A float that is loaded is a number that the file states, rounded to the format. *)
Definition states_float (v : json) (x : spec_float) : Prop :=
  v = Num (Float x) \/ exists n, v = Num (from_int n) /\ x = binary_normalize 53 1024 n 0 false.
Definition nearest (d : dtype) (x y : spec_float) : Prop :=
  match d with
  | F64 => y = x | F32 => y = round 24 128 x | BF16 => y = round 8 128 x | F16 => y = round 11 16 x | _ => True
  end.
Definition keeps (d : dtype) (v : json) (c : cell) : Prop :=
  match c with
  | CB b => d = BOOL /\ v = JBool b
  | CI n => is_float d = false /\ d <> BOOL /\ states_int v n
  | CF y => is_float d = true /\ exists x, states_float v x /\ nearest d x y
  end.
(** The values that serde_json makes of a text: [PosInt] from 0 to 2^64 - 1, [NegInt] from -2^63 to -1. *)
Definition wf_number (v : json) : Prop :=
  match v with
  | Num (PosInt n) => 0 <= n < 2 ^ 64
  | Num (NegInt n) => - 2 ^ 63 <= n < 0
  | _ => True
  end.
(** An entry that is outside the integer type it is read as. *)
Definition outside (d : dtype) (v : json) : Prop :=
  is_float d = false /\ d <> BOOL /\ exists n, states_int v n /\ ~ in_range d n.

(** Reading the elements back gives what the tensor holds (the two conditions of C12). *)
Definition plainly_stored (t : tensor cell) : Prop :=
  good t /\ (is_contiguous (tlay t) = true -> List.length (tstore t) = nelem (tshape t)) /\
  (is_contiguous (tlay t) = false -> loffset (tlay t) = 0%nat).
Definition holds_only {A} (P : A -> Prop) (t : tensor A) : Prop := forall i a, valid (tshape t) i -> elem t i = Some a -> P a.
(** What was loaded is the tensor. *)
Definition restored (d : dtype) (t : tensor cell) (r : loaded) : Prop :=
  ldtype r = d /\ tshape (as_tensor r) = tshape t /\ good (as_tensor r) /\
  forall i, valid (tshape t) i -> elem (as_tensor r) i = elem t i.
