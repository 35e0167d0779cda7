(** Getting data in and out of tensors: dtypes and their names, byte encodings,
    nested arrays, and reading a tensor back.

    Simplifications: floating-point elements are their bit patterns (the codecs
    only move bits); bytes are [Z] values in 0..255; [usize] is [nat]; dtype
    features (cfg) are all on, as in the default build. *)
From Coq Require Import String Ascii.
From Coq Require Import List Arith ZArith Bool.
From Verif Require Import Base IndexSpec LayoutModel KernelModel TensorModel.
Import ListNotations.

(* ---------- dtypes ---------- *)

(** crates/hodu_core/src/types/dtype.rs:6-29 *)
Inductive dtype :=
  BOOL | F8E4M3 | F8E5M2 | BF16 | F16 | F32 | F64 | U8 | U16 | U32 | U64 | I8 | I16 | I32 | I64.
(** crates/hodu_plugin/src/tensor.rs:15-46 *)
Inductive pdtype :=
  PBOOL | PF8E4M3 | PF8E5M2 | PBF16 | PF16 | PF32 | PF64
| PU8 | PU16 | PU32 | PU64 | PI8 | PI16 | PI32 | PI64.

(** discriminants, dtype.rs:7-28 *)
Definition tag (d : dtype) : nat :=
  match d with
  | BOOL => 0 | F8E4M3 => 1 | F8E5M2 => 2 | BF16 => 3 | F16 => 4 | F32 => 5 | F64 => 6
  | U8 => 7 | U16 => 8 | U32 => 9 | U64 => 10 | I8 => 11 | I16 => 12 | I32 => 13 | I64 => 14
  end.
(** discriminants, plugin tensor.rs:17-45 *)
Definition ptag (d : pdtype) : nat :=
  match d with
  | PBOOL => 0 | PF8E4M3 => 1 | PF8E5M2 => 2 | PBF16 => 3 | PF16 => 4 | PF32 => 5 | PF64 => 6
  | PU8 => 7 | PU16 => 8 | PU32 => 9 | PU64 => 10 | PI8 => 11 | PI16 => 12 | PI32 => 13
  | PI64 => 14
  end.

Open Scope string_scope.
(** dtype.rs:31-57 [Display]; also format/json.rs:149-175 [dtype_to_str] *)
Definition dname (d : dtype) : string :=
  match d with
  | BOOL => "bool" | F8E4M3 => "f8e4m3" | F8E5M2 => "f8e5m2" | BF16 => "bf16" | F16 => "f16"
  | F32 => "f32" | F64 => "f64" | U8 => "u8" | U16 => "u16" | U32 => "u32" | U64 => "u64"
  | I8 => "i8" | I16 => "i16" | I32 => "i32" | I64 => "i64"
  end.
(** plugin tensor.rs:60-79 [PluginDType::name] *)
Definition pname (d : pdtype) : string :=
  match d with
  | PBOOL => "bool" | PF8E4M3 => "f8e4m3" | PF8E5M2 => "f8e5m2" | PBF16 => "bf16"
  | PF16 => "f16" | PF32 => "f32" | PF64 => "f64" | PU8 => "u8" | PU16 => "u16"
  | PU32 => "u32" | PU64 => "u64" | PI8 => "i8" | PI16 => "i16" | PI32 => "i32"
  | PI64 => "i64"
  end.

(** [str::to_lowercase] on the byte string.  Only ASCII letters are folded; no
    other character lower-cases to a single ASCII character of a dtype name. *)
Definition lower_ascii (c : ascii) : ascii :=
  let n := nat_of_ascii c in
  if ((65 <=? n) && (n <=? 90))%nat then ascii_of_nat (n + 32) else c.
Fixpoint to_lowercase (s : string) : string :=
  match s with
  | EmptyString => EmptyString
  | String c r => String (lower_ascii c) (to_lowercase r)
  end.

(** format/json.rs:177-203 [str_to_dtype] *)
Definition str_to_dtype (s : string) : option dtype :=
  let l := to_lowercase s in
  if l =? "bool" then Some BOOL
  else if l =? "f8e4m3" then Some F8E4M3
  else if l =? "f8e5m2" then Some F8E5M2
  else if l =? "bf16" then Some BF16
  else if l =? "f16" then Some F16
  else if l =? "f32" then Some F32
  else if l =? "f64" then Some F64
  else if l =? "u8" then Some U8
  else if l =? "u16" then Some U16
  else if l =? "u32" then Some U32
  else if l =? "u64" then Some U64
  else if l =? "i8" then Some I8
  else if l =? "i16" then Some I16
  else if l =? "i32" then Some I32
  else if l =? "i64" then Some I64
  else None.
(** plugin tensor.rs:114-136 [FromStr for PluginDType] *)
Definition str_to_pdtype (s : string) : option pdtype :=
  let l := to_lowercase s in
  if l =? "bool" then Some PBOOL
  else if l =? "f8e4m3" then Some PF8E4M3
  else if l =? "f8e5m2" then Some PF8E5M2
  else if l =? "bf16" then Some PBF16
  else if l =? "f16" then Some PF16
  else if l =? "f32" then Some PF32
  else if l =? "f64" then Some PF64
  else if l =? "u8" then Some PU8
  else if l =? "u16" then Some PU16
  else if l =? "u32" then Some PU32
  else if l =? "u64" then Some PU64
  else if l =? "i8" then Some PI8
  else if l =? "i16" then Some PI16
  else if l =? "i32" then Some PI32
  else if l =? "i64" then Some PI64
  else None.
Close Scope string_scope.

(** dtype.rs:66-88 [size_in_bytes] *)
Definition dsize (d : dtype) : nat :=
  match d with
  | BOOL => 1 | F8E4M3 => 1 | F8E5M2 => 1 | BF16 => 2 | F16 => 2 | F32 => 4 | F64 => 8
  | U8 => 1 | U16 => 2 | U32 => 4 | U64 => 8 | I8 => 1 | I16 => 2 | I32 => 4 | I64 => 8
  end.
(** plugin tensor.rs:50-57 [size_in_bytes] *)
Definition pdsize (d : pdtype) : nat :=
  match d with
  | PBOOL | PF8E4M3 | PF8E5M2 | PU8 | PI8 => 1
  | PBF16 | PF16 | PU16 | PI16 => 2
  | PF32 | PU32 | PI32 => 4
  | PF64 | PU64 | PI64 => 8
  end.

(** hodu-plugin-sdk/src/tensor.rs:12-31, hodu-cli/src/commands/run.rs:500-518 and
    the three other identical copies *)
Definition core_dtype_to_plugin (d : dtype) : pdtype :=
  match d with
  | BOOL => PBOOL | F8E4M3 => PF8E4M3 | F8E5M2 => PF8E5M2 | BF16 => PBF16 | F16 => PF16
  | F32 => PF32 | F64 => PF64 | U8 => PU8 | U16 => PU16 | U32 => PU32 | U64 => PU64
  | I8 => PI8 | I16 => PI16 | I32 => PI32 | I64 => PI64
  end.
(** hodu-plugin-sdk/src/tensor.rs:34-54 (the fallback arm is unreachable for the
    fifteen known types) *)
Definition plugin_dtype_to_core (d : pdtype) : dtype :=
  match d with
  | PBOOL => BOOL | PF8E4M3 => F8E4M3 | PF8E5M2 => F8E5M2 | PBF16 => BF16 | PF16 => F16
  | PF32 => F32 | PF64 => F64 | PU8 => U8 | PU16 => U16 | PU32 => U32 | PU64 => U64
  | PI8 => I8 | PI16 => I16 | PI32 => I32 | PI64 => I64
  end.

(* ---------- scalar codecs ---------- *)

(** Elements of a storage: [bool] for BOOL, the bit pattern for floats, the
    integer itself for integer types. *)
Definition val (d : dtype) : Type := match d with BOOL => bool | _ => Z end.

(** Rust's [uN::to_le_bytes] on the low [w] bytes *)
Fixpoint le_bytes (w : nat) (n : Z) : list Z :=
  match w with
  | 0 => []
  | S w' => (n mod 256)%Z :: le_bytes w' (n / 256)%Z
  end.
(** Rust's [uN::from_le_bytes] *)
Fixpoint le_value (bs : list Z) : Z :=
  match bs with
  | [] => 0
  | b :: r => b + 256 * le_value r
  end%Z.
(** two's complement, [u as iN] and [iN::from_le_bytes] *)
Definition to_signed (w : nat) (u : Z) : Z :=
  if (u <? 2 ^ (8 * Z.of_nat w - 1))%Z then u else (u - 2 ^ (8 * Z.of_nat w))%Z.

(** bytes.rs:90-117, one element.  [iN::to_le_bytes] takes the bits modulo 2^N,
    which [le_bytes] does by [mod] and (floor) [/]. *)
Definition encode (d : dtype) : val d -> list Z :=
  match d return val d -> list Z with
  | BOOL => fun b => [if b then 1%Z else 0%Z]
  | F8E4M3 | F8E5M2 | U8 | I8 => fun v => le_bytes 1 v
  | BF16 | F16 | U16 | I16 => fun v => le_bytes 2 v
  | F32 | U32 | I32 => fun v => le_bytes 4 v
  | F64 | U64 | I64 => fun v => le_bytes 8 v
  end.
(** bytes.rs:127-190, one chunk *)
Definition decode (d : dtype) : list Z -> val d :=
  match d return list Z -> val d with
  | BOOL => fun bs => negb (le_value bs =? 0)%Z
  | I8 => fun bs => to_signed 1 (le_value bs)
  | I16 => fun bs => to_signed 2 (le_value bs)
  | I32 => fun bs => to_signed 4 (le_value bs)
  | I64 => fun bs => to_signed 8 (le_value bs)
  | _ => fun bs => le_value bs
  end.

(** [slice::chunks_exact]; the recursion is bounded by the length *)
Fixpoint chunks_exact_fuel {A} (fuel n : nat) (l : list A) : list (list A) :=
  match fuel with
  | 0 => []
  | S f => if length l <? n then [] else firstn n l :: chunks_exact_fuel f n (skipn n l)
  end.
Definition chunks_exact {A} (n : nat) (l : list A) : list (list A) :=
  chunks_exact_fuel (length l) n l.

(** bytes.rs:90-117 [storage_to_bytes] *)
Definition storage_to_bytes (d : dtype) (st : list (val d)) : list Z := flat_map (encode d) st.
(** bytes.rs:119-190 [bytes_to_storage] *)
Definition bytes_to_storage (d : dtype) (bs : list Z) : list (val d) :=
  map (decode d) (chunks_exact (dsize d) bs).

(** bytes.rs:17-30 [Tensor::to_bytes] *)
Definition t_to_bytes (d : dtype) (z : val d) (t : tensor (val d)) : outcome (list Z) :=
  do st <- (if negb (is_contiguous (tlay t))
            then do c <- t_contiguous z t ; Ok (tstore c)
            else Ok (tstore t)) ;
  Ok (storage_to_bytes d st).
(** bytes.rs:35-62 [Tensor::from_bytes] on the CPU *)
Definition t_from_bytes (d : dtype) (bs : list Z) (s : shape) : outcome (tensor (val d)) :=
  if negb (length bs =? shape_size s * dsize d) then Err EInternal
  else Ok (mkT (bytes_to_storage d bs) (from_shape s)).

(** format/hdt.rs:53-71: an HDT file holds the shape, the dtype and the bytes
    (the container encoding itself is not modelled) *)
Record hdt := mkHdt { hdt_shape : shape; hdt_dtype : dtype; hdt_data : list Z }.
Definition hdt_serialize (d : dtype) (z : val d) (t : tensor (val d)) : outcome hdt :=
  do bs <- t_to_bytes d z t ; Ok (mkHdt (lshape (tlay t)) d bs).
Definition hdt_deserialize (h : hdt) : outcome (tensor (val (hdt_dtype h))) :=
  t_from_bytes (hdt_dtype h) (hdt_data h) (hdt_shape h).

(* ---------- be_cpu/storage.rs: the other codec ---------- *)

(** be_cpu/storage.rs:176-241 [CpuStorage::from_bytes] and L243-287 [to_bytes]:
    the one-byte and half types travel as f32 ([w] and [n] stand for the
    conversions to and from f32) *)
Definition wide (d : dtype) : bool :=
  match d with F8E4M3 | F8E5M2 | BF16 | F16 => true | _ => false end.
Definition wsize (d : dtype) : nat := if wide d then 4 else dsize d.
Definition cpu_to_bytes (w : forall d, val d -> Z) (d : dtype) (st : list (val d)) : list Z :=
  if wide d then flat_map (fun v => le_bytes 4 (w d v)) st else flat_map (encode d) st.
Definition cpu_from_bytes (n : forall d, Z -> val d) (d : dtype) (bs : list Z)
    : outcome (list (val d)) :=
  if negb (length bs mod wsize d =? 0) then Err EInternal
  else Ok (map (fun c => if wide d then n d (le_value c) else decode d c)
               (chunks_exact (wsize d) bs)).

(* ---------- nested arrays ---------- *)

(** into/flatten.rs: 1-D (L35-46), 2-D (L55-72), 3-D (L82-105), 4-D (L115-143) *)
Definition flat2 {A} (x : list (list A)) : list A := concat x.
Definition flat3 {A} (x : list (list (list A))) : list A := concat (map flat2 x).
Definition flat4 {A} (x : list (list (list (list A)))) : list A := concat (map flat3 x).
Definition shape2 {A} (x : list (list A)) : outcome shape :=
  match x with
  | [] => Ok [0; 0]
  | r :: _ => Ok [length x; length r]
  end.
(** [self[0][0]] panics when [self[0]] is empty *)
Definition shape3 {A} (x : list (list (list A))) : outcome shape :=
  match x with
  | [] => Ok [0; 0; 0]
  | m :: _ => do r <- idx_or_panic m 0 ; Ok [length x; length m; length r]
  end.
Definition shape4 {A} (x : list (list (list (list A)))) : outcome shape :=
  match x with
  | [] => Ok [0; 0; 0; 0]
  | c :: _ =>
    do m <- idx_or_panic c 0 ; do r <- idx_or_panic m 0 ;
    Ok [length x; length c; length m; length r]
  end.

(** tensor/creation.rs:50-66 [Tensor::new]: no check of the data against the
    shape *)
Definition t_new {A} (sh : outcome shape) (data : list A) : outcome (tensor A) :=
  do s <- sh ; Ok (mkT data (from_shape s)).
(** tensor/creation.rs:68-95 [Tensor::from_slice] for a flat vector *)
Definition t_from_slice {A} (data : list A) (s : shape) : outcome (tensor A) :=
  if negb (shape_size s =? length data) then Err EShape
  else Ok (mkT data (from_shape s)).

(* ---------- reading a tensor back ---------- *)

(** vec.rs:391-403, the odometer: add one to the last index, carrying into the
    previous axis; the second component is the remaining carry *)
Fixpoint incr (dims idx : list nat) : list nat * bool :=
  match dims, idx with
  | d :: ds, x :: xs =>
    let (xs', carry) := incr ds xs in
    if carry then if S x <? d then (S x :: xs', false) else (0 :: xs', true)
    else (x :: xs', false)
  | _, _ => ([], true)
  end.
(** vec.rs:382-409: one element per step, silently skipping positions beyond the
    data; the layout's offset is not used *)
Fixpoint odometer {A} (data : list A) (dims strides idx : list nat) (n : nat) : list A :=
  match n with
  | 0 => []
  | S n' =>
    let here := match nth_error data (dot idx strides) with Some x => [x] | None => [] end in
    let (idx', carry) := incr dims idx in
    here ++ (if carry then [] else odometer data dims strides idx' n')
  end.
(** vec.rs:371-411 [extract_with_layout] *)
Definition extract_with_layout {A} (data : list A) (l : layout) : list A :=
  if is_contiguous l then data
  else odometer data (lshape l) (lstrides l) (repeat 0 (length (lshape l)))
         (layout_size l).
(** vec.rs:16-21 and L310-360 [Tensor::to_flatten_vec], element type equal to
    the tensor's *)
Definition t_to_flatten_vec {A} (t : tensor A) : outcome (list A) :=
  Ok (extract_with_layout (tstore t) (tlay t)).
(** same, with conversion: the converted storage (be_cpu/storage.rs:693-715) is
    in row-major order, but is read through the original layout *)
Definition t_to_flatten_vec_as {A B} (e : env) (z : B) (f : A -> B) (t : tensor A)
    : outcome (list B) :=
  do c <- t_cast e z f t ; Ok (extract_with_layout (tstore c) (tlay t)).

(** [flat[start..start+n].to_vec()]: out of range panics *)
Definition sub_vec {A} (l : list A) (start n : nat) : outcome (list A) :=
  if start + n <=? length l then Ok (firstn n (skipn start l)) else Panic.
(** [(0..n).map(f).collect()] where [f] may panic *)
Fixpoint collect {A} (l : list (outcome A)) : outcome (list A) :=
  match l with
  | [] => Ok []
  | x :: r => do a <- x ; do b <- collect r ; Ok (a :: b)
  end.
(** vec.rs:34-54 [to_vec2d] *)
Definition rows_of {A} (flat : list A) (base n c : nat) : outcome (list (list A)) :=
  collect (map (fun i => sub_vec flat (base + i * c) c) (seq 0 n)).
Definition t_to_vec2d {A} (t : tensor A) : outcome (list (list A)) :=
  match lshape (tlay t) with
  | [n; c] => do flat <- t_to_flatten_vec t ; rows_of flat 0 n c
  | _ => Err EInternal
  end.
(** vec.rs:56-82 [to_vec3d] *)
Definition t_to_vec3d {A} (t : tensor A) : outcome (list (list (list A))) :=
  match lshape (tlay t) with
  | [n; m; c] =>
    do flat <- t_to_flatten_vec t ;
    collect (map (fun i => rows_of flat (i * (m * c)) m c) (seq 0 n))
  | _ => Err EInternal
  end.
