(** Tensors as JSON: crates/hodu_core/src/format/json.rs.  The text itself is written and read by serde_json; here a
    file is the [serde_json::Value] it stands for, that is, writing a value and reading the text gives the value back.
    (serde_json without its feature float_roundtrip, as in Cargo.toml L38, may be off by one unit in the last place of
    the 53 bits; this is not modelled.)  All feature flags are on.  An element is a boolean, an integer or a
    [spec_float] in the format of the dtype. *)
From Coq Require Import List Arith ZArith Bool SpecFloat String.
From Verif Require Import Base IndexSpec LayoutModel KernelModel TensorModel EncodeModel.
From Verif Require ScalarModel.
Import ListNotations.
Open Scope Z_scope.

(** serde_json::Number: [From<u64>], [From<i64>], [from_f64], [as_u64], [as_i64], [as_f64] *)
Inductive number := PosInt (n : Z) | NegInt (n : Z) | Float (x : spec_float).
Inductive json :=
| Null | JBool (b : bool) | Num (n : number) | Str (s : string) | Arr (l : list json) | Obj (l : list (string * json)).
Definition from_int (n : Z) : number := if n <? 0 then NegInt n else PosInt n.
Definition from_f64 (x : spec_float) : option number :=
  match x with S754_zero _ | S754_finite _ _ _ => Some (Float x) | _ => None end.
Definition as_u64 (v : json) : option Z := match v with Num (PosInt n) => Some n | _ => None end.
Definition as_i64 (v : json) : option Z :=
  match v with
  | Num (PosInt n) => if n <=? 2 ^ 63 - 1 then Some n else None
  | Num (NegInt n) => Some n
  | _ => None
  end.
Definition as_f64 (v : json) : option spec_float :=
  match v with
  | Num (PosInt n) | Num (NegInt n) => Some (binary_normalize 53 1024 n 0 false)
  | Num (Float x) => Some x
  | _ => None
  end.
Definition as_bool (v : json) : option bool := match v with JBool b => Some b | _ => None end.
Definition as_str (v : json) : option string := match v with Str s => Some s | _ => None end.
Definition as_array (v : json) : option (list json) := match v with Arr l => Some l | _ => None end.
Definition as_object (v : json) : option (list (string * json)) := match v with Obj l => Some l | _ => None end.
(** [Map::get]; the keys of a map are different from each other *)
Fixpoint get (k : string) (l : list (string * json)) : option json :=
  match l with [] => None | (k', v) :: r => if (k =? k')%string then Some v else get k r end.

Inductive cell := CB (b : bool) | CI (n : Z) | CF (x : spec_float).

(** [v as f64], [v as f32], bf16::from_f64 and f16::from_f64 of the crate half: to nearest, ties to even *)
Definition round (prec emax : Z) (x : spec_float) : spec_float :=
  match x with S754_finite s m e => binary_round prec emax s m e | _ => x end.
Definition to_f64 (d : dtype) (x : spec_float) : spec_float := match d with F64 => x | _ => round 53 1024 x end.
(** [f8] stands for from_f32 of the crate float8. *)
Definition of_f64 (f8 : dtype -> spec_float -> spec_float) (d : dtype) (x : spec_float) : spec_float :=
  match d with
  | F64 => x
  | F32 => round 24 128 x
  | BF16 => round 8 128 x
  | F16 => round 11 16 x
  | _ => f8 d (round 24 128 x)
  end.

(** tensor_data_to_json L204-342, one element; [Null] in place of a number that [from_f64] refuses *)
Definition float_to_json (x : spec_float) : json := match from_f64 x with Some n => Num n | None => Null end.
Definition cell_to_json (d : dtype) (c : cell) : json :=
  match c with
  | CB b => JBool b
  | CI n => Num (from_int n)
  | CF x => float_to_json (to_f64 d x)
  end.
(** tensor_to_json L102-113 *)
Definition tensor_to_json (d : dtype) (t : tensor cell) : outcome json :=
  do l <- t_to_flatten_vec t ;
  Ok (Obj [("shape", Arr (map (fun n => Num (from_int (Z.of_nat n))) (lshape (tlay t))));
           ("dtype", Str (dname d));
           ("data", Arr (map (cell_to_json d) l))])%string.

(** json_data_to_tensor L344-518, one element: [as_u64().map(|n| n as u8)] and so on *)
Definition int_type (d : dtype) : ScalarModel.ity :=
  match d with
  | U8 => ScalarModel.U8 | U16 => ScalarModel.U16 | U32 => ScalarModel.U32 | U64 => ScalarModel.U64
  | I8 => ScalarModel.I8 | I16 => ScalarModel.I16 | I32 => ScalarModel.I32 | _ => ScalarModel.I64
  end.
Definition json_to_cell (f8 : dtype -> spec_float -> spec_float) (d : dtype) (v : json) : option cell :=
  match d with
  | BOOL => option_map CB (as_bool v)
  | F8E4M3 | F8E5M2 | BF16 | F16 | F32 | F64 => option_map (fun x => CF (of_f64 f8 d x)) (as_f64 v)
  | U8 | U16 | U32 => option_map (fun n => CI (ScalarModel.cut (int_type d) n)) (as_u64 v)
  | U64 => option_map CI (as_u64 v)
  | I8 | I16 | I32 => option_map (fun n => CI (ScalarModel.cut (int_type d) n)) (as_i64 v)
  | I64 => option_map CI (as_i64 v)
  end.
(** [iter().map(f).collect::<HoduResult<Vec<_>>>()] *)
Fixpoint collect_opt {A B} (f : A -> option B) (l : list A) : outcome (list B) :=
  match l with
  | [] => Ok []
  | a :: r => do b <- ok_or (f a) EInternal ; do bs <- collect_opt f r ; Ok (b :: bs)
  end.
(** Shape::size (types/shape.rs L68-70), a product in 64 bits: out of range it panics when overflow checks are on
    ([checked]) and wraps around otherwise *)
Definition size64 (checked : bool) (dims : list Z) : outcome Z :=
  fold_left (fun acc d => do a <- acc ;
    if a * d <? 2 ^ 64 then Ok (a * d) else if checked then Panic else Ok (a * d mod 2 ^ 64)) dims (Ok 1).
(** What is loaded: Tensor::from_slice (tensor/creation.rs L68-94) compares the number of elements. *)
Record loaded := mkLoaded { ldtype : dtype; ldims : list Z; ldata : list cell }.
Definition as_tensor (r : loaded) : tensor cell := mkT (ldata r) (from_shape (map Z.to_nat (ldims r))).
(** json_to_tensor L115-147 *)
Definition json_to_tensor (checked : bool) (f8 : dtype -> spec_float -> spec_float) (v : json) : outcome loaded :=
  do obj <- ok_or (as_object v) EInternal ;
  do shape_arr <- ok_or (match get "shape" obj with Some s => as_array s | None => None end) EInternal ;
  do dims <- collect_opt as_u64 shape_arr ;
  do name <- ok_or (match get "dtype" obj with Some s => as_str s | None => None end) EInternal ;
  do d <- ok_or (str_to_dtype name) EInternal ;
  do data_arr <- ok_or (match get "data" obj with Some s => as_array s | None => None end) EInternal ;
  do values <- collect_opt (json_to_cell f8 d) data_arr ;
  do n <- size64 checked dims ;
  if negb (n =? Z.of_nat (List.length values)) then Err EShape else Ok (mkLoaded d dims values).

(** serialize_many L76-83 and deserialize_many L86-100: the map as the list of its entries *)
Fixpoint many_to_json (l : list (string * (dtype * tensor cell))) : outcome (list (string * json)) :=
  match l with
  | [] => Ok []
  | (k, (d, t)) :: r => do v <- tensor_to_json d t ; do vs <- many_to_json r ; Ok ((k, v) :: vs)
  end.
Definition serialize_many (l : list (string * (dtype * tensor cell))) : outcome json :=
  do vs <- many_to_json l ; Ok (Obj vs).
Fixpoint many_of_json (checked : bool) (f8 : dtype -> spec_float -> spec_float) (l : list (string * json))
    : outcome (list (string * loaded)) :=
  match l with
  | [] => Ok []
  | (k, v) :: r => do t <- json_to_tensor checked f8 v ; do ts <- many_of_json checked f8 r ; Ok ((k, t) :: ts)
  end.
Definition deserialize_many (checked : bool) (f8 : dtype -> spec_float -> spec_float) (v : json)
    : outcome (list (string * loaded)) :=
  do obj <- ok_or (as_object v) EInternal ; many_of_json checked f8 obj.
