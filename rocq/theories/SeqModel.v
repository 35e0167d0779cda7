(** Sequences: arange and linspace, crates/hodu_core/src/tensor/creation.rs L199-300, outside a capture and on the CPU.
    Types are bool, the integers, f32 and f64; f16, bf16 and the 8-bit floats are left out.  A tensor is the list of
    its elements: its layout is that of [Layout::from_shape] of one axis, which other files are about.  Memory does
    not run out. *)
From Coq Require Import List ZArith Bool SpecFloat.
From Verif Require Import Base ScalarModel.
Import ListNotations.
Open Scope Z_scope.

Inductive kind := KBool | KInt (t : ity) | KFlt (f : fty).
(** Scalar::dtype and is_float (crates/hodu_core/src/scalar.rs L423-432) *)
Definition kind_of (s : scalar) : kind := match s with Bool _ => KBool | Int t _ => KInt t | Flt f _ => KFlt f end.
Definition is_float (s : scalar) : bool := match s with Flt _ _ => true | _ => false end.
(** [x as f32], [x as f64] between floats *)
Definition refloat (f : fty) (x : spec_float) : spec_float :=
  match x with S754_finite s m e => binary_round (prec f) (emax f) s m e | _ => x end.
(** Scalar::to_f32, L618-652 *)
Definition to_f32 (s : scalar) : spec_float :=
  match s with
  | Bool b => of_z F32 (if b then 1 else 0)
  | Int _ n => of_z F32 n
  | Flt F32 x => x
  | Flt F64 x => refloat F32 x
  end.
(** f32::ceil followed by [as usize].  Every integer that ceil gives is a value of f32, so nothing is rounded in
    between; NaN becomes 0, the rest saturates. *)
Definition ceiling (x : spec_float) : Z :=
  match x with
  | S754_finite s m e =>
    let v := if s then Z.neg m else Z.pos m in
    if 0 <=? e then v * 2 ^ e else - (- v / 2 ^ (- e))
  | _ => 0
  end.
Definition ceil_usize (x : spec_float) : Z :=
  match x with
  | S754_infinity s => if s then 0 else 2 ^ 64 - 1
  | _ => Z.min (2 ^ 64 - 1) (Z.max 0 (ceiling x))
  end.
(** [start_f + step_f * i as f32] *)
Definition term (start step : spec_float) (i : nat) : spec_float :=
  SFadd 24 128 start (SFmul 24 128 step (of_z F32 (Z.of_nat i))).
(** [(0..size).map(..).collect()]: a vector of more than isize::MAX bytes panics *)
Definition terms (size : Z) (start step : spec_float) : outcome (list spec_float) :=
  if 4 * size <=? 2 ^ 63 - 1 then Ok (map (term start step) (seq 0 (Z.to_nat size))) else Panic.
(** Tensor::to_dtype of an f32 tensor: one element of the cast kernels of crates/hodu_cpu_kernels/kernels/ops_cast.c;
    undefined behaviour is a panic here *)
Definition cast_to (k : kind) (x : spec_float) : option scalar :=
  match k with
  | KBool => Some (Bool (negb (SFeqb x (S754_zero false))))
  | KInt t => option_map (Int t) (c_cast t (Flt F32 x))
  | KFlt f => Some (Flt f (match f with F32 => x | F64 => refloat F64 x end))
  end.
Fixpoint cast_all (k : kind) (l : list spec_float) : outcome (list scalar) :=
  match l with
  | [] => Ok []
  | x :: r => match cast_to k x with Some y => bind (cast_all k r) (fun ys => Ok (y :: ys)) | None => Panic end
  end.

(** arange, L199-251 *)
Definition arange (start stop step : scalar) : outcome (list scalar) :=
  let k := if is_float start then kind_of start else if is_float stop then kind_of stop
           else if is_float step then kind_of step else kind_of start in
  let a := to_f32 start in
  let b := to_f32 stop in
  let h := to_f32 step in
  if SFeqb h (S754_zero false) then Err EInternal
  else if (SFltb (S754_zero false) h && SFleb b a) || (SFltb h (S754_zero false) && SFleb a b) then Err EInternal
  else bind (terms (ceil_usize (SFdiv 24 128 (SFsub 24 128 b a) h)) a h) (cast_all k).

(** linspace, L253-300; [steps] is a usize *)
Definition linspace (start stop : scalar) (steps : Z) : outcome (list scalar) :=
  let k := if is_float start then kind_of start else if is_float stop then kind_of stop else kind_of start in
  let a := to_f32 start in
  let b := to_f32 stop in
  if steps =? 0 then Err EInternal
  else bind (if steps =? 1 then Ok [a]
             else terms steps a (SFdiv 24 128 (SFsub 24 128 b a) (of_z F32 (steps - 1)))) (cast_all k).
