(** What the vectorised loops are compared against. *)
From Coq Require Import List Arith Bool SpecFloat.
From Verif Require Import SimdModel.
Import ListNotations.

(** [op] combines the elements satisfying [ok] in any order and grouping, [init] being neutral *)
Record combines {B} (op : B -> B -> B) (init : B) (ok : B -> Prop) : Prop := {
  c_init : ok init;
  c_op : forall a b, ok a -> ok b -> ok (op a b);
  c_assoc : forall a b c, ok a -> ok b -> ok c -> op a (op b c) = op (op a b) c;
  c_comm : forall a b, ok a -> ok b -> op a b = op b a;
  c_unit : forall a, ok a -> op a init = a }.

(** accumulating [inj x] *)
Definition adding {A B} (op : B -> B -> B) (inj : A -> B) (b : B) (x : A) : B := op b (inj x).
(** the vector units: number of lanes and horizontal reduction *)
Inductive vector_unit {B} (op : B -> B -> B) (init : B) : nat -> (list B -> B) -> Prop :=
| avx2_f32 : vector_unit op init 8 (h_avx_f32 op init)
| avx2_f64 : vector_unit op init 4 (h_avx_f64 op init)
| sse2_f32 : vector_unit op init 4 (h_sse_f32 op init)
| sse2_f64 : vector_unit op init 2 (h_sse_f64 op init)
| neon_f32 : vector_unit op init 4 (h_neon_f32 op init)
| neon_f64 : vector_unit op init 2 (h_neon_f64 op init).
(** the macro MAX of C and the instruction [_mm_max_ps]: [a > b ? a : b] *)
Definition larger {B} (gt : B -> B -> bool) (a b : B) : B := if gt a b then a else b.
Definition f_gt (a b : spec_float) : bool := match SFcompare a b with Some Gt => true | _ => false end.
(** floats other than NaN and -0 *)
Definition is_number (x : spec_float) : Prop := x <> S754_nan /\ x <> S754_zero true.
