(** Selection: where3, masked_fill, clamp, composed of element-wise operations.

    Simplifications: one numeric element type [A] given with its zero, one and
    arithmetic; dtype and device validation left out. *)
From Coq Require Import List Arith ZArith Bool.
From Verif Require Import Base IndexSpec LayoutModel KernelModel TensorModel.
Import ListNotations.

(** tensor/creation.rs:171-189 [full]; ones_like (L167), full_like (L191) *)
Definition t_full {A} (s : shape) (v : A) : tensor A :=
  mkT (repeat v (shape_size s)) (from_shape s).

Record arith (A : Type) := mkArith {
  azero : A; aone : A; aadd : A -> A -> A; asub : A -> A -> A; amul : A -> A -> A }.
Arguments mkArith {A}. Arguments azero {A}. Arguments aone {A}.
Arguments aadd {A}. Arguments asub {A}. Arguments amul {A}.

(** tensor/ops/selection.rs:8-19 [where3].  [conv] is the conversion of a
    condition element to the value type done by [to_dtype] (L11). *)
Definition t_where3 {C A} (e : env) (o : arith A) (zc : C) (conv : C -> A)
    (self : tensor A) (condition : tensor C) (other : tensor A) : outcome (tensor A) :=
  do cxy <- broadcast_tensors3 zc (azero o) (azero o) condition self other ;
  let '(condition, x, y) := cxy in
  do mask <- t_cast e (azero o) conv condition ;
  let one := t_full (lshape (tlay mask)) (aone o) in
  do inv_mask <- t_binary e (azero o) (azero o) (azero o) (asub o) one mask ;
  do x_part <- t_binary e (azero o) (azero o) (azero o) (amul o) mask x ;
  do y_part <- t_binary e (azero o) (azero o) (azero o) (amul o) inv_mask y ;
  t_binary e (azero o) (azero o) (azero o) (aadd o) x_part y_part.

(** booleans convert to one and zero *)
Definition bconv {A} (o : arith A) (b : bool) : A := if b then aone o else azero o.

(** selection.rs:21-25 *)
Definition t_masked_fill {A} (e : env) (o : arith A) (self : tensor A) (mask : tensor bool)
    (v : A) : outcome (tensor A) :=
  t_where3 e o false (bconv o) self mask (t_full (lshape (tlay self)) v).

(** selection.rs:38-42 [clamp_min]; [ltb] is the kernel of [lt_scalar] *)
Definition t_clamp_min {A} (e : env) (o : arith A) (ltb : A -> A -> bool) (self : tensor A)
    (lo : A) : outcome (tensor A) :=
  let min_tensor := t_full (lshape (tlay self)) lo in
  do c <- t_unary e false (fun v => ltb v lo) self ;
  t_where3 e o false (bconv o) self c min_tensor.

(** selection.rs:44-48 [clamp_max] *)
Definition t_clamp_max {A} (e : env) (o : arith A) (ltb : A -> A -> bool) (self : tensor A)
    (hi : A) : outcome (tensor A) :=
  let max_tensor := t_full (lshape (tlay self)) hi in
  do c <- t_unary e false (fun v => ltb hi v) self ;
  t_where3 e o false (bconv o) self c max_tensor.

(** selection.rs:27-36 [clamp] *)
Definition t_clamp {A} (e : env) (o : arith A) (ltb : A -> A -> bool) (self : tensor A)
    (lo hi : A) : outcome (tensor A) :=
  do clamped_min <- t_clamp_min e o ltb self lo ;
  t_clamp_max e o ltb clamped_min hi.

(** the integers, as an instance *)
Definition Zarith : arith Z := mkArith 0%Z 1%Z Z.add Z.sub Z.mul.
