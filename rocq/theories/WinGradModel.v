(** Gradient rules of the window reductions: tensor/gradient/vjp_windowing.rs.

    Simplifications: the element type is a parameter, with the comparison, the multiplication and the
    numbers of the element type; the number of elements of a window is exact. *)
From Coq Require Import List Arith Bool.
From Verif Require Import Base LayoutModel KernelModel TensorModel.
Import ListNotations.

Section Rules.
Variable A : Type.
Variables (e : env) (zero one : A) (mul : A -> A -> A) (eqb : A -> A -> bool).

(** L48-62 (and L93-106, L126-139): each entry of axis [d] [stride] times *)
Definition repeat_axis (d stride : nat) (t : tensor A) : outcome (tensor A) :=
  if 1 <? stride then
    let dims := lshape (tlay t) in
    if length dims <? S d then Panic
    else
      do n <- idx_or_panic dims d ;
      let expanded := firstn (S d) dims ++ 1 :: skipn (S d) dims in
      do t1 <- t_view zero (VReshape expanded) t ;
      do t2 <- t_view zero (VBroadcast (upd expanded (S d) stride)) t1 ;
      t_view zero (VReshape (upd dims d (n * stride))) t2
  else Ok t.
(** L45-69, L90-108, L123-141: from the last axis to the first *)
Fixpoint upsample (d : nat) (strides : list nat) (t : tensor A) : outcome (tensor A) :=
  match strides with
  | [] => Ok t
  | k :: r => do t' <- upsample (S d) r t ; repeat_axis d k t'
  end.
(** L41-73: upsampled, then broadcast to the shape of the input *)
Definition spread (s strides : list nat) (t : tensor A) : outcome (tensor A) :=
  do u <- upsample 0 strides t ; t_view zero (VBroadcast s) u.

(** L117-145 *)
Definition vjp_window_sum (s strides : list nat) (g : tensor A) : outcome (tensor A) := spread s strides g.
(** L84-116; [scale] is one over the number of elements of a window *)
Definition vjp_window_mean (scale : A) (s strides : list nat) (g : tensor A) : outcome (tensor A) :=
  do u <- spread s strides g ; t_unary e zero (fun x => mul x scale) u.
(** L32-83, max and min *)
Definition vjp_window_max (x out : tensor A) (strides : list nat) (g : tensor A) : outcome (tensor A) :=
  let s := lshape (tlay x) in
  do uo <- spread s strides out ;
  do ug <- spread s strides g ;
  do mask <- t_binary e zero zero false eqb x uo ;
  do mf <- t_cast e zero (fun b : bool => if b then one else zero) mask ;
  t_binary e zero zero zero mul ug mf.
End Rules.
Arguments repeat_axis {A}. Arguments upsample {A}. Arguments spread {A}.
Arguments vjp_window_sum {A}. Arguments vjp_window_mean {A}. Arguments vjp_window_max {A}.
