(** Gradient rules of the reductions and shape operations:
    /repo/crates/hodu_core/src/tensor/gradient/vjp_reduce.rs and vjp_shape.rs, and
    tensor/ops/reduce.rs [sum_to_shape].

    [s] is the shape of the operation's operand, [g] the incoming gradient.
    Simplifications: the reciprocal of the element count (an f32 division in
    vjp_reduce.rs L44-48) is a parameter; the element type and its addition are
    parameters; [z] fills new buffers (see TensorModel). *)
From Coq Require Import List Arith ZArith Bool.
From Verif Require Import Base IndexSpec LayoutModel KernelModel TensorModel ReduceModel.
Import ListNotations.

(** vjp_reduce.rs L35-41 *)
Definition v_sum {A} (z : A) (s : shape) (g : tensor A) : outcome (tensor A) := t_broadcast z g s.

(** vjp_reduce.rs L28-33: [dims] as recorded (reduce.rs L203-205: normalised) *)
Definition v_reduce_dims (s : shape) (dims : list nat) : list nat :=
  match dims with [] => seq 0 (length s) | _ => dims end.

(** vjp_reduce.rs L42-54; [scale n] multiplies by 1/n *)
Definition v_mean {A} (e : env) (z : A) (scale : nat -> A -> A) (s : shape) (dims : list nat) (g : tensor A)
    : outcome (tensor A) :=
  do ns <- ub (mapO (nth_error s) (v_reduce_dims s dims)) ;
  do g' <- t_unary e z (scale (fold_left Nat.mul ns 1)) g ;
  t_broadcast z g' s.

(** vjp_shape.rs L23-42: reshape, flatten, squeeze, unsqueeze *)
Definition v_reshape {A} (z : A) (s : shape) (g : tensor A) : outcome (tensor A) := t_view z (VReshape s) g.

(** vjp_shape.rs L86-104: are the sizes those of a swap of the last two axes? *)
Definition last_two_swapped (s gs : shape) : bool :=
  let n := length s in
  (nth (n - 1) s 0 =? nth (n - 2) gs 0) && (nth (n - 2) s 0 =? nth (n - 1) gs 0)
  && forallb (fun p => fst p =? snd p) (combine (firstn (n - 2) s) (firstn (n - 2) gs)).
(** vjp_shape.rs L70-113 *)
Definition v_transpose {A} (z : A) (s : shape) (g : tensor A) : outcome (tensor A) :=
  let gs := lshape (tlay g) in
  if negb (length s =? length gs) then Err EInternal
  else if length s <? 2 then Ok g
  else
    let n := Z.of_nat (length s) in
    let d := if last_two_swapped s gs then (n - 2, n - 1)%Z else (-2, -1)%Z in
    t_view z (VTranspose (fst d) (snd d)) g.

(** vjp_shape.rs L124-137: for each operand axis the first gradient axis of the same
    size not taken yet, 0 when there is none *)
Definition guess_axis (gs : shape) (taken : list nat) (d : nat) : nat :=
  match find (fun j => (d =? nth j gs 0) && negb (existsb (Nat.eqb j) taken)) (seq 0 (length gs)) with
  | Some j => j
  | None => 0
  end.
Fixpoint forward_perm (gs : shape) (taken : list nat) (s : shape) : list nat :=
  match s with
  | [] => taken
  | d :: r => forward_perm gs (taken ++ [guess_axis gs taken d]) r
  end.
(** vjp_shape.rs L140-143 *)
Fixpoint inverse_perm (inv : list nat) (i : nat) (fwd : list nat) : list nat :=
  match fwd with
  | [] => inv
  | p :: r => inverse_perm (upd inv p i) (S i) r
  end.
(** vjp_shape.rs L114-148 *)
Definition v_permute {A} (z : A) (s : shape) (g : tensor A) : outcome (tensor A) :=
  let gs := lshape (tlay g) in
  if negb (length s =? length gs) then Err EInternal
  else
    let inv := inverse_perm (repeat 0 (length s)) 0 (forward_perm gs [] s) in
    t_view z (VPermute (map Z.of_nat inv)) g.

Section Sums.
Context {A : Type}.
Variable zero : A.
Variable add : A -> A -> A.
Definition sum1 (dim : nat) (keep : bool) (t : tensor A) : outcome (tensor A) :=
  t_reduce zero (plain add) (fun _ b => b) zero t [Z.of_nat dim] keep.

(** reduce.rs L31-36 / vjp_shape.rs L48-54: sum out the [k] leading axes, last first *)
Fixpoint sum_leading (k : nat) (t : tensor A) : outcome (tensor A) :=
  match k with
  | 0 => Ok t
  | S k' => do t' <- sum1 k' false t ; sum_leading k' t'
  end.
(** reduce.rs L42-46 / vjp_shape.rs L57-65: [ps] pairs target and current sizes *)
Fixpoint sum_ones (i : nat) (ps : list (nat * nat)) (t : tensor A) : outcome (tensor A) :=
  match ps with
  | [] => Ok t
  | (target, current) :: r =>
      do t' <- (if (target =? 1) && (1 <? current) then sum1 i true t else Ok t) ;
      sum_ones (S i) r t'
  end.
(** reduce.rs L20-48 *)
Definition sum_to_shape (target : shape) (t : tensor A) : outcome (tensor A) :=
  let cur := lshape (tlay t) in
  if list_eq_dec Nat.eq_dec cur target then Ok t
  else
    do t1 <- (if length target <? length cur then sum_leading (length cur - length target) t else Ok t) ;
    sum_ones 0 (combine target (lshape (tlay t1))) t1.
(** vjp_shape.rs L43-69 *)
Definition v_broadcast (s : shape) (g : tensor A) : outcome (tensor A) :=
  let gs := lshape (tlay g) in
  do t1 <- (if length s <? length gs then sum_leading (length gs - length s) g else Ok g) ;
  do t2 <- sum_ones 0 (combine s (lshape (tlay t1))) t1 ;
  t_view zero (VReshape s) t2.
End Sums.
