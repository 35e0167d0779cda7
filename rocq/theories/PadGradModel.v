(** Gradient rule of padding: tensor/gradient/vjp_padding.rs.

    Simplifications: as in MoveGradModel; [usize] subtractions below zero are panics. *)
From Coq Require Import List Arith ZArith Bool.
From Verif Require Import Base LayoutModel KernelModel TensorModel ReduceModel MoveModel.
Import ListNotations.
Open Scope nat_scope.

Section Rule.
Variable A : Type.
Variables (e : env) (zero : A) (add : A -> A -> A).

(** L240-243 [slice_single_dim] *)
Definition slice1 (d start end_ : nat) (t : tensor A) : outcome (tensor A) :=
  t_view zero (VSlice (Z.of_nat d) (Z.of_nat start) (Some (Z.of_nat end_)) 1) t.
(** L56-65 [slice_center]: stops at the shorter of [padding] and the shape *)
Fixpoint slice_center (d : nat) (padding : list (nat * nat)) (s : shape) (t : tensor A) : outcome (tensor A) :=
  match padding, s with
  | (b, _) :: p, n :: s' => do t' <- slice1 d b (b + n) t ; slice_center (S d) p s' t'
  | _, _ => Ok t
  end.
(** L245-268 [slice_dim]: the whole of [target], the centre of the other axes *)
Fixpoint slice_dim (target start end_ d : nat) (padding : list (nat * nat)) (s : shape) (t : tensor A) : outcome (tensor A) :=
  match padding with
  | [] => Ok t
  | (b, _) :: p =>
    do t' <- (if d =? target then slice1 d start end_ t
              else match s with n :: _ => slice1 d b (b + n) t | [] => Panic end) ;
    slice_dim target start end_ (S d) p (tl s) t'
  end.
(** L270-311 [replace_single_dim] *)
Definition replace_dim (t : tensor A) (d start end_ : nat) (r : tensor A) : outcome (tensor A) :=
  do n <- idx_or_panic (lshape (tlay t)) d ;
  if (start =? 0) && (end_ =? n) then Ok r
  else
    do before <- (if 0 <? start then do p <- slice1 d 0 start t ; Ok [p] else Ok []) ;
    do after <- (if end_ <? n then do p <- slice1 d end_ n t ; Ok [p] else Ok []) ;
    match before ++ [r] ++ after with
    | [p] => Ok p
    | parts => t_concat zero parts (Z.of_nat d)
    end.
Definition t_plus (a b : tensor A) : outcome (tensor A) := t_binary e zero zero zero add a b.
Definition usize_sub (a b : nat) : outcome nat := if a <? b then Panic else Ok (a - b).
(** adding [part] to the positions [start..end_] of axis [d] *)
Definition add_into (gi : tensor A) (d start end_ : nat) (part : tensor A) : outcome (tensor A) :=
  do target <- slice1 d start end_ gi ;
  do added <- t_plus target part ;
  replace_dim gi d start end_ added.

(** One axis [d] of size [n]; [left] and [right] are the gradients of the padding before and after. *)
(** L86-107 and L110-135 (reflect) *)
Definition reflect_left (d n pad : nat) (left gi : tensor A) : outcome (tensor A) :=
  do flipped <- t_flip zero left [Z.of_nat d] ;
  let len := Nat.min pad (n - 1) in
  do m <- idx_or_panic (lshape (tlay flipped)) d ;
  do part <- (if len <? m then slice1 d (m - len) m flipped else Ok flipped) ;
  add_into gi d 1 (1 + len) part.
Definition reflect_right (d n pad : nat) (right gi : tensor A) : outcome (tensor A) :=
  do flipped <- t_flip zero right [Z.of_nat d] ;
  let len := Nat.min pad (n - 1) in
  let start := n - 1 - len in
  do m <- idx_or_panic (lshape (tlay flipped)) d ;
  do part <- (if len <? m then slice1 d 0 len flipped else Ok flipped) ;
  add_into gi d start (start + len) part.
(** L158-165 and L168-184 (replicate) *)
Definition replicate_left (d : nat) (left gi : tensor A) : outcome (tensor A) :=
  do sum <- t_reduce zero (plain add) (fun _ b => b) zero left [Z.of_nat d] true ;
  add_into gi d 0 1 sum.
Definition replicate_right (d n : nat) (right gi : tensor A) : outcome (tensor A) :=
  do sum <- t_reduce zero (plain add) (fun _ b => b) zero right [Z.of_nat d] true ;
  do i <- usize_sub n 1 ;
  add_into gi d i n sum.
(** L209-216 and L220-234 (circular) *)
Definition circular_left (d n pad : nat) (left gi : tensor A) : outcome (tensor A) :=
  do start <- usize_sub n pad ; add_into gi d start n left.
Definition circular_right (d pad : nat) (right gi : tensor A) : outcome (tensor A) := add_into gi d 0 pad right.

Section Axes.
Variables (m : pad_mode) (padding : list (nat * nat)) (s : shape) (g : tensor A).
(** the body of the loops over the axes: L76-136, L150-185, L199-235 *)
Definition pad_axis (d : nat) (gi : tensor A) : outcome (tensor A) :=
  do p <- (match nth_error padding d with Some p => Ok p | None => Panic end) ;
  do n <- idx_or_panic s d ;
  let '(before, after) := p in
  let skip := match m with PadReflect => n <=? 1 | _ => false end in
  do gi1 <- (if (0 <? before) && negb skip then
               do left <- slice_dim d 0 before 0 padding s g ;
               match m with
               | PadReflect => reflect_left d n before left gi
               | PadReplicate => replicate_left d left gi
               | _ => circular_left d n before left gi
               end
             else Ok gi) ;
  if (0 <? after) && negb skip then
    do size <- idx_or_panic (lshape (tlay g)) d ;
    do start <- usize_sub size after ;
    do right <- slice_dim d start size 0 padding s g ;
    match m with
    | PadReflect => reflect_right d n after right gi1
    | PadReplicate => replicate_right d n right gi1
    | _ => circular_right d after right gi1
    end
  else Ok gi1.
Fixpoint pad_axes (d k : nat) (gi : tensor A) : outcome (tensor A) :=
  match k with
  | 0 => Ok gi
  | S k' => do gi' <- pad_axis d gi ; pad_axes (S d) k' gi'
  end.
(** L11-53 *)
Definition vjp_pad : outcome (tensor A) :=
  do gi <- slice_center 0 padding s g ;
  match m with
  | PadConstant => Ok gi
  | _ => pad_axes 0 (length s) gi
  end.
End Axes.
End Rule.
Arguments slice1 {A}. Arguments slice_center {A}. Arguments slice_dim {A}. Arguments replace_dim {A}. Arguments add_into {A}.
Arguments vjp_pad {A}. Arguments pad_axis {A}. Arguments pad_axes {A}. Arguments t_plus {A}.
Arguments replicate_left {A}. Arguments replicate_right {A}. Arguments circular_left {A}. Arguments circular_right {A}.
Arguments reflect_left {A}. Arguments reflect_right {A}.
