(** Gradient rules of the operations that move elements: tensor/gradient/vjp_concat_split.rs, vjp_scan.rs,
    vjp_shape_memory.rs.

    Simplifications: a rule gets the shapes of the inputs instead of the tensors (it uses nothing else of
    them); all tensors have one dtype. *)
From Coq Require Import List Arith ZArith Bool.
From Verif Require Import Base LayoutModel KernelModel TensorModel MoveModel ScanModel SelectModel.
Import ListNotations.

(** scalar.rs L824-855 [to_usize], of an integer: negative ones become 0 *)
Definition to_usize (d : Z) : nat := Z.to_nat d.

Section Rules.
Variable A : Type.
Variables (z zero : A) (add : A -> A -> A).

(** vjp_concat_split.rs L22-30: a size per input, [dims()[dim]] panics out of range *)
Fixpoint sizes_at (d : nat) (shapes : list shape) : outcome (list nat) :=
  match shapes with
  | [] => Ok []
  | s :: r => do n <- idx_or_panic s d ; do ns <- sizes_at d r ; Ok (n :: ns)
  end.
(** vjp_concat_split.rs L9-35; [dim] as given to concat() (concat_split.rs L102) *)
Definition vjp_concat (shapes : list shape) (dim : Z) (g : tensor A) : outcome (list (tensor A)) :=
  do sizes <- sizes_at (to_usize dim) shapes ;
  t_split z g sizes dim.

(** vjp_concat_split.rs L63-80: zeros, except for the gradient at its place *)
Fixpoint grad_pieces (s : shape) (d : nat) (k : nat) (sizes : list nat) (idx : nat) (g : tensor A) : outcome (list (tensor A)) :=
  match sizes with
  | [] => Ok []
  | size :: r =>
    do p <- (if k =? idx then Ok g
             else if d <? length s then Ok (t_full (upd s d size) zero) else Panic) ;
    do ps <- grad_pieces s d (S k) r idx g ;
    Ok (p :: ps)
  end.
(** vjp_concat_split.rs L37-87; [dim] as given to split() (concat_split.rs L183, L223); [idx] the number of the piece *)
Definition vjp_split (s : shape) (dim : Z) (sizes : list nat) (idx : nat) (g : tensor A) : outcome (tensor A) :=
  let d := to_usize dim in
  do ps <- grad_pieces s d 0 sizes idx g ;
  t_concat z ps (Z.of_nat d).

(** vjp_scan.rs L15-30; [d] is the resolved axis (scan.rs L20) *)
Definition vjp_cumsum (d : nat) (g : tensor A) : outcome (tensor A) :=
  do f <- t_flip z g [Z.of_nat d] ;
  do c <- t_cumsum zero add (fun x => x) (fun x => x) z f (Z.of_nat d) ;
  t_flip z c [Z.of_nat d].

(** vjp_shape_memory.rs L17-29; [dims] are the resolved axes (shape_memory.rs L26-28) *)
Definition vjp_flip (dims : list nat) (g : tensor A) : outcome (tensor A) := t_flip z g (map Z.of_nat dims).
End Rules.
Arguments vjp_concat {A}. Arguments vjp_split {A}. Arguments vjp_cumsum {A}. Arguments vjp_flip {A}. Arguments grad_pieces {A}.
