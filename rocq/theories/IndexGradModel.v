(** Gradient rules of the indexing operations, topk and slice: tensor/gradient/vjp_indexing.rs, vjp_sort.rs,
    vjp_shape.rs L153-235.

    Simplifications: a rule gets the shape of an input where it uses nothing else of it; all tensors have one
    dtype; a comparison and the conversion of its result (L184-197) are one element-wise operation; positions
    along an axis and their sums with a step fit i32. *)
From Coq Require Import List Arith ZArith Bool.
From Verif Require Import Base LayoutModel KernelModel TensorModel MoveModel IndexModel SelectModel MoveGradModel.
Import ListNotations.

Section Rules.
Variable A : Type.
Variables (z zero one : A) (add sub mul max min : A -> A -> A) (geb : A -> A -> bool) (e : env).

(** vjp_indexing.rs L32-54 (IndexSelect) and L56-79 (Gather); [dim] as given to the operation (L16-23) *)
Definition vjp_pick (s : shape) (dim : Z) (idx : tensor Z) (g : tensor A) : outcome (tensor A) :=
  t_scatter add max min ScatterAdd (t_full s zero) (Z.of_nat (to_usize dim)) idx g.

(** vjp_sort.rs L18-52; [idx] the indices topk returned *)
Definition vjp_topk (s : shape) (dim : Z) (idx : tensor Z) (g : tensor A) : outcome (tensor A) :=
  match axis_usize (length s) dim with
  | Some d => t_scatter add max min ScatterAdd (t_full s zero) (Z.of_nat d) idx g
  | None => Err EAxis
  end.

(** vjp_indexing.rs L111-140 (Scatter): the gradients of self and of the source *)
Definition vjp_scatter (s : shape) (dim : Z) (idx : tensor Z) (g : tensor A) : outcome (tensor A * tensor A) :=
  let d := Z.of_nat (to_usize dim) in
  do m <- t_scatter add max min Scatter (t_full s one) d idx (t_full (lshape (tlay idx)) zero) ;
  do gs <- t_binary e z z z mul g m ;
  do gv <- t_gather zero z g d idx ;
  Ok (gs, gv).

(** vjp_indexing.rs L81-109 (IndexPut) *)
Definition vjp_index_put (s : shape) (dim : Z) (idx : tensor Z) (g : tensor A) : outcome (tensor A * tensor A) :=
  let d := Z.of_nat (to_usize dim) in
  do m <- t_index_put (t_full s one) d idx (t_full (lshape (tlay idx)) zero) ;
  do gs <- t_binary e z z z mul g m ;
  do gv <- t_gather zero z g d idx ;
  Ok (gs, gv).

(** vjp_indexing.rs L142-160 (ScatterAdd) *)
Definition vjp_scatter_add (dim : Z) (idx : tensor Z) (g : tensor A) : outcome (tensor A * tensor A) :=
  do gv <- t_gather zero z g (Z.of_nat (to_usize dim)) idx ;
  Ok (g, gv).

(** vjp_indexing.rs L162-218 (ScatterMax and, with the order reversed, ScatterMin) *)
Definition vjp_scatter_max (t : tensor A) (dim : Z) (idx : tensor Z) (src g : tensor A) : outcome (tensor A * tensor A) :=
  let d := Z.of_nat (to_usize dim) in
  do sv <- t_gather zero z g d idx ;
  do ti <- t_gather zero z t d idx ;
  do won <- t_binary e z z z (fun a b => if geb a b then one else zero) src ti ;
  do gsrc <- t_binary e z z z mul sv won ;
  do self_won <- t_binary e z z z sub (t_full (lshape (tlay won)) one) won ;
  do gi <- t_gather zero z g d idx ;
  do at_ <- t_binary e z z z mul gi self_won ;
  do gs <- t_scatter add max min ScatterAdd (t_full (lshape (tlay t)) zero) d idx at_ ;
  do gself <- t_binary e z z z add gs g ;
  Ok (gself, gsrc).

(** vjp_shape.rs L192-204: the positions of a slice; [fuel] bounds the loop *)
Fixpoint up_from (fuel : nat) (i stop n step : Z) : list Z :=
  match fuel with
  | O => []
  | S f => if ((i <? stop) && (i <? n))%Z then i :: up_from f (i + step)%Z stop n step else []
  end.
Fixpoint down_from (fuel : nat) (i stop step : Z) : list Z :=
  match fuel with
  | O => []
  | S f => if ((i >? stop) && (i >=? 0))%Z then i :: down_from f (i + step)%Z stop step else []
  end.
(** vjp_shape.rs L184-204 *)
Definition slice_positions (n start : Z) (end_ : option Z) (step : Z) : list Z :=
  let start_idx := if (start <? 0)%Z then (n + start)%Z else start in
  let end_idx := match end_ with
                 | Some e => if (e <? 0)%Z then (n + e)%Z else e
                 | None => if (step >? 0)%Z then n else (-1)%Z
                 end in
  if (step >? 0)%Z then up_from (Z.to_nat (n - start_idx)) start_idx end_idx n step
  else down_from (Z.to_nat (start_idx + 1)) start_idx end_idx step.
(** vjp_shape.rs L168-231; [as usize] of a negative axis is out of range (L184) *)
Definition vjp_slice (s : shape) (dim start : Z) (end_ : option Z) (step : Z) (g : tensor A) : outcome (tensor A) :=
  if (dim <? 0)%Z then Panic
  else
    let d := Z.to_nat dim in
    do n <- idx_or_panic s d ;
    let ps := slice_positions (Z.of_nat n) start end_ step in
    if negb (length (lshape (tlay g)) =? length s) then Err EInternal
    else
      do m <- idx_or_panic (lshape (tlay g)) d ;
      if negb (m =? length ps) then Err EInternal
      else t_scatter add max min ScatterAdd (t_full s zero) (Z.of_nat d) (mkT ps (from_shape [length ps])) g.
End Rules.
Arguments vjp_pick {A}. Arguments vjp_topk {A}. Arguments vjp_scatter {A}. Arguments vjp_index_put {A}.
Arguments vjp_scatter_add {A}. Arguments vjp_scatter_max {A}. Arguments vjp_slice {A}.
