(** What forward computations put on the gradient tape: tensor/ops/{shape,binary,unary,matrix}.rs,
    tensor/ops/cast_memory.rs L56-83, tensor/utils.rs L7-42, tensor/internal.rs L50-75, eager branches.

    Simplifications: a tensor is its id, its requires_grad flag and its layout (values play no role here);
    the operations are differentiable ones, on one device and dtype, outside of backward() and optimizer
    steps; all tensors stay in the registry ([LifeModel] treats their lifetime); products are modelled for
    operands with at least two axes; [Map] stands for every operation that reads one operand under its layout
    and records it directly (unary.rs, reduce.rs). *)
From Coq Require Import List Arith ZArith Bool.
From Verif Require Import Base LayoutModel KernelModel TensorModel MatrixModel GradModel.
Import ListNotations.

Inductive kind := KView (o : view_op) | KMap | KZip | KDot | KMatmul.
Record handle := mkH { hid : nat; hreq : bool; hlay : layout }.

Section Flow.
Variable V : Type.
Notation gstate := (gstate kind V).

(** the next id and the registry *)
Definition world : Type := nat * gstate.

(** internal.rs L18-75: a new tensor in the registry; then, if it requires a gradient, [record_operation]
    (compute.rs L13-41, [GradModel.record]); [None]: nothing to record *)
Definition emit (k : option kind) (ins : list nat) (r : bool) (l : layout) (w : world) : handle * world :=
  let '(n, g) := w in
  let g1 := set_req (fupd (req g) n r) (set_alive (fupd (alive g) n true) g) in
  let g2 := match k with Some k => if r then record (mkE n k ins) g1 else g1 | None => g1 end in
  (mkH n r l, (S n, g2)).

(** cast_memory.rs L56-83: the copy does not require a gradient, and nothing is recorded *)
Definition contiguous (h : handle) (w : world) : handle * world :=
  if is_contiguous (hlay h) then (h, w)
  else emit None [] false (from_shape (lshape (hlay h))) w.

(** shape.rs: every view of a non-contiguous tensor is a view of its copy (e.g. broadcast L232-279) *)
Definition view (o : view_op) (h : handle) (w : world) : outcome (handle * world) :=
  match o with
  | VReshape s => if negb (shape_size s =? layout_size (hlay h)) then Err EShape
    else let '(c, w1) := contiguous h w in
         do l <- apply_view (hlay c) o ; Ok (emit (Some (KView o)) [hid c] (hreq c) l w1)
  | _ => let '(c, w1) := contiguous h w in
         do l <- apply_view (hlay c) o ; Ok (emit (Some (KView o)) [hid c] (hreq c) l w1)
  end.

(** unary.rs L14-62 *)
Definition map1 (h : handle) (w : world) : handle * world :=
  emit (Some KMap) [hid h] (hreq h) (from_shape (lshape (hlay h))) w.

(** binary.rs L13-82, utils.rs L7-42: both operands are broadcast, and the broadcast tensors decide and are recorded *)
Definition zip (a b : handle) (w : world) : outcome (handle * world) :=
  match bt2_dims (lshape (hlay a)) (lshape (hlay b)) with
  | None => Err EShape
  | Some s =>
    do p <- view (VBroadcast s) a w ;
    do q <- view (VBroadcast s) b (snd p) ;
    Ok (emit (Some KZip) [hid (fst p); hid (fst q)] (hreq (fst p) || hreq (fst q)) (hlay (fst p)) (snd q))
  end.

(** matrix.rs L13-92, L95-224, L303-372: two matrices are recorded directly; otherwise both operands are broadcast
    and the broadcast tensors are recorded, but [self] and [other] decide *)
Definition prod (a b : handle) (w : world) : outcome (handle * world) :=
  let sa := lshape (hlay a) in
  let sb := lshape (hlay b) in
  if (length sa <? 2) || (length sb <? 2) then Err EShape
  else
    let m := nth (length sa - 2) sa 0 in
    let k := nth (length sa - 1) sa 0 in
    let k' := nth (length sb - 2) sb 0 in
    let n := nth (length sb - 1) sb 0 in
    if negb (k =? k') then Err EShape
    else if (length sa =? 2) && (length sb =? 2)
    then Ok (emit (Some KDot) [hid a; hid b] (hreq a || hreq b) (from_shape [m; n]) w)
    else
      match mat_batch sa sb with
      | None => Err EShape
      | Some s =>
        do p <- view (VBroadcast (s ++ [m; k])) a w ;
        do q <- view (VBroadcast (s ++ [k'; n])) b (snd p) ;
        Ok (emit (Some KMatmul) [hid (fst p); hid (fst q)] (hreq a || hreq b) (from_shape (s ++ [m; n])) (snd q))
      end.

(** A forward computation: operands are the numbers of earlier instructions. *)
Inductive instr :=
  | Leaf (s : shape) (r : bool)
  | View (o : view_op) (a : nat)
  | Map (a : nat)
  | Zip (a b : nat)
  | Prod (a b : nat).

Definition fetch (vs : list handle) (a : nat) : outcome handle := idx_or_panic vs a.
Definition exec1 (i : instr) (vs : list handle) (w : world) : outcome (handle * world) :=
  match i with
  | Leaf s r => Ok (emit None [] r (from_shape s) w)
  | View o a => do h <- fetch vs a ; view o h w
  | Map a => do h <- fetch vs a ; Ok (map1 h w)
  | Zip a b => do x <- fetch vs a ; do y <- fetch vs b ; zip x y w
  | Prod a b => do x <- fetch vs a ; do y <- fetch vs b ; prod x y w
  end.
Fixpoint exec (p : list instr) (vs : list handle) (w : world) : outcome (list handle * world) :=
  match p with
  | [] => Ok (vs, w)
  | i :: r => do q <- exec1 i vs w ; exec r (vs ++ [fst q]) (snd q)
  end.
(** from the state at program start *)
Definition forward (p : list instr) : outcome (list handle * world) := exec p [] (0, @init kind V).
End Flow.
Arguments emit {V}. Arguments contiguous {V}. Arguments view {V}. Arguments map1 {V}. Arguments zip {V}. Arguments prod {V}.
Arguments exec1 {V}. Arguments exec {V}. Arguments forward {V}.
