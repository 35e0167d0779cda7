(** Model of crates/hodu_core/src/types/shape.rs and .../types/layout.rs,
    and of the storage-sharing view operations of
    crates/hodu_core/src/tensor/ops/shape.rs.

    Simplifications, valid throughout this file:
    - [usize] is [nat], [i32] is [Z]; no wrap-around (dims are assumed < 2^31 so
      that the [as i32] casts of the code are exact);
    - a negative [i32] cast [as usize] is a value >= 2^63, larger than any rank:
      it is modelled by [None] in [as_usize]. *)
From Coq Require Import List Arith ZArith Bool.
From Verif Require Import Base.
Import ListNotations.

(** types/shape.rs:8-12 [Shape] is its list of dimensions. *)
Definition shape := list nat.

(** types/layout.rs:13-19 *)
Record layout := mkLayout { lshape : shape; lstrides : list nat; loffset : nat }.

(** types/shape.rs:68-70 [Shape::size]: product of the dimensions. *)
Definition shape_size (s : shape) : nat := fold_right Nat.mul 1 s.

(** cast [i32 as usize]; [None] stands for the huge value of a negative input. *)
Definition as_usize (z : Z) : option nat :=
  if (z <? 0)%Z then None else Some (Z.to_nat z).

(** types/shape.rs:61-64 [Shape::dim_size] *)
Definition shape_dim_size (s : shape) (index : Z) : option nat :=
  let i := if (index <? 0)%Z then (Z.of_nat (length s) + index)%Z else index in
  match as_usize i with
  | Some k => nth_error s k
  | None => None
  end.

(** types/shape.rs:80-94 [Shape::can_broadcast_to] *)
Definition can_broadcast_to (s target : shape) : bool :=
  if length target <? length s then false
  else
    let off := length target - length s in
    forallb (fun p : nat * nat => let (d, t) := p in (d =? 1) || (d =? t))
            (combine s (skipn off target)).

(** types/shape.rs:103-107: the dimension compared at output position [i].
    [saturating_sub] is truncated subtraction; [.get(..).unwrap_or(1)]. *)
Definition bshape_dim (s : shape) (max_ndim i : nat) : nat :=
  nth (length s - (max_ndim - i)) s 1.
(** types/shape.rs:102-114: the loop over output positions. *)
Fixpoint bshape_loop (lhs rhs : shape) (max_ndim : nat) (is : list nat) : option shape :=
  match is with
  | [] => Some []
  | i :: is' =>
    let l := bshape_dim lhs max_ndim i in
    let r := bshape_dim rhs max_ndim i in
    if negb (l =? r) && negb (l =? 1) && negb (r =? 1) then None
    else match bshape_loop lhs rhs max_ndim is' with
         | Some ds => Some (Nat.max l r :: ds)
         | None => None
         end
  end.
(** types/shape.rs:98-117 [Shape::broadcast_shape] *)
Definition broadcast_shape (lhs rhs : shape) : option shape :=
  let max_ndim := Nat.max (length lhs) (length rhs) in
  bshape_loop lhs rhs max_ndim (seq 0 max_ndim).

(** types/shape.rs:121-130 [Shape::normalize_axis] *)
Definition normalize_axis (s : shape) (axis : Z) : option nat :=
  let ndim := Z.of_nat (length s) in
  let n := if (axis <? 0)%Z then (ndim + axis)%Z else axis in
  if (0 <=? n)%Z && (n <? ndim)%Z then Some (Z.to_nat n) else None.

(** types/layout.rs:67-76 [Layout::dim_size] *)
Definition layout_dim_size (l : layout) (index : Z) : option nat :=
  let ndim := Z.of_nat (length (lshape l)) in
  let n := if (index <? 0)%Z then (ndim + index)%Z else index in
  if (0 <=? n)%Z && (n <? ndim)%Z then nth_error (lshape l) (Z.to_nat n) else None.

(** types/layout.rs:80 *)
Definition layout_size (l : layout) : nat := shape_size (lshape l).

(** types/layout.rs:85 [Layout::buffer_size] *)
Definition buffer_size (l : layout) : nat := loffset l + layout_size l.

(** types/layout.rs:123-134 [compute_strides]: last stride 1 and
    [strides[i] = strides[i+1] * shape[i+1]] going left. *)
Fixpoint compute_strides (s : shape) : list nat :=
  match s with
  | [] => []
  | d :: s' =>
    match compute_strides s', s' with
    | st :: sts, d' :: _ => (st * d') :: st :: sts
    | _, _ => [1]
    end
  end.

(** types/layout.rs:105-120 [is_contiguous]: right-to-left walk comparing each
    stride with the running product. *)
Fixpoint contig_walk (rstrides_shape : list (nat * nat)) (expected : nat) : bool :=
  match rstrides_shape with
  | [] => true
  | (st, d) :: r => if st =? expected then contig_walk r (expected * d) else false
  end.
Definition is_contiguous (l : layout) : bool :=
  contig_walk (rev (combine (lstrides l) (lshape l))) 1.

(** types/layout.rs:23 and 32 *)
Definition layout_new (s : shape) (strides : list nat) : layout := mkLayout s strides 0.
Definition from_shape (s : shape) : layout := mkLayout s (compute_strides s) 0.

(** types/layout.rs:137-165 *)
Definition reshape (l : layout) (new_shape : shape) : outcome layout :=
  if negb (layout_size l =? shape_size new_shape) then Err EShape
  else if negb (is_contiguous l) then Err ELayout
  else Ok (mkLayout new_shape (compute_strides new_shape) (loffset l)).

(** types/layout.rs:168-186 *)
Definition flatten (l : layout) : outcome layout :=
  if negb (is_contiguous l) then Err ELayout
  else let s := [layout_size l] in
       Ok (mkLayout s (compute_strides s) (loffset l)).

(** types/layout.rs:209-228: normalise and check the axes to squeeze. *)
Fixpoint squeeze_axes (s : shape) (dims : list Z) : outcome (list nat) :=
  match dims with
  | [] => Ok []
  | dim :: rest =>
    let a := as_usize (if (dim <? 0)%Z then (Z.of_nat (length s) + dim)%Z else dim) in
    match a with
    | None => Err EAxis
    | Some k =>
      match nth_error s k with
      | None => Err EAxis
      | Some d =>
        if negb (d =? 1) then Err ELayout
        else do r <- squeeze_axes s rest ; Ok (k :: r)
      end
    end
  end.

(** types/layout.rs:231-232: sort, then reverse; modelled by insertion into a
    descending list (any sorting algorithm gives the same list). *)
Fixpoint insert_desc (x : nat) (l : list nat) : list nat :=
  match l with
  | [] => [x]
  | y :: t => if y <=? x then x :: y :: t else y :: insert_desc x t
  end.
Definition sort_desc (l : list nat) : list nat := fold_right insert_desc [] l.

(** types/layout.rs:234-237: [Vec::remove] panics when out of range. *)
Fixpoint remove_all (dims : list nat) (axes : list nat) : outcome (list nat) :=
  match axes with
  | [] => Ok dims
  | a :: rest =>
    if a <? length dims then remove_all (remove_at dims a) rest else Panic
  end.

(** types/layout.rs:193-249 *)
Definition squeeze (l : layout) (dims : list Z) : outcome layout :=
  if negb (is_contiguous l) then Err ELayout
  else
    do new_dims <-
       match dims with
       | [] => Ok (filter (fun d => negb (d =? 1)) (lshape l))
       | _ => do axes <- squeeze_axes (lshape l) dims ;
              remove_all (lshape l) (sort_desc axes)
       end ;
    Ok (mkLayout new_dims (compute_strides new_dims) (loffset l)).

(** types/layout.rs:252-288 *)
Definition unsqueeze (l : layout) (dim : Z) : outcome layout :=
  let ndim := length (lshape l) in
  let a := as_usize (if (dim <? 0)%Z then (Z.of_nat ndim + dim + 1)%Z else dim) in
  match a with
  | None => Err EAxis
  | Some k =>
    if ndim <? k then Err EAxis
    else
      let new_dims := insert_at (lshape l) k 1 in
      if negb (is_contiguous l) then Err ELayout
      else Ok (mkLayout new_dims (compute_strides new_dims) (loffset l))
  end.

(** types/layout.rs:311-330: per-axis stride computation of [broadcast_to];
    [rank_diff] counts the axes that were added on the left.  The strides list
    consumed is [self.strides] aligned with the original axes. *)
Fixpoint broadcast_strides (rank_diff : nat) (padded target strides : list nat)
  : outcome (list nat) :=
  match padded, target with
  | src :: padded', tgt :: target' =>
    match rank_diff with
    | S rd =>
      (* i < rank_diff: src = 1 here, stride 0 in both accepting branches *)
      if (src =? tgt) || (src =? 1)
      then do r <- broadcast_strides rd padded' target' strides ; Ok (0 :: r)
      else Err EShape
    | 0 =>
      match strides with
      | [] => Panic (* self.strides[i - rank_diff] out of range *)
      | st :: strides' =>
        if src =? tgt
        then do r <- broadcast_strides 0 padded' target' strides' ; Ok (st :: r)
        else if src =? 1
        then do r <- broadcast_strides 0 padded' target' strides' ; Ok (0 :: r)
        else Err EShape
      end
    end
  | _, _ => Ok []
  end.

(** types/layout.rs:291-337 *)
Definition broadcast_to (l : layout) (target : shape) : outcome layout :=
  if length target <? length (lshape l) then Err EShape
  else
    let rank_diff := length target - length (lshape l) in
    do strides <- broadcast_strides rank_diff (repeat 1 rank_diff ++ lshape l)
                                    target (lstrides l) ;
    Ok (mkLayout target strides (loffset l)).

(** types/layout.rs:340-349 *)
Definition broadcast_layouts (lhs rhs : layout) : outcome (layout * layout) :=
  do s <- ok_or (broadcast_shape (lshape lhs) (lshape rhs)) EShape ;
  do l <- broadcast_to lhs s ;
  do r <- broadcast_to rhs s ;
  Ok (l, r).

(** types/layout.rs:352-380 *)
Definition transpose (l : layout) (dim1 dim2 : Z) : outcome layout :=
  if length (lshape l) <? 2 then Err EInternal
  else
    do d1 <- ok_or (normalize_axis (lshape l) dim1) EInternal ;
    do d2 <- ok_or (normalize_axis (lshape l) dim2) EInternal ;
    do s <- swap (lshape l) d1 d2 ;
    do st <- swap (lstrides l) d1 d2 ;
    Ok (mkLayout s st (loffset l)).

(** types/layout.rs:399-413: normalise axes, rejecting repetitions with the
    [seen] vector. *)
Fixpoint permute_axes (s : shape) (seen : list bool) (axes : list Z) : outcome (list nat) :=
  match axes with
  | [] => Ok []
  | axis :: rest =>
    do a <- ok_or (normalize_axis s axis) EAxis ;
    do b <- idx_or_panic seen a ;
    if (b : bool) then Err EInternal
    else do r <- permute_axes s (upd seen a true) rest ; Ok (a :: r)
  end.

(** types/layout.rs:419-422: gather entries by axis (panics out of range). *)
Fixpoint pick {A} (l : list A) (axes : list nat) : outcome (list A) :=
  match axes with
  | [] => Ok []
  | a :: rest => do x <- idx_or_panic l a ; do r <- pick l rest ; Ok (x :: r)
  end.

(** types/layout.rs:383-429 *)
Definition permute (l : layout) (axes : list Z) : outcome layout :=
  let ndim := length (lshape l) in
  if negb (length axes =? ndim) then Err EInternal
  else
    do actual <- permute_axes (lshape l) (repeat false ndim) axes ;
    do s <- pick (lshape l) actual ;
    do st <- pick (lstrides l) actual ;
    Ok (mkLayout s st (loffset l)).

(** [i32::clamp] *)
Definition zclamp (x lo hi : Z) : Z := Z.max lo (Z.min x hi).

(** types/layout.rs:453-490: clamped start and the new size. *)
Definition slice_bounds (dim_size start : Z) (end_ : option Z) (step : Z) : Z * Z :=
  let start_idx := if (start <? 0)%Z then (dim_size + start)%Z else start in
  let end_idx :=
      match end_ with
      | Some e => if (e <? 0)%Z then (dim_size + e)%Z else e
      | None => if (step >? 0)%Z then dim_size else (-1)%Z
      end in
  let clamped_start := zclamp start_idx 0 dim_size in
  let clamped_end := if (step >? 0)%Z then zclamp end_idx 0 dim_size
                     else zclamp end_idx (-1) (dim_size - 1) in
  let new_size :=
      if (step >? 0)%Z then
        if (clamped_end >? clamped_start)%Z
        then Z.quot (clamped_end - clamped_start + step - 1) step else 0%Z
      else if (clamped_start >? clamped_end)%Z
      then Z.quot (clamped_start - clamped_end + (- step) - 1) (- step) else 0%Z in
  (clamped_start, new_size).

(** types/layout.rs:432-511 *)
Definition slice (l : layout) (dim start : Z) (end_ : option Z) (step : Z) : outcome layout :=
  let ndim := length (lshape l) in
  let a := as_usize (if (dim <? 0)%Z then (Z.of_nat ndim + dim)%Z else dim) in
  match a with
  | None => Err EAxis
  | Some k =>
    if ndim <=? k then Err EAxis
    else if (step =? 0)%Z then Err EInternal
    else
      do dsz <- idx_or_panic (lshape l) k ;
      let (clamped_start, new_size) := slice_bounds (Z.of_nat dsz) start end_ step in
      if (new_size <=? 0)%Z then Err EInternal
      else
        do st <- idx_or_panic (lstrides l) k ;
        Ok (mkLayout (upd (lshape l) k (Z.to_nat new_size))
                     (upd (lstrides l) k (st * Z.to_nat (Z.abs step)))
                     (loffset l + Z.to_nat clamped_start * st))
  end.

(** The layout-level view operations. *)
Inductive view_op : Type :=
| VReshape (s : shape)
| VFlatten
| VSqueeze (dims : list Z)
| VUnsqueeze (dim : Z)
| VBroadcast (target : shape)
| VTranspose (d1 d2 : Z)
| VPermute (axes : list Z)
| VSlice (dim start : Z) (end_ : option Z) (step : Z).

Definition apply_view (l : layout) (o : view_op) : outcome layout :=
  match o with
  | VReshape s => reshape l s
  | VFlatten => flatten l
  | VSqueeze ds => squeeze l ds
  | VUnsqueeze d => unsqueeze l d
  | VBroadcast t => broadcast_to l t
  | VTranspose a b => transpose l a b
  | VPermute axes => permute l axes
  | VSlice d st e sp => slice l d st e sp
  end.

(** A program performing view operations one after the other, stopping at the
    first failure. *)
Fixpoint apply_views (l : layout) (os : list view_op) : outcome layout :=
  match os with
  | [] => Ok l
  | o :: os' => do l' <- apply_view l o ; apply_views l' os'
  end.
