(** Tensors: a storage and a layout, and the eager element-wise, view and copy
    operations on them.

    Simplifications: the element type is arbitrary (one dtype at a time; dtype
    and device validation is left out); handles, autodiff recording and capture
    are modelled separately; storages are CPU storages. *)
From Coq Require Import List Arith ZArith Bool.
From Verif Require Import Base IndexSpec LayoutModel ViewSpec KernelModel.
Import ListNotations.

Record tensor (A : Type) := mkT { tstore : list A; tlay : layout }.
Arguments mkT {A}. Arguments tstore {A}. Arguments tlay {A}.

(** undefined behaviour in a kernel is reported as [Panic] *)
Definition ub {A} (x : option A) : outcome A :=
  match x with Some a => Ok a | None => Panic end.

(** be_cpu/storage.rs:717-770 [CpuStorage::contiguous]. [z] is the value the
    allocator fills new buffers with. *)
Definition storage_contiguous {A} (z : A) (st : list A) (l : layout) : outcome (list A) :=
  if is_contiguous l && (loffset l =? 0) then Ok st
  else ub (contiguous_kernel st (repeat z (layout_size l)) (unary_metadata l l)).

(** tensor/ops/cast_memory.rs:56-83 [Tensor::contiguous], eager branch *)
Definition t_contiguous {A} (z : A) (t : tensor A) : outcome (tensor A) :=
  if is_contiguous (tlay t) then Ok t
  else do st <- storage_contiguous z (tstore t) (tlay t) ;
       Ok (mkT st (from_shape (lshape (tlay t)))).

(** tensor/ops/cast_memory.rs:11-38 [Tensor::to_dtype] and
    be_cpu/storage.rs:693-715: same dtype copies, otherwise the cast kernel *)
Definition t_cast_same {A} (z : A) (t : tensor A) : outcome (tensor A) :=
  do st <- storage_contiguous z (tstore t) (tlay t) ;
  Ok (mkT st (from_shape (lshape (tlay t)))).
Definition t_cast {A B} (e : env) (z : B) (f : A -> B) (t : tensor A) : outcome (tensor B) :=
  do st <- ub (unary_kernel e f (tstore t) (repeat z (layout_size (tlay t)))
                 (unary_metadata (tlay t) (tlay t))) ;
  Ok (mkT st (from_shape (lshape (tlay t)))).

(** tensor/ops/shape.rs: every view operation works on a contiguous operand,
    copying first when needed (e.g. L232-237), then shares the storage under the
    new layout.  [reshape] (L13-33) first compares element counts. *)
Definition t_view {A} (z : A) (o : view_op) (t : tensor A) : outcome (tensor A) :=
  match o with
  | VReshape s =>
    if negb (shape_size s =? layout_size (tlay t)) then Err EShape
    else do c <- t_contiguous z t ;
         do l <- apply_view (tlay c) o ; Ok (mkT (tstore c) l)
  | _ =>
    do c <- t_contiguous z t ;
    do l <- apply_view (tlay c) o ; Ok (mkT (tstore c) l)
  end.

Definition t_broadcast {A} (z : A) (t : tensor A) (s : shape) : outcome (tensor A) :=
  t_view z (VBroadcast s) t.

(** tensor/utils.rs:25-35: the common shape, computed from the right.  [ra] and
    [rb] are the dims in reverse order; the result too. *)
Fixpoint bt2_rev (ra rb : list nat) (n : nat) : option (list nat) :=
  match n with
  | 0 => Some []
  | S n' =>
    let a := hd 1 ra in
    let b := hd 1 rb in
    if (a =? 1) || (b =? 1) || (a =? b) then
      match bt2_rev (tl ra) (tl rb) n' with
      | Some r => Some (Nat.max a b :: r)
      | None => None
      end
    else None
  end.
Definition bt2_dims (a b : shape) : option shape :=
  match bt2_rev (rev a) (rev b) (Nat.max (length a) (length b)) with
  | Some r => Some (rev r)
  | None => None
  end.

(** tensor/utils.rs:7-42 [broadcast_tensors2] *)
Definition broadcast_tensors2 {A C} (za : A) (zc : C) (a : tensor A) (b : tensor C)
    : outcome (tensor A * tensor C) :=
  match bt2_dims (lshape (tlay a)) (lshape (tlay b)) with
  | None => Err EShape
  | Some s => do a' <- t_broadcast za a s ; do b' <- t_broadcast zc b s ; Ok (a', b')
  end.

(** tensor/utils.rs:44-54 [broadcast_tensors3] *)
Definition broadcast_tensors3 {A C D} (za : A) (zc : C) (zd : D)
    (a : tensor A) (b : tensor C) (c : tensor D) : outcome (tensor A * tensor C * tensor D) :=
  do ab <- broadcast_tensors2 za zc a b ;
  do fin <- broadcast_tensors2 za zd (fst ab) c ;
  let s := lshape (tlay (fst fin)) in
  do a' <- t_broadcast za a s ;
  do b' <- t_broadcast zc b s ;
  do c' <- t_broadcast zd c s ;
  Ok (a', b', c').

(** be_cpu/storage/ops_binary.rs:10-120 [call_ops_binary] (also the logical and
    comparison versions): output of [lhs] size, layout passed as output = lhs. *)
Definition call_ops_binary {A C B} (e : env) (z : B) (f : A -> C -> B)
    (sa : list A) (sb : list C) (la lb : layout) : outcome (list B) :=
  ub (binary_kernel e f sa sb (repeat z (shape_size (lshape la))) (binary_metadata la lb la)).

(** tensor/ops/binary.rs:13-82 [binary_op!] (also binary_logical_op!, cmp.rs and
    bitwise.rs): broadcast, run the kernel, and give the result the layout of
    the broadcast left operand (L66). *)
Definition t_binary {A C B} (e : env) (za : A) (zc : C) (z : B) (f : A -> C -> B)
    (a : tensor A) (b : tensor C) : outcome (tensor B) :=
  do ab <- broadcast_tensors2 za zc a b ;
  let (a', b') := ab in
  do st <- call_ops_binary e z f (tstore a') (tstore b') (tlay a') (tlay b') ;
  Ok (mkT st (tlay a')).

(** be_cpu/storage/ops_unary.rs [call_ops_unary] and tensor/ops/unary.rs,
    tensor/ops/unary_scalar.rs, cmp_scalar.rs: result layout is fresh. *)
Definition t_unary {A B} (e : env) (z : B) (f : A -> B) (t : tensor A) : outcome (tensor B) :=
  do st <- ub (unary_kernel e f (tstore t) (repeat z (layout_size (tlay t)))
                 (unary_metadata (tlay t) (tlay t))) ;
  Ok (mkT st (from_shape (lshape (tlay t)))).

(** tensor/ops/bitwise.rs:62-98 and :100-143 [bitwise_not], [shl]/[shr] by a
    scalar: same kernel shape (ops_bitwise.c:106-260; that kernel also reads the
    offset of a rank-0 operand, which is not modelled: the theorems about it only
    speak of offset 0), but the result keeps the operand's layout (L92, L137). *)
Definition t_bitwise_unary {A B} (e : env) (z : B) (f : A -> B) (t : tensor A)
    : outcome (tensor B) :=
  do st <- ub (unary_kernel e f (tstore t) (repeat z (layout_size (tlay t)))
                 (unary_metadata (tlay t) (tlay t))) ;
  Ok (mkT st (tlay t)).
