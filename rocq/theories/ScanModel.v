(** Cumulative sum: kernels/ops_scan.c, be_cpu/storage/ops_scan.rs and
    tensor/ops/scan.rs.

    Simplifications: element and accumulator types, the conversion of the
    accumulator and the addition are parameters; the BOOL dtype
    ([unreachable!] in ops_scan.rs:50) is left out. *)
From Coq Require Import List Arith ZArith Bool.
From Verif Require Import Base LayoutModel KernelModel TensorModel ReduceModel.
Import ListNotations.

(** [for (x in l) body], the body updating a state *)
Fixpoint loopO {X S} (f : X -> S -> option S) (l : list X) (s : S) : option S :=
  match l with
  | [] => Some s
  | x :: l' => let? s' := f x s in loopO f l' s'
  end.

Section K.
Context {A B C : Type}.
Variables (init : B) (add : B -> A -> B) (fin : B -> C).

(** ops_scan.c:40-61: positions of one element.  The outer coordinates are
    decoded from axis 0 upwards (L45-50), the inner ones from the last axis
    downwards (L54-59). *)
Definition scan_pos (shape strides : list nat) (dim outer inner s : nat) : option nat :=
  let? a := c_strided_walk outer (combine (firstn dim shape) (firstn dim strides)) in
  let? st := nth_error strides dim in
  let? b := c_strided_walk inner (rev (combine (skipn (S dim) shape) (skipn (S dim) strides))) in
  Some (a + s * st + b).

(** ops_scan.c:4-64 [IMPL_CUMSUM], L78-142 [IMPL_CUMSUM_CONVERT].
    [out_strides] has 16 entries, of which the first [num_dims] are set; reading
    [out_strides[dim]] or [shape[dim]] beyond is undefined. *)
Definition cumsum_kernel (input : list A) (out : list C) (copy : A -> C) (md : list nat)
    : option (list C) :=
  let? num_dims := nth_error md 1 in
  let? shape := md_slice md 2 num_dims in
  let? strides := md_slice md (2 + num_dims) num_dims in
  let? offset := nth_error md (2 + 2 * num_dims) in
  let? dim := nth_error md (3 + 2 * num_dims) in
  if num_dims =? 0 then
    let? x := nth_error input offset in c_store out 0 (copy x)
  else if (16 <? num_dims) || (num_dims <=? dim) then None
  else
    let out_strides := compute_strides shape in
    let? scan_size := nth_error shape dim in
    loopO (fun outer out =>
      loopO (fun inner out =>
        let? p := loopO (fun s (p : B * list C) =>
          let? in_idx := scan_pos shape strides dim outer inner s in
          let? out_idx := scan_pos shape out_strides dim outer inner s in
          let? x := nth_error input (offset + in_idx) in
          let acc := add (fst p) x in
          let? out' := c_store (snd p) out_idx (fin acc) in
          Some (acc, out')) (seq 0 scan_size) (init, out) in
        Some (snd p)) (seq 0 (shape_size (skipn (S dim) shape))) out)
      (seq 0 (shape_size (firstn dim shape))) out.

(** op_metadatas.rs:1415-1440 [scan_metadata] *)
Definition scan_metadata (l : layout) (dim : nat) : list nat :=
  [layout_size l; length (lshape l)] ++ lshape l ++ lstrides l ++ [loffset l; dim].

(** tensor/ops/scan.rs:11-56 [Tensor::cumsum], eager branch, with
    be_cpu/storage/ops_scan.rs:9-54.  The axis is not checked; a negative one
    cast to usize is out of any range (the outer loop then reads past the
    metadata unless the rank is 0). *)
Definition t_cumsum (copy : A -> C) (z : C) (t : tensor A) (dim : Z) : outcome (tensor C) :=
  let nd := length (lshape (tlay t)) in
  let d := match (if (dim <? 0)%Z then as_usize (Z.of_nat nd + dim) else as_usize dim) with
           | Some d => d | None => nd end in
  do st <- ub (cumsum_kernel (tstore t) (repeat z (layout_size (tlay t))) copy
                 (scan_metadata (tlay t) d)) ;
  Ok (mkT st (from_shape (lshape (tlay t)))).
End K.
