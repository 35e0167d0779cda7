(** Top-k selection: kernels/ops_sort.c, be_cpu/storage/ops_sort.rs and
    tensor/ops/sort.rs.

    Simplifications: [malloc] succeeds; indices are [nat] (below 2^31);
    dtype checks left out. *)
From Coq Require Import List Arith ZArith Bool.
From Verif Require Import Base LayoutModel KernelModel TensorModel ScanModel MoveModel.
Import ListNotations.

(** exchange two array cells *)
Definition c_swap {E} (arr : list E) (i j : nat) : option (list E) :=
  let? a := nth_error arr i in
  let? b := nth_error arr j in
  Some (upd (upd arr i b) j a).

Section Select.
Context {A K : Type}.
(** [TO_FLOAT] and the C operator [>] on floats *)
Variables (key : A -> K) (gt : K -> K -> bool).

(** ops_sort.c:6-9 [ValueIndex] *)
Notation entry := (K * nat)%type.

(** ops_sort.c:37: [largest ? (a > b) : (a < b)]; also the sense in which
    [cmp_largest]/[cmp_smallest] (L12-30) return -1 *)
Definition better (largest : bool) (a b : entry) : bool :=
  if largest then gt (fst a) (fst b) else gt (fst b) (fst a).

(** the library sort: [qsort before arr]; the C standard only says that the
    result is the same elements in order *)
Variable qsort : (entry -> entry -> bool) -> list entry -> list entry.

(** ops_sort.c:36-44 *)
Fixpoint part_loop (largest : bool) (pivot : entry) (js : list nat) (i : nat) (arr : list entry)
    : option (nat * list entry) :=
  match js with
  | [] => Some (i, arr)
  | j :: r =>
    let? x := nth_error arr j in
    if better largest x pivot
    then let? arr' := c_swap arr i j in part_loop largest pivot r (S i) arr'
    else part_loop largest pivot r i arr
  end.
(** ops_sort.c:33-49 [partition] *)
Definition partition (largest : bool) (arr : list entry) (left right : nat) : option (nat * list entry) :=
  let? pivot := nth_error arr right in
  let? p := part_loop largest pivot (seq left (right - left)) left arr in
  let? arr' := c_swap (snd p) (fst p) right in
  Some (fst p, arr').

(** ops_sort.c:59-68; [fuel] bounds the number of passes; [pivot_idx - 1] with
    pivot_idx 0 would wrap around *)
Fixpoint quickselect_loop (fuel : nat) (largest : bool) (k left right : nat) (arr : list entry)
    : option (list entry) :=
  if left <? right then
    match fuel with
    | 0 => None
    | S fuel' =>
      let? p := partition largest arr left right in
      if fst p =? k - 1 then Some (snd p)
      else if fst p <? k - 1 then quickselect_loop fuel' largest k (fst p + 1) right (snd p)
      else if fst p =? 0 then None
      else quickselect_loop fuel' largest k left (fst p - 1) (snd p)
    end
  else Some arr.
(** ops_sort.c:52-69 *)
Definition quickselect_k (largest : bool) (arr : list entry) (n k : nat) : option (list entry) :=
  if (n <=? 1) || (k =? 0) then Some arr
  else quickselect_loop n largest k 0 (n - 1) arr.

(** ops_sort.c:72-95 *)
Definition topk_select (largest sorted : bool) (arr : list entry) (n k : nat) : option (list entry) :=
  if n <=? k then Some (qsort (better largest) arr)
  else
    let? arr' := quickselect_k largest arr n k in
    if sorted then Some (qsort (better largest) (firstn k arr') ++ skipn k arr') else Some arr'.

(** [for (i...) out[at + i] = vs[i]] *)
Fixpoint store_from {B} (out : list B) (at_ : nat) (vs : list B) : option (list B) :=
  match vs with
  | [] => Some out
  | v :: r => let? out' := c_store out at_ v in store_from out' (S at_) r
  end.

(** ops_sort.c:115-133: one row; the pairs (value, index) copied out *)
Definition topk_row (largest sorted : bool) (row : list A) (k : nat) : option (list (A * nat)) :=
  let n := length row in
  let temp := combine (map key row) (seq 0 n) in
  let? temp' := topk_select largest sorted temp n k in
  mapO (fun i => let? e := nth_error temp' i in
                 let? v := nth_error row (snd e) in Some (v, snd e)) (seq 0 k).

(** ops_sort.c:97-137 [IMPL_TOPK] *)
Definition topk_kernel (input values : list A) (indices : list Z) (md : list nat)
    : option (list A * list Z) :=
  let? k := nth_error md 1 in
  let? last_dim_size := nth_error md 2 in
  let? outer_size := nth_error md 3 in
  let? largest := nth_error md 4 in
  let? sorted := nth_error md 5 in
  let? offset := nth_error md 6 in
  loopO (fun outer (o : list A * list Z) =>
    let? row := mapO (fun i => nth_error input (offset + (outer * last_dim_size + i))) (seq 0 last_dim_size) in
    let? r := topk_row (negb (largest =? 0)) (negb (sorted =? 0)) row k in
    let? vs := store_from (fst o) (outer * k) (map fst r) in
    let? is := store_from (snd o) (outer * k) (map (fun e => Z.of_nat (snd e)) r) in
    Some (vs, is)) (seq 0 outer_size) (values, indices).

(** op_metadatas.rs:1455-1474 [topk_metadata] *)
Definition topk_metadata (l : layout) (k last_dim_size outer_size : nat) (largest sorted : bool) : list nat :=
  [k * outer_size; k; last_dim_size; outer_size; if largest then 1 else 0; if sorted then 1 else 0; loffset l].

Variable z : A.

(** [perm.swap(d, ndim - 1)] on the identity *)
Definition swap_perm (ndim d : nat) : list Z :=
  map Z.of_nat (upd (upd (seq 0 ndim) d (ndim - 1)) (ndim - 1) d).

(** tensor/ops/sort.rs:30-188 [Tensor::topk], eager branch, with
    be_cpu/storage/ops_sort.rs:9-69.  The kernel is given the storage of [self]
    (L142) under the layout of the permuted, contiguous copy. *)
Definition t_topk (t : tensor A) (k : nat) (dim : Z) (largest sorted : bool)
    : outcome (tensor A * tensor Z) :=
  let s := lshape (tlay t) in
  let nd := length s in
  if nd =? 0 then Err EInternal
  else match axis_usize nd dim with
  | None => Err EInternal
  | Some d =>
    match nth_error s d with
    | None => Err EInternal
    | Some dim_size =>
      if dim_size <? k then Err EInternal
      else if k =? 0 then
        Ok (mkT [] (from_shape (upd s d 0)), mkT [] (from_shape (upd s d 0)))
      else
        let need := negb (d =? nd - 1) in
        do input0 <- (if need then t_view z (VPermute (swap_perm nd d)) t else Ok t) ;
        do input <- t_contiguous z input0 ;
        let is := lshape (tlay input) in
        let last_dim := nth (nd - 1) is 0 in
        let outer_size := shape_size (firstn (nd - 1) is) in
        let out := upd is (nd - 1) k in
        do r <- ub (topk_kernel (tstore t) (repeat z (outer_size * k)) (repeat 0%Z (outer_size * k))
                      (topk_metadata (tlay input) k last_dim outer_size largest sorted)) ;
        let values := mkT (fst r) (from_shape out) in
        let indices := mkT (snd r) (from_shape out) in
        if need then
          do v <- t_view z (VPermute (swap_perm nd d)) values ;
          do i <- t_view 0%Z (VPermute (swap_perm nd d)) indices ;
          Ok (v, i)
        else Ok (values, indices)
    end
  end.
End Select.
