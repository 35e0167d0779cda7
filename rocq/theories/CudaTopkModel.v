(** Top-k selection on CUDA: kernels/ops_sort.cu, src/kernels/ops_sort.rs,
    be_cuda/storage/ops_sort.rs and tensor/ops/sort.rs.

    One thread does one row, in any order among the threads (LaunchModel, kind
    [Once]).  [None] is a value nothing determines: the output buffers are not
    initialised (be_cuda/device.rs:91-101), nor are the local arrays.

    Simplifications: [size_t] and [int32_t] do not wrap; dtype checks left out; the
    two outputs are one list of pairs until the kernel ends. *)
From Coq Require Import List Arith ZArith Bool.
From Verif Require Import Base LayoutModel KernelModel TensorModel MoveModel SortModel TileSpec LaunchModel.
Import ListNotations.

Section CudaTopk.
Context {A K : Type}.
(** [TO_FLOAT], the C operator [>] on floats, and [(TYPE)] from float *)
Variables (key : A -> K) (gt : K -> K -> bool) (back : K -> A).
Variable sched : nat -> list nat.
Notation entry := (K * nat)%type.

(** ops_sort.cu:48-55: for (j = i + 1; j < actual_dim; j++) *)
Fixpoint best_loop (largest : bool) (arr : list entry) (js : list nat) (best : nat) : option nat :=
  match js with
  | [] => Some best
  | j :: r =>
    let? a := nth_error arr j in
    let? b := nth_error arr best in
    best_loop largest arr r (if better gt largest a b then j else best)
  end.
(** ops_sort.cu:47-64: selection sort of as many cells as are asked for *)
Fixpoint select_loop (largest : bool) (arr : list entry) (is_ : list nat) : option (list entry) :=
  match is_ with
  | [] => Some arr
  | i :: r =>
    let? best := best_loop largest arr (seq (S i) (length arr - S i)) i in
    let? arr' := (if best =? i then Some arr else c_swap arr i best) in
    select_loop largest arr' r
  end.

(** ops_sort.cu:34-70: the row has been cut to [actual_dim] elements; the cells
    written out, [actual_k] of them *)
Definition select_row (largest : bool) (row : list A) (k : nat) : option (list (option entry)) :=
  let actual_k := Nat.min k 64 in
  let? arr := select_loop largest (combine (map key row) (seq 0 (length row))) (seq 0 (Nat.min actual_k (length row))) in
  Some (map (fun i => nth_error arr i) (seq 0 actual_k)).

(** stores to given cells *)
Definition stored {B} (ws : list (nat * option B)) (out : list (option B)) : list (option B) :=
  fold_left (fun o w => upd o (fst w) (snd w)) ws out.

(** ops_sort.cu:27-70: what thread [tid] writes *)
Definition row_cells (input : list A) (offset last_dim_size k : nat) (largest : bool) (tid : nat) : list (option entry) :=
  match (let? row := mapO (fun i => nth_error input (offset + (tid * last_dim_size + i))) (seq 0 (Nat.min last_dim_size 64)) in
         select_row largest row k) with
  | Some c => c
  | None => repeat None (Nat.min k 64)
  end.

(** ops_sort.cu:17-73 [TOPK_OP]; metadata[5], [sorted], is not used (L72) *)
Definition cuda_topk (input : list A) (md : list nat) : option (list A * list Z) :=
  let? k := nth_error md 1 in
  let? last_dim_size := nth_error md 2 in
  let? outer_size := nth_error md 3 in
  let? largest := nth_error md 4 in
  let? offset := nth_error md 6 in
  let ws := flat_map (fun tid => combine (seq (tid * k) (Nat.min k 64)) (row_cells input offset last_dim_size k (negb (largest =? 0)) tid))
              (log (execute Once outer_size (sched outer_size))) in
  let? out := all_some (stored ws (repeat None (k * outer_size))) in
  Some (map (fun e => back (fst e)) out, map (fun e => Z.of_nat (snd e)) out).

Variable z : A.

(** tensor/ops/sort.rs:30-188 [Tensor::topk], eager branch, with
    be_cuda/storage/ops_sort.rs:12-83.  As on the CPU (SortModel.t_topk) the
    kernel is given the storage of [self] (L142) under the layout of the
    permuted, contiguous copy. *)
Definition cuda_t_topk (t : tensor A) (k : nat) (dim : Z) (largest sorted : bool)
    : outcome (tensor A * tensor Z) :=
  let s := lshape (tlay t) in
  let nd := length s in
  if nd =? 0 then Err EInternal
  else match axis_usize nd dim with
  | None => Err EInternal
  | Some d =>
    match nth_error s d with
    | None => Err EInternal
    | Some dim_size =>
      if dim_size <? k then Err EInternal
      else if k =? 0 then
        Ok (mkT [] (from_shape (upd s d 0)), mkT [] (from_shape (upd s d 0)))
      else
        let need := negb (d =? nd - 1) in
        do input0 <- (if need then t_view z (VPermute (swap_perm nd d)) t else Ok t) ;
        do input <- t_contiguous z input0 ;
        let is := lshape (tlay input) in
        let last_dim := nth (nd - 1) is 0 in
        let outer_size := shape_size (firstn (nd - 1) is) in
        let out := upd is (nd - 1) k in
        do r <- ub (cuda_topk (tstore t) (topk_metadata (tlay input) k last_dim outer_size largest sorted)) ;
        let values := mkT (fst r) (from_shape out) in
        let indices := mkT (snd r) (from_shape out) in
        if need then
          do v <- t_view z (VPermute (swap_perm nd d)) values ;
          do i <- t_view 0%Z (VPermute (swap_perm nd d)) indices ;
          Ok (v, i)
        else Ok (values, indices)
    end
  end.
End CudaTopk.
