(** nonzero on CUDA: crates/hodu_cuda_kernels/kernels/ops_indexing.cu, launched by
    be_cuda/storage/ops_indexing.rs.

    A turn of a thread is one iteration of its loop, taken at the [atomicAdd]: what it
    reads does not change, and the cells it writes afterwards are its own.

    Simplifications: as in CountModel.v and LaunchModel.v. *)
From Coq Require Import List Arith ZArith Bool.
From Verif Require Import Base IndexSpec LayoutModel KernelModel TensorModel ScanModel SortModel CountModel.
From Verif Require Import TileModel TileSpec LaunchModel.
Import ListNotations.

Section Nonzero.
Context {A : Type}.
Variable nz : A -> bool.

(** ops_indexing.cu:554-581 [NONZERO_COUNT_OP]; the counter has 32 bits *)
Definition cuda_nonzero_count (sched : nat -> list nat) (input : list A) (md : list nat) : option nat :=
  let? v := read_view md in
  loopO (fun id count => let? x := view_at input v id in Some (if nz x then as_u32 (S count) else count))
    (log (execute Long (v_els v) (sched (v_els v)))) 0.

(** ops_indexing.cu:584-615 [NONZERO_FILL_OP]; [multi_idx] has 16 entries, and a cell
    is [None] until it is written *)
Definition cuda_nonzero_fill (sched : nat -> list nat) (input : list A) (output : list (option nat)) (md : list nat)
    : option (list nat) :=
  let? v := read_view md in
  if negb (length (v_shape v) <=? 16) && negb (v_els v =? 0) then None else
  let? s := loopO (fun id (s : nat * list (option nat)) =>
    let? m := c_coords (rev (v_shape v)) id [] in
    let? x := view_at input v id in
    if nz x then
      let? out := store_from (snd s) (fst s * length (v_shape v)) (map Some m) in Some (as_u32 (S (fst s)), out)
    else Some s) (log (execute Long (v_els v) (sched (v_els v)))) (0, output) in
  all_some (snd s).

(** be_cuda/storage/ops_indexing.rs:538-693 [call_nonzero], tensor/ops/indexing.rs:680-740
    (eager branch); the two launches have their schedules *)
Definition cuda_t_nonzero (sched sched' : nat -> list nat) (t : tensor A) : outcome (tensor nat) :=
  let md := view_metadata (tlay t) in
  do count <- ub (cuda_nonzero_count sched (tstore t) md) ;
  if count =? 0 then Ok (mkT [] (from_shape [0; length (lshape (tlay t))]))
  else
    do out <- ub (cuda_nonzero_fill sched' (tstore t) (repeat None (count * length (lshape (tlay t)))) md) ;
    Ok (mkT out (from_shape [count; length (lshape (tlay t))])).
End Nonzero.
