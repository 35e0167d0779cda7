(** compress on CUDA: crates/hodu_cuda_kernels/kernels/ops_indexing.cu, launched by
    be_cuda/storage/ops_indexing.rs.

    Simplifications: as in CountModel.v and LaunchModel.v; the copy of the condition to the
    host ([memcpy_dtoh], of a library) panics if the host's buffer is the shorter one and
    leaves the rest of a longer one as it is; [CudaStorageData::from_slice_u8], which makes the
    empty result, is called (L1013) but not defined in the source, and is taken to give an
    empty buffer of the element type. *)
From Coq Require Import List Arith ZArith Bool.
From Verif Require Import Base IndexSpec LayoutModel KernelModel TensorModel ScanModel SortModel EinsumModel CountModel.
From Verif Require Import TileModel TileSpec LaunchModel.
Import ListNotations.

Section Compress.
Context {A : Type}.

(** the number of true cells below [id]; [None] if one of them is outside the buffer *)
Definition trues_below (cond : list bool) (id : nat) : option nat :=
  loopO (fun i c => let? b := nth_error cond i in Some (if b : bool then S c else c)) (seq 0 id) 0.

(** ops_indexing.cu:918-940, one element *)
Definition flat_turn (input : list A) (cond : list bool) (v : view_md) (id : nat) (out : list (option A)) : option (list (option A)) :=
  let? c := nth_error cond id in
  if negb c then Some out
  else
    let? k := trues_below cond id in
    let? x := view_at input v id in
    c_store out k (Some x).
(** ops_indexing.cu:943-999, the slices of one position of the axis *)
Definition axis_turn (input : list A) (cond : list bool) (v : view_md) (n axis id : nat) (out : list (option A)) : option (list (option A)) :=
  let? c := nth_error cond id in
  if negb c then Some out
  else
    let? k := trues_below cond id in
    let inners := nelem (skipn (S axis) (v_shape v)) in
    let outers := nelem (firstn axis (v_shape v)) in
    let? selected := trues_below cond n in
    loopO (fun outer out =>
      loopO (fun inner out =>
        let? mo := c_coords (rev (firstn axis (v_shape v))) outer [] in
        let? mi := c_coords (rev (skipn (S axis) (v_shape v))) inner [] in
        let? x := nth_error input (v_offset v + dot (mo ++ id :: mi) (v_strides v)) in
        c_store out (outer * selected * inners + k * inners + inner) (Some x))
        (seq 0 inners) out) (seq 0 outers) out.
(** ops_indexing.cu:903-1001 [COMPRESS_OP] *)
Definition cuda_compress (sched : nat -> list nat) (input : list A) (cond : list bool) (output : list (option A)) (md : list nat)
    : option (list A) :=
  let? v := read_view md in
  obind (read_n 3 (v_rest v)) (fun '(h, _) =>
  let n := nth 0 h 0 in let axis := nth 2 h 0 in
  let ids := log (execute Short n (sched n)) in
  let? out := if nth 1 h 0 =? 0 then loopO (flat_turn input cond v) ids output
              else loopO (axis_turn input cond v n axis) ids output in
  all_some out).

(** be_cuda/storage/ops_indexing.rs:965-1100 [call_compress] and tensor/ops/indexing.rs:848-995 *)
Definition cuda_t_compress (sched : nat -> list nat) (t : tensor A) (cond : tensor bool) (axis : option Z) : outcome (tensor A) :=
  let s := lshape (tlay t) in
  if negb (length (lshape (tlay cond)) =? 1) then Err EInternal
  else
    let n := nelem (lshape (tlay cond)) in
    do ax <- match axis with
             | Some a =>
                 let a' := (if a <? 0 then Z.of_nat (length s) + a else a)%Z in
                 if ((a' <? 0) || (Z.of_nat (length s) <=? a'))%Z then Err EAxis
                 else if negb (n =? nth (Z.to_nat a') s 0) then Err EInternal
                 else Ok (Some (Z.to_nat a'))
             | None => if negb (n =? nelem s) then Err EInternal else Ok None
             end ;
    if n <? length (tstore cond) then Panic
    else
      let trues := count_occ bool_dec (tstore cond) true in
      let dims := match ax with Some a => upd s a trues | None => [trues] end in
      if trues =? 0 then Ok (mkT [] (from_shape dims))
      else
        do out <- ub (cuda_compress sched (tstore t) (tstore cond) (repeat None (nelem dims)) (compress_metadata (tlay t) n ax)) ;
        Ok (mkT out (from_shape dims)).
End Compress.
