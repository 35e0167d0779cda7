(** CPU kernels: metadata vectors, strided addressing, the parallel loop and
    the element-wise kernels.

    Simplifications common to this file:
    - [size_t] values are [nat] (no wrap-around);
    - the element type is arbitrary and the kernel's FUNC is a Coq function;
    - [None] is undefined behaviour: an out-of-bounds read or write of a buffer
      or of the metadata, or a modulo by zero;
    - the vector loops (simd_utils.h) are in SimdModel.v; the BLAS builds are not
      modelled. *)
From Coq Require Import List Arith Bool.
From Verif Require Import Base LayoutModel.
Import ListNotations.

Definition obind {A B} (x : option A) (f : A -> option B) : option B :=
  match x with Some a => f a | None => None end.
Notation "'let?' x ':=' m 'in' f" := (obind m (fun x => f))
  (at level 200, x name, m at level 100, f at level 200).

(** [metadata + off] read as an array of [n] words *)
Definition md_slice (md : list nat) (off n : nat) : option (list nat) :=
  if off + n <=? length md then Some (firstn n (skipn off md)) else None.

(* ---------- crates/hodu_cpu_kernels/kernels/utils.h ---------- *)

(** utils.h:16-26 [is_contiguous]; the list holds (dim, stride) from the last
    axis to the first. *)
Fixpoint c_contig_walk (acc : nat) (rds : list (nat * nat)) : bool :=
  match rds with
  | [] => true
  | (d, s) :: r => if (1 <? d) && negb (acc =? s) then false else c_contig_walk (acc * d) r
  end.
Definition c_is_contiguous (dims strides : list nat) : bool :=
  c_contig_walk 1 (rev (combine dims strides)).

(** utils.h:29-38 [get_strided_index] *)
Fixpoint c_strided_walk (idx : nat) (rds : list (nat * nat)) : option nat :=
  match rds with
  | [] => Some 0
  | (d, s) :: r =>
    if d =? 0 then None
    else let? a := c_strided_walk (idx / d) r in Some ((idx mod d) * s + a)
  end.
Definition c_strided (idx : nat) (dims strides : list nat) : option nat :=
  c_strided_walk idx (rev (combine dims strides)).

(* ---------- thread_utils.h and the threaded loops ---------- *)

(** What the platform contributes: number of cores, the minimum work per thread
    (100000 in the kernels; any value here), and the schedule of a loop over [n]
    elements - the sequence of worker numbers in the order in which they perform
    loop iterations. *)
Record env := mkEnv { cores : nat; min_work : nat; sched : nat -> list nat }.

(** thread_utils.h:47-56 [get_optimal_threads]; [sysconf] values <= 0 count as
    1 (L28-31), hence [max 1]. *)
Definition get_optimal_threads (e : env) (workload : nat) : nat :=
  if workload <? min_work e * 2 then 1
  else Nat.min (workload / min_work e) (Nat.max 1 (cores e)).

(** ops_binary.c:94-95 / ops_unary.c:89-90 (and the same lines in every threaded
    kernel): the index range of worker [t]. *)
Definition chunk_start (n k t : nat) : nat :=
  t * (n / k) + (if t <? n mod k then t else n mod k).
Definition chunk_end (n k t : nat) : nat :=
  chunk_start n k t + n / k + (if t <? n mod k then 1 else 0).
Definition chunks (n k : nat) : list (nat * nat) :=
  map (fun t => (chunk_start n k t, chunk_end n k t)) (seq 0 k).

(** ops_bitwise.c:149-152 (and L66-69, L232-235): the bitwise kernels give the
    remainder to the last worker. *)
Definition bw_chunks (n k : nat) : list (nat * nat) :=
  map (fun t => (t * (n / k),
                 if t =? k - 1 then (t + 1) * (n / k) + n mod k else (t + 1) * (n / k)))
      (seq 0 k).

Section Loops.
Context {B : Type}.

(** [out[i] = v] *)
Definition c_store (out : list B) (i : nat) (v : B) : option (list B) :=
  if i <? length out then Some (upd out i v) else None.

(** [for (i = start; i < start+n; i++) out[i] = g i] *)
Fixpoint seq_for_from (start n : nat) (g : nat -> option B) (out : list B) : option (list B) :=
  match n with
  | 0 => Some out
  | S n' => let? v := g start in
            let? out' := c_store out start v in
            seq_for_from (S start) n' g out'
  end.
Definition seq_for (n : nat) (g : nat -> option B) (out : list B) := seq_for_from 0 n g out.

(** One loop iteration of worker [t]: its state is (next index, end). A worker
    whose loop is over does nothing. *)
Fixpoint run_sched (g : nat -> option B) (sch : list nat) (ths : list (nat * nat))
    (out : list B) : option (list B) :=
  match sch with
  | [] => Some out
  | t :: sch' =>
    match nth_error ths t with
    | Some (x, e) =>
      if x <? e
      then let? v := g x in
           let? out' := c_store out x v in
           run_sched g sch' (upd ths t (S x, e)) out'
      else run_sched g sch' ths out
    | None => run_sched g sch' ths out
    end
  end.

(** ops_binary.c:77-108: threads when worthwhile, otherwise the plain loop.
    thread_create is assumed to succeed (its result is ignored by the code). *)
Definition par_for (e : env) (n : nat) (g : nat -> option B) (out : list B) : option (list B) :=
  let k := get_optimal_threads e n in
  if 1 <? k then run_sched g (sched e n) (chunks n k) out else seq_for n g out.
End Loops.

(** [thread_join] on every worker: the schedule runs each worker to its end. *)
Definition joined (sch : list nat) (ths : list (nat * nat)) : Prop :=
  forall t x y, nth_error ths t = Some (x, y) -> y - x <= count_occ Nat.eq_dec sch t.
Definition env_ok (e : env) : Prop :=
  0 < min_work e /\ forall n, joined (sched e n) (chunks n (get_optimal_threads e n)).

(* ---------- metadata (crates/hodu_core/src/op_metadatas.rs) ---------- *)

(** op_metadatas.rs:36-71 [binary_metadata] *)
Definition binary_metadata (l r o : layout) : list nat :=
  [layout_size o; length (lshape o)] ++ lshape l ++ lshape r ++ lstrides l ++ lstrides r
  ++ [loffset l; loffset r].

(** op_metadatas.rs:121-146 [unary_metadata]; [cmp_scalar_metadata] is the same;
    [cast_metadata] and [contiguous_metadata] (L1625-1656) are the same with the
    output layout equal to the input layout. *)
Definition unary_metadata (i o : layout) : list nat :=
  [layout_size o; length (lshape i)] ++ lshape i ++ lstrides i ++ [loffset i].

(* ---------- element-wise kernels ---------- *)

(** ops_binary.c:44-145 [IMPL_BINARY_OP] (and the TO_BOOL / CONVERT variants,
    which differ only in the output type). *)
Definition binary_kernel {A C B} (e : env) (f : A -> C -> B) (lhs : list A) (rhs : list C)
    (out : list B) (md : list nat) : option (list B) :=
  let? n := nth_error md 0 in
  let? nd := nth_error md 1 in
  let? lsh := md_slice md 2 nd in
  let? rsh := md_slice md (2 + nd) nd in
  let? lst := md_slice md (2 + 2 * nd) nd in
  let? rst := md_slice md (2 + 3 * nd) nd in
  let? lo := nth_error md (2 + 4 * nd) in
  let? ro := nth_error md (2 + 4 * nd + 1) in
  let lc := c_is_contiguous lsh lst in
  let rc := c_is_contiguous rsh rst in
  if lc && rc then
    par_for e n (fun i => let? x := nth_error lhs (lo + i) in
                          let? y := nth_error rhs (ro + i) in Some (f x y)) out
  else if lc then
    seq_for n (fun i => let? rp := c_strided i rsh rst in
                        let? x := nth_error lhs (lo + i) in
                        let? y := nth_error rhs (ro + rp) in Some (f x y)) out
  else if rc then
    seq_for n (fun i => let? lp := c_strided i lsh lst in
                        let? x := nth_error lhs (lo + lp) in
                        let? y := nth_error rhs (ro + i) in Some (f x y)) out
  else
    seq_for n (fun i => let? lp := c_strided i lsh lst in
                        let? rp := c_strided i rsh rst in
                        let? x := nth_error lhs (lo + lp) in
                        let? y := nth_error rhs (ro + rp) in Some (f x y)) out.

(** ops_unary.c:38-117 [IMPL_UNARY_OP] with a non-NULL input (the only way it is
    called); the scalar, comparison and cast macros (ops_unary.c:134-440,
    ops_cast.c) have the same body.  The offset is read only when
    [num_dims > 0] (ops_unary.c:70). *)
Definition unary_kernel {A B} (e : env) (f : A -> B) (input : list A)
    (out : list B) (md : list nat) : option (list B) :=
  let? n := nth_error md 0 in
  let? nd := nth_error md 1 in
  let? dims := md_slice md 2 nd in
  let? strides := md_slice md (2 + nd) nd in
  let? off := (if 0 <? nd then nth_error md (2 + 2 * nd) else Some 0) in
  if c_is_contiguous dims strides then
    par_for e n (fun i => let? x := nth_error input (off + i) in Some (f x)) out
  else
    seq_for n (fun i => let? p := c_strided i dims strides in
                        let? x := nth_error input (off + p) in Some (f x)) out.

(** ops_memory.c:19-83 [IMPL_CONTIGUOUS_OP]: [memcpy] when contiguous, else the
    strided loop. *)
Definition contiguous_kernel {A} (input : list A) (out : list A) (md : list nat)
    : option (list A) :=
  let? n := nth_error md 0 in
  let? nd := nth_error md 1 in
  let? dims := md_slice md 2 nd in
  let? strides := md_slice md (2 + nd) nd in
  let? off := (if 0 <? nd then nth_error md (2 + 2 * nd) else Some 0) in
  if c_is_contiguous dims strides then
    seq_for n (fun i => nth_error input (off + i)) out
  else
    seq_for n (fun i => let? p := c_strided i dims strides in nth_error input (off + p)) out.
