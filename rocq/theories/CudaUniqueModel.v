(** unique on CUDA: crates/hodu_cuda_kernels/kernels/ops_indexing.cu, launched by
    be_cuda/storage/ops_indexing.rs.

    A turn of a thread is one iteration of its loop.  In a step of the bitonic sort the
    turn for [i] touches the cells [i] and [i ^ j] only, and those are no other turn's.

    Simplifications: as in CountModel.v and LaunchModel.v; the int32_t positions do not
    wrap, so that the padded size is at most 2^31; the element type is one of those
    be_cuda/storage/ops_indexing.rs:839-959 is written for. *)
From Coq Require Import List Arith ZArith Bool.
From Verif Require Import Base IndexSpec LayoutModel KernelModel TensorModel ScanModel SortModel CountModel.
From Verif Require Import TileModel TileSpec LaunchModel.
Import ListNotations.

(** The launches of one call: the copy, the steps of the sort, the count, the marks and
    the results *)
Inductive launch := ToCopy | ToStep (k j : nat) | ToCount | ToMark | ToBuild.

(** usize::next_power_of_two *)
Definition next_power (n : nat) : nat := 2 ^ Nat.log2_up n.

Section Unique.
Context {A : Type}.
(** COMPARE_LESS, COMPARE_EQ and MAX_VAL of the element type (ops_indexing.cu:814-884), and
    the value of a zeroed cell *)
Variables (lt same : A -> A -> bool) (top z : A).
Variable sched : launch -> nat -> list nat.

(** ops_indexing.cu:674-693 [UNIQUE_SORT_OP]: values and positions, padded; the strides of
    the input are not looked at *)
Definition cuda_unique_copy (input : list A) (n offset padded : nat) (s : list A * list nat) : option (list A * list nat) :=
  loopO (fun tid (s : list A * list nat) =>
    let? x := if tid <? n then nth_error input (offset + tid) else Some top in
    let? vs := c_store (fst s) tid x in
    let? ps := c_store (snd s) tid tid in Some (vs, ps))
    (log (execute Long padded (sched ToCopy padded))) s.

(** ops_indexing.cu:697-726 [UNIQUE_BITONIC_STEP_OP] *)
Definition bitonic_turn (padded k j i : nat) (s : list A * list nat) : option (list A * list nat) :=
  let p := Nat.lxor i j in
  if (i <? p) && (p <? padded) then
    let ascending := Nat.land i k =? 0 in
    let? vi := nth_error (fst s) i in
    let? vj := nth_error (fst s) p in
    let less := lt vi vj in
    if (if ascending then negb less else less) then
      let? vs := c_store (fst s) i vj in
      let? vs' := c_store vs p vi in
      let? ti := nth_error (snd s) i in
      let? tj := nth_error (snd s) p in
      let? ps := c_store (snd s) i tj in
      let? ps' := c_store ps p ti in
      Some (vs', ps')
    else Some s
  else Some s.
Definition bitonic_step (padded k j : nat) (s : list A * list nat) : option (list A * list nat) :=
  loopO (bitonic_turn padded k j) (log (execute Long padded (sched (ToStep k j) padded))) s.

(** be_cuda/storage/ops_indexing.rs:747-766: while k <= padded_size, while j >= 1 *)
Fixpoint bitonic_inner (fuel padded k j : nat) (s : list A * list nat) : option (list A * list nat) :=
  match fuel with
  | 0 => None
  | S f => if 1 <=? j then let? s' := bitonic_step padded k j s in bitonic_inner f padded k (j / 2) s' else Some s
  end.
Fixpoint bitonic_outer (fuel padded k : nat) (s : list A * list nat) : option (list A * list nat) :=
  match fuel with
  | 0 => None
  | S f => if k <=? padded then let? s' := bitonic_inner (S k) padded k (k / 2) s in bitonic_outer f padded (k * 2) s' else Some s
  end.

(** ops_indexing.cu:729-747 [UNIQUE_COUNT_OP]; the counter has 32 bits *)
Definition starts (sorted : list A) (tid : nat) : option bool :=
  if tid =? 0 then Some true
  else
    let? curr := nth_error sorted tid in
    let? prev := nth_error sorted (tid - 1) in
    Some (negb (same curr prev)).
Definition cuda_unique_count (sorted : list A) (n : nat) : option nat :=
  loopO (fun tid count => let? b := starts sorted tid in Some (if b then as_u32 (S count) else count))
    (log (execute Long n (sched ToCount n))) 0.
(** ops_indexing.cu:750-766 [UNIQUE_MARK_OP] *)
Definition cuda_unique_mark (sorted : list A) (n : nat) (marks : list bool) : option (list bool) :=
  loopO (fun tid marks => let? b := starts sorted tid in c_store marks tid b)
    (log (execute Long n (sched ToMark n))) marks.
(** ops_indexing.cu:769-785 [hodu_cuda_unique_prefix_sum], one thread; [sum - 1] of 0 is a
    negative index, outside every buffer *)
Definition cuda_unique_prefix (marks : list bool) (n : nat) (idx : list nat) : option (list nat) :=
  let? s := loopO (fun i (s : nat * list nat) =>
    let? b := nth_error marks i in
    if b : bool then let? idx := c_store (snd s) i (fst s) in Some (S (fst s), idx)
    else if fst s =? 0 then None else let? idx := c_store (snd s) i (fst s - 1) in Some (fst s, idx))
    (seq 0 n) (0, idx) in
  Some (snd s).
(** ops_indexing.cu:788-812 [UNIQUE_BUILD_OP]: values, inverse and counts *)
Definition build_turn (sorted : list A) (places : list nat) (marks : list bool) (idx : list nat) (tid : nat)
    (s : list A * list nat * list nat) : option (list A * list nat * list nat) :=
  let '(values, inverse, counts) := s in
  let? uid := nth_error idx tid in
  let? orig := nth_error places tid in
  let? inverse := c_store inverse orig uid in
  let? b := nth_error marks tid in
  let? values := if b : bool then let? x := nth_error sorted tid in c_store values uid x else Some values in
  let? c := nth_error counts uid in
  let? counts := c_store counts uid (S c) in
  Some (values, inverse, counts).
Definition cuda_unique_build (sorted : list A) (places : list nat) (marks : list bool) (idx : list nat) (n : nat)
    (s : list A * list nat * list nat) : option (list A * list nat * list nat) :=
  loopO (build_turn sorted places marks idx) (log (execute Long n (sched ToBuild n))) s.

(** be_cuda/storage/ops_indexing.rs:695-962 [call_unique], op_metadatas.rs:972-992,
    tensor/ops/indexing.rs:756-835 (eager branch) *)
Definition cuda_t_unique (t : tensor A) : outcome (tensor A * tensor nat * tensor nat) :=
  let n := nelem (lshape (tlay t)) in
  if n =? 0 then Ok (mkT [] (from_shape [0]), mkT [] (from_shape [n]), mkT [] (from_shape [0]))
  else
    let padded := next_power n in
    do s <- ub (cuda_unique_copy (tstore t) n (loffset (tlay t)) padded (repeat z padded, repeat 0 padded)) ;
    do s <- ub (bitonic_outer (S padded) padded 2 s) ;
    do count <- ub (cuda_unique_count (fst s) n) ;
    if count =? 0 then Ok (mkT [] (from_shape [0]), mkT [] (from_shape [n]), mkT [] (from_shape [0]))
    else
      do marks <- ub (cuda_unique_mark (fst s) n (repeat false n)) ;
      do idx <- ub (cuda_unique_prefix marks n (repeat 0 n)) ;
      do r <- ub (cuda_unique_build (fst s) (snd s) marks idx n (repeat z count, repeat 0 n, repeat 0 count)) ;
      let '(values, inverse, counts) := r in
      Ok (mkT values (from_shape [count]), mkT inverse (from_shape [n]), mkT counts (from_shape [count])).
End Unique.
