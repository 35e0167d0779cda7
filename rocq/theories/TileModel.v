(** Matrix products on CUDA: kernels/ops_matrix.cu, src/kernels/ops_matrix.rs
    of hodu_cuda_kernels, and be_cuda/storage/ops_matrix.rs.

    A launch is a grid of blocks of threads.  The threads of a block share two
    tiles and wait for each other at __syncthreads; nothing else orders them, so
    an execution is a list of (block, thread), the threads that move next.

    Simplifications: one move is one access to a tile, or the two reads of
    ops_matrix.cu:77-78 together; element type, zero and
    [mac s a b] = from_float(to_float(s) + to_float(a) * to_float(b)) are
    parameters; [size_t] arithmetic does not wrap (row and column fit in 32 bits
    since the grid has at most 2^32 / TILE blocks in a direction); [None] is a
    value nothing determines, such as a read outside the buffer. *)
From Coq Require Import List Arith ZArith Bool.
From Verif Require Import Base IndexSpec LayoutModel KernelModel TensorModel ReduceModel ScanModel MatrixModel.
Import ListNotations.

(** where a thread is in the loop over tiles [t] *)
Inductive place :=
| LoadLeft (t : nat)      (* ops_matrix.cu:59-66, L125-131 *)
| LoadRight (t : nat)     (* L67-74, L132-138 *)
| Loaded (t : nat)        (* __syncthreads, L75, L139 *)
| Multiply (t k : nat)    (* L76-80, L140-144 *)
| Used (t : nat)          (* __syncthreads, L81, L145 *)
| Store                   (* L83-86, L147-149 *)
| Done.

Section Tiles.
Context {A : Type}.
Variables (zero : A) (mac : A -> A -> A -> A).

(** [tile] is TILE_SIZE, [side] the number of threads of a block in each of two
    directions, [wide], [high] the grid; [left b i k] and [right b k j] are the
    elements at lhs_idx and rhs_idx for batch [b] *)
Record launch := mkLaunch {
  tile : nat; side : nat; wide : nat; high : nat; deep : nat;
  rows : nat; inner : nat; cols : nat;
  left : nat -> nat -> nat -> option A; right : nat -> nat -> nat -> option A }.

Record block := mkBlock {
  ltile : list (option A); rtile : list (option A); threads : list (place * option A) }.
Record state := mkState { blocks : list block; result : list (option A) }.

(** num_tiles (L57, L123), blockIdx and threadIdx, row and col (L27-29, L120-121) *)
Definition tiles (l : launch) : nat := (inner l + (tile l - 1)) / tile l.
Definition block_z (l : launch) (c : nat) : nat := c / (wide l * high l).
Definition block_y (l : launch) (c : nat) : nat := c / wide l mod high l.
Definition block_x (l : launch) (c : nat) : nat := c mod wide l.
Definition thread_y (l : launch) (i : nat) : nat := i / side l.
Definition thread_x (l : launch) (i : nat) : nat := i mod side l.
Definition row (l : launch) (c i : nat) : nat := block_y l c * tile l + thread_y l i.
Definition col (l : launch) (c i : nat) : nat := block_x l c * tile l + thread_x l i.

Definition enter (l : launch) (t : nat) : place := if t <? tiles l then LoadLeft t else Store.

(** how often a thread has arrived at __syncthreads; it goes on when all the
    threads of its block have arrived as often *)
Definition arrivals (l : launch) (p : place) : nat :=
  match p with
  | LoadLeft t | LoadRight t => 2 * t
  | Loaded t | Multiply t _ => 2 * t + 1
  | Used t => 2 * t + 2
  | Store | Done => 2 * tiles l
  end.
Definition all_arrived (l : launch) (b : block) (n : nat) : bool :=
  forallb (fun th => n <=? arrivals l (fst th)) (threads b).

(** L60-66 and L68-74 *)
Definition fetch_left (l : launch) (c i t : nat) : option A :=
  if (row l c i <? rows l) && (t * tile l + thread_x l i <? inner l)
  then left l (block_z l c) (row l c i) (t * tile l + thread_x l i) else Some zero.
Definition fetch_right (l : launch) (c i t : nat) : option A :=
  if (t * tile l + thread_y l i <? inner l) && (col l c i <? cols l)
  then right l (block_z l c) (t * tile l + thread_y l i) (col l c i) else Some zero.

Definition mac_opt (s a b : option A) : option A :=
  let? s' := s in let? a' := a in let? b' := b in Some (mac s' a' b').

Definition move (b : block) (i : nat) (p : place) (s : option A) : block :=
  mkBlock (ltile b) (rtile b) (upd (threads b) i (p, s)).

(** one move of thread [i] of block [c] *)
Definition step_block (l : launch) (c i : nat) (b : block) (out : list (option A)) : block * list (option A) :=
  match nth_error (threads b) i with
  | None => (b, out)
  | Some (p, s) =>
    match p with
    | LoadLeft t =>
      (mkBlock (upd (ltile b) (thread_y l i * tile l + thread_x l i) (fetch_left l c i t)) (rtile b)
               (upd (threads b) i (LoadRight t, s)), out)
    | LoadRight t =>
      (mkBlock (ltile b) (upd (rtile b) (thread_y l i * tile l + thread_x l i) (fetch_right l c i t))
               (upd (threads b) i (Loaded t, s)), out)
    | Loaded t =>
      if all_arrived l b (2 * t + 1) then (move b i (Multiply t 0) s, out) else (b, out)
    | Multiply t k =>
      let s' := mac_opt s (nth (thread_y l i * tile l + k) (ltile b) None)
                          (nth (k * tile l + thread_x l i) (rtile b) None) in
      (move b i (if S k <? tile l then Multiply t (S k) else Used t) s', out)
    | Used t =>
      if all_arrived l b (2 * t + 2) then (move b i (enter l (S t)) s, out) else (b, out)
    | Store =>
      (move b i Done s,
       if (row l c i <? rows l) && (col l c i <? cols l)
       then upd out (block_z l c * (rows l * cols l) + row l c i * cols l + col l c i) s else out)
    | Done => (b, out)
    end
  end.

Definition step (l : launch) (s : state) (who : nat * nat) : state :=
  match nth_error (blocks s) (fst who) with
  | None => s
  | Some b =>
    let r := step_block l (fst who) (snd who) b (result s) in
    mkState (upd (blocks s) (fst who) (fst r)) (snd r)
  end.
Definition run (l : launch) (sched : list (nat * nat)) (s : state) : state := fold_left (step l) sched s.

(** the start: [lefts c] and [rights c] lie in the tiles of block [c], which are
    not initialised, and [out] in the buffer, which is not either
    (be_cuda/device.rs:91-101) *)
Definition start (l : launch) (lefts rights : nat -> list (option A)) (out : list (option A)) : state :=
  mkState (map (fun c => mkBlock (lefts c) (rights c) (repeat (enter l 0, Some zero) (side l * side l)))
               (seq 0 (wide l * high l * deep l))) out.

Definition finished (s : state) : Prop :=
  Forall (fun b => Forall (fun th => fst th = Done) (threads b)) (blocks s).

(** [x as u32] and [div_ceil(TILE).max(1)] (ops_matrix.rs:362-363, L563-564) *)
Definition as_u32 (n : nat) : nat := Z.to_nat (Z.of_nat n mod 2 ^ 32).
Definition grid (n t : nat) : nat := Nat.max 1 ((as_u32 n + (t - 1)) / t).

(** what CUDA accepts as a grid: at most 2^31 - 1 by 65535 by 65535 blocks, and
    at least one; otherwise the launch is an error *)
Definition accepted (l : launch) : bool :=
  (1 <=? deep l) && (Z.of_nat (wide l) <? 2 ^ 31)%Z && (Z.of_nat (high l) <=? 65535)%Z && (Z.of_nat (deep l) <=? 65535)%Z.

(** ops_matrix.rs:539-585 [call_ops_dot_kernel] on the metadata of
    be_cuda/storage/ops_matrix.rs [call_ops_dot]: tiles of 32 by 32, blocks of
    8 by 8 threads (L559-561, L568) *)
Definition dot_launch (lhs rhs : list A) (md : list nat) : launch :=
  let m := nth 0 md 0 in
  let n := nth 2 md 0 in
  mkLaunch 32 (32 / 4) (grid n 32) (grid m 32) 1 m (nth 1 md 0) n
    (fun _ i k => nth_error lhs (nth 7 md 0 + i * nth 3 md 0 + k * nth 4 md 0))
    (fun _ k j => nth_error rhs (nth 8 md 0 + k * nth 5 md 0 + j * nth 6 md 0)).

(** ops_matrix.rs:328-384 [call_ops_matmul_kernel] with ops_matrix.cu:10-55:
    tiles of 16 by 16, blocks of 16 by 16 threads; the grid is as deep as there
    are batches *)
Definition batch_address (lo : nat) (sh st bi : list nat) : nat :=
  let nd := length sh in
  flat_index lo (map (fun d => if nth d sh 0 =? 1 then 0 else nth (length bi - (nd - 2) + d) bi 0) (seq 0 (nd - 2))) st.
Definition batch_left (lhs : list A) (lo : nat) (sh st bsh : list nat) (b i k : nat) : option A :=
  let? bi := c_unravel b bsh in
  let nd := length sh in
  nth_error lhs (batch_address lo sh st bi + i * nth (nd - 2) st 0 + k * nth (nd - 1) st 0).
Definition matmul_launch (lhs rhs : list A) (md : list nat) : option launch :=
  let? ln := nth_error md 1 in
  let? rn := nth_error md 2 in
  let? bn := nth_error md 3 in
  let? lsh := md_slice md 4 ln in
  let? rsh := md_slice md (4 + ln) rn in
  let? bsh := md_slice md (4 + ln + rn) bn in
  let? lst := md_slice md (4 + ln + rn + bn) ln in
  let? rst := md_slice md (4 + ln + rn + bn + ln) rn in
  let b := 4 + ln + rn + bn + ln + rn in
  let? lo := nth_error md b in
  let? ro := nth_error md (b + 1) in
  let? M := nth_error md (b + 2) in
  let? K := nth_error md (b + 3) in
  let? N := nth_error md (b + 4) in
  if 16 <? bn then None
  else Some (mkLaunch 16 16 (grid N 16) (grid M 16) (shape_size bsh) M K N
               (batch_left lhs lo lsh lst bsh) (batch_left rhs ro rsh rst bsh)).
End Tiles.
Arguments launch : clear implicits.
Arguments block : clear implicits.
Arguments state : clear implicits.
