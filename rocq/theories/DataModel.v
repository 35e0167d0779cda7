(** The data pipeline: shuffling, samplers, datasets, the data loader and
    batching.  crates/hodu_datasets/src/data/. *)
From Coq Require Import List Arith ZArith Lia Bool SpecFloat.
From Verif Require Import Base IndexSpec LayoutModel KernelModel TensorModel MoveModel.
Import ListNotations.

(* ---------- shuffling ---------- *)

(** The random generator: [draw r i] is [rng.random_range(0..=i)] in state [r].
    The library promises a number between 0 and [i] ([fair]). *)
Section Shuffle.
Context {R : Type}.
Variable draw : R -> nat -> nat * R.
Definition fair : Prop := forall r i, fst (draw r i) <= i.

(** dataloader.rs:193-196, sampler.rs:45-48 and L60-63, dataset.rs:144-147:
    [for i in (1..length).rev() { let j = ...; indices.swap(i, j); }] *)
Fixpoint shuffle_loop {A} (i : nat) (r : R) (l : list A) : outcome (list A) :=
  match i with
  | 0 => Ok l
  | S i' => let (j, r') := draw r i in do l' <- swap l i j ; shuffle_loop i' r' l'
  end.
Definition shuffle {A} (r : R) (l : list A) : outcome (list A) := shuffle_loop (length l - 1) r l.
End Shuffle.

(** [&v[a..b]], panics when [a > b] or [b > len] *)
Definition slice_range {A} (l : list A) (a b : nat) : outcome (list A) :=
  if (b <? a) || (length l <? b) then Panic else Ok (firstn (b - a) (skipn a l)).

(* ---------- samplers ---------- *)

(** [slice.chunks(n)] for [n > 0]; at most [length l] chunks *)
Fixpoint chunks_of {A} (fuel n : nat) (l : list A) : list (list A) :=
  match fuel, l with
  | S fuel', _ :: _ => firstn n l :: chunks_of fuel' n (skipn n l)
  | _, _ => []
  end.
(** sampler.rs:118-123: the loop stops at the first short chunk if [drop_last] *)
Fixpoint take_batches {A} (bs : nat) (drop_last : bool) (cs : list (list A)) : list (list A) :=
  match cs with
  | [] => []
  | c :: r => if drop_last && (length c <? bs) then [] else c :: take_batches bs drop_last r
  end.
(** sampler.rs:114-126 [BatchSampler::batches]; [indices] is what the inner sampler
    yields; [chunks(0)] panics *)
Definition sampler_batches {A} (indices : list A) (bs : nat) (drop_last : bool) : outcome (list (list A)) :=
  if bs =? 0 then Panic else Ok (take_batches bs drop_last (chunks_of (length indices) bs indices)).

(** sampler.rs:22-24 and L36-51 *)
Definition sequential_sampler (n : nat) : list nat := seq 0 n.
Definition random_sampler {R} (draw : R -> nat -> nat * R) (r : R) (n : nat) : outcome (list nat) :=
  shuffle draw r (seq 0 n).

(* ---------- datasets ---------- *)

(** a dataset: its length and its samples *)
Record dataset (I : Type) := mkD { dlen : nat; dget : nat -> outcome I }.
Arguments mkD {I}. Arguments dlen {I}. Arguments dget {I}.

(** dataset.rs:65-78 [Subset] *)
Definition subset {I} (d : dataset I) (indices : list nat) : dataset I :=
  mkD (length indices) (fun k =>
    if length indices <=? k then Err EInternal
    else match nth_error indices k with Some i => dget d i | None => Panic end).

(** dataset.rs:88-99 [ConcatDataset::new] *)
Fixpoint cumulative (total : nat) (lens : list nat) : list nat :=
  match lens with
  | [] => []
  | n :: r => (total + n) :: cumulative (total + n) r
  end.
(** dataset.rs:114-123: the loop over the cumulative sizes; [prev] is
    [cumulative_sizes[i - 1]], 0 for the first *)
Fixpoint concat_get {I} (prev index : nat) (ds : list (dataset I)) (cum : list nat) : outcome I :=
  match ds, cum with
  | d :: ds', c :: cum' => if index <? c then dget d (index - prev) else concat_get c index ds' cum'
  | _, _ => Panic (* unreachable!() *)
  end.
(** dataset.rs:82-127 [ConcatDataset] *)
Definition concat_dataset {I} (ds : list (dataset I)) : dataset I :=
  let cum := cumulative 0 (map dlen ds) in
  let n := last cum 0 in
  mkD n (fun index => if n <=? index then Err EInternal else concat_get 0 index ds cum).

(** dataset.rs:137 [(total_len as f32 * train_size) as usize]: conversion to the
    nearest f32, f32 product, truncation ([as usize] saturates, NaN gives 0) *)
Definition f32_of_nat (n : nat) : spec_float := binary_normalize 24 128 (Z.of_nat n) 0 false.
Definition usize_of_f32 (x : spec_float) : nat :=
  match x with
  | S754_finite false m e => Z.to_nat (Z.min (2 ^ 64 - 1) (if (e <? 0)%Z then Z.shiftr (Zpos m) (- e) else Zpos m * 2 ^ e))
  | S754_infinity false => Z.to_nat (2 ^ 64 - 1)
  | _ => 0
  end.
Definition train_len (total : nat) (ratio : spec_float) : nat :=
  usize_of_f32 (SFmul 24 128 (f32_of_nat total) ratio).

(** dataset.rs:129-156 [random_split]; [k] is [train_len] *)
Definition split_at {I R} (draw : R -> nat -> nat * R) (r : R) (d : dataset I) (k : nat)
    : outcome ((list nat * dataset I) * (list nat * dataset I)) :=
  do idx <- shuffle draw r (seq 0 (dlen d)) ;
  do a <- slice_range idx 0 k ;
  do b <- slice_range idx k (length idx) ;
  Ok ((a, subset d a), (b, subset d b)).
Definition random_split {I R} (draw : R -> nat -> nat * R) (r : R) (d : dataset I) (ratio : spec_float) :=
  split_at draw r d (train_len (dlen d) ratio).

(* ---------- the loader ---------- *)

Record loader := mkL {
  l_bs : nat; l_shuffle : bool; l_drop : bool; l_indices : list nat;
  l_cur : nat; l_seed : option Z; l_epoch : Z }.

Section Loader.
Context {I B R : Type}.
Variables (d : dataset I) (collate : list I -> outcome B).
Variables (draw : R -> nat -> nat * R) (seed_rng : Z -> R).
(** overflow checks of the build: a debug build panics, a release build wraps *)
Variable checked : bool.

Definition add_u64 (a b : Z) : outcome Z :=
  if (2 ^ 64 <=? a + b)%Z && checked then Panic else Ok ((a + b) mod 2 ^ 64)%Z.

(** dataloader.rs:185-197 *)
Definition shuffle_indices (l : loader) : outcome loader :=
  do s <- add_u64 (match l_seed l with Some s => s | None => 0%Z end) (l_epoch l) ;
  do idx <- shuffle draw (seed_rng s) (l_indices l) ;
  Ok (mkL (l_bs l) (l_shuffle l) (l_drop l) idx (l_cur l) (l_seed l) (l_epoch l)).

(** dataloader.rs:155-183 *)
Definition loader_new (bs : nat) (sh drop_last : bool) (seed : option Z) : outcome loader :=
  let l := mkL bs sh drop_last (seq 0 (dlen d)) 0 seed 0 in
  if sh then shuffle_indices l else Ok l.

(** dataloader.rs:207-214; division by zero panics *)
Definition num_batches (l : loader) : outcome nat :=
  if l_bs l =? 0 then Panic
  else Ok (if l_drop l then dlen d / l_bs l
           else if dlen d mod l_bs l =? 0 then dlen d / l_bs l else S (dlen d / l_bs l)).

(** dataloader.rs:216-222 *)
Definition reset (l : loader) : outcome loader :=
  do ep <- add_u64 (l_epoch l) 1 ;
  let l := mkL (l_bs l) (l_shuffle l) (l_drop l) (l_indices l) 0 (l_seed l) ep in
  if l_shuffle l then shuffle_indices l else Ok l.

(** dataloader.rs:224-235 *)
Definition has_next (l : loader) : bool :=
  if dlen d <=? l_cur l then false
  else if l_drop l then l_bs l <=? dlen d - l_cur l else true.

(** dataloader.rs:248-250: the items, stopping at the first error *)
Fixpoint get_items (idx : list nat) : outcome (list I) :=
  match idx with
  | [] => Ok []
  | i :: r => do x <- dget d i ; do xs <- get_items r ; Ok (x :: xs)
  end.

(** dataloader.rs:237-256; the new state and the result *)
Definition next_batch (l : loader) : loader * outcome (option B) :=
  if negb (has_next l) then (l, Ok None)
  else
    let e := Nat.min (l_cur l + l_bs l) (dlen d) in
    match slice_range (l_indices l) (l_cur l) e with
    | Ok idx =>
      match get_items idx with
      | Ok items =>
        (mkL (l_bs l) (l_shuffle l) (l_drop l) (l_indices l) e (l_seed l) (l_epoch l),
         do b <- collate items ; Ok (Some b))
      | Err x => (l, Err x)
      | Panic => (l, Panic)
      end
    | Err x => (l, Err x)
    | Panic => (l, Panic)
    end.

(** [k] calls of [next_batch]: the results and the final state *)
Fixpoint run (k : nat) (l : loader) : list (outcome (option B)) * loader :=
  match k with
  | 0 => ([], l)
  | S k' => let (l1, x) := next_batch l in let (xs, l2) := run k' l1 in (x :: xs, l2)
  end.

(** loaders a program can hold: built, then advanced and reset at will *)
Inductive reachable (bs : nat) (sh drop_last : bool) (seed : option Z) : loader -> Prop :=
| r_new : forall l, loader_new bs sh drop_last seed = Ok l -> reachable bs sh drop_last seed l
| r_next : forall l, reachable bs sh drop_last seed l -> reachable bs sh drop_last seed (fst (next_batch l))
| r_reset : forall l l', reachable bs sh drop_last seed l -> reset l = Ok l' -> reachable bs sh drop_last seed l'.
End Loader.

(* ---------- tensors as datasets ---------- *)

(** data/batch.rs: an item of a dataset; [Batch] has the same shape *)
Inductive item (A : Type) :=
| Single (t : tensor A) | Pair (d l : tensor A) | Multiple (ts : list (tensor A)).
Arguments Single {A}. Arguments Pair {A}. Arguments Multiple {A}.

Section Tensors.
Context {A : Type}.
Variable z : A.

(** dataset.rs:38-41 *)
Definition t_row (t : tensor A) (index : nat) : outcome (tensor A) :=
  do s <- t_view z (VSlice 0%Z (Z.of_nat index) (Some (Z.of_nat (index + 1))) 1%Z) t ;
  t_view z (VSqueeze [0%Z]) s.

(** dataset.rs:33-52 [TensorDataset] (a rank-0 tensor has no length: panic at the
    first use, here length 0) *)
Definition tensor_dataset (data : tensor A) (labels : option (tensor A)) : dataset (item A) :=
  mkD (match lshape (tlay data) with n :: _ => n | [] => 0 end) (fun index =>
    do x <- t_row data index ;
    match labels with
    | Some lt => do y <- t_row lt index ; Ok (Pair x y)
    | None => Ok (Single x)
    end).

Fixpoint singles (l : list (item A)) : outcome (list (tensor A)) :=
  match l with
  | [] => Ok []
  | Single t :: r => do ts <- singles r ; Ok (t :: ts)
  | _ :: _ => Panic
  end.
Fixpoint pairs (l : list (item A)) : outcome (list (tensor A) * list (tensor A)) :=
  match l with
  | [] => Ok ([], [])
  | Pair a b :: r => do p <- pairs r ; Ok (a :: fst p, b :: snd p)
  | _ :: _ => Panic
  end.
(** dataloader.rs:55-67: one list per position *)
Fixpoint multiples (n : nat) (l : list (item A)) : outcome (list (list (tensor A))) :=
  match l with
  | [] => Ok (repeat [] n)
  | Multiple ts :: r =>
    if negb (length ts =? n) then Panic
    else do p <- multiples n r ; Ok (map (fun q => fst q :: snd q) (combine ts p))
  | _ :: _ => Panic
  end.
(** dataloader.rs:8-78 [default_collate] *)
Definition default_collate (items : list (item A)) : outcome (item A) :=
  match items with
  | [] => Err EInternal
  | Single _ :: _ => do ts <- singles items ; do b <- t_stack z ts 0%Z ; Ok (Single b)
  | Pair _ _ :: _ =>
    do p <- pairs items ;
    do x <- t_stack z (fst p) 0%Z ;
    do y <- t_stack z (snd p) 0%Z ; Ok (Pair x y)
  | Multiple ts :: _ =>
    do p <- multiples (length ts) items ;
    do bs <- (fix go l := match l with
               | [] => Ok []
               | ts :: r => do b <- t_stack z ts 0%Z ; do bs <- go r ; Ok (b :: bs)
               end) p ;
    Ok (Multiple bs)
  end.
End Tensors.
