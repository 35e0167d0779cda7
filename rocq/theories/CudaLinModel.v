(** Determinant, inverse and trace on CUDA.  crates/hodu_cuda_kernels/kernels/ops_linalg.cu,
    launched by src/kernels/ops_linalg.rs and be_cuda/storage/ops_linalg.rs.  The tensor
    operations in front, the metadata and what is said of one matrix are those of LinModel.v.

    Simplifications: as in LaunchModel.v and LinModel.v; [fabsf] is [magnitude], which differs
    from it for -0 only; the launch is as for the kernels of LaunchModel.v (the sum in
    ops_linalg.rs:49, 111 and 171 is taken not to overflow).  Line numbers without a file are
    those of ops_linalg.cu. *)
From Coq Require Import List Arith ZArith Bool.
From Verif Require Import Base IndexSpec LayoutModel KernelModel TensorModel TileSpec EncodeModel LinModel LaunchModel CudaTopkModel.
Import ListNotations.
Local Open Scope nat_scope.

(** The element types the three are written for (be_cuda/storage/ops_linalg.rs:64-90, 146-172,
    229-255). *)
Definition cuda_linalgs (d : dtype) : bool := match d with F32 | F64 | F16 | BF16 => true | _ => false end.
(** The parameters of the three kernels (L29-30, L184-185, L354-355) and the arguments given to
    each (src/kernels/ops_linalg.rs:65, 127, 187). *)
Definition det_params := 3.
Definition inv_params := 3.
Definition trace_params := 4.
Definition given_args := 3.

Section Kernels.
Context {A T : Type}.
Variable sched : nat -> list nat.
(** [conv]: to_float; [down]: from_float; arithmetic of float as in LinModel.v *)
Variables (conv : A -> T) (down : T -> A).
Variables (zero one : T) (add sub mul : T -> T -> T) (div : T -> T -> option T) (neg : T -> T) (lt : T -> T -> bool) (tiny : T -> bool).

(** L93-138: as LinModel.lu_loop, but the sign is given to the 0 of a singular matrix too *)
Fixpoint cuda_lu_loop (n : nat) (ks : list nat) (lu : nat -> nat -> T) (swaps : nat) (d : T) : option T :=
  match ks with
  | [] => Some (if Nat.odd swaps then neg d else d)
  | k :: r =>
    let p := find_pivot zero neg lt n k lu in
    let lu1 := if p =? k then lu else exchange k p lu in
    let swaps1 := if p =? k then swaps else S swaps in
    let pivot := lu1 k k in
    if tiny (magnitude zero neg lt pivot) then Some (if Nat.odd swaps1 then neg zero else zero)
    else let? lu2 := eliminate sub mul div k pivot (seq (S k) (n - S k)) lu1 in
         cuda_lu_loop n r lu2 swaps1 (mul d pivot)
  end.
(** L57-139; [lu] has 16 * 16 entries *)
Definition cuda_det_matrix (n : nat) (a : nat -> nat -> T) : option T :=
  match n with
  | 1 => Some (a 0 0)
  | 2 => Some (sub (mul (a 0 0) (a 1 1)) (mul (a 0 1) (a 1 0)))
  | 3 => Some (add (sub (mul (a 0 0) (sub (mul (a 1 1) (a 2 2)) (mul (a 1 2) (a 2 1))))
                        (mul (a 0 1) (sub (mul (a 1 0) (a 2 2)) (mul (a 1 2) (a 2 0)))))
                   (mul (a 0 2) (sub (mul (a 1 0) (a 2 1)) (mul (a 1 1) (a 2 0)))))
  | _ => if 16 <? n then None else cuda_lu_loop n (seq 0 n) a 0 one
  end.
(** L214-320: the formulas and the elimination of LinModel.inv_matrix; [aug] has 16 * 16 * 2
    entries *)
Definition cuda_inv_matrix (n : nat) (a : nat -> nat -> T) : option (nat -> nat -> T) :=
  if 16 <? n then None else inv_matrix zero one add sub mul div neg lt n a.

(** L28-55, L183-212, L353-380: a thread for each matrix, which writes [size] entries next to
    each other.  A kernel given fewer arguments than it has parameters reads outside the list
    of them. *)
Definition cuda_linalg (params : nat) (one_matrix : nat -> (nat -> nat -> T) -> option (list T)) (size : nat)
    (input : list A) (l : layout) (room : nat) : option (list A) :=
  if negb (params =? given_args) then None
  else
    let s := lshape l in
    let nd := length s in
    let n := nth (nd - 1) s 0 in
    let batch := firstn (nd - 2) s in
    let count := batch_count batch in
    let? ws := map_opt (fun b =>
        let? start := batch_start batch (lstrides l) (loffset l) b in
        let? a := get_matrix zero (map conv input) n (nth (nd - 2) (lstrides l) 0) (nth (nd - 1) (lstrides l) 0) start in
        let? xs := one_matrix n a in
        Some (combine (seq (b * size) size) (map (fun x => Some (down x)) xs)))
      (log (execute Once count (sched count))) in
    if room <? count * size then None else all_some (stored (concat ws) (repeat None room)).

(** tensor/ops/linalg.rs:23-91 with be_cuda/storage/ops_linalg.rs:10-91 *)
Definition cuda_t_det (dt : dtype) (t : tensor A) : outcome (tensor A) :=
  let s := lshape (tlay t) in
  if negb (square s) then Err EInternal
  else if negb (cuda_linalgs dt) then Err EInternal
  else do st <- ub (cuda_linalg det_params (fun n a => let? d := cuda_det_matrix n a in Some [d]) 1 (tstore t) (tlay t) (shape_size (batch_shape s))) ;
       Ok (mkT st (from_shape (batch_shape s))).
(** tensor/ops/linalg.rs:110-173 with be_cuda/storage/ops_linalg.rs:93-173 *)
Definition cuda_t_inv (dt : dtype) (t : tensor A) : outcome (tensor A) :=
  let s := lshape (tlay t) in
  if negb (square s) then Err EInternal
  else if negb (cuda_linalgs dt) then Err EInternal
  else let n := nth (length s - 1) s 0 in
       do st <- ub (cuda_linalg inv_params (fun n a => let? b := cuda_inv_matrix n a in
                                              Some (map (fun p => b (fst p) (snd p)) (list_prod (seq 0 n) (seq 0 n))))
                                  (n * n) (tstore t) (tlay t) (shape_size s)) ;
       Ok (mkT st (from_shape s)).
(** tensor/ops/linalg.rs:188-256 with be_cuda/storage/ops_linalg.rs:175-256 *)
Definition cuda_t_trace (dt : dtype) (t : tensor A) : outcome (tensor A) :=
  let s := lshape (tlay t) in
  if negb (square s) then Err EInternal
  else if negb (cuda_linalgs dt) then Err EInternal
  else do st <- ub (cuda_linalg trace_params (fun n a => Some [trace_matrix zero add n a]) 1 (tstore t) (tlay t) (shape_size (batch_shape s))) ;
       Ok (mkT st (from_shape (batch_shape s))).
End Kernels.
