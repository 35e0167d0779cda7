(** Determinant, inverse, trace and solve: kernels/ops_linalg.c, be_cpu/storage/ops_linalg.rs,
    op_metadatas.rs [det_metadata], tensor/ops/linalg.rs.

    Simplifications: the work arrays [lu] and [aug] are functions of row and column; element type and
    arithmetic are parameters, [None] from [div] is the integer division by zero, which is undefined
    behaviour; [size_t] arithmetic does not wrap; dtype and device validation, capture and gradient
    recording left out; C integer promotion inside an expression is not distinguished from arithmetic in
    the type; a matrix must lie in the storage as a whole, although the trace reads its diagonal only.
    Line numbers without a file are those of ops_linalg.c. *)
From Coq Require Import List Arith ZArith Bool.
From Verif Require Import Base IndexSpec LayoutModel ViewSpec KernelModel TensorModel CountModel.
Import ListNotations.

Section Kernels.
Context {T : Type}.
Variables (zero one : T) (add sub mul : T -> T -> T) (div : T -> T -> option T) (neg : T -> T) (lt : T -> T -> bool).
(** L139 [abs_pivot < (TYPE)1e-15]; for the integer types this is [abs_pivot < 0]; the EXOTIC macro has
    no test, L256-257: never true *)
Variable tiny : T -> bool.

(** L109-111, L114-116, L136-138: [if (val < 0) val = -val]; L237, L240: [ABS_FN] *)
Definition magnitude (v : T) : T := if lt v zero then neg v else v.
(** L107-121, L236-245, L406-420, L554-563: the first row at or below [k] with the largest magnitude in column [k] *)
Definition find_pivot (n k : nat) (m : nat -> nat -> T) : nat :=
  fst (fold_left (fun b i => let v := magnitude (m i k) in if lt (snd b) v then (i, v) else b)
                 (seq (S k) (n - S k)) (k, magnitude (m k k))).
(** L125-129, L248-252, L424-428, L566-570 *)
Definition exchange (a b : nat) (m : nat -> nat -> T) : nat -> nat -> T :=
  fun i j => if i =? a then m b j else if i =? b then m a j else m i j.
(** L150-152, L261-263: row [i], columns from [k] on, minus [f] times row [k] *)
Definition sub_row (k i : nat) (f : T) (m : nat -> nat -> T) : nat -> nat -> T :=
  fun r c => if (r =? i) && (k <=? c) then sub (m r c) (mul f (m k c)) else m r c.
(** L148-153, L259-264 *)
Fixpoint eliminate (k : nat) (pivot : T) (rows : list nat) (m : nat -> nat -> T) : option (nat -> nat -> T) :=
  match rows with
  | [] => Some m
  | i :: r => let? f := div (m i k) pivot in eliminate k pivot r (sub_row k i f m)
  end.
(** L106-159, L235-269: the columns still to do, the number of exchanges, the product so far *)
Fixpoint lu_loop (n : nat) (ks : list nat) (lu : nat -> nat -> T) (swaps : nat) (d : T) : option T :=
  match ks with
  | [] => Some (if Nat.odd swaps then neg d else d)
  | k :: r =>
    let p := find_pivot n k lu in
    let lu1 := if p =? k then lu else exchange k p lu in
    let swaps1 := if p =? k then swaps else S swaps in
    let pivot := lu1 k k in
    if tiny (magnitude pivot) then Some zero
    else let? lu2 := eliminate k pivot (seq (S k) (n - S k)) lu1 in
         lu_loop n r lu2 swaps1 (mul d pivot)
  end.
(** L67-162 [DET_OP], L198-272 [DET_OP_EXOTIC]: one matrix *)
Definition det_matrix (n : nat) (a : nat -> nat -> T) : option T :=
  match n with
  | 1 => Some (a 0 0)
  | 2 => Some (sub (mul (a 0 0) (a 1 1)) (mul (a 0 1) (a 1 0)))
  | 3 => Some (add (sub (mul (a 0 0) (sub (mul (a 1 1) (a 2 2)) (mul (a 1 2) (a 2 1))))
                        (mul (a 0 1) (sub (mul (a 1 0) (a 2 2)) (mul (a 1 2) (a 2 0)))))
                   (mul (a 0 2) (sub (mul (a 1 0) (a 2 1)) (mul (a 1 1) (a 2 0)))))
  | _ => lu_loop n (seq 0 n) a 0 one
  end.

(** L431-435, L573-576: the pivot row divided by the pivot *)
Fixpoint scale_cols (k : nat) (pivot : T) (cols : list nat) (m : nat -> nat -> T) : option (nat -> nat -> T) :=
  match cols with
  | [] => Some m
  | j :: r => let? q := div (m k j) pivot in
              scale_cols k pivot r (fun a b => if (a =? k) && (b =? j) then q else m a b)
  end.
(** L438-445, L578-586 *)
Definition clear_row (k : nat) (m : nat -> nat -> T) (i : nat) : nat -> nat -> T :=
  if i =? k then m else let f := m i k in fun r c => if r =? i then sub (m r c) (mul f (m k c)) else m r c.
(** L404-446, L553-587 *)
Fixpoint gauss_jordan (n : nat) (ks : list nat) (aug : nat -> nat -> T) : option (nat -> nat -> T) :=
  match ks with
  | [] => Some aug
  | k :: r =>
    let p := find_pivot n k aug in
    let aug1 := if p =? k then aug else exchange k p aug in
    let? aug2 := scale_cols k (aug1 k k) (seq 0 (2 * n)) aug1 in
    gauss_jordan n r (fold_left (clear_row k) (seq 0 n) aug2)
  end.
(** L351-456 [INV_OP], L492-596 [INV_OP_EXOTIC]: one matrix; the entry at row i, column j *)
Definition inv_matrix (n : nat) (a : nat -> nat -> T) : option (nat -> nat -> T) :=
  let entries := fun l => fun i j => nth j (nth i l []) zero in
  match n with
  | 1 => let? q := div one (a 0 0) in Some (entries [[q]])
  | 2 =>
    let d := sub (mul (a 0 0) (a 1 1)) (mul (a 0 1) (a 1 0)) in
    let? q := div one d in
    Some (entries [[mul (a 1 1) q; mul (neg (a 0 1)) q]; [mul (neg (a 1 0)) q; mul (a 0 0) q]])
  | 3 =>
    let d := add (sub (mul (a 0 0) (sub (mul (a 1 1) (a 2 2)) (mul (a 1 2) (a 2 1))))
                      (mul (a 0 1) (sub (mul (a 1 0) (a 2 2)) (mul (a 1 2) (a 2 0)))))
                 (mul (a 0 2) (sub (mul (a 1 0) (a 2 1)) (mul (a 1 1) (a 2 0)))) in
    let? q := div one d in
    Some (entries
      [[mul (sub (mul (a 1 1) (a 2 2)) (mul (a 1 2) (a 2 1))) q;
        mul (sub (mul (a 0 2) (a 2 1)) (mul (a 0 1) (a 2 2))) q;
        mul (sub (mul (a 0 1) (a 1 2)) (mul (a 0 2) (a 1 1))) q];
       [mul (sub (mul (a 1 2) (a 2 0)) (mul (a 1 0) (a 2 2))) q;
        mul (sub (mul (a 0 0) (a 2 2)) (mul (a 0 2) (a 2 0))) q;
        mul (sub (mul (a 0 2) (a 1 0)) (mul (a 0 0) (a 1 2))) q];
       [mul (sub (mul (a 1 0) (a 2 1)) (mul (a 1 1) (a 2 0))) q;
        mul (sub (mul (a 0 1) (a 2 0)) (mul (a 0 0) (a 2 1))) q;
        mul (sub (mul (a 0 0) (a 1 1)) (mul (a 0 1) (a 1 0))) q]])
  | _ =>
    let aug := fun i j => if j <? n then a i j else if i =? j - n then one else zero in
    let? m := gauss_jordan n (seq 0 n) aug in Some (fun i j => m i (n + j))
  end.
(** L666-670 [TRACE_OP], L705-708 [TRACE_OP_EXOTIC] *)
Definition trace_matrix (n : nat) (a : nat -> nat -> T) : T := fold_left (fun s i => add s (a i i)) (seq 0 n) zero.

(** op_metadatas.rs L320-322, L374-375, L427-428: the number of matrices; the product 0 counts as 1 *)
Definition batch_count (batch : list nat) : nat := let b := fold_right Nat.mul 1 batch in if b =? 0 then 1 else b.
(** L54-65, L337-347, L653-664: where matrix [b] starts; the [%] of an empty axis is undefined *)
Definition batch_start (batch strides : list nat) (offset b : nat) : option nat :=
  let? x := c_coords (rev batch) b [] in Some (offset + fold_right Nat.add 0 (map (fun p => fst p * snd p) (combine x strides))).
(** L33-34 [DET_GET] for all entries of the matrix at [start] *)
Definition get_matrix (input : list T) (n rs cs start : nat) : option (nat -> nat -> T) :=
  if forallb (fun p => start + fst p * rs + snd p * cs <? length input) (list_prod (seq 0 n) (seq 0 n))
  then Some (fun i j => nth (start + i * rs + j * cs) input zero) else None.
Fixpoint map_opt {X Y} (f : X -> option Y) (l : list X) : option (list Y) :=
  match l with [] => Some [] | x :: r => let? y := f x in let? ys := map_opt f r in Some (y :: ys) end.
(** L43-53, L164-165, L327-349, L642-652, L672: the loop over the matrices; [one_matrix] computes the entries the
    kernel writes for a matrix, [size] of them, next to each other *)
Definition linalg_kernel (one_matrix : nat -> (nat -> nat -> T) -> option (list T)) (size : nat)
    (input : list T) (l : layout) (room : nat) : option (list T) :=
  let s := lshape l in
  let nd := length s in
  let n := nth (nd - 1) s 0 in
  let batch := firstn (nd - 2) s in
  let? rs := map_opt (fun b =>
      let? start := batch_start batch (lstrides l) (loffset l) b in
      let? a := get_matrix input n (nth (nd - 2) (lstrides l) 0) (nth (nd - 1) (lstrides l) 0) start in
      one_matrix n a) (seq 0 (batch_count batch)) in
  if room <? batch_count batch * size then None else Some (concat rs).

(** tensor/ops/linalg.rs L33-48, L120-135, L198-213: the checks *)
Definition square (s : list nat) : bool :=
  (2 <=? length s) && (nth (length s - 1) s 0 =? nth (length s - 2) s 0).
(** tensor/ops/linalg.rs L50-55, L215-220: [1] for a single matrix *)
Definition batch_shape (s : list nat) : list nat := if length s =? 2 then [1] else firstn (length s - 2) s.
(** tensor/ops/linalg.rs L23-91, be_cpu/storage/ops_linalg.rs L20-97 *)
Definition t_det (t : tensor T) : outcome (tensor T) :=
  let s := lshape (tlay t) in
  if negb (square s) then Err EInternal
  else do st <- ub (linalg_kernel (fun n a => let? d := det_matrix n a in Some [d]) 1 (tstore t) (tlay t) (shape_size (batch_shape s))) ;
       Ok (mkT st (from_shape (batch_shape s))).
(** tensor/ops/linalg.rs L110-173, be_cpu/storage/ops_linalg.rs L110-183 *)
Definition t_inv (t : tensor T) : outcome (tensor T) :=
  let s := lshape (tlay t) in
  if negb (square s) then Err EInternal
  else let n := nth (length s - 1) s 0 in
       do st <- ub (linalg_kernel (fun n a => let? b := inv_matrix n a in
                                              Some (map (fun p => b (fst p) (snd p)) (list_prod (seq 0 n) (seq 0 n))))
                                  (n * n) (tstore t) (tlay t) (shape_size s)) ;
       Ok (mkT st (from_shape s)).
(** tensor/ops/linalg.rs L188-256, be_cpu/storage/ops_linalg.rs L196-273 *)
Definition t_trace (t : tensor T) : outcome (tensor T) :=
  let s := lshape (tlay t) in
  if negb (square s) then Err EInternal
  else do st <- ub (linalg_kernel (fun n a => Some [trace_matrix n a]) 1 (tstore t) (tlay t) (shape_size (batch_shape s))) ;
       Ok (mkT st (from_shape (batch_shape s))).
End Kernels.
