(** Matrix products: kernels/ops_matrix.c, ops_matrix_openblas.c,
    be_cpu/storage/ops_matrix.rs and tensor/ops/matrix.rs.

    Simplifications: element type, zero, addition and multiplication are
    parameters (the EXOTIC macros, ops_matrix.c:197-338 and L551-695, have the
    same loops with ADD_FN/MUL_FN); [size_t] arithmetic does not wrap; the BLAS
    library is represented by its documented result, with the inner sum taken in
    increasing k; dtype and device validation left out. *)
From Coq Require Import List Arith ZArith Bool.
From Verif Require Import Base IndexSpec LayoutModel KernelModel TensorModel ReduceModel ScanModel.
Import ListNotations.

(** [for (x = start; x < stop; x += step)] *)
Definition steps (start stop step : nat) : list nat :=
  map (fun t => start + t * step) (seq 0 ((stop - start + (step - 1)) / step)).
(** [for (x = start; x < stop; x++)] *)
Definition range (start stop : nat) : list nat := seq start (stop - start).

(** thread_utils.h:47-56 with the clamp of ops_matrix.c:105-106; the rows of
    worker [t] are L112-115, the last one taking the remainder; a worker writes
    the cells of its rows in order *)
Definition mat_threads (e : env) (M : nat) : nat := Nat.min (get_optimal_threads e M) 32.
Definition row_chunks (M N k : nat) : list (nat * nat) :=
  map (fun p => (fst p * N, snd p * N)) (bw_chunks M k).
Definition mat_env_ok (e : env) : Prop :=
  0 < min_work e /\ forall M N, joined (sched e (M * N)) (row_chunks M N (mat_threads e M)).

Section Kernels.
Context {A : Type}.
Variables (zero : A) (add mul : A -> A -> A).

Section Bufs.
Variables (lhs rhs : list A).

(** the innermost sum, e.g. ops_matrix.c:60-63; [la k] and [rb k] are the
    addresses read *)
Definition dot_cell (K : nat) (la rb : nat -> nat) : option A :=
  loopO (fun k acc => let? a := nth_error lhs (la k) in
                      let? b := nth_error rhs (rb k) in Some (add acc (mul a b))) (seq 0 K) zero.

(** ops_matrix.c:56-68 and 124-134: cell [p] of the contiguous product *)
Definition plain_cell (K N : nat) (p : nat) : option A :=
  dot_cell K (fun k => p / N * K + k) (fun k => k * N + p mod N).
Definition rows_threaded (e : env) (M K N : nat) (out : list A) : option (list A) :=
  run_sched (plain_cell K N) (sched e (M * N)) (row_chunks M N (mat_threads e M)) out.

(** ops_matrix.c:70-194 [MATMUL_OP] *)
Definition matmul_kernel (e : env) (out : list A) (md : list nat) : option (list A) :=
  let? num_els := nth_error md 0 in
  let? ln := nth_error md 1 in
  let? rn := nth_error md 2 in
  let? bn := nth_error md 3 in
  let? lsh := md_slice md 4 ln in
  let? rsh := md_slice md (4 + ln) rn in
  let? bsh := md_slice md (4 + ln + rn) bn in
  let? lst := md_slice md (4 + ln + rn + bn) ln in
  let? rst := md_slice md (4 + ln + rn + bn + ln) rn in
  let b := 4 + ln + rn + bn + ln + rn in
  let? lo := nth_error md b in
  let? ro := nth_error md (b + 1) in
  let? M := nth_error md (b + 2) in
  let? K := nth_error md (b + 3) in
  let? N := nth_error md (b + 4) in
  let? l1 := nth_error lst (ln - 1) in
  let? r1 := nth_error rst (rn - 1) in
  let? l2 := nth_error lst (ln - 2) in
  let? r2 := nth_error rst (rn - 2) in
  let contig := (l1 =? 1) && (r1 =? 1) && (l2 =? K) && (r2 =? N) && (lo =? 0) && (ro =? 0) in
  if contig && (bn =? 0) then
    if 1 <? mat_threads e M then rows_threaded e M K N out
    else seq_for (M * N) (plain_cell K N) out
  else
    seq_for num_els (fun idx =>
      let mn := idx mod (M * N) in
      let i := mn / N in
      let j := mn mod N in
      if (16 <? bn) then None
      else
        let? bi := c_unravel (idx / (M * N)) bsh in
        let batch sh nd := map (fun d => if nth d sh 0 =? 1 then 0 else nth (bn - (nd - 2) + d) bi 0) (seq 0 (nd - 2)) in
        dot_cell K (fun k => flat_index lo (batch lsh ln) lst + i * l2 + k * l1)
                   (fun k => flat_index ro (batch rsh rn) rst + k * r2 + j * r1)) out.

(** one register block, ops_matrix.c:501-526; [acc] is [TYPE acc[4][4]] *)
Definition reg_block (K N kk k_end i i_end j j_end : nat) (out : list A) : option (list A) :=
  let? acc := loopO (fun ir acc => loopO (fun jr acc =>
      let? v := nth_error out ((i + ir) * N + (j + jr)) in c_store acc (ir * 4 + jr) v)
      (seq 0 (j_end - j)) acc) (seq 0 (i_end - i)) (repeat zero 16) in
  let? acc := loopO (fun k acc => loopO (fun ir acc =>
      let? a := nth_error lhs ((i + ir) * K + k) in
      loopO (fun jr acc =>
        let? b := nth_error rhs (k * N + (j + jr)) in
        let? o := nth_error acc (ir * 4 + jr) in
        c_store acc (ir * 4 + jr) (add o (mul a b)))
      (seq 0 (j_end - j)) acc) (seq 0 (i_end - i)) acc) (range kk k_end) acc in
  loopO (fun ir out => loopO (fun jr out =>
      let? v := nth_error acc (ir * 4 + jr) in c_store out ((i + ir) * N + (j + jr)) v)
      (seq 0 (j_end - j)) out) (seq 0 (i_end - i)) out.

(** the loops over blocks, ops_matrix.c:488-493 and L531-536 *)
Definition blocked (M K N : nat) (body : nat -> nat -> nat -> nat -> nat -> nat -> list A -> option (list A))
    (out : list A) : option (list A) :=
  loopO (fun ii out => loopO (fun kk out => loopO (fun jj out =>
      body ii (Nat.min (ii + 32) M) kk (Nat.min (kk + 256) K) jj (Nat.min (jj + 32) N) out)
    (steps 0 N 32) out) (steps 0 K 256) out) (steps 0 M 32) out.

(** ops_matrix.c:494-527 *)
Definition reg_body (K N : nat) (ii i_end kk k_end jj j_end : nat) (out : list A) : option (list A) :=
  loopO (fun i out => loopO (fun j out =>
      reg_block K N kk k_end i (Nat.min (i + 4) i_end) j (Nat.min (j + 4) j_end) out)
    (steps jj j_end 4) out) (steps ii i_end 4) out.

(** ops_matrix.c:537-546 *)
Definition strided_body (N lo lsm lsk ro rsk rsn : nat) (ii i_end kk k_end jj j_end : nat) (out : list A)
    : option (list A) :=
  loopO (fun i out => loopO (fun k out =>
      let? a := nth_error lhs (lo + i * lsm + k * lsk) in
      loopO (fun j out =>
        let? b := nth_error rhs (ro + k * rsk + j * rsn) in
        let? o := nth_error out (i * N + j) in
        c_store out (i * N + j) (add o (mul a b)))
      (range jj j_end) out) (range kk k_end) out) (range ii i_end) out.

(** ops_matrix.c:418-550 [DOT_OP] *)
Definition dot_kernel (e : env) (out : list A) (md : list nat) : option (list A) :=
  let? M := nth_error md 0 in
  let? K := nth_error md 1 in
  let? N := nth_error md 2 in
  let? lsm := nth_error md 3 in
  let? lsk := nth_error md 4 in
  let? rsk := nth_error md 5 in
  let? rsn := nth_error md 6 in
  let? lo := nth_error md 7 in
  let? ro := nth_error md 8 in
  let? out := seq_for (M * N) (fun _ => Some zero) out in
  let contig := (lsk =? 1) && (rsn =? 1) && (lsm =? K) && (rsk =? N) in
  if contig && (lo =? 0) && (ro =? 0) then
    if 1 <? mat_threads e M then rows_threaded e M K N out
    else blocked M K N (reg_body K N) out
  else blocked M K N (strided_body N lo lsm lsk ro rsk rsn) out.

(** cblas_?gemm(CblasRowMajor, ta, tb, M, N, K, 1, lhs+ao, lda, rhs+bo, ldb, 0,
    out+co, N): nothing to do for an empty result; [None] when the library
    rejects a leading dimension (it then computes nothing) *)
Definition gemm (ta tb : bool) (M N K ao lda bo ldb co : nat) (out : list A) : option (list A) :=
  if M * N =? 0 then Some out
  else if (lda <? Nat.max 1 (if ta then M else K)) || (ldb <? Nat.max 1 (if tb then K else N)) then None
  else loopO (fun p out =>
         let i := p / N in
         let j := p mod N in
         let? v := dot_cell K (fun k => ao + (if ta then k * lda + i else i * lda + k))
                              (fun k => bo + (if tb then j * ldb + k else k * ldb + j)) in
         c_store out (co + p) v) (seq 0 (M * N)) out.

(** ops_matrix_openblas.c:306-329 (the same in the macOS file): transposition
    flags and leading dimensions from the two strides of a matrix.  [None]: no
    stride is 1. *)
Definition blas_form (rows cols srow scol : nat) : option (bool * nat) :=
  if scol =? 1 then Some (false, if srow <? cols then cols else srow)
  else if srow =? 1 then Some (true, if scol <? rows then rows else scol)
  else None.

(** ops_matrix_openblas.c:285-337 [hodu_cpu_dot_f32] (f64: L340-391) *)
Definition dot_blas (e : env) (out : list A) (md : list nat) : option (list A) :=
  let? M := nth_error md 0 in
  let? K := nth_error md 1 in
  let? N := nth_error md 2 in
  let? lsm := nth_error md 3 in
  let? lsk := nth_error md 4 in
  let? rsk := nth_error md 5 in
  let? rsn := nth_error md 6 in
  let? lo := nth_error md 7 in
  let? ro := nth_error md 8 in
  match blas_form M K lsm lsk, blas_form K N rsk rsn with
  | Some (ta, lda), Some (tb, ldb) => gemm ta tb M N K lo lda ro ldb 0 out
  | _, _ => dot_kernel e out md
  end.

(** ops_matrix_openblas.c:118-133: the offset of one batch, from the last batch
    axis to the first; the axis of the operand read for batch axis [i - 1] is
    [ndim - 2 - i] *)
Fixpoint blas_batch (bsh sh st : list nat) (nd i idx : nat) : option nat :=
  match i with
  | 0 => Some 0
  | S i' =>
    let? d := nth_error bsh i' in
    if (d =? 0) || (nd <? 2 + i) then None
    else
      let? n := nth_error sh (nd - 2 - i) in
      let? s := nth_error st (nd - 2 - i) in
      let? r := blas_batch bsh sh st nd i' (idx / d) in
      Some ((if n =? 1 then 0 else idx mod d) * s + r)
  end.

(** ops_matrix_openblas.c:19-152 [hodu_cpu_matmul_f32] (f64: L155-283) *)
Definition matmul_blas (e : env) (out : list A) (md : list nat) : option (list A) :=
  let? ln := nth_error md 1 in
  let? rn := nth_error md 2 in
  let? bn := nth_error md 3 in
  let? lsh := md_slice md 4 ln in
  let? rsh := md_slice md (4 + ln) rn in
  let? bsh := md_slice md (4 + ln + rn) bn in
  let? lst := md_slice md (4 + ln + rn + bn) ln in
  let? rst := md_slice md (4 + ln + rn + bn + ln) rn in
  let b := 4 + ln + rn + bn + ln + rn in
  let? lo := nth_error md b in
  let? ro := nth_error md (b + 1) in
  let? M := nth_error md (b + 2) in
  let? K := nth_error md (b + 3) in
  let? N := nth_error md (b + 4) in
  let? l1 := nth_error lst (ln - 1) in
  let? r1 := nth_error rst (rn - 1) in
  let? l2 := nth_error lst (ln - 2) in
  let? r2 := nth_error rst (rn - 2) in
  match blas_form M K l2 l1, blas_form K N r2 r1 with
  | Some (ta, lda), Some (tb, ldb) =>
    if bn =? 0 then gemm ta tb M N K lo lda ro ldb 0 out
    else loopO (fun batch out =>
           let? bl := blas_batch bsh lsh lst ln bn batch in
           let? br := blas_batch bsh rsh rst rn bn batch in
           gemm ta tb M N K (lo + bl) lda (ro + br) ldb (batch * (M * N)) out) (seq 0 (shape_size bsh)) out
  | _, _ => matmul_kernel e out md
  end.
End Bufs.
End Kernels.

(** op_metadatas.rs:464-506 [dot_metadata]; both operands have rank 2 and equal
    inner sizes *)
Definition dot_metadata (l r : layout) : list nat :=
  [nth 0 (lshape l) 0; nth 1 (lshape l) 0; nth 1 (lshape r) 0;
   nth 0 (lstrides l) 0; nth 1 (lstrides l) 0; nth 0 (lstrides r) 0; nth 1 (lstrides r) 0;
   loffset l; loffset r].

(** op_metadatas.rs:222-244 (the same in ops_matrix.rs:67-95): the common batch
    shape, from the right; [None] is the mismatch error *)
Definition batch_of (s : shape) : shape := firstn (length s - 2) s.
Definition mat_batch (a b : shape) : option shape := bt2_dims (batch_of a) (batch_of b).

(** op_metadatas.rs:192-288 [matmul_metadata], the checks having succeeded *)
Definition matmul_metadata (l r : layout) (bsh : shape) (M K N : nat) : list nat :=
  [shape_size (bsh ++ [M; N]); length (lshape l); length (lshape r); length bsh]
  ++ lshape l ++ lshape r ++ bsh ++ lstrides l ++ lstrides r ++ [loffset l; loffset r; M; K; N].

Section Ops.
Context {A : Type}.
Variables (zero : A) (add mul : A -> A -> A) (z : A).
(** the kernels selected by the dtype *)
Variables (dotk matk : list A -> list A -> list A -> list nat -> option (list A)).

(** tensor/ops/matrix.rs:289-354 [dot_2d], eager branch, with
    be_cpu/storage/ops_matrix.rs:206-260 [call_ops_dot] *)
Definition t_dot_2d (a b : tensor A) : outcome (tensor A) :=
  let sa := lshape (tlay a) in
  let sb := lshape (tlay b) in
  if negb ((length sa =? 2) && (length sb =? 2)) then Panic
  else if negb (nth 1 sa 0 =? nth 0 sb 0) then Err EShape
  else
    let s := [nth 0 sa 0; nth 1 sb 0] in
    do st <- ub (dotk (tstore a) (tstore b) (repeat z (shape_size s)) (dot_metadata (tlay a) (tlay b))) ;
    Ok (mkT st (from_shape s)).

(** tensor/ops/matrix.rs:95-213 [matmul_batched], eager branch, with
    be_cpu/storage/ops_matrix.rs:25-189 [call_ops_matmul] *)
Definition t_matmul_batched (a b : tensor A) : outcome (tensor A) :=
  let sa := lshape (tlay a) in
  let sb := lshape (tlay b) in
  if (length sa <? 2) || (length sb <? 2) then Err EShape
  else
    let M := nth (length sa - 2) sa 0 in
    let K := nth (length sa - 1) sa 0 in
    let K' := nth (length sb - 2) sb 0 in
    let N := nth (length sb - 1) sb 0 in
    if negb (K =? K') then Err EShape
    else
      match mat_batch sa sb with
      | None => Err EShape
      | Some bsh =>
        do a' <- t_broadcast z a (bsh ++ [M; K]) ;
        do b' <- t_broadcast z b (bsh ++ [K'; N]) ;
        match mat_batch (lshape (tlay a')) (lshape (tlay b')) with
        | None => Err EShape
        | Some bsh' =>
          do st <- ub (matk (tstore a') (tstore b') (repeat z (shape_size (bsh' ++ [M; N])))
                         (matmul_metadata (tlay a') (tlay b') bsh' M K N)) ;
          Ok (mkT st (from_shape (bsh ++ [M; N])))
        end
      end.

(** tensor/ops/reduce.rs [sum_all] is [sum] over all axes without keep_dim *)
Definition t_sum_all (t : tensor A) : outcome (tensor A) :=
  t_reduce zero (plain add) (fun _ b => b) z t [] false.

(** tensor/ops/matrix.rs:13-92 [Tensor::matmul] *)
Definition t_matmul (e : env) (a b : tensor A) : outcome (tensor A) :=
  match lshape (tlay a), lshape (tlay b) with
  | [], _ | _, [] => Err EShape
  | [n1], [n2] =>
    if negb (n1 =? n2) then Err EShape
    else do m <- t_binary e z z z mul a b ; t_sum_all m
  | [_; k1], [k2] =>
    if negb (k1 =? k2) then Err EShape
    else do b' <- t_view z (VReshape [k2; 1]) b ;
         do r <- t_dot_2d a b' ;
         t_view z (VSqueeze [(-1)%Z]) r
  | [k1], [k2; _] =>
    if negb (k1 =? k2) then Err EShape
    else do a' <- t_view z (VReshape [1; k1]) a ;
         do r <- t_dot_2d a' b ;
         t_view z (VSqueeze [0%Z]) r
  | [_; _], [_; _] => t_dot_2d a b
  | _, _ => t_matmul_batched a b
  end.
End Ops.
