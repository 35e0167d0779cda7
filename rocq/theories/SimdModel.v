(** The vectorised loops of the f32 and f64 kernels: kernels/simd_utils.h, ops_unary.c L450-700 and L813-1070,
    ops_binary.c L322-388 and L424-488, ops_reduce.c L132-357, L360-575, L584-799, L1216-1437, L1691-1900.
    They are what runs on x86-64 and AArch64 unless built with HODU_DISABLE_SIMD (build.rs L57-60).

    A vector is a list of [w] lanes (SIMD_F32_WIDTH, SIMD_F64_WIDTH).  The lane operation is a parameter next to
    the scalar one.  The two accumulators of var are a vector of pairs.
    Not modelled: division on ARM, which is an approximation (simd_utils.h L210-215). *)
From Coq Require Import List Arith Bool.
From Verif Require Import Base LayoutModel KernelModel TensorModel ReduceModel.
Import ListNotations.
Open Scope nat_scope.

(** [simd_load]: reads [w] elements from [p] on *)
Definition v_load {A} (w : nat) (input : list A) (p : nat) : option (list A) :=
  if p + w <=? length input then Some (firstn w (skipn p input)) else None.
(** [simd_store] *)
Definition v_store {B} (out : list B) (p : nat) (v : list B) : option (list B) :=
  if p + length v <=? length out then Some (firstn p out ++ v ++ skipn (p + length v) out) else None.
(** [for (i = start; i < start + blocks * w; i += w) store(&out[i], g(i))] *)
Fixpoint v_for {B} (w start blocks : nat) (g : nat -> option (list B)) (out : list B) : option (list B) :=
  match blocks with
  | 0 => Some out
  | S b => let? v := g start in let? out' := v_store out start v in v_for w (start + w) b g out'
  end.
Fixpoint lanes2 {A C B} (f : A -> C -> B) (x : list A) (y : list C) : list B :=
  match x, y with a :: x', b :: y' => f a b :: lanes2 f x' y' | _, _ => [] end.

(** ops_unary.c L450-494 (neg); abs, square, sqrt and relu, f32 and f64, have the same body.
    [in] is never NULL. *)
Definition simd_unary_kernel {A B} (w : nat) (lane f : A -> B) (input : list A) (out : list B) (md : list nat) : option (list B) :=
  let? n := nth_error md 0 in
  let? nd := nth_error md 1 in
  let? dims := md_slice md 2 nd in
  let? strides := md_slice md (2 + nd) nd in
  let? off := (if 0 <? nd then nth_error md (2 + 2 * nd) else Some 0) in
  let contiguous := c_is_contiguous dims strides in
  if contiguous && (off =? 0) then
    let simd_end := n / w * w in
    let? out' := v_for w 0 (n / w) (fun i => let? v := v_load w input i in Some (map lane v)) out in
    seq_for_from simd_end (n - simd_end) (fun i => let? x := nth_error input i in Some (f x)) out'
  else if contiguous then seq_for n (fun i => let? x := nth_error input (off + i) in Some (f x)) out
  else seq_for n (fun i => let? p := c_strided i dims strides in let? x := nth_error input (off + p) in Some (f x)) out.

(** ops_binary.c L322-388 *)
Definition simd_binary_kernel {A C B} (w : nat) (lane f : A -> C -> B) (lhs : list A) (rhs : list C) (out : list B) (md : list nat)
    : option (list B) :=
  let? n := nth_error md 0 in
  let? nd := nth_error md 1 in
  let? lsh := md_slice md 2 nd in
  let? rsh := md_slice md (2 + nd) nd in
  let? lst := md_slice md (2 + 2 * nd) nd in
  let? rst := md_slice md (2 + 3 * nd) nd in
  let? lo := nth_error md (2 + 4 * nd) in
  let? ro := nth_error md (2 + 4 * nd + 1) in
  let lc := c_is_contiguous lsh lst in
  let rc := c_is_contiguous rsh rst in
  if lc && rc then
    let simd_end := n / w * w in
    let? out' := v_for w 0 (n / w) (fun i => let? a := v_load w lhs (lo + i) in let? b := v_load w rhs (ro + i) in Some (lanes2 lane a b)) out in
    seq_for_from simd_end (n - simd_end) (fun i => let? x := nth_error lhs (lo + i) in let? y := nth_error rhs (ro + i) in Some (f x y)) out'
  else if lc then
    seq_for n (fun i => let? rp := c_strided i rsh rst in
                        let? x := nth_error lhs (lo + i) in let? y := nth_error rhs (ro + rp) in Some (f x y)) out
  else if rc then
    seq_for n (fun i => let? lp := c_strided i lsh lst in
                        let? x := nth_error lhs (lo + lp) in let? y := nth_error rhs (ro + i) in Some (f x y)) out
  else
    seq_for n (fun i => let? lp := c_strided i lsh lst in let? rp := c_strided i rsh rst in
                        let? x := nth_error lhs (lo + lp) in let? y := nth_error rhs (ro + rp) in Some (f x y)) out.

(** ** Horizontal reductions, simd_utils.h.  [op] is add, max or min *)
Section Horizontal.
Context {B : Type}.
Variable op : B -> B -> B.
(** [_mm_shuffle_ps(v, v, _MM_SHUFFLE(2, 3, 0, 1))] and [_mm_shuffle_pd(v, v, 1)] *)
Definition shuffle_ps (v : list B) : list B := match v with [a; b; c; d] => [b; a; d; c] | _ => v end.
Definition shuffle_pd (v : list B) : list B := match v with [a; b] => [b; a] | _ => v end.
(** [_mm_movehl_ps(a, b)]: the high half of [b], then the high half of [a] *)
Definition movehl (a b : list B) : list B := match a, b with [_; _; a2; a3], [_; _; b2; b3] => [b2; b3; a2; a3] | _, _ => a end.
(** [_mm_add_ss], [_mm_max_sd], ..: the lowest lane only *)
Definition op_ss (a b : list B) : list B := match a, b with x :: a', y :: _ => op x y :: a' | _, _ => a end.
(** simd_utils.h L156-162 (add), L169-175 (max), L178-184 (min); [init] stands for the impossible empty vector *)
Definition h_sse_f32 (init : B) (v : list B) : B :=
  let shuf := shuffle_ps v in
  let sums := lanes2 op v shuf in
  let shuf := movehl shuf sums in
  hd init (op_ss sums shuf).
(** L82-91, L98-107, L110-119 *)
Definition h_avx_f32 (init : B) (v : list B) : B := h_sse_f32 init (lanes2 op (firstn 4 v) (skipn 4 v)).
(** L351-355 and the same for max and min *)
Definition h_sse_f64 (init : B) (v : list B) : B := hd init (op_ss v (shuffle_pd v)).
(** L283-290 and the same for max and min *)
Definition h_avx_f64 (init : B) (v : list B) : B := h_sse_f64 init (lanes2 op (firstn 2 v) (skipn 2 v)).
(** ARM [vaddvq_f32], [vmaxvq_f32], ..: pairwise *)
Definition h_neon_f32 (init : B) (v : list B) : B := match v with [a; b; c; d] => op (op a b) (op c d) | _ => init end.
Definition h_neon_f64 (init : B) (v : list B) : B := match v with [a; b] => op a b | _ => init end.
End Horizontal.

(** ** Reductions.  [vstep] accumulates in a lane, [step] in the scalar loops *)
Section Reduce.
Context {A B C : Type}.
Variables (w : nat) (horizontal : list B -> B) (init : B) (vstep step : B -> A -> B) (fin : nat -> B -> C).
(** ops_reduce.c L203-206: blocks of [w] *)
Fixpoint v_blocks (input : list A) (p blocks : nat) (vacc : list B) : option (list B) :=
  match blocks with
  | 0 => Some vacc
  | S b => let? v := v_load w input p in v_blocks input (p + w) b (lanes2 vstep vacc v)
  end.
(** L210-212 *)
Fixpoint v_rest (input : list A) (p n : nat) (acc : B) : option B :=
  match n with
  | 0 => Some acc
  | S n' => let? x := nth_error input p in v_rest input (S p) n' (step acc x)
  end.
(** L191-192 *)
Definition use_simd (num_dims reduce_size : nat) (strides reduce_dims : list nat) : bool :=
  match reduce_dims with
  | [r] => (r + 1 =? num_dims) && (match nth_error strides r with Some s => s =? 1 | None => false end) && (w <=? reduce_size)
  | _ => false
  end.
(** L133-237 *)
Definition simd_reduce_kernel (input : list A) (out : list C) (md : list nat) : option (list C) :=
  let? num_dims := nth_error md 0 in
  let? dims := md_slice md 1 num_dims in
  let? strides := md_slice md (1 + num_dims) num_dims in
  let? offset := nth_error md (1 + 2 * num_dims) in
  let? out_len := nth_error md (2 + 2 * num_dims) in
  let? out_shape := md_slice md (3 + 2 * num_dims) out_len in
  let? num_red := nth_error md (3 + 2 * num_dims + out_len) in
  let? reduce_dims := md_slice md (4 + 2 * num_dims + out_len) num_red in
  let? keep_dim_val := nth_error md (4 + 2 * num_dims + out_len + num_red) in
  let? reduce_size := nth_error md (5 + 2 * num_dims + out_len + num_red) in
  seq_for (shape_size out_shape) (fun output_idx =>
    if (16 <? num_dims) || (16 <? out_len) then None
    else
      let? output_indices := c_unravel output_idx out_shape in
      let? input_indices :=
        (if negb (keep_dim_val =? 0)
         then md_slice output_indices 0 num_dims
         else Some (spread reduce_dims 0 num_dims output_indices)) in
      let? acc :=
        (if use_simd num_dims reduce_size strides reduce_dims then
           let flat_base := flat_index offset (firstn (num_dims - 1) input_indices) (firstn (num_dims - 1) strides) in
           let simd_end := reduce_size / w * w in
           let? vacc := v_blocks input flat_base (reduce_size / w) (repeat init w) in
           v_rest input (flat_base + simd_end) (reduce_size - simd_end) (horizontal vacc)
         else reduce_loop (fun _ _ b v => Some (step b v)) input dims strides offset reduce_dims (seq 0 reduce_size) input_indices init) in
      Some (fin reduce_size acc)) out.
End Reduce.
