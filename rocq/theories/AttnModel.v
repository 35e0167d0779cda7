(** Dropout and attention: crates/hodu_nn/src/modules/dropout.rs, attention.rs, with
    tensor/ops/selection.rs [where3], [masked_fill] and tensor/creation.rs on typed tensors.

    Simplifications: as in [NnModel] and [LayerModel] (exact arithmetic, eager, no gradient,
    parameters given).  The random numbers of a dropout are a parameter [u]: entry [k] of the
    storage of [rand_uniform_like].  The global state (state.rs) is the parameter [training]. *)
From Coq Require Import List Arith ZArith Bool Reals.
From Verif Require Import Base IndexSpec LayoutModel KernelModel TensorModel EncodeModel.
From Verif Require Import ReduceModel SelectModel MatrixModel NumModel NnModel LayerModel.
Import ListNotations.
Open Scope nat_scope.

Section Attn.
Variable e : env.
Variable blas : bool.
(** the dtype of an f64 literal as a [Scalar]: F64 with the feature "f64", else F32
    (scalar.rs [From<f64>]) *)
Variable sd : dtype.

(** tensor/ops/cmp.rs L12-60 [gt]: a BOOL tensor *)
Definition x_gt (a b : xtensor) : outcome xtensor :=
  if negb (same_dtype (xdtype a) (xdtype b)) then Err EDType
  else if negb (allowed NoBool (xdtype a)) then Err EDType
  else do t <- t_binary e (Fin 0) (Fin 0) (Fin 0) (fun v w => xbool (xltb w v)) (xdata a) (xdata b) ;
       Ok (mkX BOOL t).
(** cmp.rs L90-160 *)
Definition x_gt_scalar := x_cmp_scalar e NoBool (fun v w => xltb w v).
(** tensor/ops/cast_memory.rs L11-60 [to_dtype]; all the values converted here are 0 or 1 *)
Definition x_to_dtype (d : dtype) (a : xtensor) : outcome xtensor :=
  do t <- (if same_dtype d (xdtype a) then t_cast_same (Fin 0) (xdata a)
           else t_cast e (Fin 0) (fun v => v) (xdata a)) ;
  Ok (mkX d t).

(** selection.rs L8-19 *)
Definition x_where3 (self condition other : xtensor) : outcome xtensor :=
  do cxy <- broadcast_tensors3 (Fin 0) (Fin 0) (Fin 0) (xdata condition) (xdata self) (xdata other) ;
  let x := mkX (xdtype self) (snd (fst cxy)) in
  let y := mkX (xdtype other) (snd cxy) in
  do mask <- x_to_dtype (xdtype x) (mkX (xdtype condition) (fst (fst cxy))) ;
  do inv_mask <- x_sub e (x_full_like 1 mask) mask ;
  do x_part <- x_mul e mask x ;
  do y_part <- x_mul e inv_mask y ;
  x_add e x_part y_part.
(** selection.rs L21-25; the fill tensor has the dtype of the value, an f64 here *)
Definition x_masked_fill (self mask : xtensor) (v : xr) : outcome xtensor :=
  x_where3 self mask (mkX sd (t_full (xshape self) v)).

(** creation.rs L344-373 [rand_uniform_like(x, 0.0, 1.0)] *)
Definition x_random (u : nat -> R) (s : shape) : xtensor :=
  mkX sd (mkT (map (fun k => Fin (u k)) (seq 0 (shape_size s))) (from_shape s)).

(** dropout.rs L15-30 [Dropout::forward]; [p] is a [Scalar], the scale an f32 *)
Definition dropout (training : bool) (p : xscalar) (u : nat -> R) (input : xtensor) : outcome xtensor :=
  if negb training then Ok input
  else do m <- x_gt_scalar (x_random u (xshape input)) p ;
       do mask <- x_to_dtype (xdtype input) m ;
       do scaled_mask <- x_mul_scalar e mask (F32, xdiv (Fin 1) (xsub (Fin 1) (snd p))) ;
       x_mul e input scaled_mask.
(** attention.rs L95-101 [apply_dropout]; [p] and the scale are f64 *)
Definition attn_dropout (p : R) (u : nat -> R) (x : xtensor) : outcome xtensor :=
  do m <- x_gt_scalar (x_random u (xshape x)) (sd, Fin p) ;
  do mask <- x_to_dtype (xdtype x) m ;
  do scaled_mask <- x_mul_scalar e mask (sd, xdiv (Fin 1) (xsub (Fin 1) (Fin p))) ;
  x_mul e x scaled_mask.

(** creation.rs L199-251 [arange(0i32, n, 1i32)]: an error when empty *)
Definition x_arange (n : nat) : outcome xtensor :=
  if n =? 0 then Err EInternal
  else Ok (mkX I32 (mkT (map nat_x (seq 0 n)) (from_shape [n]))).
(** attention.rs L73-82 [create_causal_mask] *)
Definition causal_mask (q k : nat) : outcome xtensor :=
  do r <- x_arange q ;
  do row <- x_view (VReshape [q; 1]) r ;
  do c <- x_arange k ;
  do col <- x_view (VReshape [1; k]) c ;
  do row <- x_view (VBroadcast [q; k]) row ;
  do col <- x_view (VBroadcast [q; k]) col ;
  x_gt col row.
(** L85-93 [get_neg_inf] *)
Definition neg_inf (d : dtype) : xr :=
  match d with
  | F32 | F64 => NInf
  | F16 | BF16 => Fin (-65504)
  | _ => Fin (-1000000000)
  end.

(** L25-70 [scaled_dot_product_attention] *)
Definition attention (mask : option xtensor) (p : R) (training causal : bool) (u : nat -> R)
    (query key value : xtensor) : outcome xtensor :=
  let d_k := last (xshape query) 1 in
  do kt <- x_view (VTranspose (-2) (-1)) key ;
  do a0 <- x_matmul e blas query kt ;
  do a1 <- x_mul_scalar e a0 (sd, xdiv (Fin 1) (xsqrt (nat_x d_k))) ;
  do a2 <- (if causal
    then let s := xshape a1 in
         if length s <? 2 then Panic
         else do m <- causal_mask (nth (length s - 2) s 0) (nth (length s - 1) s 0) ;
              x_masked_fill a1 m (neg_inf (xdtype query))
    else Ok a1) ;
  do a3 <- (match mask with
    | Some m => do z <- x_eq_scalar e m (sd, Fin 0) ;
                x_masked_fill a2 z (neg_inf (xdtype query))
    | None => Ok a2
    end) ;
  do a4 <- x_softmax e a3 (-1) ;
  do a5 <- (if Rltb 0 p && training then attn_dropout p u a4 else Ok a4) ;
  x_matmul e blas a5 value.

(** L116-143 the parameters of [MultiheadAttention] *)
Record mha := mkMha {
  w_q : xtensor; w_k : xtensor; w_v : xtensor; w_o : xtensor;
  b_q : option xtensor; b_k : option xtensor; b_v : option xtensor; b_o : option xtensor }.
(** L297-308 [linear] *)
Definition mha_linear (x weight : xtensor) (bias : option xtensor) : outcome xtensor :=
  do wt <- x_view (VTranspose 0 1) weight ;
  do out <- x_matmul e blas x wt ;
  add_bias e out bias.
(** L263-271 *)
Definition split_heads (x : xtensor) (b t h hd : nat) : outcome xtensor :=
  do r <- x_view (VReshape [b; t; h; hd]) x ;
  x_view (VTranspose 1 2) r.
(** L245-285 [forward_qkv]; [heads] and [head_dim] are fields, [embed_dim] their product
    (L161-170) *)
Definition forward_qkv (w : mha) (heads head_dim : nat) (p : R) (training : bool) (u : nat -> R)
    (mask : option xtensor) (causal : bool) (query key value : xtensor) : outcome xtensor :=
  do batch <- idx_or_panic (xshape query) 0 ;
  do seq_len <- idx_or_panic (xshape query) 1 ;
  do src_len <- idx_or_panic (xshape key) 1 ;
  do q0 <- mha_linear query (w_q w) (b_q w) ;
  do k0 <- mha_linear key (w_k w) (b_k w) ;
  do v0 <- mha_linear value (w_v w) (b_v w) ;
  do q <- split_heads q0 batch seq_len heads head_dim ;
  do k <- split_heads k0 batch src_len heads head_dim ;
  do v <- split_heads v0 batch src_len heads head_dim ;
  do a <- attention mask p training causal u q k v ;
  do a1 <- x_view (VTranspose 1 2) a ;
  do a2 <- x_view (VReshape [batch; seq_len; heads * head_dim]) a1 ;
  mha_linear a2 (w_o w) (b_o w).
End Attn.
