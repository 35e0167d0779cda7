(** Layers of crates/hodu_nn/src/modules: linear.rs, rnn.rs, attention.rs, embedding.rs,
    dropout.rs.

    Simplifications: as in [NnModel] (exact arithmetic, eager, no gradient).  A layer is
    its parameters; how they are initialised is left out.  [blas] says whether the crate was
    built with BLAS, which then serves matrix products of F32 and F64 (MatrixModel). *)
From Coq Require Import List Arith ZArith Bool Reals.
From Verif Require Import Base IndexSpec LayoutModel KernelModel TensorModel EncodeModel.
From Verif Require Import ReduceModel SelectModel IndexModel MatrixModel MoveModel NumModel NnModel.
Import ListNotations.
Open Scope nat_scope.

(** ops_unary.c L700, L721, L648 and L1233 *)
Definition xsigmoid (a : xr) : xr := xdiv (Fin 1) (xadd (Fin 1) (xexp (xneg a))).
Definition xtanh (a : xr) : xr :=
  match a with Fin x => Fin (tanh x) | PInf => Fin 1 | NInf => Fin (-1) | Nan => Nan end.
Definition xrelu (a : xr) : xr := if xltb (Fin 0) a then a else Fin 0.

Section Layers.
Variable e : env.
Variable blas : bool.

Definition x_sigmoid := x_unary e Floats xsigmoid.
Definition x_tanh := x_unary e Floats xtanh.
Definition x_relu := x_unary e Signed xrelu.

(** tensor/ops/shape.rs *)
Definition x_view (o : view_op) (a : xtensor) : outcome xtensor :=
  do t <- t_view (Fin 0) o (xdata a) ; Ok (mkX (xdtype a) t).

(** the kernels of ops_matrix.c, or those of BLAS for F32 and F64 *)
Definition by_blas (d : dtype) : bool := blas && (same_dtype d F32 || same_dtype d F64).
Definition x_dotk (d : dtype) (l r : list xr) : list xr -> list nat -> option (list xr) :=
  if by_blas d then dot_blas (Fin 0) xadd xmul l r e else dot_kernel (Fin 0) xadd xmul l r e.
Definition x_matk (d : dtype) (l r : list xr) : list xr -> list nat -> option (list xr) :=
  if by_blas d then matmul_blas (Fin 0) xadd xmul l r e else matmul_kernel (Fin 0) xadd xmul l r e.
(** tensor/ops/matrix.rs L13-92 *)
Definition x_matmul (a b : xtensor) : outcome xtensor :=
  if negb (same_dtype (xdtype a) (xdtype b)) then Err EDType
  else if negb (allowed NoBool (xdtype a)) then Err EDType
  else do t <- t_matmul (Fin 0) xadd xmul (Fin 0) (x_dotk (xdtype a)) (x_matk (xdtype a)) e (xdata a) (xdata b) ;
       Ok (mkX (xdtype a) t).

Definition add_bias (a : xtensor) (b : option xtensor) : outcome xtensor :=
  match b with Some b => x_add e a b | None => Ok a end.

(** linear.rs L36-45 [Linear::forward]: [weight] is [out; in] *)
Definition linear (weight : xtensor) (bias : option xtensor) (x : xtensor) : outcome xtensor :=
  do wt <- x_view (VTranspose (-2) (-1)) weight ;
  do o <- x_matmul x wt ;
  add_bias o bias.

(** the parameters of a recurrent cell (rnn.rs L17-22, L314-320, L593-599) *)
Record cell := mkCell { w_ih : xtensor; w_hh : xtensor; b_ih : option xtensor; b_hh : option xtensor }.

(** rnn.rs L92-115 [RNNCell::forward_step] *)
Definition rnn_step (relu : bool) (c : cell) (x h : xtensor) : outcome xtensor :=
  do wt <- x_view (VTranspose (-2) (-1)) (w_ih c) ;
  do h0 <- x_matmul x wt ;
  do h1 <- add_bias h0 (b_ih c) ;
  do wt2 <- x_view (VTranspose (-2) (-1)) (w_hh c) ;
  do p <- x_matmul h wt2 ;
  do h2 <- x_add e h1 p ;
  do h3 <- add_bias h2 (b_hh c) ;
  if relu then x_relu h3 else x_tanh h3.

(** [slice(1, a, Some(b), 1)] *)
Definition cols (a b : nat) : view_op := VSlice 1 (Z.of_nat a) (Some (Z.of_nat b)) 1.

(** rnn.rs L379-406 [LSTMCell::forward_step] *)
Definition lstm_step (hs : nat) (cl : cell) (x h c : xtensor) : outcome (xtensor * xtensor) :=
  do wt <- x_view (VTranspose (-2) (-1)) (w_ih cl) ;
  do g0 <- x_matmul x wt ;
  do g1 <- add_bias g0 (b_ih cl) ;
  do wt2 <- x_view (VTranspose (-2) (-1)) (w_hh cl) ;
  do p <- x_matmul h wt2 ;
  do g2 <- x_add e g1 p ;
  do gates <- add_bias g2 (b_hh cl) ;
  do si <- x_view (cols 0 hs) gates ;
  do i <- x_sigmoid si ;
  do sf <- x_view (cols hs (2 * hs)) gates ;
  do f <- x_sigmoid sf ;
  do sg <- x_view (cols (2 * hs) (3 * hs)) gates ;
  do g <- x_tanh sg ;
  do so <- x_view (cols (3 * hs) (4 * hs)) gates ;
  do o <- x_sigmoid so ;
  do fc <- x_mul e f c ;
  do ig <- x_mul e i g ;
  do c_new <- x_add e fc ig ;
  do tc <- x_tanh c_new ;
  do h_new <- x_mul e o tc ;
  Ok (h_new, c_new).

(** rnn.rs L661-704 [GRUCell::forward_step] *)
Definition gru_step (hs : nat) (cl : cell) (x hidden : xtensor) : outcome xtensor :=
  do wt <- x_view (VTranspose (-2) (-1)) (w_ih cl) ;
  do i0 <- x_matmul x wt ;
  do gi <- add_bias i0 (b_ih cl) ;
  do wt2 <- x_view (VTranspose (-2) (-1)) (w_hh cl) ;
  do h0 <- x_matmul hidden wt2 ;
  do gh <- add_bias h0 (b_hh cl) ;
  do gi_r <- x_view (cols 0 hs) gi ;
  do gi_z <- x_view (cols hs (2 * hs)) gi ;
  do gi_n <- x_view (cols (2 * hs) (3 * hs)) gi ;
  do gh_r <- x_view (cols 0 hs) gh ;
  do gh_z <- x_view (cols hs (2 * hs)) gh ;
  do gh_n <- x_view (cols (2 * hs) (3 * hs)) gh ;
  do r0 <- x_add e gi_r gh_r ;
  do r <- x_sigmoid r0 ;
  do z0 <- x_add e gi_z gh_z ;
  do z <- x_sigmoid z0 ;
  do n0 <- x_mul e r gh_n ;
  do n1 <- x_add e gi_n n0 ;
  do n <- x_tanh n1 ;
  do nz <- x_neg e z ;
  do one_minus_z <- x_add_scalar e nz (xdtype hidden, Fin 1) ;
  do p <- x_mul e one_minus_z n ;
  do q <- x_mul e z hidden ;
  x_add e p q.

(* ---------- sequences ---------- *)

(** [index_select(0, [t]).squeeze([0])] *)
Definition x_row (a : xtensor) (t : nat) : outcome xtensor :=
  do s <- t_index_select (Fin 0) (Fin 0) (xdata a) 0 (mkT [Z.of_nat t] (from_shape [1])) ;
  x_view (VSqueeze [0%Z]) (mkX (xdtype a) s).
(** [collect] of results *)
Fixpoint seq_all {A} (l : list (outcome A)) : outcome (list A) :=
  match l with [] => Ok [] | x :: r => do a <- x ; do q <- seq_all r ; Ok (a :: q) end.
Definition x_stack (l : list xtensor) : outcome xtensor :=
  match l with
  | [] => Err EInternal
  | x :: _ =>
    if forallb (fun y => same_dtype (xdtype x) (xdtype y)) l
    then do t <- t_stack (Fin 0) (map xdata l) 0 ; Ok (mkX (xdtype x) t)
    else Err EDType
  end.

Section Sequence.
Context {S : Type}.
(** a step of each layer from its input and state, and the output part of a state *)
Variables (steps : list (xtensor -> S -> outcome S)) (out : S -> xtensor).
(** rnn.rs L258-264, L525-532, L816-821: one time step through the layers *)
Fixpoint through (steps : list (xtensor -> S -> outcome S)) (x : xtensor) (st : list S) : outcome (list S * xtensor) :=
  match steps, st with
  | [], _ => Ok ([], x)
  | f :: fs, s :: ss => do s' <- f x s ; do r <- through fs (out s') ss ; Ok (s' :: fst r, snd r)
  | _ :: _, [] => Panic
  end.
(** L252-267, L517-536, L808-824: the loop over time *)
Fixpoint unroll (x : xtensor) (ts : list nat) (st : list S) : outcome (list S * list xtensor) :=
  match ts with
  | [] => Ok (st, [])
  | t :: ts => do x_t <- x_row x t ; do r <- through steps x_t st ;
               do q <- unroll x ts (fst r) ; Ok (fst q, snd r :: snd q)
  end.
(** the output of the last layer at every time, and the last states; [input] is [seq; batch;
    features], or [batch; seq; features] if [batch_first] (L206-220, L252-284) *)
Definition forward_seq (batch_first : bool) (st0 : nat -> outcome (list S)) (input : xtensor)
    : outcome (xtensor * list S) :=
  do seq_len <- idx_or_panic (xshape input) (if batch_first then 1 else 0) ;
  do batch <- idx_or_panic (xshape input) (if batch_first then 0 else 1) ;
  do x <- (if batch_first then x_view (VTranspose 0 1) input else Ok input) ;
  do st <- st0 batch ;
  do q <- unroll x (seq 0 seq_len) st ;
  do output <- x_stack (snd q) ;
  do output <- (if batch_first then x_view (VTranspose 0 1) output else Ok output) ;
  Ok (output, fst q).
End Sequence.

(** rnn.rs L222-238: rows of the given initial state, or zeros *)
Definition init_states (layers hs : nat) (d : dtype) (h0 : option xtensor) (batch : nat) : outcome (list xtensor) :=
  match h0 with
  | Some h => seq_all (map (x_row h) (seq 0 layers))
  | None => Ok (repeat (mkX d (mkT (repeat (Fin 0) (batch * hs)) (from_shape [batch; hs]))) layers)
  end.
(** rnn.rs L206-285 [RNN::forward_with_state] *)
Definition rnn_forward (relu : bool) (cells : list cell) (hs : nat) (batch_first : bool) (input : xtensor)
    (h0 : option xtensor) : outcome (xtensor * xtensor) :=
  do r <- forward_seq (map (rnn_step relu) cells) (fun s => s) batch_first
            (init_states (length cells) hs (xdtype input) h0) input ;
  do h_n <- x_stack (snd r) ;
  Ok (fst r, h_n).
(** L744-847 [GRU::forward_with_state] *)
Definition gru_forward (cells : list cell) (hs : nat) (batch_first : bool) (input : xtensor)
    (h0 : option xtensor) : outcome (xtensor * xtensor) :=
  do r <- forward_seq (map (gru_step hs) cells) (fun s => s) batch_first
            (init_states (length cells) hs (xdtype input) h0) input ;
  do h_n <- x_stack (snd r) ;
  Ok (fst r, h_n).
(** L480-583 [LSTM::forward_with_state]: a state is the pair of hidden and cell state *)
Definition lstm_forward (cells : list cell) (hs : nat) (batch_first : bool) (input : xtensor)
    (h0 c0 : option xtensor) : outcome (xtensor * xtensor * xtensor) :=
  do r <- forward_seq (map (fun c x (s : xtensor * xtensor) => lstm_step hs c x (fst s) (snd s)) cells) fst batch_first
            (fun batch => do h <- init_states (length cells) hs (xdtype input) h0 batch ;
                          do c <- init_states (length cells) hs (xdtype input) c0 batch ;
                          Ok (combine h c)) input ;
  do h_n <- x_stack (map fst (snd r)) ;
  do c_n <- x_stack (map snd (snd r)) ;
  Ok (fst r, h_n, c_n).
End Layers.
