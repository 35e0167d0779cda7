(** What the layers should compute, on the real numbers. *)
From Coq Require Import List Arith ZArith Reals.
From Verif Require Import Base IndexSpec LayoutModel KernelModel EncodeModel TensorModel TensorSpec DenSpec NumModel NnModel NnSpec.
From Verif Require Import MatrixProofs3 LayerModel.
Import ListNotations.
Open Scope nat_scope.

(** If products of this dtype go to BLAS, then the matrix is laid out so that the leading
    dimension passed to BLAS describes it (C36). *)
Definition fit (blas : bool) (x : xtensor) : Prop :=
  by_blas blas (xdtype x) = true ->
  blas_ok (nth 0 (xshape x) 0) (nth 1 (xshape x) 0)
          (nth 0 (lstrides (tlay (xdata x))) 0) (nth 1 (lstrides (tlay (xdata x))) 0).

(** A matrix and a vector of real numbers. *)
Definition xmat (x : xtensor) (d : dtype) (m n : nat) (A : nat -> nat -> R) : Prop :=
  xden x d [m; n] (fun i => Fin (A (nth 0 i 0) (nth 1 i 0))).
Definition xvec (x : xtensor) (d : dtype) (n : nat) (v : nat -> R) : Prop :=
  xden x d [n] (fun i => Fin (v (nth 0 i 0))).
(** An optional bias; a missing one counts as 0. *)
Definition xbias (b : option xtensor) (d : dtype) (n : nat) (v : nat -> R) : Prop :=
  match b with None => forall j, v j = 0%R | Some b => xvec b d n v end.

(** row [j] of W times x, plus b *)
Definition affine (W : nat -> nat -> R) (b : nat -> R) (k : nat) (x : nat -> R) (j : nat) : R :=
  (Rsum (map (fun q => x q * W j q) (seq 0 k)) + b j)%R.

(** The parameters of a recurrent cell: input size [k], hidden size [h], [g] gates. *)
Record weights := mkW { W_ih : nat -> nat -> R; W_hh : nat -> nat -> R; B_ih : nat -> R; B_hh : nat -> R }.
Definition xcell (c : cell) (d : dtype) (k h g : nat) (w : weights) : Prop :=
  xmat (w_ih c) d (g * h) k (W_ih w) /\ xmat (w_hh c) d (g * h) h (W_hh w) /\
  xbias (b_ih c) d (g * h) (B_ih w) /\ xbias (b_hh c) d (g * h) (B_hh w).
(** the two affine parts of gate [q] (PyTorch's order of gates) *)
Definition part_x (w : weights) (k h q : nat) (x : nat -> R) (j : nat) : R := affine (W_ih w) (B_ih w) k x (q * h + j).
Definition part_h (w : weights) (h q : nat) (s : nat -> R) (j : nat) : R := affine (W_hh w) (B_hh w) h s (q * h + j).

(** one step of a cell, for one sample: [x] the input, [s] (and [c]) the state *)
Definition rnn_next (act : R -> R) (w : weights) (k h : nat) (x s : nat -> R) (j : nat) : R :=
  act (part_x w k h 0 x j + part_h w h 0 s j)%R.
Definition lstm_c (w : weights) (k h : nat) (x s c : nat -> R) (j : nat) : R :=
  let gate q := (part_x w k h q x j + part_h w h q s j)%R in
  (sigma (gate 1%nat) * c j + sigma (gate 0%nat) * tanh (gate 2%nat))%R.
Definition lstm_h (w : weights) (k h : nat) (x s c : nat -> R) (j : nat) : R :=
  let gate q := (part_x w k h q x j + part_h w h q s j)%R in
  (sigma (gate 3%nat) * tanh (lstm_c w k h x s c j))%R.
Definition gru_next (w : weights) (k h : nat) (x s : nat -> R) (j : nat) : R :=
  let r := sigma (part_x w k h 0 x j + part_h w h 0 s j) in
  let z := sigma (part_x w k h 1 x j + part_h w h 1 s j) in
  let n := tanh (part_x w k h 2 x j + r * part_h w h 2 s j) in
  ((1 - z) * n + z * s j)%R.

(** A stack of recurrent layers over a sequence.  [X t b q] is feature [q] of sample [b] at
    time [t]; a layer's state is an [S], from which [out] reads its output. *)
Definition matrix := nat -> nat -> R.
Section Stack.
Context {S : Type}.
Variable out : S -> matrix.
(** one time step: every layer's new state, and the last layer's output *)
Fixpoint layers_at (next : list (matrix -> S -> S)) (x : matrix) (st : list S) : list S * matrix :=
  match next, st with
  | f :: fs, s :: ss => let s' := f x s in let r := layers_at fs (out s') ss in (s' :: fst r, snd r)
  | _, _ => ([], x)
  end.
(** the states before time [t] *)
Fixpoint states_at (next : list (matrix -> S -> S)) (X : nat -> matrix) (st0 : list S) (t : nat) : list S :=
  match t with
  | 0 => st0
  | Datatypes.S t => fst (layers_at next (X t) (states_at next X st0 t))
  end.
Definition output_at (next : list (matrix -> S -> S)) (X : nat -> matrix) (st0 : list S) (t : nat) : matrix :=
  snd (layers_at next (X t) (states_at next X st0 t)).
End Stack.

Definition xcube (x : xtensor) (d : dtype) (n m k : nat) (X : nat -> matrix) : Prop :=
  xden x d [n; m; k] (fun i => Fin (X (nth 0 i 0) (nth 1 i 0) (nth 2 i 0))).
(** the cells of a stack: the first reads [k] features, the others [h] *)
Fixpoint xcells (cs : list cell) (d : dtype) (k h g : nat) (ws : list weights) : Prop :=
  match cs, ws with
  | [], [] => True
  | c :: cs, w :: ws => xcell c d k h g w /\ xcells cs d h h g ws
  | _, _ => False
  end.
(** an optional initial state, 0 if missing *)
Definition xinit (x : option xtensor) (d : dtype) (n m k : nat) (X : nat -> matrix) : Prop :=
  match x with None => forall l b j, X l b j = 0%R | Some x => xcube x d n m k X end.
(** the steps of the layers, for a whole batch *)
Definition sized {A} (f : weights -> nat -> A) (k h : nat) (ws : list weights) : list A :=
  match ws with [] => [] | w :: ws => f w k :: map (fun w => f w h) ws end.
Definition rnn_next_m (act : R -> R) (h : nat) (w : weights) (k : nat) (x s : matrix) : matrix :=
  fun b => rnn_next act w k h (x b) (s b).
Definition gru_next_m (h : nat) (w : weights) (k : nat) (x s : matrix) : matrix :=
  fun b => gru_next w k h (x b) (s b).
Definition lstm_next_m (h : nat) (w : weights) (k : nat) (x : matrix) (s : matrix * matrix) : matrix * matrix :=
  (fun b => lstm_h w k h (x b) (fst s b) (snd s b), fun b => lstm_c w k h (x b) (fst s b) (snd s b)).
