(** What dropout and attention should compute, on the real numbers. *)
From Coq Require Import List Arith ZArith Reals Bool.
From Verif Require Import Base IndexSpec EncodeModel TensorModel TensorSpec DenSpec NumModel NnModel NnSpec LayerSpec.
Import ListNotations.
Open Scope nat_scope.

(** A stack, indexed by [s], of matrices of [m] rows and [n] columns: entry [A p i j]. *)
Definition xstack (x : xtensor) (d : dtype) (s : list nat) (m n : nat) (A : list nat -> nat -> nat -> R) : Prop :=
  xden x d (s ++ [m; n]) (fun i => Fin (A (firstn (length s) i) (nth (length s) i 0) (nth (S (length s)) i 0))).

(** what an entry kept with probability 1 - p is multiplied by, if its random number is [u] *)
Definition kept (p u : R) : R := if Rltb p u then (1 / (1 - p))%R else 0%R.

(** softmax of the numbers [w 0], ..., [w (n-1)] *)
Definition soft (w : nat -> R) (n j : nat) : R := (exp (w j) / Rsum (map (fun j => exp (w j)) (seq 0 n)))%R.
(** row [x] of the queries against row [y] of the keys, of length [k] *)
Definition score (k : nat) (x y : nat -> R) : R := (Rsum (map (fun r => x r * y r) (seq 0 k)) / sqrt (INR k))%R.
(** attention of the query [x] to [n] keys and values, component [c]; weight [j] is multiplied by [z j] *)
Definition attend (k n : nat) (x : nat -> R) (K V : nat -> nat -> R) (z : nat -> R) (c : nat) : R :=
  Rsum (map (fun j => soft (fun j => score k x (K j)) n j * z j * V j c)%R (seq 0 n)).

(** The weights of multi-head attention with heads of size [hd], for [embed] = heads * hd; the
    three inputs have [embed], [kd] and [vd] features. *)
Record mha_weights := mkMW {
  Wq : nat -> nat -> R; Wk : nat -> nat -> R; Wv : nat -> nat -> R; Wo : nat -> nat -> R;
  Bq : nat -> R; Bk : nat -> R; Bv : nat -> R; Bo : nat -> R }.
(** component [r] of row [t], projected for head [h] *)
Definition project (W : nat -> nat -> R) (b : nat -> R) (k hd : nat) (X : matrix) (h t r : nat) : R :=
  affine W b k (X t) (h * hd + r).
(** the heads side by side: component [c] belongs to head [c / hd] *)
Definition heads_at (w : mha_weights) (embed kd vd hd n : nat) (X K V : matrix) (z : nat -> nat -> nat -> R) (t c : nat) : R :=
  let h := c / hd in
  attend hd n (project (Wq w) (Bq w) embed hd X h t) (project (Wk w) (Bk w) kd hd K h)
    (project (Wv w) (Bv w) vd hd V h) (z h t) (c mod hd).
Definition mha_at (w : mha_weights) (embed kd vd hd n : nat) (X K V : matrix) (z : nat -> nat -> nat -> R) (t c : nat) : R :=
  affine (Wo w) (Bo w) embed (heads_at w embed kd vd hd n X K V z t) c.
