(** What convolutions, their transposes and their gradients are: sums over the triples of
    an output position [o], a kernel position [k] and an input position [i] that meet.
    Nothing here mentions the code under study. *)
From Coq Require Import List Arith Bool.
From Verif Require Import Base IndexSpec.
Import ListNotations.

(** Kernel position [k] of the window of output position [o] falls on input position [i]:
    [i + pad = o * stride + k * dil] on every axis. *)
Fixpoint meets (stride pad dil : nat) (o k i : list nat) : bool :=
  match o, k, i with
  | [], [], [] => true
  | o1 :: o', k1 :: k', i1 :: i' =>
      (i1 + pad =? o1 * stride + k1 * dil) && meets stride pad dil o' k' i'
  | _, _, _ => false
  end.

(** Number of window positions along one axis: position [q] exists iff the dilated window
    starting at [q * stride] ends inside the padded input. *)
Definition out_len (n k stride pad dil o : nat) : Prop :=
  forall q, q < o <-> q * stride + dil * (k - 1) < n + 2 * pad.
Fixpoint out_lens (n k : list nat) (stride pad dil : nat) (o : list nat) : Prop :=
  match n, k, o with
  | [], [], [] => True
  | n1 :: n', k1 :: k', o1 :: o' => out_len n1 k1 stride pad dil o1 /\ out_lens n' k' stride pad dil o'
  | _, _, _ => False
  end.

Section Terms.
  Context {A : Type}.
  Variables (mul : A -> A -> A) (stride pad dil : nat).
  (** the values of the operands by index *)
  Variables X W G : list nat -> A.

  (** element [b, oc, o] of the convolution of [X] ([B, cin, isp]) by [W] ([cout, cin, ker]) *)
  Definition conv_terms (cin : nat) (ker isp : list nat) (b oc : nat) (o : list nat) : list A :=
    flat_map (fun ic => flat_map (fun k => flat_map (fun i =>
      if meets stride pad dil o k i then [mul (X (b :: ic :: i)) (W (oc :: ic :: k))] else [])
      (all_idx isp)) (all_idx ker)) (seq 0 cin).
  (** element [b, oc, o] of the transposed convolution of [X] ([B, cin, isp]); [wi ic oc k]
      is the index of the weight *)
  Definition conv_t_terms (wi : nat -> nat -> list nat -> list nat) (cin : nat) (ker isp : list nat)
      (b oc : nat) (o : list nat) : list A :=
    flat_map (fun ic => flat_map (fun i => flat_map (fun k =>
      if meets stride pad dil i k o then [mul (X (b :: ic :: i)) (W (wi ic oc k))] else [])
      (all_idx ker)) (all_idx isp)) (seq 0 cin).
  (** element [oc, ic, k] of the gradient of the weight, [G] ([B, cout, osp]) being the
      gradient of the output *)
  Definition gradw_terms (B : nat) (isp osp : list nat) (oc ic : nat) (k : list nat) : list A :=
    flat_map (fun b => flat_map (fun o => flat_map (fun i =>
      if meets stride pad dil o k i then [mul (X (b :: ic :: i)) (G (b :: oc :: o))] else [])
      (all_idx isp)) (all_idx osp)) (seq 0 B).
  (** element [ic, oc, k] of the gradient of the weight of the transposed convolution *)
  Definition gradw_t_terms (B : nat) (isp osp : list nat) (ic oc : nat) (k : list nat) : list A :=
    flat_map (fun b => flat_map (fun i => flat_map (fun o =>
      if meets stride pad dil i k o then [mul (X (b :: ic :: i)) (G (b :: oc :: o))] else [])
      (all_idx osp)) (all_idx isp)) (seq 0 B).
End Terms.

(** Length along one axis of a transposed convolution. *)
Definition t_out_len (n k stride pad dil extra o : nat) : Prop :=
  o + 2 * pad = (n - 1) * stride + dil * (k - 1) + extra + 1.
Fixpoint t_out_lens (n k : list nat) (stride pad dil extra : nat) (o : list nat) : Prop :=
  match n, k, o with
  | [], [], [] => True
  | n1 :: n', k1 :: k', o1 :: o' => t_out_len n1 k1 stride pad dil extra o1 /\ t_out_lens n' k' stride pad dil extra o'
  | _, _, _ => False
  end.
