(** What the view operations mean, in terms of shapes and multi-indices only
    (NumPy / PyTorch conventions).  Independent of strides, offsets and of the
    model of the code. *)
From Coq Require Import List Arith ZArith Lia Bool.
From Verif Require Import Base IndexSpec LayoutModel.
Import ListNotations.

(** Signed axis [a] of a rank-[n] object: legal, and the axis it names. *)
Definition axis_ok (n : nat) (a : Z) : Prop := (- Z.of_nat n <= a < Z.of_nat n)%Z.
Definition axis_of (n : nat) (a : Z) : nat :=
  Z.to_nat (if (a <? 0)%Z then a + Z.of_nat n else a)%Z.

(** Keep the entries whose position satisfies [keep]. *)
Fixpoint keep_from {A} (keep : nat -> bool) (p : nat) (l : list A) : list A :=
  match l with
  | [] => []
  | x :: t => if keep p then x :: keep_from keep (S p) t else keep_from keep (S p) t
  end.

(** Python's [slice(start,end,step).indices(n)] for a positive step: first
    selected position, and stop position. *)
Definition py_start (n start : Z) : Z :=
  if (start <? 0)%Z then Z.max 0 (start + n) else Z.min start n.
Definition py_stop (n : Z) (stop : option Z) : Z :=
  match stop with
  | None => n
  | Some e => if (e <? 0)%Z then Z.max 0 (e + n) else Z.min e n
  end.

(** Same for a negative step. *)
Definition py_start_neg (n start : Z) : Z :=
  if (start <? 0)%Z then Z.max (-1) (start + n) else Z.min start (n - 1).
Definition py_stop_neg (n : Z) (stop : option Z) : Z :=
  match stop with
  | None => (-1)%Z
  | Some e => if (e <? 0)%Z then Z.max (-1) (e + n) else Z.min e (n - 1)
  end.

(** [m] is the number of positions start, start+step, ... lying before [stop]. *)
Definition py_count (start stop step m : Z) : Prop :=
  (0 <= m)%Z /\
  (forall x, 0 <= x ->
     (x < m <-> if step >? 0 then start + step * x < stop else start + step * x > stop))%Z.

(** Shape of the result. *)
Definition shape_rel (o : view_op) (s s' : list nat) : Prop :=
  let n := length s in
  match o with
  | VReshape t => nelem t = nelem s /\ s' = t
  | VFlatten => s' = [nelem s]
  | VSqueeze [] => s' = filter (fun d => negb (d =? 1)) s
  | VSqueeze axes =>
    (forall a, In a axes -> axis_ok n a /\ nth (axis_of n a) s 0 = 1) /\
    s' = keep_from (fun p => negb (existsb (fun a => p =? axis_of n a) axes)) 0 s
  | VUnsqueeze a =>
    axis_ok (S n) a /\
    exists s1 s2, s = s1 ++ s2 /\ length s1 = axis_of (S n) a /\ s' = s1 ++ 1 :: s2
  | VBroadcast t =>
    s' = t /\
    exists added rest, t = added ++ rest /\
      Forall2 (fun d d' => d = d' \/ d = 1) s rest
  | VTranspose a b =>
    2 <= n /\ axis_ok n a /\ axis_ok n b /\ length s' = n /\
    forall k, k < n ->
      nth_error s' k = nth_error s (if k =? axis_of n a then axis_of n b
                                    else if k =? axis_of n b then axis_of n a else k)
  | VPermute axes =>
    length axes = n /\ Forall (axis_ok n) axes /\ NoDup (map (axis_of n) axes) /\
    length s' = n /\
    forall k a, nth_error axes k = Some a -> nth_error s' k = nth_error s (axis_of n a)
  | VSlice a start stop step =>
    axis_ok n a /\ length s' = n /\
    (forall k, k <> axis_of n a -> nth_error s' k = nth_error s k) /\
    exists d m, nth_error s (axis_of n a) = Some d /\
                nth_error s' (axis_of n a) = Some m /\ 0 < m /\
                if (step >? 0)%Z
                then py_count (py_start (Z.of_nat d) start) (py_stop (Z.of_nat d) stop)
                              step (Z.of_nat m)
                else py_count (py_start_neg (Z.of_nat d) start)
                              (py_stop_neg (Z.of_nat d) stop) step (Z.of_nat m)
  end.

(** [index_rel o s s' i j]: index [i] of the result (shape [s']) shows the
    element of the operand (shape [s]) at index [j]. *)
Definition index_rel (o : view_op) (s s' i j : list nat) : Prop :=
  let n := length s in
  match o with
  | VReshape _ | VFlatten | VSqueeze _ | VUnsqueeze _ => ravel s j = ravel s' i
  | VBroadcast t =>
    length j = n /\
    forall k, k < n ->
      nth_error j k = if nth k s 0 =? 1 then Some 0 else nth_error i (k + (length t - n))
  | VTranspose a b =>
    length j = n /\
    forall k, k < n ->
      nth_error j k = nth_error i (if k =? axis_of n a then axis_of n b
                                   else if k =? axis_of n b then axis_of n a else k)
  | VPermute axes =>
    length j = n /\
    forall k a, nth_error axes k = Some a -> nth_error j (axis_of n a) = nth_error i k
  | VSlice a start stop step =>
    length j = n /\
    (forall k, k <> axis_of n a -> nth_error j k = nth_error i k) /\
    exists d x y, nth_error s (axis_of n a) = Some d /\
                  nth_error i (axis_of n a) = Some x /\ nth_error j (axis_of n a) = Some y /\
                  Z.of_nat y =
                  ((if step >? 0 then py_start (Z.of_nat d) start
                    else py_start_neg (Z.of_nat d) start) + step * Z.of_nat x)%Z
  end.

(** Operations for which the code is expected to agree with the above: slices
    with a positive step, and squeezes naming each axis at most once. *)
Definition regular (o : view_op) (s : list nat) : Prop :=
  match o with
  | VSlice _ _ _ step => (0 < step)%Z
  | VSqueeze axes => NoDup (map (axis_of (length s)) axes)
  | _ => True
  end.

(** Storage position of index [i] under a layout. *)
Definition addr (l : layout) (i : list nat) : nat := loffset l + dot i (lstrides l).

(** One stride per axis. *)
Definition wf_layout (l : layout) : Prop := length (lstrides l) = length (lshape l).

(** A storage of [len] elements is large enough for every index of the layout. *)
Definition in_bounds (len : nat) (l : layout) : Prop :=
  forall i, valid (lshape l) i -> addr l i < len.

(** Several operations one after the other: index [i] of the final result
    (shape [s']) shows the element of the first operand (shape [s]) at [j]. *)
Inductive chain_rel : list view_op -> list nat -> list nat -> list nat -> list nat -> Prop :=
| chain_nil : forall s i, chain_rel [] s s i i
| chain_cons : forall o os s s1 s' i i1 j,
    shape_rel o s s1 -> index_rel o s s1 i1 j -> chain_rel os s1 s' i i1 ->
    chain_rel (o :: os) s s' i j.

(** Every operation of a program is [regular] for the shape it is applied to. *)
Definition regular_chain (l : layout) (os : list view_op) : Prop :=
  forall pre o post l1, os = pre ++ o :: post -> apply_views l pre = Ok l1 ->
  regular o (lshape l1).

(** Broadcasting rule, aligned at the last axis; a missing axis counts as 1. *)
Definition bcast_dim (x y z : nat) : Prop :=
  (x = y /\ z = x) \/ (x = 1 /\ z = y) \/ (y = 1 /\ z = x).
Definition bcast (a b r : list nat) : Prop :=
  length r = Nat.max (length a) (length b) /\
  forall k, bcast_dim (nth k (rev a) 1) (nth k (rev b) 1) (nth k (rev r) 1).

(** Operations whose layout-level function insists on a contiguous operand. *)
Definition wants_contiguous (o : view_op) : bool :=
  match o with
  | VReshape _ | VFlatten | VSqueeze _ | VUnsqueeze _ => true
  | _ => false
  end.
