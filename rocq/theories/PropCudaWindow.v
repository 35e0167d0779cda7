(** C144: window reductions on CUDA. *)
From Coq Require Import List Arith ZArith Bool Lia SpecFloat Sorted.
From Verif Require Import Base IndexSpec LayoutModel ViewSpec LayoutProofs KernelModel TensorModel TensorSpec TensorProofs.
From Verif Require Import WindowModel WindowProofs PropWindow EncodeModel LaunchModel LaunchSpec CudaIndexProofs2 CudaWindowModel CudaWindowProofs.
From Verif Require ScalarModel.
Import ListNotations.
Local Open Scope nat_scope.

(** Under every schedule that ends, a window reduction gives what the CPU gives on the
    elements converted to the accumulator's type, for every accumulation and final step. *)
Theorem C144_same_partial : forall A B C sched (conv : A -> B) (init : B) f oob (fin : nat -> B -> C) dt z (t : tensor A) window strides padding r,
  ending sched -> In dt [F32; F64; F16] -> (Z.of_nat (nelem (tshape r)) <= 2 ^ 32 - 256)%Z ->
  t_reduce_window init f oob fin z (mkT (map conv (tstore t)) (tlay t)) window strides padding = Ok r ->
  cuda_t_reduce_window sched conv init f oob fin dt t window strides padding = Ok r.
Proof. 
  intros A B C sched conv init f oob fin dt z t window strides padding r EN D. apply (t_window_same sched conv init f oob fin EN dt z t window strides padding r).
  destruct D as [<-|[<-|[<-|[]]]]; reflexivity.
 Qed.
Print Assumptions C144_same_partial.

(** So the output at [o] accumulates exactly the elements covered by the window of [o], in
    row-major order, where accumulating the padding value changes nothing. *)
Theorem C144_window_partial : forall A B C sched (conv : A -> B) (init : B) (f : B -> B -> B) (oob : option B) (fin : nat -> B -> C) (P : B -> Prop) dt (z : C) (d0 : B),
  ending sched -> In dt [F32; F64; F16] ->
  P init -> (forall b a, P b -> P (f b a)) -> (forall v b, oob = Some v -> P b -> f b v = b) ->
  forall (t : tensor A) window strides padding, good t -> window_ok (tshape t) window strides padding ->
  exists n, n = nelem (map (fun k => (nth k (tshape t) 0 + fst (nth k padding (0, 0)) + snd (nth k padding (0, 0)) - nth k window 0)
        / nth k strides 0 + 1) (seq 0 (length (tshape t)))) /\
  ((Z.of_nat n <= 2 ^ 32 - 256)%Z ->
  exists r, cuda_t_reduce_window sched conv init f oob fin dt t window strides padding = Ok r /\ good r /\
    length (tshape r) = length (tshape t) /\
    (forall k, k < length (tshape t) -> nth k (tshape r) 0 =
      (nth k (tshape t) 0 + fst (nth k padding (0, 0)) + snd (nth k padding (0, 0)) - nth k window 0)
        / nth k strides 0 + 1) /\
    forall o, valid (tshape r) o -> exists srcs vals,
      StronglySorted lex_lt srcs /\ (forall i, In i srcs <-> covers o strides window padding (tshape t) i) /\
      map (elem t) srcs = map Some vals /\
      elem r o = Some (fin (nelem window) (fold_left f (map conv vals) init))).
Proof.
  intros A B C sched conv init f oob fin P dt z d0 EN D P0 Pf PO t window strides padding G OK.
  eexists. split; [reflexivity|]. intro N.
  destruct (C34_window_partial B B C d0 init f oob fin P P0 Pf PO z (converted conv t) window strides padding
    (converted_good _ _ _ _ G) OK) as (r & E & GR & LR & SR & ER).
  change (tshape (converted conv t)) with (tshape t) in *.
  exists r. split; [|split; [exact GR|split; [exact LR|split; [exact SR|]]]].
  - apply (C144_same_partial A B C sched conv init f oob fin dt z); [exact EN|exact D| |exact E].
    replace (tshape r) with (map (fun k => (nth k (tshape t) 0 + fst (nth k padding (0, 0)) + snd (nth k padding (0, 0)) - nth k window 0)
        / nth k strides 0 + 1) (seq 0 (length (tshape t)))); [exact N|].
    apply (nth_ext _ _ 0 0).
    + now rewrite map_length, seq_length, LR.
    + intros k K. rewrite map_length, seq_length in K. rewrite SR by exact K.
      rewrite (nth_indep _ _ ((fun k => (nth k (tshape t) 0 + fst (nth k padding (0, 0)) + snd (nth k padding (0, 0)) - nth k window 0)
        / nth k strides 0 + 1) 0)) by now rewrite map_length, seq_length.
      now rewrite (map_nth (fun k => (nth k (tshape t) 0 + fst (nth k padding (0, 0)) + snd (nth k padding (0, 0)) - nth k window 0)
        / nth k strides 0 + 1)), seq_nth by exact K.
  - intros o V. destruct (ER o V) as (srcs & bs & SS & IN & MB & EO).
    assert (exists vals, map (elem t) srcs = map Some vals /\ bs = map conv vals) as (vals & MV & ->).
    { clear - MB. revert bs MB. induction srcs as [|i srcs IH]; intros [|b bs] MB; try discriminate; [exists []; split; reflexivity|].
      cbn [map] in MB. injection MB as E1 E2. destruct (IH bs E2) as (vals & V1 & V2). rewrite converted_elem in E1.
      destruct (elem t i) as [x|] eqn:X; [|discriminate]. injection E1 as <-. exists (x :: vals). cbn [map]. rewrite V1, V2, X. split; reflexivity. }
    exists srcs, vals. split; [exact SS|]. split; [exact IN|]. split; [exact MV|exact EO].
Qed.
Print Assumptions C144_window_partial.

(** sums of 2x2 windows of a transposed matrix, padded by one before the first axis *)
Example C144_example :
  cuda_t_reduce_window swift (fun x => x) 0%Z Z.add (Some 0%Z) (fun _ b => b) F32
    (mkT [1; 2; 3; 4; 5; 6]%Z (mkLayout [3; 2] [1; 3] 0)) [2; 2] [1; 1] [(1, 0); (0, 0)] = Ok (mkT [5; 12; 16]%Z (from_shape [3; 1])).
Proof. apply (C144_same_partial Z Z Z _ _ _ _ _ _ _ 0%Z); [exact swift_ending|cbn; tauto|now vm_compute|reflexivity]. Qed.
Example C144_hyps : let t := mkT [1; 2; 3; 4; 5; 6]%Z (mkLayout [3; 2] [1; 3] 0) in
  good t /\ window_ok (tshape t) [2; 2] [1; 1] [(1, 0); (0, 0)] /\ (forall v b, Some 0%Z = Some v -> Z.add b v = b).
Proof.
  intro t. split; [split; [reflexivity|]; intros [|a [|b [|c i]]] I; cbn in *; unfold addr; cbn; lia|].
  split; [|intros v b E; injection E as <-; lia]. repeat split; cbn; try lia; destruct k as [|[|k]]; cbn in *; lia.
Qed.
(** the f32 instance *)
Example C144_f32_example : let n := ScalarModel.of_z ScalarModel.F32 in
  cuda_window_sum_f32 swift (mkT (map n [3; 4; 5]%Z) (from_shape [3])) [2] [1] [(0, 0)] = Ok (mkT (map n [7; 9]%Z) (from_shape [2])).
Proof. intro n. apply (C144_same_partial _ _ _ _ _ _ _ _ _ _ S754_nan); [exact swift_ending|cbn; tauto|now vm_compute|now vm_compute]. Qed.

(** C144 is false of f64: the window of the one element 2^24 + 1 sums to 2^24. *)
Theorem C144_f64_refuted : forall sched, ending sched ->
  let x := ScalarModel.of_z ScalarModel.F64 16777217 in
  cuda_window_sum_f64 sched (mkT [x] (from_shape [1])) [1] [1] [(0, 0)] = Ok (mkT [ScalarModel.of_z ScalarModel.F64 16777216] (from_shape [1])) /\
  t_reduce_window (S754_zero false) (SFadd 53 1024) (Some (S754_zero false)) (fun _ b => b) S754_nan (mkT [x] (from_shape [1])) [1] [1] [(0, 0)]
    = Ok (mkT [x] (from_shape [1])).
Proof.
  intros sched EN x. split; [|now vm_compute].
  apply (C144_same_partial _ _ _ _ _ _ _ _ _ _ S754_nan); [exact EN|cbn; tauto|now vm_compute|now vm_compute].
Qed.
Print Assumptions C144_f64_refuted.
(** It is false of the other twelve element types, though there are kernels for all but bool: there is no result. *)
Theorem C144_types_refuted : forall A B C sched (conv : A -> B) (init : B) f oob (fin : nat -> B -> C) dt (t : tensor A) window strides padding r,
  ~ In dt [F32; F64; F16] -> cuda_t_reduce_window sched conv init f oob fin dt t window strides padding <> Ok r.
Proof.
  intros A B C sched conv init f oob fin dt t window strides padding r D. apply t_window_types.
  destruct dt; try reflexivity; exfalso; apply D; cbn; tauto.
Qed.
Print Assumptions C144_types_refuted.
Example C144_types_example :
  cuda_t_reduce_window swift (fun x => x) 0%Z Z.add (Some 0%Z) (fun _ b => b) I32 (mkT [1; 2]%Z (from_shape [2])) [1] [1] [(0, 0)] = Err EDType /\
  window_sum 0%Z (mkT [1; 2]%Z (from_shape [2])) [1] [1] [(0, 0)] = Ok (mkT [1; 2]%Z (from_shape [2])).
Proof. split; reflexivity. Qed.
(** More than 16 axes overflow the local arrays. *)
Theorem C144_rank_refuted : forall A B C sched (conv : A -> B) (init : B) f oob (fin : nat -> B -> C) dt (t : tensor A) window strides padding r,
  ending sched -> 16 < length (tshape t) -> 0 < nelem (tshape r) -> (Z.of_nat (nelem (tshape r)) <= 2 ^ 32 - 256)%Z ->
  cuda_t_reduce_window sched conv init f oob fin dt t window strides padding <> Ok r.
Proof. intros A B C sched conv init f oob fin dt t window strides padding r EN. exact (t_window_rank sched conv init f oob fin EN dt t window strides padding r). Qed.
Print Assumptions C144_rank_refuted.
Example C144_rank_example : window_dims (repeat 1 17) (repeat 1 17) (repeat 1 17) (repeat (0, 0) 17) = Ok (repeat 1 17) /\ nelem (repeat 1 17) = 1.
Proof. split; reflexivity. Qed.
