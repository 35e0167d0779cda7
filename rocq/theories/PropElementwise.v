(** Properties C08, C17-C20 and the tensor-level form of C03. *)
From Coq Require Import List Arith ZArith Lia Bool.
From Verif Require Import Base IndexSpec LayoutModel ViewSpec BcastProofs KernelModel KernelProofs.
From Verif Require Import TensorModel TensorSpec TensorProofs ElementwiseProofs.
Import ListNotations.

(** C03 for tensors: whatever the strides of the operand, a view operation
    answers whenever the rule gives the result a shape, and then shows the right
    elements, inside its storage. *)
Theorem C03_tensor_view : forall A (z : A) o t, good t -> regular o (tshape t) ->
  (forall s', shape_rel o (tshape t) s' -> exists t', t_view z o t = Ok t' /\ tshape t' = s') /\
  forall t', t_view z o t = Ok t' ->
    good t' /\ shape_rel o (tshape t) (tshape t') /\
    forall i, valid (tshape t') i ->
    exists j, index_rel o (tshape t) (tshape t') i j /\ valid (tshape t) j /\
              elem t' i = elem t j.
Proof.
  intros A z o t Hg Hr. split.
  - intros s'. now apply t_view_total.
  - intros t'. now apply t_view_spec.
Qed.
Print Assumptions C03_tensor_view.

(** a transposed (non-contiguous) tensor reshaped: a copy is made *)
Example C03_tensor_ex :
  let t := mkT [0;1;2;3;4;5] (mkLayout [3;2] [1;3] 0) in
  t_view 99 (VReshape [6]) t = Ok (mkT [0;3;1;4;2;5] (from_shape [6])).
Proof. reflexivity. Qed.

(** C08, positive sizes.  Missing: an axis of size 0 against size 1. *)
Theorem C08_broadcast_two_partial : forall A C (za : A) (zc : C) a b, good a -> good b ->
  all_pos (tshape a) -> all_pos (tshape b) ->
  ((exists p, broadcast_tensors2 za zc a b = Ok p) <->
   (exists r, bcast (tshape a) (tshape b) r)) /\
  forall a' b', broadcast_tensors2 za zc a b = Ok (a', b') ->
    bcast (tshape a) (tshape b) (tshape a') /\ tshape b' = tshape a' /\ good a' /\ good b' /\
    forall i, valid (tshape a') i ->
      elem a' i = elem a (bidx (tshape a) i) /\ elem b' i = elem b (bidx (tshape b) i).
Proof. exact bcast_tensors2_thm. Qed.
Print Assumptions C08_broadcast_two_partial.

Theorem C08_broadcast_three_partial : forall A C D (za : A) (zc : C) (zd : D) a b c,
  good a -> good b -> good c ->
  all_pos (tshape a) -> all_pos (tshape b) -> all_pos (tshape c) ->
  forall r, (exists ab, bcast (tshape a) (tshape b) ab /\ bcast ab (tshape c) r) <->
  exists a' b' c', broadcast_tensors3 za zc zd a b c = Ok (a', b', c') /\
    tshape a' = r /\ tshape b' = r /\ tshape c' = r /\
    forall i, valid r i ->
      elem a' i = elem a (bidx (tshape a) i) /\ elem b' i = elem b (bidx (tshape b) i) /\
      elem c' i = elem c (bidx (tshape c) i).
Proof. exact bcast_tensors3_thm. Qed.
Print Assumptions C08_broadcast_three_partial.

Theorem C08_rule_laws : forall a b,
  bcast a a a /\
  (forall r, bcast a b r <-> bcast b a r) /\
  (forall r r', bcast a b r -> bcast a b r' -> r = r') /\
  (forall c ab bc abc, bcast a b ab -> bcast b c bc -> (bcast ab c abc <-> bcast a bc abc)).
Proof. exact bcast_laws. Qed.
Print Assumptions C08_rule_laws.

(** C08 is false with a zero-size axis: [1] and [0] broadcast to [0], but the
    code aims at [1] and then refuses. *)
Theorem C08_zero_size_refuted :
  ~ (forall (a b : tensor nat) r, good a -> good b -> bcast (tshape a) (tshape b) r ->
     exists p, broadcast_tensors2 0 0 a b = Ok p).
Proof. exact bcast_zero_refuted. Qed.
Print Assumptions C08_zero_size_refuted.

Example C08_ex :
  bt2_dims [3;1] [4;1;5] = Some [4;3;5] /\ bcast [3;1] [4;1;5] [4;3;5] /\
  bidx [3;1] [2;1;4] = [1;0].
Proof.
  split; [reflexivity|]. split; [|reflexivity]. split; [reflexivity|].
  intros [|[|[|[|k]]]]; unfold bcast_dim; simpl; auto.
Qed.

(** C17.  [e] carries the core count and the thread schedule. *)
Theorem C17_binary_kernel : forall A C B e (f : A -> C -> B) lhs rhs out la lb s,
  env_ok e -> wf_layout la -> wf_layout lb -> lshape la = s -> lshape lb = s ->
  in_bounds (length lhs) la -> in_bounds (length rhs) lb -> length out = nelem s ->
  exists out', binary_kernel e f lhs rhs out (binary_metadata la lb la) = Some out' /\
    length out' = nelem s /\
    forall i, valid s i -> exists x y,
      nth_error lhs (addr la i) = Some x /\ nth_error rhs (addr lb i) = Some y /\
      nth_error out' (ravel s i) = Some (f x y).
Proof. exact binary_kernel_thm. Qed.
Print Assumptions C17_binary_kernel.

Example C17_ex :
  binary_kernel (seq_env 4 1) Nat.add [0;1;2;3;4;5] [10;20;30] (repeat 0 6)
    (binary_metadata (mkLayout [3;2] [1;3] 0) (mkLayout [3;2] [1;0] 0) (mkLayout [3;2] [1;3] 0))
  = Some [10;13;21;24;32;35] /\
  binary_kernel (seq_env 4 1) Nat.add [0;1;2;3;4;5] [0;10;20;30;40;50;60] (repeat 0 6)
    (binary_metadata (from_shape [6]) (mkLayout [6] [1] 1) (from_shape [6]))
  = Some [10;21;32;43;54;65] /\
  env_ok (seq_env 4 1) /\ get_optimal_threads (seq_env 4 1) 6 = 4.
Proof. repeat split; try reflexivity; try apply seq_env_ok; simpl; lia. Qed.

(** C18 holds when the left operand already has the result's shape and starts at
    the beginning of its storage (or is copied because it is not contiguous).
    Missing: a left operand that is expanded, or a contiguous one with an offset. *)
Theorem C18_binary_result_partial : forall A C B e (za : A) (zc : C) (z : B) f a b,
  env_ok e -> good a -> good b -> all_pos (tshape a) -> all_pos (tshape b) ->
  bcast (tshape a) (tshape b) (tshape a) ->
  (loffset (tlay a) = 0 \/ is_contiguous (tlay a) = false) ->
  exists t, t_binary e za zc z f a b = Ok t /\ tshape t = tshape a /\
    forall i, valid (tshape a) i -> exists x y,
      elem a i = Some x /\ elem b (bidx (tshape b) i) = Some y /\ elem t i = Some (f x y).
Proof. exact t_binary_partial. Qed.
Print Assumptions C18_binary_result_partial.

(** In every case the result's storage holds the right values in row-major
    order; only the layout attached to it is wrong. *)
Theorem C18_binary_storage_partial : forall A C B e (za : A) (zc : C) (z : B) f a b r,
  env_ok e -> good a -> good b -> all_pos (tshape a) -> all_pos (tshape b) ->
  bcast (tshape a) (tshape b) r ->
  exists t a', t_binary e za zc z f a b = Ok t /\ tshape t = r /\
    t_broadcast za a r = Ok a' /\ tlay t = tlay a' /\ length (tstore t) = nelem r /\
    forall i, valid r i -> exists x y,
      elem a (bidx (tshape a) i) = Some x /\ elem b (bidx (tshape b) i) = Some y /\
      nth_error (tstore t) (ravel r i) = Some (f x y).
Proof. exact t_binary_storage. Qed.
Print Assumptions C18_binary_storage_partial.

(** [10] + [1,2] reads back as [11,11]. *)
Theorem C18_binary_result_refuted :
  ~ (forall (a b : tensor nat) r, good a -> good b ->
       all_pos (tshape a) -> all_pos (tshape b) -> bcast (tshape a) (tshape b) r ->
     exists t, t_binary e1 0 0 0 Nat.add a b = Ok t /\ tshape t = r /\
       forall i, valid r i -> exists x y,
         elem a (bidx (tshape a) i) = Some x /\ elem b (bidx (tshape b) i) = Some y /\
         elem t i = Some (x + y)).
Proof. exact t_binary_refuted. Qed.
Print Assumptions C18_binary_result_refuted.

Theorem C18_offset_out_of_bounds_refuted :
  exists (a b t : tensor nat), good a /\ good b /\ tshape a = [2] /\ tshape b = [2] /\
    t_binary e1 0 0 0 Nat.add a b = Ok t /\ tshape t = [2] /\ elem t [1] = None.
Proof. exact t_binary_offset_refuted. Qed.
Print Assumptions C18_offset_out_of_bounds_refuted.

Example C18_ex :
  t_binary e1 0 0 0 Nat.add (mkT [1;2;3;4] (from_shape [2;2])) (mkT [10;20] (from_shape [2])) =
  Ok (mkT [11;22;13;24] (from_shape [2;2])).
Proof. reflexivity. Qed.

(** C19: the ranges partition 0..n. *)
Theorem C19_chunks_partition : forall n k, 0 < k ->
  (forall t, t < k -> chunk_start n k t <= chunk_end n k t <= n) /\
  (forall t, S t < k -> chunk_end n k t = chunk_start n k (S t)) /\
  (forall t t' i, t < k -> t' < k ->
     chunk_start n k t <= i < chunk_end n k t ->
     chunk_start n k t' <= i < chunk_end n k t' -> t = t') /\
  (forall i, i < n -> exists t, t < k /\ chunk_start n k t <= i < chunk_end n k t).
Proof. exact chunking_thm. Qed.
Print Assumptions C19_chunks_partition.

(** The bitwise kernels split differently: also inside 0..n and disjoint (and
    covering, by the next theorem). *)
Theorem C19_bitwise_chunks_disjoint : forall n k t t' x y x' y' i, 0 < k ->
  nth_error (bw_chunks n k) t = Some (x, y) -> nth_error (bw_chunks n k) t' = Some (x', y') ->
  y <= n /\ (x <= i < y -> x' <= i < y' -> t = t').
Proof. exact bw_chunking_thm. Qed.
Print Assumptions C19_bitwise_chunks_disjoint.

(** C19: under every interleaving that lets the workers finish, the buffer ends
    up as after the sequential loop. *)
Theorem C19_any_interleaving : forall B (h : nat -> B) g sch n k out,
  0 < k -> length out = n -> (forall i, i < n -> g i = Some (h i)) ->
  (joined sch (chunks n k) -> run_sched g sch (chunks n k) out = Some (map h (seq 0 n))) /\
  (joined sch (bw_chunks n k) -> run_sched g sch (bw_chunks n k) out = Some (map h (seq 0 n))) /\
  seq_for n g out = Some (map h (seq 0 n)).
Proof. exact par_equals_seq. Qed.
Print Assumptions C19_any_interleaving.

Example C19_ex :
  chunks 10 4 = [(0,3);(3,6);(6,8);(8,10)] /\ bw_chunks 10 4 = [(0,2);(2,4);(4,6);(6,10)] /\
  run_sched (fun i => Some (i * i)) [3;0;2;1;1;0;3;2;1;0] (chunks 10 4) (repeat 0 10)
    = Some [0;1;4;9;16;25;36;49;64;81] /\
  joined [3;0;2;1;1;0;3;2;1;0] (chunks 10 4).
Proof.
  split; [reflexivity|]. split; [reflexivity|]. split; [reflexivity|].
  intros [|[|[|[|t]]]] x y Ht; vm_compute in Ht; try (inversion Ht; subst; vm_compute; lia).
  destruct t; discriminate.
Qed.

(** C20 for unary, scalar, comparison-with-scalar and cast operations.  Missing:
    a rank-0 view with an offset. *)
Theorem C20_unary_partial : forall A B e (z : B) (f : A -> B) t, env_ok e -> good t ->
  (tshape t <> [] \/ loffset (tlay t) = 0) ->
  exists t', t_unary e z f t = Ok t' /\ tshape t' = tshape t /\
    forall i, valid (tshape t) i -> elem t' i = option_map f (elem t i) /\ elem t i <> None.
Proof. exact t_unary_partial. Qed.
Print Assumptions C20_unary_partial.

Example C20_ex :
  t_unary e1 0 S (mkT [0;1;2;3;4;5] (mkLayout [2;2] [1;2] 1)) = Ok (mkT [2;4;3;5] (from_shape [2;2])).
Proof. reflexivity. Qed.

(** The offset of a rank-0 view is ignored: element 0 of the storage is used. *)
Theorem C20_unary_rank0_refuted :
  ~ (forall (t : tensor nat), good t ->
     exists t', t_unary e1 0 S t = Ok t' /\ tshape t' = tshape t /\
       forall i, valid (tshape t) i -> elem t' i = option_map S (elem t i)).
Proof. exact t_unary_refuted. Qed.
Print Assumptions C20_unary_rank0_refuted.

(** ... and such views arise from ordinary operations: x[1:2].squeeze(0) + 1. *)
Theorem C20_rank0_reachable_refuted :
  exists t1 t2 : tensor nat,
    t_view 0 (VSlice 0 1 (Some 2%Z) 1) (mkT [10;20] (from_shape [2])) = Ok t1 /\
    t_view 0 (VSqueeze [0%Z]) t1 = Ok t2 /\ tlay t2 = mkLayout [] [] 1 /\
    elem t2 [] = Some 20 /\
    exists t3, t_unary e1 0 S t2 = Ok t3 /\ elem t3 [] = Some 11.
Proof. exact rank0_reachable. Qed.
Print Assumptions C20_rank0_reachable_refuted.

(** Bitwise not and shifts keep the operand's strides on a row-major result. *)
Theorem C20_bitwise_unary_refuted :
  ~ (forall (t : tensor nat), good t -> loffset (tlay t) = 0 ->
     exists t', t_bitwise_unary e1 0 S t = Ok t' /\ tshape t' = tshape t /\
       forall i, valid (tshape t) i -> elem t' i = option_map S (elem t i)).
Proof. exact t_bitwise_unary_refuted. Qed.
Print Assumptions C20_bitwise_unary_refuted.

Theorem C20_bitwise_unary_partial : forall A B e (z : B) (f : A -> B) t, env_ok e -> good t ->
  is_contiguous (tlay t) = true -> loffset (tlay t) = 0 ->
  exists t', t_bitwise_unary e z f t = Ok t' /\ tshape t' = tshape t /\
    forall i, valid (tshape t) i -> elem t' i = option_map f (elem t i).
Proof. exact t_bitwise_unary_partial. Qed.
Print Assumptions C20_bitwise_unary_partial.
