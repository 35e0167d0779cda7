(** Properties C27 (concat), C28 (split then concat), C29 (chunk), C30 (flip),
    C32 (padding). *)
From Coq Require Import List Arith ZArith Lia Bool.
From Verif Require Import Base IndexSpec LayoutModel ViewSpec LayoutProofs BcastProofs.
From Verif Require Import KernelModel TensorModel TensorSpec TensorProofs.
From Verif Require Import ReduceModel MoveModel MoveProofs MoveProofs2 MoveProofs3.
Import ListNotations.

(* ---------- C27 ---------- *)

(** The element of input [j] at [i] is found at [i] shifted, along the axis, by
    the sizes of the inputs before it, and every output index is of that form.
    Excluded: rank above 16, and inputs before the last whose storage does not
    have exactly as many elements as their shape ([packed]). *)
Theorem C27_concat_partial : forall A (z d0 : A) (t0 : tensor A) r a,
  let ts := t0 :: r in
  let s0 := tshape t0 in
  let d := axis_of (length s0) a in
  Forall good ts -> axis_ok (length s0) a -> length s0 <= 16 ->
  (forall t, In t ts -> compatible d s0 (tshape t)) -> packed ts ->
  exists c, t_concat z ts a = Ok c /\ good c /\
    tlay c = from_shape (upd s0 d (list_sum (axis_sizes d ts))) /\
    (forall j t i, nth_error ts j = Some t -> valid (tshape t) i ->
       elem c (adjust d (fun x => x + list_sum (firstn j (axis_sizes d ts))) i) = elem t i) /\
    (forall k, valid (tshape c) k -> exists j t i, nth_error ts j = Some t /\ valid (tshape t) i /\
       k = adjust d (fun x => x + list_sum (firstn j (axis_sizes d ts))) i).
Proof.
  intros A z d0 t0 r a ts s0 d Hg Ha HR Hc Hp.
  destruct (t_concat_spec A z d0 t0 r a Hg Ha HR Hc Hp) as [c [E [G [L H]]]].
  exists c. repeat split; auto; try apply G.
  intros k V. unfold tshape in V. rewrite L in V. cbn [from_shape lshape] in V.
  apply (concat_cover A ts s0 d); auto. now apply axis_of_lt.
Qed.
Print Assumptions C27_concat_partial.

(** Fresh tensors are packed. *)
Theorem C27_fresh_packed : forall A (ts : list (tensor A)),
  (forall t, In t ts -> length (tstore t) = nelem (tshape t)) -> packed ts.
Proof. intros A ts H j t _ Hj. apply H. eapply nth_error_In; eauto. Qed.
Print Assumptions C27_fresh_packed.

Example C27_ex :  (* a 2x1 column, a transposed 2x2 and a 2x1 column with an offset *)
  t_concat 0%Z [mkT [1;2]%Z (from_shape [2;1]);
                mkT [3;4;5;6]%Z (mkLayout [2;2] [1;2] 0);
                mkT [0;0;7;8]%Z (mkLayout [2;1] [1;1] 2)] (-1)%Z
  = Ok (mkT [1;3;5;7; 2;4;6;8]%Z (from_shape [2;4])).
Proof. reflexivity. Qed.
Example C27_ex_stack :
  t_stack 0%Z [mkT [1;2]%Z (from_shape [2]); mkT [3;4]%Z (from_shape [2])] 1%Z
  = Ok (mkT [1;3;2;4]%Z (from_shape [2;2])).
Proof. reflexivity. Qed.
Example C27_ex_reject :
  t_concat 0%Z [mkT [1;2]%Z (from_shape [2;1]); mkT [3]%Z (from_shape [1;1])] 1%Z = Err EInternal /\
  t_concat 0%Z [mkT [1;2]%Z (from_shape [2;1]); mkT [3]%Z (from_shape [1])] 1%Z = Err EShape.
Proof. split; reflexivity. Qed.

(** For views the claim is false: [1,2] cut out of the storage [1,2,3,4] before
    [5,6] gives [1,2,3,4]. *)
Theorem C27_views_refuted :
  let v := mkT [1;2;3;4]%Z (mkLayout [2] [1] 0) in
  let w := mkT [5;6]%Z (from_shape [2]) in
  t_view 0%Z (VSlice 0 0 (Some 2%Z) 1) (mkT [1;2;3;4]%Z (from_shape [4])) = Ok v /\
  good v /\ good w /\
  exists c, t_concat 0%Z [v; w] 0%Z = Ok c /\ elem w [0] = Some 5%Z /\ elem c [2] = Some 3%Z.
Proof.
  cbn zeta. split; [reflexivity|]. split.
  - split; [reflexivity|]. intros [|x [|]] V; cbn in V; try lia. unfold addr. cbn. lia.
  - split; [apply from_shape_good; reflexivity|]. eexists. split; [reflexivity|]. split; reflexivity.
Qed.
Print Assumptions C27_views_refuted.

(** An axis out of range is an error with one input and a panic with more. *)
Theorem C27_bad_axis_refuted :
  t_concat 0%Z [mkT [1]%Z (from_shape [1])] 1%Z = Err EAxis /\
  t_concat 0%Z [mkT [1]%Z (from_shape [1]); mkT [2]%Z (from_shape [1])] 1%Z = Panic.
Proof. split; reflexivity. Qed.
Print Assumptions C27_bad_axis_refuted.

(* ---------- C28 ---------- *)

(** Any view as operand.  Excluded: rank above 16. *)
Theorem C28_split_concat_partial : forall A (z d0 : A) (t : tensor A) sizes a n,
  good t -> length (tshape t) <= 16 -> axis_ok (length (tshape t)) a ->
  nth_error (tshape t) (axis_of (length (tshape t)) a) = Some n ->
  Forall (fun s => 0 < s) sizes -> sizes <> [] -> list_sum sizes = n ->
  exists ps c, t_split z t sizes a = Ok ps /\
    map tshape ps = map (fun s => upd (tshape t) (axis_of (length (tshape t)) a) s) sizes /\
    t_concat z ps a = Ok c /\ tlay c = from_shape (tshape t) /\
    forall i, valid (tshape t) i -> elem c i = elem t i.
Proof. exact split_concat. Qed.
Print Assumptions C28_split_concat_partial.

(** The pieces themselves, also when the sizes leave a rest. *)
Theorem C28_pieces_partial : forall A (z d0 : A) (t : tensor A) sizes a n,
  good t -> length (tshape t) <= 16 -> axis_ok (length (tshape t)) a ->
  nth_error (tshape t) (axis_of (length (tshape t)) a) = Some n ->
  Forall (fun s => 0 < s) sizes -> list_sum sizes <= n ->
  exists ps, t_split z t sizes a = Ok ps /\ length ps = length sizes /\
    forall j p size, nth_error ps j = Some p -> nth_error sizes j = Some size ->
      good p /\ tshape p = upd (tshape t) (axis_of (length (tshape t)) a) size /\
      forall i, valid (tshape p) i ->
        elem p i = elem t (adjust (axis_of (length (tshape t)) a) (fun x => x + list_sum (firstn j sizes)) i).
Proof.
  intros A z d0 t sizes a n Hg HR Ha Hn HP Hs. unfold t_split. fold (tshape t).
  rewrite axis_usize_ok by auto.
  destruct (split_loop_spec A z d0 t _ n sizes 0 Hg HR Hn HP Hs) as [ps [E [L H]]].
  exists ps. split; auto. split; auto. intros j p size Hj Hz.
  destruct (H j p size Hj Hz) as [G [L' [_ H']]]. split; auto. split; auto.
  unfold tshape at 1. now rewrite L'.
Qed.
Print Assumptions C28_pieces_partial.

Example C28_ex_split :  (* columns of a transposed 3x2 matrix *)
  t_split 0%Z (mkT [1;2;3;4;5;6]%Z (mkLayout [2;3] [1;2] 0)) [1;2] 1%Z
  = Ok [mkT [1;2]%Z (from_shape [2;1]); mkT [3;5;4;6]%Z (from_shape [2;2])].
Proof. reflexivity. Qed.
Example C28_ex_concat :
  t_concat 0%Z [mkT [1;2]%Z (from_shape [2;1]); mkT [3;5;4;6]%Z (from_shape [2;2])] 1%Z
  = Ok (mkT [1;3;5;2;4;6]%Z (from_shape [2;3])).
Proof. reflexivity. Qed.
Example C28_ex_reject :
  t_split 0%Z (mkT [1;2;3]%Z (from_shape [3])) [2;2] 0%Z = Err EInternal.
Proof. reflexivity. Qed.

(** Rank 17 overruns the kernel's local arrays. *)
Theorem C28_rank17_refuted :
  ~ (forall (t : tensor Z) a, good t -> axis_ok (length (tshape t)) a ->
     exists ps, t_split 0%Z t [nth (axis_of (length (tshape t)) a) (tshape t) 0] a = Ok ps).
Proof.
  intros H. destruct (H (mkT [7]%Z (from_shape (repeat 1 17))) 0%Z) as [r E].
  - apply from_shape_good. reflexivity.
  - unfold axis_ok. cbn. lia.
  - vm_compute in E. discriminate.
Qed.
Print Assumptions C28_rank17_refuted.

(* ---------- C29 ---------- *)

Definition ceil_div (n k : nat) : nat := (n + k - 1) / k.

(** [ceil_div n k] is the least [c] with [c * k >= n]. *)
Theorem C29_ceil_div : forall n k, 0 < k ->
  n <= ceil_div n k * k /\ forall c, n <= c * k -> ceil_div n k <= c.
Proof.
  intros n k Hk. unfold ceil_div. pose proof (Nat.div_mod (n + k - 1) k ltac:(lia)) as D.
  pose proof (Nat.mod_upper_bound (n + k - 1) k ltac:(lia)) as M.
  set (q := (n + k - 1) / k) in *. set (r := (n + k - 1) mod k) in *. clearbody q r.
  split; [nia|]. intros c Hc. nia.
Qed.

(** The chunks cover the axis in order, each at most [ceil (n / k)] long,
    provided the last chunk does not start after the end of the axis. *)
Theorem C29_chunk_partial : forall A (z d0 : A) (t : tensor A) k a n,
  good t -> length (tshape t) <= 16 -> axis_ok (length (tshape t)) a ->
  let d := axis_of (length (tshape t)) a in
  nth_error (tshape t) d = Some n -> 0 < k -> (k - 1) * ceil_div n k <= n ->
  exists ps sizes, t_chunk z t k a = Ok ps /\ list_sum sizes = n /\
    Forall (fun s => 0 < s <= ceil_div n k) sizes /\ length ps = length sizes /\
    forall j p size, nth_error ps j = Some p -> nth_error sizes j = Some size ->
      good p /\ tshape p = upd (tshape t) d size /\
      forall i, valid (tshape p) i ->
        elem p i = elem t (adjust d (fun x => x + list_sum (firstn j sizes)) i).
Proof.
  intros A z d0 t k a n Hg HR Ha d Hn Hk Hc. unfold t_chunk. fold (tshape t).
  rewrite axis_usize_ok by auto. fold d. rewrite Hn. replace (k =? 0) with false by (symmetry; apply Nat.eqb_neq; lia).
  fold (ceil_div n k). destruct (C29_ceil_div n k Hk) as [Hceil _].
  destruct (chunk_sizes_spec n (ceil_div n k) k 0) as [sizes [E [HF HS]]]; [exact Hc|lia|].
  rewrite E. cbn [bind].
  assert (Hsum : list_sum sizes = n) by (rewrite HS; cbn [Nat.add Nat.mul]; lia).
  destruct (C28_pieces_partial A z d0 t sizes a n Hg HR Ha Hn) as [ps [Ep [Lp Hp]]].
  - eapply Forall_impl; [|exact HF]. cbn. lia.
  - lia.
  - exists ps, sizes. repeat split; auto; apply (Hp j p size); auto.
Qed.
Print Assumptions C29_chunk_partial.

(** Otherwise [end - start] underflows: chunking never succeeds. *)
Theorem C29_underflow_refuted : forall A (z : A) (t : tensor A) k a n,
  axis_ok (length (tshape t)) a ->
  nth_error (tshape t) (axis_of (length (tshape t)) a) = Some n ->
  n < (k - 1) * ceil_div n k -> t_chunk z t k a = Panic.
Proof.
  intros A z t k a n Ha Hn Hlt. unfold t_chunk. fold (tshape t). rewrite axis_usize_ok by auto. rewrite Hn.
  destruct (k =? 0) eqn:Ek; [reflexivity|]. apply Nat.eqb_neq in Ek. fold (ceil_div n k).
  rewrite chunk_underflow; auto; try lia.
Qed.
Print Assumptions C29_underflow_refuted.

Theorem C29_five_into_four_refuted :
  let t := mkT [1;2;3;4;5]%Z (from_shape [5]) in
  good t /\ axis_ok 1 0%Z /\ t_chunk 0%Z t 4 0%Z = Panic.
Proof. split; [apply from_shape_good; reflexivity|]. split; [unfold axis_ok; lia|reflexivity]. Qed.
Print Assumptions C29_five_into_four_refuted.

Example C29_ex :
  t_chunk 0%Z (mkT [1;2;3;4;5;6]%Z (mkLayout [2;3] [1;2] 0)) 2 (-1)%Z
  = Ok [mkT [1;3;2;4]%Z (from_shape [2;2]); mkT [5;6]%Z (from_shape [2;1])].
Proof. reflexivity. Qed.
Example C29_ex_hyp : (2 - 1) * ceil_div 3 2 <= 3.
Proof. cbn. lia. Qed.

(* ---------- C30 ---------- *)

(** Proved for operands whose layout is row-major from the start of the storage
    ([plain_layout]); the coordinates along the named axes are mirrored. *)
Theorem C30_flip_partial : forall A (z d0 : A) (t : tensor A) dims,
  good t -> plain_layout t -> Forall (axis_ok (length (tshape t))) dims ->
  exists r, t_flip z t dims = Ok r /\ good r /\ tlay r = from_shape (tshape t) /\
    forall i j, valid (tshape t) i -> length j = length i ->
      (forall p n x y, nth_error (tshape t) p = Some n -> nth_error i p = Some x -> nth_error j p = Some y ->
        (In p (map (axis_of (length (tshape t))) dims) -> x + y = n - 1) /\
        (~ In p (map (axis_of (length (tshape t))) dims) -> x = y)) ->
      elem r i = elem t j.
Proof.
  intros A z d0 t dims Hg Hp Ha.
  destruct (t_flip_spec A z d0 t dims (map (axis_of (length (tshape t))) dims) Hg Hp) as [r [E [G [L H]]]].
  { induction Ha; cbn; constructor; auto. }
  exists r. split; auto. split; auto. split; auto. intros i j Vi Lj Hj.
  rewrite (H i Vi). f_equal. apply list_ext. intro p.
  destruct (Nat.lt_ge_cases p (length (tshape t))) as [Hlt|Hge].
  - pose proof (valid_length _ _ Vi) as Li.
    assert (Q : forall B (l : list B), p < length l -> exists x, nth_error l p = Some x).
    { intros B l Hl. destruct (nth_error l p) eqn:Ep; eauto. apply nth_error_None in Ep. lia. }
    destruct (Q _ (tshape t) Hlt) as [n En]. destruct (Q _ i ltac:(lia)) as [x Ex].
    destruct (Q _ j ltac:(lia)) as [y Ey]. rewrite (mirror_nth _ _ 0 _ _ _ _ En Ex), Ey. cbn [Nat.add].
    destruct (Hj p n x y En Ex Ey) as [H1 H2]. f_equal.
    assert (IL : forall l q, in_list l q = true <-> In q l).
    { intros l q. unfold in_list. rewrite existsb_exists. split.
      - intros [w [Hw Hq]]. apply Nat.eqb_eq in Hq. now subst.
      - intros Hq. exists q. split; auto. apply Nat.eqb_refl. }
    destruct (in_list (map (axis_of (length (tshape t))) dims) p) eqn:Em.
    + apply IL in Em. specialize (H1 Em). apply valid_nth in Vi. destruct Vi as [_ Vi].
      specialize (Vi p x n Ex En). lia.
    + apply H2. intro HI. apply IL in HI. congruence.
  - pose proof (valid_length _ _ Vi) as Li. pose proof (mirror_valid _ (in_list (map (axis_of (length (tshape t))) dims)) 0 _ Vi) as Vm.
    apply valid_length in Vm.
    rewrite (proj2 (nth_error_None _ p)) by lia. symmetry. apply nth_error_None. lia.
Qed.
Print Assumptions C30_flip_partial.

Theorem C30_involution_partial : forall A (z d0 : A) (t : tensor A) dims,
  good t -> plain_layout t -> Forall (axis_ok (length (tshape t))) dims ->
  exists r r', t_flip z t dims = Ok r /\ t_flip z r dims = Ok r' /\ tshape r' = tshape t /\
    forall i, valid (tshape t) i -> elem r' i = elem t i.
Proof.
  intros A z d0 t dims Hg Hp Ha.
  assert (F2 : Forall2 (fun a d => axis_ok (length (tshape t)) a /\ d = axis_of (length (tshape t)) a)
                dims (map (axis_of (length (tshape t))) dims)) by (induction Ha; cbn; constructor; auto).
  destruct (t_flip_spec A z d0 t dims _ Hg Hp F2) as [r [E [G [L H]]]].
  assert (S : tshape r = tshape t) by (unfold tshape at 1; now rewrite L).
  destruct (t_flip_spec A z d0 r dims (map (axis_of (length (tshape t))) dims) G (fresh_plain _ _ _ L))
    as [r' [E' [G' [L' H']]]].
  { now rewrite S. }
  exists r, r'. split; auto. split; auto. split; [unfold tshape at 1; now rewrite L'|].
  intros i V. rewrite S in H'. rewrite H' by auto. rewrite H by (now apply mirror_valid).
  now rewrite mirror_mirror.
Qed.
Print Assumptions C30_involution_partial.

Example C30_ex :
  t_flip 0%Z (mkT [1;2;3;4;5;6]%Z (from_shape [2;3])) [(-1)%Z]
  = Ok (mkT [3;2;1;6;5;4]%Z (from_shape [2;3])).
Proof. reflexivity. Qed.
Example C30_ex_both :
  t_flip 0%Z (mkT [1;2;3;4;5;6]%Z (from_shape [2;3])) [0%Z; 1%Z]
  = Ok (mkT [6;5;4;3;2;1]%Z (from_shape [2;3])).
Proof. reflexivity. Qed.

(** Strides and offset of a view are not passed to the kernel: flipping the
    transpose of [[1,2,3],[4,5,6]], or the slice [3,4] of [1,2,3,4], is wrong. *)
Theorem C30_views_refuted :
  let t := mkT [1;2;3;4;5;6]%Z (mkLayout [3;2] [1;3] 0) in
  let v := mkT [1;2;3;4]%Z (mkLayout [2] [1] 2) in
  good t /\ good v /\
  (exists r, t_flip 0%Z t [0%Z] = Ok r /\ elem t [2;0] = Some 3%Z /\ elem r [0;0] = Some 5%Z) /\
  (exists r, t_flip 0%Z v [0%Z] = Ok r /\ elem v [1] = Some 4%Z /\ elem r [0] = Some 2%Z).
Proof.
  cbn zeta. split; [|split; [|split]].
  - split; [reflexivity|]. intros [|x [|y [|]]] V; cbn in V; try lia. unfold addr. cbn. lia.
  - split; [reflexivity|]. intros [|x [|]] V; cbn in V; try lia. unfold addr. cbn. lia.
  - eexists. repeat split; reflexivity.
  - eexists. repeat split; reflexivity.
Qed.
Print Assumptions C30_views_refuted.

(** An axis out of range is ignored instead of being rejected. *)
Theorem C30_bad_axis_refuted :
  t_flip 0%Z (mkT [1;2]%Z (from_shape [2])) [7%Z] = Ok (mkT [1;2]%Z (from_shape [2])).
Proof. reflexivity. Qed.
Print Assumptions C30_bad_axis_refuted.

(* ---------- C32 ---------- *)

(** The three index functions, for every (signed) coordinate and every size. *)
Theorem C32_reflect_index : forall c n, 0 < n -> exists y, reflect_index c n = Some y /\ y < n /\
  (n = 1 \/ exists q, (c = 2 * (Z.of_nat n - 1) * q + Z.of_nat y \/ c = 2 * (Z.of_nat n - 1) * q - Z.of_nat y)%Z).
Proof.
  intros c n Hn. destruct (reflect_spec c n Hn) as [y [E [B [H|H]]]]; exists y;
    (split; [auto|split; [lia|]]); [left; lia|right; auto].
Qed.
Print Assumptions C32_reflect_index.
Theorem C32_replicate_index : forall c n, 0 < n -> exists y, replicate_index c n = Some y /\
  Z.of_nat y = Z.max 0 (Z.min c (Z.of_nat n - 1)).
Proof.
  intros c n Hn. destruct (replicate_spec c n Hn) as [y [E [B H]]]. exists y. split; auto. lia.
Qed.
Print Assumptions C32_replicate_index.
Theorem C32_circular_index : forall c n, 0 < n -> exists y, circular_index c n = Some y /\
  Z.of_nat y = (c mod Z.of_nat n)%Z.
Proof.
  intros c n Hn. destruct (circular_spec c n Hn) as [y [E [B [q H]]]]. exists y. split; auto.
  apply (Z.mod_unique _ _ q); lia.
Qed.
Print Assumptions C32_circular_index.

(** Whole operation; operands row-major from the start of the storage, and no
    axis of size 0 unless the mode is constant. *)
Theorem C32_pad_partial : forall A (z d0 : A) m pv (t : tensor A) padding,
  good t -> plain_layout t ->
  length padding = length (tshape t) -> (m = PadConstant \/ all_pos (tshape t)) ->
  let out := map (fun p : nat * (nat * nat) => fst p + fst (snd p) + snd (snd p)) (combine (tshape t) padding) in
  exists r, t_pad z m pv t padding = Ok r /\ good r /\ tlay r = from_shape out /\
    forall i, valid out i ->
      (forall ys, pad_source m (tshape t) (map fst padding) i ys -> elem r i = elem t ys) /\
      ((m = PadConstant /\ ~ exists ys, pad_source m (tshape t) (map fst padding) i ys) -> elem r i = Some pv) /\
      (m <> PadConstant -> exists ys, pad_source m (tshape t) (map fst padding) i ys).
Proof. exact t_pad_spec. Qed.
Print Assumptions C32_pad_partial.

(** The source coordinate is in range and unique. *)
Theorem C32_source_in_range : forall m s before i ys,
  length before = length s -> length i = length s -> pad_source m s before i ys -> valid s ys.
Proof. exact pad_source_valid. Qed.
Print Assumptions C32_source_in_range.

Example C32_ex_const :
  t_pad 0%Z PadConstant 9%Z (mkT [1;2;3;4]%Z (from_shape [2;2])) [(0,1);(1,0)]
  = Ok (mkT [9;1;2; 9;3;4; 9;9;9]%Z (from_shape [3;3])).
Proof. reflexivity. Qed.
Example C32_ex_reflect :
  t_pad 0%Z PadReflect 0%Z (mkT [1;2;3]%Z (from_shape [3])) [(5,4)]
  = Ok (mkT [2;1;2;3;2;1;2;3;2;1;2;3]%Z (from_shape [12])).
Proof. reflexivity. Qed.
Example C32_ex_replicate :
  t_pad 0%Z PadReplicate 0%Z (mkT [1;2;3]%Z (from_shape [3])) [(2,2)]
  = Ok (mkT [1;1;1;2;3;3;3]%Z (from_shape [7])).
Proof. reflexivity. Qed.
Example C32_ex_circular :
  t_pad 0%Z PadCircular 0%Z (mkT [1;2;3]%Z (from_shape [3])) [(4,2)]
  = Ok (mkT [3;1;2;3;1;2;3;1;2]%Z (from_shape [9])).
Proof. reflexivity. Qed.

(** Views: padding the slice [3,4] of [1,2,3,4] shows 1 and 2. *)
Theorem C32_views_refuted :
  let v := mkT [1;2;3;4]%Z (mkLayout [2] [1] 2) in
  good v /\ exists r, t_pad 0%Z PadConstant 0%Z v [(1,1)] = Ok r /\
    elem v [0] = Some 3%Z /\ elem r [1] = Some 1%Z.
Proof.
  cbn zeta. split.
  - split; [reflexivity|]. intros [|x [|]] V; cbn in V; try lia. unfold addr. cbn. lia.
  - eexists. repeat split; reflexivity.
Qed.
Print Assumptions C32_views_refuted.

(** Padding an empty axis in the other modes has no source and reads out of bounds. *)
Theorem C32_empty_axis_refuted :
  let e := mkT (@nil Z) (from_shape [0]) in
  t_pad 0%Z PadReflect 0%Z e [(1,1)] = Panic /\ t_pad 0%Z PadReplicate 0%Z e [(1,1)] = Panic /\
  t_pad 0%Z PadCircular 0%Z e [(1,1)] = Panic.
Proof. repeat split; reflexivity. Qed.
Print Assumptions C32_empty_axis_refuted.
