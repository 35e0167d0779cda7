(** Properties C24, C25, C65, C66: reductions. *)
From Coq Require Import List Arith ZArith Lia Bool Permutation.
From Verif Require Import Base IndexSpec LayoutModel ViewSpec LayoutProofs.
From Verif Require Import KernelModel TensorModel TensorSpec TensorProofs EncodeModel.
From Verif Require Import ReduceModel ReduceSpec ReduceProofs ReduceProofs2.
Import ListNotations.

(** ** C24: each output accumulates exactly the elements of its fibre *)

(** Any accumulator: some ordering of the fibre of [j], each element once.
    Excluded: rank above 16 (the kernel's local arrays), an axis named twice,
    and, without keep_dim, a kept axis of size 0. *)
Theorem C24_fibre_partial : forall A B C (init : B) (f : B -> A -> B) (fin : nat -> B -> C) z (d0 : A)
    (t : tensor A) dims ds keep, good t ->
  axes_of (length (tshape t)) dims ds -> NoDup ds -> length (tshape t) <= 16 ->
  kept_pos keep ds (tshape t) ->
  exists r, t_reduce init (plain f) fin z t dims keep = Ok r /\
    good r /\ tlay r = from_shape (rshape keep ds (tshape t)) /\
    forall j, valid (tshape r) j -> exists L vs,
      Permutation L (fibre keep ds (tshape t) j) /\
      Forall2 (fun i v => elem t i = Some v) L vs /\
      elem r j = Some (fin (nelem (extents ds (tshape t))) (fold_left f vs init)).
Proof. exact reduce_plain. Qed.
Print Assumptions C24_fibre_partial.

(** Exact addition (also products, extrema, wrap-around addition): the order is
    immaterial, so the fibre can be read in row-major order. *)
Theorem C24_any_order_partial : forall A B C (init : B) (f : B -> A -> B) (fin : nat -> B -> C) z (d0 : A)
    (t : tensor A) dims ds keep, (forall b x y, f (f b x) y = f (f b y) x) -> good t ->
  axes_of (length (tshape t)) dims ds -> NoDup ds -> length (tshape t) <= 16 ->
  kept_pos keep ds (tshape t) ->
  exists r, t_reduce init (plain f) fin z t dims keep = Ok r /\
    good r /\ tlay r = from_shape (rshape keep ds (tshape t)) /\
    forall j, valid (tshape r) j -> exists vs,
      Forall2 (fun i v => elem t i = Some v) (fibre keep ds (tshape t) j) vs /\
      elem r j = Some (fin (nelem (extents ds (tshape t))) (fold_left f vs init)).
Proof. exact reduce_any_order. Qed.
Print Assumptions C24_any_order_partial.

Theorem C24_sum_partial : forall (t : tensor Z) dims ds keep, good t ->
  axes_of (length (tshape t)) dims ds -> NoDup ds -> length (tshape t) <= 16 ->
  kept_pos keep ds (tshape t) ->
  exists r, t_sum t dims keep = Ok r /\ tshape r = rshape keep ds (tshape t) /\
    forall j, valid (tshape r) j -> exists vs,
      Forall2 (fun i v => elem t i = Some v) (fibre keep ds (tshape t) j) vs /\
      elem r j = Some (fold_left Z.add vs 0%Z).
Proof.
  intros t dims ds keep Hg Hax ND HR Hk.
  destruct (reduce_any_order Z Z Z 0%Z Z.add (fun _ b => b) 0%Z 0%Z t dims ds keep) as [r [E [_ [L H]]]];
    auto; [intros; lia|].
  exists r. split; [exact E|]. split; [unfold tshape at 1; now rewrite L|]. exact H.
Qed.
Print Assumptions C24_sum_partial.

(** The mean divides the sum by the number of elements of the fibre. *)
Theorem C24_mean_partial : forall A (zero : A) (add : A -> A -> A) (div : A -> nat -> A) (t : tensor A) dims ds keep,
  good t -> axes_of (length (tshape t)) dims ds -> NoDup ds -> length (tshape t) <= 16 ->
  kept_pos keep ds (tshape t) ->
  exists r, t_mean zero add div t dims keep = Ok r /\ tshape r = rshape keep ds (tshape t) /\
    forall j, valid (tshape r) j -> exists L vs,
      Permutation L (fibre keep ds (tshape t) j) /\ Forall2 (fun i v => elem t i = Some v) L vs /\
      elem r j = Some (div (fold_left add vs zero) (length vs)).
Proof.
  intros A zero add div t dims ds keep Hg Hax ND HR Hk.
  destruct (reduce_plain A A A zero add (fun n b => div b n) zero zero t dims ds keep) as [r [E [_ [L H]]]]; auto.
  exists r. split; [exact E|]. assert (ES : tshape r = rshape keep ds (tshape t)) by (unfold tshape at 1; now rewrite L).
  split; auto. intros j V. destruct (H j V) as [l [vs [P [F X]]]]. exists l, vs. split; auto. split; auto.
  rewrite X. do 2 f_equal. rewrite <- (Forall2_len _ _ _ _ _ F), (Permutation_length P).
  rewrite ES in V. rewrite <- (Permutation_length (visit_fibre keep ds (tshape t) j ND (axes_lt _ _ _ Hax) V)).
  unfold visit. now rewrite map_length, all_idx_length.
Qed.
Print Assumptions C24_mean_partial.

(** Along one axis the values are met in the order of the axis: this fixes the
    result of order-sensitive (floating-point) accumulation too. *)
Theorem C24_one_axis_order_partial :
  forall A B C (init : B) (f : B -> A -> B) (fin : nat -> B -> C) z (d0 : A)
  (t : tensor A) dims d n keep, good t ->
  axes_of (length (tshape t)) dims [d] -> length (tshape t) <= 16 ->
  kept_pos keep [d] (tshape t) -> nth_error (tshape t) d = Some n ->
  exists r, t_reduce init (plain f) fin z t dims keep = Ok r /\
    tlay r = from_shape (rshape keep [d] (tshape t)) /\
    forall j, valid (tshape r) j -> exists base vs,
      rproj keep [d] base = j /\ length base = length (tshape t) /\ length vs = n /\
      (forall k v, nth_error vs k = Some v -> elem t (upd base d k) = Some v) /\
      elem r j = Some (fin n (fold_left f vs init)).
Proof. exact reduce_one_axis. Qed.
Print Assumptions C24_one_axis_order_partial.

(** Every input element contributes to exactly one output. *)
Theorem C24_partition : forall keep ds s i, valid s i ->
  valid (rshape keep ds s) (rproj keep ds i) /\
  forall j, In i (fibre keep ds s j) <-> j = rproj keep ds i.
Proof. exact fibre_partition. Qed.
Print Assumptions C24_partition.

(** max and min return an extreme element of the fibre. *)
Theorem C24_max_partial : forall lo (t : tensor Z) dims ds keep, good t ->
  axes_of (length (tshape t)) dims ds -> NoDup ds -> length (tshape t) <= 16 ->
  kept_pos keep ds (tshape t) -> (forall i v, elem t i = Some v -> (lo <= v)%Z) ->
  exists r, t_max lo t dims keep = Ok r /\
    forall j, valid (tshape r) j -> fibre keep ds (tshape t) j <> [] -> exists vs m,
      Forall2 (fun i v => elem t i = Some v) (fibre keep ds (tshape t) j) vs /\
      elem r j = Some m /\ In m vs /\ Forall (fun v => v <= m)%Z vs.
Proof.
  intros lo t dims ds keep Hg Hax ND HR Hk Hlo.
  destruct (reduce_any_order Z Z Z lo (fun acc v => if (acc >? v)%Z then acc else v)
              (fun _ b => b) 0%Z 0%Z t dims ds keep max_swap Hg Hax ND HR Hk) as [r [E [_ [_ H]]]].
  exists r. split; [exact E|]. intros j Hj Hne. destruct (H j Hj) as [vs [F Er]].
  eexists vs, _. split; auto. split; [exact Er|]. apply fold_max.
  - clear - F Hlo. induction F; constructor; eauto.
  - intros ->. inversion F; congruence.
Qed.
Print Assumptions C24_max_partial.
Theorem C24_min_partial : forall hi (t : tensor Z) dims ds keep, good t ->
  axes_of (length (tshape t)) dims ds -> NoDup ds -> length (tshape t) <= 16 ->
  kept_pos keep ds (tshape t) -> (forall i v, elem t i = Some v -> (v <= hi)%Z) ->
  exists r, t_min hi t dims keep = Ok r /\
    forall j, valid (tshape r) j -> fibre keep ds (tshape t) j <> [] -> exists vs m,
      Forall2 (fun i v => elem t i = Some v) (fibre keep ds (tshape t) j) vs /\
      elem r j = Some m /\ In m vs /\ Forall (fun v => m <= v)%Z vs.
Proof.
  intros hi t dims ds keep Hg Hax ND HR Hk Hhi.
  destruct (reduce_any_order Z Z Z hi (fun acc v => if (acc <? v)%Z then acc else v)
              (fun _ b => b) 0%Z 0%Z t dims ds keep min_swap Hg Hax ND HR Hk) as [r [E [_ [_ H]]]].
  exists r. split; [exact E|]. intros j Hj Hne. destruct (H j Hj) as [vs [F Er]].
  eexists vs, _. split; auto. split; [exact Er|]. apply fold_min.
  - clear - F Hhi. induction F; constructor; eauto.
  - intros ->. inversion F; congruence.
Qed.
Print Assumptions C24_min_partial.

Example C24_ex_view :  (* columns of a transposed 2x3 matrix, last axis named -1 *)
  t_sum (mkT [1;2;3;4;5;6]%Z (mkLayout [3;2] [1;3] 0)) [(-1)%Z] false
  = Ok (mkT [5;7;9]%Z (from_shape [3])).
Proof. reflexivity. Qed.
Example C24_ex_keep :
  t_sum (mkT [1;2;3;4;5;6;7;8]%Z (from_shape [2;2;2])) [0%Z; 2%Z] true
  = Ok (mkT [14;22]%Z (from_shape [1;2;1])).
Proof. reflexivity. Qed.
Example C24_ex_fibre : fibre false [0;2] [2;2;2] [1] = [[0;1;0];[0;1;1];[1;1;0];[1;1;1]].
Proof. reflexivity. Qed.

(** An axis named twice is counted repeatedly: sum of [1,2,3] over (0,0) is 18. *)
Theorem C24_duplicate_axis_refuted :
  t_sum (mkT [1;2;3]%Z (from_shape [3])) [0%Z; 0%Z] false = Ok (mkT [18]%Z (from_shape [])).
Proof. reflexivity. Qed.
Print Assumptions C24_duplicate_axis_refuted.

(** At rank 17 the kernel writes past its local arrays. *)
Theorem C24_rank17_refuted :
  ~ (forall (t : tensor Z) dims ds, good t -> axes_of (length (tshape t)) dims ds -> NoDup ds ->
     exists r, t_sum t dims true = Ok r).
Proof.
  intros H. set (t := mkT [7]%Z (from_shape (repeat 1 17))).
  destruct (H t [0%Z] [0]) as [r E].
  - apply from_shape_good. reflexivity.
  - constructor; [|constructor]. split; [simpl; lia|left; reflexivity].
  - constructor; [auto|constructor].
  - vm_compute in E. discriminate.
Qed.
Print Assumptions C24_rank17_refuted.

(** ** C25: output shape *)

Theorem C25_shape_partial : forall A B C (init : B) (f : B -> A -> B) (fin : nat -> B -> C) z (d0 : A)
    (t : tensor A) dims ds keep, good t ->
  axes_of (length (tshape t)) dims ds -> NoDup ds -> length (tshape t) <= 16 ->
  kept_pos keep ds (tshape t) ->
  exists r, t_reduce init (plain f) fin z t dims keep = Ok r /\ good r /\
    (keep = true -> tshape r = set_axes ds 1 0 (tshape t)) /\
    (keep = false -> tshape r = drop_axes ds 0 (tshape t)).
Proof.
  intros A B C init f fin z d0 t dims ds keep Hg Hax ND HR Hk.
  destruct (reduce_plain A B C init f fin z d0 t dims ds keep) as [r [E [G [L _]]]]; auto.
  exists r. split; auto. split; auto. unfold tshape at 1 3. rewrite L. cbn [from_shape lshape].
  split; intros ->; reflexivity.
Qed.
Print Assumptions C25_shape_partial.

Example C25_ex : exists r, t_sum (mkT (repeat 1%Z 24) (from_shape [2;3;4])) [(-2)%Z] false = Ok r
  /\ tshape r = [2;4].
Proof. eexists. split; reflexivity. Qed.

(** A kept axis of size 0 is dropped together with the reduced ones: summing a
    [0,3] tensor over axis 1 claims shape [] (one element) on an empty storage. *)
Theorem C25_zero_size_refuted :
  t_sum (mkT [] (from_shape [0;3])) [1%Z] false = Ok (mkT [] (from_shape []))
  /\ rshape false [1] [0;3] = [0].
Proof. split; reflexivity. Qed.
Print Assumptions C25_zero_size_refuted.

(** An axis out of range panics instead of returning an error. *)
Theorem C25_bad_axis_refuted :
  t_sum (mkT [1;2]%Z (from_shape [2])) [1%Z] false = Panic /\
  t_sum (mkT [1;2]%Z (from_shape [2])) [(-2)%Z] false = Panic.
Proof. split; reflexivity. Qed.
Print Assumptions C25_bad_axis_refuted.

(** ** C65: argmax *)

(** The kernel finds, along one axis, the first position of a maximum. *)
Theorem C65_argmax_kernel_partial : forall A (gtb : A -> A -> bool) (d0 : A)
  (Hirr : forall a, gtb a a = false)
  (Htr : forall a b c, gtb a b = true -> gtb b c = true -> gtb a c = true)
  (Htot : forall a b, gtb a b = false -> gtb b a = false -> forall c, gtb c a = gtb c b /\ gtb a c = gtb b c)
  (t : tensor A) dims d n keep, good t ->
  axes_of (length (tshape t)) dims [d] -> length (tshape t) <= 16 ->
  kept_pos keep [d] (tshape t) -> nth_error (tshape t) d = Some n -> 0 < n ->
  exists r, t_reduce None (argmax_step gtb) argmax_fin 0 t dims keep = Ok r /\
    tlay r = from_shape (rshape keep [d] (tshape t)) /\
    forall j, valid (tshape r) j -> exists base vs m,
      rproj keep [d] base = j /\ length vs = n /\
      (forall k v, nth_error vs k = Some v -> elem t (upd base d k) = Some v) /\
      elem r j = Some m /\ first_max gtb vs m.
Proof. exact argmax_spec. Qed.
Print Assumptions C65_argmax_kernel_partial.

Example C65_ex :
  t_reduce None (argmax_step (fun a b => b <? a)) argmax_fin 0
    (mkT [1;5;3;2;8;1] (from_shape [2;3])) [1%Z] false = Ok (mkT [1;1] (from_shape [2])).
Proof. reflexivity. Qed.

(** ... but its int32 results are stored in a buffer of the operand's dtype: a
    write outside the buffer for 1- and 2-byte types, *)
Theorem C65_argmax_u8_refuted : forall junk,
  t_argmax U8 (fun a b => (b <? a)%Z) junk (mkT [1;5;3]%Z (from_shape [3])) [0%Z] false = Panic.
Proof. reflexivity. Qed.
Print Assumptions C65_argmax_u8_refuted.

(** two indices in one element (and uninitialised memory in the other) for
    8-byte types, *)
Theorem C65_argmax_i64_refuted :
  t_argmax I64 (fun a b => (b <? a)%Z) (repeat 255%Z 16)
    (mkT [1;5;3;2;8;1]%Z (from_shape [2;3])) [1%Z] false
  = Ok (mkT [4294967297; -1]%Z (from_shape [2])).
Proof. reflexivity. Qed.
Print Assumptions C65_argmax_i64_refuted.

(** and for f32 the bit pattern of the integer (1 becomes 2^-149). *)
Theorem C65_argmax_f32_refuted : forall junk,
  t_argmax F32 (fun a b => (b <? a)%Z) junk (mkT [1;5;3]%Z (from_shape [3])) [0%Z] false
  = Ok (mkT [1]%Z (from_shape [])) /\ (1 <> 1065353216)%Z (* = bits of 1.0f *).
Proof. intros junk. split; [reflexivity|discriminate]. Qed.
Print Assumptions C65_argmax_f32_refuted.

(** ** C66: any / all *)
Theorem C66_any_bool_refuted : forall nz junk t dims keep, t_any BOOL nz junk t dims keep = Err EInternal.
Proof. reflexivity. Qed.
Print Assumptions C66_any_bool_refuted.

(** Four booleans share one f32 element, the rest is uninitialised memory. *)
Theorem C66_any_f32_refuted :
  t_any F32 (fun v => negb (v =? 0)%Z) (repeat 171%Z 8) (mkT [0;7;0;0]%Z (from_shape [2;2])) [1%Z] false
  = Ok (mkT [2880110593; 2880154539]%Z (from_shape [2])).
Proof. reflexivity. Qed.
Print Assumptions C66_any_f32_refuted.

(** For one-byte types the result is right. *)
Theorem C66_any_u8_partial : forall (t : tensor Z) dims ds keep junk, good t ->
  axes_of (length (tshape t)) dims ds -> NoDup ds -> length (tshape t) <= 16 ->
  kept_pos keep ds (tshape t) ->
  exists r, t_any U8 (fun v => negb (v =? 0)%Z) junk t dims keep = Ok r /\
    tshape r = rshape keep ds (tshape t) /\
    forall j, valid (tshape r) j -> exists vs b,
      Forall2 (fun i v => elem t i = Some v) (fibre keep ds (tshape t) j) vs /\
      elem r j = Some (if b : bool then 1%Z else 0%Z) /\ (b = true <-> exists v, In v vs /\ v <> 0%Z).
Proof.
  intros t dims ds keep junk Hg Hax ND HR Hk.
  destruct (reduce_any_order Z bool bool false (fun b v => b || negb (v =? 0)%Z) (fun _ b => b) false 0%Z
              t dims ds keep) as [r [E [G [L H]]]]; auto.
  { intros [] x y; cbn; auto. now rewrite orb_comm. }
  unfold t_any. change (val U8) with Z in *. rewrite E. cbn [bind].
  set (words := map (fun b : bool => if b then 1%Z else 0%Z) (tstore r)).
  assert (EL : flat_map (le_bytes 1) words = words).
  { subst words. generalize (tstore r). induction l as [|b l IH]; [reflexivity|].
    cbn [map flat_map]. rewrite IH. destruct b; reflexivity. }
  assert (LW : length words = length (tstore r)) by apply map_length.
  unfold reinterpret. rewrite EL, LW. cbn [dsize]. rewrite Nat.mul_1_r, Nat.ltb_irrefl, Nat.sub_diag.
  cbn [firstn ub bind]. rewrite app_nil_r.
  assert (EC : map (decode U8) (chunks_exact 1 words) = words).
  { unfold chunks_exact. generalize words. induction words0 as [|x l IH]; [reflexivity|].
    cbn [length chunks_exact_fuel firstn skipn Nat.ltb Nat.leb map]. rewrite IH. f_equal.
    cbn. lia. }
  rewrite EC. eexists. split; [reflexivity|]. split; [unfold tshape at 1; cbn [tlay]; now rewrite L|].
  intros j Hj. destruct (H j Hj) as [vs [F Er]]. exists vs, (fold_left (fun b v => b || negb (v =? 0)%Z) vs false).
  split; auto. split.
  - unfold elem in *. cbn [tstore tlay]. subst words. rewrite nth_error_map. rewrite Er. reflexivity.
  - clear. assert (G : forall b, fold_left (fun b v => b || negb (v =? 0)%Z) vs b = true <->
                      b = true \/ exists v, In v vs /\ v <> 0%Z).
    { induction vs as [|v vs IH]; intros b; cbn [fold_left].
      - split; auto. intros [H|[v [[] _]]]; auto.
      - rewrite IH. split.
        + intros [H|[w [Hw Hn]]]; [|right; exists w; split; [now right|auto]].
          apply orb_true_iff in H. destruct H as [H|H]; auto. right. exists v. split; [now left|]. lia.
        + intros [->|[w [[->|Hw] Hn]]]; auto.
          * left. apply orb_true_iff. right. lia.
          * right. eauto. }
    rewrite G. split; [intros [H|H]; [discriminate|auto]|auto].
Qed.
Print Assumptions C66_any_u8_partial.
