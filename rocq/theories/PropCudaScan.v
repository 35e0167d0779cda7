(** Property C138: the cumulative sum on CUDA, whatever the order of the threads. *)
From Coq Require Import List Arith ZArith Lia Bool.
From Verif Require Import Base IndexSpec LayoutModel ViewSpec LayoutProofs.
From Verif Require Import KernelModel TensorModel TensorSpec TensorProofs ScanModel ScanProofs LaunchModel CudaScanModel CudaScanProofs.
Import ListNotations.

(** Every accumulator and conversion, any view, every schedule giving each thread its
    turns, the loops of the threads interleaved.  Excluded: rank above 16, an axis out of
    range, and 2^32 fibres or more along the axis. *)
Theorem C138_prefix_partial : forall A B C (init : B) add (fin : B -> C) (copy : A -> C) (d0 : A) sched
    (t : tensor A) a,
  enough_turns sched -> good t -> length (tshape t) <= 16 -> axis_ok (length (tshape t)) a ->
  (Z.of_nat (nelem (upd (tshape t) (axis_of (length (tshape t)) a) 1%nat)) < 2 ^ 32)%Z ->
  exists r, cuda_t_cumsum init add fin sched copy t a = Ok r /\ good r /\ tlay r = from_shape (tshape t) /\
    forall i, valid (tshape t) i -> exists vs,
      length vs = S (nth (axis_of (length (tshape t)) a) i 0) /\
      (forall k v, nth_error vs k = Some v -> elem t (upd i (axis_of (length (tshape t)) a) k) = Some v) /\
      elem r i = Some (fin (fold_left add vs init)).
Proof.
  intros A B C init add fin copy d0 sched t a EN Hg HR Ha HN.
  rewrite (cuda_t_cumsum_same A B C init add fin d0 sched EN copy (copy d0) t a Hg HR Ha HN).
  exact (t_cumsum_spec A B C init add fin copy (copy d0) d0 t a Hg HR Ha).
Qed.
Print Assumptions C138_prefix_partial.

(** In particular it is what the CPU gives. *)
Theorem C138_same_partial : forall A B C (init : B) add (fin : B -> C) (copy : A -> C) (d0 : A) sched z (t : tensor A) a,
  enough_turns sched -> good t -> length (tshape t) <= 16 -> axis_ok (length (tshape t)) a ->
  (Z.of_nat (nelem (upd (tshape t) (axis_of (length (tshape t)) a) 1%nat)) < 2 ^ 32)%Z ->
  cuda_t_cumsum init add fin sched copy t a = t_cumsum init add fin copy z t a.
Proof. intros A B C init add fin copy d0 sched z t a EN. exact (cuda_t_cumsum_same A B C init add fin d0 sched EN copy z t a). Qed.
Print Assumptions C138_same_partial.

(** There are such schedules: one thread after the other, or all of them in step. *)
Definition one_by_one (n k : nat) : list nat := flat_map (fun t => repeat t k) (seq 0 (launched n)).
Definition in_step (n k : nat) : list nat := flat_map (fun _ => seq 0 (launched n)) (seq 0 k).
Theorem C138_turns_exist : enough_turns one_by_one /\ enough_turns in_step.
Proof.
  split; intros n k t T.
  - unfold one_by_one.
    assert (H : forall l, In t l -> k <= count_occ Nat.eq_dec (flat_map (fun t => repeat t k) l) t).
    { induction l as [|x l IH]; intros []; cbn [flat_map]; rewrite count_occ_app.
      - subst x. assert (R : count_occ Nat.eq_dec (repeat t k) t = k).
        { clear. induction k as [|k IH]; [reflexivity|]. cbn [repeat count_occ]. destruct (Nat.eq_dec t t); [|contradiction]. now rewrite IH. }
        lia.
      - apply IH in H. lia. }
    apply H. apply in_seq. lia.
  - unfold in_step.
    assert (O : count_occ Nat.eq_dec (seq 0 (launched n)) t = 1).
    { apply (proj1 (NoDup_count_occ' Nat.eq_dec _) (seq_NoDup (launched n) 0)). apply in_seq. lia. }
    assert (H : forall l : list nat, length l <= count_occ Nat.eq_dec (flat_map (fun _ => seq 0 (launched n)) l) t).
    { induction l as [|x l IH]; cbn [flat_map length]; [lia|]. rewrite count_occ_app, O. lia. }
    specialize (H (seq 0 k)). now rewrite seq_length in H.
Qed.
Print Assumptions C138_turns_exist.

Example C138_ex :  (* a transposed 2x3 matrix, along its first axis: two threads with work to do *)
  let t := mkT [1;2;3;4;5;6]%Z (mkLayout [3;2] [1;3] 0) in
  good t /\ axis_ok (length (tshape t)) (-2)%Z /\
  cuda_t_cumsum 0%Z Z.add (fun b => b) in_step (fun x => x) t (-2)%Z = Ok (mkT [1;4;3;9;6;15]%Z (from_shape [3;2])).
Proof.
  cbv zeta.
  assert (G : good (mkT [1;2;3;4;5;6]%Z (mkLayout [3;2] [1;3] 0))).
  { split; [reflexivity|]. intros i V. destruct i as [|x [|y [|? ?]]]; cbn in V; try tauto. cbn. lia. }
  assert (AX : axis_ok (length (tshape (mkT [1;2;3;4;5;6]%Z (mkLayout [3;2] [1;3] 0)))) (-2)%Z) by (cbn; unfold axis_ok; lia).
  split; [exact G|]. split; [exact AX|].
  rewrite (C138_same_partial Z Z Z 0%Z Z.add (fun b => b) (fun x => x) 0%Z in_step 0%Z);
    [reflexivity|apply C138_turns_exist|exact G|cbn; lia|exact AX|now vm_compute].
Qed.

(** C138 is false of a scalar with an axis other than 0: given back on the CPU,
    a panic on CUDA. *)
Theorem C138_scalar_refuted : forall A B C (init : B) add (fin : B -> C) sched (copy : A -> C) z (t : tensor A) a x,
  tshape t = [] -> lstrides (tlay t) = [] -> elem t [] = Some x -> (a <> 0)%Z ->
  t_cumsum init add fin copy z t a = Ok (mkT [copy x] (from_shape [])) /\
  cuda_t_cumsum init add fin sched copy t a = Panic.
Proof.
  intros A B C init add fin sched copy z t a x Hs Ht He NZ. split.
  - destruct t as [st [sh str off]]. unfold tshape in Hs. cbn in Hs, Ht. subst.
    unfold elem, addr in He. cbn in He. rewrite Nat.add_0_r in He. unfold t_cumsum. cbn. rewrite He. reflexivity.
  - rewrite (cuda_t_cumsum_scalar A B C init add fin sched copy t a x Hs Ht He).
    now rewrite (proj2 (Z.eqb_neq a 0) NZ).
Qed.
Print Assumptions C138_scalar_refuted.
(** With the axis 0 a scalar is given back on both. *)
Theorem C138_scalar : forall A B C (init : B) add (fin : B -> C) sched (copy : A -> C) (t : tensor A) x,
  tshape t = [] -> lstrides (tlay t) = [] -> elem t [] = Some x ->
  cuda_t_cumsum init add fin sched copy t 0%Z = Ok (mkT [copy x] (from_shape [])).
Proof. intros A B C init add fin sched copy t x Hs Ht He. exact (cuda_t_cumsum_scalar A B C init add fin sched copy t 0%Z x Hs Ht He). Qed.
Print Assumptions C138_scalar.
Example C138_scalar_ex :
  t_cumsum 0%Z Z.add (fun b => b) (fun x => x) 0%Z (mkT [7]%Z (from_shape [])) (-1)%Z = Ok (mkT [7]%Z (from_shape [])) /\
  cuda_t_cumsum 0%Z Z.add (fun b => b) in_step (fun x => x) (mkT [7]%Z (from_shape [])) (-1)%Z = Panic /\
  cuda_t_cumsum 0%Z Z.add (fun b => b) in_step (fun x => x) (mkT [7]%Z (from_shape [])) 0%Z = Ok (mkT [7]%Z (from_shape [])).
Proof. repeat split. Qed.

(** C138 is false of an axis out of range: never a result, never an error. *)
Theorem C138_bad_axis_refuted : forall A B C (init : B) add (fin : B -> C) sched (copy : A -> C) (t : tensor A) a,
  lstrides (tlay t) <> [] -> wf_layout (tlay t) -> ~ axis_ok (length (tshape t)) a ->
  cuda_t_cumsum init add fin sched copy t a = Panic.
Proof.
  intros A B C init add fin sched copy t a NE W NA. unfold cuda_t_cumsum. change (lshape (tlay t)) with (tshape t).
  unfold axis_ok in NA. unfold as_usize. set (nd := length (tshape t)) in *.
  assert (L : length (lstrides (tlay t)) = nd) by exact W. assert (P : 0 < nd) by (destruct (lstrides (tlay t)); [congruence|cbn in L; lia]).
  destruct (a <? 0)%Z eqn:N.
  - apply Z.ltb_lt in N. replace (Z.of_nat nd + a <? 0)%Z with true by (symmetry; apply Z.ltb_lt; lia). reflexivity.
  - apply Z.ltb_ge in N. set (d := Z.to_nat a). assert (D : nd <= d) by lia. clearbody d.
    destruct (nd <? d) eqn:LT; [reflexivity|]. cbv zeta. apply Nat.ltb_ge in LT. assert (d = nd) by lia. subst d.
    assert (K : cuda_cumsum init add fin sched (tstore t) (repeat None (layout_size (tlay t))) copy (scan_metadata (tlay t) nd) = None).
    { unfold cuda_cumsum, scan_metadata. change (lshape (tlay t)) with (tshape t). fold nd. cbn [nth_error app obind].
      destruct (md_slice _ _ _); [|reflexivity]. cbn [obind]. destruct (md_slice _ _ _); [|reflexivity]. cbn [obind].
      destruct (nth_error _ _); [|reflexivity]. cbn [obind]. destruct (nth_error _ _) as [dm|] eqn:ED; [|reflexivity]. cbn [obind].
      assert (dm = nd).
      { assert (X : nth_error ([layout_size (tlay t); nd] ++ tshape t ++ lstrides (tlay t) ++ [loffset (tlay t); nd]) (3 + 2 * nd) = Some nd).
        { replace ([layout_size (tlay t); nd] ++ tshape t ++ lstrides (tlay t) ++ [loffset (tlay t); nd]) with
            ((([layout_size (tlay t); nd] ++ tshape t ++ lstrides (tlay t)) ++ [loffset (tlay t)]) ++ [nd]) by (rewrite <- !app_assoc; reflexivity).
          rewrite nth_error_app2; rewrite !app_length; cbn [length]; fold nd; rewrite L; [|lia].
          replace (3 + 2 * nd - (2 + (nd + nd) + 1)) with 0 by lia. reflexivity. }
        cbn [app] in X. rewrite X in ED. now injection ED. }
      subst dm. replace (nd =? 0) with false by (symmetry; apply Nat.eqb_neq; lia). rewrite Nat.leb_refl, orb_true_r. reflexivity. }
    rewrite K. reflexivity.
Qed.
Print Assumptions C138_bad_axis_refuted.
