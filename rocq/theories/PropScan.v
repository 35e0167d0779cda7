(** Property C26: cumulative sum. *)
From Coq Require Import List Arith ZArith Lia Bool.
From Verif Require Import Base IndexSpec LayoutModel ViewSpec LayoutProofs.
From Verif Require Import KernelModel TensorModel TensorSpec TensorProofs ScanModel ScanProofs.
Import ListNotations.

(** Every accumulator and conversion, any view.  Excluded: rank above 16, an axis
    out of range. *)
Theorem C26_prefix_partial : forall A B C (init : B) add (fin : B -> C) (copy : A -> C) z (d0 : A)
    (t : tensor A) a,
  good t -> length (tshape t) <= 16 -> axis_ok (length (tshape t)) a ->
  exists r, t_cumsum init add fin copy z t a = Ok r /\ good r /\ tlay r = from_shape (tshape t) /\
    forall i, valid (tshape t) i -> exists vs,
      length vs = S (nth (axis_of (length (tshape t)) a) i 0) /\
      (forall k v, nth_error vs k = Some v -> elem t (upd i (axis_of (length (tshape t)) a) k) = Some v) /\
      elem r i = Some (fin (fold_left add vs init)).
Proof. exact t_cumsum_spec. Qed.
Print Assumptions C26_prefix_partial.

(** Exact addition: the difference of neighbouring outputs is the input, and the
    first output along the axis is the input. *)
Theorem C26_difference_partial : forall (t : tensor Z) a z,
  good t -> length (tshape t) <= 16 -> axis_ok (length (tshape t)) a ->
  exists r, t_cumsum 0%Z Z.add (fun b => b) (fun x => x) z t a = Ok r /\ tshape r = tshape t /\
    let d := axis_of (length (tshape t)) a in
    (forall i k, valid (tshape t) (upd i d (S k)) -> valid (tshape t) (upd i d k) -> length i = length (tshape t) ->
       exists x x0 y, elem r (upd i d (S k)) = Some x /\ elem r (upd i d k) = Some x0 /\
                      elem t (upd i d (S k)) = Some y /\ (x - x0 = y)%Z) /\
    (forall i, length i = length (tshape t) -> valid (tshape t) (upd i d 0) ->
       elem r (upd i d 0) = elem t (upd i d 0)).
Proof.
  intros t a z Hg HR Ha.
  destruct (t_cumsum_spec Z Z Z 0%Z Z.add (fun b => b) (fun x => x) z 0%Z t a Hg HR Ha) as [r [E [_ [L H]]]].
  exists r. split; auto. split; [unfold tshape; now rewrite L|]. cbn zeta.
  destruct (axis_usize _ _ Ha) as [_ Hd]. set (d := axis_of (length (tshape t)) a) in *. clearbody d.
  assert (N : forall i k, length i = length (tshape t) -> nth d (upd i d k) 0 = k).
  { intros i k Hi. apply nth_error_nth. apply nth_error_upd_eq. lia. }
  split.
  - intros i k V1 V0 Li. destruct (H _ V1) as [vs [L1 [H1 E1]]]. destruct (H _ V0) as [vs0 [L0 [H0 E0]]].
    rewrite N in * by auto.
    exists (fold_left Z.add vs 0%Z), (fold_left Z.add vs0 0%Z), (nth (S k) vs 0%Z).
    assert (Ey : nth_error vs (S k) = Some (nth (S k) vs 0%Z)) by (apply nth_error_nth'; lia).
    apply H1 in Ey. rewrite upd_upd in Ey.
    repeat split; auto.
    eapply (cumsum_diff t r d i vs vs0); eauto.
    + intros q v Hq. rewrite <- (H1 _ _ Hq). now rewrite upd_upd.
    + intros q v Hq. right. rewrite <- (H0 _ _ Hq). now rewrite upd_upd.
  - intros i Li V. destruct (H _ V) as [vs [L1 [H1 E1]]]. rewrite N in L1 by auto.
    destruct vs as [|x [|? ?]]; try discriminate. rewrite E1.
    specialize (H1 0 x eq_refl). rewrite upd_upd in H1. rewrite H1. simpl. reflexivity.
Qed.
Print Assumptions C26_difference_partial.

Example C26_ex_view :  (* a transposed 2x3 matrix, along its first axis *)
  t_cumsum 0%Z Z.add (fun b => b) (fun x => x) 0%Z
    (mkT [1;2;3;4;5;6]%Z (mkLayout [3;2] [1;3] 0)) (-2)%Z
  = Ok (mkT [1;4;3;9;6;15]%Z (from_shape [3;2])).
Proof. reflexivity. Qed.
Example C26_ex_outer :  (* two outer axes: decoded in the other order, same result *)
  t_cumsum 0%Z Z.add (fun b => b) (fun x => x) 0%Z
    (mkT (map Z.of_nat (seq 1 12)) (from_shape [2;3;2])) 2%Z
  = Ok (mkT [1;3;3;7;5;11;7;15;9;19;11;23]%Z (from_shape [2;3;2])).
Proof. reflexivity. Qed.

(** A scalar is returned as it is, for any axis. *)
Theorem C26_scalar : forall A B C (init : B) add (fin : B -> C) (copy : A -> C) z (t : tensor A) a x,
  tshape t = [] -> lstrides (tlay t) = [] -> elem t [] = Some x ->
  t_cumsum init add fin copy z t a = Ok (mkT [copy x] (from_shape [])).
Proof.
  intros A B C init add fin copy z [st [sh str off]] a x Hs Ht He. unfold tshape in Hs. cbn in Hs, Ht. subst.
  unfold elem, addr in He. cbn in He. rewrite Nat.add_0_r in He.
  unfold t_cumsum, scan_metadata, cumsum_kernel. cbn. rewrite He. reflexivity.
Qed.
Print Assumptions C26_scalar.

(** The axis is not checked: out of range, the kernel reads outside its arrays. *)
Theorem C26_bad_axis_refuted :
  t_cumsum 0%Z Z.add (fun b => b) (fun x => x) 0%Z (mkT [1;2]%Z (from_shape [2])) 1%Z = Panic /\
  t_cumsum 0%Z Z.add (fun b => b) (fun x => x) 0%Z (mkT [1;2]%Z (from_shape [2])) (-2)%Z = Panic.
Proof. split; reflexivity. Qed.
Print Assumptions C26_bad_axis_refuted.

Theorem C26_rank17_refuted :
  ~ (forall (t : tensor Z) a, good t -> axis_ok (length (tshape t)) a ->
     exists r, t_cumsum 0%Z Z.add (fun b => b) (fun x => x) 0%Z t a = Ok r).
Proof.
  intros H. destruct (H (mkT [7]%Z (from_shape (repeat 1 17))) 0%Z) as [r E].
  - apply from_shape_good. reflexivity.
  - unfold axis_ok. cbn. lia.
  - vm_compute in E. discriminate.
Qed.
Print Assumptions C26_rank17_refuted.
