(** Consequences of the interpolation formulas: same size, range, gradient. *)
From Coq Require Import List Arith ZArith Bool Lia QArith Qcanon Qround Lqa.
From Verif Require Import Base IndexSpec LayoutModel ViewSpec TensorModel TensorSpec TensorProofs
  ResizeModel ResizeSpec ResizeProofs ResizeProofs2.
Import ListNotations.
Open Scope nat_scope.

Lemma src_same : forall tr n o, o < n -> src_coord tr n n o = qn o.
Proof.
  intros tr n o H. rewrite <- exact_coord by lia. unfold transform_coord. now rewrite Nat.eqb_refl.
Qed.
Lemma this_qn : forall n, (this (qn n) == inject_Z (Z.of_nat n))%Q.
Proof. intros. unfold qn. cbn [this Q2Qc]. apply Qred_correct. Qed.
Lemma floor_qn : forall n, Qfloor (qn n) = Z.of_nat n.
Proof. intros. rewrite (Qfloor_comp _ _ (this_qn n)). apply Qfloor_Z. Qed.
Lemma frac_qn : forall n, frac (qn n) = 0%Qc.
Proof. intros. unfold frac. rewrite floor_qn. change (qz (Z.of_nat n)) with (qn n). ring. Qed.
Lemma inside_id : forall n o, o < n -> inside n (Z.of_nat o) = o.
Proof. intros. unfold inside. lia. Qed.
Lemma pick_qn : forall near n, pick near (qn n) = Z.of_nat n.
Proof.
  intros near n. pose proof (this_qn n) as E. destruct near; unfold pick.
  - apply floor_qn.
  - apply ceil_uniq; rewrite E; lra.
  - apply ceil_uniq; rewrite E; change (this half) with (1 # 2)%Q; lra.
  - apply floor_uniq; rewrite E; change (this half) with (1 # 2)%Q; lra.
Qed.
Lemma near_same : forall tr near s o, valid s o -> near_idx near s (src_coords tr s s o) = o.
Proof.
  intros tr near s. induction s as [|n s IH]; intros [|x o] V; cbn in *; auto; try tauto.
  destruct V as [V1 V2]. rewrite src_same by auto. rewrite pick_qn, inside_id by auto. now rewrite IH.
Qed.
Lemma lin_same : forall tr s o f, valid s o -> interp lin1 s (src_coords tr s s o) f = f o.
Proof.
  intros tr s. induction s as [|n s IH]; intros [|x o] f V; cbn in *; auto; try tauto.
  destruct V as [V1 V2]. rewrite src_same by auto. unfold lin1. rewrite frac_qn, floor_qn, inside_id by auto.
  rewrite !IH by auto. ring.
Qed.
Lemma cub_same : forall tr s o f, valid s o -> interp cub1 s (src_coords tr s s o) f = f o.
Proof.
  intros tr s. induction s as [|n s IH]; intros [|x o] f V; cbn in *; auto; try tauto.
  destruct V as [V1 V2]. rewrite src_same by auto. unfold cub1. rewrite frac_qn, floor_qn, inside_id by auto.
  rewrite !IH by auto. ring.
Qed.

Definition value_or0 (t : tensor Qc) (i : list nat) : Qc := match elem t i with Some v => v | None => 0%Qc end.
Lemma value_ok : forall t i, good t -> valid (tshape t) i -> elem t i = Some (value_or0 t i).
Proof.
  intros t i G V. unfold value_or0, elem. destruct (nth_error (tstore t) (addr (tlay t) i)) eqn:E; auto.
  apply nth_error_None in E. destruct G as [_ G]. specialize (G i V). lia.
Qed.

Lemma resize_same : forall (t : tensor Qc) mode tr near B C s,
  good t -> tshape t = B :: C :: s -> length s = 2 \/ length s = 3 -> Forall (fun n => 0 < n) s ->
  exists r, t_resize exact (fun x => x) (fun x => x) 0%Qc t s mode tr near = Ok r /\ good r /\ tshape r = tshape t /\
    forall i, valid (tshape t) i -> elem r i = elem t i.
Proof.
  intros t mode tr near B C s G St R P.
  destruct (t_resize_gen exact (fun x => x) (fun x => x) 0%Qc t s mode tr near (value_or0 t) B C s)
    as (r & E & Gr & S & N); auto.
  { intros. now apply value_ok. }
  exists r. split; [auto|]. split; [auto|]. split; [congruence|].
  intros i V. rewrite St in V. destruct i as [|b [|c o]]; [destruct V|destruct V as [_ []]|].
  rewrite N by auto. rewrite value_ok by (auto; now rewrite St). f_equal.
  unfold g_val. destruct V as (_ & _ & V). rewrite exact_coords by auto.
  destruct R as [L|L]; rewrite L; destruct mode; rewrite ?exact_lin, ?exact_cub, ?exact_near by auto;
    rewrite ?lin_same, ?cub_same, ?near_same by auto; reflexivity.
Qed.

(** linear interpolation stays in the range of its values *)
Lemma frac_range : forall c, (0 <= frac c)%Qc /\ (frac c <= 1)%Qc.
Proof.
  intros c. pose proof (Qfloor_le c). pose proof (Qlt_floor c) as H1.
  rewrite inject_Z_plus in H1. change (inject_Z 1) with 1%Q in H1.
  assert (E : (this (frac c) == c - inject_Z (Qfloor c))%Q).
  { unfold frac, qz, Qcminus, Qcplus, Qcopp. cbn [this Q2Qc]. now rewrite !Qred_correct. }
  unfold Qcle. rewrite E. change (this 0%Qc) with 0%Q. change (this 1%Qc) with 1%Q. split; lra.
Qed.
Lemma mix_range : forall t a b lo hi : Qc, (0 <= t)%Qc -> (t <= 1)%Qc ->
  (lo <= a)%Qc -> (a <= hi)%Qc -> (lo <= b)%Qc -> (b <= hi)%Qc ->
  (lo <= (1 - t) * a + t * b)%Qc /\ ((1 - t) * a + t * b <= hi)%Qc.
Proof.
  intros t a b lo hi. unfold Qcle.
  assert (E : (this ((1 - t) * a + t * b)%Qc == (1 - t) * a + t * b)%Q).
  { unfold Qcminus, Qcmult, Qcplus, Qcopp. cbn [this Q2Qc]. now rewrite !Qred_correct. }
  rewrite E. change (this 0%Qc) with 0%Q. change (this 1%Qc) with 1%Q. clear E.
  generalize (this t) (this a) (this b) (this lo) (this hi). intros. split; nra.
Qed.
Lemma lin_range : forall n c f lo hi, length c = length n ->
  Forall (fun x => 0 < x) n -> (forall p, valid n p -> (lo <= f p)%Qc /\ (f p <= hi)%Qc) ->
  (lo <= interp lin1 n c f)%Qc /\ (interp lin1 n c f <= hi)%Qc.
Proof.
  induction n as [|n1 n IH]; intros [|c1 c] f lo hi L P H; cbn in L; try lia.
  - apply (H []). exact I.
  - inversion P; subst. cbn [interp]. unfold lin1. destruct (frac_range c1).
    assert (K : forall z, (lo <= interp lin1 n c (fun r => f (inside n1 z :: r)))%Qc /\
                          (interp lin1 n c (fun r => f (inside n1 z :: r)) <= hi)%Qc).
    { intros z. apply IH; auto. intros p V. apply H. cbn. split; [now apply inside_lt|auto]. }
    apply mix_range; auto; apply K.
Qed.
Lemma src_coords_length : forall tr n m o, length n = length m -> length o = length m -> length (src_coords tr n m o) = length n.
Proof. induction n as [|x n IH]; intros [|y m] [|z o] L1 L2; cbn in *; try lia. now rewrite IH by lia. Qed.

Definition qpair (a b : tensor Qc) : Qc :=
  fold_right Qcplus 0%Qc (map (fun i => (value_or0 a i * value_or0 b i)%Qc) (all_idx (tshape a))).
Lemma qpair_ext : forall a b a' b', tshape a = tshape a' ->
  (forall i, valid (tshape a) i -> elem a i = elem a' i /\ elem b i = elem b' i) -> qpair a b = qpair a' b'.
Proof.
  intros a b a' b' S H. unfold qpair. rewrite <- S. f_equal. apply map_ext_in. intros i I. apply in_all_idx in I.
  destruct (H i I) as [H1 H2]. unfold value_or0. now rewrite H1, H2.
Qed.
Lemma vjp_same : forall (x g : tensor Qc) mode tr near B C s,
  good g -> tshape x = B :: C :: s -> tshape g = B :: C :: s -> length s = 2 \/ length s = 3 -> Forall (fun n => 0 < n) s ->
  exists gx, vjp_resize exact (fun x => x) (fun x => x) 0%Qc x g mode tr near = Ok gx /\ tshape gx = tshape x /\
    forall x', good x' -> tshape x' = tshape x ->
      exists y, t_resize exact (fun x => x) (fun x => x) 0%Qc x' s mode tr near = Ok y /\ qpair g y = qpair gx x'.
Proof.
  intros x g mode tr near B C s G Sx Sg R P.
  destruct (resize_same g (match mode with RNearest => RLinear | RLinear => RLinear | RCubic => RCubic end) tr near B C s)
    as (gx & E & Gx & S & N); auto.
  exists gx. split.
  { unfold vjp_resize. fold (tshape x). rewrite Sx. exact E. }
  split; [congruence|]. intros x' G' S'.
  destruct (resize_same x' mode tr near B C s) as (y & Ey & Gy & Sy & Ny); auto; [congruence|].
  exists y. split; [auto|]. apply qpair_ext; [congruence|]. intros i V. split; [symmetry; now apply N|].
  apply Ny. congruence.
Qed.
