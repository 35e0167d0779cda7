(** The resize kernel in exact arithmetic meets its specification. *)
From Coq Require Import List Arith ZArith Bool Lia QArith Qcanon Qround Lqa.
From Verif Require Import Base IndexSpec LayoutModel ViewSpec TensorModel TensorSpec ResizeModel ResizeSpec ResizeProofs.
Import ListNotations.
Open Scope nat_scope.

Lemma qn_inj : forall a b, qn a = qn b -> a = b.
Proof.
  intros a b H. unfold qn in H. apply Q2Qc_eq_iff in H. unfold Qeq in H. cbn in H. lia.
Qed.
Lemma qn_S : forall n, qn (S n) = (qn n + 1)%Qc.
Proof.
  intros n. unfold qn. apply Qc_is_canon. unfold Qcplus. cbn [this Q2Qc]. rewrite !Qred_correct. change (this 1%Qc) with 1%Q.
  rewrite Nat2Z.inj_succ. unfold Z.succ. rewrite inject_Z_plus. reflexivity.
Qed.
Lemma qn_0 : qn 0 = 0%Qc.
Proof. reflexivity. Qed.
Lemma qn_1 : qn 1 = 1%Qc.
Proof. reflexivity. Qed.
Lemma qn_ne0 : forall n, n <> 0 -> qn n <> 0%Qc.
Proof. intros n H E. rewrite <- qn_0 in E. apply qn_inj in E. auto. Qed.
Lemma qn_pred : forall n, 0 < n -> qn (n - 1) = (qn n - 1)%Qc.
Proof. intros [|n] H; [lia|]. rewrite qn_S. replace (S n - 1) with n by lia. ring. Qed.

Lemma qn_ne1 : forall m, m <> 1 -> (qn m - 1)%Qc <> 0%Qc.
Proof.
  intros m H E. apply H, qn_inj. rewrite qn_1. replace (qn m) with ((qn m - 1) + 1)%Qc by ring. rewrite E. ring.
Qed.
Lemma exact_coord : forall tr n m o, o < m -> 0 < n ->
  transform_coord exact o n m (coord_val tr) = src_coord tr n m o.
Proof.
  intros tr n m o Ho Hn. unfold transform_coord.
  change (fun n0 => a_int exact (Z.of_nat n0)) with qn.
  change (a_int exact (Z.of_nat o)) with (qn o). change (a_int exact (Z.of_nat n)) with (qn n).
  change (a_int exact (Z.of_nat m)) with (qn m). change (a_int exact (Z.of_nat (n - 1))) with (qn (n - 1)).
  change (a_int exact (Z.of_nat (m - 1))) with (qn (m - 1)).
  change (a_lit exact 1) with half. replace (a_lit exact 0) with 0%Qc by (now apply Qc_is_canon).
  change (a_add exact) with Qcplus. change (a_sub exact) with Qcminus. change (a_mul exact) with Qcmult.
  change (a_div exact) with Qcdiv.
  destruct (Nat.eqb_spec n m) as [->|Ne].
  - pose proof (qn_ne0 m ltac:(lia)).
    destruct tr; unfold src_coord; try (field; auto; fail).
    + destruct (Nat.eq_dec m 1) as [->|]; [replace o with 0 by lia; reflexivity|].
      field. now apply qn_ne1.
    + destruct (Nat.eqb_spec m 1) as [->|]; [replace o with 0 by lia; reflexivity|]. field; auto.
  - destruct tr; cbn [coord_val]; unfold src_coord; auto.
    destruct (Nat.eqb_spec m 1) as [->|].
    + replace o with 0 by lia. rewrite qn_0. unfold Qcdiv. ring.
    + rewrite !qn_pred by lia. reflexivity.
Qed.

Lemma clamp_inside : forall i n, 0 < n -> clamp_idx i n = inside n i.
Proof.
  intros i n H. unfold clamp_idx, inside. destruct (Z.ltb_spec i 0); [lia|].
  replace (n =? 0) with false by (symmetry; apply Nat.eqb_neq; lia). cbn [negb andb].
  destruct (Z.ltb_spec (Z.of_nat (n - 1)) i); lia.
Qed.
Lemma inside_lt : forall n z, 0 < n -> inside n z < n.
Proof. intros. unfold inside. lia. Qed.
Lemma inside_le0 : forall n z, (z <= 0)%Z -> inside n z = inside n 0.
Proof. intros. unfold inside. lia. Qed.

Lemma floor_le0 : forall x : Q, (x < 1)%Q -> (Qfloor x <= 0)%Z.
Proof.
  intros x H. pose proof (Qfloor_le x). assert (inject_Z (Qfloor x) < inject_Z 1)%Q by (change (inject_Z 1) with 1%Q; lra).
  rewrite <- Zlt_Qlt in H1. lia.
Qed.
Lemma ceil_le0 : forall x : Q, (x <= 0)%Q -> (Qceiling x <= 0)%Z.
Proof. intros x H. change 0%Z with (Qceiling (inject_Z 0)). now apply Qceiling_resp_le. Qed.
Lemma floor_uniq : forall (x : Q) z, (inject_Z z <= x)%Q -> (x < inject_Z z + 1)%Q -> Qfloor x = z.
Proof.
  intros x z H1 H2. pose proof (Qfloor_le x) as A. pose proof (Qlt_floor x) as B.
  rewrite inject_Z_plus in B. change (inject_Z 1) with 1%Q in B.
  assert (inject_Z (Qfloor x) < inject_Z (z + 1))%Q by (rewrite inject_Z_plus; change (inject_Z 1) with 1%Q; lra).
  assert (inject_Z z < inject_Z (Qfloor x + 1))%Q by (rewrite inject_Z_plus; change (inject_Z 1) with 1%Q; lra).
  rewrite <- Zlt_Qlt in *. lia.
Qed.
Lemma ceil_uniq : forall (x : Q) z, (x <= inject_Z z)%Q -> (inject_Z z - 1 < x)%Q -> Qceiling x = z.
Proof.
  intros x z H1 H2. unfold Qceiling. rewrite (floor_uniq (- x) (- z)); [lia| |]; rewrite inject_Z_opp; lra.
Qed.

Lemma exact_pick : forall near (c : Qc) n, 0 < n ->
  round_nearest exact c n (near_val near) = inside n (pick near c).
Proof.
  intros near c n Hn. unfold round_nearest. rewrite clamp_inside by auto.
  change (a_floor exact c) with (Qfloor c). change (a_ceil exact c) with (Qceiling c). change (a_round exact c) with (q_round c).
  destruct near; cbn [near_val]; auto; unfold pick.
  - (* ties down *)
    change (this half) with (1 # 2)%Q.
    change (a_eqb exact) with (fun x y : Qc => Qeq_bool x y). cbv beta.
    match goal with |- context [Qeq_bool (this c) ?y] => assert (Ey : (y == inject_Z (Qfloor c) + (1 # 2))%Q) end.
    { change (a_add exact) with Qcplus. unfold Qcplus. cbn [this Q2Qc a_int a_lit exact]. now rewrite !Qred_correct. }
    match goal with |- context [Qeq_bool (this c) ?y] => destruct (Qeq_bool c y) eqn:Q end.
    + apply Qeq_bool_eq in Q. rewrite Ey in Q. f_equal. symmetry. apply ceil_uniq; lra.
    + apply Qeq_bool_neq in Q. rewrite Ey in Q. unfold q_round. destruct (Qle_bool 0 c) eqn:L.
      * apply Qle_bool_iff in L. f_equal.
        pose proof (Qfloor_le c) as A. pose proof (Qlt_floor c) as B.
        rewrite inject_Z_plus in B. change (inject_Z 1) with 1%Q in B.
        destruct (Qlt_le_dec c (inject_Z (Qfloor c) + (1 # 2))) as [D|D].
        -- rewrite (floor_uniq (c + (1 # 2)) (Qfloor c)) by lra. symmetry. apply ceil_uniq; lra.
        -- assert (inject_Z (Qfloor c) + (1 # 2) < c)%Q by (apply Qle_lt_or_eq in D; destruct D as [D|D]; [auto|symmetry in D; tauto]).
           rewrite (floor_uniq (c + (1 # 2)) (Qfloor c + 1)) by (rewrite inject_Z_plus; change (inject_Z 1) with 1%Q; lra).
           symmetry. apply ceil_uniq; rewrite inject_Z_plus; change (inject_Z 1) with 1%Q; lra.
      * reflexivity.
  - (* ties up *)
    change (this half) with (1 # 2)%Q. unfold q_round. destruct (Qle_bool 0 c) eqn:L; auto.
    assert (c < 0)%Q by (apply Qnot_le_lt; intros E; apply Qle_bool_iff in E; congruence).
    rewrite inside_le0 by (apply ceil_le0; lra). symmetry. apply inside_le0, floor_le0. lra.
Qed.

Lemma exact_coords : forall tr isp osp o, Forall (fun n => 0 < n) isp -> valid osp o -> length isp = length osp ->
  crds exact (coord_val tr) isp osp o = src_coords tr isp osp o.
Proof.
  intros tr isp osp o P. revert osp o. induction P as [|n isp Hn P IH]; intros osp o V L.
  - reflexivity.
  - destruct osp as [|m osp]; cbn in L; [lia|]. destruct o as [|x o]; [destruct V|]. destruct V as [V1 V2].
    cbn [crds src_coords]. rewrite exact_coord by auto. now rewrite IH by (auto; lia).
Qed.
Lemma exact_near : forall near isp cs, Forall (fun n => 0 < n) isp ->
  nears exact (near_val near) isp cs = near_idx near isp cs.
Proof.
  intros near isp cs P. revert cs. induction P as [|n isp Hn P IH]; intros [|c cs]; auto.
  cbn [nears near_idx]. now rewrite exact_pick, IH.
Qed.
Lemma exact_lin : forall isp cs f, Forall (fun n => 0 < n) isp ->
  g_interp (g_lin exact) isp cs f = interp lin1 isp cs f.
Proof.
  intros isp cs f P. revert cs f. induction P as [|n isp Hn P IH]; intros [|c cs] f; auto.
  cbn [g_interp interp]. unfold g_lin, lin1, mix. rewrite !IH, !clamp_inside by auto. reflexivity.
Qed.
Lemma exact_cub : forall isp cs f, Forall (fun n => 0 < n) isp ->
  g_interp (g_cub exact) isp cs f = interp cub1 isp cs f.
Proof.
  intros isp cs f P. revert cs f. induction P as [|n isp Hn P IH]; intros [|c cs] f; auto.
  cbn [g_interp interp]. unfold g_cub, cub1, cubic_interp. rewrite !IH, !clamp_inside by auto.
  change (a_floor exact c) with (Qfloor c). change (a_sub exact c _) with (frac c).
  change (a_add exact) with Qcplus. change (a_sub exact) with Qcminus. change (a_mul exact) with Qcmult.
  set (p0 := interp _ _ _ (fun r => f (inside n (Qfloor c - 1) :: r))).
  set (p1 := interp _ _ _ (fun r => f (inside n (Qfloor c) :: r))).
  set (p2 := interp _ _ _ (fun r => f (inside n (Qfloor c + 1) :: r))).
  set (p3 := interp _ _ _ (fun r => f (inside n (Qfloor c + 2) :: r))).
  set (t := frac c). clearbody p0 p1 p2 p3 t.
  change (a_lit exact 1) with half. replace (a_lit exact (-1)) with (- half)%Qc by (now apply Qc_is_canon).
  replace (a_lit exact 3) with (half + half + half)%Qc by (now apply Qc_is_canon).
  replace (a_lit exact 5) with (half + half + half + half + half)%Qc by (now apply Qc_is_canon).
  replace (a_lit exact 4) with (half + half + half + half)%Qc by (now apply Qc_is_canon).
  replace (Q2Qc (3 # 2)) with (half + half + half)%Qc by (now apply Qc_is_canon).
  replace (Q2Qc (5 # 2)) with (half + half + half + half + half)%Qc by (now apply Qc_is_canon).
  replace (Q2Qc 2) with (half + half + half + half)%Qc by (now apply Qc_is_canon).
  generalize half. intros h. ring.
Qed.

Section Exact.
  Variables (B C : nat) (isp size : list nat).
  Hypotheses (R : length isp = 2 \/ length isp = 3) (L : length size = length isp) (P : Forall (fun n => 0 < n) isp).

  (** nearest, for any element type *)
  Lemma t_resize_nearest_spec : forall A (to_f : A -> Qc) from_f dflt (t : tensor A) tr near,
    good t -> tshape t = B :: C :: isp ->
    exists r, t_resize exact to_f from_f dflt t size RNearest tr near = Ok r /\ good r /\ tshape r = B :: C :: size /\
      forall b c o, valid (B :: C :: size) (b :: c :: o) ->
        elem r (b :: c :: o) = elem t (b :: c :: near_idx near isp (src_coords tr isp size o)).
  Proof.
    intros A to_f from_f dflt t tr near G St.
    set (X := fun i => match elem t i with Some v => v | None => dflt end).
    assert (HX : forall i, valid (tshape t) i -> elem t i = Some (X i)).
    { intros i V. unfold X, elem. destruct (nth_error (tstore t) (addr (tlay t) i)) eqn:E; auto.
      apply nth_error_None in E. destruct G as [_ G]. specialize (G i V). lia. }
    destruct (t_resize_gen exact to_f from_f dflt t size RNearest tr near X B C isp) as (r & E & Gr & S & N); auto.
    exists r. split; [auto|]. split; [auto|]. split; [auto|]. intros b c o V. rewrite N by auto. unfold g_val.
    destruct V as (V1 & V2 & V3). rewrite exact_coords, exact_near by auto. symmetry. apply HX. rewrite St. cbn.
    split; [auto|]. split; [auto|]. clear - P V3 L.
    revert size o V3 L. induction P as [|n isp Hn P' IH]; intros [|m size] [|x o] V L; cbn in *; try lia; auto; try tauto.
    split; [now apply inside_lt|]. apply IH; tauto || lia.
  Qed.
  Lemma t_resize_linear_spec : forall (t : tensor Qc) tr near X,
    good t -> tshape t = B :: C :: isp -> (forall i, valid (tshape t) i -> elem t i = Some (X i)) ->
    exists r, t_resize exact (fun x => x) (fun x => x) 0%Qc t size RLinear tr near = Ok r /\ good r /\ tshape r = B :: C :: size /\
      forall b c o, valid (B :: C :: size) (b :: c :: o) ->
        elem r (b :: c :: o) = Some (interp lin1 isp (src_coords tr isp size o) (fun p => X (b :: c :: p))).
  Proof.
    intros t tr near X G St HX.
    destruct (t_resize_gen exact (fun x => x) (fun x => x) 0%Qc t size RLinear tr near X B C isp) as (r & E & Gr & S & N); auto.
    exists r. split; [auto|]. split; [auto|]. split; [auto|]. intros b c o V. rewrite N by auto. unfold g_val.
    destruct V as (V1 & V2 & V3). now rewrite exact_coords, exact_lin by auto.
  Qed.
  Lemma t_resize_cubic_spec : forall (t : tensor Qc) tr near X, length isp = 2 ->
    good t -> tshape t = B :: C :: isp -> (forall i, valid (tshape t) i -> elem t i = Some (X i)) ->
    exists r, t_resize exact (fun x => x) (fun x => x) 0%Qc t size RCubic tr near = Ok r /\ good r /\ tshape r = B :: C :: size /\
      forall b c o, valid (B :: C :: size) (b :: c :: o) ->
        elem r (b :: c :: o) = Some (interp cub1 isp (src_coords tr isp size o) (fun p => X (b :: c :: p))).
  Proof.
    intros t tr near X L2 G St HX.
    destruct (t_resize_gen exact (fun x => x) (fun x => x) 0%Qc t size RCubic tr near X B C isp) as (r & E & Gr & S & N); auto.
    exists r. split; [auto|]. split; [auto|]. split; [auto|]. intros b c o V. rewrite N by auto. unfold g_val. rewrite L2.
    destruct V as (V1 & V2 & V3). now rewrite exact_coords, exact_cub by auto.
  Qed.
End Exact.
