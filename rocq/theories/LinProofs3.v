(** Gauss-Jordan elimination: it computes the inverse, or a matrix without a finite entry. *)
From Coq Require Import List Arith Lia Bool Reals Lra.
From Verif Require Import Base KernelModel NumModel LinSpec LinProofs LinModel LinProofs2.
Import ListNotations.
Open Scope R_scope.

Definition notfin (a : xr) : Prop := match a with Fin _ => False | _ => True end.

(* ---------- nonsingular and determinant ---------- *)
Lemma mapply_ext : forall n A B x i, (forall j, (j < n)%nat -> A i j = B i j) -> mapply n A x i = mapply n B x i.
Proof. intros n A B x i H. unfold mapply. apply sumn_ext. intros j Hj. now rewrite H. Qed.
Definition clear (c : nat -> R) (A : matrix) (m : nat) : matrix :=
  fun i j => if (1 <=? i)%nat && (i <? m)%nat then A i j + - c i * A 0%nat j else A i j.
Lemma det_clear : forall n c A m, (m <= n)%nat -> det n (clear c A m) = det n A.
Proof.
  induction m as [|m IH]; intros H.
  - apply det_ext. intros i j _ _. unfold clear. now rewrite andb_false_r.
  - destruct m as [|m].
    + apply det_ext. intros i j _ _. unfold clear. destruct (Nat.leb_spec 1 i); destruct (Nat.ltb_spec i 1); auto; lia.
    + rewrite <- IH by lia. rewrite <- (det_add_row n (clear c A (S m)) (S m) 0 (- c (S m))) by lia. apply det_ext. intros i j _ _.
      unfold set_row, clear. destruct (Nat.eqb_spec i (S m)) as [->|NE].
      * replace (S m <? S m)%nat with false by (symmetry; apply Nat.ltb_irrefl).
        replace (S m <? S (S m))%nat with true by (symmetry; apply Nat.ltb_lt; lia). reflexivity.
      * destruct (Nat.ltb_spec i (S m)); destruct (Nat.ltb_spec i (S (S m))); auto; lia.
Qed.
Lemma find_nonzero : forall n (f : nat -> R), (exists i, (i < n)%nat /\ f i <> 0) \/ forall i, (i < n)%nat -> f i = 0.
Proof.
  induction n as [|n IH]; intros f; [right; lia|]. destruct (IH f) as [(i & Hi & H)|H]; [left; exists i; split; auto; lia|].
  destruct (Req_dec (f n) 0) as [E|E]; [right|left; exists n; auto]. intros i Hi. destruct (Nat.eq_dec i n) as [->|]; auto. apply H. lia.
Qed.
Lemma nonsingular_rows : forall n A B, (forall x, (forall i, (i < n)%nat -> mapply n B x i = 0) -> forall i, (i < n)%nat -> mapply n A x i = 0) ->
  nonsingular n A -> nonsingular n B.
Proof. intros n A B H NA x Hx. apply NA. now apply H. Qed.
Lemma nonsingular_det : forall n A, nonsingular n A <-> det n A <> 0.
Proof.
  induction n as [|n IH]; intros A; [split; [cbn; intros; lra|intros _ x _ i Hi; lia]|].
  destruct (find_nonzero (S n) (fun i => A i 0%nat)) as [(p & Hp & NZ)|Z].
  - set (A1 := if (p =? 0)%nat then A else swap_rows A 0 p).
    assert (D1 : det (S n) A1 <> 0 <-> det (S n) A <> 0).
    { unfold A1. destruct (Nat.eqb_spec p 0); [tauto|]. rewrite det_swap by lia. split; lra. }
    assert (X1 : forall i j, A1 i j = A (if (i =? 0)%nat then p else if (i =? p)%nat then 0%nat else i) j).
    { intros i j. unfold A1, swap_rows, two, set_row. destruct (Nat.eqb_spec p 0); destruct (Nat.eqb_spec i 0); destruct (Nat.eqb_spec i p); subst; auto; lia. }
    assert (N1 : nonsingular (S n) A1 <-> nonsingular (S n) A).
    { split; apply nonsingular_rows; intros x Hx i Hi.
      - specialize (Hx (if (i =? 0)%nat then p else if (i =? p)%nat then 0%nat else i)).
        rewrite <- Hx by (destruct (Nat.eqb_spec i 0), (Nat.eqb_spec i p); lia).
        apply sumn_ext. intros j _. now rewrite X1.
      - specialize (Hx (if (i =? 0)%nat then p else if (i =? p)%nat then 0%nat else i)).
        rewrite <- Hx by (destruct (Nat.eqb_spec i 0), (Nat.eqb_spec i p); lia).
        apply sumn_ext. intros j _. rewrite X1. f_equal. f_equal.
        destruct (Nat.eqb_spec i 0) as [E0|E0]; [|destruct (Nat.eqb_spec i p) as [EP|EP]].
        + destruct (Nat.eqb_spec p 0); [lia|]. rewrite Nat.eqb_refl. auto.
        + rewrite Nat.eqb_refl. auto.
        + destruct (Nat.eqb_spec i 0); [lia|]. destruct (Nat.eqb_spec i p); [lia|]. auto. }
    set (c := fun i => A1 i 0%nat / A1 0%nat 0%nat). set (A2 := clear c A1 (S n)).
    assert (A0 : A1 0%nat 0%nat <> 0) by (rewrite X1; cbn; auto).
    assert (D2 : det (S n) A2 = det (S n) A1) by (apply det_clear; lia).
    assert (R0 : forall j, A2 0%nat j = A1 0%nat j) by reflexivity.
    assert (RS : forall i j, (i < n)%nat -> A2 (S i) j = A1 (S i) j + - c (S i) * A1 0%nat j).
    { intros i j Hi. unfold A2, clear. replace (S i <? S n)%nat with true by (symmetry; apply Nat.ltb_lt; lia). reflexivity. }
    assert (C2 : forall i, (0 < i < S n)%nat -> A2 i 0%nat = 0).
    { intros i Hi. destruct i as [|i]; [lia|]. rewrite RS by lia. unfold c. field. auto. }
    assert (V0 : forall x, mapply (S n) A2 x 0 = mapply (S n) A1 x 0) by reflexivity.
    assert (VS : forall x i, (i < n)%nat -> mapply (S n) A2 x (S i) = mapply (S n) A1 x (S i) + - c (S i) * mapply (S n) A1 x 0).
    { intros x i Hi. unfold mapply. rewrite <- sumn_scale, <- sumn_plus. apply sumn_ext. intros j _. rewrite RS by auto. ring. }
    assert (N2 : nonsingular (S n) A2 <-> nonsingular (S n) A1).
    { split; apply nonsingular_rows; intros x Hx i Hi.
      - destruct i as [|i]; [rewrite V0; auto|]. rewrite VS, !Hx by lia. ring.
      - assert (H0 : mapply (S n) A1 x 0 = 0) by (rewrite <- V0; apply Hx; lia). destruct i as [|i]; auto.
        specialize (Hx (S i) Hi). rewrite VS, H0 in Hx by lia. lra. }
    assert (N3 : nonsingular (S n) A2 <-> nonsingular n (minor 0 A2)).
    { assert (W : forall x i, (i < n)%nat -> mapply (S n) A2 x (S i) = mapply n (minor 0 A2) (fun j => x (S j)) i).
      { intros x i Hi. unfold mapply. rewrite sumn_S, C2 by lia. unfold minor. cbn. ring. }
      split; intros NS x Hx.
      - set (y := fun j => match j with 0%nat => - (sumn n (fun l => A2 0%nat (S l) * x l) / A2 0%nat 0%nat) | S l => x l end).
        intros i Hi. refine (NS y _ (S i) ltac:(lia)). intros [|a] Ha.
        + unfold mapply. rewrite sumn_S. unfold y. field. rewrite R0. auto.
        + rewrite W by lia. apply Hx. lia.
      - assert (HS : forall i, (i < n)%nat -> x (S i) = 0).
        { intros i Hi. refine (NS (fun j => x (S j)) _ i Hi). intros a Ha. rewrite <- W by auto. apply Hx. lia. }
        intros [|i] Hi; [|apply HS; lia]. specialize (Hx 0%nat Hi). unfold mapply in Hx. rewrite sumn_S, sumn_zero in Hx.
        + rewrite R0 in Hx. destruct (Rmult_integral (A1 0%nat 0%nat) (x 0%nat)); [lra|contradiction|auto].
        + intros a Ha. rewrite HS by auto. ring. }
    rewrite <- N1, <- D1, <- N2, <- D2, N3, IH, det_column by exact C2. rewrite R0. split; intros H Q; apply H.
    + apply Rmult_integral in Q. tauto.
    + rewrite Q. ring.
  - split; intros H.
    + exfalso. assert (Q : (fun j => if (j =? 0)%nat then 1 else 0) 0%nat = 0); [|cbn in Q; lra].
      apply (H (fun j => if (j =? 0)%nat then 1 else 0)); [|lia]. intros i Hi. unfold mapply. apply sumn_zero. intros [|j] Hj; cbn; [rewrite Z by auto|]; ring.
    + exfalso. apply H, det_column_zero, Z.
Qed.

(* ---------- one step ---------- *)
Notation fscale := (scale_cols xdivo).
Notation fclear := (clear_row xsub xmul).
Notation fgj := (gauss_jordan (Fin 0) xsub xmul xdivo xneg xltb).
Lemma scale_ok : forall k pv cols m, NoDup cols -> exists m', fscale k pv cols m = Some m' /\
  (forall b, In b cols -> m' k b = xdiv (m k b) pv) /\ (forall a b, a <> k \/ ~ In b cols -> m' a b = m a b).
Proof.
  intros k pv cols. induction cols as [|j cols IH]; intros m ND.
  - exists m. cbn. repeat split; auto. intros b [].
  - inversion ND as [|? ? NI ND']; subst. cbn [scale_cols]. unfold xdivo at 1. cbn [obind].
    destruct (IH (fun a b => if (a =? k)%nat && (b =? j)%nat then xdiv (m k j) pv else m a b) ND') as (m' & R1 & R2 & R3).
    exists m'. split; [exact R1|]. split.
    + intros b [<-|Hb].
      * rewrite R3 by auto. now rewrite !Nat.eqb_refl.
      * rewrite R2 by auto. destruct (Nat.eqb_spec b j) as [->|]; [contradiction|]. now rewrite andb_false_r.
    + intros a b H. rewrite R3.
      * destruct (Nat.eqb_spec a k); destruct (Nat.eqb_spec b j); auto. subst. destruct H as [H|H]; [congruence|]. exfalso. apply H. left. auto.
      * destruct H as [H|H]; auto. right. intros Q. apply H. right. auto.
Qed.
Lemma clear_ok : forall k rows m, NoDup rows -> let m' := fold_left (fclear k) rows m in
  (forall c, m' k c = m k c) /\ (forall r c, r <> k -> In r rows -> m' r c = xsub (m r c) (xmul (m r k) (m k c))) /\
  (forall r c, ~ In r rows -> m' r c = m r c).
Proof.
  intros k rows. induction rows as [|i rows IH]; intros m ND; [cbn; repeat split; auto; tauto|].
  inversion ND as [|? ? NI ND']; subst. cbn [fold_left]. destruct (IH (fclear k m i) ND') as (R1 & R2 & R3). cbn zeta in *.
  assert (K : forall c, fclear k m i k c = m k c).
  { intros c. unfold clear_row. destruct (Nat.eqb_spec i k); auto. destruct (Nat.eqb_spec k i); auto. congruence. }
  assert (O : forall r c, r <> i -> fclear k m i r c = m r c).
  { intros r c H. unfold clear_row. destruct (Nat.eqb_spec i k); auto. destruct (Nat.eqb_spec r i); auto. congruence. }
  split; [|split].
  - intros c. now rewrite R1, K.
  - intros r c NK [<-|Hr].
    + rewrite R3 by auto. unfold clear_row. destruct (Nat.eqb_spec i k); [congruence|]. now rewrite Nat.eqb_refl.
    + rewrite R2 by auto. rewrite K, !O by (intros ->; auto). reflexivity.
  - intros r c H. rewrite R3, O; auto; intros Q; apply H; [subst; left|right]; auto.
Qed.
Lemma step_ok : forall n k m1, (k < n)%nat -> exists m2, fscale k (m1 k k) (seq 0 (2 * n)) m1 = Some m2 /\
  let m3 := fold_left (fclear k) (seq 0 n) m2 in
  (forall j, (j < 2 * n)%nat -> m3 k j = xdiv (m1 k j) (m1 k k)) /\
  (forall i j, (i < n)%nat -> i <> k -> (j < 2 * n)%nat -> m3 i j = xsub (m1 i j) (xmul (m1 i k) (xdiv (m1 k j) (m1 k k)))).
Proof.
  intros n k m1 Hk. destruct (scale_ok k (m1 k k) (seq 0 (2 * n)) m1 (seq_NoDup _ _)) as (m2 & R1 & R2 & R3).
  exists m2. split; [exact R1|]. destruct (clear_ok k (seq 0 n) m2 (seq_NoDup _ _)) as (C1 & C2 & _). cbn zeta in *. split.
  - intros j Hj. rewrite C1. apply R2, in_seq. lia.
  - intros i j Hi NE Hj. rewrite C2 by (auto; apply in_seq; lia). rewrite !(R3 i) by auto. now rewrite R2 by (apply in_seq; lia).
Qed.

(* ---------- a zero pivot spoils everything ---------- *)
Lemma notfin_div : forall a b, notfin a -> notfin (xdiv a b).
Proof. intros [x| | |] [y| | |] H; cbn in *; try tauto; destruct (Rltb y 0); exact I. Qed.
Lemma notfin_scale : forall x, notfin (xscale x).
Proof. intros x. unfold xscale. destruct (Rltb 0 x), (Rltb x 0); exact I. Qed.
Lemma notfin_neg : forall a, notfin a -> notfin (xneg a).
Proof. intros [x| | |] H; cbn in *; auto. Qed.
Lemma notfin_mul : forall a b, notfin b -> notfin (xmul a b).
Proof. intros [x| | |] [y| | |] H; cbn in *; try tauto; try exact I; try apply notfin_scale; apply notfin_neg, notfin_scale. Qed.
Lemma notfin_sub : forall a b, notfin b -> notfin (xsub a b).
Proof. intros [x| | |] [y| | |] H; cbn in *; try tauto; exact I. Qed.
Lemma notfin_div0 : forall x, notfin (xdiv (Fin x) (Fin 0)).
Proof. intros x. cbn. destruct (Req_EM_T 0 0) as [_|N]; [apply notfin_scale|congruence]. Qed.
Definition spoiled (n w : nat) (m : nat -> nat -> xr) : Prop := forall i j, (i < n)%nat -> (j < w)%nat -> notfin (m i j).
Lemma gj_spoiled : forall n ks m, (forall k, In k ks -> (k < n)%nat) -> spoiled n (2 * n) m ->
  exists m', fgj n ks m = Some m' /\ spoiled n (2 * n) m'.
Proof.
  intros n ks. induction ks as [|k ks IH]; intros m HK S; [exists m; auto|].
  assert (Hk : (k < n)%nat) by (apply HK; left; auto). cbn [gauss_jordan]. set (p := fpivot n k m). assert (HP : (k <= p < n)%nat) by now apply find_pivot_range.
  set (m1 := if (p =? k)%nat then m else exchange k p m).
  assert (S1 : spoiled n (2 * n) m1).
  { unfold m1. destruct (p =? k)%nat; auto. intros i j Hi Hj. unfold exchange. destruct (i =? k)%nat, (i =? p)%nat; apply S; auto; lia. }
  destruct (step_ok n k m1 Hk) as (m2 & R1 & C1 & C2). rewrite R1. cbn [obind]. apply IH; [intros; apply HK; right; auto|].
  intros i j Hi Hj. destruct (Nat.eq_dec i k) as [->|NE].
  - rewrite C1 by auto. apply notfin_div, S1; auto.
  - rewrite C2 by auto. apply notfin_sub, notfin_mul, notfin_div, S1; auto.
Qed.

(* ---------- the invariants ---------- *)
Lemma sumn_app : forall a b f, sumn (a + b) f = sumn a f + sumn b (fun i => f (a + i)%nat).
Proof.
  intros a b f. induction b as [|b IH]; [rewrite Nat.add_0_r; cbn; ring|]. rewrite Nat.add_succ_r. cbn [sumn]. rewrite IH. ring.
Qed.
Definition augment (n : nat) (A : matrix) : matrix := fun i j => if (j <? n)%nat then A i j else if (i =? j - n)%nat then 1 else 0.
Record inv_state (n : nat) (A : matrix) (k : nat) (M : matrix) : Prop := {
  st_mul : forall i j, (i < n)%nat -> (j < n)%nat -> M i j = sumn n (fun l => M i (n + l)%nat * A l j);
  st_done : forall i j, (i < n)%nat -> (j < k)%nat -> M i j = if (i =? j)%nat then 1 else 0;
  st_ker : forall x, (forall i, (i < n)%nat -> mapply (2 * n) M x i = 0) -> forall i, (i < n)%nat -> mapply (2 * n) (augment n A) x i = 0 }.
Lemma st_start : forall n A, inv_state n A 0 (augment n A).
Proof.
  intros n A. split; [|intros; lia|auto].
  intros i j Hi Hj. unfold augment. replace (j <? n)%nat with true by (symmetry; apply Nat.ltb_lt; lia).
  rewrite (sumn_one _ _ i); auto.
  - replace (n + i <? n)%nat with false by (symmetry; apply Nat.ltb_ge; lia). replace (n + i - n)%nat with i by lia. rewrite Nat.eqb_refl. ring.
  - intros l Hl NE. replace (n + l <? n)%nat with false by (symmetry; apply Nat.ltb_ge; lia). replace (n + l - n)%nat with l by lia.
    destruct (Nat.eqb_spec i l); [congruence|ring].
Qed.
Lemma st_exchange : forall n A k p M, (k <= p < n)%nat -> inv_state n A k M -> inv_state n A k (exchange k p M).
Proof.
  intros n A k p M HP [S1 S2 S3]. split.
  - intros i j Hi Hj. unfold exchange. destruct (i =? k)%nat; [|destruct (i =? p)%nat]; rewrite S1 by lia; reflexivity.
  - intros i j Hi Hj. unfold exchange. destruct (Nat.eqb_spec i k) as [->|]; [|destruct (Nat.eqb_spec i p) as [->|]]; rewrite S2 by lia; auto.
    + destruct (Nat.eqb_spec p j), (Nat.eqb_spec k j); auto; lia.
    + destruct (Nat.eqb_spec p j), (Nat.eqb_spec k j); auto; lia.
  - intros x Hx. apply S3. intros i Hi. destruct (Nat.eq_dec i k) as [->|NK]; [|destruct (Nat.eq_dec i p) as [->|NP]].
    + specialize (Hx p ltac:(lia)). unfold mapply, exchange in Hx. rewrite Nat.eqb_refl in Hx. destruct (Nat.eqb_spec p k) as [->|]; exact Hx.
    + specialize (Hx k ltac:(lia)). unfold mapply, exchange in Hx. rewrite Nat.eqb_refl in Hx. exact Hx.
    + specialize (Hx i Hi). unfold mapply, exchange in Hx. destruct (Nat.eqb_spec i k), (Nat.eqb_spec i p); try lia. exact Hx.
Qed.
Lemma st_step : forall n A k M1 M3, (k < n)%nat -> M1 k k <> 0 -> inv_state n A k M1 ->
  (forall j, (j < 2 * n)%nat -> M3 k j = M1 k j / M1 k k) ->
  (forall i j, (i < n)%nat -> i <> k -> (j < 2 * n)%nat -> M3 i j = M1 i j - M1 i k * (M1 k j / M1 k k)) ->
  inv_state n A (S k) M3.
Proof.
  intros n A k M1 M3 Hk NZ [S1 S2 S3] EK EO. split.
  - intros i j Hi Hj. destruct (Nat.eq_dec i k) as [->|NE].
    + rewrite EK, S1 by lia. unfold Rdiv. rewrite Rmult_comm, <- sumn_scale. apply sumn_ext. intros l Hl. rewrite EK by lia. unfold Rdiv. ring.
    + rewrite EO, (S1 i), (S1 k j) by lia.
      transitivity (sumn n (fun l => M1 i (n + l)%nat * A l j) + (- (M1 i k / M1 k k)) * sumn n (fun l => M1 k (n + l)%nat * A l j)); [field; auto|].
      rewrite <- sumn_scale, <- sumn_plus. apply sumn_ext. intros l Hl. rewrite EO by lia. field. auto.
  - intros i j Hi Hj. destruct (Nat.eq_dec j k) as [->|NJ].
    + destruct (Nat.eq_dec i k) as [->|NE]; [rewrite EK, Nat.eqb_refl by lia; field; auto|].
      rewrite EO by lia. replace (i =? k)%nat with false by (symmetry; apply Nat.eqb_neq; auto). field. auto.
    + assert (Z : M1 k j = 0) by (rewrite S2 by lia; destruct (Nat.eqb_spec k j); auto; lia).
      destruct (Nat.eq_dec i k) as [->|NE].
      * rewrite EK, Z by lia. replace (k =? j)%nat with false by (symmetry; apply Nat.eqb_neq; lia). field. auto.
      * rewrite EO, Z, S2 by lia. field. auto.
  - intros x Hx. apply S3. assert (DK : mapply (2 * n) M1 x k = 0).
    { specialize (Hx k Hk). transitivity (M1 k k * mapply (2 * n) M3 x k); [|rewrite Hx; ring].
      unfold mapply. rewrite <- sumn_scale. apply sumn_ext. intros j Hj. rewrite EK by auto. field. auto. }
    intros i Hi. destruct (Nat.eq_dec i k) as [->|NE]; auto. specialize (Hx i Hi).
    transitivity (mapply (2 * n) M3 x i + (M1 i k / M1 k k) * mapply (2 * n) M1 x k); [|rewrite Hx, DK; ring].
    unfold mapply. rewrite <- sumn_scale, <- sumn_plus. apply sumn_ext. intros j Hj. rewrite EO by auto. field. auto.
Qed.
(** an empty column below the finished ones: A x = 0 has another solution *)
Lemma st_singular : forall n A k M, (k < n)%nat -> inv_state n A k M -> (forall i, (k <= i < n)%nat -> M i k = 0) -> ~ nonsingular n A.
Proof.
  intros n A k M Hk [S1 S2 S3] Z NS. set (x := fun j => if (j =? k)%nat then 1 else if (j <? k)%nat then - M j k else 0).
  assert (Q : x k = 0); [|unfold x in Q; rewrite Nat.eqb_refl in Q; lra].
  apply NS; auto. intros i Hi.
  assert (XB : forall j, (n <= j)%nat -> x j = 0).
  { intros j Hj. unfold x. destruct (Nat.eqb_spec j k); [lia|]. destruct (Nat.ltb_spec j k); [lia|auto]. }
  assert (H : mapply (2 * n) (augment n A) x i = 0).
  { apply S3; auto. clear i Hi. intros i Hi. unfold mapply. destruct (Nat.lt_ge_cases i k) as [L|L].
    - rewrite (sumn_two _ _ i k); [|lia|].
      + rewrite S2, Nat.eqb_refl by lia. unfold x. rewrite Nat.eqb_refl. destruct (Nat.eqb_spec i k); [lia|]. destruct (Nat.ltb_spec i k); [ring|lia].
      + intros j Hj N1 N2. unfold x. destruct (Nat.eqb_spec j k); [lia|]. destruct (Nat.ltb_spec j k); [|ring].
        rewrite S2 by lia. destruct (Nat.eqb_spec i j); [lia|ring].
    - apply sumn_zero. intros j Hj. unfold x. destruct (Nat.eqb_spec j k) as [->|]; [rewrite Z by lia; ring|].
      destruct (Nat.ltb_spec j k); [|ring]. rewrite S2 by lia. destruct (Nat.eqb_spec i j); [lia|ring]. }
  unfold mapply in *. replace (2 * n)%nat with (n + n)%nat in H by lia. rewrite sumn_app, (sumn_zero n (fun j => augment n A i (n + j)%nat * x (n + j)%nat)) in H.
  - rewrite Rplus_0_r in H. rewrite <- H. apply sumn_ext. intros j Hj. unfold augment. replace (j <? n)%nat with true by (symmetry; apply Nat.ltb_lt; lia). reflexivity.
  - intros j Hj. rewrite XB by lia. ring.
Qed.
Lemma st_inverse : forall n A M, inv_state n A n M -> inverse n A (fun i j => M i (n + j)%nat).
Proof.
  intros n A M [S1 S2 S3]. set (B := fun i j => M i (n + j)%nat).
  assert (BA : meq n (mmul n B A) mid) by (intros i j Hi Hj; unfold mmul, B, mid; rewrite <- S1, S2 by auto; reflexivity).
  assert (INJ : forall y, (forall i, (i < n)%nat -> mapply n B y i = 0) -> forall i, (i < n)%nat -> y i = 0).
  { intros y Hy i Hi. set (x := fun j => if (j <? n)%nat then 0 else y (j - n)%nat).
    assert (SP : forall C a, mapply (2 * n) C x a = sumn n (fun l => C a (n + l)%nat * y l)).
    { intros C a. unfold mapply. replace (2 * n)%nat with (n + n)%nat by lia. rewrite sumn_app, sumn_zero, Rplus_0_l.
      - apply sumn_ext. intros l Hl. unfold x. replace (n + l <? n)%nat with false by (symmetry; apply Nat.ltb_ge; lia). do 2 f_equal. lia.
      - intros j Hj. unfold x. replace (j <? n)%nat with true by (symmetry; apply Nat.ltb_lt; lia). ring. }
    assert (H : mapply (2 * n) (augment n A) x i = 0) by (apply S3; auto; intros a Ha; rewrite SP; apply Hy; auto).
    rewrite SP, (sumn_one _ _ i) in H; auto.
    - unfold augment in H. replace (n + i <? n)%nat with false in H by (symmetry; apply Nat.ltb_ge; lia).
      replace (n + i - n)%nat with i in H by lia. rewrite Nat.eqb_refl in H. lra.
    - intros l Hl NE. unfold augment. replace (n + l <? n)%nat with false by (symmetry; apply Nat.ltb_ge; lia).
      replace (n + l - n)%nat with l by lia. destruct (Nat.eqb_spec i l); [congruence|ring]. }
  split; [|exact BA]. intros i j Hi Hj.
  assert (Q : mmul n A B i j + - mid i j = 0); [|lra].
  refine (INJ (fun l => mmul n A B l j + - mid l j) _ i Hi). clear i Hi. intros i Hi. unfold mapply.
  transitivity (sumn n (fun l => B i l * mmul n A B l j) + -1 * sumn n (fun l => B i l * mid l j)).
  { rewrite <- sumn_scale, <- sumn_plus. apply sumn_ext. intros l _. ring. }
  rewrite (sumn_one n (fun l => B i l * mid l j) j); auto.
  - transitivity (sumn n (fun q => mmul n B A i q * B q j) + -1 * (B i j * mid j j)).
    + f_equal. unfold mmul. transitivity (sumn n (fun l => sumn n (fun q => B i l * (A l q * B q j)))).
      * apply sumn_ext. intros l _. now rewrite sumn_scale.
      * rewrite sumn_swap. apply sumn_ext. intros q _. rewrite Rmult_comm, <- sumn_scale. apply sumn_ext. intros l _. ring.
    + rewrite (sumn_one n _ i); auto.
      * rewrite BA by auto. unfold mid. rewrite !Nat.eqb_refl. ring.
      * intros q Hq NE. rewrite BA by auto. unfold mid. destruct (Nat.eqb_spec i q); [congruence|ring].
  - intros l Hl NE. unfold mid. destruct (Nat.eqb_spec l j); [congruence|ring].
Qed.
Lemma inverse_nonsingular : forall n A B, inverse n A B -> nonsingular n A.
Proof.
  intros n A B [_ BA] x Hx i Hi.
  transitivity (sumn n (fun j => mmul n B A i j * x j)).
  - rewrite (sumn_one _ _ i); auto.
    + rewrite BA by auto. unfold mid. rewrite Nat.eqb_refl. ring.
    + intros j Hj NE. rewrite BA by auto. unfold mid. destruct (Nat.eqb_spec i j); [congruence|ring].
  - transitivity (sumn n (fun l => B i l * mapply n A x l)).
    + unfold mmul, mapply. transitivity (sumn n (fun j => sumn n (fun l => B i l * A l j * x j))).
      * apply sumn_ext. intros j _. rewrite Rmult_comm, <- sumn_scale. apply sumn_ext. intros l _. ring.
      * rewrite sumn_swap. apply sumn_ext. intros l _. rewrite <- sumn_scale. apply sumn_ext. intros j _. ring.
    + apply sumn_zero. intros l Hl. rewrite Hx by auto. ring.
Qed.
Lemma gj_ok : forall n A len k m M, (k + len = n)%nat -> entries n (2 * n) m M -> inv_state n A k M ->
  exists m', fgj n (seq k len) m = Some m' /\
    ((exists M', entries n (2 * n) m' M' /\ inv_state n A n M') \/ (spoiled n (2 * n) m' /\ ~ nonsingular n A)).
Proof.
  intros n A. induction len as [|len IH]; intros k m M Hn E ST.
  - exists m. split; [reflexivity|]. left. exists M. split; auto. replace n with k by lia. replace k with n at 1 by lia. auto.
  - assert (Hk : (k < n)%nat) by lia. cbn [seq gauss_jordan]. set (p := fpivot n k m). assert (HP : (k <= p < n)%nat) by now apply find_pivot_range.
    pose proof (find_pivot_max n (2 * n) k m M E Hk ltac:(lia)) as MX. fold p in MX.
    set (m1 := if (p =? k)%nat then m else exchange k p m). set (M1 := if (p =? k)%nat then M else exchange k p M).
    assert (E1 : entries n (2 * n) m1 M1) by (unfold m1, M1; destruct (p =? k)%nat; auto; apply entries_exchange; auto; lia).
    assert (ST1 : inv_state n A k M1) by (unfold M1; destruct (p =? k)%nat; auto; apply st_exchange; auto).
    assert (P1 : M1 k k = M p k) by (unfold M1, exchange; destruct (Nat.eqb_spec p k) as [->|NE]; auto; now rewrite Nat.eqb_refl).
    destruct (step_ok n k m1 Hk) as (m2 & R1 & C1 & C2). rewrite R1. cbn [obind]. cbn zeta in *.
    destruct (Req_dec (M1 k k) 0) as [Z|NZ].
    + assert (NS : ~ nonsingular n A).
      { apply (st_singular n A k M); auto. intros i Hi. specialize (MX i Hi). rewrite <- P1, Z, Rabs_R0 in MX.
        destruct (Req_dec (M i k) 0) as [|Q]; auto. apply Rabs_pos_lt in Q. lra. }
      destruct (gj_spoiled n (seq (S k) len) (fold_left (fclear k) (seq 0 n) m2)) as (m' & R & SP).
      * intros a Ha. apply in_seq in Ha. lia.
      * intros i j Hi Hj. destruct (Nat.eq_dec i k) as [->|NE].
        -- rewrite C1, (E1 k j), (E1 k k), Z by (auto; lia). apply notfin_div0.
        -- rewrite C2, (E1 k j), (E1 k k), Z by (auto; lia). apply notfin_sub, notfin_mul, notfin_div0.
      * exists m'. split; auto.
    + set (M3 := fun i j => if (i =? k)%nat then M1 k j / M1 k k else M1 i j - M1 i k * (M1 k j / M1 k k)).
      apply (IH (S k) _ M3); [lia| |].
      * intros i j Hi Hj. unfold M3. destruct (Nat.eqb_spec i k) as [->|NE].
        -- rewrite C1, (E1 k j), (E1 k k) by (auto; lia). cbn. destruct (Req_EM_T (M1 k k) 0); [contradiction|auto].
        -- rewrite C2, (E1 k j), (E1 k k), (E1 i j), (E1 i k) by (auto; lia). cbn. destruct (Req_EM_T (M1 k k) 0); [contradiction|reflexivity].
      * apply (st_step n A k M1); auto; unfold M3.
        -- intros j Hj. now rewrite Nat.eqb_refl.
        -- intros i j Hi NE Hj. destruct (Nat.eqb_spec i k); [congruence|auto].
Qed.

Notation finv := (inv_matrix (Fin 0) (Fin 1) xadd xsub xmul xdivo xneg xltb).
Lemma xdiv_one : forall d, d <> 0 -> xdiv (Fin 1) (Fin d) = Fin (1 / d).
Proof. intros d H. cbn. destruct (Req_EM_T d 0); [contradiction|auto]. Qed.
Lemma inv_ok : forall n m A, entries n n m A -> exists b, finv n m = Some b /\
  (det n A <> 0 -> exists B, entries n n b B /\ inverse n A B) /\ (det n A = 0 -> spoiled n n b).
Proof.
  intros n m A E.
  assert (G : forall n, entries n n m A -> exists m', fgj n (seq 0 n) (fun i j => if (j <? n)%nat then m i j else if (i =? j - n)%nat then Fin 1 else Fin 0) = Some m' /\
    (det n A <> 0 -> exists B, entries n n (fun i j => m' i (n + j)%nat) B /\ inverse n A B) /\ (det n A = 0 -> spoiled n n (fun i j => m' i (n + j)%nat))).
  { clear n E. intros n E. destruct (gj_ok n A n 0 (fun i j => if (j <? n)%nat then m i j else if (i =? j - n)%nat then Fin 1 else Fin 0) (augment n A)) as (m' & R & C); auto.
    - intros i j Hi Hj. unfold augment. destruct (Nat.ltb_spec j n); [apply E; auto|]. destruct (i =? j - n)%nat; auto.
    - apply st_start.
    - exists m'. split; [exact R|]. destruct C as [(M' & EM & ST)|(SP & NS)].
      + pose proof (st_inverse n A M' ST) as IV. split.
        * intros _. exists (fun i j => M' i (n + j)%nat). split; auto. intros i j Hi Hj. apply EM; lia.
        * intros Z. exfalso. apply inverse_nonsingular, nonsingular_det in IV. contradiction.
      + split; [intros D; exfalso; apply NS, nonsingular_det, D|]. intros _ i j Hi Hj. apply SP; lia. }
  assert (W : forall d (x : R), d = 0 -> notfin (xmul (Fin x) (xdiv (Fin 1) (Fin d)))) by (intros d x ->; apply notfin_mul, notfin_div0).
  assert (P : forall d, Fin (- d) = xneg (Fin d)) by reflexivity.
  destruct (Nat.eq_dec n 1) as [->|N1]; [|destruct (Nat.eq_dec n 2) as [->|N2]; [|destruct (Nat.eq_dec n 3) as [->|N3]]].
  - cbn [inv_matrix]. rewrite (E 0 0)%nat by lia. unfold xdivo. cbn [obind]. eexists. split; [reflexivity|]. rewrite det_1. split; intros D.
    + rewrite xdiv_one by auto. exists (fun _ _ => 1 / A 0%nat 0%nat). split.
      * intros i j Hi Hj. replace i with 0%nat by lia. replace j with 0%nat by lia. reflexivity.
      * split; intros i j Hi Hj; replace i with 0%nat by lia; replace j with 0%nat by lia; unfold mmul, mid; cbn; field; auto.
    + intros i j Hi Hj. replace i with 0%nat by lia. replace j with 0%nat by lia. rewrite D. apply notfin_div0.
  - cbn [inv_matrix]. rewrite !E by lia. cbn zeta. cbn [xmul xsub xneg xadd]. unfold xdivo. cbn [obind]. eexists. split; [reflexivity|].
    assert (DE : A 0%nat 0%nat * A 1%nat 1%nat + - (A 0%nat 1%nat * A 1%nat 0%nat) = det 2 A) by (rewrite det_2; ring).
    rewrite DE. split; intros D.
    + rewrite xdiv_one by auto. set (q := 1 / det 2 A). assert (Q : q * (A 0%nat 0%nat * A 1%nat 1%nat + - (A 0%nat 1%nat * A 1%nat 0%nat)) = 1) by (rewrite DE; unfold q; field; auto).
      clearbody q. exists (fun i j => nth j (nth i [[A 1%nat 1%nat * q; - A 0%nat 1%nat * q]; [- A 1%nat 0%nat * q; A 0%nat 0%nat * q]] []) 0). split.
      * intros [|[|i]] [|[|j]] Hi Hj; try lia; reflexivity.
      * split; intros [|[|i]] [|[|j]] Hi Hj; try lia; unfold mmul, mid; cbn; nra.
    + intros [|[|i]] [|[|j]] Hi Hj; try lia; cbn [nth]; apply W; auto.
  - cbn [inv_matrix]. rewrite !E by lia. cbn zeta. cbn [xmul xsub xneg xadd]. unfold xdivo. cbn [obind]. eexists. split; [reflexivity|].
    match goal with |- context [xdiv (Fin 1) (Fin ?d)] => assert (DE : d = det 3 A) by (rewrite det_3; ring); rewrite DE end.
    split; intros D.
    + rewrite xdiv_one by auto. set (q := 1 / det 3 A). assert (Q : q * det 3 A = 1) by (unfold q; field; auto). rewrite det_3 in Q. clearbody q. clear DE D.
      eexists (fun i j => nth j (nth i [[_; _; _]; [_; _; _]; [_; _; _]] []) 0). split.
      * intros [|[|[|i]]] [|[|[|j]]] Hi Hj; try lia; cbn [nth xmul]; reflexivity.
      * split; intros [|[|[|i]]] [|[|[|j]]] Hi Hj; try lia; unfold mmul, mid; cbn [sumn nth Nat.eqb];
          first [ring | rewrite <- Q; ring].
    + intros [|[|[|i]]] [|[|[|j]]] Hi Hj; try lia; cbn [nth]; apply W; auto.
  - destruct (G n E) as (m' & R & C). exists (fun i j => m' i (n + j)%nat). split; [|exact C].
    destruct n as [|n]; [cbn [inv_matrix]; rewrite R; reflexivity|]. do 3 (destruct n as [|n]; [lia|]). cbn [inv_matrix]. rewrite R. reflexivity.
Qed.
