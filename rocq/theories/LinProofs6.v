(** Where the determinant goes wrong: small pivots, zero pivots; integers. *)
From Coq Require Import List Arith ZArith Lia Bool Reals Lra Morphisms Zdiv.
From Verif Require Import Base KernelModel NumModel EncodeModel NnModel LinSpec LinProofs LinModel LinModel2 LinProofs2 LinProofs3.
Import ListNotations.
Open Scope R_scope.

(** ** a first column below the threshold *)
Lemma det_tiny_column : forall tiny n m M, (4 <= n)%nat -> entries n n m M ->
  (forall i, (i < n)%nat -> tiny (Fin (Rabs (M i 0%nat))) = true) -> fdet tiny n m = Some (Fin 0).
Proof.
  intros tiny n m M H E T. assert (R : flu tiny n (seq 0 n) m 0 (Fin 1) = Some (Fin 0)).
  { replace n with (S (n - 1)) at 2 by lia. cbn [seq lu_loop]. set (p := fpivot n 0 m). assert (HP : (0 <= p < n)%nat) by (apply find_pivot_range; lia).
    assert (P : (if (p =? 0)%nat then m else exchange 0 p m) 0%nat 0%nat = Fin (M p 0%nat)).
    { destruct (Nat.eqb_spec p 0) as [Z|Z]; [rewrite Z; apply E; lia|]. unfold exchange. cbn. apply E; lia. }
    rewrite P, fmag_fin, T by lia. reflexivity. }
  do 4 (destruct n as [|n]; [lia|]). exact R.
Qed.
(** ** a zero first column, without threshold *)
Definition never (_ : xr) : bool := false.
Lemma elim_total : forall k pv rows m, exists m', felim k pv rows m = Some m'.
Proof. intros k pv. induction rows as [|i rows IH]; intros m; [exists m; reflexivity|]. cbn [eliminate]. unfold xdivo at 1. cbn [obind]. apply IH. Qed.
Lemma elim_nan : forall k rows m i j, NoDup rows -> ~ In k rows -> m k k = Fin 0 -> (forall a, In a rows -> m a k = Fin 0) -> In i rows -> (k <= j)%nat ->
  exists m', felim k (Fin 0) rows m = Some m' /\ m' i j = Nan.
Proof.
  intros k. assert (Q : xdiv (Fin 0) (Fin 0) = Nan).
  { cbn. destruct (Req_EM_T 0 0); [|congruence]. unfold xscale, Rltb. destruct (Rlt_dec 0 0); [lra|reflexivity]. }
  assert (G : forall rows m i j, NoDup rows -> ~ In i rows -> m i j = Nan -> exists m', felim k (Fin 0) rows m = Some m' /\ m' i j = Nan).
  { induction rows as [|a rows IH]; intros m i j ND NI H; [exists m; auto|]. inversion ND; subst. cbn [eliminate]. unfold xdivo at 1. cbn [obind].
    apply IH; auto; [intros X; apply NI; right; auto|]. unfold sub_row. destruct (Nat.eqb_spec i a) as [->|]; [exfalso; apply NI; left; auto|]. exact H. }
  induction rows as [|a rows IH]; intros m i j ND NK MK MZ HI Hj; [destruct HI|]. inversion ND; subst. cbn [eliminate]. unfold xdivo at 1. cbn [obind].
  rewrite (MZ a) by (left; auto). rewrite Q. destruct HI as [<-|HI].
  - apply G; auto. unfold sub_row. rewrite Nat.eqb_refl. apply Nat.leb_le in Hj. rewrite Hj. cbn. destruct (m a j); reflexivity.
  - apply IH; auto.
    + intros X. apply NK. right. auto.
    + unfold sub_row. destruct (Nat.eqb_spec k a) as [->|]; [exfalso; apply NK; left; auto|]. exact MK.
    + intros b Hb. unfold sub_row. destruct (Nat.eqb_spec b a) as [->|]; [contradiction|]. apply MZ. right. auto.
Qed.
Lemma lu_nan : forall n ks m swaps, flu never n ks m swaps Nan = Some Nan.
Proof.
  intros n. induction ks as [|k ks IH]; intros m swaps; cbn [lu_loop]; [destruct (Nat.odd swaps); reflexivity|]. cbn zeta. unfold never at 1.
  destruct (elim_total k ((if (fpivot n k m =? k)%nat then m else exchange k (fpivot n k m) m) k k) (seq (S k) (n - S k))
              (if (fpivot n k m =? k)%nat then m else exchange k (fpivot n k m) m)) as [m' ->]. cbn [obind xmul]. apply IH.
Qed.
Lemma det_zero_column : forall n m M, (4 <= n)%nat -> entries n n m M -> (forall i, (i < n)%nat -> M i 0%nat = 0) -> fdet never n m = Some Nan.
Proof.
  intros n m M H E Z. assert (R : flu never n (seq 0 n) m 0 (Fin 1) = Some Nan).
  { destruct n as [|n]; [lia|]. cbn [seq lu_loop]. set (p := fpivot (S n) 0 m). assert (HP : (0 <= p < S n)%nat) by (apply find_pivot_range; lia).
    set (m1 := if (p =? 0)%nat then m else exchange 0 p m). set (s1 := if (p =? 0)%nat then 0%nat else 1%nat).
    assert (Z1 : forall i, (i < S n)%nat -> m1 i 0%nat = Fin 0).
    { intros i Hi. unfold m1. assert (ZZ : forall a, (a < S n)%nat -> m a 0%nat = Fin 0) by (intros; rewrite E, Z by lia; auto).
      destruct (p =? 0)%nat; auto. unfold exchange. destruct (i =? 0)%nat; [|destruct (i =? p)%nat]; apply ZZ; lia. }
    unfold never at 1. rewrite (Z1 0%nat) by lia. replace (S n - 1)%nat with n by lia.
    assert (NN : exists m', felim 0 (Fin 0) (seq 1 n) m1 = Some m' /\ forall i, (1 <= i < S n)%nat -> m' i 1%nat = Nan).
    { destruct (elim_total 0 (Fin 0) (seq 1 n) m1) as [m' Em]. exists m'. split; auto. intros i Hi.
      destruct (elim_nan 0 (seq 1 n) m1 i 1) as (m'' & Em' & V); try lia.
      - apply seq_NoDup.
      - intros X. apply in_seq in X. lia.
      - apply Z1. lia.
      - intros a Ha. apply in_seq in Ha. apply Z1. lia.
      - apply in_seq. lia.
      - congruence. }
    destruct NN as (m2 & E2 & N2). rewrite E2. cbn [obind]. destruct n as [|n]; [lia|]. cbn [seq lu_loop].
    set (q := fpivot (S (S n)) 1 m2). assert (HQ : (1 <= q < S (S n))%nat) by (apply find_pivot_range; lia).
    set (m3 := if (q =? 1)%nat then m2 else exchange 1 q m2). assert (P : m3 1%nat 1%nat = Nan).
    { unfold m3. destruct (Nat.eqb_spec q 1); [apply N2; lia|]. unfold exchange. cbn. apply N2. lia. }
    unfold never at 1. rewrite P. destruct (elim_total 1 Nan (seq 2 (S (S n) - 2)) m3) as [m4 ->]. cbn [obind xmul]. apply lu_nan. }
  do 4 (destruct n as [|n]; [lia|]). exact R.
Qed.

(** ** integers *)
Open Scope Z_scope.
Section W.
Variable w : Z.
Hypothesis w0 : 0 < w.
Notation "x == y" := (eqm (2 ^ w) x y) (at level 70).
Lemma wrap_eqm : forall x, wrap w x == x.
Proof.
  intros x. unfold wrap, eqm. rewrite Zminus_mod_idemp_l. f_equal. ring.
Qed.
Lemma wrap_of_eqm : forall x y, x == y -> wrap w x = wrap w y.
Proof.
  intros x y H. unfold wrap. f_equal. unfold eqm in H. rewrite (Zplus_mod x), H, <- Zplus_mod. reflexivity.
Qed.
Lemma wrap_small : forall x, - 2 ^ (w - 1) <= x < 2 ^ (w - 1) -> wrap w x = x.
Proof.
  intros x R. unfold wrap. rewrite Z.mod_small; [lia|]. assert (2 ^ w = 2 * 2 ^ (w - 1)); [|lia].
  replace w with (Z.succ (w - 1)) at 1 by lia. apply Z.pow_succ_r. lia.
Qed.
Lemma wrap_range : forall x, - 2 ^ (w - 1) <= wrap w x < 2 ^ (w - 1).
Proof.
  intros x. unfold wrap. assert (2 ^ w = 2 * 2 ^ (w - 1)). { replace w with (Z.succ (w - 1)) at 1 by lia. apply Z.pow_succ_r. lia. }
  assert (0 < 2 ^ w) by (apply Z.pow_pos_nonneg; lia). pose proof (Z.mod_pos_bound (x + 2 ^ (w - 1)) (2 ^ w)). lia.
Qed.
Lemma iadd_eqm : forall a b a' b', a == a' -> b == b' -> iadd w a b == a' + b'.
Proof. intros a b a' b' H K. unfold iadd. etransitivity; [apply wrap_eqm|]. unfold eqm in *. rewrite Zplus_mod, H, K, <- Zplus_mod. reflexivity. Qed.
Lemma isub_eqm : forall a b a' b', a == a' -> b == b' -> isub w a b == a' - b'.
Proof. intros a b a' b' H K. unfold isub. etransitivity; [apply wrap_eqm|]. unfold eqm in *. rewrite Zminus_mod, H, K, <- Zminus_mod. reflexivity. Qed.
Lemma imul_eqm : forall a b a' b', a == a' -> b == b' -> imul w a b == a' * b'.
Proof. intros a b a' b' H K. unfold imul. etransitivity; [apply wrap_eqm|]. unfold eqm in *. rewrite Zmult_mod, H, K, <- Zmult_mod. reflexivity. Qed.
Lemma wrap_wrap : forall x, wrap w (wrap w x) = wrap w x.
Proof. intros x. apply wrap_of_eqm, wrap_eqm. Qed.
End W.
(** the determinant over the integers, as [LinSpec.det] *)
Fixpoint zsum (n : nat) (f : nat -> Z) : Z := match n with O => 0 | S m => zsum m f + f m end.
Fixpoint zdet (n : nat) (A : nat -> nat -> Z) : Z :=
  match n with
  | O => 1
  | S m => zsum n (fun i => (if Nat.even i then 1 else -1) * A i O * zdet m (fun r c => A (if (r <? i)%nat then r else S r) (S c)))
  end.
Lemma zsum_IZR : forall n f, IZR (zsum n f) = sumn n (fun i => IZR (f i)).
Proof. induction n as [|n IH]; intros f; [reflexivity|]. cbn [zsum sumn]. now rewrite plus_IZR, IH. Qed.
Lemma zdet_IZR : forall n A, IZR (zdet n A) = det n (fun i j => IZR (A i j)).
Proof.
  induction n as [|n IH]; intros A; [reflexivity|]. cbn [zdet det]. rewrite zsum_IZR. apply sumn_ext. intros i _.
  rewrite !mult_IZR, IH. f_equal. f_equal. unfold sign. destruct (Nat.even i); [reflexivity|]. now rewrite <- opp_IZR.
Qed.
(** the determinant of an integer matrix of size at most 3, reduced into range *)
Lemma idet_small : forall w n a, 0 < w -> (1 <= n <= 3)%nat ->
  (forall i j, (i < n)%nat -> (j < n)%nat -> - 2 ^ (w - 1) <= a i j < 2 ^ (w - 1)) ->
  det_matrix 0 1 (iadd w) (isub w) (imul w) (iquot w) (ineg w) Z.ltb (fun v => v <? 0) n a = Some (wrap w (zdet n a)).
Proof.
  intros w n a W H R. assert (C : n = 1%nat \/ n = 2%nat \/ n = 3%nat) by lia.
  assert (RE : forall x, eqm (2 ^ w) x x) by reflexivity.
  assert (Q : forall r z z', wrap w r = r -> eqm (2 ^ w) r z' -> z' = z -> Some r = Some (wrap w z)).
  { intros r z z' F E <-. f_equal. rewrite <- F. now apply wrap_of_eqm. }
  destruct C as [->|[->| ->]]; cbn [det_matrix].
  - f_equal. replace (zdet 1 a) with (a O O) by (cbn -[Z.mul Z.add]; ring). symmetry. apply wrap_small; auto.
  - eapply Q; [apply wrap_wrap|apply isub_eqm; apply imul_eqm; apply RE|]. cbn -[Z.mul Z.add Z.sub]. ring.
  - eapply Q; [apply wrap_wrap| |].
    + repeat lazymatch goal with
      | |- eqm _ (iadd _ _ _) _ => apply iadd_eqm | |- eqm _ (isub _ _ _) _ => apply isub_eqm
      | |- eqm _ (imul _ _ _) _ => apply imul_eqm | _ => apply RE end.
    + cbn -[Z.mul Z.add Z.sub]. ring.
Qed.
Lemma zdet_ext : forall n A B, (forall i j, (i < n)%nat -> (j < n)%nat -> A i j = B i j) -> zdet n A = zdet n B.
Proof.
  intros n A B H. apply eq_IZR. rewrite !zdet_IZR. apply det_ext. intros i j Hi Hj. now rewrite H.
Qed.
