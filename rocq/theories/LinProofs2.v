(** The LU determinant: the elimination keeps the determinant. *)
From Coq Require Import List Arith Lia Bool Reals Lra.
From Verif Require Import Base KernelModel NumModel LinSpec LinProofs LinModel.
Import ListNotations.
Open Scope R_scope.

(** the entries of a matrix of floats are these numbers *)
Definition entries (n w : nat) (m : nat -> nat -> xr) (M : matrix) : Prop := forall i j, (i < n)%nat -> (j < w)%nat -> m i j = Fin (M i j).
Definition xdivo (a b : xr) : option xr := Some (xdiv a b).
Notation fmag := (magnitude (Fin 0) xneg xltb).
Notation fpivot := (find_pivot (Fin 0) xneg xltb).

Lemma fmag_fin : forall x, fmag (Fin x) = Fin (Rabs x).
Proof.
  intros x. unfold magnitude. cbn. unfold Rltb. destruct (Rlt_dec x 0); cbn; f_equal.
  - now rewrite Rabs_left.
  - rewrite Rabs_right; lra.
Qed.
Lemma xltb_fin : forall x y, xltb (Fin x) (Fin y) = Rltb x y.
Proof. reflexivity. Qed.
Lemma pivot_fold : forall (m : nat -> nat -> xr) k l p v,
  let r := fold_left (fun b i => let u := fmag (m i k) in if xltb (snd b) u then (i, u) else b) l (p, v) in
  fst r = p \/ In (fst r) l.
Proof.
  induction l as [|i l IH]; intros p v; [left; reflexivity|]. cbn [fold_left]. cbn beta zeta. cbn [snd]. destruct (xltb v (fmag (m i k))).
  - destruct (IH i (fmag (m i k))) as [H|H]; right; [left; symmetry; exact H|right; exact H].
  - destruct (IH p v) as [H|H]; [left; exact H|right; right; exact H].
Qed.
Lemma find_pivot_range : forall n k m, (k < n)%nat -> (k <= fpivot n k m < n)%nat.
Proof.
  intros n k m H. unfold find_pivot. destruct (pivot_fold m k (seq (S k) (n - S k)) k (fmag (m k k))) as [E|E].
  - cbn zeta in E. rewrite E. lia.
  - apply in_seq in E. cbn zeta in E. lia.
Qed.
Lemma pivot_fold_max : forall (m : nat -> nat -> xr) (M : matrix) k l p,
  (forall i, In i l -> m i k = Fin (M i k)) ->
  let r := fold_left (fun b i => let u := fmag (m i k) in if xltb (snd b) u then (i, u) else b) l (p, Fin (Rabs (M p k))) in
  snd r = Fin (Rabs (M (fst r) k)) /\ Rabs (M p k) <= Rabs (M (fst r) k) /\ forall i, In i l -> Rabs (M i k) <= Rabs (M (fst r) k).
Proof.
  induction l as [|i l IH]; intros p H; [cbn; repeat split; [lra|tauto]|].
  cbn [fold_left]. cbn beta zeta. cbn [snd]. rewrite (H i) by (left; auto). rewrite fmag_fin, xltb_fin.
  unfold Rltb. destruct (Rlt_dec (Rabs (M p k)) (Rabs (M i k))) as [L|L].
  - destruct (IH i) as (E1 & E2 & E3); [intros; apply H; right; auto|]. split; [exact E1|]. split; [cbn beta zeta in *; lra|].
    intros a [<-|Ha]; auto.
  - destruct (IH p) as (E1 & E2 & E3); [intros; apply H; right; auto|]. split; [exact E1|]. split; [exact E2|].
    intros a [<-|Ha]; auto. cbn beta zeta in *. lra.
Qed.
Lemma find_pivot_max : forall n w k m M, entries n w m M -> (k < n)%nat -> (k < w)%nat ->
  forall i, (k <= i < n)%nat -> Rabs (M i k) <= Rabs (M (fpivot n k m) k).
Proof.
  intros n w k m M E H Hw i Hi. unfold find_pivot. rewrite (E k k), fmag_fin by auto.
  destruct (pivot_fold_max m M k (seq (S k) (n - S k)) k) as (_ & E2 & E3).
  - intros a Ha. apply in_seq in Ha. apply E; lia.
  - destruct (Nat.eq_dec i k) as [->|NE]; [exact E2|]. apply E3, in_seq. lia.
Qed.

(** the part from row and column [k] on *)
Definition from (k : nat) (M : matrix) : matrix := fun i j => M (k + i)%nat (k + j)%nat.

Lemma entries_exchange : forall n w m M a b, (a < n)%nat -> (b < n)%nat -> entries n w m M -> entries n w (exchange a b m) (exchange a b M).
Proof. intros n w m M a b Ha Hb E i j Hi Hj. unfold exchange. destruct (i =? a)%nat, (i =? b)%nat; apply E; auto. Qed.
Lemma from_exchange : forall k p M n, (k < p)%nat -> meq n (from k (exchange k p M)) (swap_rows (from k M) 0 (p - k)).
Proof.
  intros k p M n H i j _ _. unfold from, exchange, swap_rows, two, set_row.
  destruct (Nat.eqb_spec (k + i) k); destruct (Nat.eqb_spec (k + i) p); destruct (Nat.eqb_spec i (p - k)); destruct (Nat.eqb_spec i 0);
    subst; try lia; auto; f_equal; lia.
Qed.

Notation fsub_row := (sub_row xsub xmul).
Notation felim := (eliminate xsub xmul xdivo).
Definition rsub_row (k i : nat) (f : R) (M : matrix) : matrix :=
  fun r c => if (r =? i)%nat && (k <=? c)%nat then M r c - f * M k c else M r c.
Lemma entries_sub_row : forall n k i f m M, (k < n)%nat -> entries n n m M -> entries n n (fsub_row k i (Fin f) m) (rsub_row k i f M).
Proof.
  intros n k i f m M Hk E a b Ha Hb. unfold sub_row, rsub_row. rewrite !(E a b), (E k b) by auto.
  destruct ((a =? i)%nat && (k <=? b)%nat); auto.
Qed.
Lemma from_sub_row : forall n k i f M, (k < i)%nat ->
  meq n (from k (rsub_row k i f M)) (set_row (from k M) (i - k) (fun j => from k M (i - k)%nat j + (- f) * from k M 0%nat j)).
Proof.
  intros n k i f M H a b _ _. unfold from, rsub_row, set_row. replace (k <=? k + b)%nat with true by (symmetry; apply Nat.leb_le; lia).
  rewrite andb_true_r, Nat.add_0_r. destruct (Nat.eqb_spec (k + a) i); destruct (Nat.eqb_spec a (i - k)); try lia; auto.
  subst a. ring.
Qed.
Lemma eliminate_ok : forall n k p rows m M, (k < n)%nat -> p <> 0 -> NoDup rows -> (forall i, In i rows -> (k < i < n)%nat) ->
  entries n n m M -> M k k = p ->
  exists m' M', felim k (Fin p) rows m = Some m' /\ entries n n m' M' /\
    det (n - k) (from k M') = det (n - k) (from k M) /\
    (forall i j, (i < n)%nat -> ~ In i rows -> M' i j = M i j) /\ (forall i, In i rows -> M' i k = 0) /\
    (forall i j, In i rows -> (k <= j)%nat -> M' i j = M i j - M i k / p * M k j).
Proof.
  intros n k p rows. induction rows as [|i rows IH]; intros m M Hk Hp ND HR E EP.
  - exists m, M. cbn. repeat split; auto; intros i; tauto.
  - inversion ND as [|? ? NI ND']; subst. assert (Hi : (k < i < n)%nat) by (apply HR; left; auto).
    cbn [eliminate]. rewrite (E i k) by lia. unfold xdivo at 1. cbn [obind xdiv]. destruct (Req_EM_T (M k k) 0) as [Z|_]; [contradiction|].
    set (f := M i k / M k k). assert (KK : rsub_row k i f M k k = M k k).
    { unfold rsub_row. replace (k =? i)%nat with false by (symmetry; apply Nat.eqb_neq; lia). reflexivity. }
    destruct (IH (fsub_row k i (Fin f) m) (rsub_row k i f M)) as (m' & M' & R1 & R2 & R3 & R4 & R5 & R6); auto.
    + intros a Ha. apply HR. right. auto.
    + apply entries_sub_row; auto.
    + exists m', M'. split; [exact R1|]. split; [exact R2|]. split; [|split; [|split]].
      * rewrite R3, (det_ext _ _ _ (from_sub_row (n - k) k i f M ltac:(lia))). apply det_add_row; lia.
      * intros a j Ha NA. rewrite R4; auto; [|intros Q; apply NA; right; auto]. unfold rsub_row.
        destruct (Nat.eqb_spec a i); auto. subst. exfalso. apply NA. left. auto.
      * intros a [<-|Ha]; auto. rewrite R4 by (auto; lia). unfold rsub_row. rewrite Nat.eqb_refl, Nat.leb_refl. cbn. unfold f. field. auto.
      * assert (K0 : forall j, rsub_row k i f M k j = M k j).
        { intros j. unfold rsub_row. replace (k =? i)%nat with false by (symmetry; apply Nat.eqb_neq; lia). reflexivity. }
        intros a j [<-|Ha] Hj.
        -- rewrite R4 by (auto; lia). unfold rsub_row. rewrite Nat.eqb_refl. apply Nat.leb_le in Hj. rewrite Hj. reflexivity.
        -- rewrite R6, K0 by auto. unfold rsub_row. destruct (Nat.eqb_spec a i) as [->|]; [contradiction|]. reflexivity.
Qed.

Notation fdet tiny := (det_matrix (Fin 0) (Fin 1) xadd xsub xmul xdivo xneg xltb tiny).
Notation flu tiny := (lu_loop (Fin 0) xsub xmul xdivo xneg xltb tiny).
Lemma sign_odd : forall s, sign s = if Nat.odd s then -1 else 1.
Proof. intros s. unfold sign. rewrite <- Nat.negb_odd. destruct (Nat.odd s); cbn; lra. Qed.
Lemma minor_from : forall n k M, meq n (minor 0 (from k M)) (from (S k) M).
Proof. intros n k M i j _ _. unfold minor, from. cbn. f_equal; lia. Qed.
Lemma lu_ok : forall tiny n len k lu M swaps d, (k + len = n)%nat -> entries n n lu M ->
  tiny (Fin 0) = true \/ det len (from k M) <> 0 ->
  flu tiny n (seq k len) lu swaps (Fin d) = Some (Fin (sign swaps * d * det len (from k M))) \/
  (flu tiny n (seq k len) lu swaps (Fin d) = Some (Fin 0) /\ exists x, 0 <= x /\ tiny (Fin x) = true).
Proof.
  intros tiny n. induction len as [|len IH]; intros k lu M swaps d Hn E HT.
  - left. cbn. rewrite sign_odd. destruct (Nat.odd swaps); cbn; do 2 f_equal; ring.
  - cbn [seq lu_loop]. assert (Hk : (k < n)%nat) by lia. set (p := fpivot n k lu). assert (HP : (k <= p < n)%nat) by now apply find_pivot_range.
    pose proof (find_pivot_max n n k lu M E Hk Hk) as MX. fold p in MX.
    set (lu1 := if (p =? k)%nat then lu else exchange k p lu). set (M1 := if (p =? k)%nat then M else exchange k p M).
    set (s1 := if (p =? k)%nat then swaps else S swaps).
    assert (E1 : entries n n lu1 M1) by (unfold lu1, M1; destruct (p =? k)%nat; auto; apply entries_exchange; auto; lia).
    assert (D1 : sign s1 * det (S len) (from k M1) = sign swaps * det (S len) (from k M)).
    { unfold s1, M1. destruct (Nat.eqb_spec p k) as [_|NE]; auto. rewrite sign_S, (det_ext _ _ _ (from_exchange k p M (S len) ltac:(lia))), det_swap by lia. ring. }
    assert (P1 : M1 k k = M p k) by (unfold M1, exchange; destruct (Nat.eqb_spec p k) as [->|NE]; auto; now rewrite Nat.eqb_refl).
    rewrite (E1 k k), fmag_fin by auto. destruct (tiny (Fin (Rabs (M1 k k)))) eqn:TE.
    + right. split; auto. exists (Rabs (M1 k k)). split; auto. apply Rabs_pos.
    + assert (NZ : M1 k k <> 0).
      { intros Z. destruct HT as [HT|HT]; [rewrite Z, Rabs_R0 in TE; congruence|]. apply HT, det_column_zero. intros i Hi.
        unfold from. rewrite Nat.add_0_r. specialize (MX (k + i)%nat ltac:(lia)). rewrite <- P1, Z, Rabs_R0 in MX.
        pose proof (Rabs_pos (M (k + i)%nat k)). destruct (Req_dec (M (k + i)%nat k) 0) as [|Q]; auto. apply Rabs_pos_lt in Q. lra. }
      destruct (eliminate_ok n k (M1 k k) (seq (S k) (n - S k)) lu1 M1) as (m' & M' & R1 & R2 & R3 & R4 & R5 & _); auto.
      * apply seq_NoDup.
      * intros i Hi. apply in_seq in Hi. lia.
      * rewrite R1. cbn [obind]. cbn [xmul].
        assert (D2 : det (S len) (from k M1) = M1 k k * det len (from (S k) M')).
        { replace (n - k)%nat with (S len) in R3 by lia. rewrite <- R3, det_column.
          - rewrite (det_ext _ _ _ (minor_from len k M')). f_equal. unfold from. rewrite !Nat.add_0_r. apply R4; auto. intros Q. apply in_seq in Q. lia.
          - intros i Hi. unfold from. rewrite Nat.add_0_r. apply R5, in_seq. lia. }
        destruct (IH (S k) m' M' s1 (d * M1 k k)) as [R|R]; auto; [lia| |].
        -- destruct HT as [HT|HT]; auto. right. intros Z. apply HT. rewrite Z in D2. rewrite Rmult_0_r in D2. rewrite D2 in D1.
           assert (sign swaps <> 0) by (rewrite sign_odd; destruct (Nat.odd swaps); lra). nra.
        -- left. rewrite R. do 2 f_equal. transitivity (d * (sign s1 * det (S len) (from k M1))); [rewrite D2; ring|rewrite D1; ring].
Qed.
Lemma det_1 : forall A, det 1 A = A 0%nat 0%nat.
Proof. intros A. cbn. unfold sign. cbn. ring. Qed.
Lemma det_2 : forall A : matrix, det 2 A = A 0%nat 0%nat * A 1%nat 1%nat - A 0%nat 1%nat * A 1%nat 0%nat.
Proof. intros A. cbn. unfold sign, minor. cbn. ring. Qed.
Lemma det_3 : forall A : matrix, det 3 A =
  A 0%nat 0%nat * (A 1%nat 1%nat * A 2%nat 2%nat - A 1%nat 2%nat * A 2%nat 1%nat)
  - A 0%nat 1%nat * (A 1%nat 0%nat * A 2%nat 2%nat - A 1%nat 2%nat * A 2%nat 0%nat)
  + A 0%nat 2%nat * (A 1%nat 0%nat * A 2%nat 1%nat - A 1%nat 1%nat * A 2%nat 0%nat).
Proof. intros A. cbn. unfold sign, minor. cbn. ring. Qed.
Lemma det_small : forall tiny n m M, (1 <= n <= 3)%nat -> entries n n m M -> fdet tiny n m = Some (Fin (det n M)).
Proof.
  intros tiny n m M H E. assert (C : n = 1%nat \/ n = 2%nat \/ n = 3%nat) by lia. destruct C as [->|[->| ->]]; cbn [det_matrix];
    rewrite ?E by lia; rewrite ?det_1, ?det_2, ?det_3; cbn; do 2 f_equal; ring.
Qed.
Lemma from_0 : forall n M, meq n (from 0 M) M.
Proof. intros n M i j _ _. reflexivity. Qed.
Lemma det_large : forall tiny n m M, entries n n m M -> tiny (Fin 0) = true \/ det n M <> 0 ->
  fdet tiny n m = Some (Fin (det n M)) \/ (fdet tiny n m = Some (Fin 0) /\ (4 <= n)%nat /\ exists x, 0 <= x /\ tiny (Fin x) = true).
Proof.
  intros tiny n m M E HT. destruct (Nat.le_gt_cases 1 n) as [L|L]; [destruct (Nat.le_gt_cases n 3) as [G|G]|].
  - left. apply det_small; auto.
  - destruct (lu_ok tiny n n 0 m M 0 1) as [R|R]; auto.
    + left. do 4 (destruct n as [|n]; [lia|]). cbn [det_matrix]. rewrite R, (det_ext _ _ _ (from_0 _ M)). unfold sign. cbn [Nat.even]. do 2 f_equal. ring.
    + right. do 4 (destruct n as [|n]; [lia|]). cbn [det_matrix]. destruct R as (R & X). split; [exact R|]. split; [lia|exact X].
  - left. replace n with 0%nat by lia. reflexivity.
Qed.

(* ---------- dominant columns: no pivot is small ---------- *)
(** in each column from [k] on the diagonal entry exceeds the others together by at least [q] *)
Definition dominant (q : R) (k n : nat) (M : matrix) : Prop :=
  forall j, (k <= j < n)%nat -> q + sumn n (fun i => if (k <=? i)%nat && negb (i =? j)%nat then Rabs (M i j) else 0) <= Rabs (M j j).
Lemma sumn_nonneg : forall n f, (forall i, (i < n)%nat -> 0 <= f i) -> 0 <= sumn n f.
Proof. induction n as [|n IH]; intros f H; cbn [sumn]; [lra|]. pose proof (IH f). pose proof (H n). assert (0 <= sumn n f) by auto. assert (0 <= f n) by auto. lra. Qed.
Lemma sumn_le : forall n f g, (forall i, (i < n)%nat -> f i <= g i) -> sumn n f <= sumn n g.
Proof. induction n as [|n IH]; intros f g H; cbn [sumn]; [lra|]. assert (sumn n f <= sumn n g) by auto. assert (f n <= g n) by auto. lra. Qed.
Lemma sumn_term : forall n f k, (k < n)%nat -> (forall i, (i < n)%nat -> 0 <= f i) -> f k <= sumn n f.
Proof.
  induction n as [|n IH]; intros f k Hk H; [lia|]. cbn [sumn]. assert (0 <= f n) by auto. destruct (Nat.eq_dec k n) as [->|NE].
  - assert (0 <= sumn n f) by (apply sumn_nonneg; auto). lra.
  - assert (f k <= sumn n f) by (apply IH; auto; lia). lra.
Qed.
Lemma pivot_fold_stay : forall (m : nat -> nat -> xr) (M : matrix) k l p, (forall i, In i l -> m i k = Fin (M i k) /\ Rabs (M i k) <= Rabs (M p k)) ->
  fold_left (fun b i => let u := fmag (m i k) in if xltb (snd b) u then (i, u) else b) l (p, Fin (Rabs (M p k))) = (p, Fin (Rabs (M p k))).
Proof.
  induction l as [|i l IH]; intros p H; [reflexivity|]. cbn [fold_left]. cbn beta zeta. cbn [snd]. destruct (H i) as [E L]; [left; auto|].
  rewrite E, fmag_fin, xltb_fin. unfold Rltb. destruct (Rlt_dec (Rabs (M p k)) (Rabs (M i k))); [lra|]. apply IH. intros; apply H; right; auto.
Qed.
Lemma dominant_pivot : forall q n k m M, 0 <= q -> entries n n m M -> (k < n)%nat -> dominant q k n M -> fpivot n k m = k.
Proof.
  intros q n k m M Q E Hk D. unfold find_pivot. rewrite (E k k), fmag_fin by auto. rewrite (pivot_fold_stay m M k); [reflexivity|].
  intros i Hi. apply in_seq in Hi. split; [apply E; lia|]. specialize (D k ltac:(lia)).
  pose proof (sumn_term n (fun i => if (k <=? i)%nat && negb (i =? k)%nat then Rabs (M i k) else 0) i ltac:(lia)) as T. cbn beta in T.
  replace (k <=? i)%nat with true in T by (symmetry; apply Nat.leb_le; lia). replace (i =? k)%nat with false in T by (symmetry; apply Nat.eqb_neq; lia).
  cbn [negb andb] in T. assert (Rabs (M i k) <= sumn n (fun i => if (k <=? i)%nat && negb (i =? k)%nat then Rabs (M i k) else 0)); [|lra].
  apply T. intros a _. destruct ((k <=? a)%nat && negb (a =? k)%nat); [apply Rabs_pos|lra].
Qed.
Lemma dominant_step : forall q n k M M', 0 < q -> (k < n)%nat -> dominant q k n M ->
  (forall i j, (k < i < n)%nat -> (k <= j)%nat -> M' i j = M i j - M i k / M k k * M k j) -> dominant q (S k) n M'.
Proof.
  intros q n k M M' Q Hk D E j Hj. pose proof (D k ltac:(lia)) as DK. pose proof (D j ltac:(lia)) as DJ.
  set (F := fun c i => if (k <=? i)%nat && negb (i =? c)%nat then Rabs (M i c) else 0) in *. change (fun i => F k i) with (F k) in DK.
  assert (FN : forall c i, 0 <= F c i) by (intros c i; unfold F; destruct ((k <=? i)%nat && negb (i =? c)%nat); [apply Rabs_pos|lra]).
  assert (SK : sumn n (fun i => if (k <=? i)%nat && negb (i =? k)%nat then Rabs (M i k) else 0) = sumn n (F k)) by reflexivity.
  assert (SJ : sumn n (fun i => if (k <=? i)%nat && negb (i =? j)%nat then Rabs (M i j) else 0) = sumn n (F j)) by reflexivity.
  rewrite SK in DK. rewrite SJ in DJ.
  assert (PK : 0 < Rabs (M k k)) by (assert (0 <= sumn n (F k)) by (apply sumn_nonneg; auto); lra).
  set (c := Rabs (M k j) / Rabs (M k k)). assert (C0 : 0 <= c) by (apply Rmult_le_pos; [apply Rabs_pos|left; now apply Rinv_0_lt_compat]).
  assert (CK : c * Rabs (M k k) = Rabs (M k j)) by (unfold c; field; lra).
  assert (T : forall i, Rabs (M i k / M k k * M k j) = c * Rabs (M i k)).
  { intros i. unfold c. rewrite Rabs_mult. unfold Rdiv. rewrite Rabs_mult, Rabs_inv. ring. }
  (* the new column, the old one and the change *)
  assert (B : sumn n (fun i => if (S k <=? i)%nat && negb (i =? j)%nat then Rabs (M' i j) else 0) + Rabs (M k j) + c * Rabs (M j k)
              <= sumn n (F j) + c * sumn n (F k)).
  { set (G := fun i => (if (i =? k)%nat then Rabs (M k j) else 0)). set (H := fun i => if (i =? j)%nat then c * Rabs (M j k) else 0).
    assert (SG : sumn n G = Rabs (M k j)).
    { rewrite (sumn_one n G k); [unfold G; now rewrite Nat.eqb_refl|lia|]. intros i _ NE. unfold G. destruct (Nat.eqb_spec i k); [contradiction|auto]. }
    assert (SHH : sumn n H = c * Rabs (M j k)).
    { rewrite (sumn_one n H j); [unfold H; now rewrite Nat.eqb_refl|lia|]. intros i _ NE. unfold H. destruct (Nat.eqb_spec i j); [contradiction|auto]. }
    rewrite <- SG, <- SHH, <- sumn_scale, <- !sumn_plus. apply sumn_le. intros i Hi. unfold F, G, H.
    destruct (Nat.leb_spec (S k) i) as [L|L]; destruct (Nat.leb_spec k i) as [L'|L']; destruct (Nat.eqb_spec i j) as [->|N1];
      try (destruct (Nat.eqb_spec i k) as [N2|N2]); try (destruct (Nat.eqb_spec j k) as [N2|N2]); cbn [negb andb]; try lia; try lra.
    - rewrite E by lia. unfold Rminus. pose proof (Rabs_triang (M i j) (- (M i k / M k k * M k j))) as TR. rewrite Rabs_Ropp, T in TR. lra.
    - subst i. lra. }
  assert (J : Rabs (M j j) - c * Rabs (M j k) <= Rabs (M' j j)).
  { rewrite E by lia. pose proof (Rabs_triang_inv (M j j) (M j k / M k k * M k j)) as TR. rewrite T in TR. lra. }
  assert (c * (q + sumn n (F k)) <= Rabs (M k j)) by (rewrite <- CK; apply Rmult_le_compat_l; auto).
  assert (0 <= c * q) by (apply Rmult_le_pos; lra). lra.
Qed.
Lemma lu_dominant : forall tiny q n len k lu M swaps d, 0 < q -> (forall x, q <= x -> tiny (Fin x) = false) -> (k + len = n)%nat ->
  entries n n lu M -> dominant q k n M -> flu tiny n (seq k len) lu swaps (Fin d) = Some (Fin (sign swaps * d * det len (from k M))).
Proof.
  intros tiny q n. induction len as [|len IH]; intros k lu M swaps d Q HT Hn E D.
  - cbn. rewrite sign_odd. destruct (Nat.odd swaps); cbn; do 2 f_equal; ring.
  - cbn [seq lu_loop]. assert (Hk : (k < n)%nat) by lia. rewrite (dominant_pivot q n k lu M) by (auto; lra). rewrite Nat.eqb_refl.
    rewrite (E k k), fmag_fin by auto.
    assert (PK : q <= Rabs (M k k)).
    { specialize (D k ltac:(lia)). assert (0 <= sumn n (fun i => if (k <=? i)%nat && negb (i =? k)%nat then Rabs (M i k) else 0)); [|lra].
      apply sumn_nonneg. intros i _. destruct ((k <=? i)%nat && negb (i =? k)%nat); [apply Rabs_pos|lra]. }
    rewrite HT by auto. assert (NZ : M k k <> 0) by (intros Z; rewrite Z, Rabs_R0 in PK; lra).
    destruct (eliminate_ok n k (M k k) (seq (S k) (n - S k)) lu M) as (m' & M' & R1 & R2 & R3 & R4 & R5 & R6); auto.
    + apply seq_NoDup.
    + intros i Hi. apply in_seq in Hi. lia.
    + rewrite R1. cbn [obind xmul]. rewrite (IH (S k) m' M' swaps (d * M k k)); auto; [|lia|].
      * do 2 f_equal. replace (n - k)%nat with (S len) in R3 by lia. rewrite <- R3, det_column.
        -- rewrite (det_ext _ _ _ (minor_from len k M')). replace (from k M' 0%nat 0%nat) with (M k k); [ring|].
           unfold from. rewrite !Nat.add_0_r. symmetry. apply R4; auto. intros Qx. apply in_seq in Qx. lia.
        -- intros i Hi. unfold from. rewrite Nat.add_0_r. apply R5, in_seq. lia.
      * apply (dominant_step q n k M M'); auto. intros i j Hi Hj. apply R6; auto. apply in_seq. lia.
Qed.
Lemma det_dominant : forall tiny q n m M, 0 < q -> (forall x, q <= x -> tiny (Fin x) = false) -> entries n n m M -> dominant q 0 n M ->
  fdet tiny n m = Some (Fin (det n M)).
Proof.
  intros tiny q n m M Q HT E D. destruct (Nat.le_gt_cases 4 n) as [L|L].
  - pose proof (lu_dominant tiny q n n 0 m M 0 1 Q HT eq_refl E D) as R. do 4 (destruct n as [|n]; [lia|]). cbn [det_matrix].
    rewrite R, (det_ext _ _ _ (from_0 _ M)). unfold sign. cbn [Nat.even]. do 2 f_equal. ring.
  - destruct n as [|n]; [reflexivity|]. apply det_small; auto. lia.
Qed.
