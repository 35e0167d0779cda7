(** Loops over rectangles of a row-major grid: how blocked loop nests compose. *)
From Coq Require Import List Arith ZArith Lia Bool ZifyBool.
From Verif Require Import Base KernelModel KernelProofs TensorProofs ScanModel MatrixModel.
Import ListNotations.

Lemma steps_nil : forall a b st, b <= a -> 0 < st -> steps a b st = [].
Proof.
  intros a b st H Hs. unfold steps. replace (b - a) with 0 by lia. rewrite Nat.div_small by lia. reflexivity.
Qed.
Lemma steps_cons : forall a b st, a < b -> 0 < st -> steps a b st = a :: steps (a + st) b st.
Proof.
  intros a b st H Hs. unfold steps.
  assert (E : (b - a + (st - 1)) / st = S ((b - (a + st) + (st - 1)) / st)).
  { destruct (Nat.le_gt_cases b (a + st)) as [L|L].
    - replace (b - (a + st)) with 0 by lia. rewrite (Nat.div_small (0 + _)) by lia.
      symmetry. apply Nat.div_unique with (r := b - a - 1); lia.
    - replace (b - a + (st - 1)) with (b - (a + st) + (st - 1) + 1 * st) by lia.
      rewrite Nat.div_add by lia. lia. }
  rewrite E. cbn [seq map]. f_equal; [lia|]. rewrite <- seq_shift, map_map. apply map_ext. intros t. lia.
Qed.
Lemma range_steps : forall a b, range a b = steps a b 1.
Proof.
  intros a b. unfold range, steps. rewrite Nat.div_1_r. replace (b - a + (1 - 1)) with (b - a) by lia.
  generalize (b - a). intros n. revert a. induction n as [|n IH]; intros a; auto.
  cbn [seq map]. f_equal; [lia|]. rewrite IH, <- seq_shift, map_map. apply map_ext. intros t. lia.
Qed.
Lemma seq_steps : forall n, seq 0 n = steps 0 n 1.
Proof. intros n. rewrite <- range_steps. unfold range. now rewrite Nat.sub_0_r. Qed.

Lemma steps_ind : forall st (P : nat -> Prop) b, 0 < st ->
  (forall a, b <= a -> P a) -> (forall a, a < b -> P (a + st) -> P a) -> forall a, P a.
Proof.
  intros st P b Hs H0 H1 a. remember (b - a) as n eqn:E. revert a E.
  induction n as [n IH] using lt_wf_ind; intros a E.
  destruct (Nat.le_gt_cases b a) as [L|L]; auto. apply H1; auto. apply (IH (b - (a + st))); lia.
Qed.

Lemma cell_lt : forall h w i j, i < h -> j < w -> i * w + j < h * w.
Proof. intros h w i j Hi Hj. nia. Qed.
Lemma cell_div : forall w i j, j < w -> (i * w + j) / w = i /\ (i * w + j) mod w = j.
Proof.
  intros w i j Hj. split.
  - rewrite Nat.div_add_l by lia. rewrite (Nat.div_small j w) by lia. lia.
  - rewrite Nat.add_comm, Nat.mod_add by lia. apply Nat.mod_small. lia.
Qed.

Section Grid.
Variables (A T : Type) (h w : nat) (val : nat -> nat -> T -> A).

(** the buffer in which cell (i,j) is in state [cnt i j] *)
Definition gst (cnt : nat -> nat -> T) : list A :=
  map (fun p => val (p / w) (p mod w) (cnt (p / w) (p mod w))) (seq 0 (h * w)).

Lemma gst_length : forall cnt, length (gst cnt) = h * w.
Proof. intros. unfold gst. now rewrite map_length, seq_length. Qed.
Lemma gst_get : forall cnt i j, i < h -> j < w -> nth_error (gst cnt) (i * w + j) = Some (val i j (cnt i j)).
Proof.
  intros cnt i j Hi Hj. unfold gst. rewrite nth_error_map_seq by (apply cell_lt; auto).
  destruct (cell_div w i j Hj) as [-> ->]. reflexivity.
Qed.
Lemma gst_ext : forall cnt cnt', (forall i j, i < h -> j < w -> cnt i j = cnt' i j) -> gst cnt = gst cnt'.
Proof.
  intros cnt cnt' H. unfold gst. apply map_ext_in. intros p Hp. apply in_seq in Hp.
  assert (w <> 0) by (intro X; rewrite X in Hp; lia).
  rewrite H; auto; [apply Nat.div_lt_upper_bound; lia|apply Nat.mod_upper_bound; auto].
Qed.

(** [F] takes the cells of region [R] from state [t0] to [t1], whatever the rest *)
Definition impl (F : list A -> option (list A)) (R : nat -> nat -> bool) (t0 t1 : T) : Prop :=
  forall cnt, (forall i j, i < h -> j < w -> R i j = true -> cnt i j = t0) ->
    F (gst cnt) = Some (gst (fun i j => if R i j then t1 else cnt i j)).

Lemma impl_eq : forall F R R' t0 t1, impl F R t0 t1 -> (forall i j, i < h -> j < w -> R i j = R' i j) ->
  impl F R' t0 t1.
Proof.
  intros F R R' t0 t1 H E cnt Hc. rewrite H.
  - f_equal. apply gst_ext. intros i j Hi Hj. now rewrite E.
  - intros i j Hi Hj X. apply Hc; auto. now rewrite <- E.
Qed.
Lemma impl_empty : forall R t0 t1, (forall i j, i < h -> j < w -> R i j = false) -> impl (fun o => Some o) R t0 t1.
Proof.
  intros R t0 t1 H cnt _. f_equal. apply gst_ext. intros i j Hi Hj. now rewrite H.
Qed.
Lemma impl_same : forall R t0, impl (fun o => Some o) R t0 t0.
Proof.
  intros R t0 cnt H. f_equal. apply gst_ext. intros i j Hi Hj. destruct (R i j) eqn:E; auto.
Qed.

Lemma impl_cell : forall F i j t0 t1, i < h -> j < w ->
  (forall out, length out = h * w -> nth_error out (i * w + j) = Some (val i j t0) ->
     F out = Some (upd out (i * w + j) (val i j t1))) ->
  impl F (fun i' j' => (i' =? i) && (j' =? j)) t0 t1.
Proof.
  intros F i j t0 t1 Hi Hj H cnt Hc.
  rewrite H; [|apply gst_length|rewrite gst_get by auto; rewrite Hc by (auto; lia); auto].
  f_equal. apply list_ext. intros p.
  destruct (Nat.lt_ge_cases p (h * w)) as [Hp|Hp].
  - assert (W : w <> 0) by (intro X; rewrite X in Hp; lia).
    assert (Hp1 : p / w < h) by (apply Nat.div_lt_upper_bound; lia).
    assert (Hp2 : p mod w < w) by (apply Nat.mod_upper_bound; auto).
    assert (EP : p = p / w * w + p mod w) by (rewrite (Nat.div_mod p w W) at 1; lia).
    rewrite EP at 2. rewrite gst_get by auto.
    destruct (Nat.eq_dec p (i * w + j)) as [E|E].
    + rewrite E at 1. rewrite nth_error_upd_eq by (rewrite gst_length; apply cell_lt; auto).
      destruct (cell_div w i j Hj) as [E1 E2]. rewrite <- E in E1, E2. rewrite E1, E2.
      now rewrite !Nat.eqb_refl.
    + rewrite nth_error_upd_neq by lia. rewrite EP at 1. rewrite gst_get by auto. do 2 f_equal.
      destruct ((p / w =? i) && (p mod w =? j)) eqn:X; auto. exfalso. apply E. rewrite EP.
      apply andb_prop in X. f_equal; [f_equal|]; lia.
  - rewrite !(proj2 (nth_error_None _ p)); auto; rewrite ?upd_length, gst_length; lia.
Qed.

(** same region, successive states *)
Lemma impl_steps_seq : forall (F : nat -> list A -> option (list A)) R (lv : nat -> T) st b, 0 < st -> forall a, a <= b ->
  (forall x, a <= x < b -> impl (F x) R (lv x) (lv (Nat.min (x + st) b))) ->
  impl (loopO F (steps a b st)) R (lv a) (lv b).
Proof.
  intros F R lv st b Hs a. pattern a. apply (steps_ind st _ b Hs); clear a.
  - intros a L L' H. rewrite steps_nil by lia. replace a with b by lia. apply impl_same.
  - intros a L IH _ H cnt Hc. rewrite steps_cons by lia. cbn [loopO].
    rewrite (H a ltac:(lia) cnt Hc). cbn [obind].
    destruct (Nat.le_gt_cases (a + st) b) as [L2|L2].
    + rewrite Nat.min_l by lia. rewrite IH; [|lia|intros x Hx; apply H; lia|].
      * f_equal. apply gst_ext. intros i j Hi Hj. destruct (R i j); auto.
      * intros i j Hi Hj X. now rewrite X.
    + rewrite Nat.min_r by lia. rewrite steps_nil by lia. reflexivity.
Qed.

(** disjoint regions: the band of cells whose coordinate [c] lies in [a,b) *)
Definition band (c : nat -> nat -> nat) (a b : nat) (Q : nat -> nat -> bool) : nat -> nat -> bool :=
  fun i j => (a <=? c i j) && (c i j <? b) && Q i j.

Lemma impl_steps_band : forall (F : nat -> list A -> option (list A)) c Q t0 t1 st b, 0 < st -> forall a,
  (forall x, a <= x < b -> impl (F x) (band c x (Nat.min (x + st) b) Q) t0 t1) ->
  impl (loopO F (steps a b st)) (band c a b Q) t0 t1.
Proof.
  intros F c Q t0 t1 st b Hs a. pattern a. apply (steps_ind st _ b Hs); clear a.
  - intros a L H. rewrite steps_nil by lia. apply impl_empty. intros i j _ _. unfold band.
    destruct (a <=? c i j) eqn:E1; auto. destruct (c i j <? b) eqn:E2; auto. lia.
  - intros a L IH H cnt Hc. rewrite steps_cons by lia. cbn [loopO].
    rewrite (H a ltac:(lia) cnt).
    + cbn [obind]. destruct (Nat.le_gt_cases b (a + st)) as [L2|L2].
      * rewrite Nat.min_r by lia. rewrite steps_nil by lia. reflexivity.
      * rewrite Nat.min_l by lia. rewrite IH; [|intros x Hx; apply H; lia|].
        -- f_equal. apply gst_ext. intros i j Hi Hj. unfold band. destruct (Q i j); rewrite ?andb_false_r, ?andb_true_r; auto.
           destruct ((a + st <=? c i j) && (c i j <? b)) eqn:E1;
           destruct ((a <=? c i j) && (c i j <? a + st)) eqn:E2;
           destruct ((a <=? c i j) && (c i j <? b)) eqn:E3; auto; exfalso; lia.
        -- intros i j Hi Hj X. unfold band in *. apply andb_prop in X. destruct X as [X XQ]. rewrite XQ, andb_true_r.
           replace ((a <=? c i j) && (c i j <? a + st)) with false by lia. apply Hc; auto. rewrite XQ. lia.
    + intros i j Hi Hj X. apply Hc; auto. unfold band in *. apply andb_prop in X. destruct X as [X XQ].
      rewrite XQ. lia.
Qed.
End Grid.

Definition rowc (i j : nat) : nat := i.
Definition colc (i j : nat) : nat := j.
Definition rect (i0 i1 j0 j1 : nat) : nat -> nat -> bool := band rowc i0 i1 (band colc j0 j1 (fun _ _ => true)).
