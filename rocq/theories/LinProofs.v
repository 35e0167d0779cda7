(** Determinants. *)
From Coq Require Import Arith Bool Lia Reals.
From Verif Require Import LinSpec.
Open Scope R_scope.

(* ---------- sums ---------- *)
Lemma sumn_ext : forall n f g, (forall i, (i < n)%nat -> f i = g i) -> sumn n f = sumn n g.
Proof. induction n as [|n IH]; intros f g H; cbn [sumn]; auto. rewrite (IH f g), (H n); auto. Qed.
Lemma sumn_zero : forall n f, (forall i, (i < n)%nat -> f i = 0) -> sumn n f = 0.
Proof. induction n as [|n IH]; intros f H; cbn [sumn]; auto. rewrite (IH f), (H n); auto. ring. Qed.
Lemma sumn_plus : forall n f g, sumn n (fun i => f i + g i) = sumn n f + sumn n g.
Proof. induction n as [|n IH]; intros f g; cbn [sumn]; [ring|]. rewrite IH. ring. Qed.
Lemma sumn_scale : forall n c f, sumn n (fun i => c * f i) = c * sumn n f.
Proof. induction n as [|n IH]; intros c f; cbn [sumn]; [ring|]. rewrite IH. ring. Qed.
Lemma sumn_one : forall n f k, (k < n)%nat -> (forall i, (i < n)%nat -> i <> k -> f i = 0) -> sumn n f = f k.
Proof.
  induction n as [|n IH]; intros f k Hk H; [lia|]. cbn [sumn]. destruct (Nat.eq_dec k n) as [->|NE].
  - rewrite sumn_zero; [ring|]. intros i Hi. apply H; lia.
  - rewrite (IH f k), (H n); auto; [ring|lia].
Qed.
Lemma sumn_two : forall n f a b, (a < b < n)%nat -> (forall i, (i < n)%nat -> i <> a -> i <> b -> f i = 0) -> sumn n f = f a + f b.
Proof.
  induction n as [|n IH]; intros f a b Hk H; [lia|]. cbn [sumn]. destruct (Nat.eq_dec b n) as [->|NE].
  - rewrite (sumn_one n f a); [ring|lia|]. intros i Hi Na. apply H; lia.
  - rewrite (IH f a b), (H n); try lia; [ring|]. intros. apply H; lia.
Qed.
Lemma sumn_S : forall n f, sumn (S n) f = f 0%nat + sumn n (fun i => f (S i)).
Proof. induction n as [|n IH]; intros f; [cbn; ring|]. cbn [sumn] in *. rewrite IH. ring. Qed.
Lemma sumn_swap : forall n m f, sumn n (fun i => sumn m (fun j => f i j)) = sumn m (fun j => sumn n (fun i => f i j)).
Proof.
  induction n as [|n IH]; intros m f; cbn [sumn]; [now rewrite sumn_zero|]. rewrite IH, <- sumn_plus. reflexivity.
Qed.
Lemma sign_S : forall i, sign (S i) = - sign i.
Proof. intros i. unfold sign. rewrite Nat.even_succ, <- Nat.negb_even. destruct (Nat.even i); cbn; ring. Qed.

(* ---------- the determinant ---------- *)
Lemma minor_lt : forall i r n, (r < n)%nat -> ((if r <? i then r else S r) < S n)%nat.
Proof. intros i r n H. destruct (r <? i); lia. Qed.
Lemma det_ext : forall n A B, meq n A B -> det n A = det n B.
Proof.
  induction n as [|n IH]; intros A B H; [reflexivity|]. cbn [det]. apply sumn_ext. intros i Hi.
  rewrite (H i 0%nat) by lia. f_equal. apply IH. intros r c Hr Hc. unfold minor. apply H; [now apply minor_lt|lia].
Qed.
Definition set_row (A : matrix) (r : nat) (v : nat -> R) : matrix := fun i j => if (i =? r)%nat then v j else A i j.
Lemma minor_set_same : forall A r v n, meq n (minor r (set_row A r v)) (minor r A).
Proof.
  intros A r v n i j Hi Hj. unfold minor, set_row. destruct (Nat.ltb_spec i r); destruct (Nat.eqb_spec i r); destruct (Nat.eqb_spec (S i) r); auto; lia.
Qed.
Lemma minor_set_other : forall A i r v n, i <> r -> meq n (minor i (set_row A r v)) (set_row (minor i A) (if r <? i then r else (r - 1))%nat (fun j => v (S j))).
Proof.
  intros A i r v n NE a b Ha Hb. unfold minor, set_row. destruct (Nat.ltb_spec r i) as [L|L]; destruct (Nat.ltb_spec a i) as [La|La].
  - reflexivity.
  - destruct (Nat.eqb_spec (S a) r); destruct (Nat.eqb_spec a r); auto; lia.
  - destruct (Nat.eqb_spec a r); destruct (Nat.eqb_spec a (r - 1)); auto; lia.
  - destruct (Nat.eqb_spec (S a) r); destruct (Nat.eqb_spec a (r - 1)); auto; lia.
Qed.
Lemma det_linear : forall n A r u c v, (r < n)%nat ->
  det n (set_row A r (fun j => u j + c * v j)) = det n (set_row A r u) + c * det n (set_row A r v).
Proof.
  induction n as [|n IH]; intros A r u c v Hr; [lia|]. cbn [det]. rewrite <- sumn_scale, <- sumn_plus. apply sumn_ext. intros i Hi.
  destruct (Nat.eq_dec i r) as [->|NE].
  - rewrite !(det_ext n _ _ (minor_set_same A r _ n)). unfold set_row. rewrite Nat.eqb_refl. ring.
  - rewrite !(det_ext n _ _ (minor_set_other A i r _ n NE)). rewrite IH by (destruct (Nat.ltb_spec r i); lia).
    unfold set_row at 1 4 6. replace (i =? r)%nat with false by (symmetry; now apply Nat.eqb_neq). ring.
Qed.
Lemma set_row_id : forall n A r, meq n (set_row A r (A r)) A.
Proof. intros n A r i j _ _. unfold set_row. destruct (Nat.eqb_spec i r); subst; auto. Qed.
Lemma det_adjacent : forall n A r, (S r < n)%nat -> (forall j, (j < n)%nat -> A r j = A (S r) j) -> det n A = 0.
Proof.
  induction n as [|n IH]; intros A r Hr H; [lia|]. cbn [det]. rewrite (sumn_two _ _ r (S r)).
  - rewrite sign_S, (H 0%nat) by lia. rewrite (det_ext n (minor r A) (minor (S r) A)); [ring|].
    intros i j Hi Hj. unfold minor. destruct (Nat.ltb_spec i r); destruct (Nat.ltb_spec i (S r)); auto; try lia.
    replace i with r by lia. symmetry. apply H. lia.
  - lia.
  - intros i Hi N1 N2. rewrite (IH (minor i A) (if r <? i then r else (r - 1))%nat); [ring| |].
    + destruct (Nat.ltb_spec r i); lia.
    + intros j Hj. unfold minor. destruct (Nat.ltb_spec r i) as [L|L].
      * replace (r <? i) with true by (symmetry; apply Nat.ltb_lt; lia). replace (S r <? i) with true by (symmetry; apply Nat.ltb_lt; lia). apply H. lia.
      * replace (r - 1 <? i) with false by (symmetry; apply Nat.ltb_ge; lia). replace (S (r - 1) <? i) with false by (symmetry; apply Nat.ltb_ge; lia).
        replace (S (r - 1)) with r by lia. apply H. lia.
Qed.
(** exchanging the rows u and v placed at r and s *)
Definition two (A : matrix) (r s : nat) (u v : nat -> R) : matrix := set_row (set_row A r u) s v.
Lemma two_swap : forall n A r s, (r < n)%nat -> (s < n)%nat -> r <> s -> (forall u, det n (two A r s u u) = 0) ->
  forall u v, det n (two A r s v u) = - det n (two A r s u v).
Proof.
  intros n A r s Hr Hs NE Z u v.
  assert (L2 : forall u v w, det n (two A r s u (fun j => v j + 1 * w j)) = det n (two A r s u v) + det n (two A r s u w)).
  { intros x y w. unfold two. rewrite det_linear by auto. ring. }
  assert (C : forall u v, meq n (set_row (set_row A r u) s v) (set_row (set_row A s v) r u)).
  { intros x y i j _ _. unfold set_row. destruct (Nat.eqb_spec i s); destruct (Nat.eqb_spec i r); auto; lia. }
  assert (L1 : forall u v w, det n (two A r s (fun j => u j + 1 * w j) v) = det n (two A r s u v) + det n (two A r s w v)).
  { intros x y w. unfold two. rewrite !(det_ext n _ _ (C _ _)). rewrite det_linear by auto. ring. }
  pose proof (Z (fun j => u j + 1 * v j)) as E. rewrite L1, !L2, !Z in E.
  assert (E' : det n (two A r s u v) + det n (two A r s v u) = 0) by (rewrite <- E; ring).
  apply (f_equal (fun q => q - det n (two A r s u v))) in E'. ring_simplify in E'. rewrite E'. ring.
Qed.
Lemma two_id : forall n A r s, meq n (two A r s (A r) (A s)) A.
Proof. intros n A r s i j _ _. unfold two, set_row. destruct (Nat.eqb_spec i s); destruct (Nat.eqb_spec i r); subst; auto. Qed.
Definition swap_rows (A : matrix) (r s : nat) : matrix := two A r s (A s) (A r).
Lemma det_swap_adjacent : forall n A r, (S r < n)%nat -> det n (swap_rows A r (S r)) = - det n A.
Proof.
  intros n A r H. unfold swap_rows. rewrite (two_swap n A r (S r)); try lia.
  - now rewrite (det_ext n _ _ (two_id n A r (S r))).
  - intros u. apply (det_adjacent n _ r H). intros j _. unfold two, set_row. rewrite !Nat.eqb_refl.
    replace (r =? S r)%nat with false by (symmetry; apply Nat.eqb_neq; lia). reflexivity.
Qed.
Lemma det_equal : forall d n A r, (r + S d < n)%nat -> (forall j, (j < n)%nat -> A r j = A (r + S d)%nat j) -> det n A = 0.
Proof.
  induction d as [|d IH]; intros n A r Hr H.
  - apply (det_adjacent n A r); [lia|]. intros j Hj. rewrite H by auto. f_equal. lia.
  - assert (E : det n (swap_rows A (r + S d) (S (r + S d))) = 0).
    { apply (IH n _ r); [lia|]. intros j Hj. unfold swap_rows, two, set_row.
      replace (r =? S (r + S d))%nat with false by (symmetry; apply Nat.eqb_neq; lia). replace (r =? r + S d)%nat with false by (symmetry; apply Nat.eqb_neq; lia).
      replace (r + S d =? S (r + S d))%nat with false by (symmetry; apply Nat.eqb_neq; lia). rewrite Nat.eqb_refl.
      rewrite H by auto. f_equal. lia. }
    rewrite det_swap_adjacent in E by lia. rewrite <- (Ropp_involutive (det n A)), E. ring.
Qed.
Lemma det_equal_rows : forall n A r s, (r < n)%nat -> (s < n)%nat -> r <> s -> (forall j, (j < n)%nat -> A r j = A s j) -> det n A = 0.
Proof.
  intros n A r s Hr Hs NE H. destruct (Nat.lt_ge_cases r s) as [L|L].
  - apply (det_equal (s - r - 1) n A r); [lia|]. intros j Hj. replace (r + S (s - r - 1))%nat with s by lia. auto.
  - apply (det_equal (r - s - 1) n A s); [lia|]. intros j Hj. replace (s + S (r - s - 1))%nat with r by lia. symmetry. auto.
Qed.
Lemma det_swap : forall n A r s, (r < n)%nat -> (s < n)%nat -> r <> s -> det n (swap_rows A r s) = - det n A.
Proof.
  intros n A r s Hr Hs NE. unfold swap_rows. rewrite (two_swap n A r s); auto.
  - now rewrite (det_ext n _ _ (two_id n A r s)).
  - intros u. apply (det_equal_rows n _ r s); auto. intros j _. unfold two, set_row. rewrite !Nat.eqb_refl.
    replace (r =? s)%nat with false by (symmetry; now apply Nat.eqb_neq). reflexivity.
Qed.
Lemma det_add_row : forall n A r s c, (r < n)%nat -> (s < n)%nat -> r <> s -> det n (set_row A r (fun j => A r j + c * A s j)) = det n A.
Proof.
  intros n A r s c Hr Hs NE. rewrite det_linear by auto. rewrite (det_ext n _ _ (set_row_id n A r)).
  rewrite (det_equal_rows n (set_row A r (A s)) r s); auto; [ring|]. intros j _. unfold set_row. rewrite Nat.eqb_refl.
  replace (s =? r)%nat with false by (symmetry; apply Nat.eqb_neq; lia). reflexivity.
Qed.
Lemma det_column : forall n A, (forall i, (0 < i < S n)%nat -> A i 0%nat = 0) -> det (S n) A = A 0%nat 0%nat * det n (minor 0 A).
Proof.
  intros n A H. cbn [det]. rewrite (sumn_one _ _ 0%nat).
  - unfold sign. cbn. ring.
  - lia.
  - intros i Hi NE. rewrite H by lia. ring.
Qed.
Lemma det_column_zero : forall n A, (forall i, (i < S n)%nat -> A i 0%nat = 0) -> det (S n) A = 0.
Proof. intros n A H. cbn [det]. apply sumn_zero. intros i Hi. rewrite H by auto. ring. Qed.
