(** Derivatives of determinant, inverse and trace along single entries. *)
From Coq Require Import Arith Lia Bool Reals Lra.
From Verif Require Import LinSpec LinProofs LinProofs3.
Open Scope R_scope.

Lemma det_combination : forall n A i k c, (i < n)%nat -> (k <= n)%nat ->
  det n (set_row A i (fun l => sumn k (fun q => c q * A q l))) = sumn k (fun q => c q * det n (set_row A i (A q))).
Proof.
  intros n A i. induction k as [|k IH]; intros c Hi Hk.
  - cbn [sumn]. assert (Q : det n (set_row A i (fun _ => 0)) = det n (set_row A i (fun _ => 0)) + 1 * det n (set_row A i (fun _ => 0))).
    { rewrite <- (det_linear n A i (fun _ => 0) 1 (fun _ => 0) Hi). apply det_ext. intros r s _ _. unfold set_row. destruct (r =? i)%nat; [ring|reflexivity]. }
    lra.
  - cbn [sumn]. rewrite (det_linear n A i (fun l => sumn k (fun q => c q * A q l)) (c k) (A k) Hi). rewrite IH by lia. reflexivity.
Qed.
(** the cofactor *)
Lemma det_unit_row : forall n A B i j, inverse n A B -> (i < n)%nat -> (j < n)%nat ->
  det n (set_row A i (fun l => if (l =? j)%nat then 1 else 0)) = det n A * B j i.
Proof.
  intros n A B i j [_ BA] Hi Hj. transitivity (det n (set_row A i (fun l => sumn n (fun q => B j q * A q l)))).
  - apply det_ext. intros r s Hr Hs. unfold set_row. destruct (r =? i)%nat; [|reflexivity]. pose proof (BA j s Hj Hs) as Q. unfold mmul, mid in Q. rewrite Q.
    rewrite (Nat.eqb_sym s j). reflexivity.
  - rewrite det_combination by auto. rewrite (sumn_one n _ i); auto.
    + rewrite (det_ext n _ _ (set_row_id n A i)). ring.
    + intros q Hq NE. rewrite (det_equal_rows n (set_row A i (A q)) i q); auto; [ring|]. intros l _. unfold set_row. rewrite Nat.eqb_refl.
      destruct (Nat.eqb_spec q i); [congruence|reflexivity].
Qed.
Lemma bump_row : forall n A i j t, meq n (bump A i j t) (set_row A i (fun l => A i l + t * (if (l =? j)%nat then 1 else 0))).
Proof.
  intros n A i j t r c _ _. unfold bump, set_row. destruct (Nat.eqb_spec r i) as [->|]; cbn [andb]; [|reflexivity].
  destruct (c =? j)%nat; ring.
Qed.
Lemma det_bump : forall n A B i j t, inverse n A B -> (i < n)%nat -> (j < n)%nat -> det n (bump A i j t) = det n A + t * (det n A * B j i).
Proof.
  intros n A B i j t I Hi Hj. rewrite (det_ext n _ _ (bump_row n A i j t)), (det_linear n A i (A i)) by auto.
  rewrite (det_ext n _ _ (set_row_id n A i)), (det_unit_row n A B i j) by auto. reflexivity.
Qed.
Lemma affine_derivative : forall f a b, (forall t, f t = a + t * b) -> derivable_pt_lim f 0 b.
Proof.
  intros f a b H eps He. exists (mkposreal 1 Rlt_0_1). intros h Hh _. rewrite !H. replace ((a + (0 + h) * b - (a + 0 * b)) / h - b) with 0 by (field; auto).
  now rewrite Rabs_R0.
Qed.
Theorem det_derivative : forall n A B i j g, inverse n A B -> (i < n)%nat -> (j < n)%nat ->
  derivable_pt_lim (fun t => g * det n (bump A i j t)) 0 (g * det n A * B j i).
Proof. intros n A B i j g I Hi Hj. apply (affine_derivative _ (g * det n A)). intros t. rewrite (det_bump n A B) by auto. ring. Qed.
Lemma trace_bump : forall n A i j t, (i < n)%nat -> (j < n)%nat ->
  sumn n (fun q => bump A i j t q q) = sumn n (fun q => A q q) + t * (if (i =? j)%nat then 1 else 0).
Proof.
  intros n A i j t Hi Hj. transitivity (sumn n (fun q => A q q + t * (if (q =? i)%nat && (q =? j)%nat then 1 else 0))).
  - apply sumn_ext. intros q _. unfold bump. destruct ((q =? i)%nat && (q =? j)%nat); ring.
  - rewrite sumn_plus, sumn_scale. f_equal. f_equal. rewrite (sumn_one n _ i); auto.
    + rewrite Nat.eqb_refl. reflexivity.
    + intros q _ NE. destruct (Nat.eqb_spec q i); [congruence|reflexivity].
Qed.
Theorem trace_derivative : forall n A i j g, (i < n)%nat -> (j < n)%nat ->
  derivable_pt_lim (fun t => g * sumn n (fun q => bump A i j t q q)) 0 (g * (if (i =? j)%nat then 1 else 0)).
Proof. intros n A i j g Hi Hj. apply (affine_derivative _ (g * sumn n (fun q => A q q))). intros t. rewrite trace_bump by auto. ring. Qed.

(** ** the inverse, by the formula of Sherman and Morrison *)
Definition moved (B : matrix) (k l : nat) (t : R) : matrix := fun i j => B i j - t / (1 + t * B l k) * (B i k * B l j).
Lemma moved_right : forall n A B k l t, inverse n A B -> (k < n)%nat -> (l < n)%nat -> 1 + t * B l k <> 0 -> meq n (mmul n (bump A k l t) (moved B k l t)) mid.
Proof.
  intros n A B k l t [AB _] Hk Hl N i j Hi Hj. unfold mmul.
  transitivity (sumn n (fun q => A i q * B q j) + (- (t / (1 + t * B l k) * B l j)) * sumn n (fun q => A i q * B q k) + (if (i =? k)%nat then t * moved B k l t l j else 0)).
  - rewrite <- sumn_scale, <- sumn_plus.
    assert (E : (if (i =? k)%nat then t * moved B k l t l j else 0) = sumn n (fun q => if (i =? k)%nat && (q =? l)%nat then t * moved B k l t q j else 0)).
    { rewrite (sumn_one n _ l); auto; [rewrite Nat.eqb_refl, andb_true_r; reflexivity|]. intros q _ NE. destruct (Nat.eqb_spec q l); [congruence|]. now rewrite andb_false_r. }
    rewrite E, <- sumn_plus. apply sumn_ext. intros q _. unfold bump. destruct ((i =? k)%nat && (q =? l)%nat); unfold moved; ring.
  - pose proof (AB i j Hi Hj) as Q1. pose proof (AB i k Hi Hk) as Q2. unfold mmul in Q1, Q2. rewrite Q1, Q2. unfold mid, moved.
    destruct (i =? k)%nat; [|ring]. field. exact N.
Qed.
Lemma moved_left : forall n A B k l t, inverse n A B -> (k < n)%nat -> (l < n)%nat -> 1 + t * B l k <> 0 -> meq n (mmul n (moved B k l t) (bump A k l t)) mid.
Proof.
  intros n A B k l t [_ BA] Hk Hl N i j Hi Hj. unfold mmul.
  transitivity (sumn n (fun q => B i q * A q j) + (- (t / (1 + t * B l k) * B i k)) * sumn n (fun q => B l q * A q j) + (if (j =? l)%nat then t * moved B k l t i k else 0)).
  - rewrite <- sumn_scale, <- sumn_plus.
    assert (E : (if (j =? l)%nat then t * moved B k l t i k else 0) = sumn n (fun q => if (q =? k)%nat && (j =? l)%nat then t * moved B k l t i q else 0)).
    { rewrite (sumn_one n _ k); auto; [rewrite Nat.eqb_refl; reflexivity|]. intros q _ NE. destruct (Nat.eqb_spec q k); [congruence|]. reflexivity. }
    rewrite E, <- sumn_plus. apply sumn_ext. intros q _. unfold bump. destruct ((q =? k)%nat && (j =? l)%nat); unfold moved; ring.
  - pose proof (BA i j Hi Hj) as Q1. pose proof (BA l j Hl Hj) as Q2. unfold mmul in Q1, Q2. rewrite Q1, Q2. unfold mid, moved.
    rewrite (Nat.eqb_sym l j). destruct (j =? l)%nat; [|ring]. field. exact N.
Qed.
Lemma inverse_unique : forall n A B C, inverse n A B -> inverse n A C -> meq n B C.
Proof.
  intros n A B C [_ BA] [AC _] i j Hi Hj. transitivity (sumn n (fun q => B i q * mmul n A C q j)).
  - rewrite (sumn_one n _ j); auto.
    + rewrite AC by auto. unfold mid. rewrite Nat.eqb_refl. ring.
    + intros q Hq NE. rewrite AC by auto. unfold mid. destruct (Nat.eqb_spec q j); [congruence|ring].
  - transitivity (sumn n (fun r => mmul n B A i r * C r j)).
    + unfold mmul. transitivity (sumn n (fun q => sumn n (fun r => B i q * (A q r * C r j)))).
      * apply sumn_ext. intros q _. now rewrite sumn_scale.
      * rewrite sumn_swap. apply sumn_ext. intros r _. rewrite Rmult_comm, <- sumn_scale. apply sumn_ext. intros q _. ring.
    + rewrite (sumn_one n _ i); auto.
      * rewrite BA by auto. unfold mid. rewrite Nat.eqb_refl. ring.
      * intros q Hq NE. rewrite BA by auto. unfold mid. destruct (Nat.eqb_spec i q); [congruence|ring].
Qed.
Lemma derivable_local : forall f g d r, 0 < r -> (forall t, Rabs t < r -> f t = g t) -> derivable_pt_lim g 0 d -> derivable_pt_lim f 0 d.
Proof.
  intros f g d r Hr H D eps He. destruct (D eps He) as [del Hd]. assert (P : 0 < Rmin r del) by (apply Rmin_pos; [exact Hr|apply cond_pos]).
  exists (mkposreal _ P). intros h Hh HA. cbn [pos] in HA. rewrite Rplus_0_l. rewrite (H h), (H 0).
  - specialize (Hd h Hh). rewrite Rplus_0_l in Hd. apply Hd. eapply Rlt_le_trans; [exact HA|apply Rmin_r].
  - now rewrite Rabs_R0.
  - eapply Rlt_le_trans; [exact HA|apply Rmin_l].
Qed.
Lemma moved_rate : forall a b c, derivable_pt_lim (fun t => a - c * (t / (1 + t * b))) 0 (- c).
Proof.
  intros a b c. assert (D1 : derivable_pt_lim (fun t => t / (1 + t * b)) 0 1).
  { assert (ONE : (1 * (1 + 0 * b) - (0 + (1 * b + 0 * 0)) * 0) / Rsqr (1 + 0 * b) = 1) by (unfold Rsqr; field; lra).
    match type of ONE with ?x = _ => assert (D : derivable_pt_lim (fun t => t / (1 + t * b)) 0 x) end; [|rewrite ONE in D; exact D].
    clear ONE. apply (derivable_pt_lim_div (fun t => t) (fun t => 1 + t * b)).
    - apply derivable_pt_lim_id.
    - apply (derivable_pt_lim_plus (fun _ => 1) (fun t => t * b)); [apply derivable_pt_lim_const|].
      apply (derivable_pt_lim_mult (fun t => t) (fun _ => b)); [apply derivable_pt_lim_id|apply derivable_pt_lim_const].
    - lra. }
  replace (- c) with (0 - c * 1) by ring. apply (derivable_pt_lim_minus (fun _ => a) (fun t => c * (t / (1 + t * b)))); [apply derivable_pt_lim_const|].
  now apply (derivable_pt_lim_scal (fun t => t / (1 + t * b))).
Qed.
(** pairing of a gradient with a matrix *)
Definition pair (n : nat) (G B : matrix) : R := sumn n (fun i => sumn n (fun j => G i j * B i j)).
Lemma pair_moved : forall n G B k l t,
  pair n G (moved B k l t) = pair n G B - sumn n (fun i => sumn n (fun j => B i k * G i j * B l j)) * (t / (1 + t * B l k)).
Proof.
  intros n G B k l t. unfold pair. transitivity (sumn n (fun i => sumn n (fun j => G i j * B i j) + (- (t / (1 + t * B l k))) * sumn n (fun j => B i k * G i j * B l j))).
  - apply sumn_ext. intros i _. rewrite <- sumn_scale, <- sumn_plus. apply sumn_ext. intros j _. unfold moved. ring.
  - rewrite sumn_plus, sumn_scale. ring.
Qed.
Lemma near_one : forall b, exists r, 0 < r /\ forall t, Rabs t < r -> 1 + t * b <> 0.
Proof.
  intros b. exists (/ (1 + Rabs b)). pose proof (Rabs_pos b) as P. split; [apply Rinv_0_lt_compat; lra|]. intros t Ht E.
  assert (Q : Rabs (t * b) = 1). { replace (t * b) with (- (1)) by lra. rewrite Rabs_Ropp. apply Rabs_R1. }
  rewrite Rabs_mult in Q. assert (L : Rabs t * (1 + Rabs b) < 1).
  { apply (Rmult_lt_compat_r (1 + Rabs b)) in Ht; [|lra]. rewrite Rinv_l in Ht; lra. }
  pose proof (Rabs_pos t). lra.
Qed.
Theorem inverse_derivative : forall n A B G k l Bt r, inverse n A B -> (k < n)%nat -> (l < n)%nat -> 0 < r ->
  (forall t, Rabs t < r -> inverse n (bump A k l t) (Bt t)) ->
  derivable_pt_lim (fun t => pair n G (Bt t)) 0 (- sumn n (fun i => sumn n (fun j => B i k * G i j * B l j))).
Proof.
  intros n A B G k l Bt r I Hk Hl Hr H. destruct (near_one (B l k)) as (r' & Hr' & N).
  apply (derivable_local _ (fun t => pair n G B - sumn n (fun i => sumn n (fun j => B i k * G i j * B l j)) * (t / (1 + t * B l k))) _ (Rmin r r')).
  - now apply Rmin_pos.
  - intros t Ht. rewrite <- pair_moved. assert (T1 : Rabs t < r) by (eapply Rlt_le_trans; [exact Ht|apply Rmin_l]).
    assert (T2 : Rabs t < r') by (eapply Rlt_le_trans; [exact Ht|apply Rmin_r]).
    assert (M : meq n (Bt t) (moved B k l t)).
    { apply (inverse_unique n (bump A k l t)); [now apply H|]. split; [apply moved_right|apply moved_left]; auto. }
    unfold pair. apply sumn_ext. intros i Hi. apply sumn_ext. intros j Hj. now rewrite M.
  - apply moved_rate.
Qed.
(** there are inverses near [A] *)
Lemma inverse_near : forall n A B k l, inverse n A B -> (k < n)%nat -> (l < n)%nat -> exists Bt r, 0 < r /\ forall t, Rabs t < r -> inverse n (bump A k l t) (Bt t).
Proof.
  intros n A B k l I Hk Hl. destruct (near_one (B l k)) as (r' & Hr' & N). exists (moved B k l), r'. split; [exact Hr'|].
  intros t Ht. split; [apply moved_right|apply moved_left]; auto.
Qed.
