(** Exchanging two cells of a list permutes it. *)
From Coq Require Import List Arith Lia Permutation.
From Verif Require Import Base.
Import ListNotations.

Lemma upd_at : forall A (pre : list A) x post v, upd (pre ++ x :: post) (length pre) v = pre ++ v :: post.
Proof. induction pre as [|y pre IH]; intros; cbn [app length upd]; [reflexivity|]. now rewrite IH. Qed.

Lemma upd_same : forall A (l : list A) i x, nth_error l i = Some x -> upd l i x = l.
Proof.
  intros A l i x H. apply nth_error_split in H. destruct H as [l1 [l2 [-> <-]]]. apply upd_at.
Qed.

Lemma exchange_perm_lt : forall A (l : list A) i j a b, i < j -> nth_error l i = Some a -> nth_error l j = Some b ->
  Permutation l (upd (upd l i b) j a).
Proof.
  intros A l i j a b Hij Ha Hb. apply nth_error_split in Ha. destruct Ha as [l1 [l2 [-> L1]]].
  rewrite nth_error_app2 in Hb by lia. replace (j - length l1) with (S (j - S (length l1))) in Hb by lia.
  cbn [nth_error] in Hb. apply nth_error_split in Hb. destruct Hb as [l3 [l4 [-> L3]]].
  rewrite <- L1 at 1. rewrite upd_at.
  replace j with (length (l1 ++ b :: l3)) by (rewrite app_length; cbn [length]; lia).
  replace (l1 ++ b :: l3 ++ b :: l4) with ((l1 ++ b :: l3) ++ b :: l4) by (now rewrite <- app_assoc).
  rewrite upd_at. rewrite <- app_assoc. cbn [app]. apply Permutation_app_head.
  transitivity (a :: b :: l3 ++ l4).
  - constructor. symmetry. apply Permutation_middle.
  - transitivity (b :: a :: l3 ++ l4); [constructor|]. constructor. apply Permutation_middle.
Qed.

Lemma upd_comm' : forall A (l : list A) i j x y, i <> j -> upd (upd l i x) j y = upd (upd l j y) i x.
Proof.
  intros A l i j x y H. apply list_ext. intro k.
  destruct (Nat.eq_dec k i) as [->|Hi]; [|destruct (Nat.eq_dec k j) as [->|Hj]].
  - rewrite nth_error_upd_neq by auto.
    destruct (Nat.lt_ge_cases i (length l)) as [L|L].
    + rewrite !nth_error_upd_eq; auto. now rewrite upd_length.
    + rewrite !(proj2 (nth_error_None _ _)); auto; now rewrite !upd_length.
  - rewrite (nth_error_upd_neq _ _ i) by auto.
    destruct (Nat.lt_ge_cases j (length l)) as [L|L].
    + rewrite !nth_error_upd_eq; auto. now rewrite upd_length.
    + rewrite !(proj2 (nth_error_None _ _)); auto; now rewrite !upd_length.
  - rewrite !nth_error_upd_neq by auto. reflexivity.
Qed.

Lemma exchange_perm : forall A (l : list A) i j a b, nth_error l i = Some a -> nth_error l j = Some b ->
  Permutation l (upd (upd l i b) j a).
Proof.
  intros A l i j a b Ha Hb. destruct (Nat.lt_trichotomy i j) as [H|[H|H]].
  - now apply exchange_perm_lt.
  - subst j. rewrite Hb in Ha. injection Ha as ->. rewrite (upd_same A l i a Hb), (upd_same A l i a Hb). apply Permutation_refl.
  - rewrite upd_comm' by lia. now apply exchange_perm_lt.
Qed.
