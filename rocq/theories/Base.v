(** Shared definitions: outcomes of Rust functions and small list helpers. *)
From Coq Require Import List Arith ZArith Lia Bool.
Import ListNotations.

(** Error classes of HoduResult (crates/hodu_core/src/error.rs).  Only the class
    is kept; payloads (messages, offending shapes) are dropped. *)
Inductive err : Type :=
| EShape      (* IncompatibleShapes / ShapeMismatch *)
| EAxis       (* InvalidAxis *)
| ELayout     (* InvalidLayout *)
| EDType      (* dtype conflicts / unsupported dtype *)
| EInternal   (* InternalError and everything else *).

(** Outcome of a Rust call: a value, an [Err] or a panic. *)
Inductive outcome (A : Type) : Type :=
| Ok (a : A)
| Err (e : err)
| Panic.
Arguments Ok {A} a.
Arguments Err {A} e.
Arguments Panic {A}.

(** The [?] operator. *)
Definition bind {A B} (x : outcome A) (f : A -> outcome B) : outcome B :=
  match x with
  | Ok a => f a
  | Err e => Err e
  | Panic => Panic
  end.

Notation "x >>= f" := (bind x f) (at level 50, left associativity).
Notation "'do' x <- m ; f" := (bind m (fun x => f))
  (at level 200, x name, m at level 100, f at level 200).

(** [Option::ok_or] *)
Definition ok_or {A} (o : option A) (e : err) : outcome A :=
  match o with Some a => Ok a | None => Err e end.

(** slice indexing: [v[i]] panics out of range *)
Definition idx_or_panic {A} (l : list A) (i : nat) : outcome A :=
  match nth_error l i with Some a => Ok a | None => Panic end.

(** [v[i] = x] on a list (no effect when out of range: callers check). *)
Fixpoint upd {A} (l : list A) (i : nat) (x : A) : list A :=
  match l, i with
  | [], _ => []
  | _ :: t, 0 => x :: t
  | h :: t, S i' => h :: upd t i' x
  end.

(** [Vec::insert] and [Vec::remove] (positions checked by callers). *)
Definition insert_at {A} (l : list A) (i : nat) (x : A) : list A :=
  firstn i l ++ x :: skipn i l.
Definition remove_at {A} (l : list A) (i : nat) : list A :=
  firstn i l ++ skipn (S i) l.

(** [slice.swap(i,j)], panics out of range. *)
Definition swap {A} (l : list A) (i j : nat) : outcome (list A) :=
  match nth_error l i, nth_error l j with
  | Some a, Some b => Ok (upd (upd l i b) j a)
  | _, _ => Panic
  end.

Lemma upd_length : forall A (l : list A) i x, length (upd l i x) = length l.
Proof. induction l as [|h t IH]; intros [|i] x; simpl; auto. Qed.

Lemma nth_error_upd_eq : forall A (l : list A) i x,
  i < length l -> nth_error (upd l i x) i = Some x.
Proof.
  induction l as [|h t IH]; intros [|i] x Hi; simpl in *; try lia; auto.
  apply IH; lia.
Qed.

Lemma nth_error_upd_neq : forall A (l : list A) i j x,
  i <> j -> nth_error (upd l i x) j = nth_error l j.
Proof.
  induction l as [|h t IH]; intros [|i] [|j] x Hij; simpl; auto; try congruence.
Qed.

Lemma nth_error_upd : forall A (l : list A) i j x,
  nth_error (upd l i x) j =
  if (i =? j) && (i <? length l) then Some x else nth_error l j.
Proof.
  intros A l i j x.
  destruct (i =? j) eqn:E; simpl.
  - apply Nat.eqb_eq in E; subst j.
    destruct (i <? length l) eqn:E2.
    + apply Nat.ltb_lt in E2. now apply nth_error_upd_eq.
    + apply Nat.ltb_ge in E2.
      rewrite !(proj2 (nth_error_None _ _)); auto.
      now rewrite upd_length.
  - apply Nat.eqb_neq in E. now apply nth_error_upd_neq.
Qed.

Lemma list_ext : forall A (l1 l2 : list A),
  (forall i, nth_error l1 i = nth_error l2 i) -> l1 = l2.
Proof.
  induction l1 as [|x xs IH]; intros [|y ys] H; auto.
  - specialize (H 0); discriminate.
  - specialize (H 0); discriminate.
  - f_equal.
    + specialize (H 0); simpl in H; congruence.
    + apply IH; intro i; exact (H (S i)).
Qed.

(** All results or nothing: a kernel loop is defined only if every read is. *)
Fixpoint sequence {A} (l : list (option A)) : option (list A) :=
  match l with
  | [] => Some []
  | None :: _ => None
  | Some a :: t => match sequence t with Some r => Some (a :: r) | None => None end
  end.

Definition mapO {A B} (f : A -> option B) (l : list A) : option (list B) :=
  sequence (map f l).

Lemma mapO_cons : forall A B (f : A -> option B) x l,
  mapO f (x :: l) =
  match f x with
  | None => None
  | Some b => match mapO f l with Some r => Some (b :: r) | None => None end
  end.
Proof. reflexivity. Qed.

Lemma mapO_Some : forall A B (f : A -> option B) l r,
  mapO f l = Some r <-> map f l = map Some r.
Proof.
  intros A B f l. induction l as [|x xs IH]; intros r.
  - unfold mapO; simpl. split; intro H.
    + now inversion H.
    + destruct r; [reflexivity|discriminate].
  - rewrite mapO_cons. simpl. split; intro H.
    + destruct (f x) as [b|]; [|discriminate].
      destruct (mapO f xs) as [r'|] eqn:E; [|discriminate].
      inversion H; subst. simpl. f_equal. now apply IH.
    + destruct r as [|b r']; [discriminate|]. simpl in H.
      inversion H as [[H1 H2]].
      rewrite H1. apply IH in H2. now rewrite H2.
Qed.

Lemma mapO_total : forall A B (f : A -> option B) (g : A -> B) l,
  (forall x, In x l -> f x = Some (g x)) -> mapO f l = Some (map g l).
Proof.
  intros A B f g l H. apply mapO_Some. rewrite map_map.
  apply map_ext_in. exact H.
Qed.

Lemma mapO_ext : forall A B (f g : A -> option B) l,
  (forall x, In x l -> f x = g x) -> mapO f l = mapO g l.
Proof. intros A B f g l H. unfold mapO. f_equal. now apply map_ext_in. Qed.

Lemma mapO_length : forall A B (f : A -> option B) l r,
  mapO f l = Some r -> length r = length l.
Proof.
  intros A B f l r H. apply mapO_Some in H.
  apply (f_equal (@length _)) in H. now rewrite !map_length in H.
Qed.

Lemma mapO_nth : forall A B (f : A -> option B) l r k x,
  mapO f l = Some r -> nth_error l k = Some x -> nth_error r k = f x.
Proof.
  intros A B f l r k x H Hk. apply mapO_Some in H.
  assert (E : nth_error (map f l) k = nth_error (map Some r) k) by now rewrite H.
  rewrite (map_nth_error f _ _ Hk) in E.
  rewrite nth_error_map in E.
  destruct (nth_error r k) as [b|]; simpl in E; congruence.
Qed.

Lemma nth_error_seq : forall a n k, k < n -> nth_error (seq a n) k = Some (a + k).
Proof.
  intros a n; revert a; induction n as [|n IH]; intros a k Hk; [lia|].
  destruct k as [|k]; simpl.
  - f_equal; lia.
  - rewrite IH by lia. f_equal; lia.
Qed.
