(** Specification vocabulary: multi-indices, row-major numbering, addressing.
    Nothing here mentions the code under study. *)
From Coq Require Import List Arith Lia.
From Verif Require Import Base.
Import ListNotations.

(** Number of elements of a shape. *)
Definition nelem (s : list nat) : nat := fold_right Nat.mul 1 s.
Arguments nelem : simpl never.

(** [i] is an in-range multi-index of shape [s]. *)
Fixpoint valid (s i : list nat) : Prop :=
  match s, i with
  | [], [] => True
  | d :: s', x :: i' => x < d /\ valid s' i'
  | _, _ => False
  end.

(** Row-major (last axis fastest) position of a multi-index. *)
Fixpoint ravel (s i : list nat) : nat :=
  match s, i with
  | d :: s', x :: i' => x * nelem s' + ravel s' i'
  | _, _ => 0
  end.

(** The multi-index at a row-major position. *)
Fixpoint unravel (s : list nat) (k : nat) : list nat :=
  match s with
  | [] => []
  | d :: s' => (k / nelem s') :: unravel s' (k mod nelem s')
  end.

(** All multi-indices in row-major order. *)
Fixpoint all_idx (s : list nat) : list (list nat) :=
  match s with
  | [] => [[]]
  | d :: s' => flat_map (fun x => map (cons x) (all_idx s')) (seq 0 d)
  end.

(** Strided address of an index, without offset. *)
Fixpoint dot (i st : list nat) : nat :=
  match i, st with
  | x :: i', s :: st' => x * s + dot i' st'
  | _, _ => 0
  end.

(** ** Facts *)

Lemma valid_length : forall s i, valid s i -> length i = length s.
Proof.
  induction s as [|d s IH]; intros [|x i] H; simpl in *; try tauto.
  f_equal. apply IH; tauto.
Qed.

Lemma valid_nth : forall s i, valid s i <->
  length i = length s /\
  forall k x d, nth_error i k = Some x -> nth_error s k = Some d -> x < d.
Proof.
  induction s as [|d s IH]; intros [|x i]; simpl.
  - split; auto. intros _. split; auto. intros [|k] x d; discriminate.
  - split; [tauto|]. intros [H _]; discriminate.
  - split; [tauto|]. intros [H _]; discriminate.
  - rewrite IH. split.
    + intros [Hx [Hl H]]. split; [lia|].
      intros [|k] y e Hy He; simpl in *.
      * inversion Hy; inversion He; subst; auto.
      * eauto.
    + intros [Hl H]. split; [|split].
      * apply (H 0); reflexivity.
      * lia.
      * intros k y e Hy He. apply (H (S k)); auto.
Qed.

Lemma nelem_app : forall a b, nelem (a ++ b) = nelem a * nelem b.
Proof.
  induction a as [|x a IH]; intros b; simpl; [unfold nelem; simpl; lia|].
  unfold nelem in *. simpl. rewrite IH. lia.
Qed.

Lemma nelem_cons : forall d s, nelem (d :: s) = d * nelem s.
Proof. reflexivity. Qed.

Lemma nelem_pos_valid : forall s i, valid s i -> 0 < nelem s.
Proof.
  induction s as [|d s IH]; intros [|x i] H; simpl in *; try tauto.
  - unfold nelem; simpl; lia.
  - destruct H as [Hx H]. apply IH in H. rewrite nelem_cons. nia.
Qed.

Lemma ravel_lt : forall s i, valid s i -> ravel s i < nelem s.
Proof.
  induction s as [|d s IH]; intros [|x i] H; simpl in *; try tauto.
  - unfold nelem; simpl; lia.
  - destruct H as [Hx H]. pose proof (IH _ H). rewrite nelem_cons. nia.
Qed.

Lemma unravel_length : forall s k, length (unravel s k) = length s.
Proof. induction s as [|d s IH]; intros k; simpl; auto. Qed.

Lemma unravel_valid : forall s k, k < nelem s -> valid s (unravel s k).
Proof.
  induction s as [|d s IH]; intros k H; simpl; auto.
  rewrite nelem_cons in H.
  assert (0 < nelem s) by nia.
  split.
  - apply Nat.div_lt_upper_bound; nia.
  - apply IH. apply Nat.mod_upper_bound; lia.
Qed.

Lemma ravel_unravel : forall s k, k < nelem s -> ravel s (unravel s k) = k.
Proof.
  induction s as [|d s IH]; intros k H; simpl.
  - unfold nelem in H; simpl in H; lia.
  - rewrite nelem_cons in H.
    assert (0 < nelem s) by nia.
    rewrite IH by (apply Nat.mod_upper_bound; lia).
    rewrite (Nat.div_mod k (nelem s)) at 3 by lia. lia.
Qed.

Lemma unravel_ravel : forall s i, valid s i -> unravel s (ravel s i) = i.
Proof.
  induction s as [|d s IH]; intros [|x i] H; simpl in *; try tauto.
  destruct H as [Hx H].
  pose proof (ravel_lt _ _ H) as Hlt.
  f_equal.
  - rewrite Nat.add_comm, Nat.div_add by lia. rewrite Nat.div_small by lia. lia.
  - rewrite Nat.add_comm, Nat.mod_add by lia. rewrite Nat.mod_small by lia. auto.
Qed.

Lemma ravel_inj : forall s i j, valid s i -> valid s j -> ravel s i = ravel s j -> i = j.
Proof.
  intros s i j Hi Hj H.
  rewrite <- (unravel_ravel s i), <- (unravel_ravel s j) by auto. now rewrite H.
Qed.

Lemma all_idx_length : forall s, length (all_idx s) = nelem s.
Proof.
  induction s as [|d s IH]; simpl; auto.
  rewrite nelem_cons, <- IH. generalize (all_idx s) as l. intro l.
  generalize 0 as a.
  induction d as [|d IHd]; intros a; simpl; auto.
  rewrite app_length, map_length, IHd. lia.
Qed.

Lemma nth_error_flat_map_uniform : forall A B (f : A -> list B) n l k,
  0 < n -> (forall x, In x l -> length (f x) = n) ->
  nth_error (flat_map f l) k =
  match nth_error l (k / n) with
  | Some x => nth_error (f x) (k mod n)
  | None => None
  end.
Proof.
  intros A B f n l; induction l as [|x l IH]; intros k Hn Hf; simpl.
  - destruct k; simpl; destruct (_ / n); auto.
  - assert (Hx : length (f x) = n) by (apply Hf; now left).
    destruct (Nat.lt_ge_cases k n) as [Hk|Hk].
    + rewrite nth_error_app1 by lia.
      rewrite Nat.div_small by lia. simpl. now rewrite Nat.mod_small by lia.
    + rewrite nth_error_app2 by lia. rewrite Hx, IH by (auto; intros; apply Hf; now right).
      replace (k / n) with (S ((k - n) / n)).
      * simpl. replace ((k - n) mod n) with (k mod n); auto.
        replace k with ((k - n) + 1 * n) at 1 by lia.
        now rewrite Nat.mod_add by lia.
      * replace k with ((k - n) + 1 * n) at 2 by lia.
        rewrite Nat.div_add by lia. lia.
Qed.

Lemma nth_error_all_idx : forall s k, k < nelem s ->
  nth_error (all_idx s) k = Some (unravel s k).
Proof.
  induction s as [|d s IH]; intros k H; simpl.
  - unfold nelem in H; simpl in H. replace k with 0 by lia. reflexivity.
  - rewrite nelem_cons in H.
    assert (0 < nelem s) by nia.
    rewrite nth_error_flat_map_uniform with (n := nelem s); auto.
    2:{ intros x _. now rewrite map_length, all_idx_length. }
    rewrite nth_error_seq by (apply Nat.div_lt_upper_bound; nia).
    rewrite nth_error_map, IH by (apply Nat.mod_upper_bound; lia).
    reflexivity.
Qed.

Lemma all_idx_map_unravel : forall s,
  all_idx s = map (unravel s) (seq 0 (nelem s)).
Proof.
  intros s. apply list_ext. intro k.
  destruct (Nat.lt_ge_cases k (nelem s)) as [H|H].
  - rewrite nth_error_all_idx by auto.
    rewrite nth_error_map, nth_error_seq by auto. reflexivity.
  - rewrite !(proj2 (nth_error_None _ _)); auto.
    + now rewrite map_length, seq_length.
    + now rewrite all_idx_length.
Qed.

Lemma in_all_idx : forall s i, In i (all_idx s) <-> valid s i.
Proof.
  intros s i. rewrite all_idx_map_unravel, in_map_iff. split.
  - intros [k [E H]]. apply in_seq in H. subst. apply unravel_valid; lia.
  - intro H. exists (ravel s i). split; [now apply unravel_ravel|].
    apply in_seq. pose proof (ravel_lt _ _ H). lia.
Qed.

Lemma all_idx_NoDup : forall s, NoDup (all_idx s).
Proof.
  intro s. rewrite all_idx_map_unravel.
  assert (G : forall l, NoDup l -> (forall k, In k l -> k < nelem s) ->
              NoDup (map (unravel s) l)).
  { induction l as [|k l IH]; intros Hn Hl; simpl; constructor.
    - rewrite in_map_iff. intros [j [E Hj]].
      inversion Hn; subst.
      assert (j = k).
      { rewrite <- (ravel_unravel s j), <- (ravel_unravel s k);
          try (apply Hl; simpl; auto; fail).
        now rewrite E. }
      subst. contradiction.
    - inversion Hn; subst. apply IH; auto. intros; apply Hl; now right. }
  apply G; [apply seq_NoDup|]. intros k Hk. apply in_seq in Hk. lia.
Qed.

Lemma dot_nil_r : forall i, dot i [] = 0.
Proof. destruct i; reflexivity. Qed.

Lemma dot_app : forall i1 s1 i2 s2, length i1 = length s1 ->
  dot (i1 ++ i2) (s1 ++ s2) = dot i1 s1 + dot i2 s2.
Proof.
  induction i1 as [|x i1 IH]; intros [|s s1] i2 s2 H; simpl in *; try discriminate; auto.
  rewrite IH by lia. lia.
Qed.

Lemma valid_app : forall s1 i1 s2 i2, length i1 = length s1 ->
  (valid (s1 ++ s2) (i1 ++ i2) <-> valid s1 i1 /\ valid s2 i2).
Proof.
  induction s1 as [|d s1 IH]; intros [|x i1] s2 i2 H; simpl in *; try discriminate.
  - tauto.
  - rewrite IH by lia. tauto.
Qed.

Lemma ravel_app : forall s1 i1 s2 i2, length i1 = length s1 ->
  ravel (s1 ++ s2) (i1 ++ i2) = ravel s1 i1 * nelem s2 + ravel s2 i2.
Proof.
  induction s1 as [|d s1 IH]; intros [|x i1] s2 i2 H; simpl in *; try discriminate; auto.
  rewrite IH by lia. rewrite nelem_app. lia.
Qed.

(** Lexicographic order: row-major means bigger index, bigger position. *)
Fixpoint lex_lt (i j : list nat) : Prop :=
  match i, j with
  | x :: i', y :: j' => x < y \/ (x = y /\ lex_lt i' j')
  | _, _ => False
  end.

Lemma ravel_lex : forall s i j, valid s i -> valid s j ->
  (lex_lt i j <-> ravel s i < ravel s j).
Proof.
  induction s as [|d s IH]; intros [|x i] [|y j] Hi Hj; simpl in *; try tauto.
  - split; [tauto|lia].
  - destruct Hi as [Hx Hi], Hj as [Hy Hj].
    pose proof (ravel_lt _ _ Hi). pose proof (ravel_lt _ _ Hj).
    specialize (IH _ _ Hi Hj). split.
    + intros [Hlt | [-> Hl]]; [nia|]. apply IH in Hl. lia.
    + intro Hlt. destruct (Nat.lt_trichotomy x y) as [G|[G|G]]; auto.
      * right. split; auto. apply IH. subst. lia.
      * nia.
Qed.
