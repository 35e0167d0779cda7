(** Broadcasting: the helper [Shape::broadcast_shape] and laws of the rule. *)
From Coq Require Import List Arith ZArith Lia Bool.
From Coq Require Import ZifyBool ZifyNat.
From Verif Require Import Base IndexSpec LayoutModel ViewSpec LayoutProofs.
Import ListNotations.

Definition all_pos (s : list nat) : Prop := Forall (fun d => 0 < d) s.

Lemma nth_pos : forall s k, all_pos s -> 0 < nth k s 1.
Proof.
  intros s k H. destruct (Nat.lt_ge_cases k (length s)) as [Hk|Hk].
  - unfold all_pos in H. rewrite Forall_forall in H. apply H. now apply nth_In.
  - rewrite nth_overflow by auto. lia.
Qed.

Lemma all_pos_rev : forall s, all_pos s -> all_pos (rev s).
Proof. intros s H. unfold all_pos in *. rewrite Forall_forall in *. intros x Hx.
  apply H. now apply in_rev. Qed.

(** the rule determines its result *)
Lemma bcast_dim_fun : forall x y z z', bcast_dim x y z -> bcast_dim x y z' -> z = z'.
Proof. unfold bcast_dim. lia. Qed.

Lemma rev_nth1_ext : forall (r r' : list nat), length r = length r' ->
  (forall k, k < length r -> nth k (rev r) 1 = nth k (rev r') 1) -> r = r'.
Proof.
  intros r r' Hl H. rewrite <- (rev_involutive r), <- (rev_involutive r'). f_equal.
  apply nth_ext with (d := 1) (d' := 1); rewrite ?rev_length; auto.
Qed.

Lemma bcast_fun : forall a b r r', bcast a b r -> bcast a b r' -> r = r'.
Proof.
  intros a b r r' [L H] [L' H']. apply rev_nth1_ext; [congruence|].
  intros k _. eapply bcast_dim_fun; eauto.
Qed.

Lemma bcast_sym : forall a b r, bcast a b r -> bcast b a r.
Proof.
  intros a b r [L H]. split; [lia|]. intro k. specialize (H k). unfold bcast_dim in *. lia.
Qed.

Lemma bcast_idem : forall a, bcast a a a.
Proof. intro a. split; [lia|]. intro k. left; auto. Qed.

Lemma bcast_assoc : forall a b c ab bc abc,
  bcast a b ab -> bcast b c bc -> (bcast ab c abc <-> bcast a bc abc).
Proof.
  intros a b c ab bc abc [L1 H1] [L2 H2]. split; intros [L H]; split; try lia;
    intro k; specialize (H1 k); specialize (H2 k); specialize (H k); unfold bcast_dim in *; lia.
Qed.

Lemma bshape_loop_spec : forall a b n is r, 
  bshape_loop a b n is = Some r <->
  Forall2 (fun i z =>
    let x := bshape_dim a n i in let y := bshape_dim b n i in
    (x = y \/ x = 1 \/ y = 1) /\ z = Nat.max x y) is r.
Proof.
  intros a b n. induction is as [|i is IH]; intros r; simpl.
  - split; intro H.
    + inversion H; constructor.
    + inversion H; auto.
  - set (x := bshape_dim a n i). set (y := bshape_dim b n i).
    destruct (negb (x =? y) && negb (x =? 1) && negb (y =? 1)) eqn:E.
    + split; [discriminate|]. intro H. inversion H; subst. fold x y in H2. lia.
    + destruct (bshape_loop a b n is) as [ds|].
      * split; intro H.
        -- inversion H; subst. constructor; [fold x y; lia|]. now apply IH.
        -- inversion H; subst. fold x y in H2. destruct H2 as [_ ->].
           apply IH in H4. now inversion H4.
      * split; [discriminate|]. intro H. inversion H; subst. apply IH in H4. discriminate.
Qed.

Lemma bshape_dim_same : forall s n i, length s = n -> i < n -> bshape_dim s n i = nth i s 1.
Proof. intros s n i H Hi. unfold bshape_dim. f_equal. lia. Qed.

Lemma Forall2_seq_nth : forall (P : nat -> nat -> Prop) n (r : list nat),
  Forall2 P (seq 0 n) r <-> length r = n /\ forall k, k < n -> P k (nth k r 1).
Proof.
  intros P n. 
  assert (G : forall m r, Forall2 P (seq m n) r <-> length r = n /\ forall k, k < n -> P (m + k) (nth k r 1)).
  { induction n as [|n IH]; intros m r; simpl.
    - split.
      + intro H; inversion H; split; auto; lia.
      + intros [H _]. destruct r; [constructor|discriminate].
    - split.
      + intro H; inversion H; subst. apply IH in H4. destruct H4 as [L H4].
        split; [simpl; lia|]. intros [|k] Hk; simpl; [now rewrite Nat.add_0_r|].
        replace (m + S k) with (S m + k) by lia. apply H4. lia.
      + intros [L H]. destruct r as [|z r]; [discriminate|]. constructor.
        * specialize (H 0 ltac:(lia)). now rewrite Nat.add_0_r in H.
        * apply IH. simpl in L. split; [lia|]. intros k Hk.
          specialize (H (S k) ltac:(lia)). simpl in H.
          now replace (S m + k) with (m + S k) by lia. }
  intro r. rewrite G. reflexivity.
Qed.

Lemma rev_nth_lt : forall (s : list nat) k, k < length s ->
  nth k (rev s) 1 = nth (length s - S k) s 1.
Proof. intros s k H. now rewrite rev_nth. Qed.

(** On equal ranks and positive sizes the helper is right. *)
Lemma broadcast_shape_same_rank : forall a b r, length a = length b ->
  all_pos a -> all_pos b ->
  (broadcast_shape a b = Some r <-> bcast a b r).
Proof.
  intros a b r Hl Pa Pb. unfold broadcast_shape. rewrite <- Hl, Nat.max_id.
  rewrite bshape_loop_spec, Forall2_seq_nth. unfold bcast.
  rewrite <- Hl, Nat.max_id. set (n := length a) in *.
  split; intros [L H]; split; auto.
  - intro k. destruct (Nat.lt_ge_cases k n) as [Hk|Hk].
    + specialize (H (n - S k) ltac:(lia)). simpl in H.
      rewrite !bshape_dim_same in H by lia.
      rewrite !rev_nth_lt by lia. rewrite <- Hl, L. fold n.
      pose proof (nth_pos a (n - S k) Pa). pose proof (nth_pos b (n - S k) Pb).
      unfold bcast_dim. lia.
    + left. rewrite !nth_overflow by (rewrite rev_length; lia). auto.
  - intros k Hk. specialize (H (n - S k)). rewrite !rev_nth_lt in H by lia.
    rewrite <- Hl, L in H. fold n in H. replace (n - S (n - S k)) with k in H by lia.
    simpl. rewrite !bshape_dim_same by lia.
    pose proof (nth_pos a k Pa). pose proof (nth_pos b k Pb). unfold bcast_dim in H. lia.
Qed.
