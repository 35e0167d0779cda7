(** Proofs about the gradient rules of permute and broadcast. *)
From Coq Require Import List Arith ZArith Bool Lia Permutation.
From Verif Require Import Base IndexSpec LayoutModel ViewSpec LayoutProofs KernelModel TensorModel TensorSpec
  KernelProofs TensorProofs ReduceModel ReduceSpec ReduceProofs ReduceProofs2 ShapeGradModel ShapeGradSpec ShapeGradProofs.
Import ListNotations.

(** ** permute *)
Section Permute.
Context {A : Type}.
Variables (z : A) (axes : list Z) (s : list nat) (g : tensor A).
Hypothesis Hg : good g.
Hypothesis Hrel : shape_rel (VPermute axes) s (tshape g).
Let n := length s.
Let ax := map (axis_of n) axes.

Lemma axes_lt : forall a, In a ax -> a < n.
Proof.
  destruct Hrel as (L & F & _). intros a Ha. apply in_map_iff in Ha. destruct Ha as (x & <- & Hx).
  rewrite Forall_forall in F. specialize (F x Hx). unfold axis_ok in F. unfold axis_of. fold n in F.
  destruct (Z.ltb_spec x 0); lia.
Qed.
Lemma axes_nth : forall k a, nth_error ax k = Some a -> nth_error (tshape g) k = nth_error s a.
Proof.
  destruct Hrel as (_ & _ & _ & _ & H). intros k a E. unfold ax in E. rewrite nth_error_map in E.
  destruct (nth_error axes k) as [x|] eqn:Ex; [|discriminate]. injection E as <-. now apply H.
Qed.

Lemma permuted_by : forall f, length f = n -> NoDup f -> (forall a, In a f -> a < n) ->
  exists r, t_view z (VPermute (map Z.of_nat f)) g = Ok r /\ good r /\ length (tshape r) = n /\
    (forall k, k < n -> nth_error (tshape r) k = nth_error (tshape g) (nth k f 0)) /\
    forall i, valid (tshape r) i -> exists j, valid (tshape g) j /\ elem r i = elem g j /\ length j = n /\
      forall k, k < n -> nth_error j (nth k f 0) = nth_error i k.
Proof.
  intros f Hl Hn Hr. destruct Hrel as (_ & _ & _ & Lg & _). fold n in Lg.
  assert (Ef : map (axis_of n) (map Z.of_nat f) = f).
  { rewrite map_map. rewrite <- (map_id f) at 2. apply map_ext. intro a. apply axis_of_nat. }
  assert (Hk : forall k, k < n -> nth_error (map Z.of_nat f) k = Some (Z.of_nat (nth k f 0))).
  { intros k Hk. rewrite nth_error_map, (nth_error_nth' f 0) by lia. reflexivity. }
  set (s' := map (fun a => nth a (tshape g) 0) f).
  destruct (t_view_total A z (VPermute (map Z.of_nat f)) g s' Hg I) as (r & Er & Hsr).
  { simpl. rewrite Lg, Ef. rewrite map_length. split; auto. split.
    - apply Forall_forall. intros x Hx. apply in_map_iff in Hx. destruct Hx as (a & <- & Ha).
      specialize (Hr a Ha). unfold axis_ok. lia.
    - split; auto. split; [unfold s'; now rewrite map_length|]. intros k a E.
      unfold s'. rewrite nth_error_map in *. destruct (nth_error f k) as [b|] eqn:Eb; [|discriminate].
      injection E as <-. rewrite axis_of_nat. simpl. symmetry. apply nth_error_nth'.
      rewrite Lg. apply Hr. eapply nth_error_In; eauto. }
  destruct (t_view_spec A z (VPermute (map Z.of_nat f)) g r Hg I Er) as (Hgr & Hsh & Hi).
  assert (Ls : length s' = n) by (unfold s'; now rewrite map_length).
  exists r. rewrite Hsr in *. split; [exact Er|]. split; [exact Hgr|]. split; [exact Ls|]. split.
  - intros k Hk'. destruct Hsh as (_ & _ & _ & _ & H). rewrite (H k _ (Hk k Hk')), Lg, axis_of_nat. reflexivity.
  - intros i Hv. destruct (Hi i Hv) as (j & Hj & Hvj & E). exists j. simpl in Hj. rewrite Lg in Hj. destruct Hj as [Lj Hj].
    split; [auto|]. split; [auto|]. split; [auto|]. intros k Hk'. specialize (Hj k _ (Hk k Hk')). now rewrite axis_of_nat in Hj.
Qed.

(** distinct sizes: the gradient is permuted by the forward axes once more *)
Lemma v_permute_distinct : NoDup s ->
  exists r, v_permute z s g = Ok r /\ good r /\ length (tshape r) = n /\
    (forall k, k < n -> nth_error (tshape r) k = nth_error s (nth (nth k ax 0) ax 0)) /\
    forall i, valid (tshape r) i -> exists j, valid (tshape g) j /\ elem r i = elem g j /\ length j = n /\
      forall k, k < n -> nth_error j (nth k ax 0) = nth_error i k.
Proof.
  intro Hs. pose proof Hrel as (La & _ & Na & Lg & _). fold n in La, Lg, Na. fold ax in Na.
  assert (Lx : length ax = n) by (unfold ax; now rewrite map_length).
  unfold v_permute. change (lshape (tlay g)) with (tshape g). fold n. rewrite Lg, Nat.eqb_refl. cbn [negb].
  pose proof (inverse_is_ax s (tshape g) ax Hs Lx axes_lt Na Lg axes_nth) as E. fold n in E. rewrite E.
  destruct (permuted_by ax Lx Na axes_lt) as (r & Er & Hgr & Lr & Hk & Hi).
  exists r. split; [auto|]. split; [auto|]. split; [auto|]. split; [|auto]. intros k Hk'. rewrite Hk by auto. apply axes_nth. apply nth_error_nth'.
  rewrite Lx. apply axes_lt. apply nth_In. lia.
Qed.

(** an index of the result read off an index of the operand *)
Lemma index_unique : forall j i, index_rel (VPermute axes) s (tshape g) j i ->
  length j = n -> forall j', length j' = n -> (forall k, k < n -> nth_error i (nth k ax 0) = nth_error j' k) -> j = j'.
Proof.
  intros j i (_ & H) L j' L' H'. pose proof Hrel as (La & _). fold n in La.
  apply list_ext. intro k. destruct (Nat.lt_ge_cases k n) as [Hk|Hk].
  - rewrite <- H' by auto. destruct (nth_error axes k) as [a|] eqn:Ea; [|apply nth_error_None in Ea; lia].
    rewrite <- (H k a Ea). f_equal. unfold ax.
    rewrite (nth_indep _ 0 (axis_of n 0%Z)) by (rewrite map_length; lia). rewrite map_nth.
    rewrite (nth_error_nth _ _ _ Ea). reflexivity.
  - rewrite (proj2 (nth_error_None j k)), (proj2 (nth_error_None j' k)) by lia. reflexivity.
Qed.

Lemma v_permute_involution : NoDup s -> (forall k, k < n -> nth (nth k ax 0) ax 0 = k) ->
  exists r, v_permute z s g = Ok r /\ good r /\ tshape r = s /\
    forall i j, valid s i -> index_rel (VPermute axes) s (tshape g) j i -> length j = n -> elem r i = elem g j.
Proof.
  intros Hs Hinv. destruct (v_permute_distinct Hs) as (r & Er & Hgr & Lr & Hk & Hi).
  assert (Es : tshape r = s).
  { apply list_ext. intro k. destruct (Nat.lt_ge_cases k n) as [H|H].
    - now rewrite Hk, Hinv by auto.
    - rewrite (proj2 (nth_error_None _ k)), (proj2 (nth_error_None _ k)) by (fold n; lia). reflexivity. }
  exists r. split; [auto|]. split; [auto|]. split; [auto|]. intros i j Hv Hx Lj. rewrite Es in Hi. destruct (Hi i Hv) as (j' & _ & E & Lj' & Hj').
  rewrite E. f_equal. symmetry. apply (index_unique j i Hx Lj j' Lj').
  intros k Hk'. pose proof Hrel as (La & _). fold n in La.
  assert (Hl : nth k ax 0 < n) by (apply axes_lt, nth_In; unfold ax; rewrite map_length; lia).
  rewrite <- (Hj' _ Hl), Hinv by auto. reflexivity.
Qed.

Lemma v_permute_only_involution : NoDup s -> forall r, v_permute z s g = Ok r -> tshape r = s ->
  forall k, k < n -> nth (nth k ax 0) ax 0 = k.
Proof.
  intros Hs r Er Es k Hk. destruct (v_permute_distinct Hs) as (r' & Er' & _ & _ & H & _).
  rewrite Er in Er'. injection Er' as <-. rewrite Es in H. specialize (H k Hk).
  pose proof Hrel as (La & _). fold n in La.
  assert (Lx : length ax = n) by (unfold ax; now rewrite map_length).
  assert (H1 : nth k ax 0 < n) by (apply axes_lt, nth_In; lia).
  assert (H2 : nth (nth k ax 0) ax 0 < n) by (apply axes_lt, nth_In; lia).
  symmetry. apply (proj1 (NoDup_nth_error s) Hs); auto.
Qed.

(** identity axes, any sizes *)
Lemma guess_id : forall gs m, m < length gs -> guess_axis gs (seq 0 m) (nth m gs 0) = m.
Proof.
  intros gs m Hm. unfold guess_axis.
  assert (E : find (fun j => (nth m gs 0 =? nth j gs 0) && negb (existsb (Nat.eqb j) (seq 0 m))) (seq 0 (length gs)) = Some m).
  { replace (length gs) with (m + (length gs - m)) by lia. rewrite seq_app. simpl.
    assert (F : forall a l, (forall j, In j l -> j < m) ->
      find (fun j => (nth m gs 0 =? nth j gs 0) && negb (existsb (Nat.eqb j) (seq 0 m))) (l ++ a) =
      find (fun j => (nth m gs 0 =? nth j gs 0) && negb (existsb (Nat.eqb j) (seq 0 m))) a).
    { intros a l. induction l as [|x l IH]; intro H; auto. simpl.
      assert (Hx : existsb (Nat.eqb x) (seq 0 m) = true).
      { apply existsb_exists. exists x. split; [apply in_seq; specialize (H x (or_introl eq_refl)); lia|apply Nat.eqb_refl]. }
      rewrite Hx, andb_false_r. apply IH. intros j Hj. apply H. now right. }
    rewrite F by (intros j Hj; apply in_seq in Hj; lia).
    destruct (length gs - m) as [|q] eqn:Eq; [lia|]. simpl. rewrite Nat.eqb_refl. simpl.
    assert (Hx : existsb (Nat.eqb m) (seq 0 m) = false).
    { destruct (existsb (Nat.eqb m) (seq 0 m)) eqn:Ex; auto. apply existsb_exists in Ex. destruct Ex as (j & Hj & Ej).
      apply in_seq in Hj. apply Nat.eqb_eq in Ej. lia. }
    now rewrite Hx. }
  now rewrite E.
Qed.
Lemma forward_id : forall gs r m, m + length r = length gs -> r = skipn m gs ->
  forward_perm gs (seq 0 m) r = seq 0 (length gs).
Proof.
  intros gs r. induction r as [|d r IH]; intros m Hl Hr; simpl in *.
  - f_equal. lia.
  - assert (Ed : d = nth m gs 0).
    { rewrite <- (firstn_skipn m gs), <- Hr, app_nth2; rewrite firstn_length_le by lia; [|lia]. now rewrite Nat.sub_diag. }
    rewrite Ed, guess_id by lia. change [m] with [0 + m]. rewrite <- (seq_S m 0). apply IH; [lia|]. symmetry. eapply skipn_tail. symmetry. exact Hr.
Qed.
Lemma upd_app : forall B (pre : list B) x v rest, upd (pre ++ x :: rest) (length pre) v = pre ++ v :: rest.
Proof. intros B pre x v rest. induction pre as [|y pre IH]; simpl; auto. now rewrite IH. Qed.
Lemma inverse_id : forall m i pre rest, length pre = i -> length rest = m ->
  inverse_perm (pre ++ rest) i (seq i m) = pre ++ seq i m.
Proof.
  induction m as [|m IH]; intros i pre rest Hp Hr; simpl.
  - destruct rest; [now rewrite !app_nil_r|discriminate].
  - destruct rest as [|x rest]; [discriminate|].
    assert (E : upd (pre ++ x :: rest) i i = (pre ++ [i]) ++ rest).
    { rewrite <- app_assoc. simpl. subst i. apply upd_app. }
    rewrite E, IH; [|rewrite app_length; simpl; lia|simpl in Hr; lia]. now rewrite <- app_assoc.
Qed.

Lemma v_permute_identity : ax = seq 0 n ->
  exists r, v_permute z s g = Ok r /\ good r /\ tshape r = s /\ forall i, valid s i -> elem r i = elem g i.
Proof.
  intro Hid. pose proof Hrel as (La & _ & Na & Lg & _). fold n in La, Lg.
  assert (Es : tshape g = s).
  { apply list_ext. intro k. destruct (Nat.lt_ge_cases k n) as [H|H].
    - apply axes_nth. rewrite Hid, (nth_error_nth' _ 0) by (now rewrite seq_length). now rewrite seq_nth.
    - rewrite (proj2 (nth_error_None _ k)), (proj2 (nth_error_None _ k)) by (fold n; lia). reflexivity. }
  unfold v_permute. change (lshape (tlay g)) with (tshape g). fold n. rewrite Lg, Nat.eqb_refl. cbn [negb].
  rewrite Es. change (@nil nat) with (seq 0 0). rewrite (forward_id s s 0) by auto. fold n.
  change (repeat 0 n) with ([] ++ repeat 0 n).
  rewrite (inverse_id n 0 [] (repeat 0 n)); auto; [|apply repeat_length]. simpl.
  destruct (permuted_by (seq 0 n)) as (r & Er & Hgr & Lr & Hk & Hi).
  - apply seq_length.
  - apply seq_NoDup.
  - intros a Ha. apply in_seq in Ha. lia.
  - exists r. split; auto. split; auto.
    assert (Er' : tshape r = s).
    { apply list_ext. intro k. destruct (Nat.lt_ge_cases k n) as [H|H].
      - rewrite Hk, seq_nth, Es by auto. reflexivity.
      - rewrite (proj2 (nth_error_None _ k)), (proj2 (nth_error_None _ k)) by (fold n; lia). reflexivity. }
    split; auto. intros i Hv. rewrite Er' in Hi. destruct (Hi i Hv) as (j & _ & E & Lj & Hj). rewrite E. f_equal.
    apply list_ext. intro k. destruct (Nat.lt_ge_cases k n) as [H|H].
    + specialize (Hj k H). rewrite seq_nth in Hj by auto. exact Hj.
    + pose proof (valid_length _ _ Hv). fold n in H0.
      rewrite (proj2 (nth_error_None _ k)), (proj2 (nth_error_None _ k)) by lia. reflexivity.
Qed.
End Permute.
