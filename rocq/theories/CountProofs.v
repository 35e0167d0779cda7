From Coq Require Import List Arith ZArith Bool Lia ZifyBool Sorted Permutation.
From Verif Require Import Base IndexSpec LayoutModel ViewSpec LayoutProofs KernelModel KernelProofs TensorModel
  TensorSpec TensorProofs ScanModel SortModel SortProofs EinsumModel EinsumProofs2 CountModel.
Import ListNotations.

Lemma read_view_app : forall l rest, wf_layout l ->
  read_view (view_metadata l ++ rest) = Some (mkV (nelem (lshape l)) (lshape l) (lstrides l) (loffset l) rest).
Proof.
  intros l rest W. unfold read_view, view_metadata.
  change ((nelem (lshape l) :: length (lshape l) :: lshape l ++ lstrides l ++ [loffset l]) ++ rest)
    with ([nelem (lshape l); length (lshape l)] ++ (lshape l ++ lstrides l ++ [loffset l]) ++ rest).
  rewrite (read_n_app 2) by reflexivity. cbn [obind nth]. rewrite <- !app_assoc.
  rewrite (read_n_app _ (lshape l)) by reflexivity. cbn [obind].
  rewrite (read_n_app _ (lstrides l)) by auto. cbn [obind].
  rewrite (read_n_app 1 [loffset l]) by reflexivity. reflexivity.
Qed.
Lemma read_view_eq : forall l, wf_layout l ->
  read_view (view_metadata l) = Some (mkV (nelem (lshape l)) (lshape l) (lstrides l) (loffset l) []).
Proof. intros l W. rewrite <- (app_nil_r (view_metadata l)). now apply read_view_app. Qed.

Definition view_of (l : layout) (rest : list nat) : view_md :=
  mkV (nelem (lshape l)) (lshape l) (lstrides l) (loffset l) rest.

Lemma view_at_elem : forall A (t : tensor A) rest id, good t -> id < nelem (tshape t) ->
  view_at (tstore t) (view_of (tlay t) rest) id = elem t (unravel (tshape t) id).
Proof.
  intros A t rest id [W _] H. unfold view_at, view_of. cbn [v_shape v_strides v_offset].
  rewrite c_strided_spec by auto. reflexivity.
Qed.

Lemma good_elem : forall A (t : tensor A) i, good t -> valid (tshape t) i -> exists x, elem t i = Some x.
Proof.
  intros A t i [_ B] V. unfold elem. destruct (nth_error (tstore t) (addr (tlay t) i)) eqn:E; eauto.
  apply nth_error_None in E. apply B in V. lia.
Qed.

(** The elements as a total function of the linear index. *)
Lemma elements : forall A (t : tensor A), good t ->
  exists xs, length xs = nelem (tshape t) /\
    forall k, k < nelem (tshape t) -> elem t (unravel (tshape t) k) = nth_error xs k.
Proof.
  intros A t G. destruct (mapO (elem t) (all_idx (tshape t))) as [xs|] eqn:E.
  - exists xs. split.
    + rewrite (mapO_length _ _ _ _ _ E). apply all_idx_length.
    + intros k H. symmetry. eapply mapO_nth; eauto. now apply nth_error_all_idx.
  - exfalso. assert (forall i, In i (all_idx (tshape t)) -> elem t i <> None) as F.
    { intros i I. apply in_all_idx in I. destruct (good_elem A t i G I) as [x ->]. discriminate. }
    revert E F. induction (all_idx (tshape t)) as [|i l IH]; intros E F; [discriminate|].
    rewrite mapO_cons in E. destruct (elem t i) eqn:X; [|now apply (F i); [left|]].
    destruct (mapO (elem t) l); [discriminate|]. apply IH; auto. intros; apply F; now right.
Qed.

Lemma c_coords_rev : forall s rest k acc, Forall (fun d => d <> 0) s ->
  c_coords (rev s ++ rest) k acc = c_coords rest (k / nelem s) (unravel s (k mod nelem s) ++ acc).
Proof.
  induction s as [|d s IH]; intros rest k acc F.
  - cbn [rev app nelem fold_right unravel]. now rewrite Nat.div_1_r.
  - inversion F as [|? ? D1 D2]; subst. cbn [rev]. rewrite <- app_assoc. rewrite IH by auto.
    assert (nelem s <> 0) as NZ.
    { clear - D2. induction D2; simpl; [discriminate|]. unfold nelem in *. simpl. lia. }
    cbn [app c_coords]. replace (d =? 0) with false by (symmetry; now apply Nat.eqb_neq).
    rewrite nelem_cons, Nat.div_div by auto. rewrite (Nat.mul_comm (nelem s) d).
    f_equal. cbn [unravel]. rewrite (Nat.mul_comm d (nelem s)). rewrite Nat.mod_mul_r by auto.
    assert ((k mod nelem s + nelem s * ((k / nelem s) mod d)) / nelem s = (k / nelem s) mod d) as E1.
    { rewrite (Nat.mul_comm (nelem s)), Nat.div_add by auto.
      rewrite Nat.div_small by (apply Nat.mod_upper_bound; auto). lia. }
    assert ((k mod nelem s + nelem s * ((k / nelem s) mod d)) mod nelem s = k mod nelem s) as E2.
    { rewrite (Nat.mul_comm (nelem s)), Nat.mod_add by auto. now rewrite Nat.mod_mod. }
    rewrite E1, E2. reflexivity.
Qed.

Lemma nelem_pos_dims : forall s k, k < nelem s -> Forall (fun d => d <> 0) s.
Proof.
  intros s k K. apply Forall_forall. intros d H ->. apply in_split in H as (a & b & ->).
  rewrite nelem_app, nelem_cons in K. lia.
Qed.

Lemma c_coords_spec : forall s k, k < nelem s -> c_coords (rev s) k [] = Some (unravel s k).
Proof.
  intros s k K. rewrite <- (app_nil_r (rev s)). rewrite c_coords_rev by (eapply nelem_pos_dims; eauto).
  cbn [c_coords]. now rewrite Nat.mod_small, app_nil_r.
Qed.

(** ** nonzero *)
Section NZ.
  Context {A : Type}.
  Variable nz : A -> bool.

  (** Is the element at linear index [k] of [xs] non-zero? *)
  Definition nzk (xs : list A) (k : nat) : bool := match nth_error xs k with Some x => nz x | None => false end.

  Lemma count_loop : forall (f : nat -> option A) xs ks c,
    (forall k, In k ks -> f k = nth_error xs k /\ k < length xs) ->
    loopO (fun id count => let? x := f id in Some (if nz x then S count else count)) ks c =
    Some (c + length (filter (nzk xs) ks)).
  Proof.
    intros f xs. induction ks as [|k ks IH]; intros c H; cbn [loopO filter].
    - simpl. f_equal. lia.
    - destruct (H k (or_introl eq_refl)) as [E L]. rewrite E.
      destruct (nth_error xs k) as [x|] eqn:X; [|apply nth_error_None in X; lia]. cbn [obind].
      assert (nzk xs k = nz x) as NK by (unfold nzk; now rewrite X). rewrite NK.
      rewrite IH by (intros; apply H; now right). destruct (nz x); simpl; f_equal; lia.
  Qed.

  Lemma fill_loop : forall (f : nat -> option A) xs s ks n pre rest,
    (forall k, In k ks -> f k = nth_error xs k /\ k < length xs /\ k < nelem s) ->
    length pre = n * length s ->
    length rest = length (filter (nzk xs) ks) * length s ->
    loopO (fun id (st : nat * list nat) =>
      let? m := c_coords (rev s) id [] in
      let? x := f id in
      if nz x then
        let? out := store_from (snd st) (fst st * length s) m in Some (S (fst st), out)
      else Some st) ks (n, pre ++ rest) =
    Some (n + length (filter (nzk xs) ks), pre ++ flat_map (unravel s) (filter (nzk xs) ks)).
  Proof.
    intros f xs s. induction ks as [|k ks IH]; intros n pre rest H LP LR; cbn [loopO].
    - simpl in LR. destruct rest; [|discriminate]. simpl. f_equal. f_equal. lia.
    - destruct (H k (or_introl eq_refl)) as (E & L & K). rewrite c_coords_spec by auto. cbn [obind].
      rewrite E. cbn [filter] in *.
      destruct (nth_error xs k) as [x|] eqn:X; [|apply nth_error_None in X; lia]. cbn [obind].
      assert (nzk xs k = nz x) as NK by (unfold nzk; now rewrite X). rewrite NK in *.
      destruct (nz x).
      + cbn [fst snd]. cbn [length] in LR.
        assert (exists a b, rest = a ++ b /\ length a = length s) as (a & b & -> & LA).
        { exists (firstn (length s) rest), (skipn (length s) rest). rewrite firstn_skipn. split; auto.
          rewrite firstn_length. lia. }
        rewrite app_length in LR.
        rewrite store_from_app by (rewrite ?unravel_length; lia). cbn [obind].
        rewrite app_assoc. rewrite IH.
        * cbn [length flat_map]. rewrite <- app_assoc. do 2 f_equal. lia.
        * intros; apply H; now right.
        * rewrite app_length, unravel_length. lia.
        * lia.
      + apply IH; auto. intros; apply H; now right.
  Qed.

  (** The indices of the non-zero elements, in row-major order. *)
  Definition nz_rows (t : tensor A) : list (list nat) :=
    filter (fun i => match elem t i with Some x => nz x | None => false end) (all_idx (tshape t)).

  Lemma nz_rows_eq : forall t xs, (forall k, k < nelem (tshape t) -> elem t (unravel (tshape t) k) = nth_error xs k) ->
    nz_rows t = map (unravel (tshape t)) (filter (nzk xs) (seq 0 (nelem (tshape t)))).
  Proof.
    intros t xs H. unfold nz_rows. rewrite all_idx_map_unravel.
    assert (forall k, In k (seq 0 (nelem (tshape t))) -> k < nelem (tshape t)) as S by (intros k I; apply in_seq in I; lia).
    induction (seq 0 (nelem (tshape t))) as [|k l IH]; auto. cbn [map filter].
    rewrite H by (apply S; now left). fold (nzk xs k). destruct (nzk xs k); cbn [map]; rewrite IH; auto;
      intros; apply S; now right.
  Qed.

  Lemma t_nonzero_spec : forall t, good t -> length (tshape t) <= 32 ->
    exists r, t_nonzero nz t = Ok r /\ good r /\ tshape r = [length (nz_rows t); length (tshape t)] /\
      forall n i d x, nth_error (nz_rows t) n = Some i -> nth_error i d = Some x -> elem r [n; d] = Some x.
  Proof.
    intros t G R. destruct (elements A t G) as (xs & LX & EX).
    pose proof (nz_rows_eq t xs EX) as NR. set (s := tshape t) in *.
    pose proof (proj1 G) as W. unfold t_nonzero, nonzero_count, nonzero_fill.
    rewrite read_view_eq by auto. fold (view_of (tlay t) []). cbn [obind].
    change (v_els (view_of (tlay t) [])) with (nelem s). change (v_shape (view_of (tlay t) [])) with s.
    change (lshape (tlay t)) with s.
    rewrite (count_loop (view_at (tstore t) (view_of (tlay t) [])) xs).
    2:{ intros k I. apply in_seq in I. split; [|lia]. rewrite view_at_elem by (auto; fold s; lia). apply EX. lia. }
    cbn [ub bind]. rewrite Nat.add_0_l.
    assert (length (nz_rows t) = length (filter (nzk xs) (seq 0 (nelem s)))) as LN by now rewrite NR, map_length.
    destruct (length (filter (nzk xs) (seq 0 (nelem s))) =? 0) eqn:Z.
    - apply Nat.eqb_eq in Z. eexists. split; [reflexivity|]. split; [|split].
      + apply from_shape_good. reflexivity.
      + rewrite LN, Z. reflexivity.
      + intros n i d x H. destruct (nz_rows t); [|simpl in LN; lia]. destruct n; discriminate.
    - apply Nat.eqb_neq in Z. replace (length s <=? 32) with true by (symmetry; now apply Nat.leb_le).
      cbn [negb andb].
      rewrite <- (app_nil_l (repeat 0 _)).
      rewrite (fill_loop (view_at (tstore t) (view_of (tlay t) [])) xs).
      2:{ intros k I. apply in_seq in I. split; [|lia]. rewrite view_at_elem by (auto; fold s; lia). apply EX. lia. }
      2:{ reflexivity. }
      2:{ apply repeat_length. }
      cbn [obind snd ub bind app]. eexists. split; [reflexivity|].
      assert (length (flat_map (unravel s) (filter (nzk xs) (seq 0 (nelem s)))) =
              length (filter (nzk xs) (seq 0 (nelem s))) * length s) as LF.
      { clear. induction (filter (nzk xs) (seq 0 (nelem s))) as [|k l IH]; auto. cbn [flat_map length].
        rewrite app_length, unravel_length. lia. }
      split; [|split].
      + apply from_shape_good. rewrite LF. unfold nelem. cbn. lia.
      + cbn. now rewrite LN.
      + intros n i d x HN HD. unfold elem. cbn [tlay tstore]. rewrite addr_from_shape by reflexivity.
        cbn [ravel]. rewrite NR in HN. rewrite nth_error_map in HN.
        destruct (nth_error (filter (nzk xs) (seq 0 (nelem s))) n) as [k|] eqn:K; [|discriminate].
        cbn in HN. injection HN as <-.
        assert (d < length s) as DL. { rewrite <- (unravel_length s k). apply nth_error_Some. congruence. }
        rewrite (nth_error_flat_map_uniform _ _ _ (length s)); try lia; [|intros; apply unravel_length].
        replace (n * nelem [length s] + (d * nelem [] + 0)) with (d + n * length s) by (unfold nelem; simpl; lia).
        rewrite Nat.div_add, Nat.mod_add by lia. rewrite Nat.div_small, Nat.mod_small by lia.
        cbn [Nat.add]. now rewrite K.
  Qed.
End NZ.
