(** Proofs about indexed reads and writes. *)
From Coq Require Import List Arith ZArith Lia Bool ZifyBool.
From Verif Require Import Base IndexSpec LayoutModel ViewSpec LayoutProofs BcastProofs.
From Verif Require Import KernelModel TensorModel TensorSpec KernelProofs TensorProofs.
From Verif Require Import ReduceModel ReduceSpec ReduceProofs ScanModel ScanProofs MoveModel MoveProofs.
From Verif Require Import MoveProofs2 MoveProofs3 IndexModel.
Import ListNotations.

(** The index [ix] names position [k] of an axis of [n] elements. *)
Definition names (n : nat) (ix : Z) (k : nat) : Prop :=
  k < n /\ (ix = Z.of_nat k \/ ix = Z.of_nat k - Z.of_nat n)%Z.

Lemma wrap_names : forall ix n k, wrap_index ix n = Some k <-> names n ix k.
Proof.
  intros ix n k. unfold wrap_index, names.
  destruct (ix <? 0)%Z eqn:E; cbv zeta.
  - destruct ((ix + Z.of_nat n <? 0) || (ix + Z.of_nat n >=? Z.of_nat n))%Z eqn:E2; split; try discriminate; try lia.
    + intros H. injection H as <-. lia.
    + intros H. f_equal. lia.
  - destruct ((ix <? 0) || (ix >=? Z.of_nat n))%Z eqn:E2; split; try discriminate; try lia.
    + intros H. injection H as <-. lia.
    + intros H. f_equal. lia.
Qed.
Lemma wrap_none : forall ix n, wrap_index ix n = None <-> (ix < - Z.of_nat n \/ Z.of_nat n <= ix)%Z.
Proof.
  intros ix n. unfold wrap_index. destruct (ix <? 0)%Z eqn:E; cbv zeta.
  - destruct ((ix + Z.of_nat n <? 0) || (ix + Z.of_nat n >=? Z.of_nat n))%Z eqn:E2; split; try discriminate; try lia; auto.
  - destruct ((ix <? 0) || (ix >=? Z.of_nat n))%Z eqn:E2; split; try discriminate; try lia; auto.
Qed.

Ltac mdp P B S := apply (md_at _ P B S); [assoc|rewrite ?app_length; cbn [length]; lia|auto].
Ltac nthp P S := apply (nth_at _ P S); [assoc|rewrite ?app_length; cbn [length]; lia].

Lemma padded_id : forall nd d v, length v = nd -> padded nd d v = v.
Proof.
  intros nd d v <-. unfold padded. apply list_ext. intro k.
  destruct (Nat.lt_ge_cases k (length v)) as [H|H].
  - rewrite (nth_error_map_seq _ (fun i => nth i v d)) by auto. symmetry. now apply nth_error_nth'.
  - rewrite !(proj2 (nth_error_None _ _)); auto. now rewrite map_length, seq_length.
Qed.

Section Sel.
Variables (A : Type) (zero z d0 : A).

Definition sel_value (input : list A) (l : layout) (d n : nat) (ix : Z) (i : list nat) : A :=
  match wrap_index ix n with
  | None => zero
  | Some s => rd d0 input (addr l (adjust d (fun _ => s) i))
  end.

Lemma sel_read : forall input l d n ix i s', wf_layout l -> in_bounds (length input) l ->
  nth_error (lshape l) d = Some n -> valid s' i -> length s' = length (lshape l) ->
  (forall k x y, k <> d -> nth_error s' k = Some x -> nth_error (lshape l) k = Some y -> x <= y) ->
  match wrap_index ix n with
  | None => Some zero
  | Some s => nth_error input (flat_index (loffset l) (adjust d (fun _ => s) i) (lstrides l))
  end = Some (sel_value input l d n ix i).
Proof.
  intros input l d n ix i s' Hw Hb Hn V L Hk. unfold sel_value.
  destruct (wrap_index ix n) as [s|] eqn:E; auto.
  rewrite flat_index_dot. fold (addr l (adjust d (fun _ => s) i)). apply nth_error_rd. apply Hb.
  apply wrap_names in E. destruct E as [Hs _].
  apply valid_nth in V. destruct V as [Li V].
  apply valid_nth. rewrite adjust_length. split; [lia|].
  intros k x e Hx He. rewrite nth_error_adjust in Hx. destruct (k =? d) eqn:K.
  - assert (k = d) by lia. subst k. destruct (nth_error i d); [|discriminate]. injection Hx as <-. congruence.
  - destruct (nth_error s' k) as [y|] eqn:Ey.
    + pose proof (V k x y Hx Ey). pose proof (Hk k y e ltac:(lia) Ey He). lia.
    + apply nth_error_None in Ey. assert (k < length i) by (apply nth_error_Some; congruence). lia.
Qed.

Lemma index_select_kernel_spec : forall input indices out l d n m, wf_layout l -> in_bounds (length input) l ->
  nth_error (lshape l) d = Some n -> m <= length indices ->
  let os := upd (lshape l) d m in
  length out = nelem os ->
  index_select_kernel zero input indices out (index_select_metadata l d m (nelem os)) =
  Some (map (fun k => let i := unravel os k in
                      sel_value input l d n (rd 0%Z indices (nth d i 0)) i) (seq 0 (nelem os))).
Proof.
  intros input indices out l d n m Hw Hb Hn Hm os Ho. unfold index_select_kernel.
  set (s := lshape l) in *. set (nd := length s). set (md := index_select_metadata l d m (nelem os)).
  assert (LS : length (lstrides l) = nd) by exact Hw.
  assert (EM : md = [nelem os; nd] ++ s ++ lstrides l ++ [loffset l; d; m]) by reflexivity. clearbody md.
  assert (M0 : nth_error md 0 = Some (nelem os)) by (now rewrite EM).
  assert (M1 : nth_error md 1 = Some nd) by (now rewrite EM).
  assert (M2 : md_slice md 2 nd = Some s).
  { rewrite EM. apply (md_at _ [nelem os; nd] s (lstrides l ++ [loffset l; d; m])); auto. }
  assert (M3 : md_slice md (2 + nd) nd = Some (lstrides l)).
  { rewrite EM. apply (md_at _ ([nelem os; nd] ++ s) (lstrides l) [loffset l; d; m]); [assoc|auto|auto]. }
  assert (M4 : nth_error md (2 + 2 * nd) = Some (loffset l)).
  { rewrite EM. apply (nth_at _ ([nelem os; nd] ++ s ++ lstrides l) [d; m]); [assoc|].
    rewrite !app_length. cbn [length]. fold nd. lia. }
  assert (M5 : nth_error md (2 + 2 * nd + 1) = Some d).
  { rewrite EM. apply (nth_at _ ([nelem os; nd] ++ s ++ lstrides l ++ [loffset l]) [m]); [assoc|].
    rewrite !app_length. cbn [length]. fold nd. lia. }
  assert (M6 : nth_error md (2 + 2 * nd + 2) = Some m).
  { rewrite EM. apply (nth_at _ ([nelem os; nd] ++ s ++ lstrides l ++ [loffset l; d]) []); [assoc|].
    rewrite !app_length. cbn [length]. fold nd. lia. }
  rewrite M0, M1. cbn [obind]. rewrite M2. cbn [obind]. rewrite M3. cbn [obind].
  rewrite M4. cbn [obind]. rewrite M5. cbn [obind]. rewrite M6. cbn [obind].
  rewrite (adjust_spec d _ s n Hn). fold os.
  apply seq_for_total; auto. intros k Hk. cbv beta zeta.
  rewrite c_unravel_spec by exact Hk. cbn [obind].
  assert (V := unravel_valid os k Hk). pose proof V as V'. apply valid_nth in V'. destruct V' as [Lu V'].
  assert (Hd : d < nd) by (apply nth_error_Some; congruence).
  assert (Los : length os = nd) by apply upd_length.
  assert (Hx : nth d (unravel os k) 0 < m).
  { apply (V' d). - apply nth_error_nth'. lia. - now apply nth_error_upd_eq. }
  rewrite (nth_error_rd Z 0%Z) by lia. cbn [obind]. rewrite Hn. cbn [obind].
  apply (sel_read input l d n _ _ os); auto.
  intros q x y Hq Ex Ey. unfold os in Ex. rewrite nth_error_upd_neq in Ex by auto. fold s in Ey.
  rewrite Ex in Ey. injection Ey as ->. auto.
Qed.

Lemma t_index_select_spec : forall (t : tensor A) a (idx : tensor Z) n, good t -> good idx -> plain_layout idx ->
  axis_ok (length (tshape t)) a ->
  let d := axis_of (length (tshape t)) a in
  nth_error (tshape t) d = Some n ->
  exists r, t_index_select zero z t a idx = Ok r /\ good r /\
    tlay r = from_shape (upd (tshape t) d (nelem (tshape idx))) /\
    forall i ix, valid (tshape r) i -> elem idx (unravel (tshape idx) (nth d i 0)) = Some ix ->
      (forall k, names n ix k -> elem r i = elem t (upd i d k)) /\
      ((forall k, ~ names n ix k) -> elem r i = Some zero).
Proof.
  intros t a idx n Hg Hi Hp Ha d Hn. unfold t_index_select. fold (tshape t).
  rewrite axis_usize_ok by auto. fold d.
  assert (Hd : d < length (tshape t)) by (now apply axis_of_lt).
  replace (d <? length (tshape t)) with true by lia.
  unfold layout_size. change shape_size with nelem. fold (tshape idx).
  set (m := nelem (tshape idx)). destruct Hg as [Hw Hb].
  rewrite (index_select_kernel_spec _ _ _ (tlay t) d n m); auto; [|now apply plain_len|apply repeat_length].
  fold (tshape t). set (os := upd (tshape t) d m). cbn [ub bind].
  eexists. split; [reflexivity|]. split; [apply from_shape_good; now rewrite map_length, seq_length|].
  split; [reflexivity|]. intros i ix V Ex. change (tshape _) with os in V.
  assert (Li : length i = length (tshape t)) by (rewrite (valid_length _ _ V); apply upd_length).
  assert (Hx : nth d i 0 < m).
  { apply valid_nth in V. destruct V as [_ V]. apply (V d).
    - apply nth_error_nth'. lia.
    - now apply nth_error_upd_eq. }
  rewrite elem_fresh by auto. cbv zeta. rewrite unravel_ravel by auto.
  assert (Erd : rd 0%Z (tstore idx) (nth d i 0) = ix).
  { rewrite (plain_elem _ idx _ Hi Hp) in Ex by (apply unravel_length).
    rewrite ravel_unravel in Ex by exact Hx. pose proof (nth_error_rd Z 0%Z (tstore idx) (nth d i 0)) as R.
    rewrite R in Ex. - now injection Ex. - pose proof (plain_len _ idx Hi Hp). lia. }
  rewrite Erd. unfold sel_value. split.
  - intros k Hk. pose proof Hk as Hk2. apply wrap_names in Hk2. rewrite Hk2.
    rewrite (adjust_spec d _ i (nth d i 0)) by (apply nth_error_nth'; lia). symmetry.
    unfold elem. apply nth_error_rd. apply Hb.
    assert (V2 : valid (upd os d n) (upd i d k)).
    { apply valid_nth. rewrite !upd_length. apply valid_nth in V. destruct V as [L V]. split; auto.
      intros q x e Hx' He. destruct (Nat.eq_dec q d) as [->|Hq].
      - rewrite nth_error_upd_eq in Hx' by lia. rewrite nth_error_upd_eq in He by lia. destruct Hk. congruence.
      - rewrite nth_error_upd_neq in Hx' by auto. rewrite nth_error_upd_neq in He by auto. eauto. }
    assert (E : upd os d n = tshape t).
    { unfold os. rewrite upd_upd. apply list_ext. intro q. destruct (Nat.eq_dec q d) as [->|Hq].
      - now rewrite nth_error_upd_eq. - now rewrite nth_error_upd_neq by auto. }
    now rewrite E in V2.
  - intros H. destruct (wrap_index ix n) as [k|] eqn:E; auto. apply wrap_names in E. exfalso. eapply H; eauto.
Qed.

(* ---------- gather ---------- *)

Lemma gather_kernel_spec : forall input indices out l il d n, wf_layout l -> in_bounds (length input) l ->
  wf_layout il -> in_bounds (length indices) il -> length (lshape il) = length (lshape l) ->
  nth_error (lshape l) d = Some n ->
  (forall k x y, k <> d -> nth_error (lshape il) k = Some x -> nth_error (lshape l) k = Some y -> x <= y) ->
  let os := lshape il in
  length out = nelem os ->
  gather_kernel zero input indices out (gather_metadata l il d (nelem os)) =
  Some (map (fun k => let i := unravel os k in
                      sel_value input l d n (rd 0%Z indices (addr il i)) i) (seq 0 (nelem os))).
Proof.
  intros input indices out l il d n Hw Hb Hwi Hbi HL Hn Hle os Ho. unfold gather_kernel.
  set (s := lshape l) in *. set (nd := length s) in *. set (md := gather_metadata l il d (nelem os)).
  assert (LS : length (lstrides l) = nd) by exact Hw.
  assert (LI : length (lstrides il) = nd) by (unfold wf_layout in Hwi; congruence).
  assert (LO : length os = nd) by exact HL.
  assert (EM : md = [nelem os; nd] ++ os ++ s ++ lstrides l ++ lstrides il ++ [loffset l; loffset il; d]).
  { unfold md, gather_metadata. fold s nd. now rewrite padded_id. } clearbody md.
  assert (M0 : nth_error md 0 = Some (nelem os)) by (now rewrite EM).
  assert (M1 : nth_error md 1 = Some nd) by (now rewrite EM).
  assert (M2 : md_slice md 2 nd = Some os).
  { rewrite EM. apply (md_at _ [nelem os; nd] os (s ++ lstrides l ++ lstrides il ++ [loffset l; loffset il; d])); auto. }
  assert (M3 : md_slice md (2 + nd) nd = Some s).
  { rewrite EM. apply (md_at _ ([nelem os; nd] ++ os) s (lstrides l ++ lstrides il ++ [loffset l; loffset il; d]));
      [assoc|rewrite app_length, LO; auto|auto]. }
  assert (M4 : md_slice md (2 + 2 * nd) nd = Some (lstrides l)).
  { rewrite EM. apply (md_at _ ([nelem os; nd] ++ os ++ s) (lstrides l) (lstrides il ++ [loffset l; loffset il; d]));
      [assoc|rewrite !app_length, LO; cbn [length]; fold nd; lia|auto]. }
  assert (M5 : md_slice md (2 + 3 * nd) nd = Some (lstrides il)).
  { rewrite EM. apply (md_at _ ([nelem os; nd] ++ os ++ s ++ lstrides l) (lstrides il) ([loffset l; loffset il; d]));
      [assoc|rewrite !app_length, LO, LS; cbn [length]; fold nd; lia|auto]. }
  assert (M6 : forall q X Y, [loffset l; loffset il; d] = X ++ q :: Y -> nth_error md (2 + 4 * nd + length X) = Some q).
  { intros q X Y E. rewrite EM. apply (nth_at _ ([nelem os; nd] ++ os ++ s ++ lstrides l ++ lstrides il ++ X) Y).
    - rewrite E. assoc.
    - rewrite !app_length, LO, LS, LI. cbn [length]. fold nd. lia. }
  rewrite M0, M1. cbn [obind]. rewrite M2. cbn [obind]. rewrite M3. cbn [obind].
  rewrite M4. cbn [obind]. rewrite M5. cbn [obind].
  pose proof (M6 (loffset l) [] _ eq_refl) as E0. cbn [length] in E0. rewrite Nat.add_0_r in E0.
  pose proof (M6 (loffset il) [loffset l] _ eq_refl) as E1. pose proof (M6 d [loffset l; loffset il] _ eq_refl) as E2.
  cbn [length] in E1, E2. rewrite E0. cbn [obind]. rewrite E1. cbn [obind]. rewrite E2. cbn [obind].
  apply seq_for_total; auto. intros k Hk. cbv beta zeta.
  rewrite c_unravel_spec by exact Hk. cbn [obind].
  assert (V := unravel_valid os k Hk).
  rewrite flat_index_dot. fold (addr il (unravel os k)).
  rewrite (nth_error_rd Z 0%Z) by (now apply Hbi). cbn [obind]. rewrite Hn. cbn [obind].
  apply (sel_read input l d n _ _ os); auto.
Qed.

Lemma t_gather_spec : forall (t : tensor A) a (idx : tensor Z) n, good t -> good idx -> plain_layout idx ->
  axis_ok (length (tshape t)) a ->
  let d := axis_of (length (tshape t)) a in
  nth_error (tshape t) d = Some n -> length (tshape idx) = length (tshape t) ->
  (forall k x y, k <> d -> nth_error (tshape idx) k = Some x -> nth_error (tshape t) k = Some y -> x <= y) ->
  exists r, t_gather zero z t a idx = Ok r /\ good r /\ tshape r = tshape idx /\
    forall i ix, elem idx i = Some ix -> valid (tshape idx) i ->
      (forall k, names n ix k -> elem r i = elem t (upd i d k)) /\
      ((forall k, ~ names n ix k) -> elem r i = Some zero).
Proof.
  intros t a idx n Hg Hi Hp Ha d Hn HL Hle. unfold t_gather. fold (tshape t).
  rewrite axis_usize_ok by auto. fold d.
  assert (Hd : d < length (tshape t)) by (now apply axis_of_lt).
  replace (d <? length (tshape t)) with true by lia.
  unfold layout_size. change shape_size with nelem. fold (tshape idx).
  destruct Hg as [Hw Hb]. pose proof Hi as Hi'. destruct Hi' as [Hwi Hbi]. unfold tshape at 1 2.
  rewrite (gather_kernel_spec _ _ _ (tlay t) (tlay idx) d n); auto; [|apply repeat_length].
  fold (tshape idx). cbn [ub bind]. set (st := map _ _).
  assert (Lst : length st = nelem (tshape idx)) by (unfold st; now rewrite map_length, seq_length).
  assert (EL : forall i, valid (tshape idx) i -> addr (tlay idx) i = ravel (tshape idx) i).
  { intros i V. destruct Hp as [Hc Ho]. rewrite addr_contiguous by (auto; now apply valid_length).
    rewrite Ho. reflexivity. }
  exists (mkT st (tlay idx)). split; auto. split.
  { split; auto. intros i V. cbn. rewrite Lst. fold (tshape idx) in V. rewrite EL by auto. now apply ravel_lt. }
  split; auto. intros i ix Ex V.
  assert (Li := valid_length _ _ V).
  unfold elem at 1 3. cbn [tstore tlay]. rewrite EL by auto. unfold st.
  rewrite nth_error_map_seq by (now apply ravel_lt). rewrite unravel_ravel by auto.
  assert (Erd : rd 0%Z (tstore idx) (addr (tlay idx) i) = ix).
  { unfold elem in Ex. rewrite (nth_error_rd Z 0%Z) in Ex by (now apply Hbi). now injection Ex. }
  rewrite Erd. unfold sel_value. split.
  - intros k Hk. pose proof Hk as Hk2. apply wrap_names in Hk2. rewrite Hk2.
    rewrite (adjust_spec d _ i (nth d i 0)) by (apply nth_error_nth'; lia). symmetry.
    unfold elem. apply nth_error_rd. apply Hb. fold (tshape t).
    apply valid_nth. rewrite upd_length. split; [lia|]. apply valid_nth in V. destruct V as [L V].
    intros q x e Hx' He. destruct (Nat.eq_dec q d) as [->|Hq].
    + rewrite nth_error_upd_eq in Hx' by lia. destruct Hk. congruence.
    + rewrite nth_error_upd_neq in Hx' by auto.
      destruct (nth_error (tshape idx) q) as [y|] eqn:Ey.
      * pose proof (V _ _ _ Hx' Ey). pose proof (Hle _ _ _ Hq Ey He). lia.
      * apply nth_error_None in Ey. assert (q < length i) by (apply nth_error_Some; congruence). lia.
  - intros H. destruct (wrap_index ix n) as [k|] eqn:E; auto. apply wrap_names in E. exfalso. eapply H; eauto.
Qed.
End Sel.
