(** Proofs about concat and split of tensors, chunk, flip and padding. *)
From Coq Require Import List Arith ZArith Lia Bool ZifyBool.
From Verif Require Import Base IndexSpec LayoutModel ViewSpec LayoutProofs BcastProofs.
From Verif Require Import KernelModel TensorModel TensorSpec KernelProofs TensorProofs.
From Verif Require Import ReduceModel ReduceSpec ReduceProofs ScanModel ScanProofs MoveModel MoveProofs.
Import ListNotations.

Lemma axis_usize_ok : forall n a, axis_ok n a -> MoveModel.axis_usize n a = Some (axis_of n a).
Proof. intros n a H. apply (proj1 (ScanProofs.axis_usize n a H)). Qed.
Lemma axis_of_lt : forall n a, axis_ok n a -> axis_of n a < n.
Proof. intros n a H. apply (proj2 (ScanProofs.axis_usize n a H)). Qed.

Lemma concat_dims_spec : forall ls acc d x, nth_error acc d = Some x ->
  (forall l, In l ls -> length (lshape l) = length acc) ->
  concat_dims acc (Some d) ls = Ok (upd acc d (x + list_sum (map (fun l => nth d (lshape l) 0) ls))).
Proof.
  induction ls as [|l ls IH]; intros acc d x Hx Hl.
  - cbn. f_equal. rewrite Nat.add_0_r. apply list_ext. intro k. destruct (Nat.eq_dec k d) as [->|Hk].
    + rewrite nth_error_upd_eq; auto. apply nth_error_Some. congruence.
    + now rewrite nth_error_upd_neq by auto.
  - cbn [concat_dims]. rewrite (Hl l) by (now left). rewrite Nat.eqb_refl. cbn [negb]. rewrite Hx.
    rewrite (IH _ d (x + nth d (lshape l) 0)).
    + rewrite upd_upd. f_equal. f_equal. cbn [map list_sum fold_right]. unfold list_sum. lia.
    + apply nth_error_upd_eq. apply nth_error_Some. congruence.
    + intros l' Hl'. rewrite upd_length. apply Hl. now right.
Qed.

Section T.
Variables (A : Type) (z d0 : A).

Lemma t_concat_gen : forall (t0 : tensor A) r a val,
  let ts := t0 :: r in
  let s0 := tshape t0 in
  let d := axis_of (length s0) a in
  Forall good ts -> axis_ok (length s0) a -> length s0 <= 16 ->
  (forall t, In t ts -> compatible d s0 (tshape t)) -> reads A ts val ->
  exists c, t_concat z ts a = Ok c /\ good c /\
    tlay c = from_shape (upd s0 d (list_sum (axis_sizes d ts))) /\
    forall j t i, nth_error ts j = Some t -> valid (tshape t) i ->
      elem c (adjust d (fun x => x + list_sum (firstn j (axis_sizes d ts))) i) = Some (val j i).
Proof.
  intros t0 r a val ts s0 d Hg Ha HR Hc Hp.
  assert (Hd : d < length s0) by (now apply axis_of_lt).
  destruct (nth_error s0 d) as [n0|] eqn:Hn; [|apply nth_error_None in Hn; lia].
  unfold t_concat, ts. fold (tshape t0). fold s0. rewrite axis_usize_ok by auto. fold d.
  rewrite (concat_dims_spec _ s0 d n0) by
    (auto; intros l Hl; apply in_map_iff in Hl; destruct Hl as [t [<- Ht]];
     apply (Hc t); unfold ts; now right).
  cbn [bind].
  assert (ES : n0 + list_sum (map (fun l => nth d (lshape l) 0) (map tlay r)) = list_sum (axis_sizes d ts)).
  { unfold axis_sizes, ts. cbn [map list_sum fold_right]. rewrite map_map. unfold tshape at 1. fold (tshape t0). fold s0.
    rewrite (nth_error_nth _ _ 0 Hn). reflexivity. }
  rewrite ES. fold ts. set (S := upd s0 d (list_sum (axis_sizes d ts))).
  unfold call_ops_concat. replace (map tlay ts) with (tlay t0 :: map tlay r) by reflexivity.
  cbn iota. fold (tshape t0). fold s0. replace (length s0 <=? d) with false by lia.
  change (tlay t0 :: map tlay r) with (map tlay ts).
  assert (HF : forallb (fun l => (length (lshape l) =? length s0) &&
            forallb (fun d1 => (d1 =? d) || (nth d1 (lshape l) 0 =? nth d1 s0 0)) (seq 0 (length s0))) (map tlay ts) = true).
  { apply forallb_forall. intros l Hl. apply in_map_iff in Hl. destruct Hl as [t [<- Ht]]. fold (tshape t).
    destruct (Hc t Ht) as [Lt Et]. rewrite Lt, Nat.eqb_refl. cbn [andb]. apply forallb_forall. intros q Hq.
    apply in_seq in Hq. destruct (q =? d) eqn:Q; auto. cbn [orb]. apply Nat.eqb_eq.
    rewrite <- !nth_default_eq. unfold nth_default. now rewrite Et by lia. }
  rewrite HF. cbn [negb].
  replace (map (fun l => nth d (lshape l) 0) (map tlay ts)) with (axis_sizes d ts)
    by (unfold axis_sizes; rewrite map_map; reflexivity).
  fold S. change shape_size with nelem.
  destruct (concat_kernel_spec A ts d s0 n0 (repeat z (nelem S)) val Hg Hc HR Hn Hp) as [st [E [L H]]].
  { apply repeat_length. }
  fold S in E, L, H. rewrite E. cbn [ub bind]. eexists. split; [reflexivity|].
  split; [now apply from_shape_good|]. split; [reflexivity|].
  intros j t i Hj Hi. destruct (Hc t (nth_error_In _ _ Hj)) as [Lt Ht].
  set (off := list_sum (firstn j (axis_sizes d ts))).
  assert (Li : length i = length s0) by (rewrite (valid_length _ _ Hi); auto).
  assert (Ex : nth_error i d = Some (nth d i 0)) by (apply nth_error_nth'; lia).
  set (x := nth d i 0) in *.
  assert (Esz : nth_error (axis_sizes d ts) j = Some (nth d (tshape t) 0)).
  { unfold axis_sizes. now rewrite nth_error_map, Hj. }
  assert (Hx : x < nth d (tshape t) 0).
  { apply valid_nth in Hi. destruct Hi as [_ Hi]. apply (Hi d); auto. apply nth_error_nth'. lia. }
  pose proof (sum_firstn_S _ _ _ Esz) as EJ. fold off in EJ.
  pose proof (sum_firstn_le (axis_sizes d ts) (Datatypes.S j)) as LE.
  assert (V : valid S (adjust d (fun x => x + off) i)).
  { eapply valid_adjust; [exact Hi|unfold S; rewrite upd_length; auto| |].
    - intros k Hk. unfold S. rewrite nth_error_upd_neq by auto. symmetry. auto.
    - intros y e Hy He. rewrite Ex in Hy. injection Hy as <-. unfold S in He.
      rewrite nth_error_upd_eq in He by auto. injection He as <-.
      rewrite EJ in LE. eapply Nat.lt_le_trans; [|exact LE]. rewrite Nat.add_comm. now apply Nat.add_lt_mono_l. }
  unfold elem at 1. cbn [tstore tlay]. rewrite addr_from_shape by (now apply valid_length).
  destruct (H (ravel S (adjust d (fun x => x + off) i))) as [j' [t' [Ht' [Hr [_ E']]]]]; [now apply ravel_lt|].
  rewrite unravel_ravel in Hr, E' by auto.
  assert (Ev : nth d (adjust d (fun x => x + off) i) 0 = x + off).
  { apply nth_error_nth. rewrite nth_error_adjust, Nat.eqb_refl, Ex. reflexivity. }
  rewrite Ev in Hr.
  assert (j' = j).
  { eapply owner_unique; [exact Hr|]. fold off. rewrite EJ. split; [apply Nat.le_add_l|].
    rewrite Nat.add_comm. now apply Nat.add_lt_mono_l. }
  subst j'. rewrite Hj in Ht'. injection Ht' as <-. fold off in E'. rewrite E'. do 2 f_equal.
  apply list_ext. intro k. rewrite nth_error_adjust. destruct (k =? d) eqn:K.
  - assert (k = d) by lia. subst k. rewrite nth_error_adjust, Nat.eqb_refl, Ex. cbn. f_equal. lia.
  - rewrite nth_error_adjust, K. reflexivity.
Qed.

Lemma t_concat_spec : forall (t0 : tensor A) r a, 
  let ts := t0 :: r in
  let s0 := tshape t0 in
  let d := axis_of (length s0) a in
  Forall good ts -> axis_ok (length s0) a -> length s0 <= 16 ->
  (forall t, In t ts -> compatible d s0 (tshape t)) -> packed ts ->
  exists c, t_concat z ts a = Ok c /\ good c /\
    tlay c = from_shape (upd s0 d (list_sum (axis_sizes d ts))) /\
    forall j t i, nth_error ts j = Some t -> valid (tshape t) i ->
      elem c (adjust d (fun x => x + list_sum (firstn j (axis_sizes d ts))) i) = elem t i.
Proof.
  intros t0 r a ts s0 d Hg Ha HR Hc Hp.
  destruct (t_concat_gen t0 r a _ Hg Ha HR Hc (packed_reads A d0 ts Hg Hp)) as [c [E [G [L H]]]].
  exists c. split; auto. split; auto. split; auto. intros j t i Hj V. specialize (H j t i Hj V). fold ts s0 d in H. rewrite H, Hj.
  symmetry. unfold elem. apply nth_error_rd. rewrite Forall_forall in Hg. destruct (Hg t (nth_error_In _ _ Hj)) as [_ Hb].
  now apply Hb.
Qed.

(** every index of the result belongs to an input *)
Lemma concat_cover : forall (ts : list (tensor A)) s0 d, d < length s0 ->
  (forall t, In t ts -> compatible d s0 (tshape t)) ->
  forall k, valid (upd s0 d (list_sum (axis_sizes d ts))) k ->
  exists j t i, nth_error ts j = Some t /\ valid (tshape t) i /\
    k = adjust d (fun x => x + list_sum (firstn j (axis_sizes d ts))) i.
Proof.
  intros ts s0 d Hd Hc k V.
  assert (Lk : length k = length s0) by (rewrite (valid_length _ _ V); apply upd_length).
  assert (Ex : nth_error k d = Some (nth d k 0)) by (apply nth_error_nth'; lia).
  assert (Hx : nth d k 0 < list_sum (axis_sizes d ts)).
  { pose proof V as V'. apply valid_nth in V'. destruct V' as [_ V']. apply (V' d); auto.
    now apply nth_error_upd_eq. }
  destruct (concat_find_spec (axis_sizes d ts) 0 0 _ Hx) as [j [Hj [_ Hr]]].
  unfold axis_sizes in Hj. rewrite map_length in Hj.
  destruct (nth_error ts j) as [t|] eqn:Et; [|apply nth_error_None in Et; lia].
  destruct (Hc t (nth_error_In _ _ Et)) as [Lt Ht].
  exists j, t, (adjust d (fun x => x - list_sum (firstn j (axis_sizes d ts))) k).
  split; auto. split.
  - eapply valid_adjust; [exact V|rewrite upd_length; auto| |].
    + intros q Hq. rewrite nth_error_upd_neq by auto. auto.
    + intros y e Hy He. rewrite Ex in Hy. injection Hy as <-.
      rewrite (sum_firstn_S _ j e) in Hr; [lia|].
      unfold axis_sizes. rewrite nth_error_map, Et. cbn. f_equal. now apply nth_error_nth.
  - apply list_ext. intro q. rewrite nth_error_adjust. destruct (q =? d) eqn:Q.
    + assert (q = d) by lia. subst q. rewrite nth_error_adjust, Nat.eqb_refl, Ex. cbn. f_equal. lia.
    + rewrite nth_error_adjust, Q. reflexivity.
Qed.

(** split then concat *)
Lemma split_concat : forall (t : tensor A) sizes a n, good t -> length (tshape t) <= 16 ->
  axis_ok (length (tshape t)) a -> nth_error (tshape t) (axis_of (length (tshape t)) a) = Some n ->
  Forall (fun s => 0 < s) sizes -> sizes <> [] -> list_sum sizes = n ->
  exists ps c, t_split z t sizes a = Ok ps /\
    map tshape ps = map (fun s => upd (tshape t) (axis_of (length (tshape t)) a) s) sizes /\
    t_concat z ps a = Ok c /\ tlay c = from_shape (tshape t) /\
    forall i, valid (tshape t) i -> elem c i = elem t i.
Proof.
  intros t sizes a n Hg HR Ha Hn HP Hne Hs. set (d := axis_of (length (tshape t)) a) in *.
  unfold t_split. fold (tshape t). rewrite axis_usize_ok by auto. fold d.
  destruct (split_loop_spec A z d0 t d n sizes 0 Hg HR Hn HP) as [ps [E [Lp H]]]; [lia|].
  assert (Hd : d < length (tshape t)) by (now apply axis_of_lt).
  assert (MS : map tshape ps = map (fun s => upd (tshape t) d s) sizes).
  { apply list_ext. intro k. rewrite !nth_error_map.
    destruct (nth_error ps k) as [p|] eqn:Ep; destruct (nth_error sizes k) as [s|] eqn:Es; auto.
    - destruct (H k p s Ep Es) as [_ [Lay _]]. cbn. f_equal. unfold tshape at 1. now rewrite Lay.
    - apply nth_error_None in Es. assert (k < length ps) by (apply nth_error_Some; congruence). lia.
    - apply nth_error_None in Ep. assert (k < length sizes) by (apply nth_error_Some; congruence). lia. }
  destruct ps as [|p0 ps0]; [destruct sizes; [congruence|discriminate]|].
  assert (K : forall j p, nth_error (p0 :: ps0) j = Some p -> exists s, nth_error sizes j = Some s /\
      good p /\ tshape p = upd (tshape t) d s /\ length (tstore p) = nelem (tshape p) /\
      forall i, valid (tshape p) i -> elem p i = elem t (adjust d (fun x => x + list_sum (firstn j sizes)) i)).
  { intros j p Hj. destruct (nth_error sizes j) as [s|] eqn:Es.
    - exists s. split; auto. destruct (H j p s Hj Es) as [G1 [G2 [G3 G4]]]. split; auto.
      split; [unfold tshape at 1; now rewrite G2|]. auto.
    - apply nth_error_None in Es. assert (j < length (p0 :: ps0)) by (apply nth_error_Some; congruence). lia. }
  destruct (K 0 p0 eq_refl) as [s0 [Hs0 [_ [Sh0 _]]]].
  assert (LE : length (tshape p0) = length (tshape t)) by (rewrite Sh0; apply upd_length).
  assert (SZ : axis_sizes d (p0 :: ps0) = sizes).
  { unfold axis_sizes. rewrite <- (map_map tshape (fun s => nth d s 0)), MS, map_map.
    rewrite <- (map_id sizes) at 2. apply map_ext. intro s. apply nth_error_nth. now apply nth_error_upd_eq. }
  destruct (t_concat_spec p0 ps0 a) as [c [Ec [_ [Lc Hc]]]]; rewrite ?LE; auto.
  { apply Forall_forall. intros p Hp. apply In_nth_error in Hp. destruct Hp as [j Hj].
    destruct (K j p Hj) as [s [_ [G _]]]. exact G. }
  { intros p Hp. apply In_nth_error in Hp. destruct Hp as [j Hj]. destruct (K j p Hj) as [s [_ [_ [Sh _]]]].
    fold d. split; [rewrite Sh, Sh0, !upd_length; auto|]. intros k Hk.
    rewrite Sh, Sh0, !nth_error_upd_neq by auto. auto. }
  { intros j p _ Hj. destruct (K j p Hj) as [s [_ [_ [_ [L _]]]]]. exact L. }
  exists (p0 :: ps0), c. split; [exact E|]. split; [exact MS|]. split; [exact Ec|].
  rewrite LE in Lc, Hc. fold d in Lc, Hc. rewrite SZ in Lc, Hc.
  assert (ESH : upd (tshape p0) d (list_sum sizes) = tshape t).
  { rewrite Sh0, upd_upd, Hs. apply list_ext. intro k. destruct (Nat.eq_dec k d) as [->|Hk].
    - rewrite nth_error_upd_eq; auto.
    - now rewrite nth_error_upd_neq by auto. }
  rewrite ESH in Lc. split; [exact Lc|].
  intros i Hi.
  destruct (concat_cover (p0 :: ps0) (tshape p0) d) with (k := i) as [j [p [i' [Hj [Hi' Ei]]]]].
  { rewrite Sh0, upd_length. auto. }
  { intros p Hp. apply In_nth_error in Hp. destruct Hp as [j Hj]. destruct (K j p Hj) as [s [_ [_ [Sh _]]]].
    split; [rewrite Sh, Sh0, !upd_length; auto|]. intros k Hk.
    rewrite Sh, Sh0, !nth_error_upd_neq by auto. auto. }
  { rewrite SZ, ESH. exact Hi. }
  rewrite SZ in Ei. rewrite Ei. rewrite (Hc j p i' Hj Hi').
  destruct (K j p Hj) as [s [_ [_ [_ [_ G]]]]]. now apply G.
Qed.

(** chunk *)
Lemma chunk_sizes_spec : forall n c m start, (start + m - 1) * c <= n -> start + m > 0 ->
  exists sizes, chunk_sizes n c (seq start m) = Ok sizes /\
    Forall (fun s => 0 < s <= c) sizes /\
    list_sum sizes = Nat.min ((start + m) * c) n - Nat.min (start * c) n.
Proof.
  intros n c. induction m as [|m IH]; intros start H Hp.
  - exists []. cbn. split; auto. split; auto. rewrite Nat.add_0_r. lia.
  - cbn [seq chunk_sizes].
    destruct (Nat.min ((start + 1) * c) n <? start * c) eqn:E; [nia|].
    destruct (IH (S start)) as [sizes [Es [HF HS]]].
    { replace (S start + m - 1) with (start + S m - 1) by lia. auto. } { lia. }
    rewrite Es. cbn [bind].
    eexists. split; [reflexivity|].
    replace ((S start + m) * c) with ((start + S m) * c) in HS by nia.
    replace (S start * c) with ((start + 1) * c) in HS by nia.
    assert (M1 : start * c <= (start + 1) * c) by nia.
    assert (M2 : (start + 1) * c <= (start + S m) * c) by nia.
    destruct (0 <? Nat.min ((start + 1) * c) n - start * c) eqn:E2.
    + split; [constructor; auto; nia|]. cbn [list_sum fold_right]. unfold list_sum in HS. rewrite HS. lia.
    + split; auto. rewrite HS. lia.
Qed.

Lemma chunk_underflow : forall n c m start, start + m > 0 -> n < (start + m - 1) * c -> 0 < m ->
  chunk_sizes n c (seq start m) = Panic.
Proof.
  intros n c. induction m as [|m IH]; intros start Hp H Hm; [lia|].
  cbn [seq chunk_sizes]. destruct (Nat.min ((start + 1) * c) n <? start * c) eqn:E; auto.
  destruct m as [|m].
  - replace (start + 1 - 1) with start in H by lia. lia.
  - rewrite IH; auto; lia.
Qed.
End T.
