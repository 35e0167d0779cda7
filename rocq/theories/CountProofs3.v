From Coq Require Import List Arith ZArith Bool Lia.
From Verif Require Import Base IndexSpec LayoutModel ViewSpec LayoutProofs KernelModel KernelProofs TensorModel
  TensorSpec TensorProofs ScanModel SortModel SortProofs DataProofs PermFacts EinsumModel EinsumProofs2 CountModel CountProofs CountProofs2.
Import ListNotations.

(** ** compress *)
Lemma ravel_split : forall s1 s2 i1 i2, length i1 = length s1 ->
  ravel (s1 ++ s2) (i1 ++ i2) = ravel s1 i1 * nelem s2 + ravel s2 i2.
Proof.
  induction s1 as [|d s1 IH]; intros s2 [|x i1] i2 H; try discriminate; [reflexivity|].
  cbn [app ravel]. rewrite IH by (simpl in H; lia). rewrite nelem_app. nia.
Qed.

Lemma list_split_at : forall B (l : list B) a, a < length l ->
  exists p x q, l = p ++ x :: q /\ length p = a /\ firstn a l = p /\ skipn (S a) l = q.
Proof.
  induction l as [|y l IH]; intros [|a] H; simpl in *; try lia.
  - exists [], y, l. auto.
  - destruct (IH a) as (p & x & q & E & L & F & K); [lia|]. exists (y :: p), x, q. subst l.
    simpl. repeat split; auto; try lia. f_equal. auto.
Qed.

Section C.
  Context {A : Type}.

  (** A step that appends [g] to the part of the output already written. *)
  Definition pushes (step : nat * list A -> option (nat * list A)) (g : list A) : Prop :=
    forall pre rest, length g <= length rest ->
      step (length pre, pre ++ rest) = Some (length (pre ++ g), (pre ++ g) ++ skipn (length g) rest).

  Lemma push_out_pushes : forall x, pushes (fun s => push_out s x) [x].
  Proof.
    intros x pre [|r rest] H; simpl in H; [lia|]. unfold push_out. cbn [fst snd].
    rewrite c_store_some by (rewrite app_length; simpl; lia). cbn [obind]. rewrite upd_at.
    rewrite app_length. cbn [length skipn]. rewrite <- app_assoc. do 2 f_equal. lia.
  Qed.

  Lemma pushes_nil : pushes (fun s => Some s) [].
  Proof. intros pre rest _. now rewrite app_nil_r. Qed.

  Lemma loop_pushes : forall X (step : X -> nat * list A -> option (nat * list A)) g ks,
    (forall k, In k ks -> pushes (step k) (g k)) -> pushes (loopO step ks) (flat_map g ks).
  Proof.
    induction ks as [|k ks IH]; intros H pre rest L.
    - apply pushes_nil. auto.
    - cbn [loopO flat_map] in *. rewrite app_length in L. rewrite (H k) by (lia || now left). cbn [obind].
      rewrite IH.
      + rewrite <- !app_assoc, skipn_skipn', !app_length. reflexivity.
      + intros; apply H; now right.
      + rewrite skipn_length. lia.
  Qed.

  (** The positions at which a condition holds. *)
  Definition true_positions (cond : tensor bool) : list nat :=
    filter (fun c => match elem cond [c] with Some b => b | None => false end) (seq 0 (nelem (tshape cond))).

  Lemma flat_map_if : forall X (p : X -> bool) B (f : X -> list B) l,
    flat_map (fun x => if p x then f x else []) l = flat_map f (filter p l).
  Proof. induction l as [|x l IH]; auto. cbn [flat_map filter]. destruct (p x); cbn [flat_map app]; now rewrite IH. Qed.

  Lemma plain_cond : forall bs n, length bs = n -> let cond := mkT bs (from_shape [n]) in
    true_positions cond = filter (fun c => nth c bs false) (seq 0 n) /\
    length (true_positions cond) = count_occ bool_dec bs true.
  Proof.
    intros bs n L cond.
    assert (true_positions cond = filter (fun c => nth c bs false) (seq 0 n)) as E.
    { unfold true_positions, cond, tshape. cbn [tlay from_shape lshape]. replace (nelem [n]) with n by (unfold nelem; simpl; lia).
      apply filter_ext_in. intros c I. apply in_seq in I. unfold elem. cbn [tlay tstore].
      rewrite addr_from_shape by reflexivity. cbn [ravel]. replace (c * nelem [] + 0) with c by (unfold nelem; simpl; lia).
      rewrite (nth_error_nth' _ false) by lia. reflexivity. }
    split; auto. rewrite E. subst n. clear. induction bs as [|b bs IH] using rev_ind; auto.
    rewrite app_length. cbn [length]. rewrite Nat.add_1_r, seq_S, filter_app, app_length, count_occ_app. f_equal.
    - rewrite <- IH. f_equal. apply filter_ext_in. intros c I. apply in_seq in I. now rewrite app_nth1 by lia.
    - cbn [filter plus]. rewrite app_nth2, Nat.sub_diag by lia. cbn. destruct b; reflexivity.
  Qed.

  Lemma t_compress_flat_spec : forall (z : A) t bs, good t -> length bs = nelem (tshape t) ->
    let cond := mkT bs (from_shape [nelem (tshape t)]) in
    exists r, t_compress z t cond None = Ok r /\ good r /\ tshape r = [length (true_positions cond)] /\
      forall k p, nth_error (true_positions cond) k = Some p -> elem r [k] = elem t (unravel (tshape t) p).
  Proof.
    intros z t bs G LB cond. destruct (elements A t G) as (xs & LX & EX). pose proof (proj1 G) as W.
    destruct (plain_cond bs _ LB) as [TP TL]. fold cond in TP, TL.
    unfold t_compress. change (lshape (tlay t)) with (tshape t). set (s := tshape t) in *. set (n := nelem s) in *.
    change (lshape (tlay cond)) with [n]. change (tstore cond) with bs. cbn [length Nat.eqb negb].
    replace (nelem [n]) with n by (unfold nelem; simpl; lia). rewrite Nat.eqb_refl. cbn [negb bind].
    rewrite <- TL. set (T := length (true_positions cond)) in *.
    assert (nelem [T] = T) as N1 by (unfold nelem; simpl; lia). rewrite N1.
    destruct (T =? 0) eqn:Z.
    { apply Nat.eqb_eq in Z. eexists. split; [reflexivity|]. split; [apply from_shape_good; rewrite N1; simpl; lia|].
      split; [reflexivity|]. intros k p H. exfalso. unfold T in Z. destruct (true_positions cond); [|discriminate].
      destruct k; discriminate. }
    unfold compress_kernel, compress_metadata. rewrite read_view_app by auto. fold (view_of (tlay t) [n; 0; 0]).
    cbn [obind]. change (v_rest (view_of (tlay t) [n; 0; 0])) with [n; 0; 0].
    change (read_n 3 [n; 0; 0]) with (Some ([n; 0; 0], @nil nat)). cbn [obind nth Nat.eqb].
    change (v_els (view_of (tlay t) [n; 0; 0])) with n. rewrite Nat.min_id.
    match goal with |- context [loopO ?f (seq 0 n) _] =>
      pose proof (loop_pushes _ f (fun k => if nth k bs false then [nth k xs z] else []) (seq 0 n)) as LP end.
    rewrite flat_map_if, <- TP in LP.
    assert (length (flat_map (fun k => [nth k xs z]) (true_positions cond)) = T) as LF.
    { unfold T. clear. induction (true_positions cond); simpl; auto. }
    change (0, repeat z T) with (length (@nil A), [] ++ repeat z T).
    rewrite LP.
    2:{ clear LP. intros k I. apply in_seq in I. intros pre rest L.
        rewrite (nth_error_nth' bs false) by lia. cbn [obind].
        destruct (nth k bs false); [|now apply pushes_nil].
        rewrite view_at_elem by (auto; fold s; fold n; lia). fold s. rewrite EX by (fold n; lia).
        rewrite (nth_error_nth' xs z) by lia. cbn [obind]. now apply push_out_pushes. }
    2:{ rewrite LF, repeat_length. auto. }
    cbn [obind snd ub bind app]. rewrite LF, (skipn_all2 (repeat z T)) by (rewrite repeat_length; auto).
    rewrite app_nil_r. eexists. split; [reflexivity|].
    split; [apply from_shape_good; now rewrite N1, LF|]. split; [reflexivity|].
    intros k p H. unfold elem at 1. cbn [tlay tstore]. rewrite addr_from_shape by reflexivity. cbn [ravel].
    replace (k * nelem [] + 0) with k by (unfold nelem; simpl; lia).
    assert (p < n) as PL. { apply nth_error_In in H. rewrite TP in H. apply filter_In in H as [H _]. apply in_seq in H. lia. }
    rewrite EX by auto. rewrite (nth_error_nth' xs z) by lia.
    revert H. clear. generalize (true_positions cond). induction k as [|k IH]; intros [|q l] H; try discriminate; simpl in *.
    - congruence.
    - now apply IH.
  Qed.

  Lemma t_compress_axis_spec : forall (z : A) t bs a, good t -> axis_ok (length (tshape t)) a ->
    length (tshape t) <= 32 -> length bs = nth (axis_of (length (tshape t)) a) (tshape t) 0 ->
    let cond := mkT bs (from_shape [length bs]) in
    let ax := axis_of (length (tshape t)) a in
    exists r, t_compress z t cond (Some a) = Ok r /\ good r /\
      tshape r = upd (tshape t) ax (length (true_positions cond)) /\
      forall i k p, valid (tshape r) i -> nth_error i ax = Some k -> nth_error (true_positions cond) k = Some p ->
        elem r i = elem t (upd i ax p).
  Proof.
    intros z t bs a G AX R LB cond ax. pose proof (proj1 G) as W.
    destruct (plain_cond bs _ eq_refl) as [TP TL]. fold cond in TP, TL.
    unfold t_compress. change (lshape (tlay t)) with (tshape t). set (s := tshape t) in *. set (n := length bs) in *.
    change (lshape (tlay cond)) with [n]. change (tstore cond) with bs. cbn [length Nat.eqb negb].
    replace (nelem [n]) with n by (unfold nelem; simpl; lia).
    assert (ax < length s) as AL by (unfold ax, axis_of, axis_ok in *; destruct (a <? 0)%Z eqn:?; lia).
    assert (((if (a <? 0)%Z then Z.of_nat (length s) + a else a) = Z.of_nat ax)%Z) as ->.
    { unfold ax, axis_of, axis_ok in *. destruct (a <? 0)%Z eqn:?; lia. }
    replace ((Z.of_nat ax <? 0) || (Z.of_nat (length s) <=? Z.of_nat ax))%Z with false
      by (symmetry; apply orb_false_iff; split; [apply Z.ltb_ge|apply Z.leb_gt]; lia).
    rewrite Nat2Z.id. fold ax in LB. rewrite <- LB, Nat.eqb_refl. cbn [negb bind].
    rewrite <- TL. set (T := length (true_positions cond)) in *.
    destruct (list_split_at _ s ax AL) as (p & d & q & ES & LP & FP & SQ).
    assert (d = n) as -> by (rewrite LB, ES, app_nth2, <- LP, Nat.sub_diag by lia; reflexivity).
    assert (upd s ax T = p ++ T :: q) as US by (rewrite ES, <- LP; apply upd_at). rewrite US.
    assert (nelem (p ++ T :: q) = nelem p * (T * nelem q)) as NE by (rewrite nelem_app, nelem_cons; reflexivity).
    destruct (T =? 0) eqn:Z.
    { apply Nat.eqb_eq in Z. eexists. split; [reflexivity|]. split; [apply from_shape_good; rewrite NE, Z; simpl; lia|].
      split; [reflexivity|]. intros i k x _ _ H. exfalso. unfold T in Z. destruct (true_positions cond); [|discriminate].
      destruct k; discriminate. }
    apply Nat.eqb_neq in Z.
    unfold compress_kernel, compress_metadata. rewrite read_view_app by auto. fold (view_of (tlay t) [n; 1; ax]).
    cbn [obind]. change (v_rest (view_of (tlay t) [n; 1; ax])) with [n; 1; ax].
    change (read_n 3 [n; 1; ax]) with (Some ([n; 1; ax], @nil nat)). cbn [obind nth Nat.eqb].
    change (v_shape (view_of (tlay t) [n; 1; ax])) with s.
    replace (length s <=? 32) with true by (symmetry; now apply Nat.leb_le). cbn [negb].
    rewrite FP, SQ.
    set (x := fun o c i => match elem t (unravel p o ++ c :: unravel q i) with Some x => x | None => z end).
    assert (forall o c i, o < nelem p -> c < n -> i < nelem q ->
      elem t (unravel p o ++ c :: unravel q i) = Some (x o c i)) as XE.
    { intros o c i O C I. destruct (good_elem A t (unravel p o ++ c :: unravel q i) G) as (y & Y).
      - fold s. rewrite ES. apply valid_app; [now rewrite unravel_length|]. split; [now apply unravel_valid|].
        cbn [valid]. split; auto. now apply unravel_valid.
      - unfold x. now rewrite Y. }
    set (gi := fun o c => map (x o c) (seq 0 (nelem q))).
    set (go := fun o => flat_map (gi o) (true_positions cond)).
    match goal with |- context [loopO ?f (seq 0 (nelem p)) _] =>
      assert (forall o, In o (seq 0 (nelem p)) -> pushes (f o) (go o)) as PO end.
    { intros o O. apply in_seq in O. unfold go. rewrite TP, <- flat_map_if. apply loop_pushes.
      intros c C. apply in_seq in C. intros pre rest L. rewrite (nth_error_nth' bs false) by lia. cbn [obind].
      destruct (nth c bs false); cbn [negb]; [|now apply pushes_nil]. revert pre rest L.
      unfold gi.
      replace (map (x o c) (seq 0 (nelem q))) with (flat_map (fun i => [x o c i]) (seq 0 (nelem q)))
        by (clear; induction (seq 0 (nelem q)) as [|? ? IH]; simpl; auto; now rewrite IH).
      apply loop_pushes. intros i I. apply in_seq in I. intros pre rest L.
      rewrite !c_coords_spec by lia. cbn [obind].
      pose proof (XE o c i ltac:(lia) ltac:(lia) ltac:(lia)) as E. unfold elem, addr in E.
      change (v_offset (view_of (tlay t) [n; 1; ax])) with (loffset (tlay t)).
      change (v_strides (view_of (tlay t) [n; 1; ax])) with (lstrides (tlay t)).
      rewrite E. cbn [obind]. now apply push_out_pushes. }
    assert (forall o c, length (gi o c) = nelem q) as LGI by (intros; unfold gi; now rewrite map_length, seq_length).
    assert (forall o, length (go o) = T * nelem q) as LGO.
    { intro o. unfold go, T. clear - LGI. induction (true_positions cond) as [|c l IH]; auto. cbn [flat_map length].
      rewrite app_length, LGI, IH. reflexivity. }
    assert (length (flat_map go (seq 0 (nelem p))) = nelem p * (T * nelem q)) as LF.
    { rewrite <- (seq_length (nelem p) 0) at 2. clear - LGO. induction (seq 0 (nelem p)) as [|o l IH]; auto.
      cbn [flat_map length]. rewrite app_length, LGO, IH. reflexivity. }
    rewrite NE. set (N := nelem p * (T * nelem q)) in *.
    change (0, repeat z N) with (length (@nil A), [] ++ repeat z N).
    rewrite (loop_pushes _ _ go _ PO) by (rewrite LF, repeat_length; auto).
    cbn [obind snd ub bind app]. rewrite LF, (skipn_all2 (repeat z N)) by (rewrite repeat_length; auto).
    rewrite app_nil_r. eexists. split; [reflexivity|].
    split; [apply from_shape_good; now rewrite NE, LF|]. split; [reflexivity|].
    intros i k pp V HK HP. cbn [tshape tlay from_shape lshape] in V. change (valid (p ++ T :: q) i) in V.
    assert (pp < n) as PL. { apply nth_error_In in HP. rewrite TP in HP. apply filter_In in HP as [HP _]. apply in_seq in HP. lia. }
    assert (ax < length i) as AI by (apply nth_error_Some; congruence).
    destruct (list_split_at _ i ax AI) as (ip & k' & iq & EI & LI & _ & _).
    assert (k' = k) as -> by (rewrite EI, nth_error_app2, <- LI, Nat.sub_diag in HK by lia; cbn in HK; congruence).
    rewrite EI in *. rewrite <- LI, upd_at.
    apply valid_app in V; [|congruence]. destruct V as [V1 V2]. cbn [valid] in V2. destruct V2 as [V2 V3].
    unfold elem at 1. cbn [tlay tstore]. rewrite addr_from_shape.
    2:{ rewrite !app_length. cbn [length]. rewrite (valid_length _ _ V3). lia. }
    rewrite ravel_split by congruence. rewrite nelem_cons. cbn [ravel].
    pose proof (ravel_lt _ _ V1) as R1. pose proof (ravel_lt _ _ V3) as R3.
    assert (k * nelem q + ravel q iq < T * nelem q) as R2 by nia.
    rewrite (nth_error_flat_map_uniform _ _ _ (T * nelem q)) by (intros; apply LGO || nia).
    rewrite Nat.add_comm, Nat.div_add, Nat.mod_add by nia. rewrite Nat.div_small, Nat.mod_small by auto. cbn [Nat.add].
    rewrite (nth_error_nth' _ 0) by (now rewrite seq_length). rewrite seq_nth by auto. cbn [Nat.add].
    unfold go. rewrite (nth_error_flat_map_uniform _ _ _ (nelem q)) by (intros; apply LGI || nia).
    rewrite Nat.add_comm, Nat.div_add, Nat.mod_add by nia. rewrite Nat.div_small, Nat.mod_small by auto. cbn [Nat.add].
    rewrite HP. unfold gi. rewrite nth_error_map, (nth_error_nth' _ 0) by (now rewrite seq_length).
    rewrite seq_nth by auto. cbn [Nat.add option_map].
    rewrite <- XE by auto. now rewrite !unravel_ravel by auto.
  Qed.
End C.
