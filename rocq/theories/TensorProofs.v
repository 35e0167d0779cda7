(** Facts about copies, views, broadcasting and element-wise operations. *)
From Coq Require Import List Arith ZArith Lia Bool.
From Coq Require Import ZifyBool ZifyNat.
From Verif Require Import Base IndexSpec LayoutModel ViewSpec LayoutProofs LayoutProofs2 BcastProofs.
From Verif Require Import KernelModel TensorModel TensorSpec KernelProofs.
Import ListNotations.

Lemma from_shape_good : forall A (st : list A) s, length st = nelem s ->
  good (mkT st (from_shape s)).
Proof.
  intros A st s H. split; [apply from_shape_wf|]. intros i Hi. cbn [tstore tlay].
  rewrite addr_from_shape by (now apply valid_length). rewrite H. now apply ravel_lt.
Qed.

Lemma nth_error_map_seq : forall B (h : nat -> B) n k, k < n ->
  nth_error (map h (seq 0 n)) k = Some (h k).
Proof. intros. erewrite map_nth_error; [|apply nth_error_seq; auto]. reflexivity. Qed.

Lemma elem_fresh : forall B (h : nat -> B) s i, valid s i ->
  elem (mkT (map h (seq 0 (nelem s))) (from_shape s)) i = Some (h (ravel s i)).
Proof.
  intros B h s i Hi. unfold elem. cbn [tstore tlay].
  rewrite addr_from_shape by (now apply valid_length).
  apply nth_error_map_seq. now apply ravel_lt.
Qed.

Lemma elem_rd : forall A (d : A) (t : tensor A) i, good t -> valid (tshape t) i ->
  elem t i = Some (rd d (tstore t) (addr (tlay t) i)).
Proof. intros A d t i [_ Hb] Hi. unfold elem. apply nth_error_rd. now apply Hb. Qed.

Lemma noncontig_rank : forall l, wf_layout l -> is_contiguous l = false -> lshape l <> [].
Proof.
  intros l Hw H E. destruct (is_contiguous_iff l Hw) as [_ G].
  unfold wf_layout in Hw. rewrite E in Hw. destruct (lstrides l) eqn:Es; [|discriminate].
  rewrite G in H; [discriminate|]. now rewrite E.
Qed.

Lemma t_contiguous_spec : forall A (z : A) t, good t ->
  exists c, t_contiguous z t = Ok c /\ good c /\ tshape c = tshape t /\
            is_contiguous (tlay c) = true /\
            (forall i, valid (tshape t) i -> elem c i = elem t i) /\
            (is_contiguous (tlay t) = true -> c = t) /\
            (is_contiguous (tlay t) = false -> tlay c = from_shape (tshape t) /\
                                               length (tstore c) = nelem (tshape t)).
Proof.
  intros A z t Hg. pose proof Hg as [Hw Hb]. unfold t_contiguous.
  destruct (is_contiguous (tlay t)) eqn:Hc.
  - exists t. split; [reflexivity|]. split; [auto|]. split; [auto|]. split; [auto|].
    split; [auto|]. split; [auto|discriminate].
  - pose proof (noncontig_rank _ Hw Hc) as Hr.
    unfold storage_contiguous. rewrite Hc. cbn [andb].
    rewrite (contiguous_kernel_spec A z); auto; [|now left|apply repeat_length].
    cbn [ub bind]. set (s := lshape (tlay t)).
    eexists. split; [reflexivity|].
    split; [apply from_shape_good; now rewrite map_length, seq_length|].
    split; [reflexivity|]. split; [apply from_shape_contiguous|].
    split; [|split; [discriminate|]].
    + intros i Hi. change (tshape t) with s in Hi. rewrite elem_fresh by auto.
      rewrite unravel_ravel by auto. symmetry. now apply elem_rd.
    + intros _. split; [reflexivity|]. cbn [tstore]. now rewrite map_length, seq_length.
Qed.

(** all view operations, uniformly *)
Lemma t_view_unfold : forall A (z : A) o t c, good t -> t_contiguous z t = Ok c ->
  t_view z o t = do l <- apply_view (tlay c) o ; Ok (mkT (tstore c) l).
Proof.
  intros A z o t c Hg Hc.
  destruct (t_contiguous_spec A z t Hg) as [c' [Hc' [_ [Hs _]]]].
  rewrite Hc in Hc'. inversion Hc'; subst c'. clear Hc'.
  unfold t_view. destruct o; rewrite Hc; cbn [bind]; auto.
  destruct (shape_size s =? layout_size (tlay t)) eqn:E; cbn [negb]; auto.
  simpl. unfold reshape. unfold layout_size in *. unfold tshape in Hs. rewrite Hs.
  rewrite Nat.eqb_sym, E. reflexivity.
Qed.

Lemma t_view_spec : forall A (z : A) o t t', good t -> regular o (tshape t) ->
  t_view z o t = Ok t' ->
  good t' /\ shape_rel o (tshape t) (tshape t') /\
  forall i, valid (tshape t') i ->
  exists j, index_rel o (tshape t) (tshape t') i j /\ valid (tshape t) j /\ elem t' i = elem t j.
Proof.
  intros A z o t t' Hg Hr H.
  destruct (t_contiguous_spec A z t Hg) as [c [Hc [Hgc [Hs [Hcc [He _]]]]]].
  rewrite (t_view_unfold A z o t c Hg Hc) in H.
  destruct (apply_view (tlay c) o) as [l| |] eqn:Ev; try discriminate.
  cbn [bind] in H. inversion H; subst t'. clear H.
  destruct Hgc as [Hwc Hbc].
  assert (HV : views o (tlay c) l).
  { apply apply_view_views; auto. unfold tshape in Hs. now rewrite Hs. }
  pose proof (views_in_bounds _ _ _ _ HV Hbc) as Hb'.
  destruct HV as [Hw' [Hsr HI]].
  change (lshape (tlay c)) with (tshape c) in *. rewrite Hs in Hsr, HI.
  split; [split; auto|]. split; auto.
  intros i Hi. destruct (HI i Hi) as [j [Hx [Hj Ha]]]. exists j. split; auto. split; auto.
  rewrite <- He by auto. unfold elem. cbn [tstore tlay]. now rewrite Ha.
Qed.

Lemma t_view_total : forall A (z : A) o t s', good t -> regular o (tshape t) ->
  shape_rel o (tshape t) s' -> exists t', t_view z o t = Ok t' /\ tshape t' = s'.
Proof.
  intros A z o t s' Hg Hr Hs'.
  destruct (t_contiguous_spec A z t Hg) as [c [Hc [Hgc [Hs [Hcc _]]]]].
  unfold tshape in *. destruct (apply_view_total o (tlay c) s') as [l [El Hl]].
  - apply Hgc.
  - now rewrite Hs.
  - auto.
  - now rewrite Hs.
  - exists (mkT (tstore c) l). rewrite (t_view_unfold A z o t c Hg Hc), El. auto.
Qed.

(* ---------- broadcasting ---------- *)

Lemma hd_nth0 : forall (l : list nat), hd 1 l = nth 0 l 1.
Proof. destruct l; reflexivity. Qed.
Lemma nth_tl : forall (l : list nat) k, nth k (tl l) 1 = nth (S k) l 1.
Proof. destruct l; intros k; simpl; auto. now destruct k. Qed.

Lemma bt2_rev_spec : forall n ra rb r,
  bt2_rev ra rb n = Some r <->
  length r = n /\ forall k, k < n ->
    (nth k ra 1 = 1 \/ nth k rb 1 = 1 \/ nth k ra 1 = nth k rb 1) /\
    nth k r 1 = Nat.max (nth k ra 1) (nth k rb 1).
Proof.
  induction n as [|n IH]; intros ra rb r; simpl.
  - split; intro H.
    + inversion H; split; auto; lia.
    + destruct H as [H _]. destruct r; [auto|discriminate].
  - rewrite !hd_nth0. set (x := nth 0 ra 1). set (y := nth 0 rb 1).
    destruct ((x =? 1) || (y =? 1) || (x =? y)) eqn:E.
    + destruct (bt2_rev (tl ra) (tl rb) n) as [q|] eqn:Eq.
      * apply IH in Eq. destruct Eq as [Lq Hq]. split; intro H.
        -- inversion H; subst r. split; [simpl; lia|]. intros [|k] Hk.
           ++ simpl. fold x y. lia.
           ++ specialize (Hq k ltac:(lia)). rewrite !nth_tl in Hq. simpl nth at 4. auto.
        -- destruct H as [Lr Hr]. destruct r as [|r0 r]; [discriminate|].
           destruct (Hr 0 ltac:(lia)) as [_ H0]. simpl in H0. fold x y in H0. subst r0.
           f_equal. f_equal. apply nth_ext with (d := 1) (d' := 1); [simpl in Lr; lia|].
           intros k Hk. destruct (Hr (S k) ltac:(lia)) as [_ H1]. simpl nth at 1 in H1.
           rewrite H1. destruct (Hq k ltac:(lia)) as [_ H2]. rewrite !nth_tl in H2. auto.
      * split; intro H; [discriminate|]. destruct H as [Lr Hr].
        destruct r as [|r0 r]; [discriminate|].
        assert (HN : bt2_rev (tl ra) (tl rb) n = Some r).
        { apply IH. split; [simpl in Lr; lia|]. intros k Hk. rewrite !nth_tl.
          apply (Hr (S k)). lia. }
        congruence.
    + split; intro H; [discriminate|]. destruct H as [_ Hr].
      specialize (Hr 0 ltac:(lia)). fold x y in Hr. lia.
Qed.

Lemma bt2_dims_spec : forall a b r, all_pos a -> all_pos b ->
  (bt2_dims a b = Some r <-> bcast a b r).
Proof.
  intros a b r Pa Pb. unfold bt2_dims, bcast.
  set (n := Nat.max (length a) (length b)).
  assert (Pra := all_pos_rev _ Pa). assert (Prb := all_pos_rev _ Pb).
  split; intro H.
  - destruct (bt2_rev (rev a) (rev b) n) as [q|] eqn:E; [|discriminate].
    inversion H; subst r. apply bt2_rev_spec in E. destruct E as [Lq Hq].
    rewrite rev_length. split; auto. intro k. rewrite rev_involutive.
    destruct (Nat.lt_ge_cases k n) as [Hk|Hk].
    + specialize (Hq k Hk). pose proof (nth_pos (rev a) k Pra).
      pose proof (nth_pos (rev b) k Prb). unfold bcast_dim. lia.
    + left. rewrite !nth_overflow by (rewrite ?rev_length; lia). auto.
  - destruct H as [Lr Hr].
    assert (E : bt2_rev (rev a) (rev b) n = Some (rev r)).
    { apply bt2_rev_spec. rewrite rev_length. split; auto. intros k Hk.
      specialize (Hr k). pose proof (nth_pos (rev a) k Pra).
      pose proof (nth_pos (rev b) k Prb). unfold bcast_dim in Hr. lia. }
    rewrite E. now rewrite rev_involutive.
Qed.

(** each operand can be viewed at the common shape *)
Lemma rev_rel_suffix : forall (s t : list nat), length s <= length t ->
  (forall k, k < length s -> nth k (rev s) 1 = nth k (rev t) 1 \/ nth k (rev s) 1 = 1) ->
  exists added rest, t = added ++ rest /\ Forall2 (fun d d' => d = d' \/ d = 1) s rest.
Proof.
  intros s t Hl H. exists (firstn (length t - length s) t), (skipn (length t - length s) t).
  split; [now rewrite firstn_skipn|].
  assert (Lr : length (skipn (length t - length s) t) = length s) by (rewrite skipn_length; lia).
  set (r := skipn (length t - length s) t) in *.
  assert (G : forall k, k < length s -> nth k s 1 = nth k r 1 \/ nth k s 1 = 1).
  { intros k Hk. specialize (H (length s - S k) ltac:(lia)).
    rewrite !rev_nth in H by lia.
    replace (length s - S (length s - S k)) with k in H by lia.
    replace (length t - S (length s - S k)) with (length t - length s + k) in H by lia.
    unfold r. rewrite <- (firstn_skipn (length t - length s) t) in H at 2.
    rewrite app_nth2 in H by (rewrite firstn_length; lia).
    rewrite firstn_length in H.
    replace (length t - length s + k - Nat.min (length t - length s) (length t)) with k in H by lia.
    auto. }
  clear H. revert Lr G. generalize r. clear. induction s as [|d s IH]; intros [|x r] Lr G;
    simpl in Lr; try discriminate; constructor.
  - apply (G 0). simpl; lia.
  - apply IH; [lia|]. intros k Hk. apply (G (S k)). simpl; lia.
Qed.

Lemma bcast_views : forall a b r, bcast a b r ->
  shape_rel (VBroadcast r) a r /\ shape_rel (VBroadcast r) b r.
Proof.
  intros a b r [L H]. split; (split; [reflexivity|]); apply rev_rel_suffix; try lia;
    intros k Hk; specialize (H k); unfold bcast_dim in H; lia.
Qed.

Lemma index_rel_bidx : forall s t i j, length s <= length t -> length i = length t ->
  index_rel (VBroadcast t) s t i j -> j = bidx s i.
Proof.
  intros s t i j Hl Hi [Hj H]. unfold bidx. rewrite Hi. apply list_ext. intro k.
  destruct (Nat.lt_ge_cases k (length s)) as [Hk|Hk].
  - rewrite H by auto.
    assert (Ei : k + (length t - length s) < length i) by lia.
    destruct (nth_error i (k + (length t - length s))) as [x|] eqn:Ex;
      [|apply nth_error_None in Ex; lia].
    assert (Ec : nth_error (combine s (skipn (length t - length s) i)) k = Some (nth k s 0, x)).
    { assert (E2 : nth_error (skipn (length t - length s) i) k = Some x).
      { rewrite <- Ex. clear. revert i. induction (length t - length s) as [|m IH]; intro i.
        - simpl. now rewrite Nat.add_0_r.
        - replace (k + S m) with (S (k + m)) by lia. destruct i; simpl; auto. now destruct k. }
      assert (E1 : nth_error s k = Some (nth k s 0)) by now apply nth_error_nth'.
      revert E1 E2. generalize (skipn (length t - length s) i) (nth k s 0). clear.
      revert k. induction s as [|d s IH]; intros [|k] [|y l] n; simpl; try discriminate.
      - congruence.
      - intros. now apply IH. }
    erewrite map_nth_error by exact Ec. simpl. destruct (nth k s 0 =? 1); auto.
  - rewrite (proj2 (nth_error_None j k)) by lia. symmetry. apply nth_error_None.
    rewrite map_length, combine_length. lia.
Qed.

Lemma bcast_all_pos : forall a b r, bcast a b r -> all_pos a -> all_pos b -> all_pos r.
Proof.
  intros a b r [L H] Pa Pb. apply Forall_forall. intros x Hx. apply in_rev in Hx.
  apply (In_nth _ _ 1) in Hx. destruct Hx as [k [Hk E]]. rewrite <- E.
  specialize (H k). pose proof (nth_pos _ k (all_pos_rev _ Pa)).
  pose proof (nth_pos _ k (all_pos_rev _ Pb)). unfold bcast_dim in H. lia.
Qed.

(** [t_broadcast] to a shape the operand broadcasts to *)
Lemma t_broadcast_spec : forall A (z : A) t r, good t -> shape_rel (VBroadcast r) (tshape t) r ->
  exists t', t_broadcast z t r = Ok t' /\ good t' /\ tshape t' = r /\
    forall i, valid r i -> valid (tshape t) (bidx (tshape t) i) /\ elem t' i = elem t (bidx (tshape t) i).
Proof.
  intros A z t r Hg Hs.
  destruct (t_view_total A z (VBroadcast r) t r Hg I Hs) as [t' [Et Hsh]].
  exists t'. split; auto. destruct (t_view_spec A z (VBroadcast r) t t' Hg I Et) as [Hg' [_ HI]].
  split; auto. split; auto. intros i Hi. rewrite Hsh in HI. destruct (HI i Hi) as [j [Hx [Hj He]]].
  assert (j = bidx (tshape t) i).
  { apply (index_rel_bidx _ r); auto; [|now apply valid_length].
    destruct Hs as [_ [ad [rest [E F]]]]. apply Forall2_len in F.
    rewrite E, app_length. lia. }
  subst j. auto.
Qed.

Lemma t_broadcast_Ok : forall A (z : A) t r t', good t -> t_broadcast z t r = Ok t' ->
  shape_rel (VBroadcast r) (tshape t) r.
Proof.
  intros A z t r t' Hg H. destruct (t_view_spec A z (VBroadcast r) t t' Hg I H) as [_ [Hs _]].
  destruct Hs as [E Hs]. split; auto.
Qed.

Lemma bt2_tensors : forall A C (za : A) (zc : C) a b r, good a -> good b ->
  all_pos (tshape a) -> all_pos (tshape b) -> bcast (tshape a) (tshape b) r ->
  exists a' b', broadcast_tensors2 za zc a b = Ok (a', b') /\
    good a' /\ good b' /\ tshape a' = r /\ tshape b' = r /\
    (forall i, valid r i -> elem a' i = elem a (bidx (tshape a) i)) /\
    (forall i, valid r i -> elem b' i = elem b (bidx (tshape b) i)) /\
    t_broadcast za a r = Ok a' /\ t_broadcast zc b r = Ok b'.
Proof.
  intros A C za zc a b r Ga Gb Pa Pb HB. unfold broadcast_tensors2.
  fold (tshape a). fold (tshape b). rewrite (proj2 (bt2_dims_spec _ _ r Pa Pb) HB).
  destruct (bcast_views _ _ _ HB) as [Va Vb].
  destruct (t_broadcast_spec A za a r Ga Va) as [a' [Ea [Ga' [Sa He]]]].
  destruct (t_broadcast_spec C zc b r Gb Vb) as [b' [Eb [Gb' [Sb He']]]].
  rewrite Ea, Eb. cbn [bind]. exists a', b'. split; [reflexivity|].
  split; [auto|]. split; [auto|]. split; [auto|]. split; [auto|].
  split; [intros i Hi; now apply He|]. split; [intros i Hi; now apply He'|]. auto.
Qed.

Lemma bt2_tensors_Ok : forall A C (za : A) (zc : C) a b a' b',
  all_pos (tshape a) -> all_pos (tshape b) ->
  broadcast_tensors2 za zc a b = Ok (a', b') -> exists r, bcast (tshape a) (tshape b) r.
Proof.
  intros A C za zc a b a' b' Pa Pb H. unfold broadcast_tensors2 in H.
  destruct (bt2_dims _ _) as [r|] eqn:E; [|discriminate].
  exists r. now apply bt2_dims_spec.
Qed.

Lemma bcast_pos_of : forall a b r, bcast a b r -> all_pos r -> all_pos a /\ all_pos b.
Proof.
  intros a b r [L H] Pr.
  assert (G : forall s, length s <= length r ->
     (forall k, nth k (rev s) 1 = 1 \/ nth k (rev s) 1 = nth k (rev r) 1) -> all_pos s).
  { intros s Hl HH. apply Forall_forall. intros x Hx. apply in_rev in Hx.
    apply (In_nth _ _ 1) in Hx. destruct Hx as [k [Hk E]]. rewrite <- E.
    destruct (HH k) as [->| ->]; [lia|]. apply nth_pos, all_pos_rev; auto. }
  split; apply G; try lia; intro k; specialize (H k); unfold bcast_dim in H; lia.
Qed.

(* ---------- element-wise operations ---------- *)

Lemma t_unary_spec : forall A B e (z : B) (f : A -> B) t, env_ok e -> good t ->
  offset_read (tlay t) ->
  exists t', t_unary e z f t = Ok t' /\ good t' /\ tshape t' = tshape t /\
    tlay t' = from_shape (tshape t) /\ length (tstore t') = nelem (tshape t) /\
    forall i, valid (tshape t) i -> elem t' i = option_map f (elem t i).
Proof.
  intros A B e z f t He Hg Ho. pose proof Hg as [Hw Hb]. unfold t_unary.
  destruct (tstore t) as [|d rest] eqn:Est.
  - (* empty storage: no index at all *)
    assert (Hn : nelem (tshape t) = 0).
    { destruct (nelem (tshape t)) as [|n] eqn:E; auto. exfalso.
      assert (HV : valid (tshape t) (unravel (tshape t) 0)) by (apply unravel_valid; lia).
      specialize (Hb _ HV). simpl in Hb. lia. }
    assert (HU : unary_kernel e f [] (repeat z (layout_size (tlay t))) (unary_metadata (tlay t) (tlay t)) = Some []).
    { unfold unary_kernel. destruct (unary_md (tlay t) Hw) as [E0 [E1 [E2 [E3 _]]]].
      rewrite E0. cbn [obind]. rewrite E1. cbn [obind]. rewrite E2. cbn [obind]. rewrite E3.
      cbn [obind]. rewrite (off_read _ Hw Ho). cbn [obind].
      unfold layout_size. change shape_size with nelem. fold (tshape t). rewrite Hn.
      destruct (c_is_contiguous _ _).
      - now apply par_for_0.
      - reflexivity. }
    rewrite HU. cbn [ub bind].
    eexists. split; [reflexivity|]. split; [apply from_shape_good; simpl; auto|].
    split; [reflexivity|]. split; [reflexivity|]. split; [simpl; auto|].
    intros i Hi. pose proof (ravel_lt _ _ Hi). lia.
  - rewrite <- Est in *. rewrite (unary_kernel_spec A B d e); auto; [|apply repeat_length].
    cbn [ub bind]. eexists. split; [reflexivity|].
    split; [apply from_shape_good; now rewrite map_length, seq_length|].
    split; [reflexivity|]. split; [reflexivity|].
    split; [cbn [tstore]; now rewrite map_length, seq_length|].
    intros i Hi. rewrite elem_fresh by auto. change (lshape (tlay t)) with (tshape t).
    rewrite unravel_ravel by auto. rewrite (elem_rd A d t i); auto.
Qed.

Lemma binary_store : forall A C B e (z : B) (f : A -> C -> B) a b s,
  env_ok e -> good a -> good b -> tshape a = s -> tshape b = s -> 0 < nelem s ->
  exists st, call_ops_binary e z f (tstore a) (tstore b) (tlay a) (tlay b) = Ok st /\
    length st = nelem s /\
    forall k, k < nelem s -> exists x y,
      elem a (unravel s k) = Some x /\ elem b (unravel s k) = Some y /\
      nth_error st k = Some (f x y).
Proof.
  intros A C B e z f a b s He [Hwa Hba] [Hwb Hbb] Hsa Hsb Hn.
  destruct (tstore a) as [|da ra] eqn:Ea.
  { exfalso. specialize (Hba (unravel s 0)). unfold tshape in *. rewrite Hsa in Hba.
    specialize (Hba (unravel_valid s 0 Hn)). simpl in Hba. lia. }
  destruct (tstore b) as [|db rb] eqn:Eb.
  { exfalso. specialize (Hbb (unravel s 0)). unfold tshape in *. rewrite Hsb in Hbb.
    specialize (Hbb (unravel_valid s 0 Hn)). simpl in Hbb. lia. }
  rewrite <- Ea, <- Eb in *. unfold call_ops_binary.
  rewrite (binary_kernel_spec A C B da db e f (tstore a) (tstore b) _ (tlay a) (tlay b) s);
    auto; [|change shape_size with nelem; unfold tshape in Hsa; rewrite Hsa; apply repeat_length].
  cbn [ub]. eexists. split; [reflexivity|]. split; [now rewrite map_length, seq_length|].
  intros k Hk.
  exists (rd da (tstore a) (addr (tlay a) (unravel s k))), (rd db (tstore b) (addr (tlay b) (unravel s k))).
  pose proof (unravel_valid s k Hk) as HV.
  split; [apply elem_rd; [split; auto|congruence]|].
  split; [apply elem_rd; [split; auto|congruence]|].
  now apply nth_error_map_seq.
Qed.

Lemma bidx_self : forall s i, valid s i -> bidx s i = i.
Proof.
  intros s i H. unfold bidx. rewrite (valid_length _ _ H), Nat.sub_diag. simpl skipn.
  revert i H. induction s as [|d s IH]; intros [|x i] H; simpl in *; try tauto.
  destruct H as [Hx H]. f_equal; [destruct (d =? 1) eqn:E; lia|]. now apply IH.
Qed.

Lemma t_broadcast_addr : forall A (z : A) t c r t', good t -> t_contiguous z t = Ok c ->
  t_broadcast z t r = Ok t' ->
  tshape t' = r /\ tstore t' = tstore c /\
  forall i, valid r i -> addr (tlay t') i = addr (tlay c) (bidx (tshape t) i).
Proof.
  intros A z t c r t' Hg Hc H.
  pose proof (t_broadcast_Ok _ _ _ _ _ Hg H) as Hs.
  destruct (t_contiguous_spec A z t Hg) as [c' [Hc' [Hgc [Hsh _]]]].
  rewrite Hc in Hc'. inversion Hc'; subst c'. clear Hc'.
  unfold t_broadcast in H. rewrite (t_view_unfold A z _ t c Hg Hc) in H.
  destruct (apply_view (tlay c) (VBroadcast r)) as [l| |] eqn:Ev; try discriminate.
  cbn [bind] in H. inversion H; subst t'. clear H.
  assert (HV : views (VBroadcast r) (tlay c) l) by (apply apply_view_views; simpl; auto; apply Hgc).
  destruct HV as [_ [[El _] HI]]. change (tshape (mkT (tstore c) l)) with (lshape l).
  split; auto. split; auto. intros i Hi. cbn [tlay]. rewrite El in HI.
  destruct (HI i Hi) as [j [Hx [_ Ha]]]. rewrite Ha. f_equal.
  change (lshape (tlay c)) with (tshape c) in Hx. rewrite Hsh in Hx.
  apply (index_rel_bidx _ r); auto; [|now apply valid_length].
  destruct Hs as [_ [ad [rest [E F]]]]. apply Forall2_len in F. rewrite E, app_length. lia.
Qed.
