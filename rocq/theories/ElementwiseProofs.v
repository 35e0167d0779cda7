(** Lemmas in the exact form of the theorems of PropElementwise.v. *)
From Coq Require Import List Arith ZArith Lia Bool.
From Coq Require Import ZifyBool ZifyNat.
From Verif Require Import Base IndexSpec LayoutModel ViewSpec LayoutProofs LayoutProofs2 BcastProofs.
From Verif Require Import KernelModel TensorModel TensorSpec KernelProofs TensorProofs.
Import ListNotations.

(* ---------- C08 ---------- *)

Lemma bcast_tensors2_thm : forall A C (za : A) (zc : C) a b, good a -> good b ->
  all_pos (tshape a) -> all_pos (tshape b) ->
  ((exists p, broadcast_tensors2 za zc a b = Ok p) <->
   (exists r, bcast (tshape a) (tshape b) r)) /\
  forall a' b', broadcast_tensors2 za zc a b = Ok (a', b') ->
    bcast (tshape a) (tshape b) (tshape a') /\ tshape b' = tshape a' /\ good a' /\ good b' /\
    forall i, valid (tshape a') i ->
      elem a' i = elem a (bidx (tshape a) i) /\ elem b' i = elem b (bidx (tshape b) i).
Proof.
  intros A C za zc a b Ga Gb Pa Pb. split.
  - split.
    + intros [[a' b'] H]. eapply bt2_tensors_Ok; eauto.
    + intros [r Hr]. destruct (bt2_tensors A C za zc a b r) as [a' [b' [E _]]]; auto.
      eexists; eauto.
  - intros a' b' H. destruct (bt2_tensors_Ok A C za zc a b a' b' Pa Pb H) as [r Hr].
    destruct (bt2_tensors A C za zc a b r) as [a2 [b2 [E [G1 [G2 [S1 [S2 [E1 [E2 _]]]]]]]]]; auto.
    rewrite H in E. inversion E; subst a2 b2. rewrite S1, S2.
    split; [auto|]. split; [auto|]. split; [auto|]. split; [auto|].
    intros i Hi. split; auto.
Qed.

Lemma bcast_tensors3_thm : forall A C D (za : A) (zc : C) (zd : D) a b c,
  good a -> good b -> good c ->
  all_pos (tshape a) -> all_pos (tshape b) -> all_pos (tshape c) ->
  forall r, (exists ab, bcast (tshape a) (tshape b) ab /\ bcast ab (tshape c) r) <->
  exists a' b' c', broadcast_tensors3 za zc zd a b c = Ok (a', b', c') /\
    tshape a' = r /\ tshape b' = r /\ tshape c' = r /\
    forall i, valid r i ->
      elem a' i = elem a (bidx (tshape a) i) /\ elem b' i = elem b (bidx (tshape b) i) /\
      elem c' i = elem c (bidx (tshape c) i).
Proof.
  intros A C D za zc zd a b c Ga Gb Gc Pa Pb Pc r.
  assert (FWD : forall ab r, bcast (tshape a) (tshape b) ab -> bcast ab (tshape c) r ->
    exists a' b' c', broadcast_tensors3 za zc zd a b c = Ok (a', b', c') /\
    tshape a' = r /\ tshape b' = r /\ tshape c' = r /\
    forall i, valid r i ->
      elem a' i = elem a (bidx (tshape a) i) /\ elem b' i = elem b (bidx (tshape b) i) /\
      elem c' i = elem c (bidx (tshape c) i)).
  { clear r. intros ab r H1 H2. unfold broadcast_tensors3.
    destruct (bt2_tensors A C za zc a b ab) as [a1 [b1 [E1 [G1 [_ [S1 _]]]]]]; auto.
    rewrite E1. cbn [bind fst].
    assert (Pab : all_pos ab) by (eapply bcast_all_pos; eauto).
    destruct (bt2_tensors A D za zd a1 c r) as [a2 [c2 [E2 [_ [_ [S2 _]]]]]]; auto;
      try (rewrite S1; auto).
    rewrite E2. cbn [bind fst]. fold (tshape a2). rewrite S2.
    assert (Va : shape_rel (VBroadcast r) (tshape a) r /\ shape_rel (VBroadcast r) (tshape b) r).
    { assert (Hk : forall x y, bcast x y ab \/ bcast y x ab -> shape_rel (VBroadcast r) x r).
      { intros x y Hxy. split; [reflexivity|]. destruct H2 as [L2 H2].
        assert (HX : length x <= length ab /\
                     forall k, bcast_dim (nth k (rev x) 1) (nth k (rev y) 1) (nth k (rev ab) 1)).
        { destruct Hxy as [[L HH]|[L HH]].
          - split; [lia|auto].
          - split; [lia|]. intro k. specialize (HH k). unfold bcast_dim in *. lia. }
        destruct HX as [LX HX].
        apply rev_rel_suffix; [lia|]. intros k Hk. specialize (HX k). specialize (H2 k).
        unfold bcast_dim in *. lia. }
      split; [apply (Hk _ (tshape b)); auto|apply (Hk _ (tshape a)); auto]. }
    destruct Va as [Va Vb]. destruct (bcast_views _ _ _ H2) as [_ Vc].
    destruct (t_broadcast_spec A za a r Ga Va) as [a' [-> [_ [Sa Ea]]]].
    destruct (t_broadcast_spec C zc b r Gb Vb) as [b' [-> [_ [Sb Eb]]]].
    destruct (t_broadcast_spec D zd c r Gc Vc) as [c' [-> [_ [Sc Ec]]]].
    cbn [bind]. exists a', b', c'. split; [reflexivity|]. split; [auto|]. split; [auto|].
    split; [auto|]. intros i Hi. split; [now apply Ea|]. split; [now apply Eb|now apply Ec]. }
  split.
  - intros [ab [H1 H2]]. eauto.
  - intros [a' [b' [c' [E [Sa _]]]]]. unfold broadcast_tensors3 in E.
    destruct (broadcast_tensors2 za zc a b) as [[a1 b1]| |] eqn:E1; try discriminate.
    cbn [bind fst] in E.
    destruct (proj2 (bcast_tensors2_thm A C za zc a b Ga Gb Pa Pb) a1 b1 E1) as [B1 [_ [G1 _]]].
    assert (P1 : all_pos (tshape a1)) by (eapply bcast_all_pos; eauto).
    destruct (broadcast_tensors2 za zd a1 c) as [[a2 c2]| |] eqn:E2; try discriminate.
    destruct (proj2 (bcast_tensors2_thm A D za zd a1 c G1 Gc P1 Pc) a2 c2 E2) as [B2 _].
    exists (tshape a1). split; auto.
    destruct (FWD _ _ B1 B2) as [a3 [b3 [c3 [E3 [S3 _]]]]].
    unfold broadcast_tensors3 in E3. rewrite E1 in E3. cbn [bind fst] in E3.
    rewrite E2 in E3. cbn [bind] in E, E3. rewrite E in E3. inversion E3; subst. now rewrite S3.
Qed.

Lemma bcast_laws : forall a b,
  bcast a a a /\
  (forall r, bcast a b r <-> bcast b a r) /\
  (forall r r', bcast a b r -> bcast a b r' -> r = r') /\
  (forall c ab bc abc, bcast a b ab -> bcast b c bc -> (bcast ab c abc <-> bcast a bc abc)).
Proof.
  intros a b. split; [apply bcast_idem|]. split; [split; apply bcast_sym|].
  split; [intros; eapply bcast_fun; eauto|]. intros; eapply bcast_assoc; eauto.
Qed.

Lemma bcast_zero_refuted :
  ~ (forall (a b : tensor nat) r, good a -> good b -> bcast (tshape a) (tshape b) r ->
     exists p, broadcast_tensors2 0 0 a b = Ok p).
Proof.
  intro H. destruct (H (mkT [7] (from_shape [1])) (mkT [] (from_shape [0])) [0]) as [p E].
  - now apply from_shape_good.
  - now apply from_shape_good.
  - split; [reflexivity|]. intros [|[|k]]; unfold bcast_dim; simpl; auto.
  - discriminate E.
Qed.

(* ---------- C17 ---------- *)

Lemma binary_kernel_thm : forall A C B e (f : A -> C -> B) lhs rhs out la lb s,
  env_ok e -> wf_layout la -> wf_layout lb -> lshape la = s -> lshape lb = s ->
  in_bounds (length lhs) la -> in_bounds (length rhs) lb -> length out = nelem s ->
  exists out', binary_kernel e f lhs rhs out (binary_metadata la lb la) = Some out' /\
    length out' = nelem s /\
    forall i, valid s i -> exists x y,
      nth_error lhs (addr la i) = Some x /\ nth_error rhs (addr lb i) = Some y /\
      nth_error out' (ravel s i) = Some (f x y).
Proof.
  intros A C B e f lhs rhs out la lb s He Hwa Hwb Hsa Hsb Hba Hbb Ho.
  destruct (nelem s) as [|n] eqn:En.
  - destruct out; [|discriminate]. exists [].
    split; [|split; [reflexivity|intros i Hi; pose proof (ravel_lt _ _ Hi); lia]].
    unfold binary_kernel. 
    destruct (nth_error (binary_metadata la lb la) 0) as [n0|] eqn:E0; [|discriminate].
    assert (n0 = 0).
    { cbn in E0. unfold layout_size in E0. change shape_size with nelem in E0.
      rewrite Hsa, En in E0. congruence. }
    subst n0. cbn [obind].
    (* the metadata decodes *)
    assert (La : length (lstrides la) = length s) by (rewrite <- Hsa; auto).
    assert (Lb : length (lstrides lb) = length s) by (rewrite <- Hsb; auto).
    set (m := binary_metadata la lb la).
    assert (Lm : length m = 2 + 4 * length s + 2).
    { unfold m, binary_metadata. rewrite !app_length, La, Lb, Hsa, Hsb. simpl. lia. }
    assert (E1 : nth_error m 1 = Some (length s)) by (cbn; now rewrite Hsa).
    rewrite E1. cbn [obind].
    assert (MS : forall off, off + length s <= length m -> exists x, md_slice m off (length s) = Some x).
    { intros off Hoff. unfold md_slice. replace (off + length s <=? length m) with true by lia. eauto. }
    destruct (MS 2 ltac:(lia)) as [x1 ->]. destruct (MS (2 + length s) ltac:(lia)) as [x2 ->].
    destruct (MS (2 + 2 * length s) ltac:(lia)) as [x3 ->].
    destruct (MS (2 + 3 * length s) ltac:(lia)) as [x4 ->]. cbn [obind].
    destruct (nth_error m (2 + 4 * length s)) eqn:E5; [|apply nth_error_None in E5; lia].
    destruct (nth_error m (2 + 4 * length s + 1)) eqn:E6; [|apply nth_error_None in E6; lia].
    cbn [obind]. destruct (c_is_contiguous x1 x3); destruct (c_is_contiguous x2 x4); cbn [andb];
      try reflexivity. now apply par_for_0.
  - rewrite <- En in *.
    assert (Hn : 0 < nelem s) by lia.
    destruct (nth_error lhs (addr la (unravel s 0))) as [d|] eqn:Ed.
    2:{ apply nth_error_None in Ed. specialize (Hba (unravel s 0)). rewrite Hsa in Hba.
        specialize (Hba (unravel_valid s 0 Hn)). lia. }
    destruct (nth_error rhs (addr lb (unravel s 0))) as [d'|] eqn:Ed'.
    2:{ apply nth_error_None in Ed'. specialize (Hbb (unravel s 0)). rewrite Hsb in Hbb.
        specialize (Hbb (unravel_valid s 0 Hn)). lia. }
    rewrite (binary_kernel_spec A C B d d' e f lhs rhs out la lb s); auto.
    eexists. split; [reflexivity|]. split; [now rewrite map_length, seq_length|].
    intros i Hi. exists (rd d lhs (addr la i)), (rd d' rhs (addr lb i)).
    split; [apply nth_error_rd, Hba; congruence|].
    split; [apply nth_error_rd, Hbb; congruence|].
    rewrite nth_error_map_seq by now apply ravel_lt. now rewrite unravel_ravel.
Qed.

(* ---------- C18 ---------- *)

(** the storage always holds the right values in row-major order *)
Lemma t_binary_storage : forall A C B e (za : A) (zc : C) (z : B) f a b r,
  env_ok e -> good a -> good b -> all_pos (tshape a) -> all_pos (tshape b) ->
  bcast (tshape a) (tshape b) r ->
  exists t a', t_binary e za zc z f a b = Ok t /\ tshape t = r /\
    t_broadcast za a r = Ok a' /\ tlay t = tlay a' /\ length (tstore t) = nelem r /\
    forall i, valid r i -> exists x y,
      elem a (bidx (tshape a) i) = Some x /\ elem b (bidx (tshape b) i) = Some y /\
      nth_error (tstore t) (ravel r i) = Some (f x y).
Proof.
  intros A C B e za zc z f a b r He Ga Gb Pa Pb HB.
  destruct (bt2_tensors A C za zc a b r) as [a' [b' [E [Ga' [Gb' [Sa [Sb [Ea [Eb [Ta Tb]]]]]]]]]]; auto.
  assert (Hn : 0 < nelem r) by (apply all_pos_nelem; eapply bcast_all_pos; eauto).
  destruct (binary_store A C B e z f a' b' r) as [st [Es [Ls Hs]]]; auto.
  unfold t_binary. rewrite E. cbn [bind]. rewrite Es. cbn [bind].
  eexists. exists a'. split; [reflexivity|]. split; [exact Sa|]. split; [auto|].
  split; [reflexivity|]. split; [exact Ls|].
  intros i Hi. destruct (Hs (ravel r i) (ravel_lt _ _ Hi)) as [x [y [Hx [Hy Hz]]]].
  rewrite unravel_ravel in * by auto. exists x, y. rewrite <- Ea, <- Eb by auto. auto.
Qed.

Lemma t_binary_partial : forall A C B e (za : A) (zc : C) (z : B) f a b,
  env_ok e -> good a -> good b -> all_pos (tshape a) -> all_pos (tshape b) ->
  bcast (tshape a) (tshape b) (tshape a) ->
  (loffset (tlay a) = 0 \/ is_contiguous (tlay a) = false) ->
  exists t, t_binary e za zc z f a b = Ok t /\ tshape t = tshape a /\
    forall i, valid (tshape a) i -> exists x y,
      elem a i = Some x /\ elem b (bidx (tshape b) i) = Some y /\ elem t i = Some (f x y).
Proof.
  intros A C B e za zc z f a b He Ga Gb Pa Pb HB Ho.
  destruct (t_binary_storage A C B e za zc z f a b (tshape a)) as [t [a' [E [S [Ta [L [_ Hv]]]]]]]; auto.
  exists t. split; auto. split; auto. intros i Hi.
  destruct (Hv i Hi) as [x [y [Hx [Hy Hz]]]]. rewrite bidx_self in Hx by auto.
  exists x, y. split; auto. split; auto. unfold elem. rewrite L.
  destruct (t_contiguous_spec A za a Ga) as [c [Ec [Gc [Sc [Cc [_ [Hsame Hcopy]]]]]]].
  destruct (t_broadcast_addr A za a c (tshape a) a' Ga Ec Ta) as [_ [_ Had]].
  rewrite Had by auto. rewrite bidx_self by auto.
  assert (Hoff : loffset (tlay c) = 0).
  { destruct (is_contiguous (tlay a)) eqn:Ca.
    - rewrite (Hsame eq_refl). destruct Ho as [Ho|Ho]; [auto|discriminate].
    - destruct (Hcopy eq_refl) as [-> _]. reflexivity. }
  rewrite addr_contiguous; auto; [|apply Gc|].
  - rewrite Hoff. change (lshape (tlay c)) with (tshape c). now rewrite Sc.
  - change (lshape (tlay c)) with (tshape c). rewrite Sc. now apply valid_length.
Qed.

Definition e1 : env := seq_env 1 1.
Lemma e1_ok : env_ok e1.
Proof. apply seq_env_ok. lia. Qed.

Lemma t_binary_refuted :
  ~ (forall (a b : tensor nat) r, good a -> good b ->
       all_pos (tshape a) -> all_pos (tshape b) -> bcast (tshape a) (tshape b) r ->
     exists t, t_binary e1 0 0 0 Nat.add a b = Ok t /\ tshape t = r /\
       forall i, valid r i -> exists x y,
         elem a (bidx (tshape a) i) = Some x /\ elem b (bidx (tshape b) i) = Some y /\
         elem t i = Some (x + y)).
Proof.
  intro H.
  destruct (H (mkT [10] (from_shape [1])) (mkT [1;2] (from_shape [2])) [2]) as [t [E [_ He]]].
  - now apply from_shape_good.
  - now apply from_shape_good.
  - repeat constructor.
  - repeat constructor.
  - split; [reflexivity|]. intros [|[|k]]; unfold bcast_dim; simpl; auto.
  - vm_compute in E. inversion E; subst t. destruct (He [1]) as [x [y [Hx [Hy Hz]]]].
    + simpl; lia.
    + vm_compute in Hx, Hy. inversion Hx; inversion Hy; subst. discriminate Hz.
Qed.

(** an operand with an offset: the result reads outside its own storage *)
Lemma t_binary_offset_refuted :
  exists (a b t : tensor nat), good a /\ good b /\ tshape a = [2] /\ tshape b = [2] /\
    t_binary e1 0 0 0 Nat.add a b = Ok t /\ tshape t = [2] /\ elem t [1] = None.
Proof.
  exists (mkT [1;2;3] (mkLayout [2] [1] 1)), (mkT [5;6] (from_shape [2])).
  eexists. split.
  - split; [reflexivity|]. intros [|x [|y i]]; simpl; try tauto. unfold addr; simpl. lia.
  - split; [now apply from_shape_good|]. split; [reflexivity|]. split; [reflexivity|].
    split; [vm_compute; reflexivity|]. split; reflexivity.
Qed.

(* ---------- C19 ---------- *)

Lemma chunking_thm : forall n k, 0 < k ->
  (forall t, t < k -> chunk_start n k t <= chunk_end n k t <= n) /\
  (forall t, S t < k -> chunk_end n k t = chunk_start n k (S t)) /\
  (forall t t' i, t < k -> t' < k ->
     chunk_start n k t <= i < chunk_end n k t ->
     chunk_start n k t' <= i < chunk_end n k t' -> t = t') /\
  (forall i, i < n -> exists t, t < k /\ chunk_start n k t <= i < chunk_end n k t).
Proof.
  intros n k Hk. split; [|split; [|split]].
  - intros t Ht. split; [apply chunk_start_le|]. rewrite chunk_end_next.
    rewrite <- (chunk_start_last n k Hk) at 2. apply chunk_start_mono. lia.
  - intros t _. apply chunk_end_next.
  - intros t t' i Ht Ht' H1 H2. rewrite chunk_end_next in H1, H2.
    destruct (Nat.lt_trichotomy t t') as [H|[H|H]]; auto.
    + pose proof (chunk_start_mono n k (S t) t' ltac:(lia)). lia.
    + pose proof (chunk_start_mono n k (S t') t ltac:(lia)). lia.
  - intros i Hi. now apply chunk_cover.
Qed.

Lemma par_equals_seq : forall B (h : nat -> B) g sch n k out,
  0 < k -> length out = n -> (forall i, i < n -> g i = Some (h i)) ->
  (joined sch (chunks n k) -> run_sched g sch (chunks n k) out = Some (map h (seq 0 n))) /\
  (joined sch (bw_chunks n k) -> run_sched g sch (bw_chunks n k) out = Some (map h (seq 0 n))) /\
  seq_for n g out = Some (map h (seq 0 n)).
Proof.
  intros. split; [|split].
  - intro. apply threads_run; auto. now apply chunks_cover.
  - intro. apply threads_run; auto. now apply bw_chunks_cover.
  - now apply seq_for_total.
Qed.

Lemma bw_chunking_thm : forall n k t t' x y x' y' i, 0 < k ->
  nth_error (bw_chunks n k) t = Some (x, y) -> nth_error (bw_chunks n k) t' = Some (x', y') ->
  y <= n /\ (x <= i < y -> x' <= i < y' -> t = t').
Proof.
  intros n k t t' x y x' y' i Hk H H'. split; [now apply (bw_chunks_cover n k Hk) in H|].
  rewrite nth_error_bw_chunks in H, H'.
  pose proof (Nat.mod_upper_bound n k ltac:(lia)) as HU. revert HU H H'.
  generalize (n mod k) (n / k). intros r q HU H H' H1 H2.
  destruct (t <? k) eqn:E1; [|discriminate]. destruct (t' <? k) eqn:E2; [|discriminate].
  inversion H; inversion H'; subst. clear H H'.
  destruct (Nat.lt_trichotomy t t') as [L|[L|L]]; auto; exfalso.
  - replace (t =? k - 1) with false in H1 by lia. nia.
  - replace (t' =? k - 1) with false in H2 by lia. nia.
Qed.

(* ---------- C20 ---------- *)

Lemma t_unary_partial : forall A B e (z : B) (f : A -> B) t, env_ok e -> good t ->
  (tshape t <> [] \/ loffset (tlay t) = 0) ->
  exists t', t_unary e z f t = Ok t' /\ tshape t' = tshape t /\
    forall i, valid (tshape t) i -> elem t' i = option_map f (elem t i) /\ elem t i <> None.
Proof.
  intros A B e z f t He Hg Ho.
  destruct (t_unary_spec A B e z f t He Hg Ho) as [t' [E [_ [S [_ [_ H]]]]]].
  exists t'. split; auto. split; auto. intros i Hi. split; [now apply H|].
  destruct Hg as [_ Hb]. unfold elem. apply nth_error_Some. now apply Hb.
Qed.

Lemma t_unary_refuted :
  ~ (forall (t : tensor nat), good t ->
     exists t', t_unary e1 0 S t = Ok t' /\ tshape t' = tshape t /\
       forall i, valid (tshape t) i -> elem t' i = option_map S (elem t i)).
Proof.
  intro H. destruct (H (mkT [10;20] (mkLayout [] [] 1))) as [t' [E [_ He]]].
  - split; [reflexivity|]. intros [|x i]; simpl; try tauto. intros _. unfold addr; simpl. lia.
  - vm_compute in E. inversion E; subst t'. specialize (He [] I). vm_compute in He. discriminate.
Qed.

(** how such a tensor arises: slice one element, squeeze it *)
Lemma rank0_reachable :
  exists t1 t2 : tensor nat,
    t_view 0 (VSlice 0 1 (Some 2%Z) 1) (mkT [10;20] (from_shape [2])) = Ok t1 /\
    t_view 0 (VSqueeze [0%Z]) t1 = Ok t2 /\ tlay t2 = mkLayout [] [] 1 /\
    elem t2 [] = Some 20 /\
    exists t3, t_unary e1 0 S t2 = Ok t3 /\ elem t3 [] = Some 11.
Proof.
  do 2 eexists. split; [vm_compute; reflexivity|]. split; [vm_compute; reflexivity|].
  split; [reflexivity|]. split; [reflexivity|]. eexists. split; [vm_compute; reflexivity|reflexivity].
Qed.

(** bitwise operations with one tensor keep the operand's strides *)
Lemma t_bitwise_unary_refuted :
  ~ (forall (t : tensor nat), good t -> loffset (tlay t) = 0 ->
     exists t', t_bitwise_unary e1 0 S t = Ok t' /\ tshape t' = tshape t /\
       forall i, valid (tshape t) i -> elem t' i = option_map S (elem t i)).
Proof.
  intro H. destruct (H (mkT [0;1;2;3;4;5] (mkLayout [3;2] [1;3] 0))) as [t' [E [_ He]]]; auto.
  - split; [reflexivity|]. intros [|x [|y [|w i]]]; simpl; try tauto. unfold addr; simpl. lia.
  - vm_compute in E. inversion E; subst t'. specialize (He [1;0]). vm_compute in He.
    assert (Some 4 = Some 2) by (apply He; lia). discriminate.
Qed.

Lemma t_bitwise_unary_partial : forall A B e (z : B) (f : A -> B) t, env_ok e -> good t ->
  is_contiguous (tlay t) = true -> loffset (tlay t) = 0 ->
  exists t', t_bitwise_unary e z f t = Ok t' /\ tshape t' = tshape t /\
    forall i, valid (tshape t) i -> elem t' i = option_map f (elem t i).
Proof.
  intros A B e z f t He Hg Hc Ho.
  destruct (t_unary_spec A B e z f t He Hg (or_intror Ho)) as [t' [E [_ [S [L [_ H]]]]]].
  unfold t_bitwise_unary, t_unary in *.
  destruct (ub _) as [st| |]; try discriminate. cbn [bind] in *.
  inversion E; subst t'. eexists. split; [reflexivity|]. split; [reflexivity|].
  intros i Hi. rewrite <- H by auto. unfold elem. cbn [tstore tlay]. f_equal.
  pose proof (valid_length _ _ Hi) as Hl.
  rewrite addr_contiguous, Ho by (auto; apply Hg).
  now rewrite addr_from_shape.
Qed.
