From Coq Require Import List Arith ZArith Bool Lia.
From Verif Require Import Base IndexSpec LayoutModel ViewSpec KernelModel KernelProofs TensorModel TensorSpec
  TensorProofs ScanModel EinsumModel EinsumProofs2 CountModel CountProofs CountProofs2 ConvModel ConvSpec.
Import ListNotations.

(** a tensor whose elements are in row-major order from its offset *)
Definition dense {A} (t : tensor A) : Prop :=
  forall i, valid (tshape t) i -> addr (tlay t) i = loffset (tlay t) + ravel (tshape t) i.

(** ** Positions *)
Lemma meets_length : forall s p d o k i, meets s p d o k i = true -> length k = length o /\ length i = length o.
Proof.
  induction o as [|o1 o IH]; intros [|k1 k] [|i1 i] H; simpl in *; try discriminate; auto.
  apply andb_prop in H as [_ H]. apply IH in H. lia.
Qed.
Lemma c_pos_some : forall s p d o k n i, length o = length n -> length k = length n ->
  c_pos o k (repeat s (length n)) (repeat p (length n)) (repeat d (length n)) n = Some i ->
  valid n i /\ meets s p d o k i = true.
Proof.
  intros s p d o k n. revert o k. induction n as [|n1 n IH]; intros [|o1 o] [|k1 k] i Ho Hk H;
    simpl in Ho, Hk; try discriminate.
  - cbn in H. inversion H; subst. cbn. auto.
  - cbn [c_pos repeat length] in H.
    destruct ((0 <=? _) && _)%Z eqn:E in H; [|discriminate].
    apply andb_prop in E as [E1 E2]. apply Z.leb_le in E1. apply Z.ltb_lt in E2.
    destruct (c_pos o k _ _ _ n) as [r|] eqn:R; [|discriminate]. cbn [obind] in H. inversion H; subst i.
    apply IH in R as [V M]; [|lia|lia]. cbn [valid meets]. rewrite M, andb_true_r.
    split; [split; [lia|auto]|]. apply Nat.eqb_eq. lia.
Qed.
Lemma c_pos_meets : forall s p d o k n i, valid n i -> meets s p d o k i = true ->
  c_pos o k (repeat s (length n)) (repeat p (length n)) (repeat d (length n)) n = Some i.
Proof.
  intros s p d o k n. revert o k. induction n as [|n1 n IH]; intros [|o1 o] [|k1 k] [|i1 i] V M;
    cbn [valid meets] in *; try contradiction; try discriminate; auto.
  destruct V as [V1 V]. apply andb_prop in M as [M1 M]. apply Nat.eqb_eq in M1.
  cbn [c_pos repeat length].
  replace ((0 <=? Z.of_nat (o1 * s) - Z.of_nat p + Z.of_nat (k1 * d)) &&
           (Z.of_nat (o1 * s) - Z.of_nat p + Z.of_nat (k1 * d) <? Z.of_nat n1))%Z with true
    by (symmetry; apply andb_true_intro; split; [apply Z.leb_le|apply Z.ltb_lt]; lia).
  rewrite (IH o k i V M). cbn [obind]. do 2 f_equal. lia.
Qed.

Lemma flat_map_single : forall X Y (f : X -> list Y) l x, NoDup l -> In x l ->
  (forall y, In y l -> y <> x -> f y = []) -> flat_map f l = f x.
Proof.
  induction l as [|a l IH]; intros x N H E; [contradiction|]. inversion N; subst. cbn [flat_map].
  destruct H as [->|H].
  - replace (flat_map f l) with (@nil Y); [apply app_nil_r|]. symmetry.
    assert (K : forall y, In y l -> f y = []) by (intros y Hy; apply E; [now right|congruence]).
    clear - K. induction l as [|b l IH]; auto. cbn. rewrite K by now left. apply IH. intros; apply K; now right.
  - rewrite E by (try (now left); congruence). cbn. apply IH; auto. intros y Hy; apply E; now right.
Qed.
Lemma flat_map_nil : forall X Y (f : X -> list Y) l, (forall y, In y l -> f y = []) -> flat_map f l = [].
Proof. induction l as [|a l IH]; intros E; auto. cbn. rewrite E by now left. apply IH. intros; apply E; now right. Qed.
Lemma flat_map_ext_in : forall X Y (f g : X -> list Y) l, (forall x, In x l -> f x = g x) -> flat_map f l = flat_map g l.
Proof. induction l as [|a l IH]; intros E; auto. cbn. rewrite E by now left. f_equal. apply IH. intros; apply E; now right. Qed.

(** the test of the kernels picks the position that meets, if there is one *)
Lemma pick : forall Y s p d o k n (f : list nat -> list Y), length o = length n -> length k = length n ->
  flat_map (fun i => if meets s p d o k i then f i else []) (all_idx n) =
  match c_pos o k (repeat s (length n)) (repeat p (length n)) (repeat d (length n)) n with
  | Some i => f i | None => [] end.
Proof.
  intros Y s p d o k n f Ho Hk. destruct (c_pos o k _ _ _ n) as [i|] eqn:E.
  - pose proof (c_pos_some _ _ _ _ _ _ _ Ho Hk E) as [V M].
    rewrite (flat_map_single _ _ _ _ i).
    + now rewrite M.
    + apply all_idx_NoDup.
    + now apply in_all_idx.
    + intros y Hy N. apply in_all_idx in Hy. destruct (meets s p d o k y) eqn:My; auto.
      exfalso. apply N. rewrite (c_pos_meets _ _ _ _ _ _ _ Hy My) in E. congruence.
  - apply flat_map_nil. intros y Hy. apply in_all_idx in Hy.
    destruct (meets s p d o k y) eqn:My; auto. rewrite (c_pos_meets _ _ _ _ _ _ _ Hy My) in E. discriminate.
Qed.

(** ** Loops *)
Lemma loop_fold : forall X A (add : A -> A -> A) (T : X -> list A) f l s,
  (forall x s, In x l -> f x s = Some (fold_left add (T x) s)) ->
  loopO f l s = Some (fold_left add (flat_map T l) s).
Proof.
  intros X A add T f l. induction l as [|x l IH]; intros s H; auto.
  cbn [loopO flat_map]. rewrite H by now left. cbn [obind]. rewrite fold_left_app.
  apply IH. intros; apply H; now right.
Qed.

(** ** Output sizes *)
Lemma conv_size_ok : forall n k s p d, 0 < k -> 0 < s -> d * (k - 1) < n + 2 * p ->
  exists o, conv_size n k s p d = Ok o /\ out_len n k s p d o.
Proof.
  intros n k s p d Hk Hs H. unfold conv_size.
  rewrite (proj2 (Nat.eqb_neq k 0)) by lia. rewrite (proj2 (Nat.ltb_ge _ (d * (k - 1)))) by lia.
  rewrite (proj2 (Nat.ltb_ge _ 1)) by lia. rewrite (proj2 (Nat.eqb_neq s 0)) by lia.
  eexists. split; [reflexivity|]. intros q. set (v := d * (k - 1)) in *.
  pose proof (Nat.div_mod (n + 2 * p - v - 1) s ltac:(lia)).
  pose proof (Nat.mod_upper_bound (n + 2 * p - v - 1) s ltac:(lia)).
  set (z := (n + 2 * p - v - 1) / s) in *. split; intros Q.
  - assert (q * s <= z * s) by (apply Nat.mul_le_mono_r; lia). lia.
  - destruct (Nat.lt_ge_cases q (z + 1)) as [|L]; auto.
    assert ((z + 1) * s <= q * s) by (apply Nat.mul_le_mono_r; lia). lia.
Qed.
Lemma conv_sizes_ok : forall n k s p d, length k = length n -> 0 < s ->
  Forall2 (fun n k => 0 < k /\ d * (k - 1) < n + 2 * p) n k ->
  exists o, conv_sizes n k s p d = Ok o /\ out_lens n k s p d o.
Proof.
  induction n as [|n1 n IH]; intros [|k1 k] s p d L Hs F; try discriminate.
  - exists []. cbn. auto.
  - inversion F; subst. destruct (conv_size_ok n1 k1 s p d) as (o1 & E1 & O1); try tauto.
    destruct (IH k s p d) as (o & E & O); auto.
    exists (o1 :: o). cbn [conv_sizes]. rewrite E1. cbn [bind]. rewrite E. cbn. auto.
Qed.
Lemma out_lens_length : forall n k s p d o, out_lens n k s p d o -> length o = length n /\ length k = length n.
Proof.
  induction n as [|n1 n IH]; intros [|k1 k] s p d [|o1 o] H; cbn in *; try contradiction; auto.
  destruct H as [_ H]. apply IH in H. lia.
Qed.
(** the sizes are determined *)
Lemma out_len_inj : forall n k s p d o o', out_len n k s p d o -> out_len n k s p d o' -> o = o'.
Proof.
  intros n k s p d o o' H H'. destruct (Nat.lt_trichotomy o o') as [L|[E|L]]; auto.
  - apply H' in L. apply H in L. lia.
  - apply H in L. apply H' in L. lia.
Qed.

(** ** Reading the metadata *)
Lemma read_conv_eq : forall li lw nd st p d out b c co isp ker, lshape li = b :: c :: isp ->
  skipn 2 (lshape lw) = ker -> out = b :: co :: skipn 2 out ->
  length isp = nd -> length ker = nd -> length (skipn 2 out) = nd -> length st = nd -> length p = nd -> length d = nd ->
  read_conv nd (conv_metadata li lw st p d out) =
  Some (mkCv (nelem out) b c co isp ker (skipn 2 out) st p d (loffset li) (loffset lw)).
Proof.
  intros li lw nd st p d out b c co isp ker Hi Hw Ho L1 L2 L3 L4 L5 L6.
  unfold read_conv, conv_metadata. rewrite Hi, Hw. rewrite read_n_app by reflexivity. cbn [obind skipn].
  rewrite read_n_app by auto. cbn [obind]. rewrite read_n_app by auto. cbn [obind].
  rewrite read_n_app by auto. cbn [obind]. rewrite read_n_app by auto. cbn [obind].
  rewrite read_n_app by auto. cbn [obind]. rewrite read_n_app by auto. cbn [obind].
  replace (read_n 2 [loffset li; loffset lw]) with (Some ([loffset li; loffset lw], @nil nat)) by reflexivity.
  cbn [obind nth]. rewrite Ho. reflexivity.
Qed.

(** row-major position of an index of a tensor with batch and channel axes *)
Lemma ravel2 : forall B C sp b c i, ravel (B :: C :: sp) (b :: c :: i) = b * C * nelem sp + c * nelem sp + ravel sp i.
Proof. intros. cbn [ravel]. rewrite nelem_cons. lia. Qed.

Lemma dense_read : forall A (t : tensor A) i, dense t -> valid (tshape t) i ->
  nth_error (tstore t) (loffset (tlay t) + ravel (tshape t) i) = elem t i.
Proof. intros A t i D V. unfold elem. now rewrite D. Qed.

Section Forward.
  Context {A : Type}.
  Variables (zero : A) (add mul : A -> A -> A).

  Lemma t_conv_spec : forall nd (t w : tensor A) s p d B C Co isp ker X W,
    good t -> good w -> dense t -> dense w ->
    tshape t = B :: C :: isp -> tshape w = Co :: C :: ker -> length isp = nd -> length ker = nd ->
    0 < s -> Forall2 (fun n k => 0 < k /\ d * (k - 1) < n + 2 * p) isp ker ->
    (forall i, valid (tshape t) i -> elem t i = Some (X i)) ->
    (forall i, valid (tshape w) i -> elem w i = Some (W i)) ->
    exists r osp, t_conv zero add mul nd t w s p d = Ok r /\ good r /\ tshape r = B :: Co :: osp /\
      out_lens isp ker s p d osp /\
      forall b oc o, valid (B :: Co :: osp) (b :: oc :: o) ->
        elem r (b :: oc :: o) = Some (fold_left add (conv_terms mul s p d X W C ker isp b oc o) zero).
  Proof.
    intros nd t w s p d B C Co isp ker X W Gt Gw Dt Dw St Sw Li Lk Hs F HX HW.
    destruct (conv_sizes_ok isp ker s p d) as (osp & E & O); [lia|auto|auto|].
    pose proof (out_lens_length _ _ _ _ _ _ O) as [Lo _].
    set (out := B :: Co :: osp).
    set (val := fun idx => let i := unravel out idx in
        fold_left add (conv_terms mul s p d X W C ker isp (nth 0 i 0) (nth 1 i 0) (skipn 2 i)) zero).
    assert (K : conv_kernel zero add mul nd (tstore t) (tstore w) (repeat zero (nelem out))
        (conv_metadata (tlay t) (tlay w) (repeat s nd) (repeat p nd) (repeat d nd) out) = Some (map val (seq 0 (nelem out)))).
    { unfold conv_kernel.
      rewrite (read_conv_eq _ _ _ _ _ _ out B C Co isp ker); try (rewrite ?repeat_length; auto; fail);
        [|now unfold tshape in Sw; rewrite Sw|cbn; lia].
      cbn [obind cv_els cv_cin cv_cout cv_in cv_ker cv_out cv_stride cv_pad cv_dil cv_ioff cv_woff skipn out].
      apply seq_for_total; [apply repeat_length|]. intros idx Hidx.
      assert (Hidx' : nelem (Co :: osp) <> 0) by (unfold out in Hidx; rewrite nelem_cons in Hidx; lia).
      assert (V : valid out (unravel out idx)) by (apply unravel_valid; auto).
      cbn [unravel out] in V.
      set (b := idx / nelem (Co :: osp)) in *. set (rest := idx mod nelem (Co :: osp)) in *.
      replace (c_coords (rev (Co :: osp)) idx []) with (Some (unravel (Co :: osp) rest)).
      2:{ symmetry. replace (rev (Co :: osp)) with (rev (Co :: osp) ++ []) by apply app_nil_r.
          rewrite c_coords_rev.
          - rewrite app_nil_r. reflexivity.
          - apply (nelem_pos_dims _ rest). apply Nat.mod_upper_bound; auto. }
      cbn [obind].
      unfold val. cbn [unravel out]. fold b. fold rest.
      assert (Hu : unravel (Co :: osp) rest = rest / nelem osp :: unravel osp (rest mod nelem osp)) by reflexivity.
      cbn [unravel hd tl nth skipn].
      set (oc := rest / nelem osp) in *. set (o := unravel osp (rest mod nelem osp)) in *.
      cbn [valid] in V. destruct V as (Vb & Vc & Vo).
      pose proof (valid_length _ _ Vo) as LO.
      apply loop_fold. intros ic s0 Hic. apply in_seq in Hic.
      apply loop_fold. intros k s1 Hk. apply in_all_idx in Hk. pose proof (valid_length _ _ Hk).
      rewrite pick by lia. unfold conv_term.
      cbn [cv_els cv_cin cv_cout cv_in cv_ker cv_out cv_stride cv_pad cv_dil cv_ioff cv_woff].
      replace nd with (length isp).
      destruct (c_pos o k _ _ _ isp) as [i|] eqn:Ei; [|reflexivity].
      apply c_pos_some in Ei as [Vi _]; [|lia|lia].
      replace (loffset (tlay t) + b * C * nelem isp + ic * nelem isp + ravel isp i)
        with (loffset (tlay t) + ravel (tshape t) (b :: ic :: i)) by (rewrite St, ravel2; lia).
      replace (loffset (tlay w) + oc * C * nelem ker + ic * nelem ker + ravel ker k)
        with (loffset (tlay w) + ravel (tshape w) (oc :: ic :: k)) by (rewrite Sw, ravel2; lia).
      assert (V1 : valid (tshape t) (b :: ic :: i)) by (rewrite St; cbn; repeat split; auto; lia).
      assert (V2 : valid (tshape w) (oc :: ic :: k)) by (rewrite Sw; cbn; repeat split; auto; lia).
      rewrite !dense_read by auto. rewrite HX, HW by auto. reflexivity. }
    exists (mkT (map val (seq 0 (nelem out))) (from_shape out)), osp.
    split.
    { unfold t_conv, t_conv_with. fold (tshape t). fold (tshape w). rewrite St, Sw. cbn [length nth skipn].
      rewrite (proj2 (Nat.eqb_eq (S (S (length isp))) (nd + 2))) by lia.
      rewrite (proj2 (Nat.eqb_eq (S (S (length ker))) (nd + 2))) by lia. rewrite Nat.eqb_refl. cbn [negb].
      rewrite E. cbn [bind]. fold out. rewrite K. reflexivity. }
    split; [apply from_shape_good; now rewrite map_length, seq_length|].
    split; [reflexivity|]. split; [auto|].
    intros b oc o V. fold out in V. rewrite elem_fresh by auto. f_equal. unfold val.
    rewrite unravel_ravel by auto. reflexivity.
  Qed.
End Forward.
