From Coq Require Import List Arith ZArith Bool Lia.
From Verif Require Import Base IndexSpec LayoutModel ViewSpec LayoutProofs KernelModel KernelProofs TensorModel TensorSpec TensorProofs.
From Verif Require Import ScanModel CountModel CountProofs ConvModel ConvSpec ConvProofs TileSpec LaunchModel LaunchSpec LaunchProofs2 CudaIndexProofs CudaIndexProofs2 CudaWindowProofs CudaConvModel.
Import ListNotations.
Local Open Scope nat_scope.

(** * The input position of a transposed convolution *)
Lemma c_back_some : forall s p d o k n i, 0 < s -> length o = length n -> length k = length n ->
  c_back o k (repeat s (length n)) (repeat p (length n)) (repeat d (length n)) n = Some i ->
  valid n i /\ meets s p d i k o = true.
Proof.
  intros s p d o k n i0 S0. revert o k i0. induction n as [|n1 n IH]; intros [|o1 o] [|k1 k] i Ho Hk H;
    simpl in Ho, Hk; try discriminate.
  - cbn in H. inversion H; subst. cbn. auto.
  - cbn [c_back repeat length] in H. set (tmp := (_ + _ - _)%Z) in H.
    destruct (Z.eqb_spec (Z.rem tmp (Z.of_nat s)) 0) as [R0|]; [|discriminate].
    destruct ((0 <=? _) && _)%Z eqn:E in H; [|discriminate].
    apply andb_prop in E as [E1 E2]. apply Z.leb_le in E1. apply Z.ltb_lt in E2.
    destruct (c_back o k _ _ _ n) as [r|] eqn:R; [|discriminate]. cbn [obind] in H. inversion H; subst i.
    apply IH in R as [V M]; [|lia|lia]. cbn [valid meets]. rewrite M, andb_true_r.
    split; [split; [lia|auto]|]. apply Nat.eqb_eq.
    pose proof (Z.quot_rem' tmp (Z.of_nat s)) as Q. rewrite R0 in Q. unfold tmp in *. nia.
Qed.
Lemma c_back_meets : forall s p d o k n i, 0 < s -> valid n i -> meets s p d i k o = true ->
  c_back o k (repeat s (length n)) (repeat p (length n)) (repeat d (length n)) n = Some i.
Proof.
  intros s p d o k n i0 S0. revert o k i0. induction n as [|n1 n IH]; intros [|o1 o] [|k1 k] [|i1 i] V M;
    cbn [valid meets] in *; try contradiction; try discriminate; auto.
  destruct V as [V1 V]. apply andb_prop in M as [M1 M]. apply Nat.eqb_eq in M1.
  cbn [c_back repeat length].
  replace (Z.of_nat o1 + Z.of_nat p - Z.of_nat (k1 * d))%Z with (Z.of_nat i1 * Z.of_nat s)%Z by nia.
  rewrite Z.rem_mul, Z.quot_mul by lia. cbn [Z.eqb].
  rewrite (proj2 (Z.leb_le _ _)), (proj2 (Z.ltb_lt _ _)) by lia. cbn [andb].
  rewrite (IH o k i V M). cbn [obind]. now rewrite Nat2Z.id.
Qed.
Lemma pick_back : forall Y s p d o k n (f : list nat -> list Y), 0 < s -> length o = length n -> length k = length n ->
  flat_map (fun i => if meets s p d i k o then f i else []) (all_idx n) =
  match c_back o k (repeat s (length n)) (repeat p (length n)) (repeat d (length n)) n with
  | Some i => f i | None => [] end.
Proof.
  intros Y s p d o k n f S0 Ho Hk. destruct (c_back o k _ _ _ n) as [i|] eqn:E.
  - pose proof (c_back_some _ _ _ _ _ _ _ S0 Ho Hk E) as [V M].
    rewrite (flat_map_single _ _ _ _ i).
    + now rewrite M.
    + apply all_idx_NoDup.
    + now apply in_all_idx.
    + intros y Hy N. apply in_all_idx in Hy. destruct (meets s p d y k o) eqn:My; auto.
      exfalso. apply N. rewrite (c_back_meets _ _ _ _ _ _ _ S0 Hy My) in E. congruence.
  - apply flat_map_nil. intros y Hy. apply in_all_idx in Hy.
    destruct (meets s p d y k o) eqn:My; auto. rewrite (c_back_meets _ _ _ _ _ _ _ S0 Hy My) in E. discriminate.
Qed.

Lemma all_some_length : forall B (l : list (option B)) r, all_some l = Some r -> length r = length l.
Proof.
  induction l as [|x l IH]; intros r H; cbn [all_some] in H; [now injection H as <-|].
  destruct x as [x|]; [|discriminate]. destruct (all_some l) as [q|]; [|discriminate]. injection H as <-. cbn. now rewrite IH.
Qed.

Section Same.
Context {A T : Type} (sched : nat -> list nat) (up : A -> T) (down : T -> A) (zero : T) (add mul : T -> T -> T).
Hypothesis EN : ending sched.

Lemma conv_same : forall nd input weight out0 out md r m, read_conv nd md = Some m ->
  (Z.of_nat (cv_els m) <= 2 ^ 32 - 256)%Z -> length out0 = cv_els m -> length out = cv_els m ->
  conv_kernel zero add mul nd (map up input) (map up weight) out0 md = Some r ->
  cuda_conv_with sched down zero (cuda_conv_term up add mul) nd input weight out md = Some (map down r).
Proof.
  intros nd input weight out0 out md r m M N L0 L H. unfold conv_kernel in H. unfold cuda_conv_with. rewrite M in *. cbn [obind] in *.
  destruct (seq_for_nth _ _ _ _ _ L0 H) as [LR NR].
  match goal with |- elementwise _ _ ?b _ = _ => set (body := b) end.
  assert (G : forall i, i < cv_els m -> body i = option_map down (nth_error r i)).
  { intros i I. rewrite <- NR by exact I. unfold body. destruct (c_coords _ i []) as [c|]; [|reflexivity]. cbn [obind].
    match goal with |- obind (loopO ?g _ _) _ = option_map _ (loopO ?h _ _) => rewrite (loopO_ext _ _ g h); [now destruct (loopO h _ _)|] end.
    intros ic s. apply loopO_ext. intros k s'. unfold cuda_conv_term, conv_term, sum_product. destruct (c_pos _ _ _ _ _ _); [|reflexivity].
    rewrite !nth_error_map. destruct (nth_error input _); [|reflexivity]. cbn [obind option_map]. now destruct (nth_error weight _). }
  destruct (elementwise_total A sched (cv_els m) body out EN N L) as (r' & R & L' & N').
  { intros i I. rewrite G by exact I. destruct (nth_error r i) eqn:Q; [discriminate|]. apply nth_error_None in Q. lia. }
  rewrite R. f_equal. apply list_ext. intro i. rewrite nth_error_map. destruct (Nat.lt_ge_cases i (cv_els m)) as [I|I].
  - rewrite N' by exact I. now apply G.
  - rewrite (proj2 (nth_error_None r' i)), (proj2 (nth_error_None r i)) by lia. reflexivity.
Qed.
Lemma conv_sizes_length : forall n k s p d o, length k = length n -> conv_sizes n k s p d = Ok o -> length o = length n.
Proof.
  induction n as [|n1 n IH]; intros [|k1 k] s p d o L H; try discriminate; cbn [conv_sizes] in H.
  - injection H as <-. reflexivity.
  - destruct (conv_size n1 k1 s p d); try discriminate. cbn [bind] in H. destruct (conv_sizes n k s p d) eqn:E; try discriminate.
    cbn [bind] in H. injection H as <-. cbn [length] in *. f_equal. apply (IH k s p d); [lia|exact E].
Qed.
Lemma shape2 : forall (s : list nat) nd, length s = nd + 2 -> s = nth 0 s 0 :: nth 1 s 0 :: skipn 2 s /\ length (skipn 2 s) = nd.
Proof. intros s nd L. destruct s as [|a [|b s]]; cbn in *; try lia. split; [reflexivity|lia]. Qed.

Lemma t_conv_same : forall nd (t w : tensor A) s p d r, (Z.of_nat (nelem (tshape r)) <= 2 ^ 32 - 256)%Z ->
  t_conv zero add mul nd (converted up t) (converted up w) s p d = Ok r ->
  cuda_t_conv sched up down zero add mul nd t w s p d = Ok (converted down r).
Proof.
  intros nd t w s p d r N H. unfold t_conv, t_conv_with in H. unfold cuda_t_conv.
  change (tlay (converted up t)) with (tlay t) in H. change (tlay (converted up w)) with (tlay w) in H.
  change (tstore (converted up t)) with (map up (tstore t)) in H. change (tstore (converted up w)) with (map up (tstore w)) in H.
  destruct (Nat.eqb_spec (length (lshape (tlay t))) (nd + 2)) as [Li|]; [|discriminate].
  destruct (Nat.eqb_spec (length (lshape (tlay w))) (nd + 2)) as [Lw|]; [|discriminate]. cbn [negb] in *.
  destruct (negb _); [discriminate|].
  destruct (shape2 _ _ Li) as [Ei Li']. destruct (shape2 _ _ Lw) as [Ew Lw'].
  destruct (conv_sizes _ _ _ _ _) as [o| |] eqn:E; try discriminate. cbn [bind] in *.
  pose proof (conv_sizes_length _ _ _ _ _ _ (eq_trans Lw' (eq_sym Li')) E) as Lo. rewrite Li' in Lo.
  destruct (conv_kernel _ _ _ _ _ _ _ _) as [st|] eqn:K; [|discriminate]. cbn [ub bind] in H. injection H as <-.
  set (out := _ :: _ :: o) in *. change (tshape _) with out in N.
  erewrite (conv_same nd _ _ (repeat zero (nelem out)) _ _ st _ (read_conv_eq _ _ nd _ _ _ out _ _ _ _ _ Ei eq_refl eq_refl Li' Lw' Lo _ _ _)); [reflexivity|..]; cbn [cv_els]; auto using repeat_length.
  Unshelve. all: apply repeat_length.
Qed.
Lemma t_conv_err : forall nd (t w : tensor A) s p d e,
  t_conv zero add mul nd (converted up t) (converted up w) s p d = Err e <-> cuda_t_conv sched up down zero add mul nd t w s p d = Err e.
Proof.
  intros nd t w s p d e. unfold t_conv, t_conv_with, cuda_t_conv.
  change (tlay (converted up t)) with (tlay t). change (tlay (converted up w)) with (tlay w).
  do 3 (destruct (negb _); [split; intro X; inversion X; reflexivity|]).
  destruct (conv_sizes _ _ _ _ _); cbn [bind]; try (split; intro X; inversion X; reflexivity).
  destruct (conv_kernel _ _ _ _ _ _ _ _), (cuda_conv_with _ _ _ _ _ _ _ _ _); cbn [ub bind]; split; discriminate.
Qed.

(** * Transposed *)
(** the terms in the order of the kernel: the kernel position outside *)
Definition back_terms (s p d : nat) (X W : list nat -> T) (wi : nat -> nat -> list nat -> list nat) (cin : nat) (ker isp : list nat)
    (b oc : nat) (o : list nat) : list T :=
  flat_map (fun ic => flat_map (fun k => flat_map (fun i =>
    if meets s p d i k o then [mul (X (b :: ic :: i)) (W (wi ic oc k))] else [])
    (all_idx isp)) (all_idx ker)) (seq 0 cin).
Lemma t_transpose_gen : forall nd (t w : tensor A) s p d extra B C Co isp ker osp' osp X W wi,
  dense t -> tshape t = B :: C :: isp -> tshape w = Co :: C :: ker -> length isp = nd -> length ker = nd -> 0 < s ->
  conv_t_sizes isp ker s p d extra = Ok osp' -> conv_sizes isp ker s p d = Ok osp ->
  (Z.of_nat (nelem (B :: Co :: osp)) <= 2 ^ 32 - 256)%Z ->
  (forall i, valid (tshape t) i -> exists x, elem t i = Some x /\ up x = X i) ->
  (forall ic oc k, ic < C -> oc < Co -> valid ker k ->
    exists x, nth_error (tstore w) (loffset (tlay w) + ic * Co * nelem ker + oc * nelem ker + ravel ker k) = Some x /\ up x = W (wi ic oc k)) ->
  exists r, cuda_t_conv_transpose sched up down zero add mul nd t w s p extra d = Ok r /\ tlay r = from_shape (B :: Co :: osp') /\
    length (tstore r) = nelem (B :: Co :: osp) /\
    forall b oc o, valid (B :: Co :: osp) (b :: oc :: o) ->
      nth_error (tstore r) (ravel (B :: Co :: osp) (b :: oc :: o)) = Some (down (fold_left add (back_terms s p d X W wi C ker isp b oc o) zero)).
Proof.
  intros nd t w s p d extra B C Co isp ker osp' osp X W wi Dt St Sw Li Lk Hs E' E N HX HW.
  pose proof (conv_sizes_length _ _ _ _ _ _ (eq_trans Lk (eq_sym Li)) E) as Lo.
  set (out := B :: Co :: osp) in *.
  set (val := fun idx => let i := unravel out idx in
    down (fold_left add (back_terms s p d X W wi C ker isp (nth 0 i 0) (nth 1 i 0) (skipn 2 i)) zero)).
  assert (K : cuda_conv_with sched down zero (cuda_conv_t_term up add mul) nd (tstore t) (tstore w) (repeat None (nelem out))
      (conv_metadata (tlay t) (tlay w) (repeat s nd) (repeat p nd) (repeat d nd) out) = Some (map val (seq 0 (nelem out)))).
  { unfold cuda_conv_with.
    rewrite (read_conv_eq _ _ _ _ _ _ out B C Co isp ker); try (rewrite ?repeat_length; auto; fail);
      [|now unfold tshape in Sw; rewrite Sw|cbn; lia].
    cbn [obind cv_els cv_cin cv_cout cv_in cv_ker cv_out cv_stride cv_pad cv_dil cv_ioff cv_woff skipn out].
    fold out. match goal with |- elementwise _ _ ?b _ = _ => set (body := b) end.
    assert (G : forall idx, idx < nelem out -> body idx = Some (val idx)).
    { intros idx Hidx. unfold body.
      assert (Hidx' : nelem (Co :: osp) <> 0) by (unfold out in Hidx; rewrite nelem_cons in Hidx; lia).
      assert (V : valid out (unravel out idx)) by (apply unravel_valid; auto).
      cbn [unravel out] in V.
      set (b := idx / nelem (Co :: osp)) in *. set (rest := idx mod nelem (Co :: osp)) in *.
      replace (c_coords (rev (Co :: osp)) idx []) with (Some (unravel (Co :: osp) rest)).
      2:{ symmetry. replace (rev (Co :: osp)) with (rev (Co :: osp) ++ []) by apply app_nil_r.
          rewrite c_coords_rev.
          - rewrite app_nil_r. reflexivity.
          - apply (nelem_pos_dims _ rest). apply Nat.mod_upper_bound; auto. }
      cbn [obind]. unfold val. cbn [unravel out]. fold b. fold rest. cbn [unravel hd tl nth skipn].
      set (oc := rest / nelem osp) in *. set (o := unravel osp (rest mod nelem osp)) in *.
      cbn [valid] in V. destruct V as (Vb & Vc & Vo).
      pose proof (valid_length _ _ Vo) as LO. unfold back_terms.
      erewrite loop_fold; [reflexivity|]. intros ic s0 Hic. apply in_seq in Hic.
      apply loop_fold. intros k s1 Hk. apply in_all_idx in Hk. pose proof (valid_length _ _ Hk).
      rewrite pick_back by lia. unfold cuda_conv_t_term, sum_product.
      cbn [cv_els cv_cin cv_cout cv_in cv_ker cv_out cv_stride cv_pad cv_dil cv_ioff cv_woff].
      replace nd with (length isp).
      destruct (c_back o k _ _ _ isp) as [i|] eqn:Ei; [|reflexivity].
      apply c_back_some in Ei as [Vi _]; [|lia|lia|lia].
      replace (loffset (tlay t) + b * C * nelem isp + ic * nelem isp + ravel isp i)
        with (loffset (tlay t) + ravel (tshape t) (b :: ic :: i)) by (rewrite St, ravel2; lia).
      assert (V1 : valid (tshape t) (b :: ic :: i)) by (rewrite St; cbn; repeat split; auto; lia).
      rewrite dense_read by auto. destruct (HX _ V1) as (x & -> & <-).
      destruct (HW ic oc k) as (y & -> & <-); [lia|exact Vc|exact Hk|]. reflexivity. }
    destruct (elementwise_total A sched (nelem out) body (repeat None (nelem out)) EN N (repeat_length _ _)) as (r' & R & L' & N').
    { intros i I. now rewrite G. }
    rewrite R. f_equal. apply list_ext. intro i. destruct (Nat.lt_ge_cases i (nelem out)) as [I|I].
    - rewrite N', G by exact I. symmetry. now apply nth_error_map_seq.
    - rewrite (proj2 (nth_error_None r' i)) by lia. symmetry. apply nth_error_None. now rewrite map_length, seq_length. }
  exists (mkT (map val (seq 0 (nelem out))) (from_shape (B :: Co :: osp'))).
  split.
  { unfold cuda_t_conv_transpose. fold (tshape t). fold (tshape w). rewrite St, Sw. cbn [length nth skipn].
    rewrite (proj2 (Nat.eqb_eq (S (S (length isp))) (nd + 2))) by lia.
    rewrite (proj2 (Nat.eqb_eq (S (S (length ker))) (nd + 2))) by lia. rewrite Nat.eqb_refl. cbn [negb].
    rewrite E', E. cbn [bind]. fold out. rewrite K. reflexivity. }
  split; [reflexivity|]. split; [cbn [tstore]; now rewrite map_length, seq_length|].
  intros b oc o V. fold out in V |- *. cbn [tstore]. rewrite nth_error_map_seq by (now apply ravel_lt). f_equal. unfold val.
  rewrite unravel_ravel by auto. reflexivity.
Qed.
Lemma t_transpose_spec : forall nd (t w : tensor A) s p d extra B C Co isp ker osp X W wi,
  dense t -> tshape t = B :: C :: isp -> tshape w = Co :: C :: ker -> length isp = nd -> length ker = nd -> 0 < s ->
  conv_t_sizes isp ker s p d extra = Ok osp -> conv_sizes isp ker s p d = Ok osp ->
  (Z.of_nat (nelem (B :: Co :: osp)) <= 2 ^ 32 - 256)%Z ->
  (forall i, valid (tshape t) i -> exists x, elem t i = Some x /\ up x = X i) ->
  (forall ic oc k, ic < C -> oc < Co -> valid ker k ->
    exists x, nth_error (tstore w) (loffset (tlay w) + ic * Co * nelem ker + oc * nelem ker + ravel ker k) = Some x /\ up x = W (wi ic oc k)) ->
  exists r, cuda_t_conv_transpose sched up down zero add mul nd t w s p extra d = Ok r /\ good r /\ tshape r = B :: Co :: osp /\
    forall b oc o, valid (B :: Co :: osp) (b :: oc :: o) ->
      elem r (b :: oc :: o) = Some (down (fold_left add (back_terms s p d X W wi C ker isp b oc o) zero)).
Proof.
  intros nd t w s p d extra B C Co isp ker osp X W wi Dt St Sw Li Lk Hs E' E N HX HW.
  destruct (t_transpose_gen nd t w s p d extra B C Co isp ker osp osp X W wi Dt St Sw Li Lk Hs E' E N HX HW) as ([st ly] & R & EL & L & V).
  cbn [tlay tstore] in *. subst ly. exists (mkT st (from_shape (B :: Co :: osp))). split; [exact R|]. split; [now apply from_shape_good|]. split; [reflexivity|].
  intros b oc o Vo. unfold elem. cbn [tlay tstore]. rewrite addr_from_shape by (now apply valid_length). now apply V.
Qed.
(** the storage has the number of elements of a convolution *)
Lemma transpose_length : forall nd (t w : tensor A) s p d extra o r,
  conv_sizes (skipn 2 (tshape t)) (skipn 2 (tshape w)) s p d = Ok o ->
  cuda_t_conv_transpose sched up down zero add mul nd t w s p extra d = Ok r ->
  length (tstore r) = nelem (nth 0 (tshape t) 0 :: nth 0 (tshape w) 0 :: o).
Proof.
  intros nd t w s p d extra o r E H. unfold cuda_t_conv_transpose in H. fold (tshape t) in H. fold (tshape w) in H.
  destruct (negb _); [discriminate|]. destruct (negb _); [discriminate|]. destruct (negb _); [discriminate|].
  destruct (conv_t_sizes _ _ _ _ _ _) as [o'| |]; try discriminate. cbn [bind] in H. rewrite E in H. cbn [bind] in H.
  set (out := nth 0 (tshape t) 0 :: nth 0 (tshape w) 0 :: o) in *.
  destruct (cuda_conv_with _ _ _ _ _ _ _ _ _) as [st|] eqn:K; [|discriminate]. cbn [ub bind] in H. injection H as <-. cbn [tstore].
  unfold cuda_conv_with in K. destruct (read_conv _ _) as [m|]; [|discriminate]. cbn [obind] in K.
  unfold elementwise in K. apply all_some_length in K. rewrite K, stores_length. apply repeat_length.
Qed.

Lemma transpose_fresh : forall nd (t w : tensor A) s p d extra r,
  cuda_t_conv_transpose sched up down zero add mul nd t w s p extra d = Ok r -> tlay r = from_shape (tshape r).
Proof.
  intros nd t w s p d extra r H. unfold cuda_t_conv_transpose in H.
  destruct (negb _); [discriminate|]. destruct (negb _); [discriminate|]. destruct (negb _); [discriminate|].
  destruct (conv_t_sizes _ _ _ _ _ _); try discriminate. cbn [bind] in H. destruct (conv_sizes _ _ _ _ _); try discriminate. cbn [bind] in H.
  destruct (cuda_conv_with _ _ _ _ _ _ _ _ _); [|discriminate]. cbn [ub bind] in H. injection H as <-. reflexivity.
Qed.

(** * The gradient of the weight *)
Variable plus : A -> A -> A.
Lemma adds_length : forall l out, length (fold_left (add_at plus) l out) = length out.
Proof. induction l as [|x l IH]; intro out; [reflexivity|]. cbn [fold_left]. rewrite IH. apply upd_length. Qed.
Lemma adds_none : forall l out i, nth_error out i = Some None -> nth_error (fold_left (add_at plus) l out) i = Some None.
Proof.
  induction l as [|[a v] l IH]; intros out i H; [exact H|]. cbn [fold_left]. apply IH. unfold add_at. cbn [fst snd].
  destruct (Nat.eq_dec a i) as [->|D].
  - rewrite H. apply nth_error_upd_eq. apply nth_error_Some. now rewrite H.
  - now rewrite nth_error_upd_neq.
Qed.
Lemma t_gradw_none : forall log nd (t g : tensor A) ws s p d r, 0 < nelem ws ->
  cuda_t_gradw up down mul plus log nd t g ws s p d <> Ok r.
Proof.
  intros log nd t g ws s p d r P. unfold cuda_t_gradw.
  destruct (negb _); [discriminate|]. destruct (negb _); [discriminate|]. destruct (negb _); [discriminate|].
  unfold cuda_gradw. destruct (read_gradw _) as [m|]; [|discriminate]. cbn [obind].
  destruct (mapO _ log) as [adds|]; [|discriminate]. cbn [obind]. destruct (negb _); [discriminate|].
  rewrite (all_some_none _ _ 0); [discriminate|]. apply adds_none. destruct (nelem ws); [inversion P|reflexivity].
Qed.
End Same.
