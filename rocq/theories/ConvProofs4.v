From Coq Require Import List Arith ZArith Bool Lia.
From Verif Require Import Base IndexSpec LayoutModel ViewSpec LayoutProofs KernelModel KernelProofs TensorModel TensorSpec
  TensorProofs ScanModel EinsumModel EinsumProofs2 CountModel CountProofs CountProofs2 ConvModel ConvSpec ConvProofs ConvProofs2 ConvProofs3.
Import ListNotations.

Lemma conv_t_size_ok : forall n k s p d e, 0 < n -> 0 < k -> 2 * p <= (n - 1) * s ->
  exists o, conv_t_size n k s p d e = Ok o /\ t_out_len n k s p d e o.
Proof.
  intros n k s p d e Hn Hk H. unfold conv_t_size.
  rewrite (proj2 (Nat.eqb_neq n 0)) by lia. rewrite (proj2 (Nat.ltb_ge _ (2 * p))) by lia.
  rewrite (proj2 (Nat.eqb_neq k 0)) by lia. eexists. split; [reflexivity|]. unfold t_out_len. lia.
Qed.
Lemma conv_t_sizes_ok : forall n k s p d e,
  Forall2 (fun n k => 0 < n /\ 0 < k /\ 2 * p <= (n - 1) * s) n k ->
  exists o, conv_t_sizes n k s p d e = Ok o /\ t_out_lens n k s p d e o.
Proof.
  induction n as [|n1 n IH]; intros [|k1 k] s p d e F; inversion F; subst.
  - exists []. cbn. auto.
  - destruct (conv_t_size_ok n1 k1 s p d e) as (o1 & E1 & O1); try tauto.
    destruct (IH k s p d e) as (o & E & O); auto.
    exists (o1 :: o). cbn [conv_t_sizes]. rewrite E1. cbn [bind]. rewrite E. cbn. auto.
Qed.
Lemma t_out_lens_length : forall n k s p d e o, t_out_lens n k s p d e o -> length o = length n /\ length k = length n.
Proof.
  induction n as [|n1 n IH]; intros [|k1 k] s p d e [|o1 o] H; cbn in *; try contradiction; auto.
  destruct H as [_ H]. apply IH in H. lia.
Qed.
Lemma t_out_lens_inj : forall n k s p d e o o', t_out_lens n k s p d e o -> t_out_lens n k s p d e o' -> o = o'.
Proof.
  induction n as [|n1 n IH]; intros [|k1 k] s p d e [|o1 o] [|o2 o'] H H'; cbn in *; try contradiction; auto.
  destruct H as [H1 H], H' as [H1' H']. f_equal; [unfold t_out_len in *; lia|]. eapply IH; eauto.
Qed.
Lemma Forall2_length' : forall X Y (P : X -> Y -> Prop) a b, Forall2 P a b -> length a = length b.
Proof. induction 1; cbn; lia. Qed.

(** contiguous tensors are dense *)
Lemma contig_dense : forall A (t : tensor A), good t -> is_contiguous (tlay t) = true -> dense t.
Proof.
  intros A t [W _] C i V. apply addr_contiguous; auto. apply valid_length in V. exact V.
Qed.

Lemma nelem_swap2 : forall a b l, nelem (a :: b :: l) = nelem (b :: a :: l).
Proof. intros. rewrite !nelem_cons. lia. Qed.

Section Tensors.
  Context {A : Type}.
  Variables (zero : A) (add mul : A -> A -> A).

  Lemma t_conv_transpose_spec : forall nd (t w : tensor A) s p d B C Co isp ker X W,
    good t -> dense t -> tshape t = B :: C :: isp -> tshape w = Co :: C :: ker ->
    length isp = nd -> length ker = nd ->
    Forall2 (fun n k => 0 < n /\ 0 < k /\ 2 * p <= (n - 1) * s) isp ker ->
    (forall i, valid (tshape t) i -> elem t i = Some (X i)) ->
    (forall i, valid (C :: Co :: ker) i -> nth_error (tstore w) (loffset (tlay w) + ravel (C :: Co :: ker) i) = Some (W i)) ->
    exists r osp, t_conv_transpose zero add mul nd t w s p 0 d = Ok r /\ good r /\ dense r /\ tshape r = B :: Co :: osp /\
      t_out_lens isp ker s p d 0 osp /\
      forall b oc o, valid (B :: Co :: osp) (b :: oc :: o) ->
        elem r (b :: oc :: o) =
        Some (fold_left add (conv_t_terms mul s p d X W (fun ic oc k => ic :: oc :: k) C ker isp b oc o) zero).
  Proof.
    intros nd t w s p d B C Co isp ker X W Gt Dt St Sw Li Lk F HX HW.
    destruct (conv_t_sizes_ok isp ker s p d 0 F) as (osp & E & O).
    pose proof (t_out_lens_length _ _ _ _ _ _ _ O) as [Lo _].
    destruct (conv_t_kernel_spec zero add mul nd (tlay t) (tlay w) (tstore t) (tstore w) s p d B C Co isp ker osp X W)
      as (out & K & L & N); auto; try lia.
    { unfold tshape in Sw. now rewrite Sw. }
    { intros i V. rewrite <- St in V |- *. rewrite dense_read by auto. auto. }
    exists (mkT out (from_shape (B :: Co :: osp))), osp.
    split.
    { unfold t_conv_transpose. fold (tshape t). fold (tshape w). rewrite St, Sw. cbn [length nth skipn].
      rewrite (proj2 (Nat.eqb_eq (S (S (length isp))) (nd + 2))) by lia.
      rewrite (proj2 (Nat.eqb_eq (S (S (length ker))) (nd + 2))) by lia. rewrite Nat.eqb_refl. cbn [negb].
      rewrite E. cbn [bind]. rewrite K. reflexivity. }
    assert (G : good (mkT out (from_shape (B :: Co :: osp)))) by (apply from_shape_good; auto).
    split; [auto|]. split; [apply contig_dense; [auto|apply from_shape_contiguous]|].
    split; [reflexivity|]. split; [auto|].
    intros b oc o V. unfold elem. cbn [tstore tlay].
    rewrite addr_from_shape by (now apply valid_length). now apply N.
  Qed.

  (** the transposed view of a weight, as the kernels of the transposed convolution see it *)
  Lemma transpose01 : forall (w : tensor A) Co C ker W, good w -> tshape w = Co :: C :: ker ->
    (forall i, valid (tshape w) i -> elem w i = Some (W i)) ->
    exists wt, t_view zero (VTranspose 0 1) w = Ok wt /\ tshape wt = C :: Co :: ker /\
      forall i, valid (Co :: C :: ker) i ->
        nth_error (tstore wt) (loffset (tlay wt) + ravel (Co :: C :: ker) i) = Some (W i).
  Proof.
    intros w Co C ker W Gw Sw HW.
    destruct (t_contiguous_spec A zero w Gw) as (c & Ec & Gc & Sc & Cc & Vc & _).
    pose proof (contig_dense _ _ Gc Cc) as Dc.
    unfold t_view. rewrite Ec. cbn [bind apply_view]. unfold transpose. fold (tshape c). rewrite Sc, Sw.
    destruct Gc as [Wc Bc]. unfold wf_layout in Wc. fold (tshape c) in Wc. rewrite Sc, Sw in Wc.
    destruct (lstrides (tlay c)) as [|s0 [|s1 st]] eqn:Es; try (cbn in Wc; lia).
    replace (length (Co :: C :: ker) <? 2) with false by (symmetry; apply Nat.ltb_ge; cbn; lia).
    assert (N0 : normalize_axis (Co :: C :: ker) 0 = Some 0).
    { unfold normalize_axis. cbn [length]. cbn [Z.ltb Z.leb Z.compare andb].
      now rewrite (proj2 (Z.ltb_lt 0 (Z.of_nat (S (S (length ker)))))) by lia. }
    assert (N1 : normalize_axis (Co :: C :: ker) 1 = Some 1).
    { unfold normalize_axis. cbn [length]. cbn [Z.ltb Z.leb Z.compare andb].
      now rewrite (proj2 (Z.ltb_lt 1 (Z.of_nat (S (S (length ker)))))) by lia. }
    rewrite N0, N1. cbn [ok_or bind swap nth_error upd].
    eexists. split; [reflexivity|]. split; [reflexivity|].
    intros i V. cbn [tstore tlay loffset]. rewrite <- HW by now rewrite Sw.
    rewrite <- Vc by now rewrite Sw. rewrite <- dense_read; auto; rewrite Sc, Sw; auto.
  Qed.

  Lemma t_gradw_spec : forall nd (t g : tensor A) s p d B C Co isp ker osp X G,
    good t -> dense t -> good g -> tshape t = B :: C :: isp -> tshape g = B :: Co :: osp ->
    length isp = nd -> length ker = nd -> length osp = nd ->
    (forall i, valid (tshape t) i -> elem t i = Some (X i)) ->
    (forall i, valid (tshape g) i -> elem g i = Some (G i)) ->
    exists r, t_gradw zero add mul nd t g (Co :: C :: ker) s p d = Ok r /\ good r /\ dense r /\ tshape r = Co :: C :: ker /\
      forall oc ic k, valid (Co :: C :: ker) (oc :: ic :: k) ->
        elem r (oc :: ic :: k) = Some (fold_left add (gradw_terms mul s p d X G B isp osp oc ic k) zero).
  Proof.
    intros nd t g s p d B C Co isp ker osp X G Gt Dt Gg St Sg Li Lk Lo HX HG.
    destruct (gradw_kernel_spec zero add mul nd (tlay t) g (tstore t) s p d B C Co isp ker osp X G)
      as (out & K & L & N); auto.
    { apply Gt. }
    { intros i V. rewrite <- St in V |- *. rewrite dense_read by auto. auto. }
    { intros i V. apply HG. now rewrite Sg. }
    exists (mkT out (from_shape (Co :: C :: ker))).
    split.
    { unfold t_gradw, t_gradw_with. fold (tshape t). fold (tshape g). rewrite St, Sg. cbn [length].
      rewrite (proj2 (Nat.eqb_eq (S (S (length isp))) (nd + 2))) by lia.
      rewrite (proj2 (Nat.eqb_eq (S (S (length osp))) (nd + 2))) by lia.
      rewrite (proj2 (Nat.eqb_eq (S (S (length ker))) (nd + 2))) by lia. cbn [negb].
      rewrite K. reflexivity. }
    assert (G' : good (mkT out (from_shape (Co :: C :: ker)))) by (apply from_shape_good; auto).
    split; [auto|]. split; [apply contig_dense; [auto|apply from_shape_contiguous]|].
    split; [reflexivity|].
    intros oc ic k V. unfold elem. cbn [tstore tlay].
    rewrite addr_from_shape by (now apply valid_length). now apply N.
  Qed.
  Lemma t_gradw_t_spec : forall nd (t g : tensor A) s p d B C Co isp ker osp X G,
    good t -> dense t -> good g -> tshape t = B :: C :: isp -> tshape g = B :: Co :: osp ->
    length isp = nd -> length ker = nd -> length osp = nd ->
    (forall i, valid (tshape t) i -> elem t i = Some (X i)) ->
    (forall i, valid (tshape g) i -> elem g i = Some (G i)) ->
    exists r, t_gradw_t zero add mul nd t g (C :: Co :: ker) s p d = Ok r /\ good r /\ dense r /\ tshape r = C :: Co :: ker /\
      forall ic oc k, valid (C :: Co :: ker) (ic :: oc :: k) ->
        elem r (ic :: oc :: k) = Some (fold_left add (gradw_t_terms mul s p d X G B isp osp ic oc k) zero).
  Proof.
    intros nd t g s p d B C Co isp ker osp X G Gt Dt Gg St Sg Li Lk Lo HX HG.
    destruct (gradw_t_kernel_spec zero add mul nd (tlay t) g (tstore t) s p d B C Co isp ker osp X G)
      as (out & K & L & N); auto.
    { apply Gt. }
    { intros i V. rewrite <- St in V |- *. rewrite dense_read by auto. auto. }
    { intros i V. apply HG. now rewrite Sg. }
    exists (mkT out (from_shape (C :: Co :: ker))).
    split.
    { unfold t_gradw_t, t_gradw_with. fold (tshape t). fold (tshape g). rewrite St, Sg. cbn [length].
      rewrite (proj2 (Nat.eqb_eq (S (S (length isp))) (nd + 2))) by lia.
      rewrite (proj2 (Nat.eqb_eq (S (S (length osp))) (nd + 2))) by lia.
      rewrite (proj2 (Nat.eqb_eq (S (S (length ker))) (nd + 2))) by lia. cbn [negb].
      rewrite K. reflexivity. }
    assert (G' : good (mkT out (from_shape (C :: Co :: ker)))) by (apply from_shape_good; auto).
    split; [auto|]. split; [apply contig_dense; [auto|apply from_shape_contiguous]|].
    split; [reflexivity|].
    intros oc ic k V. unfold elem. cbn [tstore tlay].
    rewrite addr_from_shape by (now apply valid_length). now apply N.
  Qed.

  (** the rule of the convolution; [t_out_lens osp ker s p d 0 isp]: the windows end
      exactly at the end of the padded input *)
  Lemma vjp_conv_spec : forall nd (x w g : tensor A) s p d B C Co isp ker osp X W G,
    good x -> good w -> good g -> dense x -> dense g ->
    tshape x = B :: C :: isp -> tshape w = Co :: C :: ker -> tshape g = B :: Co :: osp ->
    length isp = nd -> length ker = nd -> length osp = nd ->
    Forall2 (fun o k => 0 < o /\ 0 < k /\ 2 * p <= (o - 1) * s) osp ker ->
    t_out_lens osp ker s p d 0 isp ->
    (forall i, valid (tshape x) i -> elem x i = Some (X i)) ->
    (forall i, valid (tshape w) i -> elem w i = Some (W i)) ->
    (forall i, valid (tshape g) i -> elem g i = Some (G i)) ->
    exists gx gw, vjp_conv zero add mul nd x w g s p d = Ok (gx, gw) /\ good gx /\ good gw /\
      tshape gx = tshape x /\ tshape gw = tshape w /\
      (forall b ic i, valid (tshape x) (b :: ic :: i) -> elem gx (b :: ic :: i) =
         Some (fold_left add (conv_t_terms mul s p d G W (fun oc ic k => oc :: ic :: k) Co ker osp b ic i) zero)) /\
      (forall oc ic k, valid (tshape w) (oc :: ic :: k) -> elem gw (oc :: ic :: k) =
         Some (fold_left add (gradw_terms mul s p d X G B isp osp oc ic k) zero)).
  Proof.
    intros nd x w g s p d B C Co isp ker osp X W G Gx Gw Gg Dx Dg Sx Sw Sg Li Lk Lo F O HX HW HG.
    destruct (transpose01 w Co C ker W Gw Sw HW) as (wt & Ewt & Swt & HWt).
    destruct (t_conv_transpose_spec nd g wt s p d B Co C osp ker G W) as (gx & isp' & E1 & G1 & _ & S1 & O1 & V1); auto.
    rewrite (t_out_lens_inj _ _ _ _ _ _ _ _ O1 O) in *.
    destruct (t_gradw_spec nd x g s p d B C Co isp ker osp X G) as (gw & E2 & G2 & _ & S2 & V2); auto.
    exists gx, gw. split.
    { unfold vjp_conv. rewrite Ewt. cbn [bind]. rewrite E1. cbn [bind].
      fold (tshape w). rewrite Sw, E2. reflexivity. }
    split; [auto|]. split; [auto|]. split; [congruence|]. split; [congruence|].
    rewrite Sx, Sw. auto.
  Qed.
End Tensors.
