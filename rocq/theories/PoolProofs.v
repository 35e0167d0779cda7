(** Window pooling. *)
From Coq Require Import List Arith ZArith Lia Bool Permutation Sorted Reals Lra.
From Verif Require Import Base IndexSpec LayoutModel ViewSpec LayoutProofs LayoutProofs2 BcastProofs.
From Verif Require Import KernelModel TensorModel TensorSpec KernelProofs TensorProofs ElementwiseProofs.
From Verif Require Import EncodeModel WindowModel WindowProofs DenSpec DenProofs.
From Verif Require Import NumModel NnModel NnSpec NnProofs NnProofs2 LayerModel PoolModel PoolSpec.
Import ListNotations.
Open Scope nat_scope.

(* ---------- sorted lists of indices ---------- *)
Lemma lex_irrefl : forall x, ~ lex_lt x x.
Proof. induction x as [|a x IH]; cbn; [tauto|]. intros [H|[_ H]]; [lia|auto]. Qed.
Lemma lex_trans : forall x y z, lex_lt x y -> lex_lt y z -> lex_lt x z.
Proof.
  induction x as [|a x IH]; intros [|b y] [|c z] H1 H2; cbn in *; try tauto.
  destruct H1 as [H1|[-> H1]], H2 as [H2|[-> H2]]; try (left; lia). right. split; eauto.
Qed.
Lemma sorted_same : forall a b, StronglySorted lex_lt a -> StronglySorted lex_lt b -> (forall i, In i a <-> In i b) -> a = b.
Proof.
  induction a as [|x a IH]; intros [|y b] Sa Sb H; auto.
  - exfalso. apply (H y). now left.
  - exfalso. apply (H x). now left.
  - inversion Sa as [|? ? Sa' Fa]; subst. inversion Sb as [|? ? Sb' Fb]; subst. rewrite Forall_forall in Fa, Fb.
    assert (E : x = y).
    { destruct (proj1 (H x) (or_introl eq_refl)) as [E|I1]; auto. destruct (proj2 (H y) (or_introl eq_refl)) as [E|I2]; auto.
      exfalso. apply (lex_irrefl x). eapply lex_trans; [apply Fa, I2|apply Fb, I1]. }
    subst y. f_equal. apply IH; auto. intros i. split; intros I.
    + destruct (proj1 (H i) (or_intror I)) as [->|I']; auto. exfalso. now apply (lex_irrefl i), Fa.
    + destruct (proj2 (H i) (or_intror I)) as [->|I']; auto. exfalso. now apply (lex_irrefl i), Fb.
Qed.
Lemma sorted_filter_lex : forall g l, StronglySorted lex_lt l -> StronglySorted lex_lt (filter g l).
Proof.
  intros g. induction 1 as [|x l S IH F]; cbn; [constructor|]. destruct (g x); auto. constructor; auto.
  rewrite Forall_forall in *. intros y Hy. apply filter_In in Hy. apply F. tauto.
Qed.
Lemma sorted_cons2 : forall b c l, StronglySorted lex_lt l -> StronglySorted lex_lt (map (fun q => b :: c :: q) l).
Proof.
  intros b c. induction 1 as [|x l S IH F]; cbn [map]; constructor; auto.
  rewrite Forall_forall in *. intros y Hy. apply in_map_iff in Hy as [q [<- Hq]]. right. split; [reflexivity|]. right. split; [reflexivity|]. now apply F.
Qed.

(* ---------- the window on the whole input ---------- *)
Lemma in_wins_window : forall ws l p q, length ws = length l -> length p = length l ->
  in_window p (map wstep ws) (map wsize ws) (map wpad ws) l q <-> valid l q /\ in_wins ws p q = true.
Proof.
  induction ws as [|w ws IH]; intros [|d l] [|a p] q L1 L2; try discriminate.
  - destruct q; cbn; tauto.
  - destruct q as [|b q]; [cbn; tauto|]. cbn [map in_window valid in_wins]. rewrite IH by (cbn in *; lia).
    unfold in_win. rewrite !andb_true_iff, Nat.leb_le, Nat.ltb_lt. tauto.
Qed.
Lemma fits_all : forall ws l, Forall2 fits ws l ->
  window_fits l (map wsize ws) (map wstep ws) (map (fun w => (wpad w, wpad w)) ws) /\
  out_sizes l (map wsize ws) (map wstep ws) (map (fun w => (wpad w, wpad w)) ws) = counts ws l.
Proof.
  unfold window_fits, out_sizes. induction 1 as [|w d ws l [H1 H2] _ [IH1 IH2]]; [split; [constructor|reflexivity]|].
  cbn [map combine counts]. split; [constructor; auto; lia|]. rewrite IH2. unfold count. do 3 f_equal. lia.
Qed.
Lemma counts_pos : forall ws l, all_pos (counts ws l).
Proof.
  induction ws as [|w ws IH]; intros [|d l]; cbn [counts]; try constructor.
  - unfold count. rewrite Nat.add_1_r. apply Nat.lt_0_succ.
  - apply IH.
Qed.
Lemma counts_length : forall ws l, length ws = length l -> length (counts ws l) = length l.
Proof.
  induction ws as [|w ws IH]; intros [|d l] L; try discriminate; auto. cbn [counts length] in *. rewrite IH; auto.
Qed.

Section Pool.
Variables (init : xr) (f : xr -> xr -> xr) (oob : option xr) (fin : nat -> xr -> xr) (P Q : xr -> Prop).
Hypothesis P0 : P init.
Hypothesis Pf : forall b a, Q a -> P b -> P (f b a).
Hypothesis Hoob : forall v b, oob = Some v -> P b -> f b v = b.

Lemma window_den : forall t n c l g ws, den t (n :: c :: l) g -> Forall2 fits ws l -> length l <= 14 ->
  (forall i, valid (n :: c :: l) i -> Q (g i)) ->
  exists r, t_reduce_window init f oob fin (Fin 0) t (1 :: 1 :: map wsize ws) (1 :: 1 :: map wstep ws)
              ((0, 0) :: (0, 0) :: map (fun w => (wpad w, wpad w)) ws) = Ok r /\
    den r (n :: c :: counts ws l)
      (fun i => fin (nelem (map wsize ws))
         (fold_left f (map g (map (fun q => in_channel i q) (region ws l (skipn 2 i)))) init)).
Proof.
  intros t n c l g ws [G [U [S [A H]]]] F L HQ. assert (LW : length ws = length l) by (eapply Forall2_len; eauto).
  destruct (fits_all _ _ F) as [F1 F2].
  destruct (t_reduce_window_spec _ _ _ init f oob fin P Q P0 Pf Hoob (Fin 0) t (1 :: 1 :: map wsize ws) (1 :: 1 :: map wstep ws)
    ((0, 0) :: (0, 0) :: map (fun w => (wpad w, wpad w)) ws) g G) as [r [E [Gr [Lr HR]]]].
  - rewrite S. cbn. rewrite map_length. lia.
  - rewrite S. cbn. rewrite map_length. lia.
  - rewrite S. cbn. rewrite map_length. lia.
  - rewrite S. cbn. lia.
  - rewrite S. unfold window_fits in *. cbn [combine]. pose proof A as A'. inversion A' as [|? ? A1 A2]; subst. inversion A2; subst. constructor; [lia|]. constructor; [lia|]. exact F1.
  - rewrite S. auto.
  - rewrite S. auto.
  - exists r. split; [exact E|].
    assert (SR : tshape r = n :: c :: counts ws l).
    { unfold tshape. rewrite Lr. cbn [from_shape lshape]. rewrite S. unfold out_sizes. cbn [combine map].
      pose proof F2 as F2'. unfold out_sizes in F2'. rewrite F2'. rewrite !Nat.div_1_r. pose proof A as A'. inversion A' as [|? ? A1 A2]; subst. inversion A2; subst.
      f_equal; [lia|]. f_equal. lia. }
    pose proof A as A'. inversion A' as [|? ? A1 A2]; subst. inversion A2 as [|? ? A3 A4]; subst.
    split; [exact Gr|]. split; [left; rewrite Lr; reflexivity|]. split; [exact SR|].
    split; [constructor; auto; constructor; auto; apply counts_pos|]. intros o V. rewrite <- SR in V. destruct (HR o V) as [srcs [S1 [S2 S3]]].
    rewrite S3. f_equal. change (nelem (1 :: 1 :: map wsize ws)) with (nelem (1 :: 1 :: map wsize ws)). rewrite !nelem_cons, !Nat.mul_1_l.
    f_equal. f_equal. f_equal. rewrite SR in V. destruct o as [|a [|b p]]; cbn in V; try tauto. destruct V as [Va [Vb Vp]]. unfold in_channel. cbn [nth skipn].
    apply sorted_same; auto.
    + apply sorted_cons2, sorted_filter_lex, all_idx_sorted.
    + intros i. rewrite S2, S. cbn [map fst].
      assert (Lp : length p = length l) by (rewrite (valid_length _ _ Vp), counts_length; auto).
      rewrite in_map_iff. unfold region. rewrite map_map. cbn [fst].
      destruct i as [|x [|y q]]; cbn [in_window].
      * split; [tauto|]. intros [q [Hq _]]. discriminate.
      * split; [tauto|]. intros [q [Hq _]]. discriminate.
      * rewrite in_wins_window by auto. rewrite !Nat.mul_1_r, !Nat.add_0_r. split.
        -- intros [H1 [H2 [H3 [H4 [H5 H6]]]]]. exists q. split; [f_equal; [lia|f_equal; lia]|]. apply filter_In. split; auto. now apply in_all_idx.
        -- intros [q' [Hq Hf]]. inversion Hq; subst. apply filter_In in Hf. destruct Hf as [Hf Hb]. apply in_all_idx in Hf. repeat split; auto; lia.
Qed.
End Pool.
