(** What conv2d of f32 and f64 computes (im2col and gemm). *)
From Coq Require Import List Arith ZArith Bool Lia.
From Verif Require Import Base IndexSpec LayoutModel ViewSpec LayoutProofs KernelModel KernelProofs TensorModel TensorSpec
  TensorProofs ScanModel ScanProofs EinsumModel EinsumProofs2 CountModel CountProofs CountProofs2
  ConvModel ConvSpec ConvProofs ConvProofs2 ConvProofs3 ConvProofs4.
Import ListNotations.

Lemma nth_pairs : forall X Y (M : list X) (L : list Y) a b x y, nth_error M a = Some x -> nth_error L b = Some y ->
  nth_error (flat_map (fun x => map (pair x) L) M) (a * length L + b) = Some (x, y).
Proof.
  induction M as [|m M IH]; intros L [|a] b x y Ha Hb; try discriminate.
  - cbn in Ha. inversion Ha; subst. cbn [flat_map]. rewrite nth_error_app1.
    + cbn. rewrite nth_error_map, Hb. reflexivity.
    + rewrite map_length. apply nth_error_Some. cbn. congruence.
  - cbn in Ha. cbn [flat_map]. rewrite nth_error_app2 by (rewrite map_length; lia). rewrite map_length.
    replace (S a * length L + b - length L) with (a * length L + b) by lia. now apply IH.
Qed.
Lemma pairs_length : forall X Y (M : list X) (L : list Y), length (flat_map (fun x => map (pair x) L) M) = length M * length L.
Proof. induction M as [|m M IH]; intros L; auto. cbn [flat_map length]. rewrite app_length, map_length, IH. lia. Qed.
Lemma unravel_cons : forall n s k, nelem s <> 0 -> k < n * nelem s -> unravel (n :: s) k = k / nelem s :: unravel s (k mod nelem s).
Proof. reflexivity. Qed.

Section Blas.
  Context {A : Type}.
  Variables (zero : A) (add mul : A -> A -> A).
  (** value of the patch matrix: output position [o], channel and kernel position [c] *)
  Definition patch (s p d : nat) (X : list nat -> A) (isp : list nat) (b : nat) (o c : list nat) : A :=
    match filter (meets s p d o (tl c)) (all_idx isp) with
    | i :: _ => X (b :: hd 0 c :: i)
    | [] => zero
    end.
  Lemma patch_pos : forall s p d X isp b o c, length o = length isp -> length (tl c) = length isp ->
    patch s p d X isp b o c =
    match c_pos o (tl c) (repeat s (length isp)) (repeat p (length isp)) (repeat d (length isp)) isp with
    | Some i => X (b :: hd 0 c :: i) | None => zero end.
  Proof.
    intros s p d X isp b o c Ho Hc. unfold patch.
    replace (filter (meets s p d o (tl c)) (all_idx isp))
      with (flat_map (fun i => if meets s p d o (tl c) i then [i] else []) (all_idx isp)).
    - rewrite pick by auto. now destruct (c_pos o (tl c) _ _ _ isp).
    - induction (all_idx isp) as [|i l IH]; auto. cbn. rewrite IH. now destruct (meets s p d o (tl c) i).
  Qed.

  (** the sum the gemm call takes: row [oc] of the weight against the buffer read with
      row length [N], the buffer having been written with row length [K] *)
  Definition blas_terms (s p d : nat) (X W : list nat -> A) (C : nat) (ker isp osp : list nat) (b oc : nat) (o : list nat) : list A :=
    let K := nelem (C :: ker) in
    map (fun kk => let q := kk * nelem osp + ravel osp o in
           mul (W (oc :: unravel (C :: ker) kk)) (patch s p d X isp b (unravel osp (q / K)) (unravel (C :: ker) (q mod K))))
      (seq 0 K).

  Lemma im2col_spec : forall m (t : tensor A) s p d B C isp X b, good t -> dense t -> tshape t = B :: C :: isp ->
    (forall i, valid (tshape t) i -> elem t i = Some (X i)) -> b < B ->
    cv_cin m = C -> cv_in m = isp -> length (cv_ker m) = length isp -> length (cv_out m) = length isp ->
    cv_stride m = repeat s (length isp) -> cv_pad m = repeat p (length isp) -> cv_dil m = repeat d (length isp) ->
    cv_ioff m = loffset (tlay t) ->
    exists col, im2col zero m (tstore t) b = Some col /\
      forall a c, a < nelem (cv_out m) -> c < nelem (C :: cv_ker m) ->
        nth_error col (a * nelem (C :: cv_ker m) + c) =
        Some (patch s p d X isp b (unravel (cv_out m) a) (unravel (C :: cv_ker m) c)).
  Proof.
    intros m t s p d B C isp X b Gt Dt St HX Hb E1 E2 E3 E4 E5 E6 E7 E8. unfold im2col.
    set (L := flat_map (fun ic => map (pair ic) (all_idx (cv_ker m))) (seq 0 (cv_cin m))).
    set (fv := fun c : list nat * (nat * list nat) => let '(o, (ic, k)) := c in
       match c_pos o k (cv_stride m) (cv_pad m) (cv_dil m) (cv_in m) with Some i => X (b :: ic :: i) | None => zero end).
    rewrite (mapO_total _ _ _ fv).
    2:{ intros [o [ic k]] Hin. apply in_flat_map in Hin as (o' & Ho' & Hin). apply in_all_idx in Ho'.
        apply in_map_iff in Hin as ([ic' k'] & Q & Hin). inversion Q; subst o' ic' k'. clear Q.
        unfold L in Hin. apply in_flat_map in Hin as (ic' & Hic & Hin). apply in_map_iff in Hin as (k' & Q & Hk). inversion Q; subst ic' k'.
        apply in_seq in Hic. apply in_all_idx in Hk. pose proof (valid_length _ _ Ho'). pose proof (valid_length _ _ Hk).
        unfold fv. rewrite E5, E6, E7, E2.
        destruct (c_pos o k _ _ _ isp) as [i|] eqn:Ei; auto. apply c_pos_some in Ei as [Vi _]; [|lia|lia].
        rewrite E8, E1.
        replace (loffset (tlay t) + b * C * nelem isp + (ic * nelem isp + ravel isp i))
          with (loffset (tlay t) + ravel (tshape t) (b :: ic :: i)) by (rewrite St, ravel2; lia).
        assert (V : valid (tshape t) (b :: ic :: i)) by (rewrite St; cbn; repeat split; auto; lia).
        rewrite dense_read by auto. auto. }
    eexists. split; [reflexivity|]. intros a c Ha Hc.
    assert (LL : length L = nelem (C :: cv_ker m)).
    { unfold L. rewrite pairs_length, seq_length, all_idx_length, nelem_cons. now rewrite E1. }
    assert (NK : nelem (cv_ker m) <> 0) by (rewrite nelem_cons in Hc; nia).
    rewrite nth_error_map, <- LL.
    assert (Na : nth_error (all_idx (cv_out m)) a = Some (unravel (cv_out m) a)).
    { rewrite all_idx_map_unravel, nth_error_map_seq; auto. }
    assert (Nc : nth_error L c = Some (c / nelem (cv_ker m), unravel (cv_ker m) (c mod nelem (cv_ker m)))).
    { pose proof (Nat.div_mod c (nelem (cv_ker m)) NK) as DM.
      transitivity (nth_error L (c / nelem (cv_ker m) * length (all_idx (cv_ker m)) + c mod nelem (cv_ker m))).
      { f_equal. rewrite all_idx_length. lia. }
      unfold L. rewrite E1.
      assert (c / nelem (cv_ker m) < C) by (apply Nat.div_lt_upper_bound; auto; rewrite nelem_cons in Hc; lia).
      apply nth_pairs.
      - rewrite nth_error_nth' with (d := 0) by (rewrite seq_length; lia). rewrite seq_nth by lia. reflexivity.
      - rewrite all_idx_map_unravel, nth_error_map_seq; auto. apply Nat.mod_upper_bound; auto. }
    rewrite (nth_pairs _ _ _ _ _ _ _ _ Na Nc). cbn [option_map]. f_equal.
    rewrite patch_pos.
    - cbn [unravel hd tl]. unfold fv. now rewrite E5, E6, E7, E2.
    - apply unravel_valid in Ha. apply valid_length in Ha. lia.
    - cbn [unravel tl]. rewrite <- E3. apply valid_length, unravel_valid. apply Nat.mod_upper_bound; auto.
  Qed.

  Lemma t_conv2d_blas_spec : forall (t w : tensor A) s p d B C Co isp ker X W,
    good t -> good w -> dense t -> dense w ->
    tshape t = B :: C :: isp -> tshape w = Co :: C :: ker -> length isp = 2 -> length ker = 2 ->
    0 < s -> Forall2 (fun n k => 0 < k /\ d * (k - 1) < n + 2 * p) isp ker ->
    (forall i, valid (tshape t) i -> elem t i = Some (X i)) ->
    (forall i, valid (tshape w) i -> elem w i = Some (W i)) ->
    exists r osp, t_conv2d_blas zero add mul t w s p d = Ok r /\ good r /\ tshape r = B :: Co :: osp /\
      out_lens isp ker s p d osp /\
      forall b oc o, valid (B :: Co :: osp) (b :: oc :: o) ->
        elem r (b :: oc :: o) = Some (fold_left add (blas_terms s p d X W C ker isp osp b oc o) zero).
  Proof.
    intros t w s p d B C Co isp ker X W Gt Gw Dt Dw St Sw Li Lk Hs F HX HW.
    destruct (conv_sizes_ok isp ker s p d) as (osp & E & O); [lia|auto|auto|].
    pose proof (out_lens_length _ _ _ _ _ _ O) as [Lo _].
    set (out := B :: Co :: osp).
    set (val := fun idx => let i := unravel out idx in
        fold_left add (blas_terms s p d X W C ker isp osp (nth 0 i 0) (nth 1 i 0) (skipn 2 i)) zero).
    assert (K : conv_blas zero add mul 2 (tstore t) (tstore w) (repeat zero (nelem out))
        (conv_metadata (tlay t) (tlay w) (repeat s 2) (repeat p 2) (repeat d 2) out) = Some (map val (seq 0 (nelem out)))).
    { unfold conv_blas.
      rewrite (read_conv_eq _ _ _ _ _ _ out B C Co isp ker); try (rewrite ?repeat_length; auto; fail);
        [|now unfold tshape in Sw; rewrite Sw|cbn; lia].
      cbn [obind cv_els cv_batch cv_cin cv_cout cv_in cv_ker cv_out cv_stride cv_pad cv_dil cv_ioff cv_woff skipn out].
      rewrite <- (nelem_cons C ker).
      set (m := mkCv _ _ _ _ _ _ _ _ _ _ _ _).
      destruct (loopO_better nat A val (nelem out) (fun b q => exists a, a < Co * nelem osp /\ q = b * Co * nelem osp + a)
        (fun b out0 => let? col := im2col zero m (tstore t) b in
           gemm_into zero add mul false Co (nelem osp) (nelem (C :: ker)) (tstore w) col
             (fun i k => loffset (tlay w) + (i * nelem (C :: ker) + k)) (fun k j => k * nelem osp + j) (b * Co * nelem osp) out0)
        (seq 0 B) (repeat zero (nelem out))) as (res & Er & [Lr _] & Nr).
      { apply repeat_length. }
      { intros b o0 Hb Lo0. apply in_seq in Hb.
        destruct (im2col_spec m t s p d B C isp X b) as (col & Ec & Nc); auto; try (cbn; rewrite ?Li; auto; lia).
        cbn [cv_out cv_ker m] in Nc. rewrite Ec. cbn [obind]. unfold gemm_into.
        destruct (loopO_better nat A val (nelem out) (fun a q => q = b * Co * nelem osp + a)
          (fun p0 out0 => let? v := loopO (fun k sum =>
              let? x := nth_error (tstore w) (loffset (tlay w) + (p0 / nelem osp * nelem (C :: ker) + k)) in
              let? y := nth_error col (k * nelem osp + p0 mod nelem osp) in
              Some (add sum (mul x y))) (seq 0 (nelem (C :: ker))) zero in c_store out0 (b * Co * nelem osp + p0) v)
          (seq 0 (Co * nelem osp)) o0 Lo0) as (res & Er & Br & Nr).
        - intros a o1 Ha Lo1. apply in_seq in Ha.
          assert (NO : nelem osp <> 0) by nia.
          set (oc := a / nelem osp). set (r := a mod nelem osp).
          assert (Hoc : oc < Co) by (apply Nat.div_lt_upper_bound; auto; lia).
          assert (Hr : r < nelem osp) by (apply Nat.mod_upper_bound; auto).
          assert (Hpos : b * Co * nelem osp + a = ravel out (b :: oc :: unravel osp r)).
          { unfold out. rewrite ravel2, ravel_unravel by auto. unfold oc, r.
            rewrite (Nat.div_mod a (nelem osp)) at 1 by auto. lia. }
          assert (Vi : valid out (b :: oc :: unravel osp r)).
          { cbn. repeat split; try lia. now apply unravel_valid. }
          erewrite loop_fold with (T := fun kk => [mul (W (oc :: unravel (C :: ker) kk))
             (patch s p d X isp b (unravel osp ((kk * nelem osp + r) / nelem (C :: ker))) (unravel (C :: ker) ((kk * nelem osp + r) mod nelem (C :: ker))))]).
          2:{ intros kk s0 Hkk. apply in_seq in Hkk.
              assert (VW : valid (tshape w) (oc :: unravel (C :: ker) kk)) by (rewrite Sw; split; [auto|apply unravel_valid; lia]).
              replace (loffset (tlay w) + (oc * nelem (C :: ker) + kk))
                with (loffset (tlay w) + ravel (tshape w) (oc :: unravel (C :: ker) kk)).
              2:{ rewrite Sw. cbn [ravel]. rewrite <- (ravel_unravel (C :: ker) kk) at 2 by lia. reflexivity. }
              rewrite dense_read, HW by auto. cbn [obind].
              set (q := kk * nelem osp + r).
              assert (Hq : q < nelem osp * nelem (C :: ker)) by (unfold q; nia).
              replace (nth_error col q) with (nth_error col (q / nelem (C :: ker) * nelem (C :: ker) + q mod nelem (C :: ker)))
                by (f_equal; pose proof (Nat.div_mod q (nelem (C :: ker)) ltac:(lia)); lia).
              rewrite Nc; [reflexivity| |apply Nat.mod_upper_bound; lia].
              apply Nat.div_lt_upper_bound; lia. }
          cbn [obind].
          destruct (store_better A val o1 (b * Co * nelem osp + a)
            (fold_left add (flat_map (fun kk => [mul (W (oc :: unravel (C :: ker) kk))
             (patch s p d X isp b (unravel osp ((kk * nelem osp + r) / nelem (C :: ker))) (unravel (C :: ker) ((kk * nelem osp + r) mod nelem (C :: ker))))]) (seq 0 (nelem (C :: ker)))) zero))
            as (o2 & E2 & B2 & N2).
          { rewrite Lo1, Hpos. now apply ravel_lt. }
          { unfold val. rewrite Hpos, unravel_ravel by auto. cbn [nth skipn]. unfold blas_terms. rewrite ravel_unravel by auto.
            f_equal. }
          exists o2. split; [exact E2|]. split; [auto|]. intros p0 ->. auto.
        - exists res. split; [exact Er|]. split; [auto|]. intros q (a & Ha & ->). apply (Nr a); auto. apply in_seq; lia. }
      rewrite Er. f_equal. rewrite repeat_length in Lr. apply filled; auto. intros q Hq.
      assert (NO : nelem (Co :: osp) <> 0) by (unfold out in Hq; rewrite nelem_cons in Hq; nia).
      apply (Nr (q / nelem (Co :: osp))).
      - apply in_seq. split; [apply Nat.le_0_l|]. apply Nat.div_lt_upper_bound; auto. unfold out in Hq. rewrite nelem_cons in Hq. lia.
      - exists (q mod nelem (Co :: osp)). rewrite <- nelem_cons. split; [apply Nat.mod_upper_bound; auto|].
        pose proof (Nat.div_mod q (nelem (Co :: osp)) NO) as DM. rewrite (nelem_cons Co osp) in DM at 1.
        set (u := q / nelem (Co :: osp)) in *. set (v := q mod nelem (Co :: osp)) in *. clearbody u v. lia. }
    exists (mkT (map val (seq 0 (nelem out))) (from_shape out)), osp.
    split.
    { unfold t_conv2d_blas, t_conv_with. fold (tshape t). fold (tshape w). rewrite St, Sw. cbn [length nth skipn].
      rewrite Li, Lk. cbn [Nat.eqb negb Nat.add]. rewrite Nat.eqb_refl. cbn [negb].
      rewrite E. cbn [bind]. fold out. rewrite K. reflexivity. }
    split; [apply from_shape_good; now rewrite map_length, seq_length|].
    split; [reflexivity|]. split; [auto|].
    intros b oc o V. fold out in V. rewrite elem_fresh by auto. f_equal. unfold val.
    rewrite unravel_ravel by auto. reflexivity.
  Qed.

  (** ** when the two readings of the buffer agree *)
  Variables (mul_comm : forall x y, mul x y = mul y x) (pad_add : forall x y, add x (mul y zero) = x).
  Lemma blas_terms_ok : forall s p d X W C ker isp osp b oc o, length ker = length isp -> length osp = length isp ->
    valid osp o -> nelem osp = 1 \/ nelem (C :: ker) = 1 ->
    fold_left add (blas_terms s p d X W C ker isp osp b oc o) zero =
    fold_left add (conv_terms mul s p d X W C ker isp b oc o) zero.
  Proof.
    intros s p d X W C ker isp osp b oc o Lk Lo V H.
    assert (T : blas_terms s p d X W C ker isp osp b oc o =
      map (fun c => mul (W (oc :: c)) (patch s p d X isp b o c)) (all_idx (C :: ker))).
    { rewrite all_idx_map_unravel, map_map. unfold blas_terms. apply map_ext_in. intros kk Hkk. apply in_seq in Hkk.
      pose proof (ravel_lt _ _ V) as Hr.
      destruct H as [H|H].
      - rewrite H in *. replace (kk * 1 + ravel osp o) with kk by lia.
        rewrite Nat.div_small, Nat.mod_small by lia.
        replace o with (unravel osp 0); [reflexivity|]. replace 0 with (ravel osp o) by lia. now apply unravel_ravel.
      - rewrite H in *. replace kk with 0 by lia. cbn [Nat.mul Nat.add]. rewrite Nat.div_1_r.
        rewrite Nat.mod_1_r. now rewrite unravel_ravel. }
    rewrite T. clear T. unfold conv_terms. generalize zero at 1 2. intro z0.
    assert (Lo' : length o = length isp) by (apply valid_length in V; lia).
    cbn [all_idx]. revert z0.
    assert (G : forall ic z0, fold_left add (map (fun c => mul (W (oc :: c)) (patch s p d X isp b o c)) (map (cons ic) (all_idx ker))) z0 =
      fold_left add (flat_map (fun k => flat_map (fun i => if meets s p d o k i then [mul (X (b :: ic :: i)) (W (oc :: ic :: k))] else [])
        (all_idx isp)) (all_idx ker)) z0).
    { intros ic. assert (VK : forall k, In k (all_idx ker) -> length k = length isp)
        by (intros k Hk; apply in_all_idx, valid_length in Hk; lia).
      induction (all_idx ker) as [|k l IH]; intros z0; auto. cbn [map flat_map fold_left].
      rewrite fold_left_app, pick, patch_pos by (cbn [tl]; auto; apply VK; now left). cbn [hd tl].
      rewrite <- IH by (intros; apply VK; now right).
      destruct (c_pos o k _ _ _ isp); cbn [fold_left].
      - now rewrite mul_comm.
      - now rewrite pad_add. }
    induction (seq 0 C) as [|ic l IH]; intros z0; auto. cbn [flat_map]. rewrite map_app, !fold_left_app, G. apply IH.
  Qed.
End Blas.
