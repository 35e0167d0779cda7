From Coq Require Import List Arith ZArith Bool Lia.
From Verif Require Import Base IndexSpec LayoutModel ViewSpec KernelModel KernelProofs TensorModel TensorSpec
  TensorProofs ScanModel EinsumModel EinsumProofs2 CountModel CountProofs CountProofs2 ConvModel ConvSpec ConvProofs ConvProofs2.
Import ListNotations.

Lemma read_gradw_eq : forall li lg ws st p d nd, wf_layout li -> wf_layout lg ->
  length (lshape lg) = length (lshape li) -> length ws = length (lshape li) ->
  length st = nd -> length p = nd -> length d = nd ->
  read_gradw (gradw_metadata li lg ws st p d nd) =
  Some (mkGw (nelem ws) (lshape li) (lshape lg) ws (lstrides lg) (loffset li) (loffset lg) st p d).
Proof.
  intros li lg ws st p d nd Wi Wg L1 L2 L3 L4 L5. unfold read_gradw, gradw_metadata.
  unfold wf_layout in *.
  rewrite read_n_app by reflexivity. cbn [obind nth].
  rewrite read_n_app by auto. cbn [obind]. rewrite read_n_app by auto. cbn [obind].
  rewrite read_n_app by auto. cbn [obind]. rewrite read_n_app by auto. cbn [obind].
  rewrite read_n_app by lia. cbn [obind]. rewrite read_n_app by auto. cbn [obind nth].
  rewrite read_n_app by auto. cbn [obind]. rewrite read_n_app by auto. cbn [obind].
  replace (read_n nd d) with (Some (d, @nil nat)).
  2:{ rewrite <- (app_nil_r d) at 2. now rewrite read_n_app. }
  reflexivity.
Qed.

Lemma only_idx : forall Y (l : list (list nat)) (P : list nat -> Prop) (dec : forall c, {P c} + {~ P c}) (v : list nat -> Y) c0,
  NoDup l -> In c0 l -> (forall c, P c -> c = c0) ->
  flat_map (fun c => if dec c then [v c] else []) l = if dec c0 then [v c0] else [].
Proof.
  intros Y l P dec v c0 N H U. apply (flat_map_single _ _ (fun c => if dec c then [v c] else [])); auto.
  intros y _ Ny. destruct (dec y) as [p|]; auto. exfalso; auto.
Qed.

Section GradWeight.
  Context {A : Type}.
  Variables (zero : A) (add mul : A -> A -> A).

  Lemma gradw_kernel_spec : forall nd li (g : tensor A) input s p d B C Co isp ker osp X G,
    wf_layout li -> good g -> lshape li = B :: C :: isp -> tshape g = B :: Co :: osp ->
    length isp = nd -> length ker = nd -> length osp = nd ->
    (forall i, valid (B :: C :: isp) i -> nth_error input (loffset li + ravel (B :: C :: isp) i) = Some (X i)) ->
    (forall i, valid (B :: Co :: osp) i -> elem g i = Some (G i)) ->
    exists out, gradw_kernel zero add mul input (tstore g) (repeat zero (nelem (Co :: C :: ker)))
        (gradw_metadata li (tlay g) (Co :: C :: ker) (repeat s nd) (repeat p nd) (repeat d nd) nd) = Some out /\
      length out = nelem (Co :: C :: ker) /\
      forall oc ic k, valid (Co :: C :: ker) (oc :: ic :: k) ->
        nth_error out (ravel (Co :: C :: ker) (oc :: ic :: k)) =
        Some (fold_left add (gradw_terms mul s p d X G B isp osp oc ic k) zero).
  Proof.
    intros nd li g input s p d B C Co isp ker osp X G Wi [Wg Bg] Si Sg Li Lk Lo HX HG.
    set (ws := Co :: C :: ker).
    set (tasks := flat_map (fun b => flat_map (fun oc => flat_map (fun o => flat_map (fun ic => flat_map (fun k =>
        match c_pos o k (repeat s nd) (repeat p nd) (repeat d nd) isp with
        | Some i => [(ravel ws (oc :: ic :: k), mul (X (b :: ic :: i)) (G (b :: oc :: o)))]
        | None => [] end) (all_idx ker)) (seq 0 C)) (all_idx osp)) (seq 0 Co)) (seq 0 B)).
    assert (K : gradw_kernel zero add mul input (tstore g) (repeat zero (nelem ws))
        (gradw_metadata li (tlay g) ws (repeat s nd) (repeat p nd) (repeat d nd) nd) = adds add tasks (repeat zero (nelem ws))).
    { unfold tshape in Sg. unfold gradw_kernel.
      rewrite read_gradw_eq; auto; try (apply repeat_length); [|rewrite Sg, Si; cbn; lia|rewrite Si; cbn; lia].
      rewrite Si, Sg.
      cbn [obind gw_els gw_ishape gw_gshape gw_wshape gw_gstrides gw_ioff gw_goff gw_stride gw_pad gw_dil skipn nth].
      replace (skipn 2 ws) with ker by reflexivity.
      rewrite zero_fill. cbn [obind].
      apply loop_adds. intros b o1 Hb. apply in_seq in Hb.
      apply loop_adds. intros oc o2 Hoc. apply in_seq in Hoc.
      apply loop_adds. intros o o3 Ho. apply in_all_idx in Ho. pose proof (valid_length _ _ Ho).
      assert (Rg : nth_error (tstore g) (loffset (tlay g) + dot (b :: oc :: o) (lstrides (tlay g))) = Some (G (b :: oc :: o))).
      { change (elem g (b :: oc :: o) = Some (G (b :: oc :: o))). apply HG. cbn; repeat split; auto; lia. }
      rewrite Rg. cbn [obind].
      apply loop_adds. intros ic o4 Hic. apply in_seq in Hic.
      apply loop_adds. intros k o5 Hk. apply in_all_idx in Hk. pose proof (valid_length _ _ Hk).
      replace nd with (length isp).
      destruct (c_pos o k _ _ _ isp) as [i|] eqn:Ei; [|reflexivity].
      apply c_pos_some in Ei as [Vi _]; [|lia|lia].
      replace (loffset li + b * C * nelem isp + ic * nelem isp + ravel isp i)
        with (loffset li + ravel (B :: C :: isp) (b :: ic :: i)) by (rewrite ravel2; lia).
      rewrite HX by (cbn; repeat split; auto; lia).
      cbn [obind]. unfold adds. cbn [loopO fst snd]. unfold ws. rewrite ravel2.
      destruct (nth_error o5 _); cbn [obind]; auto. now destruct (c_store _ _ _). }
    destruct (adds_zero zero add ws tasks) as (res & E & L & N).
    { unfold tasks. apply In_flat_map_fst. intros b t Hb. revert t.
      apply In_flat_map_fst. intros oc t Hoc. apply in_seq in Hoc. revert t.
      apply In_flat_map_fst. intros o t _. revert t.
      apply In_flat_map_fst. intros ic t Hic. apply in_seq in Hic. revert t.
      apply In_flat_map_fst. intros k t Hk. apply in_all_idx in Hk.
      destruct (c_pos o k _ _ _ isp) as [i|] eqn:Eo; [|intros []].
      intros [<-|[]]. cbn [fst]. apply ravel_lt. cbn. repeat split; auto; lia. }
    exists res. rewrite K. split; [auto|]. split; [auto|].
    intros oc ic k V. rewrite N by auto. do 2 f_equal.
    pose proof V as V0. cbn [valid ws] in V. destruct V as (Vb & Vc & Vk). pose proof (valid_length _ _ Vk) as Lkk.
    unfold tasks, gradw_terms. rewrite sel_flat_map.
    apply flat_map_ext_in. intros b Hb. apply in_seq in Hb. rewrite sel_flat_map.
    transitivity (flat_map (fun oc' => if Nat.eq_dec oc' oc then
        flat_map (fun o => flat_map (fun i => if meets s p d o k i then [mul (X (b :: ic :: i)) (G (b :: oc :: o))] else [])
          (all_idx isp)) (all_idx osp) else []) (seq 0 Co)).
    2:{ rewrite (flat_map_single _ _ _ _ oc).
        - destruct (Nat.eq_dec oc oc); [reflexivity|congruence].
        - apply seq_NoDup.
        - apply in_seq; lia.
        - intros y _ Ny. destruct (Nat.eq_dec y oc); [congruence|auto]. }
    apply flat_map_ext_in. intros oc' Hoc'. apply in_seq in Hoc'. rewrite sel_flat_map.
    transitivity (flat_map (fun o => if Nat.eq_dec oc' oc then
         flat_map (fun i => if meets s p d o k i then [mul (X (b :: ic :: i)) (G (b :: oc :: o))] else []) (all_idx isp) else [])
         (all_idx osp)).
    2:{ destruct (Nat.eq_dec oc' oc); auto. apply flat_map_nil. auto. }
    apply flat_map_ext_in. intros o Ho. apply in_all_idx in Ho. pose proof (valid_length _ _ Ho). rewrite sel_flat_map.
    rewrite pick by lia. rewrite Li.
    (* the loops over ic and k *)
    set (v := fun k' ic' => match c_pos o k' (repeat s nd) (repeat p nd) (repeat d nd) isp with
        | Some i => [mul (X (b :: ic' :: i)) (G (b :: oc' :: o))] | None => [] end).
    transitivity (flat_map (fun ic' => flat_map (fun k' =>
        if list_eq_dec Nat.eq_dec (oc' :: ic' :: k') (oc :: ic :: k) then v k' ic' else []) (all_idx ker)) (seq 0 C)).
    { apply flat_map_ext_in. intros ic' Hic'. apply in_seq in Hic'. rewrite sel_flat_map.
      apply flat_map_ext_in. intros k' Hk'. apply in_all_idx in Hk'. unfold v.
      destruct (c_pos o k' _ _ _ isp).
      - apply sel_cell; auto. cbn; repeat split; auto; lia.
      - now destruct (list_eq_dec _ _ _). }
    rewrite (flat_map_single _ _ _ _ ic).
    - rewrite (flat_map_single _ _ _ _ k).
      + unfold v. destruct (list_eq_dec _ _ _) as [Q|Q].
        * inversion Q; subst. destruct (Nat.eq_dec oc oc); [|congruence]. reflexivity.
        * destruct (Nat.eq_dec oc' oc); [congruence|auto].
      + apply all_idx_NoDup.
      + now apply in_all_idx.
      + intros y _ Ny. destruct (list_eq_dec _ _ _); [congruence|auto].
    - apply seq_NoDup.
    - apply in_seq; lia.
    - intros y _ Ny. apply flat_map_nil. intros k' _. destruct (list_eq_dec _ _ _); [congruence|auto].
  Qed.

  Lemma gradw_t_kernel_spec : forall nd li (g : tensor A) input s p d B C Co isp ker osp X G,
    wf_layout li -> good g -> lshape li = B :: C :: isp -> tshape g = B :: Co :: osp ->
    length isp = nd -> length ker = nd -> length osp = nd ->
    (forall i, valid (B :: C :: isp) i -> nth_error input (loffset li + ravel (B :: C :: isp) i) = Some (X i)) ->
    (forall i, valid (B :: Co :: osp) i -> elem g i = Some (G i)) ->
    exists out, gradw_t_kernel zero add mul input (tstore g) (repeat zero (nelem (C :: Co :: ker)))
        (gradw_metadata li (tlay g) (C :: Co :: ker) (repeat s nd) (repeat p nd) (repeat d nd) nd) = Some out /\
      length out = nelem (C :: Co :: ker) /\
      forall ic oc k, valid (C :: Co :: ker) (ic :: oc :: k) ->
        nth_error out (ravel (C :: Co :: ker) (ic :: oc :: k)) =
        Some (fold_left add (gradw_t_terms mul s p d X G B isp osp ic oc k) zero).
  Proof.
    intros nd li g input s p d B C Co isp ker osp X G Wi [Wg Bg] Si Sg Li Lk Lo HX HG.
    set (ws := C :: Co :: ker).
    set (tasks := flat_map (fun b => flat_map (fun ic => flat_map (fun i => flat_map (fun oc => flat_map (fun k =>
        match c_pos i k (repeat s nd) (repeat p nd) (repeat d nd) osp with
        | Some o => [(ravel ws (ic :: oc :: k), mul (X (b :: ic :: i)) (G (b :: oc :: o)))]
        | None => [] end) (all_idx ker)) (seq 0 Co)) (all_idx isp)) (seq 0 C)) (seq 0 B)).
    assert (K : gradw_t_kernel zero add mul input (tstore g) (repeat zero (nelem ws))
        (gradw_metadata li (tlay g) ws (repeat s nd) (repeat p nd) (repeat d nd) nd) = adds add tasks (repeat zero (nelem ws))).
    { unfold tshape in Sg. unfold gradw_t_kernel.
      rewrite read_gradw_eq; auto; try (apply repeat_length); [|rewrite Sg, Si; cbn; lia|rewrite Si; cbn; lia].
      rewrite Si, Sg.
      cbn [obind gw_els gw_ishape gw_gshape gw_wshape gw_gstrides gw_ioff gw_goff gw_stride gw_pad gw_dil skipn nth].
      replace (skipn 2 ws) with ker by reflexivity.
      rewrite zero_fill. cbn [obind].
      apply loop_adds. intros b o1 Hb. apply in_seq in Hb.
      apply loop_adds. intros ic o4 Hic. apply in_seq in Hic.
      apply loop_adds. intros i o3 Hi. apply in_all_idx in Hi. pose proof (valid_length _ _ Hi).
      replace (loffset li + b * C * nelem isp + ic * nelem isp + ravel isp i)
        with (loffset li + ravel (B :: C :: isp) (b :: ic :: i)) by (rewrite ravel2; lia).
      rewrite HX by (cbn; repeat split; auto; lia).
      cbn [obind].
      apply loop_adds. intros oc o2 Hoc. apply in_seq in Hoc.
      apply loop_adds. intros k o5 Hk. apply in_all_idx in Hk. pose proof (valid_length _ _ Hk).
      replace nd with (length osp).
      destruct (c_pos i k _ _ _ osp) as [o|] eqn:Ei; [|reflexivity].
      apply c_pos_some in Ei as [Vi _]; [|lia|lia].
      assert (Rg : nth_error (tstore g) (loffset (tlay g) + dot (b :: oc :: o) (lstrides (tlay g))) = Some (G (b :: oc :: o))).
      { change (elem g (b :: oc :: o) = Some (G (b :: oc :: o))). apply HG. cbn; repeat split; auto; lia. }
      rewrite Rg. cbn [obind]. unfold adds. cbn [loopO fst snd]. unfold ws. rewrite ravel2.
      destruct (nth_error o5 _); cbn [obind]; auto. now destruct (c_store _ _ _). }
    destruct (adds_zero zero add ws tasks) as (res & E & L & N).
    { unfold tasks. apply In_flat_map_fst. intros b t Hb. revert t.
      apply In_flat_map_fst. intros ic t Hic. apply in_seq in Hic. revert t.
      apply In_flat_map_fst. intros i t _. revert t.
      apply In_flat_map_fst. intros oc t Hoc. apply in_seq in Hoc. revert t.
      apply In_flat_map_fst. intros k t Hk. apply in_all_idx in Hk.
      destruct (c_pos i k _ _ _ osp) as [o|] eqn:Eo; [|intros []].
      intros [<-|[]]. cbn [fst]. apply ravel_lt. cbn. repeat split; auto; lia. }
    exists res. rewrite K. split; [auto|]. split; [auto|].
    intros ic oc k V. rewrite N by auto. do 2 f_equal.
    pose proof V as V0. cbn [valid ws] in V. destruct V as (Vb & Vc & Vk). pose proof (valid_length _ _ Vk) as Lkk.
    unfold tasks, gradw_t_terms. rewrite sel_flat_map.
    apply flat_map_ext_in. intros b Hb. apply in_seq in Hb. rewrite sel_flat_map.
    transitivity (flat_map (fun ic' => if Nat.eq_dec ic' ic then
        flat_map (fun i => flat_map (fun o => if meets s p d i k o then [mul (X (b :: ic :: i)) (G (b :: oc :: o))] else [])
          (all_idx osp)) (all_idx isp) else []) (seq 0 C)).
    2:{ rewrite (flat_map_single _ _ _ _ ic).
        - destruct (Nat.eq_dec ic ic); [reflexivity|congruence].
        - apply seq_NoDup.
        - apply in_seq; lia.
        - intros y _ Ny. destruct (Nat.eq_dec y ic); [congruence|auto]. }
    apply flat_map_ext_in. intros ic' Hic'. apply in_seq in Hic'. rewrite sel_flat_map.
    transitivity (flat_map (fun i => if Nat.eq_dec ic' ic then
         flat_map (fun o => if meets s p d i k o then [mul (X (b :: ic :: i)) (G (b :: oc :: o))] else []) (all_idx osp) else [])
         (all_idx isp)).
    2:{ destruct (Nat.eq_dec ic' ic); auto. apply flat_map_nil. auto. }
    apply flat_map_ext_in. intros i Hi. apply in_all_idx in Hi. pose proof (valid_length _ _ Hi). rewrite sel_flat_map.
    rewrite pick by lia. rewrite Lo.
    set (v := fun k' oc' => match c_pos i k' (repeat s nd) (repeat p nd) (repeat d nd) osp with
        | Some o => [mul (X (b :: ic' :: i)) (G (b :: oc' :: o))] | None => [] end).
    transitivity (flat_map (fun oc' => flat_map (fun k' =>
        if list_eq_dec Nat.eq_dec (ic' :: oc' :: k') (ic :: oc :: k) then v k' oc' else []) (all_idx ker)) (seq 0 Co)).
    { apply flat_map_ext_in. intros oc' Hoc'. apply in_seq in Hoc'. rewrite sel_flat_map.
      apply flat_map_ext_in. intros k' Hk'. apply in_all_idx in Hk'. unfold v.
      destruct (c_pos i k' _ _ _ osp).
      - apply sel_cell; auto. cbn; repeat split; auto; lia.
      - now destruct (list_eq_dec _ _ _). }
    rewrite (flat_map_single _ _ _ _ oc).
    - rewrite (flat_map_single _ _ _ _ k).
      + unfold v. destruct (list_eq_dec _ _ _) as [Q|Q].
        * inversion Q; subst. destruct (Nat.eq_dec ic ic); [|congruence]. reflexivity.
        * destruct (Nat.eq_dec ic' ic); [congruence|auto].
      + apply all_idx_NoDup.
      + now apply in_all_idx.
      + intros y _ Ny. destruct (list_eq_dec _ _ _); [congruence|auto].
    - apply seq_NoDup.
    - apply in_seq; lia.
    - intros y _ Ny. apply flat_map_nil. intros k' _. destruct (list_eq_dec _ _ _); [congruence|auto].
  Qed.
End GradWeight.
