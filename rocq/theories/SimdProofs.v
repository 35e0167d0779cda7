From Coq Require Import List Arith Bool Lia ZArith SpecFloat.
From Verif Require Import Base IndexSpec LayoutModel ViewSpec LayoutProofs KernelModel TensorModel KernelProofs ReduceModel ReduceSpec ReduceProofs.
From Verif Require Import SimdModel SimdSpec.
Import ListNotations.
Open Scope nat_scope.

Lemma skipn_add : forall A a b (l : list A), skipn b (skipn a l) = skipn (a + b) l.
Proof. induction a as [|a IH]; intros b [|x l]; cbn [skipn Nat.add]; auto. now rewrite skipn_nil. Qed.
Lemma skipn_rd : forall A (d : A) input p, p < length input -> skipn p input = rd d input p :: skipn (S p) input.
Proof. induction input as [|y l IH]; intros [|p] H; cbn in H; try lia; [reflexivity|]. cbn [skipn]. rewrite (IH p) by lia. reflexivity. Qed.
Lemma firstn_skipn_rd : forall A (d : A) input n p, p + n <= length input -> firstn n (skipn p input) = map (rd d input) (seq p n).
Proof.
  intros A d input. induction n as [|n IH]; intros p H; [reflexivity|]. rewrite (skipn_rd A d) by lia. cbn [firstn seq map]. f_equal. apply IH. lia.
Qed.
Lemma v_load_rd : forall A (d : A) w input p, p + w <= length input -> v_load w input p = Some (map (rd d input) (seq p w)).
Proof. intros A d w input p H. unfold v_load. replace (p + w <=? length input) with true by lia. now rewrite (firstn_skipn_rd A d). Qed.
Lemma seq_shift_map : forall A (f : nat -> A) off n k, map f (seq (off + k) n) = map (fun i => f (off + i)) (seq k n).
Proof. intros A f off. induction n as [|n IH]; intros k; [reflexivity|]. cbn [seq map]. f_equal. rewrite <- IH. do 2 f_equal. lia. Qed.
Lemma lanes2_map : forall A C B (f : A -> C -> B) (x : nat -> A) (y : nat -> C) l, lanes2 f (map x l) (map y l) = map (fun i => f (x i) (y i)) l.
Proof. induction l; cbn; congruence. Qed.

(** ** Elementwise *)
Lemma v_for_spec : forall B w (F : nat -> B) g blocks start pre out, length pre = start -> blocks * w <= length out ->
  (forall i, i < blocks -> g (start + i * w) = Some (map F (seq (start + i * w) w))) ->
  v_for w start blocks g (pre ++ out) = Some (pre ++ map F (seq start (blocks * w)) ++ skipn (blocks * w) out).
Proof.
  intros B w F g. induction blocks as [|b IH]; intros start pre out Hp Ho Hg; [reflexivity|]. cbn [v_for Nat.mul] in *.
  pose proof (Hg 0 ltac:(lia)) as G0. cbn [Nat.mul] in G0. rewrite Nat.add_0_r in G0. rewrite G0. cbn [obind].
  unfold v_store. rewrite map_length, seq_length, app_length. replace (start + w <=? length pre + length out) with true by lia. cbn [obind].
  replace (firstn start (pre ++ out)) with pre by (subst start; rewrite firstn_app, Nat.sub_diag, firstn_all; cbn; now rewrite app_nil_r).
  replace (skipn (start + w) (pre ++ out)) with (skipn w out) by (rewrite skipn_app, (skipn_all2 pre) by lia; cbn [app]; f_equal; lia).
  rewrite app_assoc, IH.
  - now rewrite seq_app, map_app, <- !app_assoc, skipn_add.
  - rewrite app_length, map_length, seq_length. lia.
  - rewrite skipn_length. lia.
  - intros i Hi. specialize (Hg (S i) ltac:(lia)). cbn [Nat.mul] in Hg. now rewrite Nat.add_assoc in Hg.
Qed.
Lemma blocks_le : forall n w, n / w * w <= n.
Proof. intros n w. destruct w; [lia|]. rewrite Nat.mul_comm. apply Nat.mul_div_le. lia. Qed.
(** blocks, then the remainder *)
Lemma blocked_for : forall B w (F : nat -> B) g h n out, length out = n ->
  (forall i, i + w <= n -> g i = Some (map F (seq i w))) -> (forall i, i < n -> h i = Some (F i)) ->
  (let? out' := v_for w 0 (n / w) g out in seq_for_from (n / w * w) (n - n / w * w) h out') = Some (map F (seq 0 n)).
Proof.
  intros B w F g h n out Ho Hg Hh. pose proof (blocks_le n w).
  pose proof (v_for_spec B w F g (n / w) 0 [] out eq_refl ltac:(lia)) as E. cbn [app Nat.add] in E. rewrite E; clear E.
  2:{ intros i Hi. apply Hg. nia. }
  cbn [obind]. rewrite seq_for_from_spec by (rewrite ?map_length, ?seq_length, ?skipn_length; lia).
  rewrite (mapO_total _ _ h F); [|intros i Hi; apply in_seq in Hi; apply Hh; lia].
  f_equal. rewrite <- map_app. f_equal. replace (seq (n / w * w)) with (seq (0 + n / w * w)) by reflexivity. rewrite <- seq_app. f_equal. lia.
Qed.

Section K.
Context {A C B : Type} (d : A) (d' : C).
Lemma simd_unary_spec : forall w (lane f : A -> B) input out l, 0 < w ->
  wf_layout l -> offset_read l -> in_bounds (length input) l -> length out = nelem (lshape l) ->
  (forall i x, valid (lshape l) i -> nth_error input (addr l i) = Some x -> lane x = f x) ->
  simd_unary_kernel w lane f input out (unary_metadata l l) =
  Some (map (fun k => f (rd d input (addr l (unravel (lshape l) k)))) (seq 0 (nelem (lshape l)))).
Proof.
  intros w lane f input out l W Hw Hor Hb Ho HL. unfold simd_unary_kernel.
  destruct (unary_md l Hw) as [E0 [E1 [E2 [E3 _]]]].
  rewrite E0. cbn [obind]. rewrite E1. cbn [obind]. rewrite E2. cbn [obind]. rewrite E3.
  cbn [obind]. rewrite (off_read l Hw Hor). cbn [obind].
  set (s := lshape l) in *.
  assert (RA : forall k, k < nelem s -> nth_error input (addr l (unravel s k)) = Some (rd d input (addr l (unravel s k)))).
  { intros k Hk. apply nth_error_rd. apply Hb. now apply unravel_valid. }
  destruct (c_is_contiguous s (lstrides l)) eqn:Cc; cbn [andb].
  - assert (AD : forall k, k < nelem s -> addr l (unravel s k) = loffset l + k) by (intros k Hk; apply addr_contig_k; auto).
    destruct (Nat.eqb_spec (loffset l) 0) as [O0|O0].
    + apply (blocked_for B w (fun k => f (rd d input (addr l (unravel s k))))); auto.
      * intros i Hi. destruct w as [|w]; [lia|].
        rewrite (v_load_rd A d).
        2:{ specialize (RA (i + w) ltac:(lia)). rewrite AD, O0 in RA by lia. assert (i + w < length input) by (apply nth_error_Some; cbn in RA; congruence). lia. }
        cbn [obind]. f_equal. rewrite map_map. apply map_ext_in. intros k Hk. apply in_seq in Hk.
        assert (Hk' : k < nelem s) by lia. specialize (HL (unravel s k) (rd d input k) (unravel_valid _ _ Hk')). specialize (RA k ltac:(lia)). rewrite AD, O0 in * by lia. cbn [Nat.add] in *. auto.
      * intros i Hi. specialize (RA i Hi). rewrite AD, O0 in * by auto. cbn [Nat.add] in *. now rewrite RA.
    + apply seq_for_total; auto. intros k Hk. specialize (RA k Hk). rewrite AD in * by auto. now rewrite RA.
  - apply seq_for_total; auto. intros k Hk. specialize (RA k Hk). rewrite c_strided_spec by auto. cbn [obind]. unfold addr in *. now rewrite RA.
Qed.

Lemma simd_binary_spec : forall w (f : A -> C -> B) lhs rhs out la lb s, 0 < w ->
  wf_layout la -> wf_layout lb -> lshape la = s -> lshape lb = s ->
  in_bounds (length lhs) la -> in_bounds (length rhs) lb -> length out = nelem s ->
  simd_binary_kernel w f f lhs rhs out (binary_metadata la lb la) =
  Some (map (fun k => f (rd d lhs (addr la (unravel s k))) (rd d' rhs (addr lb (unravel s k)))) (seq 0 (nelem s))).
Proof.
  intros w f lhs rhs out la lb s W Hwa Hwb Hsa Hsb Hba Hbb Ho.
  unfold simd_binary_kernel, binary_metadata, layout_size.
  change shape_size with nelem. rewrite Hsa, Hsb.
  assert (La : length (lstrides la) = length s) by (rewrite <- Hsa; auto).
  assert (Lb : length (lstrides lb) = length s) by (rewrite <- Hsb; auto).
  set (n := length s) in *.
  cbn [nth_error app obind].
  change (nelem s :: n :: s ++ s ++ lstrides la ++ lstrides lb ++ [loffset la; loffset lb])
    with ([nelem s; n] ++ s ++ s ++ lstrides la ++ lstrides lb ++ [loffset la; loffset lb]).
  assert (E1 : md_slice ([nelem s; n] ++ s ++ s ++ lstrides la ++ lstrides lb ++ [loffset la; loffset lb]) 2 n = Some s)
    by (apply md_slice_app; auto).
  assert (E2 : md_slice ([nelem s; n] ++ s ++ s ++ lstrides la ++ lstrides lb ++ [loffset la; loffset lb]) (2 + n) n = Some s).
  { rewrite (app_assoc [nelem s; n] s). apply md_slice_app; auto. }
  assert (E3 : md_slice ([nelem s; n] ++ s ++ s ++ lstrides la ++ lstrides lb ++ [loffset la; loffset lb]) (2 + 2 * n) n = Some (lstrides la)).
  { rewrite (app_assoc [nelem s; n] s), (app_assoc _ s). apply md_slice_app; auto.
    rewrite !app_length. fold n. simpl. lia. }
  assert (E4 : md_slice ([nelem s; n] ++ s ++ s ++ lstrides la ++ lstrides lb ++ [loffset la; loffset lb]) (2 + 3 * n) n = Some (lstrides lb)).
  { rewrite (app_assoc [nelem s; n] s), (app_assoc _ s), (app_assoc _ (lstrides la)).
    apply md_slice_app; auto. rewrite !app_length. fold n. simpl. lia. }
  assert (E5 : nth_error ([nelem s; n] ++ s ++ s ++ lstrides la ++ lstrides lb ++ [loffset la; loffset lb]) (2 + 4 * n) = Some (loffset la)).
  { rewrite (app_assoc [nelem s; n] s), (app_assoc _ s), (app_assoc _ (lstrides la)), (app_assoc _ (lstrides lb)).
    apply nth_error_app_at. rewrite !app_length. fold n. simpl. lia. }
  assert (E6 : nth_error ([nelem s; n] ++ s ++ s ++ lstrides la ++ lstrides lb ++ [loffset la; loffset lb]) (2 + 4 * n + 1) = Some (loffset lb)).
  { rewrite (app_assoc [nelem s; n] s), (app_assoc _ s), (app_assoc _ (lstrides la)), (app_assoc _ (lstrides lb)).
    change [loffset la; loffset lb] with ([loffset la] ++ [loffset lb]). rewrite app_assoc.
    apply nth_error_app_at. rewrite !app_length. fold n. simpl. lia. }
  rewrite E1, E2, E3, E4, E5, E6. cbn [obind].
  assert (SA : forall k, k < nelem s -> c_strided k s (lstrides la) = Some (dot (unravel s k) (lstrides la)))
    by (intros; apply c_strided_spec; auto).
  assert (SB : forall k, k < nelem s -> c_strided k s (lstrides lb) = Some (dot (unravel s k) (lstrides lb)))
    by (intros; apply c_strided_spec; auto).
  assert (RA : forall k, k < nelem s ->
     nth_error lhs (addr la (unravel s k)) = Some (rd d lhs (addr la (unravel s k)))).
  { intros k Hk. apply nth_error_rd. apply Hba. rewrite Hsa. now apply unravel_valid. }
  assert (RB : forall k, k < nelem s ->
     nth_error rhs (addr lb (unravel s k)) = Some (rd d' rhs (addr lb (unravel s k)))).
  { intros k Hk. apply nth_error_rd. apply Hbb. rewrite Hsb. now apply unravel_valid. }
  assert (CA : c_is_contiguous s (lstrides la) = true -> forall k, k < nelem s ->
     addr la (unravel s k) = loffset la + k).
  { intros H k Hk. rewrite <- Hsa in *. now apply addr_contig_k. }
  assert (CB : c_is_contiguous s (lstrides lb) = true -> forall k, k < nelem s ->
     addr lb (unravel s k) = loffset lb + k).
  { intros H k Hk. rewrite <- Hsb in *. now apply addr_contig_k. }
  destruct (c_is_contiguous s (lstrides la)) eqn:Ca;
  destruct (c_is_contiguous s (lstrides lb)) eqn:Cb; cbn [andb].
  - specialize (CA eq_refl). specialize (CB eq_refl).
    apply (blocked_for B w (fun k => f (rd d lhs (addr la (unravel s k))) (rd d' rhs (addr lb (unravel s k))))); auto.
    + intros i Hi. destruct w as [|w]; [lia|].
      rewrite (v_load_rd A d).
      2:{ specialize (RA (i + w) ltac:(lia)). rewrite CA in RA by lia. assert (loffset la + (i + w) < length lhs) by (apply nth_error_Some; congruence). lia. }
      rewrite (v_load_rd C d').
      2:{ specialize (RB (i + w) ltac:(lia)). rewrite CB in RB by lia. assert (loffset lb + (i + w) < length rhs) by (apply nth_error_Some; congruence). lia. }
      cbn [obind]. f_equal. rewrite !seq_shift_map, lanes2_map. apply map_ext_in. intros k Hk. apply in_seq in Hk. now rewrite CA, CB by lia.
    + intros i Hi. specialize (RA i Hi). specialize (RB i Hi). rewrite CA in * by auto. rewrite CB in * by auto. now rewrite RA, RB.
  - apply seq_for_total; auto. intros k Hk. specialize (RA k Hk). specialize (RB k Hk).
    rewrite (CA eq_refl k Hk) in *. rewrite SB by auto. cbn [obind].
    unfold addr in *. now rewrite RA, RB.
  - apply seq_for_total; auto. intros k Hk. specialize (RA k Hk). specialize (RB k Hk).
    rewrite (CB eq_refl k Hk) in *. rewrite SA by auto. cbn [obind].
    unfold addr in *. now rewrite RA, RB.
  - apply seq_for_total; auto. intros k Hk. specialize (RA k Hk). specialize (RB k Hk).
    rewrite SA, SB by auto. cbn [obind]. unfold addr in *. now rewrite RA, RB.
Qed.
End K.

(** ** Reductions *)
Section Fold.
Context {A B : Type}.
Variables (op : B -> B -> B) (init : B) (inj : A -> B) (ok : B -> Prop).
Definition total (l : list B) : B := fold_right op init l.
Variable CB : combines op init ok.
Notation step := (adding op inj).
Lemma total_ok : forall l, Forall ok l -> ok (total l).
Proof. destruct CB as [c_init0 c_op0 c_assoc0 c_comm0 c_unit0]. induction 1; cbn; auto. Qed.
Lemma fold_total : forall l acc, ok acc -> Forall (fun x => ok (inj x)) l -> fold_left step l acc = op acc (total (map inj l)).
Proof.
  destruct CB as [c_init0 c_op0 c_assoc0 c_comm0 c_unit0]. induction l as [|x l IH]; intros acc Ha F; cbn [fold_left map total fold_right]; [now rewrite c_unit0|].
  inversion F; subst. rewrite IH by (auto; unfold adding; auto). unfold adding. symmetry. apply c_assoc0; auto. apply total_ok. now apply Forall_map.
Qed.
Lemma swap4 : forall a b c d, ok a -> ok b -> ok c -> ok d -> op (op a b) (op c d) = op (op a c) (op b d).
Proof.
  destruct CB as [c_init0 c_op0 c_assoc0 c_comm0 c_unit0]. intros a b c d Ha Hb Hc Hd. rewrite <- !c_assoc0 by auto. f_equal. rewrite !c_assoc0 by auto. f_equal. now apply c_comm0.
Qed.
Lemma lanes_total : forall v l, length v = length l -> Forall ok v -> Forall (fun x => ok (inj x)) l ->
  total (lanes2 step v l) = op (total v) (total (map inj l)) /\ Forall ok (lanes2 step v l) /\ length (lanes2 step v l) = length v.
Proof.
  pose proof CB as [c_init0 c_op0 c_assoc0 c_comm0 c_unit0]. induction v as [|b v IH]; intros [|x l] L Hv Hl; try discriminate; cbn [lanes2 total fold_right map].
  - now rewrite c_unit0.
  - inversion Hv; inversion Hl; subst. destruct (IH l) as (E & F & N); auto. cbn [length]. rewrite N. split; [|split; auto; constructor; auto; unfold adding; auto].
    fold (total (lanes2 step v l)). rewrite E. unfold adding. apply swap4; auto; apply total_ok; auto. now apply Forall_map.
Qed.
Variable w : nat.
Lemma v_rest_spec : forall input n p acc, p + n <= length input -> v_rest step input p n acc = Some (fold_left step (firstn n (skipn p input)) acc).
Proof.
  intros input. induction n as [|n IH]; intros p acc H; [reflexivity|]. cbn [v_rest].
  destruct (nth_error input p) as [x|] eqn:E; [|apply nth_error_None in E; lia]. cbn [obind]. rewrite IH by lia.
  rewrite (skipn_rd A x input p) by lia. cbn [firstn fold_left]. f_equal. f_equal. f_equal. unfold rd. symmetry. now apply nth_error_nth.
Qed.
Lemma v_blocks_spec : forall input blocks p v, p + blocks * w <= length input -> length v = w -> Forall ok v ->
  Forall (fun x => ok (inj x)) (firstn (blocks * w) (skipn p input)) ->
  exists v', v_blocks w step input p blocks v = Some v' /\ length v' = w /\ Forall ok v' /\
    total v' = fold_left step (firstn (blocks * w) (skipn p input)) (total v).
Proof.
  intros input. induction blocks as [|b IH]; intros p v H L F Fx; [now exists v|]. cbn [v_blocks Nat.mul] in *.
  assert (SP : firstn (w + b * w) (skipn p input) = firstn w (skipn p input) ++ firstn (b * w) (skipn (p + w) input)).
  { rewrite <- skipn_add. generalize (skipn p input). intros l. rewrite <- (firstn_skipn w l) at 1. rewrite firstn_app.
    destruct (le_lt_dec w (length l)).
    - rewrite firstn_length, Nat.min_l by lia. rewrite firstn_all2 by (rewrite firstn_length; lia). f_equal. f_equal. lia.
    - rewrite skipn_all2 by lia. rewrite !firstn_nil. f_equal. rewrite (firstn_all2 (n := w)) by lia. apply firstn_all2. lia. }
  rewrite SP in *. apply Forall_app in Fx. destruct Fx as [F1 F2].
  unfold v_load at 1. replace (p + w <=? length input) with true by lia. cbn [obind].
  assert (L1 : length (firstn w (skipn p input)) = w) by (rewrite firstn_length, skipn_length; lia).
  destruct (lanes_total v (firstn w (skipn p input)) ltac:(congruence) F F1) as (T1 & T2 & T3).
  destruct (IH (p + w) (lanes2 step v (firstn w (skipn p input))) ltac:(lia) ltac:(congruence) T2 F2) as (v' & E & L' & F' & T').
  exists v'. repeat split; auto. rewrite T', T1, fold_left_app. f_equal. symmetry. apply fold_total; auto. now apply total_ok.
Qed.
Variable hz : list B -> B.
Hypothesis HZ : forall v, length v = w -> Forall ok v -> hz v = total v.
Lemma simd_fold : forall input p n, p + n <= length input -> Forall (fun x => ok (inj x)) (firstn n (skipn p input)) ->
  (let? vacc := v_blocks w step input p (n / w) (repeat init w) in v_rest step input (p + n / w * w) (n - n / w * w) (hz vacc)) =
  Some (fold_left step (firstn n (skipn p input)) init).
Proof.
  intros input p n H F. pose proof (blocks_le n w) as BL. pose proof CB as [c_init0 c_op0 c_assoc0 c_comm0 c_unit0].
  assert (SP : firstn n (skipn p input) = firstn (n / w * w) (skipn p input) ++ firstn (n - n / w * w) (skipn (p + n / w * w) input)).
  { rewrite <- skipn_add. set (q := n / w * w) in *. rewrite <- (firstn_skipn q (skipn p input)) at 1. rewrite firstn_app, firstn_length, skipn_length.
    rewrite Nat.min_l by lia. f_equal. apply firstn_all2. rewrite firstn_length. lia. }
  rewrite SP in *. apply Forall_app in F. destruct F as [F1 F2].
  destruct (v_blocks_spec input (n / w) p (repeat init w)) as (v & E & L & Fv & T); auto; try lia.
  - apply repeat_length.
  - clear - c_init0. induction w; cbn; constructor; auto.
  - rewrite E. cbn [obind]. rewrite v_rest_spec by lia. rewrite HZ, T, fold_left_app by auto. do 3 f_equal.
    clear - c_unit0 c_init0. induction w as [|k IH]; cbn [repeat total fold_right]; auto. fold (total (repeat init k)). rewrite IH. auto.
Qed.
End Fold.

Lemma flat_last : forall b st r q, length b = S r -> length st = S r -> nth_error st r = Some 1 ->
  dot (upd b r q) st = dot (firstn r b) (firstn r st) + q.
Proof.
  induction b as [|x b IH]; intros st r q Lb Ls Hn; [discriminate|]. destruct st as [|y st]; [discriminate|]. destruct r as [|r].
  - cbn in Hn. injection Hn as ->. destruct b; [|discriminate]. destruct st; [|discriminate]. cbn. lia.
  - cbn [upd firstn dot] in *. cbn in Lb, Ls. rewrite (IH st r q) by (auto; lia). lia.
Qed.
Lemma use_simd_inv : forall w nd n st ds, use_simd w nd n st ds = true -> exists r, ds = [r] /\ S r = nd /\ nth_error st r = Some 1 /\ w <= n.
Proof.
  intros w nd n st ds H. unfold use_simd in H. destruct ds as [|r [|? ?]]; try discriminate. exists r.
  apply andb_true_iff in H. destruct H as [H H2]. apply andb_true_iff in H. destruct H as [H0 H1].
  destruct (nth_error st r) as [x|] eqn:E; [|discriminate]. apply Nat.eqb_eq in H1. subst x. repeat split; auto; lia.
Qed.

Section Kernel.
Context {A B C : Type} (op : B -> B -> B) (init : B) (inj : A -> B) (ok : B -> Prop) (fin : nat -> B -> C) (d0 : A).
Notation stp := (adding op inj).
Lemma simd_reduce_spec : forall w hz (input : list A) (out : list C) l ds keep,
  combines op init ok -> (forall v, length v = w -> Forall ok v -> hz v = fold_right op init v) -> 0 < w ->
  wf_layout l -> in_bounds (length input) l -> NoDup ds ->
  Forall (fun d => d < length (lshape l)) ds -> length (lshape l) <= 16 ->
  (forall i, valid (lshape l) i -> ok (inj (rd d0 input (addr l i)))) ->
  length out = nelem (rshape keep ds (lshape l)) ->
  simd_reduce_kernel w hz init stp stp fin input out (reduce_metadata l ds keep) =
  Some (map (fun k => fin (nelem (extents ds (lshape l)))
                       (fold_left (fun b i => stp b (rd d0 input (addr l i)))
                          (visit keep ds (lshape l) (unravel (rshape keep ds (lshape l)) k)) init))
            (seq 0 (nelem (rshape keep ds (lshape l))))).
Proof.
  intros w hz input out l ds keep CB HZ W Hw Hb ND HF HR OK Ho.
  destruct (reduce_md l ds keep Hw) as [M1 [M2 [M3 [M4 [M5 [M6 [M7 [M8 [M9 M10]]]]]]]]].
  unfold simd_reduce_kernel. rewrite M1. cbn [obind]. rewrite M2. cbn [obind]. rewrite M3. cbn [obind].
  rewrite M4. cbn [obind]. rewrite M5. cbn [obind]. rewrite M6. cbn [obind]. rewrite M7. cbn [obind].
  rewrite M8. cbn [obind]. rewrite M9. cbn [obind]. rewrite M10. cbn [obind].
  clear M1 M2 M3 M4 M5 M6 M7 M8 M9 M10.
  change shape_size with nelem. rewrite kernel_out_nelem.
  set (s := lshape l) in *. 
  apply seq_for_total; [exact Ho|]. intros k Hk.
  pose proof (kernel_out_len keep ds s). replace ((16 <? length s) || (16 <? length (kernel_out_shape keep ds s))) with false by lia.
  rewrite c_unravel_spec by (rewrite kernel_out_nelem; exact Hk). cbn [obind].
  pose proof (kernel_out_unravel keep ds s k Hk) as U. cbn zeta in U.
  pose proof (unravel_valid _ _ Hk) as Vj.
  set (j := unravel (rshape keep ds s) k) in *.
  destruct (base_idx_spec keep ds s j Vj) as [Lb [Pb Ob]].
  assert (E : (if negb ((if keep then 1 else 0) =? 0)
      then md_slice (unravel (kernel_out_shape keep ds s) k) 0 (length s)
      else Some (spread ds 0 (length s) (unravel (kernel_out_shape keep ds s) k)))
      = Some (base_idx keep ds (length s) j)).
  { destruct keep; cbn [negb Nat.eqb base_idx].
    - destruct U as [U1 U2]. unfold md_slice. cbn [Nat.add].
      replace (length s <=? length (unravel (kernel_out_shape true ds s) k)) with true by lia.
      cbn [skipn]. now rewrite U2.
    - now rewrite U. }
  rewrite E. cbn [obind].
  assert (Vp : forall q, q < nelem (extents ds s) ->
             valid s (place ds (unravel (extents ds s) q) (base_idx keep ds (length s) j))).
  { intros q Hq. apply place_valid; auto. now apply unravel_valid. }
  destruct (use_simd w (length s) (nelem (extents ds s)) (lstrides l) ds) eqn:US.
  - destruct (use_simd_inv _ _ _ _ _ US) as (r & -> & NR & ST & WN). set (b := base_idx keep [r] (length s) j) in *.
    assert (LS : length (lstrides l) = S r) by (rewrite NR; exact Hw).
    unfold visit. fold b. rewrite all_idx_map_unravel, map_map. set (n := nelem (extents [r] s)) in *.
    assert (UN : forall q, q < n -> place [r] (unravel (extents [r] s) q) b = upd b r q).
    { intros q Hq. unfold extents. cbn [map unravel place]. f_equal. change (nelem []) with 1. now rewrite Nat.div_1_r. }
    assert (AD : forall q, q < n -> addr l (place [r] (unravel (extents [r] s) q) b) = flat_index (loffset l) (firstn (length s - 1) b) (firstn (length s - 1) (lstrides l)) + q).
    { intros q Hq. rewrite UN by auto. unfold addr. rewrite flat_last by (auto; congruence). rewrite flat_index_dot. replace (length s - 1) with r by lia. lia. }
    set (p := flat_index (loffset l) (firstn (length s - 1) b) (firstn (length s - 1) (lstrides l))) in *.
    assert (PN : p + n <= length input).
    { destruct n as [|m] eqn:En; [lia|]. specialize (Hb _ (Vp m ltac:(lia))). rewrite AD in Hb by lia. lia. }
    cbn zeta. rewrite (simd_fold op init inj ok CB w hz HZ input p n PN).
    2:{ rewrite (firstn_skipn_rd A d0) by auto. apply Forall_map, Forall_forall. intros q Hq. apply in_seq in Hq.
        specialize (AD (q - p) ltac:(lia)). replace q with (p + (q - p)) by lia. rewrite <- AD. apply OK, Vp. lia. }
    cbn [obind]. do 2 f_equal. rewrite (firstn_skipn_rd A d0) by auto.
    pose proof (seq_shift_map A (rd d0 input) p n 0) as SS. rewrite Nat.add_0_r in SS. rewrite SS. clear - AD. assert (G : forall ks, (forall q, In q ks -> q < n) -> forall acc,
      fold_left stp (map (fun q => rd d0 input (p + q)) ks) acc =
      fold_left (fun b0 i => stp b0 (rd d0 input (addr l i))) (map (fun x => place [r] (unravel (extents [r] s) x) b) ks) acc).
    { induction ks as [|q ks IH]; intros Hks acc; [reflexivity|]. cbn [map fold_left]. rewrite AD by (apply Hks; now left). apply IH. intros; apply Hks; now right. }
    apply G. intros q Hq. apply in_seq in Hq. lia.
  - rewrite (reduce_loop_spec (fun _ _ b v => Some (stp b v)) (fun _ b v => stp b v) d0 input s (lstrides l) (loffset l) ds) with (base := base_idx keep ds (length s) j); auto.
    + cbn [obind]. f_equal. f_equal. unfold visit. rewrite all_idx_map_unravel, map_map. reflexivity.
    + apply Forall_forall. intros q Hq. apply in_seq in Hq. lia.
    + intros q Hq. apply in_seq in Hq. apply (Hb _ (Vp q ltac:(lia))).
Qed.
Lemma simd_reduce_same : forall w hz (input : list A) (out : list C) l ds keep,
  combines op init ok -> (forall v, length v = w -> Forall ok v -> hz v = fold_right op init v) -> 0 < w ->
  wf_layout l -> in_bounds (length input) l -> NoDup ds ->
  Forall (fun d => d < length (lshape l)) ds -> length (lshape l) <= 16 ->
  (forall i x, valid (lshape l) i -> nth_error input (addr l i) = Some x -> ok (inj x)) ->
  length out = nelem (rshape keep ds (lshape l)) ->
  simd_reduce_kernel w hz init stp stp fin input out (reduce_metadata l ds keep) =
  reduce_kernel init (plain stp) fin input out (reduce_metadata l ds keep).
Proof.
  intros w hz input out l ds keep CB HZ W Hw Hb ND HF HR OK Ho.
  rewrite simd_reduce_spec by (auto; intros i V; apply (OK i); auto; now apply nth_error_rd, Hb).
  rewrite (reduce_kernel_spec init (plain stp) (fun _ => stp) fin d0); auto.
Qed.
End Kernel.

(** ** The horizontal reductions *)
Section Horizontal.
Context {B : Type} (op : B -> B -> B) (init : B) (ok : B -> Prop).
Variable CB : combines op init ok.
Ltac two v := destruct v as [|? [|? [|? ?]]]; try discriminate.
Ltac four v := destruct v as [|? [|? [|? [|? [|? ?]]]]]; try discriminate.
Ltac oks := repeat match goal with H : Forall ok (_ :: _) |- _ => inversion H; subst; clear H end.
Lemma h_sse_f64_ok : forall v, length v = 2 -> Forall ok v -> h_sse_f64 op init v = fold_right op init v.
Proof. destruct CB as [c_init0 c_op0 c_assoc0 c_comm0 c_unit0]. intros v L F. two v. oks. cbn. now rewrite c_unit0. Qed.
Lemma h_neon_f64_ok : forall v, length v = 2 -> Forall ok v -> h_neon_f64 op init v = fold_right op init v.
Proof. destruct CB as [c_init0 c_op0 c_assoc0 c_comm0 c_unit0]. intros v L F. two v. oks. cbn. now rewrite c_unit0. Qed.
Lemma h_neon_f32_ok : forall v, length v = 4 -> Forall ok v -> h_neon_f32 op init v = fold_right op init v.
Proof. destruct CB as [c_init0 c_op0 c_assoc0 c_comm0 c_unit0]. intros v L F. four v. oks. cbn. rewrite c_unit0 by auto. symmetry. now apply c_assoc0; auto. Qed.
Lemma h_sse_f32_ok : forall v, length v = 4 -> Forall ok v -> h_sse_f32 op init v = fold_right op init v.
Proof. destruct CB as [c_init0 c_op0 c_assoc0 c_comm0 c_unit0]. intros v L F. four v. oks. cbn. rewrite c_unit0 by auto. symmetry. now apply c_assoc0; auto. Qed.
Lemma h_avx_f64_ok : forall v, length v = 4 -> Forall ok v -> h_avx_f64 op init v = fold_right op init v.
Proof.
  pose proof CB as [c_init0 c_op0 c_assoc0 c_comm0 c_unit0]. intros v L F. four v. oks. cbn. rewrite c_unit0 by auto.
  rewrite (swap4 op init ok CB) by auto. symmetry. now apply c_assoc0; auto.
Qed.
Lemma h_avx_f32_ok : forall v, length v = 8 -> Forall ok v -> h_avx_f32 op init v = fold_right op init v.
Proof.
  pose proof CB as [c_init0 c_op0 c_assoc0 c_comm0 c_unit0]. intros v L F. unfold h_avx_f32.
  destruct v as [|a [|b [|c [|d [|e [|f [|g [|h [|? ?]]]]]]]]]; try discriminate. oks. cbn. rewrite c_unit0 by auto.
  rewrite (swap4 op init ok CB a e b f), (swap4 op init ok CB c g d h), (swap4 op init ok CB (op a b)) by auto.
  rewrite <- !c_assoc0 by auto. reflexivity.
Qed.
End Horizontal.

(** ** max and min *)
Section Order.
Context {B : Type} (gt : B -> B -> bool) (init : B) (ok : B -> Prop).
Lemma larger_combines : ok init ->
  (forall a b, ok a -> ok b -> gt a b = true -> gt b a = false) ->
  (forall a b, ok a -> ok b -> gt a b = false -> gt b a = false -> a = b) ->
  (forall a b c, ok a -> ok b -> ok c -> gt a b = true -> gt b c = true -> gt a c = true) ->
  (forall a, ok a -> gt init a = false) -> combines (larger gt) init ok.
Proof.
  intros O0 AS TO TR LE. constructor; auto; unfold larger.
  - intros a b Ha Hb. now destruct (gt a b).
  - intros a b c Ha Hb Hc. pose proof (AS a b Ha Hb). pose proof (AS b c Hb Hc). pose proof (AS a c Ha Hc). pose proof (AS b a Hb Ha). pose proof (AS c b Hc Hb). pose proof (AS c a Hc Ha).
    pose proof (TO a b Ha Hb). pose proof (TO b c Hb Hc). pose proof (TO a c Ha Hc). 
    pose proof (TR a b c Ha Hb Hc). pose proof (TR a c b Ha Hc Hb). pose proof (TR b a c Hb Ha Hc). pose proof (TR b c a Hb Hc Ha). pose proof (TR c a b Hc Ha Hb). pose proof (TR c b a Hc Hb Ha).
    destruct (gt b c) eqn:E1, (gt a b) eqn:E2, (gt a c) eqn:E3; rewrite ?E1, ?E2, ?E3; auto;
    destruct (gt b a) eqn:E4, (gt c a) eqn:E5, (gt c b) eqn:E6; firstorder congruence.
  - intros a b Ha Hb. pose proof (AS a b Ha Hb). pose proof (AS b a Hb Ha). pose proof (TO a b Ha Hb). destruct (gt a b), (gt b a); firstorder congruence.
  - intros a Ha. pose proof (TO a init Ha O0). pose proof (LE a Ha). destruct (gt a init); auto. symmetry. auto.
Qed.
End Order.

Definition key (x : spec_float) : Z * Z * Z :=
  match x with
  | S754_infinity true => (0, 0, 0) | S754_finite true m e => (1, - e, Zneg m)
  | S754_zero _ | S754_nan => (2, 0, 0)
  | S754_finite false m e => (3, e, Zpos m) | S754_infinity false => (4, 0, 0)
  end%Z.
Definition ltk (p q : Z * Z * Z) : Prop :=
  let '(a, b, c) := p in let '(a', b', c') := q in (a < a' \/ a = a' /\ (b < b' \/ b = b' /\ c < c'))%Z.
Lemma f_gt_key : forall a b, is_number a -> is_number b -> (f_gt a b = true <-> ltk (key b) (key a)).
Proof.
  intros [[|]|[|]| |[|] m e] [[|]|[|]| |[|] m' e'] [Ha Ha'] [Hb Hb']; try congruence; cbn; unfold f_gt; cbn [SFcompare];
  try (split; [discriminate|lia]); try (split; [lia|reflexivity]); try (split; [reflexivity|lia]); auto.
  all: try (split; [intros _; lia|intros _; reflexivity]).
  - destruct (Z.compare_spec e e'); try (split; [discriminate|lia]); try (split; [lia|reflexivity]).
    fold (Pos.compare_cont Eq m m'). change (Pos.compare_cont Eq m m') with (Pos.compare m m'). destruct (Pos.compare_spec m m'); cbn; split; try discriminate; try reflexivity; lia.
  - destruct (Z.compare_spec e e'); try (split; [discriminate|lia]); try (split; [lia|reflexivity]).
    change (Pos.compare_cont Eq m m') with (Pos.compare m m'). destruct (Pos.compare_spec m m'); cbn; split; try discriminate; try reflexivity; lia.
Qed.
Lemma key_inj : forall a b, is_number a -> is_number b -> key a = key b -> a = b.
Proof. intros [[|]|[|]| |[|] m e] [[|]|[|]| |[|] m' e'] [Ha Ha'] [Hb Hb'] E; try congruence; cbn in E; inversion E; f_equal; lia. Qed.

Lemma max_combines : combines (larger f_gt) (S754_infinity true) is_number.
Proof.
  apply larger_combines.
  - split; discriminate.
  - intros a b Ha Hb E. apply f_gt_key in E; auto. destruct (f_gt b a) eqn:E'; auto. apply f_gt_key in E'; auto. destruct (key a) as [[? ?] ?], (key b) as [[? ?] ?]. cbn in *. lia.
  - intros a b Ha Hb E E'. apply key_inj; auto.
    assert (N : ~ ltk (key b) (key a)) by (intros Q; apply f_gt_key in Q; auto; congruence). assert (N' : ~ ltk (key a) (key b)) by (intros Q; apply f_gt_key in Q; auto; congruence).
    destruct (key a) as [[? ?] ?], (key b) as [[? ?] ?]. cbn in *. f_equal; [f_equal|]; lia.
  - intros a b c Ha Hb Hc E E'. apply f_gt_key in E; auto. apply f_gt_key in E'; auto. apply f_gt_key; auto. destruct (key a) as [[? ?] ?], (key b) as [[? ?] ?], (key c) as [[? ?] ?]. cbn in *. lia.
  - intros [[|]|[|]| |[|] m e] [Ha Ha']; try congruence; reflexivity.
Qed.
Lemma min_combines : combines (larger (fun a b => f_gt b a)) (S754_infinity false) is_number.
Proof.
  apply larger_combines.
  - split; discriminate.
  - intros a b Ha Hb E. apply f_gt_key in E; auto. destruct (f_gt a b) eqn:E'; auto. apply f_gt_key in E'; auto. destruct (key a) as [[? ?] ?], (key b) as [[? ?] ?]. cbn in *. lia.
  - intros a b Ha Hb E E'. apply key_inj; auto.
    assert (N : ~ ltk (key b) (key a)) by (intros Q; apply f_gt_key in Q; auto; congruence). assert (N' : ~ ltk (key a) (key b)) by (intros Q; apply f_gt_key in Q; auto; congruence).
    destruct (key a) as [[? ?] ?], (key b) as [[? ?] ?]. cbn in *. f_equal; [f_equal|]; lia.
  - intros a b c Ha Hb Hc E E'. apply f_gt_key in E; auto. apply f_gt_key in E'; auto. apply f_gt_key; auto. destruct (key a) as [[? ?] ?], (key b) as [[? ?] ?], (key c) as [[? ?] ?]. cbn in *. lia.
  - intros [[|]|[|]| |[|] m e] [Ha Ha']; try congruence; reflexivity.
Qed.

(** ** Together *)
Section Together.
Context {A B C : Type} (op : B -> B -> B) (init : B) (inj : A -> B) (ok : B -> Prop) (fin : nat -> B -> C) (d0 : A).
Lemma unit_ok : forall w hz, combines op init ok -> vector_unit op init w hz -> 0 < w /\ (forall v, length v = w -> Forall ok v -> hz v = fold_right op init v).
Proof.
  intros w hz CB []; (split; [lia|]); intros v L F.
  - now apply (h_avx_f32_ok op init ok). 
  - now apply (h_avx_f64_ok op init ok). 
  - now apply (h_sse_f32_ok op init ok). 
  - now apply (h_sse_f64_ok op init ok). 
  - now apply (h_neon_f32_ok op init ok). 
  - now apply (h_neon_f64_ok op init ok). 
Qed.
Lemma simd_reduce_ok : forall w hz (input : list A) (out : list C) l ds keep,
  combines op init ok -> vector_unit op init w hz ->
  wf_layout l -> in_bounds (length input) l -> NoDup ds ->
  Forall (fun d => d < length (lshape l)) ds -> length (lshape l) <= 16 ->
  (forall i x, valid (lshape l) i -> nth_error input (addr l i) = Some x -> ok (inj x)) ->
  length out = nelem (rshape keep ds (lshape l)) ->
  simd_reduce_kernel w hz init (adding op inj) (adding op inj) fin input out (reduce_metadata l ds keep) =
  reduce_kernel init (plain (adding op inj)) fin input out (reduce_metadata l ds keep).
Proof.
  intros w hz input out l ds keep CB VU Hw Hb ND HF HR OK Ho. destruct (unit_ok w hz CB VU) as [W HZ].
  apply (simd_reduce_same op init inj ok fin d0); auto.
Qed.
End Together.
Lemma neg_lane : forall prec emax x, x <> S754_zero false -> SFsub prec emax (S754_zero false) x = SFopp x.
Proof. intros prec emax [[|]|[|]| |[|] m e] H; try reflexivity. congruence. Qed.
