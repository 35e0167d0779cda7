(** Proofs about the indexing operations on CUDA tensors. *)
From Coq Require Import List Arith ZArith Bool ZifyBool Lia Permutation.
From Verif Require Import Base IndexSpec LayoutModel ViewSpec LayoutProofs KernelModel TensorModel TensorSpec KernelProofs TensorProofs.
From Verif Require Import ReduceModel ScanModel MoveModel ReduceProofs MoveProofs MoveProofs2 MoveProofs3 IndexModel IndexProofs IndexProofs2.
From Verif Require Import TileSpec TileProofs4 LaunchModel LaunchSpec LaunchProofs LaunchProofs2 CudaIndexModel CudaIndexProofs.
Import ListNotations.

(** ** Writes in any order *)
Section Puts.
Variables (A : Type) (write : nat -> option (option (nat * A))).

Lemma puts_snoc : forall ids id out, puts write (ids ++ [id]) out =
  let? o := puts write ids out in
  let? w := write id in
  match w with None => Some o | Some (p, v) => c_store o p (Some v) end.
Proof. intros. unfold puts. rewrite fold_left_app. reflexivity. Qed.

Lemma puts_spec : forall ids out n, length out = n ->
  (forall id, In id ids -> exists w, write id = Some w /\ forall p v, w = Some (p, v) -> p < n) ->
  exists out', puts write ids out = Some out' /\ length out' = n /\
    forall q, q < n ->
      ((forall id v, In id ids -> write id <> Some (Some (q, v))) -> nth_error out' q = nth_error out q) /\
      ((exists id v, In id ids /\ write id = Some (Some (q, v))) ->
        exists id v, In id ids /\ write id = Some (Some (q, v)) /\ nth_error out' q = Some (Some v)).
Proof.
  induction ids as [|id ids IH] using rev_ind; intros out n L W.
  - exists out. split; [reflexivity|]. split; [exact L|]. intros q Q. split; [reflexivity|].
    intros (id & v & [] & _).
  - destruct (IH out n L) as (o & P & LO & SP).
    { intros i I. apply W. apply in_or_app. now left. }
    rewrite puts_snoc, P. cbn [obind]. destruct (W id) as (w & Ww & B); [apply in_or_app; right; now left|].
    rewrite Ww. cbn [obind]. destruct w as [[p v]|].
    + specialize (B p v eq_refl). unfold c_store. rewrite LO. replace (p <? n) with true by (symmetry; now apply Nat.ltb_lt).
      exists (upd o p (Some v)). split; [reflexivity|]. split; [now rewrite upd_length|]. intros q Q.
      destruct (SP q Q) as [S1 S2]. destruct (Nat.eq_dec q p) as [->|NE].
      * rewrite nth_error_upd_eq by lia. split.
        -- intro N. exfalso. apply (N id v); [apply in_or_app; right; now left|exact Ww].
        -- intros _. exists id, v. split; [apply in_or_app; right; now left|]. now split.
      * rewrite nth_error_upd_neq by auto. split.
        -- intro N. apply S1. intros i u I. apply N. apply in_or_app. now left.
        -- intros (i & u & I & Wi). destruct S2 as (i' & u' & I' & W' & R).
           { exists i, u. split; [|exact Wi]. apply in_app_or in I. destruct I as [I|[<-|[]]]; [exact I|].
             rewrite Ww in Wi. congruence. }
           exists i', u'. split; [apply in_or_app; now left|]. now split.
    + exists o. split; [reflexivity|]. split; [exact LO|]. intros q Q. destruct (SP q Q) as [S1 S2]. split.
      * intro N. apply S1. intros i u I. apply N. apply in_or_app. now left.
      * intros (i & u & I & Wi). destruct S2 as (i' & u' & I' & W' & R).
        { exists i, u. split; [|exact Wi]. apply in_app_or in I. destruct I as [I|[<-|[]]]; [exact I|]. congruence. }
        exists i', u'. split; [apply in_or_app; now left|]. now split.
Qed.
End Puts.

(** Source element [j] with index value [ix] belongs to [i] *)
Lemma lands_names : forall n d ix j i, lands n d ix j i <-> exists k, names n ix k /\ i = upd j d k.
Proof. reflexivity. Qed.

Section Scatter.
Variables (A : Type) (sched : nat -> list nat).
Hypothesis EN : ending sched.

Lemma cuda_scatter_spec : forall indices (src : list A) out l il sl d n ixat val,
  wf_layout l -> is_contiguous l = true -> loffset l = 0 -> wf_layout il -> wf_layout sl ->
  length (lshape il) = length (lshape l) -> length (lshape sl) = length (lshape l) ->
  length (lshape l) <= 16 -> nth_error (lshape l) d = Some n ->
  (forall k x y, k <> d -> nth_error (lshape sl) k = Some x -> nth_error (lshape l) k = Some y -> x <= y) ->
  (forall j, valid (lshape sl) j -> nth_error indices (addr il j) = Some (ixat j)) ->
  (forall j, valid (lshape sl) j -> nth_error src (addr sl j) = Some (val j)) ->
  (Z.of_nat (nelem (lshape sl)) <= 2 ^ 32 - 256)%Z -> length out = nelem (lshape l) ->
  exists out', cuda_scatter sched indices src out (scatter_metadata l il sl d) = Some out' /\
    length out' = nelem (lshape l) /\
    forall i, valid (lshape l) i ->
      ((forall j, valid (lshape sl) j -> ~ lands n d (ixat j) j i) -> nth_error out' (ravel (lshape l) i) = nth_error out (ravel (lshape l) i)) /\
      ((exists j, valid (lshape sl) j /\ lands n d (ixat j) j i) ->
       exists j, valid (lshape sl) j /\ lands n d (ixat j) j i /\ nth_error out' (ravel (lshape l) i) = Some (Some (val j))).
Proof.
  intros indices src out l il sl d n ixat val Hw Hc Ho Hwi Hws HLi HLs H16 Hn Hle Hix Hval HN Hout.
  unfold cuda_scatter.
  set (s := lshape l) in *. set (ss := lshape sl) in *. set (nd := length s) in *.
  set (md := scatter_metadata l il sl d).
  assert (LS : length (lstrides l) = nd) by exact Hw.
  assert (LI : length (lstrides il) = nd) by (unfold wf_layout in Hwi; congruence).
  assert (LSS : length (lstrides sl) = nd) by (unfold wf_layout in Hws; unfold ss in HLs; congruence).
  set (tl := [loffset l; loffset sl; loffset il; d]).
  assert (EM : md = [nelem ss; nd] ++ s ++ lstrides l ++ ss ++ lstrides sl ++ lstrides il ++ tl).
  { unfold md, scatter_metadata. fold s ss nd. rewrite !padded_id by auto. reflexivity. } clearbody md.
  assert (M0 : nth_error md 0 = Some (nelem ss)) by (now rewrite EM).
  assert (M1 : nth_error md 1 = Some nd) by (now rewrite EM).
  assert (M2 : md_slice md 2 nd = Some s).
  { rewrite EM. apply (md_at _ [nelem ss; nd] s (lstrides l ++ ss ++ lstrides sl ++ lstrides il ++ tl)); auto. }
  assert (M3 : md_slice md (2 + nd) nd = Some (lstrides l)).
  { rewrite EM. apply (md_at _ ([nelem ss; nd] ++ s) (lstrides l) (ss ++ lstrides sl ++ lstrides il ++ tl));
      [assoc|rewrite !app_length; cbn [length]; fold nd; lia|auto]. }
  assert (M4 : md_slice md (2 + 2 * nd) nd = Some ss).
  { rewrite EM. apply (md_at _ ([nelem ss; nd] ++ s ++ lstrides l) ss (lstrides sl ++ lstrides il ++ tl));
      [assoc|rewrite !app_length, LS; cbn [length]; fold nd; lia|auto]. }
  assert (M5 : md_slice md (2 + 3 * nd) nd = Some (lstrides sl)).
  { rewrite EM. apply (md_at _ ([nelem ss; nd] ++ s ++ lstrides l ++ ss) (lstrides sl) (lstrides il ++ tl));
      [assoc|rewrite !app_length, LS, HLs; cbn [length]; fold nd; lia|auto]. }
  assert (M6 : md_slice md (2 + 4 * nd) nd = Some (lstrides il)).
  { rewrite EM. apply (md_at _ ([nelem ss; nd] ++ s ++ lstrides l ++ ss ++ lstrides sl) (lstrides il) tl);
      [assoc|rewrite !app_length, LS, HLs, LSS; cbn [length]; fold nd; lia|auto]. }
  assert (M7 : forall q X Y, tl = X ++ q :: Y -> nth_error md (2 + 5 * nd + length X) = Some q).
  { intros q X Y E. rewrite EM.
    apply (nth_at _ ([nelem ss; nd] ++ s ++ lstrides l ++ ss ++ lstrides sl ++ lstrides il ++ X) Y).
    - rewrite E. assoc.
    - rewrite !app_length, HLs, LS, LSS, LI. cbn [length]. fold nd. lia. }
  rewrite M0, M1. cbn [obind]. rewrite M2. cbn [obind]. rewrite M3. cbn [obind].
  rewrite M4. cbn [obind]. rewrite M5. cbn [obind]. rewrite M6. cbn [obind].
  pose proof (M7 (loffset l) [] _ eq_refl) as E0. cbn [length] in E0. rewrite Nat.add_0_r in E0.
  pose proof (M7 (loffset sl) [loffset l] _ eq_refl) as E1.
  pose proof (M7 (loffset il) [loffset l; loffset sl] _ eq_refl) as E2.
  pose proof (M7 d [loffset l; loffset sl; loffset il] _ eq_refl) as E3.
  cbn [length] in E1, E2, E3. rewrite E0. cbn [obind]. rewrite E1. cbn [obind]. rewrite E2. cbn [obind].
  rewrite E3. cbn [obind].
  assert (Hd : d < nd) by (apply nth_error_Some; congruence).
  assert (Hv : forall j k, valid ss j -> names n (ixat j) k -> valid s (upd j d k)).
  { intros j k V [Hk _]. apply valid_nth in V. destruct V as [L V]. apply valid_nth. rewrite upd_length.
    split; [unfold nd in *; lia|]. intros q x e Hx He. destruct (Nat.eq_dec q d) as [->|Hq].
    - rewrite nth_error_upd_eq in Hx by (unfold nd in *; lia). congruence.
    - rewrite nth_error_upd_neq in Hx by auto. destruct (nth_error ss q) as [y|] eqn:Ey.
      + pose proof (V _ _ _ Hx Ey). pose proof (Hle _ _ _ Hq Ey He). lia.
      + apply nth_error_None in Ey. assert (q < length j) by (apply nth_error_Some; congruence).
        unfold nd in *; lia. }
  set (w := fun id => if 16 <? nd then _ else _).
  assert (WR : forall id, id < nelem ss -> w id = Some (scatter_write A s ss d n ixat val id)).
  { intros id Hid. unfold w. replace (16 <? nd) with false by (symmetry; apply Nat.ltb_ge; exact H16).
    assert (V : valid ss (unravel ss id)) by (apply unravel_valid; lia).
    assert (Lj := valid_length _ _ V).
    rewrite c_unravel_spec by lia. cbn [obind]. rewrite !flat_index_dot.
    fold (addr il (unravel ss id)). rewrite Hix by auto. cbn [obind]. rewrite Hn. cbn [obind].
    unfold scatter_write. cbv zeta. rewrite wrapped_test.
    destruct ((wrapped _ n <? 0) || (wrapped _ n >=? Z.of_nat n))%Z eqn:T; [reflexivity|].
    fold (addr sl (unravel ss id)). rewrite Hval by auto. cbn [obind]. rewrite flat_index_dot.
    rewrite (adjust_spec d _ _ (nth d (unravel ss id) 0)) by (apply nth_error_nth'; lia).
    fold (addr l (upd (unravel ss id) d (Z.to_nat (wrapped (ixat (unravel ss id)) n)))).
    rewrite addr_contiguous by (auto; rewrite upd_length; unfold nd in *; fold s; lia). now rewrite Ho. }
  pose proof (short_each (nelem ss) (sched (nelem ss)) HN (EN (nelem ss) HN)) as EA.
  destruct (puts_spec A w (log (execute Short (nelem ss) (sched (nelem ss)))) out (nelem s) Hout) as (out' & P & LO & SP).
  { intros id I. apply EA in I. rewrite (WR id I). eexists. split; [reflexivity|]. intros p v SW.
    unfold scatter_write in SW. cbv zeta in SW. destruct (wrap_index _ n) as [k|] eqn:K; [|discriminate].
    injection SW as <- <-. apply wrap_names in K. apply ravel_lt. apply Hv; [now apply unravel_valid|exact K]. }
  exists out'. split; [exact P|]. split; [exact LO|]. intros i V. pose proof (ravel_lt _ _ V) as RL.
  destruct (SP _ RL) as [S1 S2].
  assert (AT : forall id v, id < nelem ss -> w id = Some (Some (ravel s i, v)) <->
             (lands n d (ixat (unravel ss id)) (unravel ss id) i /\ v = val (unravel ss id))).
  { intros id v I. rewrite (WR id I). unfold scatter_write. cbv zeta.
    assert (VU : valid ss (unravel ss id)) by (now apply unravel_valid).
    destruct (wrap_index _ n) as [k|] eqn:K.
    - apply wrap_names in K. split.
      + intro H. injection H as H1 H2. split; [|now symmetry]. exists k. split; [exact K|].
        symmetry. apply (ravel_inj s); auto.
      + intros [(k' & K' & ->) ->]. do 2 f_equal. f_equal.
        assert (k = k') by (unfold names in *; lia). now subst k'.
    - split; [discriminate|]. intros [(k' & K' & _) _]. exfalso. apply wrap_names in K'. congruence. }
  split.
  - intro NL. apply S1. intros id v I H. apply EA in I. apply AT in H; [|exact I].
    apply (NL (unravel ss id)); [now apply unravel_valid|apply H].
  - intros (j & Vj & LJ). destruct S2 as (id & v & I & W & R).
    { exists (ravel ss j), (val j). pose proof (ravel_lt _ _ Vj) as RJ. split; [now apply EA|]. apply AT; [exact RJ|].
      rewrite unravel_ravel by exact Vj. now split. }
    apply EA in I. apply AT in W; [|exact I]. destruct W as [W ->].
    exists (unravel ss id). split; [now apply unravel_valid|]. now split.
Qed.
End Scatter.

(** ** Tensors *)
Lemma select_md : forall l d m n0, wf_layout l ->
  let md := index_select_metadata l d m n0 in let nd := length (lshape l) in
  nth_error md 0 = Some n0 /\ nth_error md 1 = Some nd /\ md_slice md 2 nd = Some (lshape l) /\
  nth_error md (2 + 2 * nd + 1) = Some d /\ nth_error md (2 + 2 * nd + 2) = Some m.
Proof.
  intros l d m n0 Hw md nd. assert (LS : length (lstrides l) = nd) by exact Hw. unfold md, index_select_metadata. fold nd.
  split; [reflexivity|]. split; [reflexivity|]. split; [|split].
  - apply (md_at _ [n0; nd] (lshape l) (lstrides l ++ [loffset l; d; m])); auto.
  - apply (nth_at _ ([n0; nd] ++ lshape l ++ lstrides l ++ [loffset l]) [m]); [assoc|].
    rewrite !app_length, LS. cbn [length]. fold nd. lia.
  - apply (nth_at _ ([n0; nd] ++ lshape l ++ lstrides l ++ [loffset l; d]) []); [assoc|].
    rewrite !app_length, LS. cbn [length]. fold nd. lia.
Qed.

Lemma t_select_same : forall A (zero z : A) sched (t : tensor A) a (idx : tensor Z) n r,
  ending sched -> good t -> good idx -> plain_layout idx -> axis_ok (length (tshape t)) a ->
  let d := axis_of (length (tshape t)) a in
  nth_error (tshape t) d = Some n -> length (tshape t) <= 16 ->
  (Z.of_nat (nelem (upd (tshape t) d (nelem (tshape idx)))) <= 2 ^ 32 - 256)%Z ->
  (forall j ix, valid (tshape idx) j -> elem idx j = Some ix -> exists k, names n ix k) ->
  t_index_select zero z t a idx = Ok r -> cuda_t_index_select sched t a idx = Ok r.
Proof.
  intros A zero z sched t a idx n r E G GI PI AX d SN R16 SZ RG H.
  assert (D : d < length (tshape t)) by (now apply axis_of_lt).
  unfold t_index_select in H. unfold cuda_t_index_select. fold (tshape t) in *. rewrite axis_usize_ok in * by exact AX. fold d in H |- *.
  replace (d <? length (tshape t)) with true in * by lia. cbv zeta in *.
  set (m := layout_size (tlay idx)) in *. set (n0 := shape_size (upd (tshape t) d m)) in *.
  destruct (select_md (tlay t) d m n0 (proj1 G)) as (M0 & M1 & M2 & M3 & M4). fold (tshape t) in *.
  destruct (index_select_kernel _ _ _ _ _) as [st|] eqn:K in H; [|discriminate]. cbn [ub bind] in H.
  rewrite (select_same A zero sched E (tstore t) (tstore idx) (repeat z n0) (repeat None n0) _ st n0 M0); auto.
  - apply repeat_length.
  - apply repeat_length.
  - intros nd Q. rewrite M1 in Q. injection Q as <-. exact R16.
  - intros nd sh dim ni n' i oi k ix Q1 Q2 Q3 Q4 Q5 I U K1 K2. rewrite M1 in Q1. injection Q1 as <-.
    rewrite M2 in Q2. injection Q2 as <-. rewrite M3 in Q3. injection Q3 as <-. rewrite M4 in Q4. injection Q4 as <-.
    rewrite SN in Q5. injection Q5 as <-. intro W.
    rewrite (adjust_spec d _ _ n SN) in U. change (nelem (upd (tshape t) d m)) with n0 in *.
    rewrite c_unravel_spec in U by exact I. injection U as <-.
    pose proof (unravel_valid _ _ I) as V. apply valid_nth in V. destruct V as [_ V].
    assert (KB : k < m) by (apply (V d k m K1); now apply nth_error_upd_eq).
    pose proof (unravel_valid (tshape idx) k KB) as VK.
    destruct (RG (unravel (tshape idx) k) ix VK) as (k' & N').
    + rewrite (plain_elem _ idx _ GI PI (valid_length _ _ VK)). rewrite ravel_unravel by exact KB. exact K2.
    + apply wrap_names in N'. congruence.
Qed.

Lemma t_gather_same : forall A (zero z : A) sched (t : tensor A) a (idx : tensor Z) r,
  ending sched -> length (tshape t) <= 16 -> (Z.of_nat (nelem (tshape idx)) <= 2 ^ 32 - 256)%Z ->
  t_gather zero z t a idx = Ok r -> cuda_t_gather zero sched t a idx = Ok r.
Proof.
  intros A zero z sched t a idx r E R16 SZ H. unfold t_gather in H. unfold cuda_t_gather. fold (tshape t) in *.
  destruct (axis_usize _ a) as [d|]; [|discriminate]. destruct (d <? length (tshape t)); [|discriminate]. cbv zeta in *.
  destruct (gather_kernel _ _ _ _ _) as [st|] eqn:K in H; [|discriminate]. cbn [ub bind] in H.
  rewrite (gather_same A zero sched E (tstore t) (tstore idx) (repeat z (layout_size (tlay idx))) (repeat None (layout_size (tlay idx))) _ st (layout_size (tlay idx))); auto.
  - apply repeat_length.
  - apply repeat_length.
  - intros nd Q. unfold gather_metadata in Q. cbn in Q. injection Q as <-. exact R16.
Qed.

Lemma cuda_t_scatter_spec : forall A sched op (t : tensor A) a (idx : tensor Z) (src : tensor A) n ixat val,
  ending sched -> good t -> good idx -> good src -> plain_layout t -> axis_ok (length (tshape t)) a ->
  let d := axis_of (length (tshape t)) a in
  nth_error (tshape t) d = Some n -> length (tshape t) <= 16 ->
  length (tshape idx) = length (tshape t) -> length (tshape src) = length (tshape t) ->
  (forall k x y, k <> d -> nth_error (tshape src) k = Some x -> nth_error (tshape t) k = Some y -> x <= y) ->
  (forall j, valid (tshape src) j -> elem idx j = Some (ixat j)) ->
  (forall j, valid (tshape src) j -> elem src j = Some (val j)) ->
  (Z.of_nat (nelem (tshape src)) <= 2 ^ 32 - 256)%Z ->
  exists r, cuda_t_scatter sched op t a idx src = Ok r /\ tlay r = tlay t /\
    forall i, valid (tshape t) i ->
      ((forall j, valid (tshape src) j -> ~ lands n d (ixat j) j i) -> elem r i = Some None) /\
      ((exists j, valid (tshape src) j /\ lands n d (ixat j) j i) ->
       exists j, valid (tshape src) j /\ lands n d (ixat j) j i /\ elem r i = Some (Some (val j))).
Proof.
  intros A sched op t a idx src n ixat val E G GI GS [PC PO] AX d SN R16 LI LS LE IX VA SZ.
  assert (D : d < length (tshape t)) by (now apply axis_of_lt).
  unfold cuda_t_scatter. fold (tshape t). rewrite axis_usize_ok by exact AX. fold d.
  replace (d <? length (tshape t)) with true by lia.
  destruct (cuda_scatter_spec A sched E (tstore idx) (tstore src) (repeat None (shape_size (tshape t))) (tlay t) (tlay idx) (tlay src) d n ixat val)
    as (st & K & L & SP); auto; try apply G; try apply GI; try apply GS.
  { apply repeat_length. }
  rewrite K. cbn [ub bind]. eexists. split; [reflexivity|]. split; [reflexivity|]. intros i V.
  assert (EL : elem (mkT st (tlay t)) i = nth_error st (ravel (tshape t) i)).
  { unfold elem. cbn [tstore tlay]. rewrite addr_contiguous by (auto; try apply G; now apply valid_length). now rewrite PO. }
  rewrite EL. destruct (SP i V) as [S1 S2]. split.
  - intro N. etransitivity; [now apply S1|]. pose proof (ravel_lt _ _ V) as RL. change shape_size with nelem.
    apply nth_error_repeat. exact RL.
  - exact S2.
Qed.

(** moves before those of a schedule that comes to its end *)
Lemma ending_before : forall sched pre, ending sched -> ending (fun n => pre ++ sched n).
Proof.
  intros sched pre E n N. pose proof (E n N) as O. rewrite over_path in *. intros t T.
  rewrite count_occ_app. eapply path_gone; [apply (O t T)|lia].
Qed.

(** one undetermined element *)
Lemma all_some_none : forall B (l : list (option B)) i, nth_error l i = Some None -> all_some l = None.
Proof.
  induction l as [|x l IH]; intros i H; [destruct i; discriminate|]. destruct i as [|i]; cbn in H.
  - injection H as ->. reflexivity.
  - cbn [all_some]. destruct x as [x|]; [|reflexivity]. now rewrite (IH i H).
Qed.
Lemma elementwise_none : forall B sched n (body : nat -> option B) out i,
  ending sched -> (Z.of_nat n <= 2 ^ 32 - 256)%Z -> length out = n -> i < n -> body i = None ->
  elementwise sched n body out = None.
Proof.
  intros B sched n body out i E N L P H. unfold elementwise.
  pose proof (short_each n (sched n) N (E n N)) as EA.
  pose proof (stores_in B body (log (execute Short n (sched n))) out i (proj2 (EA i) P) ltac:(lia)) as SI. rewrite H in SI.
  exact (all_some_none _ _ _ SI).
Qed.

(** index_put along the only axis *)
Lemma put_line : forall A sched (t v : tensor A) (idx : tensor Z) n k, ending sched ->
  tlay t = from_shape [n] -> tlay v = from_shape [k] -> length (tstore t) = n ->
  0 < n -> 0 < k -> (Z.of_nat n <= 2 ^ 32 - 256)%Z ->
  cuda_t_index_put sched t 0 idx v = Panic.
Proof.
  intros A sched t v idx n k E LT LV LN N K SZ. unfold cuda_t_index_put. rewrite LT, LV. cbn [from_shape lshape length].
  change (axis_usize 1 0) with (Some 0). cbn [Nat.ltb Nat.leb].
  unfold cuda_index_put, index_put_metadata, from_shape, compute_strides. cbn - [elementwise nth_error repeat Nat.mul Nat.add].
  cbn [Nat.mul Nat.add nth_error obind]. cbn - [elementwise repeat].
  rewrite (elementwise_none A sched _ _ _ (n - 1)); auto.
  - rewrite Nat.mul_1_r. exact SZ.
  - apply repeat_length.
  - lia.
  - unfold c_unravel. cbn - [nth_error Nat.div Nat.modulo]. replace (n =? 0) with false by lia. cbn - [nth_error Nat.div Nat.modulo].
    apply nth_error_None. rewrite Nat.mod_small by lia. lia.
Qed.

(** A short schedule that comes to its end: with up to 256 elements, every thread moves twice. *)
Definition swift (n : nat) : list nat := if n <=? 256 then seq 0 256 ++ seq 0 256 else in_turn n.
Lemma small_launch : forall n, n <= 256 -> launched n = 256.
Proof.
  intros n H. destruct (launched_bound n) as (L1 & L2 & [L3|L3] & q & Q); [exact L3|].
  rewrite as_u32_id in * by lia. lia.
Qed.
Lemma swift_ending : ending swift.
Proof.
  intros n N. unfold swift. destruct (n <=? 256) eqn:B; [|now apply in_turn_ending].
  apply Nat.leb_le in B. apply over_path. intros t T. pose proof (small_launch n B) as L. rewrite L in T.
  assert (C : count_occ Nat.eq_dec (seq 0 256) t = 1).
  { apply (proj1 (NoDup_count_occ' Nat.eq_dec (seq 0 256)) (seq_NoDup 256 0)). apply in_seq. lia. }
  rewrite count_occ_app, C. cbn [path Nat.add]. rewrite L. replace (t <? 256) with true by lia.
  destruct (t <? n) eqn:TN; [|reflexivity]. cbn [advance].
  assert (ST : stride n = 256) by (unfold stride; rewrite L; now apply as_u32_id).
  rewrite ST, as_u32_id by lia. replace (t + 256 <? n) with false by lia. reflexivity.
Qed.
