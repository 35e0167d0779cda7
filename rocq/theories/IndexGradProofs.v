(** The gradient rules of gather, index_select, scatter, topk and slice are adjoints where no position is read twice. *)
From Coq Require Import List Arith ZArith Bool Lia Reals Lra Permutation.
From Verif Require Import Base IndexSpec LayoutModel ViewSpec LayoutProofs BcastProofs KernelModel TensorModel TensorSpec KernelProofs TensorProofs ReduceModel MoveModel MoveProofs MoveProofs2 MoveProofs3 ScanModel ScanProofs SelectModel IndexModel IndexProofs IndexProofs2 DenSpec DenProofs.
From Verif Require Import ConvModel ConvReal MoveGradModel MoveGradSpec MoveGradProofs IndexGradModel.
Import ListNotations.
Open Scope nat_scope.

(* ---------- scatter with an index tensor of any rank ---------- *)
Lemma padded_length : forall nd x v, length (padded nd x v) = nd.
Proof. intros. unfold padded. now rewrite map_length, seq_length. Qed.
Lemma scatter_any : forall A (d0 : A) add max min op (t : tensor A) d (idx : tensor Z) (src : tensor A) n ixat val,
  good t -> good src -> plain_layout t -> nth_error (tshape t) d = Some n -> length (tshape t) <= 32 ->
  length (tshape src) = length (tshape t) ->
  (forall k x y, k <> d -> nth_error (tshape src) k = Some x -> nth_error (tshape t) k = Some y -> x <= y) ->
  (forall j, valid (tshape src) j ->
     nth_error (tstore idx) (loffset (tlay idx) + dot j (padded (length (tshape t)) 0 (lstrides (tlay idx)))) = Some (ixat j)) ->
  (forall j, valid (tshape src) j -> elem src j = Some (val j)) ->
  exists r, t_scatter add max min op t (Z.of_nat d) idx src = Ok r /\ good r /\ tlay r = tlay t /\
    forall i x, valid (tshape t) i -> elem t i = Some x ->
      elem r i = Some (last (map val (filter (fun j => landsb n d (ixat j) j i) (all_idx (tshape src)))) x).
Proof.
  intros A d0 add max min op t d idx src n ixat val Hg Hs Hp Hn H32 HLs Hle Hix Hval.
  assert (Hd : d < length (tshape t)) by (apply nth_error_Some; congruence).
  unfold t_scatter. fold (tshape t). rewrite axis_usize_ok by (unfold axis_ok; lia). rewrite axis_of_nat.
  replace (d <? length (tshape t)) with true by (symmetry; now apply Nat.ltb_lt).
  set (il := mkLayout (repeat 1 (length (tshape t))) (padded (length (tshape t)) 0 (lstrides (tlay idx))) (loffset (tlay idx))).
  replace (scatter_metadata (tlay t) (tlay idx) (tlay src) d) with (scatter_metadata (tlay t) il (tlay src) d)
    by (unfold scatter_metadata; cbn [il lstrides loffset]; fold (tshape t); now rewrite (padded_id _ _ (padded _ _ _) (padded_length _ _ _))).
  pose proof (plain_len _ t Hg Hp) as PL. pose proof Hg as [Hw Hb]. destruct Hs as [Hws _].
  assert (Wi : wf_layout il) by (unfold wf_layout; cbn [il lstrides lshape]; now rewrite padded_length, repeat_length).
  destruct (scatter_kernel_spec A d0 (scatter_combine add max min (scatter_kernel_of op))
              (tstore t) (tstore idx) (tstore src) (tstore t) (tlay t) il (tlay src) d n ixat val)
    as [out' [E [L H]]]; auto; [cbn [il lshape]; apply repeat_length|].
  rewrite E. cbn [ub bind]. exists (mkT out' (tlay t)). split; auto.
  assert (G : good (mkT out' (tlay t))) by (split; [exact Hw|]; cbn; now rewrite L).
  split; [exact G|]. split; [reflexivity|]. intros i x V Hx. rewrite (plain_elem _ (mkT out' (tlay t)) i G Hp (valid_length _ _ V)).
  cbn [tstore]. etransitivity; [exact (H i x V Hx)|]. cbn [scatter_combine scatter_kernel_of]. now rewrite fold_last.
Qed.
(** reads of the index tensor *)
Lemma index_same_rank : forall (idx : tensor Z) s nd j ix, good idx -> length (tshape idx) = nd -> valid s j ->
  elem idx j = Some ix -> nth_error (tstore idx) (loffset (tlay idx) + dot j (padded nd 0 (lstrides (tlay idx)))) = Some ix.
Proof. intros idx s nd j ix [W _] L V E. rewrite padded_id; [exact E|]. unfold wf_layout in W. fold (tshape idx) in W. lia. Qed.
Lemma index_rank1 : forall (ps : list Z) nd j0 j ix, 0 < nd -> nth_error ps j0 = Some ix ->
  nth_error ps (0 + dot (j0 :: j) (padded nd 0 [1])) = Some ix.
Proof.
  intros ps [|nd] j0 j ix H E; [lia|]. unfold padded. cbn [seq map nth dot Nat.add].
  assert (Z0 : forall l (i : list nat), (forall x, In x l -> 1 <= x) -> dot i (map (fun i => nth i [1] 0) l) = 0).
  { induction l as [|x l IH]; intros [|y i] Hl; cbn [map dot]; auto. rewrite IH by (intros; apply Hl; now right).
    specialize (Hl x (or_introl eq_refl)). destruct x as [|q]; [lia|]. destruct q; cbn; lia. }
  rewrite Z0 by (intros x Hx; apply in_seq in Hx; lia). replace (j0 * 1 + 0) with j0 by lia. exact E.
Qed.

(* ---------- sums ---------- *)
Lemma Sum_filter : forall X (p : X -> bool) l f, Sum (filter p l) f = Sum l (fun x => ind (p x) (f x)).
Proof.
  induction l as [|x l IH]; intros f; [reflexivity|]. cbn [filter]. rewrite Sum_cons, <- IH. unfold ind.
  destruct (p x); rewrite ?Sum_cons; lra.
Qed.
Lemma last_Sum : forall X (f : X -> R) l, length l <= 1 -> last (map f l) 0%R = Sum l f.
Proof. intros X f [|x [|y l]] H; cbn [length] in H; try lia; cbn [map last]; rewrite ?Sum_cons, Sum_nil; lra. Qed.
Lemma filter_one : forall X (p : X -> bool) l, NoDup l -> (forall x y, In x l -> In y l -> p x = true -> p y = true -> x = y) ->
  length (filter p l) <= 1.
Proof.
  intros X p l N H. destruct (filter p l) as [|x [|y r]] eqn:E; cbn [length]; try lia. exfalso.
  assert (Hx : In x (filter p l)) by (rewrite E; now left). assert (Hy : In y (filter p l)) by (rewrite E; right; now left).
  apply filter_In in Hx, Hy. assert (x = y) by (apply H; tauto). subst y. pose proof (NoDup_filter p N) as N'. rewrite E in N'. inversion N' as [|? ? Q]. apply Q. now left.
Qed.
Lemma Sum_only : forall X (l : list X) x0 f, NoDup l -> In x0 l -> (forall x, In x l -> x <> x0 -> f x = 0%R) -> Sum l f = f x0.
Proof.
  induction l as [|x l IH]; intros x0 f N I H; [destruct I|]. inversion N; subst. rewrite Sum_cons. destruct I as [->|I].
  - transitivity (f x0 + Sum l (fun _ => 0))%R; [f_equal; apply Sum_ext; intros y Hy; apply H; [now right|]; congruence|]. rewrite Sum_zero. lra.
  - rewrite H; [|now left|congruence]. rewrite (IH x0); auto; [lra|]. intros y Hy. apply H. now right.
Qed.

(** the element of [t] that index [ix] names at position [j] *)
Definition named (n d : nat) (ix : Z) (t : tensor R) (j : list nat) : R :=
  match wrap_index ix n with Some k => val t (upd j d k) | None => 0%R end.
(** no element is named twice *)
Definition distinct (n d : nat) (ixat : list nat -> Z) (ss : list nat) : Prop :=
  forall j j' k, valid ss j -> valid ss j' -> names n (ixat j) k -> names n (ixat j') k -> upd j d k = upd j' d k -> j = j'.

Lemma upd_inside : forall s ss d n j k, nth_error s d = Some n -> length ss = length s ->
  (forall q x y, q <> d -> nth_error ss q = Some x -> nth_error s q = Some y -> x <= y) -> valid ss j -> k < n -> valid s (upd j d k).
Proof.
  intros s ss d n j k Hn L Hle V Hk. pose proof (valid_length _ _ V) as Lj. assert (d < length s) by (apply nth_error_Some; congruence).
  apply valid_nth. split; [rewrite upd_length; lia|]. intros q x e Hx He. destruct (Nat.eq_dec q d) as [->|N].
  - rewrite nth_error_upd_eq in Hx by lia. congruence.
  - rewrite nth_error_upd_neq in Hx by auto. apply valid_nth in V. destruct V as [_ V].
    destruct (nth_error ss q) as [m|] eqn:Em; [|apply nth_error_None in Em; assert (q < length s) by (apply nth_error_Some; congruence); lia].
    specialize (V q x m Hx Em). specialize (Hle q m e N Em He). lia.
Qed.
Lemma named_sum : forall s ss d n ix (t : tensor R) j, nth_error s d = Some n -> length ss = length s ->
  (forall q x y, q <> d -> nth_error ss q = Some x -> nth_error s q = Some y -> x <= y) -> valid ss j ->
  Sum (all_idx s) (fun i => ind (landsb n d ix j i) (val t i)) = named n d ix t j.
Proof.
  intros s ss d n ix t j Hn L Hle V. pose proof (valid_length _ _ V) as Lj. assert (Hd : d < length j) by (assert (d < length s) by (apply nth_error_Some; congruence); lia).
  unfold named. destruct (wrap_index ix n) as [k|] eqn:W.
  - apply wrap_names in W. rewrite (Sum_only _ _ (upd j d k)).
    + unfold ind. replace (landsb n d ix j (upd j d k)) with true; auto. symmetry. apply landsb_iff; auto. now exists k.
    + apply all_idx_NoDup.
    + apply in_all_idx. apply (upd_inside s ss d n); auto. now destruct W.
    + intros i Hi N. unfold ind. destruct (landsb n d ix j i) eqn:LB; auto. apply landsb_iff in LB; auto. destruct LB as (k' & N' & ->).
      exfalso. apply N. f_equal. destruct W, N'. lia.
  - transitivity (Sum (all_idx s) (fun _ => 0%R)); [|apply Sum_zero]. apply Sum_ext. intros i _. unfold ind. destruct (landsb n d ix j i) eqn:LB; auto.
    apply landsb_iff in LB; auto. destruct LB as (k' & N' & _). apply wrap_names in N'. congruence.
Qed.
Lemma zero_plain : forall s, plain_layout (@t_full R s 0%R).
Proof. intros s. apply (fresh_plain _ _ s). reflexivity. Qed.

Section Pick.
Variables (d : nat) (s : list nat) (n : nat) (idx : tensor Z) (ixat : list nat -> Z) (g : tensor R) (max min : R -> R -> R).
Let ss := tshape g.
Hypotheses (Hn : nth_error s d = Some n) (H32 : length s <= 32) (Hg : good g) (HL : length ss = length s)
  (Hle : forall q x y, q <> d -> nth_error ss q = Some x -> nth_error s q = Some y -> x <= y)
  (Hix : forall j, valid ss j -> nth_error (tstore idx) (loffset (tlay idx) + dot j (padded (length s) 0 (lstrides (tlay idx)))) = Some (ixat j))
  (Hdis : distinct n d ixat ss).

Lemma scatter_adjoint : forall op, exists gx, t_scatter Rplus max min op (t_full s 0%R) (Z.of_nat d) idx g = Ok gx /\ good gx /\ tshape gx = s /\
  forall t : tensor R, pairing gx t = Sum (all_idx ss) (fun j => val g j * named n d (ixat j) t j)%R.
Proof.
  intros op. destruct (full_good s) as (F1 & F2 & _ & F4).
  destruct (scatter_any R 0%R Rplus max min op (t_full s 0%R) d idx g n ixat (val g)) as (gx & E & G & L & H); auto.
  - apply zero_plain.
  - intros j V. now apply val_good.
  - exists gx. split; [exact E|]. split; [exact G|]. assert (Sx : tshape gx = s) by (unfold tshape; rewrite L; reflexivity). split; [exact Sx|].
    intros t. unfold pairing. rewrite Sx. fold ss in H.
    transitivity (Sum (all_idx s) (fun i => Sum (all_idx ss) (fun j => ind (landsb n d (ixat j) j i) (val g j * val t i)%R))).
    + apply Sum_idx_ext. intros i V. rewrite (val_some gx i _ (H i 0%R V ltac:(rewrite (val_good _ i F1 V); now rewrite F4))).
      rewrite last_Sum.
      * rewrite Sum_filter, Rmult_comm, Sum_scale. apply Sum_ext. intros j _. rewrite ind_scale. now rewrite Rmult_comm.
      * apply filter_one; [apply all_idx_NoDup|]. intros j j' Hj Hj' LB LB'. apply in_all_idx in Hj, Hj'. pose proof (valid_length _ _ Hj) as Q. pose proof (valid_length _ _ Hj') as Q'.
        assert (d < length s) by (apply nth_error_Some; congruence).
        apply landsb_iff in LB; [|lia]. apply landsb_iff in LB'; [|lia]. destruct LB as (k & N & ->). destruct LB' as (k' & N' & Eu).
        assert (k = k') by (apply (f_equal (fun l => nth d l 0)) in Eu; rewrite !nth_upd_eq in Eu by lia; exact Eu). subst k'. now apply (Hdis j j' k).
    + rewrite Sum_swap. apply Sum_idx_ext. intros j V.
      transitivity (Sum (all_idx s) (fun i => (val g j * ind (landsb n d (ixat j) j i) (val t i))%R)); [apply Sum_ext; intros i _; now rewrite ind_scale|].
      rewrite <- Sum_scale. f_equal. apply (named_sum s ss d n); auto.
Qed.
End Pick.
