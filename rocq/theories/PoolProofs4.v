(** Fractional max pooling. *)
From Coq Require Import List Arith ZArith Lia Bool Permutation Reals Lra.
From Verif Require Import Base IndexSpec LayoutModel ViewSpec LayoutProofs LayoutProofs2 BcastProofs.
From Verif Require Import KernelModel TensorModel TensorSpec KernelProofs TensorProofs ElementwiseProofs.
From Verif Require Import EncodeModel ReduceModel ReduceSpec ReduceProofs ReduceProofs2 DenSpec DenProofs.
From Verif Require Import NumModel NnModel NnSpec NnProofs NnProofs2 LayerModel LayerProofs2 LayerProofs4 NormProofs.
From Verif Require Import PoolModel PoolSpec PoolProofs PoolProofs2 PoolProofs3.
Import ListNotations.
Open Scope nat_scope.

Definition shift (bounds : list (nat * nat)) (j : list nat) : list nat := map (fun p => fst (fst p) + snd p) (combine bounds j).
Definition extent (bounds : list (nat * nat)) : list nat := map (fun b => snd b - fst b) bounds.

Lemma slice_one : forall (x : xtensor) pre d l lo hi, good (xdata x) -> tshape (xdata x) = pre ++ d :: l -> lo < hi <= d ->
  exists r, x_view (VSlice (Z.of_nat (length pre)) (Z.of_nat lo) (Some (Z.of_nat hi)) 1) x = Ok r /\
    good (xdata r) /\ xdtype r = xdtype x /\ tshape (xdata r) = pre ++ (hi - lo) :: l /\
    forall i a j, valid pre i -> a < hi - lo -> valid l j -> elem (xdata r) (i ++ a :: j) = elem (xdata x) (i ++ (lo + a) :: j).
Proof.
  intros x pre d l lo hi G S H.
  assert (AX : axis_of (length (pre ++ d :: l)) (Z.of_nat (length pre)) = length pre).
  { unfold axis_of. destruct (Z.ltb_spec (Z.of_nat (length pre)) 0); lia. }
  assert (R : regular (VSlice (Z.of_nat (length pre)) (Z.of_nat lo) (Some (Z.of_nat hi)) 1) (tshape (xdata x))) by (cbn; lia).
  destruct (t_view_total xr (Fin 0) (VSlice (Z.of_nat (length pre)) (Z.of_nat lo) (Some (Z.of_nat hi)) 1) (xdata x) (pre ++ (hi - lo) :: l) G R) as [t [E St]].
  { rewrite S. cbn [shape_rel]. rewrite AX. split; [unfold axis_ok; rewrite app_length; cbn [length]; lia|].
    split; [rewrite !app_length; reflexivity|]. split.
    - intros k Hk. destruct (Nat.lt_ge_cases k (length pre)) as [L|L].
      + now rewrite !nth_error_app1.
      + rewrite !nth_error_app2 by lia. destruct (k - length pre) eqn:Ek; [lia|]. reflexivity.
    - exists d, (hi - lo). rewrite !nth_error_app2, !Nat.sub_diag by lia. cbn [nth_error]. split; auto. split; auto. split; [lia|].
      change (1 >? 0)%Z with true. unfold py_count, py_start, py_stop. change (1 >? 0)%Z with true.
      replace (Z.of_nat lo <? 0)%Z with false by (symmetry; apply Z.ltb_ge; lia).
      replace (Z.of_nat hi <? 0)%Z with false by (symmetry; apply Z.ltb_ge; lia).
      rewrite !Z.min_l by lia. split; [lia|]. intros y Hy. split; lia. }
  destruct (t_view_spec xr (Fin 0) _ (xdata x) t G R E) as [Gt [_ Ht]].
  exists (mkX (xdtype x) t). unfold x_view. rewrite E. split; [reflexivity|]. split; [exact Gt|]. split; [reflexivity|]. split; [exact St|].
  intros i a j Vi Ha Vj. cbn [xdata]. rewrite St in Ht. 
  destruct (Ht (i ++ a :: j)) as [k [IR [Vk Ek]]].
  { apply valid_app; [now apply valid_length|]. cbn [valid]. auto. }
  rewrite Ek. f_equal. rewrite S in IR. cbn [index_rel] in IR. rewrite AX in IR. destruct IR as [Lk [Hk [d0 [x0 [y0 [Q1 [Q2 [Q3 Q4]]]]]]]].
  rewrite (nth_error_app2 pre) in Q1 by lia. rewrite Nat.sub_diag in Q1. inversion Q1; subst d0. clear Q1.
  pose proof (valid_length _ _ Vi) as Li. rewrite <- Li in Q2. rewrite nth_error_app2 in Q2 by lia. rewrite Nat.sub_diag in Q2. inversion Q2; subst x0. clear Q2.
  change (1 >? 0)%Z with true in Q4. cbv iota in Q4. unfold py_start in Q4.
  replace (Z.of_nat lo <? 0)%Z with false in Q4 by (symmetry; apply Z.ltb_ge; lia). rewrite Z.min_l in Q4 by lia.
  apply list_ext. intros q. destruct (Nat.eq_dec q (length pre)) as [->|NE].
  - rewrite Q3, <- Li, nth_error_app2, Nat.sub_diag by lia. cbn. f_equal. lia.
  - rewrite Hk by exact NE. destruct (Nat.lt_ge_cases q (length pre)) as [L|L].
    + now rewrite !nth_error_app1 by lia.
    + rewrite !nth_error_app2 by lia. destruct (q - length i) eqn:Eq; [lia|]. reflexivity.
Qed.

Lemma slices_ok : forall bounds l pre (x : xtensor), good (xdata x) -> tshape (xdata x) = pre ++ l ->
  Forall2 (fun b d => fst b < snd b <= d) bounds l ->
  exists r, slices (length pre) bounds x = Ok r /\ good (xdata r) /\ xdtype r = xdtype x /\ tshape (xdata r) = pre ++ extent bounds /\
    forall i j, valid pre i -> valid (extent bounds) j -> elem (xdata r) (i ++ j) = elem (xdata x) (i ++ shift bounds j).
Proof.
  induction bounds as [|[lo hi] bounds IH]; intros l pre x G S F; inversion F as [|? d ? l' Hb F']; subst; cbn [slices].
  - exists x. split; auto. split; auto. split; auto. split; auto. intros i j _ Vj. destruct j; [reflexivity|destruct Vj].
  - cbn [fst snd] in Hb. destruct (slice_one x pre d l' lo hi G S Hb) as [y [E [Gy [Dy [Sy Hy]]]]]. rewrite E. cbn [bind].
    destruct (IH l' (pre ++ [hi - lo]) y Gy) as [r [Er [Gr [Dr [Sr Hr]]]]]; auto.
    { rewrite Sy, <- app_assoc. reflexivity. }
    rewrite app_length in Er. cbn [length] in Er. rewrite Nat.add_1_r in Er. exists r. split; [exact Er|]. split; auto. split; [congruence|].
    split; [rewrite Sr, <- app_assoc; reflexivity|]. intros i j Vi Vj. destruct j as [|a j]; [destruct Vj|]. cbn [extent map fst snd] in Vj. destruct Vj as [Va Vj].
    change (i ++ a :: j) with (i ++ [a] ++ j). rewrite app_assoc. rewrite Hr; auto.
    + rewrite <- app_assoc. cbn [app]. rewrite Hy; auto.
      clear - F' Vj. revert l' j F' Vj. induction bounds as [|[p q] bounds IH]; intros l' j F V; inversion F; subst; destruct j; try destruct V; cbn [shift combine map fst snd valid]; auto.
      cbn [fst snd] in *. split; [lia|]. apply IH; auto.
    + apply valid_app; [now apply valid_length|]. cbn. auto.
Qed.

(** the maximum of a whole tensor *)
Lemma max_all_ok : forall (x : xtensor) s f, good (xdata x) -> tshape (xdata x) = s -> s <> [] -> length s <= 16 -> allowed NoBool (xdtype x) = true ->
  (forall i, valid s i -> elem (xdata x) i = Some (Fin (f i))) ->
  exists r v, x_max x (map Z.of_nat (seq 0 (length s))) false = Ok r /\ solid r /\ xden r (xdtype x) [] (fun _ => v) /\ largest (all_idx s) f v.
Proof.
  intros x s f G S NE L C H.
  assert (AX : ReduceSpec.axes_of (length s) (map Z.of_nat (seq 0 (length s))) (seq 0 (length s))).
  { apply axes_nat; [apply Forall_forall; intros y Hy; apply in_seq in Hy; lia|]. destruct s; [congruence|discriminate]. }
  assert (ND : NoDup (seq 0 (length s))) by apply seq_NoDup.
  destruct (reduce_plain xr xr xr NInf xmax (fun _ b => b) (Fin 0) (Fin 0) (xdata x) (map Z.of_nat (seq 0 (length s))) (seq 0 (length s)) false G) as [r [E [Gr [Lr Hr]]]].
  1-3: rewrite ?S; auto.
  { rewrite S. right. intros a k Ha Na. exfalso. apply Na. apply in_seq. assert (a < length s) by (apply nth_error_Some; congruence). lia. }
  rewrite S, rshape_all in Lr. rewrite S in Hr.
  assert (Len : length (tstore r) = 1).
  { clear Hr.
    destruct (call_reduce_spec NInf (plain xmax) (fun _ b v => xmax b v) (fun _ b => b) (Fin 0) (Fin 0) (xdata x) (seq 0 (length s)) false G ND) as [st [E2 [L2 _]]].
    { rewrite S. apply Forall_forall. intros y Hy. apply in_seq in Hy. lia. } { now rewrite S. } { reflexivity. }
    rewrite S, rshape_all in L2. unfold t_reduce in E. fold (tshape (xdata x)) in E. rewrite S, (reduce_axes_spec _ _ _ AX), mark_axes_spec in E by (auto; eapply axes_lt; eauto).
    cbn [bind fst snd] in E. rewrite E2 in E. cbn [bind] in E. inversion E. exact L2. }
  assert (Sr : tshape r = []) by (unfold tshape; rewrite Lr; reflexivity).
  destruct (Hr [] ltac:(rewrite Sr; exact I)) as [Li [vs [P [F Er]]]]. rewrite fibre_all in P.
  exists (mkX (xdtype x) r), (fold_left xmax vs NInf). unfold x_max, x_reduce. rewrite C, E. split; [reflexivity|].
  split; [|split].
  - unfold solid, xshape. cbn [xdata]. fold (tshape r). rewrite Lr, Sr. split; auto.
  - split; [reflexivity|]. cbn [xdata]. split; [exact Gr|]. split; [left; rewrite Lr; reflexivity|]. split; [exact Sr|]. split; [constructor|].
    intros i V. destruct i; [exact Er|destruct V].
  - assert (EV : vs = map (fun i => Fin (f i)) Li).
    { assert (HV : forall i, In i Li -> valid s i) by (intros i Hi; apply in_all_idx; now rewrite <- P).
      clear - F H HV. induction F as [|i v Li vs Hi F IH]; cbn [map]; auto. f_equal.
      - rewrite H in Hi by (apply HV; now left). congruence.
      - apply IH. intros j Hj. apply HV. now right. }
    rewrite EV. rewrite (fold_xmax_perm _ (map (fun i => Fin (f i)) (all_idx s))).
    + apply largest_fold.
    + now apply Permutation_map.
    + apply Forall_forall. intros y Hy. apply in_map_iff in Hy as [q [<- _]]. exact I.
Qed.

Lemma largest_ext : forall A B (l : list A) (l' : list B) f g v, (forall q, In q l -> exists q', In q' l' /\ g q' = f q) ->
  (forall q', In q' l' -> exists q, In q l /\ f q = g q') -> largest l f v -> largest l' g v.
Proof.
  intros A B l l' f g v H1 H2 [[-> ->]|[m [-> [[q [I E]] U]]]].
  - left. split; auto. destruct l' as [|q' l']; auto. destruct (H2 q' (or_introl eq_refl)) as [q [[] _]].
  - right. exists m. split; auto. split.
    + destruct (H1 q I) as [q' [I' E']]. exists q'. split; auto. congruence.
    + intros q' I'. destruct (H2 q' I') as [q0 [I0 E0]]. rewrite <- E0. now apply U.
Qed.

Lemma seq_all_ok : forall A B (F : A -> outcome B) (P : A -> B -> Prop) l, (forall a, In a l -> exists r, F a = Ok r /\ P a r) ->
  exists rs, seq_all (map F l) = Ok rs /\ Forall2 P l rs.
Proof.
  intros A B F P. induction l as [|a l IH]; intros H; cbn [map seq_all]; [eauto|].
  destruct (H a (or_introl eq_refl)) as [r [E Pr]]. destruct IH as [rs [Es Ps]]; [intros b Hb; apply H; now right|].
  rewrite E. cbn [bind]. rewrite Es. cbn [bind]. eauto.
Qed.

Lemma nest_all_idx : forall s, nest s = all_idx s.
Proof. induction s as [|d s IH]; cbn; [reflexivity|]. now rewrite IH. Qed.

(* ---------- the sequence of cuts ---------- *)
Lemma fseq_eq : forall cut L o, fractional_sequence cut L o = map (fun i => Nat.min (cut i) L) (seq 0 o) ++ [L].
Proof. intros cut L o. unfold fractional_sequence. rewrite seq_S, map_app. cbn [map]. now rewrite removelast_last. Qed.
Lemma fseq_length : forall cut L o, length (fractional_sequence cut L o) = S o.
Proof. intros. rewrite fseq_eq, app_length, map_length, seq_length. cbn. lia. Qed.
Lemma fseq_nth : forall cut L o i, i < o -> nth i (fractional_sequence cut L o) 0 = Nat.min (cut i) L.
Proof.
  intros cut L o i H. rewrite fseq_eq, app_nth1 by (now rewrite map_length, seq_length).
  rewrite (nth_indep _ 0 (Nat.min (cut 0) L)) by (now rewrite map_length, seq_length).
  rewrite (map_nth (fun i => Nat.min (cut i) L)). now rewrite seq_nth.
Qed.
Lemma fseq_last : forall cut L o, nth o (fractional_sequence cut L o) 0 = L.
Proof. intros. rewrite fseq_eq, app_nth2, map_length, seq_length, Nat.sub_diag by (rewrite map_length, seq_length; lia). reflexivity. Qed.
Lemma rising_below : forall L o cut i, rising L o cut -> i < o -> cut i < L.
Proof.
  intros L o cut i [O [_ [R T]]] H. assert (K : forall k, i + k < o -> cut i <= cut (i + k)).
  { induction k as [|k IH]; intros Hk; [rewrite Nat.add_0_r; lia|]. specialize (R (i + k)). replace (S (i + k)) with (i + S k) in R by lia. specialize (IH ltac:(lia)). lia. }
  specialize (K (o - 1 - i) ltac:(lia)). replace (i + (o - 1 - i)) with (o - 1) in K by lia. lia.
Qed.
Lemma fseq_step : forall L o cut i, rising L o cut -> i < o ->
  nth i (fractional_sequence cut L o) 0 < nth (S i) (fractional_sequence cut L o) 0 <= L.
Proof.
  intros L o cut i R H. pose proof (rising_below L o cut i R H) as B. rewrite fseq_nth, Nat.min_l by lia.
  destruct (Nat.eq_dec (S i) o) as [->|NE].
  - rewrite fseq_last. lia.
  - rewrite fseq_nth by lia. pose proof (rising_below L o cut (S i) R ltac:(lia)). destruct R as [_ [_ [R _]]]. specialize (R i ltac:(lia)). lia.
Qed.
Lemma fseq_cuts : forall L o cut, rising L o cut -> cuts L (fractional_sequence cut L o).
Proof.
  intros L o cut R. pose proof R as [O [Z _]]. split; [|split].
  - destruct (fractional_sequence cut L o) as [|a t] eqn:E; [reflexivity|]. change (hd 0 (a :: t)) with (nth 0 (a :: t) 0).
    rewrite <- E, fseq_nth by exact O. rewrite Z. reflexivity.
  - rewrite fseq_eq. apply last_last.
  - intros i Hi. rewrite fseq_length in Hi. pose proof (fseq_step L o cut i R ltac:(lia)). lia.
Qed.
(** rounding L * i / o to the nearest integer, ties away from zero *)
Lemma rising_round : forall L o, 0 < o <= L -> rising L o (fun i => (2 * L * i + o) / (2 * o)).
Proof.
  intros L o H. split; [lia|]. split; [rewrite Nat.mul_0_r, Nat.add_0_l; apply Nat.div_small; lia|]. split.
  - intros i Hi. assert (A : 2 * L * i + o + 1 * (2 * o) <= 2 * L * S i + o) by nia.
    apply Nat.lt_le_trans with ((2 * L * i + o + 1 * (2 * o)) / (2 * o)).
    + rewrite Nat.div_add by lia. lia.
    + apply Nat.div_le_mono; lia.
  - apply Nat.div_lt_upper_bound; [lia|]. nia.
Qed.
(** the blocks of a rising sequence partition the axis *)
Lemma cuts_partition : forall n c q, cuts n c -> q < n -> c <> [] -> exists! p, S p < length c /\ nth p c 0 <= q < nth (S p) c 0.
Proof.
  intros n c q [H0 [HL HM]] Hq NE.
  assert (M : forall a b, a <= b -> b < length c -> nth a c 0 <= nth b c 0).
  { intros a b Hab. induction Hab as [|b Hab IH]; intros Hb; [lia|]. specialize (HM b ltac:(lia)). specialize (IH ltac:(lia)). lia. }
  assert (H0' : nth 0 c 0 = 0) by (destruct c; auto).
  assert (HL' : nth (length c - 1) c 0 = n).
  { destruct (exists_last NE) as [c' [y ->]]. rewrite last_last in HL. rewrite app_length. cbn [length]. rewrite Nat.add_sub, app_nth2, Nat.sub_diag by lia. exact HL. }
  assert (K : forall k, k < length c -> q < nth k c 0 -> exists p, S p < length c /\ nth p c 0 <= q < nth (S p) c 0).
  { induction k as [|k IH]; intros Hk Hq'; [lia|]. destruct (Nat.lt_ge_cases q (nth k c 0)) as [L|L]; [apply IH; lia|]. exists k. lia. }
  assert (LP : 0 < length c) by (destruct c; [congruence|cbn; lia]).
  destruct (K (length c - 1) ltac:(lia) ltac:(lia)) as [p [Hp B]]. exists p. split; [auto|].
  intros p' [Hp' B']. destruct (Nat.lt_trichotomy p p') as [L|[E|L]]; auto.
  - pose proof (M (S p) p' ltac:(lia) ltac:(lia)). lia.
  - pose proof (M (S p') p ltac:(lia) ltac:(lia)). lia.
Qed.

(* ---------- the layer ---------- *)
Lemma shift_between : forall cs bs l p q, length p = length cs -> bs = map (fun t => (nth (snd t) (fst t) 0, nth (snd t + 1) (fst t) 0)) (combine cs p) ->
  Forall2 (fun b d => fst b < snd b <= d) bs l ->
  (In q (filter (between cs p) (all_idx l)) <-> exists j, valid (extent bs) j /\ q = shift bs j).
Proof.
  induction cs as [|c cs IH]; intros bs l [|a p] q HL EB F; cbn [length] in HL; try lia; cbn [combine map] in EB; subst bs; inversion F as [|? d ? l' Hb F']; subst.
  - cbn. split; [intros [<-|[]]; exists []; auto|]. intros [j [V ->]]. destruct j; [now left|destruct V].
  - cbn [fst snd] in Hb. rewrite Nat.add_1_r in Hb. rewrite filter_In, in_all_idx.
    specialize (fun t => IH _ l' p t ltac:(lia) eq_refl F'). split.
    + intros [V B]. destruct q as [|b q]; [destruct V|]. destruct V as [Vb V]. cbn [between] in B. rewrite !andb_true_iff, Nat.leb_le, Nat.ltb_lt in B. destruct B as [[B1 B2] B].
      destruct (proj1 (IH q)) as [j [Vj Ej]]; [apply filter_In; rewrite in_all_idx; auto|].
      exists ((b - nth a c 0) :: j). cbn [extent map fst snd valid shift combine]. rewrite Nat.add_1_r. split; [split; [lia|exact Vj]|].
      f_equal; [lia|exact Ej].
    + intros [j [V ->]]. destruct j as [|x j]; [destruct V|]. cbn [extent map fst snd] in V. rewrite Nat.add_1_r in V. destruct V as [Vx V].
      assert (I : In (shift (map (fun t => (nth (snd t) (fst t) 0, nth (snd t + 1) (fst t) 0)) (combine cs p)) j) (filter (between cs p) (all_idx l'))) by (apply IH; eauto).
      apply filter_In in I. rewrite in_all_idx in I. destruct I as [I1 I2].
      cbn [shift combine map fst snd valid between]. split; [split; [lia|exact I1]|].
      rewrite !andb_true_iff, Nat.leb_le, Nat.ltb_lt. split; [lia|exact I2].
Qed.

Lemma fseq_points : forall L o cut, rising L o cut -> fractional_sequence cut L o = cut_points cut L o.
Proof.
  intros L o cut R. rewrite fseq_eq. unfold cut_points. f_equal. apply map_ext_in. intros i Hi. apply in_seq in Hi.
  apply Nat.min_l. pose proof (rising_below L o cut i R ltac:(lia)). lia.
Qed.
Lemma cut_lists_eq : forall cut l os, Forall2 (fun L o => rising L o (cut L o)) l os ->
  map (fun p => fractional_sequence (cut (fst p) (snd p)) (fst p) (snd p)) (combine l os) = cut_lists cut l os.
Proof.
  intros cut l os F. unfold cut_lists. induction F as [|L o l os R F IH]; cbn [combine map fst snd]; auto. now rewrite IH, fseq_points.
Qed.

Lemma bounds_ok : forall cut l os p, Forall2 (fun L o => rising L o (cut L o)) l os -> valid os p ->
  Forall2 (fun b d => fst b < snd b <= d) (map (fun t => (nth (snd t) (fst t) 0, nth (snd t + 1) (fst t) 0)) (combine (cut_lists cut l os) p)) l.
Proof.
  intros cut l os p F. revert p. induction F as [|L o l os R F IH]; intros [|a p] V; cbn [valid] in V; try tauto; cbn [cut_lists combine map]; constructor.
  - cbn [fst snd]. rewrite Nat.add_1_r, <- fseq_points by exact R. apply fseq_step; tauto.
  - apply IH. tauto.
Qed.
Lemma cut_lists_length : forall cut l os, Forall2 (fun L o => rising L o (cut L o)) l os -> length (cut_lists cut l os) = length os.
Proof. intros cut l os F. unfold cut_lists. rewrite map_length, combine_length, (Forall2_len _ _ _ _ _ F). apply Nat.min_id. Qed.

Lemma fractional_ok : forall cut x d n c l os f, allowed NoBool d = true -> xden x d (n :: c :: l) (fun i => Fin (f i)) -> length l <= 13 ->
  Forall2 (fun L o => rising L o (cut L o)) l os ->
  exists r g, fractional_max_pool cut os x = Ok r /\ xden r d (n :: c :: os) g /\
    forall i, valid (n :: c :: os) i -> largest (filter (between (cut_lists cut l os) (skipn 2 i)) (all_idx l)) (fun q => f (in_channel i q)) (g i).
Proof.
  intros cut x d n c l os f C X LL F. unfold fractional_max_pool. rewrite (xden_shape _ _ _ _ X).
  pose proof (Forall2_len _ _ _ _ _ F) as Lo. cbn [length]. rewrite Lo, Nat.eqb_refl. cbn [negb]. rewrite nest_all_idx, (cut_lists_eq cut l os F).
  pose proof (xden_pos _ _ _ _ X) as P. inversion P as [|? ? Pn P1]; subst. inversion P1 as [|? ? Pc P2]; subst.
  assert (Pos : all_pos os) by (clear - F; induction F as [|? ? ? ? [H _] F IH]; constructor; auto).
  destruct (seq_all_ok (list nat) xtensor
    (fun o => do r <- slices 0 (match o with
        | batch :: channel :: p =>
          (batch, batch + 1) :: (channel, channel + 1) ::
          map (fun q => (nth (snd q) (fst q) 0, nth (snd q + 1) (fst q) 0)) (combine (cut_lists cut l os) p)
        | _ => [] end) x ; x_max r (map Z.of_nat (seq 0 (2 + length os))) false)
    (fun o r => exists v, solid r /\ xden r d [] (fun _ => v) /\
       largest (filter (between (cut_lists cut l os) (skipn 2 o)) (all_idx l)) (fun q => f (in_channel o q)) v)
    (all_idx (n :: c :: os))) as [rs [Es Fs]].
  { intros o Ho. apply in_all_idx in Ho. destruct o as [|b [|ch p]]; cbn [valid] in Ho; try tauto. destruct Ho as [Vb [Vc Vp]].
    pose proof X as [Dx [Gx [_ [Sx [_ Hx]]]]].
    set (bs := map (fun q => (nth (snd q) (fst q) 0, nth (snd q + 1) (fst q) 0)) (combine (cut_lists cut l os) p)).
    pose proof (bounds_ok cut l os p F Vp) as FB. fold bs in FB.
    destruct (slices_ok ((b, b + 1) :: (ch, ch + 1) :: bs) (n :: c :: l) [] x Gx Sx) as [r [Er [Gr [Dr [Sr Hr]]]]].
    { constructor; [cbn; lia|]. constructor; [cbn; lia|]. exact FB. }
    cbn [length] in Er. rewrite Er. cbn [bind]. cbn [app] in Sr, Hr.
    assert (LB : length bs = length os).
    { pose proof (Forall2_len _ _ _ _ _ FB). lia. }
    assert (VS : forall j, valid (extent ((b, b + 1) :: (ch, ch + 1) :: bs)) j -> valid (n :: c :: l) (shift ((b, b + 1) :: (ch, ch + 1) :: bs) j)).
    { assert (K : forall (bds : list (nat * nat)) s, Forall2 (fun b d => fst b < snd b <= d) bds s -> forall j, valid (extent bds) j -> valid s (shift bds j)).
      { clear. intros bds s H. induction H as [|[lo hi] d bds s H0 H IH]; intros [|j0 j] V; cbn [extent map valid] in V; try tauto; auto.
        cbn [fst snd] in *. cbn [shift combine map valid fst snd]. split; [lia|]. apply IH. tauto. }
      apply K. constructor; [cbn; lia|]. constructor; [cbn; lia|]. exact FB. }
    destruct (max_all_ok r (extent ((b, b + 1) :: (ch, ch + 1) :: bs)) (fun j => f (shift ((b, b + 1) :: (ch, ch + 1) :: bs) j)) Gr Sr) as [r2 [v [E2 [So [D2 M]]]]].
    { discriminate. } { unfold extent. rewrite map_length. cbn [length]. lia. } { now rewrite Dr, Dx. }
    { intros j Vj. specialize (Hr [] j I Vj). cbn [app] in Hr. rewrite Hr. apply Hx. now apply VS. }
    unfold extent in E2. rewrite map_length in E2. cbn [length] in E2. rewrite LB in E2. cbn [plus]. rewrite E2.
    exists r2. split; [reflexivity|]. exists v. split; [exact So|]. split; [rewrite Dr, Dx in D2; exact D2|].
    cbn [skipn]. pose proof (shift_between (cut_lists cut l os) bs l p) as SB.
    assert (LP : length p = length (cut_lists cut l os)) by (rewrite (cut_lists_length _ _ _ F); now apply valid_length).
    revert M. apply largest_ext.
    - intros j Hj. apply in_all_idx in Hj. destruct j as [|j0 [|j1 j]]; cbn [extent map valid fst snd] in Hj; try tauto. destruct Hj as [J0 [J1 J]].
      exists (shift bs j). split; [apply (SB _ LP eq_refl FB); eauto|].
      cbn [shift combine map fst snd]. unfold in_channel. cbn [nth]. do 2 f_equal; [lia|]. f_equal. lia.
    - intros q Hq. apply (SB _ LP eq_refl FB) in Hq. destruct Hq as [j [Vj ->]]. exists (0 :: 0 :: j). split.
      + apply in_all_idx. cbn [extent map valid fst snd]. split; [lia|]. split; [lia|]. exact Vj.
      + cbn [shift combine map fst snd]. unfold in_channel. cbn [nth]. do 2 f_equal; [lia|]. f_equal. lia. }
  rewrite Lo in *. cbn [plus] in Es. rewrite Es. cbn [bind]. clear Es.
  assert (Lr : length rs = nelem (n :: c :: os)) by (rewrite <- (Forall2_len _ _ _ _ _ Fs); apply all_idx_length).
  set (pick := fun k => match nth_error rs k with Some r => match elem (xdata r) [] with Some v => v | None => Nan end | None => Nan end).
  assert (HP : forall k r, nth_error rs k = Some r -> exists o, nth_error (all_idx (n :: c :: os)) k = Some o /\ solid r /\ xden r d [] (fun _ => pick k) /\
     largest (filter (between (cut_lists cut l os) (skipn 2 o)) (all_idx l)) (fun q => f (in_channel o q)) (pick k)).
  { intros k r Hk. destruct (nth_error (all_idx (n :: c :: os)) k) as [o|] eqn:Eo.
    2:{ apply nth_error_None in Eo. rewrite all_idx_length in Eo. assert (k < length rs) by (apply nth_error_Some; congruence). lia. }
    exists o. split; auto. assert (K : exists v, solid r /\ xden r d [] (fun _ => v) /\
       largest (filter (between (cut_lists cut l os) (skipn 2 o)) (all_idx l)) (fun q => f (in_channel o q)) v).
    { clear - Fs Hk Eo. revert k Hk Eo. induction Fs as [|a r0 la rs H Fs IH]; intros [|k] Hk Eo; cbn in *; try discriminate.
      - inversion Hk; subst. inversion Eo; subst. exact H.
      - eapply IH; eauto. }
    destruct K as [v [So [D M]]]. assert (Ev : pick k = v).
    { unfold pick. rewrite Hk. destruct D as [_ [_ [_ [_ [_ He]]]]]. now rewrite (He [] I). }
    rewrite Ev. auto. }
  assert (NE : rs <> []).
  { intros ->. cbn in Lr. assert (0 < nelem (n :: c :: os)); [|lia]. apply all_pos_nelem. constructor; auto. }
  destruct (x_stack_ok rs d [] (fun k _ => pick k) NE) as [st [E3 D3]]. { cbn; lia. } { constructor. }
  { intros k r Hk. destruct (HP k r Hk) as [o [_ [So [D _]]]]. auto. }
  rewrite E3. cbn [bind].
  destruct (xden_view (VReshape (n :: c :: os)) st d [length rs] (n :: c :: os) _ (fun i => pick (ravel (n :: c :: os) i)) ltac:(discriminate) D3) as [r [E4 D4]].
  - exact I.
  - cbn [shape_rel]. split; [|reflexivity]. rewrite Lr, (nelem_cons _ []). change (nelem []) with 1. lia.
  - constructor; auto.
  - intros i j Vi Vj IR. destruct j as [|j0 [|? ?]]; cbn [valid] in Vj; try tauto. cbn [index_rel] in IR. cbn [hd]. f_equal.
    assert (Q : ravel [length rs] [j0] = j0) by (cbn [ravel]; change (nelem []) with 1; lia). congruence.
  - exists r, (fun i => pick (ravel (n :: c :: os) i)). split; [exact E4|]. split; [exact D4|]. intros i V.
    pose proof (ravel_lt _ _ V) as RL. rewrite <- Lr in RL. destruct (nth_error rs (ravel (n :: c :: os) i)) as [r0|] eqn:E0; [|apply nth_error_None in E0; lia].
    destruct (HP _ _ E0) as [o [Eo [_ [_ M]]]]. rewrite nth_error_all_idx in Eo by lia. rewrite unravel_ravel in Eo by exact V. inversion Eo; subst o. exact M.
Qed.
