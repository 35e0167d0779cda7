(** Lemmas in the exact form of the property theorems of PropLayout.v,
    including the counterexamples. *)
From Coq Require Import List Arith ZArith Lia Bool Permutation.
From Coq Require Import ZifyBool ZifyNat.
From Verif Require Import Base IndexSpec LayoutModel ViewSpec LayoutProofs LayoutProofs2 BcastProofs.
Import ListNotations.
Ltac Zify.zify_post_hook ::= Z.div_mod_to_equations.

Lemma fresh_row_major : forall s : shape,
  let l := from_shape s in
  shape_size s = nelem s /\
  (forall i, valid s i -> addr l i < nelem s) /\
  (forall i j, valid s i -> valid s j -> addr l i = addr l j -> i = j) /\
  (forall p, p < nelem s -> exists i, valid s i /\ addr l i = p) /\
  (forall i j, valid s i -> valid s j -> (lex_lt i j <-> addr l i < addr l j)).
Proof.
  intros s l.
  assert (Ha : forall i, valid s i -> addr l i = ravel s i).
  { intros i Hi. apply addr_from_shape. now apply valid_length. }
  split; [reflexivity|]. split; [|split; [|split]].
  - intros i Hi. rewrite Ha by auto. now apply ravel_lt.
  - intros i j Hi Hj E. rewrite !Ha in E by auto. now apply (ravel_inj s).
  - intros p Hp. exists (unravel s p). split; [now apply unravel_valid|].
    rewrite Ha by now apply unravel_valid. now apply ravel_unravel.
  - intros i j Hi Hj. rewrite !Ha by auto. now apply ravel_lex.
Qed.

Lemma view_selects : forall o l l',
  wf_layout l -> regular o (lshape l) -> apply_view l o = Ok l' ->
  shape_rel o (lshape l) (lshape l') /\
  forall i, valid (lshape l') i ->
  exists j, index_rel o (lshape l) (lshape l') i j /\ valid (lshape l) j /\
            addr l' i = addr l j /\
            forall j', valid (lshape l) j' -> index_rel o (lshape l) (lshape l') i j' -> j' = j.
Proof.
  intros o l l' Hw Hr H. destruct (apply_view_views o l l' Hw Hr H) as [_ [Hs HI]].
  split; auto. intros i Hi. destruct (HI i Hi) as [j [Hx [Hv Ha]]].
  exists j. repeat split; auto. intros j' Hj' Hx'.
  eapply index_rel_fun; eauto.
Qed.

Lemma view_chain_selects : forall os l l',
  wf_layout l -> regular_chain l os -> apply_views l os = Ok l' ->
  forall i, valid (lshape l') i ->
  exists j, chain_rel os (lshape l) (lshape l') i j /\ valid (lshape l) j /\
            addr l' i = addr l j.
Proof. intros os l l' Hw Hr H. exact (proj2 (apply_views_chain os l l' Hw Hr H)). Qed.

Lemma negative_step_oob :
  exists l', slice (from_shape [5]) 0 4 None (-1) = Ok l' /\
  lshape l' = [5] /\ valid (lshape l') [1] /\ ~ addr l' [1] < nelem [5].
Proof.
  eexists. split; [reflexivity|]. split; [reflexivity|].
  split; [simpl; lia|]. vm_compute. lia.
Qed.

Lemma negative_step_refuted :
  ~ (forall l a start e step l',
       wf_layout l -> (step < 0)%Z -> slice l a start e step = Ok l' ->
       forall i, valid (lshape l') i ->
       exists j, index_rel (VSlice a start e step) (lshape l) (lshape l') i j /\
                 valid (lshape l) j /\ addr l' i = addr l j).
Proof.
  intro H. destruct negative_step_oob as [l' [E [_ [Hv Hn]]]].
  destruct (H (from_shape [5]) 0%Z 4%Z None (-1)%Z l' eq_refl ltac:(lia) E [1] Hv)
    as [j [_ [Hj Ha]]].
  apply Hn. rewrite Ha. rewrite addr_from_shape by now apply valid_length.
  now apply ravel_lt.
Qed.

Lemma slice_bounds_neg : forall n start e step cs m, (- n <= start < n)%Z -> (step < 0)%Z ->
  slice_bounds n start e step = (cs, m) ->
  cs = py_start_neg n start /\ (0 <= cs < n)%Z /\
  py_count cs (py_stop_neg n e) step m.
Proof.
  intros n start e step cs m Hn Hs H. unfold slice_bounds in H.
  replace (step >? 0)%Z with false in H by lia.
  assert (E1 : zclamp (if (start <? 0)%Z then (n + start)%Z else start) 0 n = py_start_neg n start).
  { unfold zclamp, py_start_neg. destruct (start <? 0)%Z eqn:E; lia. }
  assert (E2 : zclamp (match e with
                       | Some e0 => if (e0 <? 0)%Z then (n + e0)%Z else e0
                       | None => (-1)%Z end) (-1) (n - 1) = py_stop_neg n e).
  { unfold zclamp, py_stop_neg. destruct e as [e|]; [destruct (e <? 0)%Z eqn:E; lia|lia]. }
  rewrite E1, E2 in H. inversion H; subst cs m. clear H.
  split; auto.
  assert (R1 : (0 <= py_start_neg n start < n)%Z)
    by (unfold py_start_neg; destruct (start <? 0)%Z eqn:E; lia).
  split; auto.
  unfold py_count. replace (step >? 0)%Z with false by lia.
  set (a := py_start_neg n start) in *. set (b := py_stop_neg n e) in *.
  destruct (a >? b)%Z eqn:E.
  - rewrite Z.quot_div_nonneg by lia. split.
    + apply Z.div_pos; lia.
    + intros x Hx. split; intro G.
      * assert (x + 1 <= (a - b + - step - 1) / - step)%Z by lia.
        pose proof (Z.mul_div_le (a - b + - step - 1) (- step) ltac:(lia)). nia.
      * assert (x + 1 <= (a - b + - step - 1) / - step)%Z; [|lia].
        apply Z.div_le_lower_bound; nia.
  - split; [lia|]. intros x Hx. split; intro; nia.
Qed.

Lemma negative_step_partial : forall l a start e step l' d,
  wf_layout l -> (step < 0)%Z ->
  nth_error (lshape l) (axis_of (length (lshape l)) a) = Some d ->
  (- Z.of_nat d <= start < Z.of_nat d)%Z ->
  slice l a start e step = Ok l' ->
  shape_rel (VSlice a start e step) (lshape l) (lshape l') /\
  forall i, valid (lshape l') i -> nth_error i (axis_of (length (lshape l)) a) = Some 0 ->
  exists j, index_rel (VSlice a start e step) (lshape l) (lshape l') i j /\
            valid (lshape l) j /\ addr l' i = addr l j.
Proof.
  intros l a start e step l' d Hw Hst Ed Hstart H. unfold slice in H.
  set (n := length (lshape l)) in *.
  pose proof (cast_axis n a) as HC.
  destruct (as_usize (if (a <? 0)%Z then (Z.of_nat n + a)%Z else a)) as [k|]; [|discriminate].
  destruct (n <=? k) eqn:Ek; [discriminate|].
  replace (k <? n) with true in HC by lia. destruct HC as [Hok Hk].
  replace (step =? 0)%Z with false in H by lia.
  rewrite <- Hk in Ed.
  unfold idx_or_panic in H. rewrite Ed in H. cbn [bind] in H.
  destruct (slice_bounds (Z.of_nat d) start e step) as [cs m] eqn:Eb.
  destruct (m <=? 0)%Z eqn:Em; [discriminate|].
  destruct (nth_error (lstrides l) k) as [sd|] eqn:Es; [|discriminate]. cbn [bind] in H.
  inversion H; subst l'. clear H.
  apply slice_bounds_neg in Eb; [|lia|auto].
  destruct Eb as [Ecs [Hcs Hcount]].
  assert (Hkn : k < n) by lia.
  cbn [lshape]. simpl shape_rel. fold n. rewrite <- Hk.
  replace (step >? 0)%Z with false by lia.
  split.
  { split; [exact Hok|]. split; [apply upd_length|]. split.
    - intros k' Hk'. apply nth_error_upd_neq. congruence.
    - exists d, (Z.to_nat m). split; auto. split; [apply nth_error_upd_eq; auto|].
      split; [lia|]. rewrite Z2Nat.id by lia. now rewrite <- Ecs. }
  intros i Hi Hx0. pose proof (valid_length _ _ Hi) as Hil. rewrite upd_length in Hil. fold n in Hil.
  exists (upd i k (Z.to_nat cs)). split; [|split].
  - simpl. fold n. rewrite <- Hk. replace (step >? 0)%Z with false by lia.
    split; [rewrite upd_length; lia|]. split.
    + intros k' Hk'. apply nth_error_upd_neq. congruence.
    + exists d, 0, (Z.to_nat cs). split; auto. split; auto.
      split; [apply nth_error_upd_eq; lia|]. lia.
  - apply valid_nth. split; [rewrite upd_length; lia|].
    intros k' x b Ha Hb. rewrite nth_error_upd in Ha.
    destruct (k =? k') eqn:E; simpl in Ha.
    + apply Nat.eqb_eq in E. subst k'. replace (k <? length i) with true in Ha by lia.
      inversion Ha; subst x. rewrite Ed in Hb. inversion Hb; subst b. lia.
    + apply Nat.eqb_neq in E. apply valid_nth in Hi. destruct Hi as [_ Hi].
      apply (Hi k'); auto. now rewrite nth_error_upd_neq.
  - unfold addr. cbn [lstrides loffset].
    unfold wf_layout in Hw. fold n in Hw.
    rewrite (dot_upd _ _ _ _ (Z.to_nat (Z.abs step)) Es) by lia.
    rewrite (nth_error_nth i k 0 Hx0). simpl Nat.mul.
    pose proof (dot_upd_add (upd i k 0) (lstrides l) k sd (Z.to_nat cs) Es) as HA.
    rewrite upd_length in HA. specialize (HA ltac:(lia)).
    rewrite upd_upd in HA.
    rewrite (nth_error_nth (upd i k 0) k 0 (nth_error_upd_eq _ i k _ ltac:(lia))) in HA.
    simpl in HA. rewrite HA. lia.
Qed.

Lemma permute_inverse_thm : forall l axes l', wf_layout l -> permute l axes = Ok l' ->
  (exists inv, inverse_axes (length (lshape l)) axes inv) /\
  forall inv, inverse_axes (length (lshape l)) axes inv -> permute l' inv = Ok l.
Proof.
  intros l axes l' Hw H. split.
  - apply permute_Ok in H; auto. destruct H as [Hl [Hf [Hnd _]]]. now apply inverse_exists.
  - intros inv Hi. eapply permute_inverse; eauto.
Qed.

(** same row-major sequence *)
Lemma recontig_seq : forall o l l', wf_layout l -> views o l l' ->
  nelem (lshape l') = nelem (lshape l) ->
  (forall i j, index_rel o (lshape l) (lshape l') i j -> ravel (lshape l) j = ravel (lshape l') i) ->
  forall k, k < nelem (lshape l) ->
    addr l' (unravel (lshape l') k) = addr l (unravel (lshape l) k).
Proof.
  intros o l l' Hw [_ [_ HI]] Hn Hx k Hk.
  destruct (HI (unravel (lshape l') k)) as [j [Hj [Hv Ha]]].
  { apply unravel_valid. congruence. }
  rewrite Ha. f_equal. apply Hx in Hj. rewrite ravel_unravel in Hj by congruence.
  rewrite <- Hj. symmetry. now apply unravel_ravel.
Qed.

Lemma reshape_thm : forall l s, wf_layout l -> is_contiguous l = true ->
  ((exists l', reshape l s = Ok l') <-> nelem s = nelem (lshape l)) /\
  forall l', reshape l s = Ok l' ->
    lshape l' = s /\
    (forall k, k < nelem s -> addr l' (unravel s k) = addr l (unravel (lshape l) k)) /\
    reshape l' (lshape l) = Ok l.
Proof.
  intros l s Hw Hc. split.
  - split.
    + intros [l' H]. apply reshape_Ok in H. tauto.
    + intro H. eexists. apply reshape_Ok. auto.
  - intros l' H. pose proof H as H0. apply reshape_Ok in H0. destruct H0 as [Hn [_ E]].
    assert (Es : lshape l' = s) by (now subst l').
    split; auto. split.
    + intros k Hk. rewrite <- Es. apply (recontig_seq (VReshape s)); auto.
      * now apply reshape_view.
      * congruence.
      * congruence.
    + eapply reshape_back; eauto.
Qed.

Lemma squeeze_refuted :
  ~ (forall l dims l', wf_layout l -> squeeze l dims = Ok l' ->
     nelem (lshape l') = nelem (lshape l)).
Proof.
  intro H. specialize (H (from_shape [1;5]) [0;0]%Z (mkLayout [] [] 0) eq_refl eq_refl).
  discriminate.
Qed.

Lemma squeeze_partial : forall l dims l',
  wf_layout l -> NoDup (map (axis_of (length (lshape l))) dims) -> squeeze l dims = Ok l' ->
  nelem (lshape l') = nelem (lshape l) /\
  shape_rel (VSqueeze dims) (lshape l) (lshape l') /\
  forall k, k < nelem (lshape l) ->
    addr l' (unravel (lshape l') k) = addr l (unravel (lshape l) k).
Proof.
  intros l dims l' Hw Hnd H.
  pose proof (squeeze_view _ _ _ Hw Hnd H) as HV.
  assert (Hn : nelem (lshape l') = nelem (lshape l)).
  { destruct HV as [_ [Hs _]]. destruct dims as [|d0 ds]; simpl in Hs.
    - rewrite Hs. apply filter_nelem.
    - destruct Hs as [Hall ->]. apply keep_from_nelem. intros k d Hk Hf.
      apply negb_false_iff in Hf.
      change (existsb (fun a => 0 + k =? axis_of (length (lshape l)) a) (d0 :: ds) = true) in Hf.
      apply existsb_exists in Hf. destruct Hf as [a [Ha Hka]].
      apply Nat.eqb_eq in Hka. destruct (Hall _ Ha) as [_ H1]. simpl in Hka.
      subst k. now rewrite (nth_error_nth _ _ 0 Hk) in H1. }
  split; auto. split; [apply HV|].
  apply (recontig_seq (VSqueeze dims)); auto.
Qed.

Lemma broadcast_shape_wrong :
  broadcast_shape [3] [2;3] = None /\ bcast [3] [2;3] [2;3] /\
  broadcast_shape [3] [1;3] = Some [3;3] /\ bcast [3] [1;3] [1;3].
Proof.
  split; [reflexivity|]. split; [|split; [reflexivity|]].
  - split; [reflexivity|]. intros [|[|[|k]]]; unfold bcast_dim; simpl; auto.
  - split; [reflexivity|]. intros [|[|[|k]]]; unfold bcast_dim; simpl; auto.
Qed.

Lemma broadcast_shape_refuted :
  ~ (forall a b r, all_pos a -> all_pos b -> (broadcast_shape a b = Some r <-> bcast a b r)).
Proof.
  intro H. destruct broadcast_shape_wrong as [E [B _]].
  apply H in B; [congruence| |]; repeat constructor.
Qed.

Lemma contiguity_exact : forall l, wf_layout l ->
  (is_contiguous l = true <-> lstrides l = lstrides (from_shape (lshape l))) /\
  (is_contiguous l = true -> forall k, k < nelem (lshape l) ->
     addr l (unravel (lshape l) k) = loffset l + k).
Proof.
  intros l Hw. split; [now apply is_contiguous_iff|].
  intros Hc k Hk. rewrite addr_contiguous; auto using unravel_length.
  now rewrite ravel_unravel.
Qed.

Lemma fresh_strides : forall s k, k < length s ->
  nth_error (lstrides (from_shape s)) k = Some (nelem (skipn (S k) s)).
Proof.
  simpl. induction s as [|d s IH]; intros k Hk; [simpl in Hk; lia|].
  rewrite compute_strides_cons. destruct k as [|k]; [reflexivity|].
  simpl nth_error. rewrite IH by (simpl in Hk; lia). reflexivity.
Qed.

Lemma normalize_axis_thm : forall s a k,
  normalize_axis s a = Some k <->
  (- Z.of_nat (length s) <= a < Z.of_nat (length s))%Z /\
  Z.of_nat k = (if (a <? 0)%Z then a + Z.of_nat (length s) else a)%Z.
Proof.
  intros s a k. rewrite normalize_axis_Some. unfold axis_ok, axis_of.
  destruct (a <? 0)%Z eqn:E; lia.
Qed.

Lemma dim_size_thm : forall l a,
  layout_dim_size l a = shape_dim_size (lshape l) a /\
  shape_dim_size (lshape l) a =
    match normalize_axis (lshape l) a with Some k => nth_error (lshape l) k | None => None end.
Proof.
  intros l a. split; [apply layout_dim_size_eq|].
  rewrite normalize_axis_spec. set (s := lshape l).
  destruct ((- Z.of_nat (length s) <=? a)%Z && (a <? Z.of_nat (length s))%Z) eqn:E.
  - apply dim_size_spec. unfold axis_ok. lia.
  - apply dim_size_none. unfold axis_ok. lia.
Qed.

Lemma same_axis_spell : forall n k x y, k < n ->
  (x = Z.of_nat k \/ x = (Z.of_nat k - Z.of_nat n)%Z) ->
  (y = Z.of_nat k \/ y = (Z.of_nat k - Z.of_nat n)%Z) -> same_axis n x y.
Proof.
  intros n k x y Hk Hx Hy. unfold same_axis, axis_ok, axis_of.
  split; [lia|]. split; [lia|].
  destruct (x <? 0)%Z eqn:E1; destruct (y <? 0)%Z eqn:E2; lia.
Qed.

Lemma axis_spelling : forall l (a b : nat) start e step (axes axes' : list Z),
  let n := length (lshape l) in
  let neg (k m : nat) := (Z.of_nat k - Z.of_nat m)%Z in
  let spell (x y : Z) := exists k, k < n /\
      (x = Z.of_nat k \/ x = neg k n) /\ (y = Z.of_nat k \/ y = neg k n) in
  (a < n -> b < n ->
     transpose l (Z.of_nat a) (Z.of_nat b) = transpose l (neg a n) (neg b n) /\
     transpose l (Z.of_nat a) (Z.of_nat b) = transpose l (neg a n) (Z.of_nat b)) /\
  (a < n -> slice l (Z.of_nat a) start e step = slice l (neg a n) start e step) /\
  (a < S n -> unsqueeze l (Z.of_nat a) = unsqueeze l (neg a (S n))) /\
  (Forall2 spell axes axes' ->
     permute l axes = permute l axes' /\ squeeze l axes = squeeze l axes').
Proof.
  intros l a b start e step axes axes' n neg spell. split; [|split; [|split]].
  - intros Ha Hb. split; (apply transpose_alias; [apply (same_axis_spell _ a)|apply (same_axis_spell _ b)]; auto).
  - intros Ha. apply slice_alias. eapply same_axis_spell; eauto.
  - intros Ha. apply unsqueeze_alias. eapply same_axis_spell; eauto.
  - intros HF.
    assert (HF' : Forall2 (same_axis (length (lshape l))) axes axes').
    { clear -HF. induction HF as [|x y xs ys [k [Hk [Hx Hy]]] HF IH]; constructor; auto.
      eapply same_axis_spell; eauto. }
    split; [now apply permute_alias|now apply squeeze_alias].
Qed.

Lemma bad_axis_refused : forall l a, wf_layout l ->
  (~ axis_ok (length (lshape l)) a ->
     (forall b l', transpose l a b <> Ok l') /\ (forall b l', transpose l b a <> Ok l') /\
     (forall axes l', In a axes -> permute l axes <> Ok l') /\
     (forall dims l', In a dims -> squeeze l dims <> Ok l') /\
     (forall start e step l', slice l a start e step <> Ok l')) /\
  (~ axis_ok (S (length (lshape l))) a -> forall l', unsqueeze l a <> Ok l').
Proof.
  intros l a Hw. split.
  - intro Hn. split; [|split; [|split; [|split]]].
    + intros b l' H. apply transpose_Ok in H; tauto.
    + intros b l' H. apply transpose_Ok in H; tauto.
    + intros axes l' Hin H. apply permute_Ok in H; auto. destruct H as [_ [Hf _]].
      rewrite Forall_forall in Hf. auto.
    + intros dims l' Hin H. unfold squeeze in H.
      destruct (is_contiguous l); simpl in H; [|discriminate].
      destruct dims as [|d0 ds]; [destruct Hin|].
      destruct (squeeze_axes (lshape l) (d0 :: ds)) as [r|e|] eqn:E; try discriminate.
      apply squeeze_axes_Ok in E. destruct E as [Hall _]. apply Hn. now apply Hall.
    + intros start e step l' H. unfold slice in H.
      pose proof (cast_axis (length (lshape l)) a) as HC.
      destruct (as_usize _) as [k|]; [|discriminate].
      destruct (length (lshape l) <=? k) eqn:E; [discriminate|].
      replace (k <? length (lshape l)) with true in HC by lia. tauto.
  - intros Hn l' H. unfold unsqueeze, as_usize, axis_ok in *.
    set (n := length (lshape l)) in *.
    destruct (a <? 0)%Z eqn:E.
    + destruct (Z.of_nat n + a + 1 <? 0)%Z eqn:E2; [discriminate|].
      destruct (n <? Z.to_nat (Z.of_nat n + a + 1)) eqn:E3; [discriminate|]. lia.
    + rewrite E in H. destruct (n <? Z.to_nat a) eqn:E3; [discriminate|]. lia.
Qed.
