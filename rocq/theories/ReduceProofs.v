(** Proofs about reductions. *)
From Coq Require Import List Arith ZArith Lia Bool ZifyBool Permutation.
From Verif Require Import Base IndexSpec LayoutModel ViewSpec LayoutProofs LayoutProofs2 BcastProofs.
From Verif Require Import KernelModel KernelProofs TensorModel TensorSpec TensorProofs.
From Verif Require Import ReduceModel ReduceSpec.
Import ListNotations.

(** ** Index decoding *)

Lemma unravel_snoc : forall s d k, k < nelem (s ++ [d]) ->
  unravel (s ++ [d]) k = unravel s (k / d) ++ [k mod d].
Proof.
  induction s as [|x s IH]; intros d k Hk; cbn [app unravel] in *.
  - rewrite nelem_cons in Hk. change (nelem []) with 1 in *. rewrite Nat.div_1_r.
    rewrite Nat.mod_small by lia. reflexivity.
  - rewrite nelem_cons in Hk. rewrite nelem_app in *. rewrite nelem_cons in *.
    change (nelem []) with 1 in *. rewrite Nat.mul_1_r in *.
    assert (Hn : nelem s * d <> 0) by (intros E; rewrite E in Hk; lia).
    assert (Hd : d <> 0) by (intros ->; lia).
    assert (Hs : nelem s <> 0) by (intros E; rewrite E in *; lia).
    rewrite IH.
    2:{ rewrite nelem_app, nelem_cons. change (nelem []) with 1. rewrite Nat.mul_1_r.
        apply Nat.mod_upper_bound. auto. }
    cbn [app]. f_equal.
    + rewrite Nat.div_div by auto. f_equal. lia.
    + f_equal.
      * f_equal. rewrite (Nat.mul_comm (nelem s) d).
        rewrite Nat.mod_mul_r by auto.
        rewrite (Nat.add_comm (k mod d)), (Nat.mul_comm d), Nat.div_add_l by auto.
        rewrite (Nat.div_small (k mod d)) by (apply Nat.mod_upper_bound; auto). lia.
      * f_equal. rewrite (Nat.mul_comm (nelem s) d), Nat.mod_mul_r by auto.
        rewrite (Nat.mul_comm d), Nat.mod_add by auto. apply Nat.mod_mod. auto.
Qed.

Lemma c_unravel_rev_spec : forall s k, k < nelem s ->
  c_unravel_rev k (rev s) = Some (rev (unravel s k)).
Proof.
  induction s as [|d s IH] using rev_ind; intros k Hk; [reflexivity|].
  rewrite rev_app_distr. cbn [rev app c_unravel_rev].
  rewrite unravel_snoc by auto.
  rewrite nelem_app, nelem_cons in Hk. change (nelem []) with 1 in Hk.
  destruct (d =? 0) eqn:E; [lia|]. rewrite IH.
  - cbn [obind]. rewrite rev_app_distr. reflexivity.
  - apply Nat.div_lt_upper_bound; lia.
Qed.

Lemma c_unravel_spec : forall s k, k < nelem s -> c_unravel k s = Some (unravel s k).
Proof.
  intros s k Hk. unfold c_unravel. rewrite c_unravel_rev_spec by auto.
  cbn. now rewrite rev_involutive.
Qed.

Lemma flat_index_dot : forall ii st acc, flat_index acc ii st = acc + dot ii st.
Proof.
  induction ii as [|x ii IH]; intros [|s st] acc; simpl; try lia. rewrite IH. lia.
Qed.

(** ** Placing coordinates at the reduced axes *)

Fixpoint place (ds r ii : list nat) : list nat :=
  match ds, r with
  | d :: ds', x :: r' => place ds' r' (upd ii d x)
  | _, _ => ii
  end.

Lemma place_length : forall ds r ii, length (place ds r ii) = length ii.
Proof.
  induction ds as [|d ds IH]; intros [|x r] ii; simpl; auto. now rewrite IH, upd_length.
Qed.

Lemma place_out : forall ds r ii a, ~ In a ds -> nth_error (place ds r ii) a = nth_error ii a.
Proof.
  induction ds as [|d ds IH]; intros [|x r] ii a H; simpl; auto.
  rewrite IH by (simpl in H; tauto). apply nth_error_upd_neq. simpl in H. tauto.
Qed.

Lemma place_in : forall ds r ii k a, NoDup ds -> length r = length ds ->
  nth_error ds k = Some a -> a < length ii -> nth_error (place ds r ii) a = nth_error r k.
Proof.
  induction ds as [|d ds IH]; intros [|x r] ii k a ND L Hk Ha; simpl in *; try discriminate.
  - destruct k; discriminate.
  - inversion ND; subst. destruct k as [|k]; simpl in *.
    + injection Hk as <-. rewrite place_out by auto. now apply nth_error_upd_eq.
    + eapply IH; eauto. now rewrite upd_length.
Qed.

Lemma upd_comm : forall A (l : list A) a b x y, a <> b -> upd (upd l a x) b y = upd (upd l b y) a x.
Proof.
  intros A l a b x y H. apply list_ext.
  intros k. destruct (Nat.eq_dec k a) as [->|Ha].
  - rewrite nth_error_upd_neq by auto.
    destruct (Nat.lt_ge_cases a (length l)).
    + rewrite !nth_error_upd_eq; rewrite ?upd_length; auto.
    + rewrite !(proj2 (nth_error_None _ _)); rewrite ?upd_length; auto.
  - rewrite (nth_error_upd_neq _ _ a) by auto.
    destruct (Nat.eq_dec k b) as [->|Hb].
    + destruct (Nat.lt_ge_cases b (length l)).
      * rewrite !nth_error_upd_eq; rewrite ?upd_length; auto.
      * rewrite !(proj2 (nth_error_None _ _)); rewrite ?upd_length; auto.
    + rewrite !nth_error_upd_neq by auto. reflexivity.
Qed.

Lemma place_snoc : forall ds r ii d x, length r = length ds -> ~ In d ds ->
  place (ds ++ [d]) (r ++ [x]) ii = place ds r (upd ii d x).
Proof.
  induction ds as [|e ds IH]; intros [|y r] ii d x L H; simpl in *; try discriminate; auto.
  rewrite IH by (auto; tauto). f_equal. apply upd_comm. tauto.
Qed.

Lemma place_agree : forall ds r ii ii', NoDup ds -> length r = length ds ->
  Forall (fun d => d < length ii) ds -> length ii' = length ii ->
  (forall a, ~ In a ds -> nth_error ii' a = nth_error ii a) ->
  place ds r ii' = place ds r ii.
Proof.
  intros ds r ii ii' ND L HF Hl Ha. apply list_ext.
  intros a. destruct (in_dec Nat.eq_dec a ds) as [Hin|Hn].
  - destruct (In_nth_error _ _ Hin) as [k Hk]. rewrite Forall_forall in HF.
    pose proof (HF a Hin).
    rewrite !(place_in ds r _ k a); auto; lia.
  - rewrite !place_out by auto. auto.
Qed.

Lemma extents_snoc : forall ds d s, extents (ds ++ [d]) s = extents ds s ++ [nth d s 0].
Proof. intros. unfold extents. now rewrite map_app. Qed.

Lemma set_reduced_spec : forall ds k s ii, NoDup ds -> length ii = length s ->
  Forall (fun d => d < length s) ds -> k < nelem (extents ds s) ->
  set_reduced (rev ds) k s ii = Some (place ds (unravel (extents ds s) k) ii).
Proof.
  induction ds as [|d ds IH] using rev_ind; intros k s ii ND L HF Hk; [reflexivity|].
  rewrite rev_app_distr. cbn [rev app set_reduced].
  apply Forall_app in HF. destruct HF as [HF1 HF2]. apply Forall_inv in HF2.
  assert (ND' : NoDup ds /\ ~ In d ds).
  { apply NoDup_remove in ND. rewrite app_nil_r in ND. exact ND. }
  destruct ND' as [ND1 Hn].
  rewrite extents_snoc in *. rewrite unravel_snoc by auto.
  rewrite nelem_app, nelem_cons in Hk. change (nelem []) with 1 in Hk.
  rewrite (nth_error_nth' s 0) by auto. cbn [obind].
  destruct (nth d s 0 =? 0) eqn:E; [lia|]. replace (d <? length ii) with true by lia.
  rewrite IH; auto.
  - rewrite place_snoc; auto. rewrite unravel_length. unfold extents. now rewrite map_length.
  - now rewrite upd_length.
  - apply Nat.div_lt_upper_bound; lia.
Qed.

(** ** The accumulation loop *)

Section Loop.
Context {A B : Type} (step : list nat -> list nat -> B -> A -> option B)
  (h : list nat -> B -> A -> B) (d0 : A).
Variables (input : list A) (s st : list nat) (off : nat) (ds : list nat).
Hypothesis Hstep : forall ii b v, length ii = length s -> step ds ii b v = Some (h ii b v).
Hypothesis ND : NoDup ds.
Hypothesis HF : Forall (fun d => d < length s) ds.

Lemma reduce_loop_spec : forall ks base ii acc, length base = length s -> length ii = length base ->
  (forall a, ~ In a ds -> nth_error ii a = nth_error base a) ->
  Forall (fun k => k < nelem (extents ds s)) ks ->
  (forall k, In k ks -> off + dot (place ds (unravel (extents ds s) k) base) st < length input) ->
  reduce_loop step input s st off ds ks ii acc =
  Some (fold_left (fun b i => h i b (rd d0 input (off + dot i st)))
          (map (fun k => place ds (unravel (extents ds s) k) base) ks) acc).
Proof.
  induction ks as [|k ks IH]; intros base ii acc Lb Li Ha HK Hin; [reflexivity|].
  cbn [reduce_loop map fold_left]. inversion HK; subst.
  rewrite set_reduced_spec by (auto; congruence). cbn [obind].
  rewrite (place_agree ds _ base ii); auto.
  2:{ rewrite unravel_length. unfold extents. now rewrite map_length. }
  2:{ now rewrite Lb. }
  rewrite flat_index_dot. rewrite (nth_error_rd _ d0) by (apply Hin; now left). cbn [obind].
  rewrite Hstep by (rewrite place_length; auto). cbn [obind].
  apply IH; auto.
  - rewrite place_length. auto.
  - intros a Hna. now apply place_out.
  - intros k' Hk'. apply Hin. now right.
Qed.
End Loop.

(** ** Fibres *)

Lemma drop_axes_length_le : forall A ds (l : list A) k, length (drop_axes ds k l) <= length l.
Proof.
  induction l as [|x l IH]; intros k; simpl; auto.
  destruct (in_dec _ _ _); simpl; specialize (IH (S k)); lia.
Qed.

Lemma set_axes_length : forall A ds (v : A) l k, length (set_axes ds v k l) = length l.
Proof. induction l; simpl; auto. Qed.

Lemma drop_axes_agree : forall ds (l l' : list nat) k, length l = length l' ->
  (drop_axes ds k l = drop_axes ds k l' <->
   forall a, ~ In (k + a) ds -> nth_error l a = nth_error l' a).
Proof.
  induction l as [|x l IH]; intros [|y l'] k L; simpl in *; try discriminate.
  - split; auto.
  - injection L as L. destruct (in_dec Nat.eq_dec k ds) as [Hin|Hn].
    + rewrite IH by auto. split; intros H a Ha.
      * destruct a as [|a]; [exfalso; apply Ha; now rewrite Nat.add_0_r|].
        simpl. apply H. now rewrite Nat.add_succ_comm.
      * apply (H (S a)). rewrite <- Nat.add_succ_comm. exact Ha.
    + split.
      * intros E a Ha. injection E as Exy E. destruct a as [|a]; simpl; [congruence|].
        apply (proj1 (IH l' (S k) L) E). now rewrite Nat.add_succ_comm.
      * intros H. f_equal.
        -- specialize (H 0). rewrite Nat.add_0_r in H. specialize (H Hn). simpl in H. congruence.
        -- apply IH; auto. intros a Ha. apply (H (S a)). now rewrite <- Nat.add_succ_comm.
Qed.

Lemma set_axes_agree : forall ds v (l l' : list nat) k, length l = length l' ->
  (set_axes ds v k l = set_axes ds v k l' <->
   forall a, ~ In (k + a) ds -> nth_error l a = nth_error l' a).
Proof.
  induction l as [|x l IH]; intros [|y l'] k L; simpl in *; try discriminate.
  - split; auto.
  - injection L as L. destruct (in_dec Nat.eq_dec k ds) as [Hin|Hn].
    + split.
      * intros E a Ha. injection E as E.
        destruct a as [|a]; [exfalso; apply Ha; now rewrite Nat.add_0_r|].
        simpl. apply (proj1 (IH l' (S k) L) E). now rewrite Nat.add_succ_comm.
      * intros H. f_equal. apply IH; auto. intros a Ha. apply (H (S a)).
        now rewrite <- Nat.add_succ_comm.
    + split.
      * intros E a Ha. injection E as Exy E. destruct a as [|a]; simpl; [congruence|].
        apply (proj1 (IH l' (S k) L) E). now rewrite Nat.add_succ_comm.
      * intros H. f_equal.
        -- specialize (H 0). rewrite Nat.add_0_r in H. specialize (H Hn). simpl in H. congruence.
        -- apply IH; auto. intros a Ha. apply (H (S a)). now rewrite <- Nat.add_succ_comm.
Qed.

Lemma rproj_agree : forall keep ds l l', length l = length l' ->
  (rproj keep ds l = rproj keep ds l' <-> forall a, ~ In a ds -> nth_error l a = nth_error l' a).
Proof.
  intros [] ds l l' L; unfold rproj; [apply (set_axes_agree ds 0 l l' 0 L)|apply (drop_axes_agree ds l l' 0 L)].
Qed.

(** an index of the right length that projects to [j] *)
Definition base_idx (keep : bool) (ds : list nat) (n : nat) (j : list nat) : list nat :=
  if keep then j else spread ds 0 n j.

Lemma in_list_iff : forall ds i, in_list ds i = true <-> In i ds.
Proof.
  intros. unfold in_list. rewrite existsb_exists. split.
  - intros [x [H1 H2]]. apply Nat.eqb_eq in H2. now subst.
  - intros H. exists i. split; auto. apply Nat.eqb_refl.
Qed.

Lemma spread_spec : forall ds (s j : list nat) k, valid (drop_axes ds k s) j ->
  length (spread ds k (length s) j) = length s /\
  drop_axes ds k (spread ds k (length s) j) = j /\
  (forall a d, ~ In (k + a) ds -> nth_error s a = Some d ->
     exists x, nth_error (spread ds k (length s) j) a = Some x /\ x < d).
Proof.
  induction s as [|d s IH]; intros j k H; simpl in *.
  - destruct j; [|contradiction]. split; auto. split; auto. intros [|a] d' _ E; discriminate.
  - destruct (in_dec Nat.eq_dec k ds) as [Hin|Hn].
    + rewrite (proj2 (in_list_iff ds k) Hin). destruct (IH j (S k) H) as [H1 [H2 H3]].
      split; [simpl; auto|]. split.
      * simpl. destruct (in_dec Nat.eq_dec k ds); [auto|contradiction].
      * intros [|a] d' Ha E; [exfalso; apply Ha; now rewrite Nat.add_0_r|].
        simpl in *. apply H3; auto. intros HH. apply Ha. replace (k + S a) with (S k + a) by lia. exact HH.
    + destruct (in_list ds k) eqn:E; [apply in_list_iff in E; contradiction|].
      destruct j as [|x j]; [contradiction|]. destruct H as [Hx Hj].
      destruct (IH j (S k) Hj) as [H1 [H2 H3]].
      split; [simpl; auto|]. split.
      * simpl. destruct (in_dec Nat.eq_dec k ds); [contradiction|now f_equal].
      * intros [|a] d' Ha Ed; simpl in *.
        -- injection Ed as <-. eauto.
        -- apply H3; auto. intros HH. apply Ha. replace (k + S a) with (S k + a) by lia. exact HH.
Qed.

Lemma keep_spec : forall ds (s j : list nat) k, valid (set_axes ds 1 k s) j ->
  length j = length s /\ set_axes ds 0 k j = j /\
  (forall a d, ~ In (k + a) ds -> nth_error s a = Some d ->
     exists x, nth_error j a = Some x /\ x < d).
Proof.
  induction s as [|d s IH]; intros j k H; simpl in *.
  - destruct j; [|contradiction]. split; auto. split; auto. intros [|a] d' _ E; discriminate.
  - destruct j as [|x j]; [contradiction|]. destruct H as [Hx Hj].
    destruct (IH j (S k) Hj) as [H1 [H2 H3]].
    split; [simpl; auto|]. split.
    + simpl. destruct (in_dec Nat.eq_dec k ds); f_equal; auto. lia.
    + intros [|a] d' Ha Ed; simpl in *.
      * injection Ed as <-. rewrite Nat.add_0_r in Ha.
        destruct (in_dec Nat.eq_dec k ds); [contradiction|]. eauto.
      * apply H3; auto. intros HH. apply Ha. replace (k + S a) with (S k + a) by lia. exact HH.
Qed.

Lemma base_idx_spec : forall keep ds s j, valid (rshape keep ds s) j ->
  length (base_idx keep ds (length s) j) = length s /\
  rproj keep ds (base_idx keep ds (length s) j) = j /\
  (forall a d, ~ In a ds -> nth_error s a = Some d ->
     exists x, nth_error (base_idx keep ds (length s) j) a = Some x /\ x < d).
Proof.
  intros [] ds s j H; unfold base_idx, rproj; [now apply (keep_spec ds s j 0)|now apply (spread_spec ds s j 0)].
Qed.

Lemma extents_nth : forall ds s k a, nth_error ds k = Some a -> a < length s ->
  nth_error (extents ds s) k = nth_error s a.
Proof.
  intros ds s k a H Ha. unfold extents. rewrite nth_error_map, H. cbn.
  symmetry. now apply nth_error_nth'.
Qed.

Lemma place_valid : forall ds s r ii, NoDup ds -> Forall (fun d => d < length s) ds ->
  length ii = length s ->
  (forall a d, ~ In a ds -> nth_error s a = Some d -> exists x, nth_error ii a = Some x /\ x < d) ->
  valid (extents ds s) r -> valid s (place ds r ii).
Proof.
  intros ds s r ii ND HF L Ho Hr. apply valid_nth. split; [now rewrite place_length|].
  assert (Lr : length r = length ds).
  { apply valid_length in Hr. rewrite Hr. unfold extents. now rewrite map_length. }
  intros a x d Hx Hd. destruct (in_dec Nat.eq_dec a ds) as [Hin|Hn].
  - destruct (In_nth_error _ _ Hin) as [k Hk].
    assert (Ha : a < length s) by (apply nth_error_Some; congruence).
    rewrite (place_in ds r ii k a) in Hx; auto; try lia.
    apply valid_nth in Hr. destruct Hr as [_ Hr]. apply (Hr k x d Hx).
    rewrite (extents_nth ds s k a); auto.
  - rewrite place_out in Hx by auto. destruct (Ho a d Hn Hd) as [y [E Hy]]. congruence.
Qed.

Definition pick (ds i : list nat) : list nat := map (fun d => nth d i 0) ds.

Lemma place_pick : forall ds i ii, NoDup ds -> Forall (fun d => d < length i) ds ->
  length ii = length i -> (forall a, ~ In a ds -> nth_error ii a = nth_error i a) ->
  place ds (pick ds i) ii = i.
Proof.
  intros ds i ii ND HF L Ha. apply list_ext.
  intros a. destruct (in_dec Nat.eq_dec a ds) as [Hin|Hn].
  - destruct (In_nth_error _ _ Hin) as [k Hk]. rewrite Forall_forall in HF.
    pose proof (HF a Hin). rewrite (place_in _ _ _ k a); auto; try lia.
    + unfold pick. rewrite nth_error_map, Hk. cbn. symmetry. now apply nth_error_nth'.
    + unfold pick. now rewrite map_length.
  - rewrite place_out by auto. auto.
Qed.

Lemma pick_valid : forall ds s i, Forall (fun d => d < length s) ds -> valid s i ->
  valid (extents ds s) (pick ds i).
Proof.
  induction ds as [|d ds IH]; intros s i HF Hi; simpl; [exact I|].
  inversion HF; subst. split; [|now apply IH].
  apply valid_nth in Hi. destruct Hi as [L Hi].
  apply (Hi d); apply nth_error_nth'; congruence.
Qed.

(** The indices visited for result index [j], in the order of the kernel. *)
Definition visit (keep : bool) (ds s j : list nat) : list (list nat) :=
  map (fun r => place ds r (base_idx keep ds (length s) j)) (all_idx (extents ds s)).

Lemma extents_length : forall ds s, length (extents ds s) = length ds.
Proof. intros. unfold extents. apply map_length. Qed.

Lemma NoDup_map_inj : forall A B (f : A -> B) l,
  (forall x y, In x l -> In y l -> f x = f y -> x = y) -> NoDup l -> NoDup (map f l).
Proof.
  induction l as [|a l IH]; intros Hf ND; simpl; constructor; inversion ND; subst.
  - intros Hin. apply in_map_iff in Hin. destruct Hin as [x [E Hx]].
    assert (x = a) by (apply Hf; simpl; auto). congruence.
  - apply IH; auto. intros; apply Hf; simpl; auto.
Qed.

Lemma visit_fibre : forall keep ds s j, NoDup ds -> Forall (fun d => d < length s) ds ->
  valid (rshape keep ds s) j -> Permutation (visit keep ds s j) (fibre keep ds s j).
Proof.
  intros keep ds s j ND HF Hj. destruct (base_idx_spec keep ds s j Hj) as [Lb [Pb Ob]].
  set (b := base_idx keep ds (length s) j) in *.
  apply NoDup_Permutation.
  - apply NoDup_map_inj; [|apply all_idx_NoDup].
    intros x y Hx Hy E. apply in_all_idx in Hx. apply in_all_idx in Hy.
    apply valid_length in Hx. apply valid_length in Hy. rewrite extents_length in *.
    apply list_ext. intros k. fold b in E.
    destruct (Nat.lt_ge_cases k (length ds)) as [Hk|Hk].
    + destruct (nth_error ds k) as [a|] eqn:Ek; [|apply nth_error_None in Ek; lia].
      assert (Ha : a < length b).
      { rewrite Forall_forall in HF. rewrite Lb. apply HF. eapply nth_error_In; eauto. }
      rewrite <- (place_in ds x b k a), <- (place_in ds y b k a); auto. now rewrite E.
    + rewrite !(proj2 (nth_error_None _ _)); auto; lia.
  - apply NoDup_filter. apply all_idx_NoDup.
  - intros i. unfold visit, fibre. rewrite in_map_iff, filter_In, in_all_idx. fold b. split.
    + intros [r [<- Hr]]. apply in_all_idx in Hr. split; [apply place_valid; auto|].
      destruct (list_eq_dec Nat.eq_dec (rproj keep ds (place ds r b)) j) as [|NE]; auto.
      exfalso. apply NE. rewrite <- Pb. apply rproj_agree; [apply place_length|].
      intros a Ha. now apply place_out.
    + intros [Hv E]. destruct (list_eq_dec Nat.eq_dec (rproj keep ds i) j) as [E'|]; [|discriminate].
      exists (pick ds i). split; [|apply in_all_idx; now apply pick_valid].
      pose proof (valid_length _ _ Hv) as Li.
      apply place_pick; auto; try congruence.
      * rewrite Li. exact HF.
      * apply (rproj_agree keep ds b i); congruence.
Qed.

(** each visited index is the base with the extents counted in row-major order *)
Lemma visit_length : forall keep ds s j, length (visit keep ds s j) = nelem (extents ds s).
Proof. intros. unfold visit. now rewrite map_length, all_idx_length. Qed.

(** ** Shapes *)

Lemma reduced_dims_rshape : forall keep ds s k,
  reduced_dims keep ds k s = if keep then set_axes ds 1 k s else drop_axes ds k s.
Proof.
  intros keep ds. induction s as [|d s IH]; intros k; simpl; [now destruct keep|].
  rewrite IH. destruct (in_dec Nat.eq_dec k ds) as [H|H].
  - rewrite (proj2 (in_list_iff ds k) H). now destruct keep.
  - destruct (in_list ds k) eqn:E; [apply in_list_iff in E; contradiction|]. now destruct keep.
Qed.

Lemma kernel_out_nelem : forall keep ds s,
  nelem (kernel_out_shape keep ds s) = nelem (rshape keep ds s).
Proof.
  intros. unfold kernel_out_shape. rewrite reduced_dims_rshape. unfold rshape.
  destruct (if keep then _ else _); reflexivity.
Qed.

Lemma spread_all : forall ds (s : list nat) q l1 l2, drop_axes ds q s = [] ->
  spread ds q (length s) l1 = spread ds q (length s) l2.
Proof.
  induction s as [|d s IH]; intros q l1 l2 E; [reflexivity|]. cbn [drop_axes] in E.
  destruct (in_dec Nat.eq_dec q ds) as [H|H]; [|discriminate].
  cbn [length spread]. rewrite (proj2 (in_list_iff ds q) H). f_equal. now apply IH.
Qed.

Lemma kernel_out_unravel : forall keep ds s k, k < nelem (rshape keep ds s) ->
  let u := unravel (kernel_out_shape keep ds s) k in
  if keep then length s <= length u /\ firstn (length s) u = unravel (rshape keep ds s) k
  else spread ds 0 (length s) u = spread ds 0 (length s) (unravel (rshape keep ds s) k).
Proof.
  intros keep ds s k Hk u. subst u. unfold kernel_out_shape. rewrite reduced_dims_rshape.
  unfold rshape in *. destruct keep.
  - destruct s as [|d s]; [simpl; auto with arith|].
    cbn [set_axes]. split.
    + rewrite unravel_length. cbn [length]. now rewrite set_axes_length.
    + apply firstn_all2. rewrite unravel_length. cbn [length]. now rewrite set_axes_length.
  - destruct (drop_axes ds 0 s) as [|d0 r] eqn:E; [|reflexivity].
    (* all axes reduced: the single output index 0 is never used *)
    change (nelem []) with 1 in Hk. assert (k = 0) by lia. subst k. cbn [unravel].
    change (nelem []) with 1. rewrite Nat.div_1_r.
    now apply spread_all.
Qed.

Lemma fold_extents : forall ds s acc, 
  fold_left (fun a d => a * nth d s 0) ds acc = acc * nelem (extents ds s).
Proof.
  induction ds as [|d ds IH]; intros s acc; cbn [fold_left].
  - unfold extents. cbn. change (nelem []) with 1. lia.
  - rewrite IH. change (extents (d :: ds) s) with (nth d s 0 :: extents ds s).
    rewrite nelem_cons. lia.
Qed.

(** ** The kernel *)

Lemma reduce_md : forall l ds keep, wf_layout l ->
  let md := reduce_metadata l ds keep in
  let n := length (lshape l) in
  let o := kernel_out_shape keep ds (lshape l) in
  nth_error md 0 = Some n /\ md_slice md 1 n = Some (lshape l) /\
  md_slice md (1 + n) n = Some (lstrides l) /\
  nth_error md (1 + 2 * n) = Some (loffset l) /\
  nth_error md (2 + 2 * n) = Some (length o) /\
  md_slice md (3 + 2 * n) (length o) = Some o /\
  nth_error md (3 + 2 * n + length o) = Some (length ds) /\
  md_slice md (4 + 2 * n + length o) (length ds) = Some ds /\
  nth_error md (4 + 2 * n + length o + length ds) = Some (if keep then 1 else 0) /\
  nth_error md (5 + 2 * n + length o + length ds) = Some (nelem (extents ds (lshape l))).
Proof.
  intros l ds keep Hw md n o. unfold wf_layout in Hw. subst md. unfold reduce_metadata.
  fold o. fold n. rewrite fold_extents, Nat.mul_1_l.
  set (R := nelem _). clearbody R. clearbody o. destruct l as [s st off]. cbn [lshape lstrides loffset] in *.
  subst n. 
  split; [reflexivity|].
  split; [apply (md_slice_app [length s] s); simpl; lia|].
  split; [rewrite (app_assoc [length s]); apply (md_slice_app ([length s] ++ s) st); rewrite ?app_length; simpl; lia|].
  assert (E : forall (pre post : list nat) x k, k = length pre -> nth_error (pre ++ x :: post) k = Some x).
  { intros. rewrite nth_error_app2 by lia. subst. now rewrite Nat.sub_diag. }
  split; [rewrite !app_assoc; rewrite <- !(app_assoc (([length s] ++ s) ++ st)); apply E; rewrite ?app_length; simpl; lia|].
  split; [rewrite !app_assoc; rewrite <- !(app_assoc ((([length s] ++ s) ++ st) ++ [off])); apply E; rewrite ?app_length; simpl; lia|].
  split.
  { replace ([length s] ++ s ++ st ++ [off] ++ [length o] ++ o ++ [length ds] ++ ds ++ [if keep then 1 else 0; R])
      with (([length s] ++ s ++ st ++ [off] ++ [length o]) ++ o ++ ([length ds] ++ ds ++ [if keep then 1 else 0; R]))
      by (rewrite <- !app_assoc; reflexivity).
    apply md_slice_app; rewrite ?app_length; simpl; rewrite ?app_length; simpl; lia. }
  split.
  { replace ([length s] ++ s ++ st ++ [off] ++ [length o] ++ o ++ [length ds] ++ ds ++ [if keep then 1 else 0; R])
      with (([length s] ++ s ++ st ++ [off] ++ [length o] ++ o) ++ length ds :: (ds ++ [if keep then 1 else 0; R]))
      by (rewrite <- !app_assoc; reflexivity).
    apply E. rewrite ?app_length; simpl; rewrite ?app_length; simpl; rewrite ?app_length; lia. }
  split.
  { replace ([length s] ++ s ++ st ++ [off] ++ [length o] ++ o ++ [length ds] ++ ds ++ [if keep then 1 else 0; R])
      with (([length s] ++ s ++ st ++ [off] ++ [length o] ++ o ++ [length ds]) ++ ds ++ [if keep then 1 else 0; R])
      by (rewrite <- !app_assoc; reflexivity).
    apply md_slice_app; rewrite ?app_length; simpl; rewrite ?app_length; simpl; rewrite ?app_length; simpl; lia. }
  split.
  { replace ([length s] ++ s ++ st ++ [off] ++ [length o] ++ o ++ [length ds] ++ ds ++ [if keep then 1 else 0; R])
      with (([length s] ++ s ++ st ++ [off] ++ [length o] ++ o ++ [length ds] ++ ds) ++ (if keep then 1 else 0) :: [R])
      by (rewrite <- !app_assoc; reflexivity).
    apply E. rewrite ?app_length; simpl; rewrite ?app_length; simpl; rewrite ?app_length; simpl; lia. }
  { replace ([length s] ++ s ++ st ++ [off] ++ [length o] ++ o ++ [length ds] ++ ds ++ [if keep then 1 else 0; R])
      with (([length s] ++ s ++ st ++ [off] ++ [length o] ++ o ++ [length ds] ++ ds ++ [if keep then 1 else 0]) ++ R :: [])
      by (rewrite <- !app_assoc; reflexivity).
    apply E. rewrite ?app_length; simpl; rewrite ?app_length; simpl; rewrite ?app_length; simpl; rewrite ?app_length; simpl; lia. }
Qed.

Lemma kernel_out_len : forall keep ds s, length (kernel_out_shape keep ds s) <= Nat.max 1 (length s).
Proof.
  intros. unfold kernel_out_shape. rewrite reduced_dims_rshape.
  assert (length (if keep then set_axes ds 1 0 s else drop_axes ds 0 s) <= length s).
  { destruct keep; [now rewrite set_axes_length|apply drop_axes_length_le]. }
  destruct (if keep then _ else _); cbn [length] in *; lia.
Qed.

Section Kernel.
Context {A B C : Type} (init : B) (step : list nat -> list nat -> B -> A -> option B)
  (h : list nat -> B -> A -> B) (fin : nat -> B -> C) (d0 : A).

Lemma reduce_kernel_spec : forall (input : list A) (out : list C) l ds keep,
  wf_layout l -> in_bounds (length input) l -> NoDup ds ->
  Forall (fun d => d < length (lshape l)) ds -> length (lshape l) <= 16 ->
  (forall ii b v, length ii = length (lshape l) -> step ds ii b v = Some (h ii b v)) ->
  length out = nelem (rshape keep ds (lshape l)) ->
  reduce_kernel init step fin input out (reduce_metadata l ds keep) =
  Some (map (fun k => fin (nelem (extents ds (lshape l)))
                       (fold_left (fun b i => h i b (rd d0 input (addr l i)))
                          (visit keep ds (lshape l) (unravel (rshape keep ds (lshape l)) k)) init))
            (seq 0 (nelem (rshape keep ds (lshape l))))).
Proof.
  intros input out l ds keep Hw Hb ND HF HR Hstep Ho.
  destruct (reduce_md l ds keep Hw) as [M1 [M2 [M3 [M4 [M5 [M6 [M7 [M8 [M9 M10]]]]]]]]].
  unfold reduce_kernel. rewrite M1. cbn [obind]. rewrite M2. cbn [obind]. rewrite M3. cbn [obind].
  rewrite M4. cbn [obind]. rewrite M5. cbn [obind]. rewrite M6. cbn [obind]. rewrite M7. cbn [obind].
  rewrite M8. cbn [obind]. rewrite M9. cbn [obind]. rewrite M10. cbn [obind].
  clear M1 M2 M3 M4 M5 M6 M7 M8 M9 M10.
  change shape_size with nelem. rewrite kernel_out_nelem.
  set (s := lshape l) in *. 
  apply seq_for_total; [exact Ho|]. intros k Hk.
  pose proof (kernel_out_len keep ds s). replace ((16 <? length s) || (16 <? length (kernel_out_shape keep ds s))) with false by lia.
  rewrite c_unravel_spec by (rewrite kernel_out_nelem; exact Hk). cbn [obind].
  pose proof (kernel_out_unravel keep ds s k Hk) as U. cbn zeta in U.
  pose proof (unravel_valid _ _ Hk) as Vj.
  set (j := unravel (rshape keep ds s) k) in *.
  destruct (base_idx_spec keep ds s j Vj) as [Lb [Pb Ob]].
  assert (E : (if negb ((if keep then 1 else 0) =? 0)
      then md_slice (unravel (kernel_out_shape keep ds s) k) 0 (length s)
      else Some (spread ds 0 (length s) (unravel (kernel_out_shape keep ds s) k)))
      = Some (base_idx keep ds (length s) j)).
  { destruct keep; cbn [negb Nat.eqb base_idx].
    - destruct U as [U1 U2]. unfold md_slice. cbn [Nat.add].
      replace (length s <=? length (unravel (kernel_out_shape true ds s) k)) with true by lia.
      cbn [skipn]. now rewrite U2.
    - now rewrite U. }
  rewrite E. cbn [obind].
  assert (Vp : forall q, q < nelem (extents ds s) ->
             valid s (place ds (unravel (extents ds s) q) (base_idx keep ds (length s) j))).
  { intros q Hq. apply place_valid; auto. now apply unravel_valid. }
  rewrite (reduce_loop_spec step h d0 input s (lstrides l) (loffset l) ds) with (base := base_idx keep ds (length s) j); auto.
  - cbn [obind]. f_equal. f_equal. unfold visit. rewrite all_idx_map_unravel, map_map. reflexivity.
  - apply Forall_forall. intros q Hq. apply in_seq in Hq. lia.
  - intros q Hq. apply in_seq in Hq. apply (Hb _ (Vp q ltac:(lia))).
Qed.
End Kernel.

(** ** The tensor operation *)

Lemma reduce_axes_spec : forall n dims ds, axes_of n dims ds -> reduce_axes n dims = map Some ds.
Proof.
  intros n [|z dims] ds H; cbn [axes_of reduce_axes] in *; [now subst|].
  induction H as [|z' d dims' ds' [Hd Hz] _ IH]; [reflexivity|]. cbn [map]. rewrite IH. f_equal.
  unfold as_usize. destruct (Z.ltb_spec z' 0).
  - destruct Hz as [Hz|Hz]; [lia|]. destruct (Z.ltb_spec (Z.of_nat n + z') 0); [lia|]. f_equal. lia.
  - destruct Hz as [Hz|Hz]; [|lia]. destruct (Z.ltb_spec z' 0); [lia|]. f_equal. lia.
Qed.

Lemma axes_lt : forall n dims ds, axes_of n dims ds -> Forall (fun d => d < n) ds.
Proof.
  intros n [|z dims] ds H; cbn [axes_of] in H.
  - subst. apply Forall_forall. intros x Hx. apply in_seq in Hx. lia.
  - induction H as [|? ? ? ? [H _]]; constructor; auto.
Qed.

Lemma set_axes_nth : forall A ds (v : A) l k a,
  nth_error (set_axes ds v k l) a =
  if in_dec Nat.eq_dec (k + a) ds then (if a <? length l then Some v else None) else nth_error l a.
Proof.
  induction l as [|x l IH]; intros k a; simpl.
  - destruct (in_dec _ _ _); now destruct a.
  - destruct a as [|a]; simpl.
    + rewrite Nat.add_0_r. destruct (in_dec _ _ _); reflexivity.
    + rewrite IH. rewrite Nat.add_succ_comm. destruct (in_dec _ _ _); auto.
Qed.

Lemma set_axes_upd : forall A ds d (v : A) l,
  set_axes ds v 0 (upd l d v) = set_axes (d :: ds) v 0 l.
Proof.
  intros. apply list_ext. intros a. rewrite !set_axes_nth. rewrite upd_length. cbn [Nat.add].
  destruct (in_dec Nat.eq_dec a ds) as [H|H].
  - destruct (in_dec Nat.eq_dec a (d :: ds)) as [_|H']; [reflexivity|]. exfalso. apply H'. now right.
  - destruct (in_dec Nat.eq_dec a (d :: ds)) as [H'|H'].
    + destruct H' as [->|H']; [|contradiction].
      destruct (a <? length l) eqn:E.
      * apply nth_error_upd_eq. lia.
      * apply nth_error_None. rewrite upd_length. lia.
    + apply nth_error_upd_neq. intros ->. apply H'. now left.
Qed.

Lemma set_axes_nil : forall A (v : A) l k, set_axes [] v k l = l.
Proof. induction l; intros; simpl; [auto|now rewrite IHl]. Qed.

Lemma mark_axes_spec : forall keep ds s, Forall (fun d => d < length s) ds ->
  mark_axes keep s (map Some ds) = Ok (set_axes ds (if keep then 1 else 0) 0 s, ds).
Proof.
  intros keep. induction ds as [|d ds IH]; intros s H; cbn [map mark_axes].
  - now rewrite set_axes_nil.
  - inversion H; subst. replace (d <? length s) with true by lia.
    rewrite IH by (now rewrite upd_length). cbn [bind fst snd]. now rewrite set_axes_upd.
Qed.

Lemma filter_set_axes : forall ds s k, 
  (forall a d, nth_error s a = Some d -> ~ In (k + a) ds -> 0 < d) ->
  filter (fun d => negb (d =? 0)) (set_axes ds 0 k s) = drop_axes ds k s.
Proof.
  induction s as [|d s IH]; intros k H; cbn [set_axes drop_axes filter]; auto.
  rewrite IH.
  2:{ intros a d' Ha Hn. apply (H (S a) d' Ha). now rewrite <- Nat.add_succ_comm. }
  destruct (in_dec Nat.eq_dec k ds) as [Hin|Hn]; [reflexivity|].
  specialize (H 0 d eq_refl). rewrite Nat.add_0_r in H. specialize (H Hn).
  destruct (d =? 0) eqn:E; [lia|reflexivity].
Qed.

(** the axes that stay have positive sizes *)
Definition kept_pos (keep : bool) (ds s : list nat) : Prop :=
  keep = true \/ forall a d, nth_error s a = Some d -> ~ In a ds -> 0 < d.

Section Tensor.
Context {A B C : Type} (init : B) (step : list nat -> list nat -> B -> A -> option B)
  (h : list nat -> B -> A -> B) (fin : nat -> B -> C) (z : C) (d0 : A).

Lemma call_reduce_spec : forall (t : tensor A) ds keep, good t -> NoDup ds ->
  Forall (fun d => d < length (tshape t)) ds -> length (tshape t) <= 16 ->
  (forall ii b v, length ii = length (tshape t) -> step ds ii b v = Some (h ii b v)) ->
  exists st, call_ops_reduce init step fin z (tstore t) (tlay t) ds keep = Ok st /\
    length st = nelem (rshape keep ds (tshape t)) /\
    forall j, valid (rshape keep ds (tshape t)) j -> exists vs,
      Forall2 (fun i v => elem t i = Some v) (visit keep ds (tshape t) j) vs /\
      nth_error st (ravel (rshape keep ds (tshape t)) j) =
        Some (fin (nelem (extents ds (tshape t)))
                  (fold_left (fun b p => h (fst p) b (snd p)) (combine (visit keep ds (tshape t) j) vs) init)).
Proof.
  intros t ds keep [Hw Hb] ND HF HR Hstep. unfold call_ops_reduce. fold (tshape t).
  replace (existsb (fun d => length (tshape t) <=? d) ds) with false.
  2:{ symmetry. apply not_true_iff_false. rewrite existsb_exists. intros [x [Hx E]].
      rewrite Forall_forall in HF. specialize (HF x Hx). lia. }
  unfold tshape in *.
  rewrite (reduce_kernel_spec init step h fin d0); auto.
  2:{ change shape_size with nelem. now rewrite repeat_length, kernel_out_nelem. }
  cbn [ub]. eexists. split; [reflexivity|]. split; [now rewrite map_length, seq_length|].
  intros j Hj. set (s := lshape (tlay t)) in *.
  exists (map (fun i => rd d0 (tstore t) (addr (tlay t) i)) (visit keep ds s j)).
  assert (HV : forall i, In i (visit keep ds s j) -> valid s i).
  { intros i Hi. eapply Permutation_in in Hi; [|apply visit_fibre; auto].
    apply filter_In in Hi. now apply in_all_idx. }
  split.
  - revert HV. generalize (visit keep ds s j) as L. induction L as [|i L IH]; intros HV; constructor.
    + unfold elem. apply nth_error_rd. apply Hb. apply HV. now left.
    + apply IH. intros; apply HV; now right.
  - rewrite nth_error_map_seq by (now apply ravel_lt). rewrite unravel_ravel by auto.
    do 2 f_equal. generalize (visit keep ds s j) as L. intros L. generalize init. 
    induction L as [|i L IH]; intros b; [reflexivity|]. cbn [map combine fold_left fst snd]. apply IH.
Qed.

Lemma t_reduce_spec : forall (t : tensor A) dims ds keep, good t ->
  axes_of (length (tshape t)) dims ds -> NoDup ds -> length (tshape t) <= 16 ->
  kept_pos keep ds (tshape t) ->
  (forall ii b v, length ii = length (tshape t) -> step ds ii b v = Some (h ii b v)) ->
  exists r, t_reduce init step fin z t dims keep = Ok r /\
    good r /\ tlay r = from_shape (rshape keep ds (tshape t)) /\
    forall j, valid (tshape r) j -> exists vs,
      Forall2 (fun i v => elem t i = Some v) (visit keep ds (tshape t) j) vs /\
      elem r j = Some (fin (nelem (extents ds (tshape t)))
                  (fold_left (fun b p => h (fst p) b (snd p)) (combine (visit keep ds (tshape t) j) vs) init)).
Proof.
  intros t dims ds keep Hg Hax ND HR Hk Hstep.
  pose proof (axes_lt _ _ _ Hax) as HF.
  destruct (call_reduce_spec t ds keep Hg ND HF HR Hstep) as [st [E [L H]]].
  unfold t_reduce. fold (tshape t). rewrite (reduce_axes_spec _ _ _ Hax), mark_axes_spec by auto.
  cbn [bind fst snd]. rewrite E. cbn [bind].
  assert (ES : (if keep then set_axes ds (if keep then 1 else 0) 0 (tshape t)
                else filter (fun d => negb (d =? 0)) (set_axes ds (if keep then 1 else 0) 0 (tshape t)))
               = rshape keep ds (tshape t)).
  { unfold rshape. destruct keep; auto. apply filter_set_axes.
    destruct Hk as [Hk|Hk]; [discriminate|]. exact Hk. }
  rewrite ES. eexists. split; [reflexivity|]. split; [now apply from_shape_good|].
  split; [reflexivity|]. unfold tshape at 1. cbn [tlay from_shape lshape].
  intros j Hj. destruct (H j Hj) as [vs [H1 H2]]. exists vs. split; auto.
  unfold elem. cbn [tstore tlay]. rewrite addr_from_shape by (now apply valid_length). exact H2.
Qed.
End Tensor.
