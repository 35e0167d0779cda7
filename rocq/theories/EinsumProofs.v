From Coq Require Import List Arith Bool Lia Sorted Permutation.
From Verif Require Import Base IndexSpec LayoutModel ViewSpec KernelModel KernelProofs TensorModel TensorSpec
  EinsumModel EinsumSpec.
Import ListNotations.

(** ** The text of an equation *)
Lemma split_on_word : forall s cur, ~ In 44 s -> split_on 44 cur s = [rev cur ++ s].
Proof.
  induction s as [|c s IH]; intros cur H; cbn [split_on].
  - now rewrite app_nil_r.
  - destruct (c =? 44) eqn:E; [apply Nat.eqb_eq in E; subst; exfalso; apply H; now left|].
    rewrite IH by (intro; apply H; now right). simpl rev. now rewrite <- app_assoc.
Qed.

Lemma split_on_sep : forall s cur r, ~ In 44 s ->
  split_on 44 cur (s ++ 44 :: r) = (rev cur ++ s) :: split_on 44 [] r.
Proof.
  induction s as [|c s IH]; intros cur r H.
  - cbn [app split_on]. rewrite Nat.eqb_refl. now rewrite app_nil_r.
  - cbn [app split_on]. destruct (c =? 44) eqn:E; [apply Nat.eqb_eq in E; subst; exfalso; apply H; now left|].
    rewrite IH by (intro; apply H; now right). simpl rev. now rewrite <- app_assoc.
Qed.

Lemma split_on_join : forall subs, subs <> [] -> Forall (fun s => ~ In 44 s) subs ->
  split_on 44 [] (join subs) = subs.
Proof.
  induction subs as [|s subs IH]; intros N F; [congruence|]. inversion F; subst.
  destruct subs as [|s' subs]; cbn [join].
  - now rewrite split_on_word.
  - rewrite split_on_sep by auto. change (join (s' :: subs)) with (join (s' :: subs)) in IH.
    cbn [join] in IH. rewrite IH; auto. congruence.
Qed.

Lemma split_arrow_word : forall n s cur, length s <= n -> ~ In 45 s -> split_arrow cur s = [rev cur ++ s].
Proof.
  induction n as [|n IH]; intros s cur L H; destruct s as [|c s]; simpl in L; try lia.
  - simpl. now rewrite app_nil_r.
  - simpl. now rewrite app_nil_r.
  - assert (c =? 45 = false) as E by (apply Nat.eqb_neq; intros ->; apply H; now left).
    assert (split_arrow (c :: cur) s = [rev cur ++ c :: s]) as G.
    { rewrite IH by (try lia; intro; apply H; now right). simpl rev. now rewrite <- app_assoc. }
    cbn [split_arrow]. destruct s as [|d s].
    + exact G.
    + unfold c_minus. rewrite E. cbn [andb]. exact G.
Qed.

Lemma split_arrow_two : forall s cur o, ~ In 45 s -> ~ In 45 o ->
  split_arrow cur (s ++ 45 :: 62 :: o) = [rev cur ++ s; o].
Proof.
  induction s as [|c s IH]; intros cur o H G.
  - cbn [app split_arrow]. unfold c_minus, c_greater. rewrite !Nat.eqb_refl. cbn [andb].
    rewrite (split_arrow_word (length o)) by auto. now rewrite app_nil_r.
  - assert (c =? 45 = false) as E by (apply Nat.eqb_neq; intros ->; apply H; now left).
    assert (split_arrow (c :: cur) (s ++ 45 :: 62 :: o) = [rev cur ++ c :: s; o]) as K.
    { rewrite IH by (auto; intro; apply H; now right). simpl rev. now rewrite <- app_assoc. }
    cbn [app split_arrow]. destruct (s ++ 45 :: 62 :: o) eqn:F.
    + exact K.
    + unfold c_minus. rewrite E. cbn [andb]. exact K.
Qed.

Lemma filter_all : forall (f : nat -> bool) l, (forall c, In c l -> f c = true) -> filter f l = l.
Proof.
  induction l as [|c l IH]; intro H; auto. simpl. rewrite H by now left. f_equal. apply IH.
  intros; apply H; now right.
Qed.

Lemma in_join : forall subs c, In c (join subs) -> c = 44 \/ In c (concat subs).
Proof.
  induction subs as [|s subs IH]; intros c H; [contradiction|]. cbn [concat].
  destruct subs as [|s' subs]; cbn [join] in H.
  - right. apply in_or_app. now left.
  - apply in_app_or in H as [H|[H|H]].
    + right. apply in_or_app. now left.
    + left. auto.
    + apply IH in H as [H|H]; auto. right. apply in_or_app. now right.
Qed.

(** ** The sizes of the labels *)
Record sizes_ok (size : nat -> nat) (m : sizes) (ls : list nat) : Prop := {
  so_keys : NoDup (map fst m);
  so_size : forall c n, In (c, n) m -> n = size c;
  so_dom : forall c, In c (map fst m) <-> In c ls }.

Lemma size_of_in : forall m c n, size_of m c = Some n -> In (c, n) m.
Proof.
  induction m as [|[k x] m IH]; intros c n H; [discriminate|]. simpl in H.
  destruct (k =? c) eqn:E; [apply Nat.eqb_eq in E; injection H as ->; subst; now left|right; auto].
Qed.
Lemma size_of_none : forall m c, size_of m c = None <-> ~ In c (map fst m).
Proof.
  induction m as [|[k x] m IH]; intros c; simpl; [tauto|].
  destruct (k =? c) eqn:E.
  - apply Nat.eqb_eq in E. split; [discriminate|]. intro H. exfalso. apply H. now left.
  - apply Nat.eqb_neq in E. rewrite IH. tauto.
Qed.

Lemma sizes_ok_known : forall size m ls c, sizes_ok size m ls -> In c ls -> size_of m c = Some (size c).
Proof.
  intros size m ls c [K S D] H. destruct (size_of m c) eqn:E.
  - f_equal. apply size_of_in in E. auto.
  - apply size_of_none in E. exfalso. apply E. now apply D.
Qed.

Lemma add_sizes_ok : forall size s m ls, sizes_ok size m ls ->
  exists m', add_sizes s (map size s) m = Ok m' /\ sizes_ok size m' (ls ++ s).
Proof.
  intro size. induction s as [|c s IH]; intros m ls H.
  - exists m. split; auto. now rewrite app_nil_r.
  - cbn [map add_sizes]. destruct (size_of m c) as [n|] eqn:E.
    + pose proof (size_of_in _ _ _ E) as I. pose proof (so_size _ _ _ H _ _ I) as ->. rewrite Nat.eqb_refl.
      destruct (IH m (ls ++ [c])) as (m' & G & K).
      { destruct H as [K S D]. constructor; auto. intro x. rewrite D, in_app_iff. split; auto.
        intros [X|[<-|[]]]; auto. apply D. now apply (in_map fst) in I. }
      exists m'. split; auto. now rewrite <- app_assoc in K.
    + apply size_of_none in E. destruct (IH (m ++ [(c, size c)]) (ls ++ [c])) as (m' & G & K).
      { destruct H as [K S D]. constructor.
        - rewrite map_app. cbn. apply (Permutation_NoDup (Permutation_cons_append (map fst m) c)). now constructor.
        - intros x n I. apply in_app_or in I as [I|[I|[]]]; auto. now injection I as -> <-.
        - intro x. rewrite map_app, !in_app_iff, D. reflexivity. }
      exists m'. split; auto. now rewrite <- app_assoc in K.
Qed.

Lemma all_sizes_ok : forall size subs m ls, sizes_ok size m ls ->
  exists m', all_sizes subs (map (map size) subs) m = Ok m' /\ sizes_ok size m' (ls ++ concat subs).
Proof.
  intro size. induction subs as [|s subs IH]; intros m ls H.
  - exists m. split; auto. simpl. now rewrite app_nil_r.
  - cbn [map all_sizes]. destruct (add_sizes_ok size s m ls H) as (m1 & E & K). rewrite E. cbn [bind].
    destruct (IH m1 _ K) as (m2 & F & L). exists m2. split; auto. cbn [concat]. now rewrite app_assoc.
Qed.

(** ** Sorting *)
Lemma insert_sorted_perm : forall c l, Permutation (c :: l) (insert_sorted c l).
Proof.
  intros c. induction l as [|x l IH]; simpl; auto. destruct (c <=? x); auto.
  rewrite perm_swap. now constructor.
Qed.
Lemma sort_labels_perm : forall l, Permutation l (sort_labels l).
Proof.
  induction l as [|c l IH]; simpl; auto. etransitivity; [|apply insert_sorted_perm]. now constructor.
Qed.
Lemma insert_sorted_lt : forall c l, StronglySorted lt l -> ~ In c l -> StronglySorted lt (insert_sorted c l).
Proof.
  intros c. induction l as [|x l IH]; intros S N; simpl; [now repeat constructor|].
  inversion S; subst. destruct (c <=? x) eqn:E.
  - apply Nat.leb_le in E. assert (c <> x) by (intros ->; apply N; now left). constructor; auto.
    constructor; [lia|]. eapply Forall_impl; [|eassumption]. simpl. intros. lia.
  - apply Nat.leb_gt in E. constructor.
    + apply IH; auto. intro. apply N. now right.
    + eapply Permutation_Forall; [apply insert_sorted_perm|]. constructor; auto.
Qed.
Lemma sort_labels_lt : forall l, NoDup l -> StronglySorted lt (sort_labels l).
Proof.
  induction l as [|c l IH]; intro N; simpl; [constructor|]. inversion N; subst.
  apply insert_sorted_lt; auto. intro I. eapply Permutation_in in I; [|symmetry; apply sort_labels_perm].
  contradiction.
Qed.
Lemma sorted_filter : forall (f : nat -> bool) l, StronglySorted lt l -> StronglySorted lt (filter f l).
Proof.
  intros f. induction l as [|c l IH]; intro S; simpl; auto. inversion S; subst.
  destruct (f c); auto. constructor; auto. apply Forall_forall. intros x I. apply filter_In in I as [I _].
  eapply Forall_forall in H2; eauto.
Qed.
Lemma sorted_nodup : forall l, StronglySorted lt l -> NoDup l.
Proof.
  induction l as [|c l IH]; intro S; [constructor|]. inversion S; subst. constructor; auto.
  intro I. eapply Forall_forall in H2; eauto. lia.
Qed.

Lemma has_in : forall c l, has c l = true <-> In c l.
Proof.
  intros c l. unfold has. rewrite existsb_exists. split.
  - intros (x & I & E). apply Nat.eqb_eq in E. now subst.
  - intro I. exists c. split; auto. apply Nat.eqb_refl.
Qed.

(** ** The parsed equation *)
Record parsed_ok (size : nat -> nat) (subs : list (list nat)) (out : list nat) (p : parsed) : Prop := {
  po_subs : p_subs p = subs;
  po_out : p_out p = out;
  po_con : contracted subs out (p_con p);
  po_all : NoDup (p_all p);
  po_dom : forall c, In c (p_all p) <-> In c (concat subs);
  po_size : forall c, In c (concat subs) -> psize p c = size c }.

Lemma shapes_len : forall (size : nat -> nat) subs,
  forallb (fun q : list nat * list nat => length (fst q) =? length (snd q)) (combine subs (map (map size) subs)) = true.
Proof.
  induction subs as [|s subs IH]; auto. cbn. rewrite map_length, Nat.eqb_refl. auto.
Qed.

Lemma parse_core : forall size subs m out, sizes_ok size m (concat subs) ->
  incl out (concat subs) ->
  let all := sort_labels (map fst m) in
  forallb (fun c => match size_of m c with Some _ => true | None => false end) out = true /\
  parsed_ok size subs out (mkP subs out (filter (fun c => negb (has c out)) all) all m).
Proof.
  intros size subs m out M I all. split.
  - apply forallb_forall. intros c H. now rewrite (sizes_ok_known _ _ _ _ M (I c H)).
  - assert (forall c, In c all <-> In c (concat subs)) as D.
    { intro c. rewrite <- (so_dom _ _ _ M c). unfold all. split; apply Permutation_in;
      [symmetry|]; apply sort_labels_perm. }
    pose proof (sort_labels_lt _ (so_keys _ _ _ M)) as S.
    constructor; auto; cbn [p_subs p_out p_con p_all].
    + split; [now apply sorted_filter|]. intro c. rewrite filter_In, D.
      rewrite <- (has_in c out). destruct (has c out); simpl; intuition congruence.
    + now apply sorted_nodup.
    + intros c H. unfold psize. cbn [p_sizes]. now rewrite (sizes_ok_known _ _ _ _ M H).
Qed.

Lemma parse_ok : forall size subs out, subs <> [] -> Forall label (concat subs) -> incl out (concat subs) ->
  exists p, parse (text subs out) (map (map size) subs) = Ok p /\ parsed_ok size subs out p.
Proof.
  intros size subs out N L I. rewrite Forall_forall in L.
  assert (forall c, In c out -> label c) as LO by auto.
  unfold parse. rewrite filter_all.
  2:{ unfold text. intros c H. apply negb_true_iff, Nat.eqb_neq. unfold c_space.
      apply in_app_or in H as [H|[<-|[<-|H]]]; try lia.
      - apply in_join in H as [->|H]; [lia|]. apply L in H. exact (proj1 H).
      - apply LO in H. exact (proj1 H). }
  unfold text. rewrite split_arrow_two.
  2:{ intro H. apply in_join in H as [H|H]; [discriminate|]. apply L in H. now destruct H as (_ & _ & H). }
  2:{ intro H. apply LO in H. now destruct H as (_ & _ & H). }
  cbn [rev app bind fst snd]. unfold c_comma. rewrite split_on_join; auto.
  2:{ apply Forall_forall. intros s H K. destruct (L 44) as (_ & F & _); [|congruence].
      apply in_concat. eauto. }
  rewrite map_length, Nat.eqb_refl. cbn [negb]. rewrite shapes_len. cbn [negb].
  destruct (all_sizes_ok size subs [] []) as (m & E & M).
  { constructor; [constructor|intros ? ? []|reflexivity]. }
  rewrite E. cbn [bind]. cbn [app] in M.
  destruct (parse_core size subs m out M I) as [F P]. rewrite F. cbn [negb]. eauto.
Qed.

(** ** Identifiers *)
Lemma pos_of_nth : forall l c, In c l -> pos_of l c < length l /\ nth (pos_of l c) l 0 = c.
Proof.
  induction l as [|x l IH]; intros c H; [contradiction|]. simpl. destruct (x =? c) eqn:E.
  - apply Nat.eqb_eq in E. split; [lia|auto].
  - destruct H as [->|H]; [now rewrite Nat.eqb_refl in E|]. destruct (IH c H). split; [lia|auto].
Qed.
Lemma pos_of_inj : forall l a b, In a l -> In b l -> pos_of l a = pos_of l b -> a = b.
Proof.
  intros l a b HA HB E. apply pos_of_nth in HA as [_ <-]. apply pos_of_nth in HB as [_ <-]. now rewrite E.
Qed.

(** ** Decoding an index *)
Fixpoint assign (ids vs : list nat) (iv : nat -> nat) : nat -> nat :=
  match ids, vs with
  | i :: ids', v :: vs' => ivset (assign ids' vs' iv) i v
  | _, _ => iv
  end.

Lemma decode_rev : forall ids dims rest k iv, length ids = length dims ->
  Forall (fun d => d <> 0) dims -> Forall (fun i => i < 16) ids ->
  decode (rev (combine ids dims) ++ rest) k iv =
  decode rest (k / nelem dims) (assign ids (unravel dims (k mod nelem dims)) iv).
Proof.
  induction ids as [|i ids IH]; intros [|d dims] rest k iv L D I; try discriminate.
  - cbn [combine rev app nelem fold_right assign unravel]. now rewrite Nat.div_1_r.
  - inversion D as [|? ? D1 D2]; subst. inversion I as [|? ? I1 I2]; subst.
    cbn [combine rev]. rewrite <- app_assoc. rewrite IH by (auto; simpl in L; lia).
    assert (nelem dims <> 0) as NZ.
    { clear - D2. induction D2; simpl; [discriminate|]. unfold nelem in *. simpl. lia. }
    cbn [app decode]. replace (d =? 0) with false by (symmetry; now apply Nat.eqb_neq).
    replace (i <? 16) with true by (symmetry; now apply Nat.ltb_lt). cbn [orb negb].
    rewrite nelem_cons. rewrite Nat.div_div by auto. rewrite (Nat.mul_comm (nelem dims) d).
    f_equal. cbn [unravel assign]. rewrite (Nat.mul_comm d (nelem dims)).
    rewrite Nat.mod_mul_r by auto.
    assert ((k mod nelem dims + nelem dims * ((k / nelem dims) mod d)) / nelem dims = (k / nelem dims) mod d) as E1.
    { rewrite (Nat.mul_comm (nelem dims)), Nat.div_add by auto.
      rewrite Nat.div_small by (apply Nat.mod_upper_bound; auto). lia. }
    assert ((k mod nelem dims + nelem dims * ((k / nelem dims) mod d)) mod nelem dims = k mod nelem dims) as E2.
    { rewrite (Nat.mul_comm (nelem dims)), Nat.mod_add by auto. now rewrite Nat.mod_mod. }
    now rewrite E1, E2.
Qed.

Lemma decode_all : forall ids dims k iv, length ids = length dims ->
  Forall (fun i => i < 16) ids -> k < nelem dims ->
  decode (rev (combine ids dims)) k iv = Some (assign ids (unravel dims k) iv).
Proof.
  intros ids dims k iv L I K. rewrite <- (app_nil_r (rev _)). rewrite decode_rev; auto.
  - cbn [decode]. now rewrite Nat.mod_small.
  - clear - K. apply Forall_forall. intros d H ->. apply in_split in H as (a & b & ->).
    rewrite nelem_app, nelem_cons in K. lia.
Qed.

Lemma assign_val : forall l ls vs iv c, (forall x, In x ls -> In x l) -> In c l -> length ls = length vs ->
  assign (map (pos_of l) ls) vs iv (pos_of l c) = if in_dec Nat.eq_dec c ls then valuation ls vs c else iv (pos_of l c).
Proof.
  intros l. induction ls as [|x ls IH]; intros [|v vs] iv c I H L; try discriminate.
  - reflexivity.
  - cbn [map assign valuation]. unfold ivset. destruct (x =? c) eqn:E.
    + apply Nat.eqb_eq in E. subst. rewrite Nat.eqb_refl. destruct (in_dec Nat.eq_dec c (c :: ls)); auto.
      exfalso. apply n. now left.
    + apply Nat.eqb_neq in E. destruct (pos_of l c =? pos_of l x) eqn:F.
      * apply Nat.eqb_eq in F. exfalso. apply E. symmetry. apply pos_of_inj in F; auto. apply I. now left.
      * rewrite IH by (auto; try (intros; apply I; now right); simpl in L; lia).
        destruct (in_dec Nat.eq_dec c ls), (in_dec Nat.eq_dec c (x :: ls)); auto.
        -- exfalso. apply n. now right.
        -- destruct i as [->|i]; [congruence|contradiction].
Qed.

Lemma valuation_app : forall a va b vb c, length a = length va ->
  valuation (a ++ b) (va ++ vb) c = if in_dec Nat.eq_dec c a then valuation a va c else valuation b vb c.
Proof.
  induction a as [|x a IH]; intros [|v va] b vb c L; try discriminate; [reflexivity|].
  cbn [app valuation]. destruct (x =? c) eqn:E.
  - apply Nat.eqb_eq in E. subst. destruct (in_dec Nat.eq_dec c (c :: a)); auto. exfalso. apply n. now left.
  - apply Nat.eqb_neq in E. rewrite IH by (simpl in L; lia).
    destruct (in_dec Nat.eq_dec c a), (in_dec Nat.eq_dec c (x :: a)); auto.
    + exfalso. apply n. now right.
    + destruct i as [->|i]; [congruence|contradiction].
Qed.
