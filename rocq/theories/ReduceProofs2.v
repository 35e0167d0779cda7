(** More about reductions: order independence, maxima, argmax, partition. *)
From Coq Require Import List Arith ZArith Lia Bool ZifyBool Permutation.
From Verif Require Import Base IndexSpec LayoutModel ViewSpec LayoutProofs LayoutProofs2 BcastProofs.
From Verif Require Import KernelModel KernelProofs TensorModel TensorSpec TensorProofs.
From Verif Require Import ReduceModel ReduceSpec ReduceProofs.
Import ListNotations.

Lemma fold_combine_plain : forall A B X (f : B -> A -> B) (L : list X) vs b,
  length L = length vs -> fold_left (fun b p => f b (snd p)) (combine L vs) b = fold_left f vs b.
Proof.
  intros A B X f L. induction L as [|x L IH]; intros [|v vs] b H; try discriminate; [reflexivity|].
  cbn [combine fold_left snd]. apply IH. simpl in H. lia.
Qed.

Lemma reduce_plain : forall A B C (init : B) (f : B -> A -> B) (fin : nat -> B -> C) z (d0 : A)
    (t : tensor A) dims ds keep, good t ->
  axes_of (length (tshape t)) dims ds -> NoDup ds -> length (tshape t) <= 16 ->
  kept_pos keep ds (tshape t) ->
  exists r, t_reduce init (plain f) fin z t dims keep = Ok r /\
    good r /\ tlay r = from_shape (rshape keep ds (tshape t)) /\
    forall j, valid (tshape r) j -> exists L vs,
      Permutation L (fibre keep ds (tshape t) j) /\
      Forall2 (fun i v => elem t i = Some v) L vs /\
      elem r j = Some (fin (nelem (extents ds (tshape t))) (fold_left f vs init)).
Proof.
  intros A B C init f fin z d0 t dims ds keep Hg Hax ND HR Hk.
  destruct (t_reduce_spec init (plain f) (fun _ b v => f b v) fin z d0 t dims ds keep)
    as [r [E [G [L H]]]]; auto.
  exists r. split; auto. split; auto. split; auto. intros j Hj.
  destruct (H j Hj) as [vs [F Er]]. exists (visit keep ds (tshape t) j), vs.
  split; [apply visit_fibre; auto; [eapply axes_lt; eauto|]|].
  { unfold tshape at 1 in Hj. rewrite L in Hj. exact Hj. }
  split; auto. rewrite Er. do 2 f_equal.
  apply (fold_combine_plain A B _ f). eapply Forall2_len; eauto.
Qed.

Lemma fold_swap : forall A B (f : B -> A -> B), (forall b x y, f (f b x) y = f (f b y) x) ->
  forall l l', Permutation l l' -> forall b, fold_left f l b = fold_left f l' b.
Proof.
  intros A B f Hf l l' P. induction P; intros b; cbn [fold_left]; auto.
  - now rewrite Hf.
  - rewrite IHP1. apply IHP2.
Qed.

Lemma Forall2_perm : forall A B (P : A -> B -> Prop) l l', Permutation l l' ->
  forall v, Forall2 P l v -> exists v', Permutation v v' /\ Forall2 P l' v'.
Proof.
  intros A B P l l' H. induction H; intros v F.
  - inversion F; subst. exists []. auto.
  - inversion F as [|? y ? v0 Hx Hr]; subst. destruct (IHPermutation _ Hr) as [v' [P1 P2]].
    exists (y :: v'). auto.
  - inversion F as [|? a ? v0 Ha Hr]; subst. inversion Hr as [|? b ? v1 Hb Hr1]; subst.
    exists (b :: a :: v1). split; [apply perm_swap|auto].
  - destruct (IHPermutation1 _ F) as [v1 [P1 F1]]. destruct (IHPermutation2 _ F1) as [v2 [P2 F2]].
    exists v2. split; auto. eapply Permutation_trans; eauto.
Qed.

(** when the order of accumulation does not matter *)
Lemma reduce_any_order : forall A B C (init : B) (f : B -> A -> B) (fin : nat -> B -> C) z (d0 : A)
    (t : tensor A) dims ds keep, (forall b x y, f (f b x) y = f (f b y) x) -> good t ->
  axes_of (length (tshape t)) dims ds -> NoDup ds -> length (tshape t) <= 16 ->
  kept_pos keep ds (tshape t) ->
  exists r, t_reduce init (plain f) fin z t dims keep = Ok r /\
    good r /\ tlay r = from_shape (rshape keep ds (tshape t)) /\
    forall j, valid (tshape r) j -> exists vs,
      Forall2 (fun i v => elem t i = Some v) (fibre keep ds (tshape t) j) vs /\
      elem r j = Some (fin (nelem (extents ds (tshape t))) (fold_left f vs init)).
Proof.
  intros A B C init f fin z d0 t dims ds keep Hf Hg Hax ND HR Hk.
  destruct (reduce_plain A B C init f fin z d0 t dims ds keep) as [r [E [G [L H]]]]; auto.
  exists r. split; auto. split; auto. split; auto. intros j Hj.
  destruct (H j Hj) as [I [vs [P [F Er]]]].
  destruct (Forall2_perm _ _ _ _ _ P _ F) as [vs' [P' F']].
  exists vs'. split; auto. rewrite Er. do 2 f_equal. now apply fold_swap.
Qed.

(** ** Every input index is in exactly one fibre *)

Lemma drop_axes_valid : forall ds s i k, valid s i -> valid (drop_axes ds k s) (drop_axes ds k i).
Proof.
  induction s as [|d s IH]; intros [|x i] k H; simpl in *; try contradiction; auto.
  destruct H as [Hx H]. destruct (in_dec _ _ _); [auto|]. split; auto.
Qed.
Lemma set_axes_valid : forall ds s i k, valid s i -> valid (set_axes ds 1 k s) (set_axes ds 0 k i).
Proof.
  induction s as [|d s IH]; intros [|x i] k H; simpl in *; try contradiction; auto.
  destruct H as [Hx H]. split; auto. destruct (in_dec _ _ _); lia.
Qed.

Lemma fibre_partition : forall keep ds s i, valid s i ->
  valid (rshape keep ds s) (rproj keep ds i) /\
  forall j, In i (fibre keep ds s j) <-> j = rproj keep ds i.
Proof.
  intros keep ds s i Hi. split.
  - unfold rshape, rproj. destruct keep; [now apply set_axes_valid|now apply drop_axes_valid].
  - intros j. unfold fibre. rewrite filter_In, in_all_idx.
    destruct (list_eq_dec Nat.eq_dec (rproj keep ds i) j) as [E|E]; split; intros H; auto.
    destruct H; discriminate.
Qed.

(** ** Maxima *)

Lemma fold_max : forall vs b, Forall (fun v => b <= v)%Z vs -> vs <> [] ->
  let m := fold_left (fun acc v => if (acc >? v)%Z then acc else v) vs b in
  In m vs /\ Forall (fun v => v <= m)%Z vs.
Proof.
  assert (G : forall vs b, let m := fold_left (fun acc v => if (acc >? v)%Z then acc else v) vs b in
    (m = b \/ In m vs) /\ (b <= m)%Z /\ Forall (fun v => v <= m)%Z vs).
  { induction vs as [|v vs IH]; intros b; cbn [fold_left].
    - split; auto. split; [lia|constructor].
    - destruct (IH (if (b >? v)%Z then b else v)) as [I1 [I2 I3]].
      set (m := fold_left _ vs _) in *. cbn zeta.
      destruct (b >? v)%Z eqn:E.
      + split; [destruct I1; [auto|right; now right]|]. split; auto. constructor; auto. lia.
      + split; [destruct I1 as [I1|I1]; right; [left; symmetry; exact I1|right; exact I1]|]. split; [lia|]. constructor; auto. }
  intros vs b Hb Hne m. destruct (G vs b) as [[H|H] [H2 H3]]; fold m in H, H2, H3; auto.
  split; auto. destruct vs as [|v vs]; [congruence|]. apply Forall_inv in Hb.
  pose proof (Forall_inv H3). cbn beta in *. clearbody m. left. lia.
Qed.

Lemma max_swap : forall b x y : Z,
  (let f := fun acc v => if (acc >? v)%Z then acc else v in f (f b x) y = f (f b y) x).
Proof.
  intros b x y. cbn zeta.
  destruct (b >? x)%Z eqn:E1; destruct (b >? y)%Z eqn:E2; rewrite ?E1, ?E2; auto; try lia.
  - destruct (y >? x)%Z eqn:E3; lia.
  - destruct (x >? y)%Z eqn:E3; lia.
  - destruct (x >? y)%Z eqn:E3; destruct (y >? x)%Z eqn:E4; lia.
Qed.
Lemma min_swap : forall b x y : Z,
  (let f := fun acc v => if (acc <? v)%Z then acc else v in f (f b x) y = f (f b y) x).
Proof.
  intros b x y. cbn zeta.
  destruct (b <? x)%Z eqn:E1; destruct (b <? y)%Z eqn:E2; rewrite ?E1, ?E2; auto; try lia.
  - destruct (y <? x)%Z eqn:E3; lia.
  - destruct (x <? y)%Z eqn:E3; lia.
  - destruct (x <? y)%Z eqn:E3; destruct (y <? x)%Z eqn:E4; lia.
Qed.

Lemma fold_min : forall vs b, Forall (fun v => v <= b)%Z vs -> vs <> [] ->
  let m := fold_left (fun acc v => if (acc <? v)%Z then acc else v) vs b in
  In m vs /\ Forall (fun v => m <= v)%Z vs.
Proof.
  assert (G : forall vs b, let m := fold_left (fun acc v => if (acc <? v)%Z then acc else v) vs b in
    (m = b \/ In m vs) /\ (m <= b)%Z /\ Forall (fun v => m <= v)%Z vs).
  { induction vs as [|v vs IH]; intros b; cbn [fold_left].
    - split; auto. split; [lia|constructor].
    - destruct (IH (if (b <? v)%Z then b else v)) as [I1 [I2 I3]].
      set (m := fold_left _ vs _) in *. cbn zeta.
      destruct (b <? v)%Z eqn:E.
      + split; [destruct I1; [auto|right; now right]|]. split; auto. constructor; auto. lia.
      + split; [destruct I1 as [I1|I1]; right; [left; symmetry; exact I1|right; exact I1]|]. split; [lia|]. constructor; auto. }
  intros vs b Hb Hne m. destruct (G vs b) as [[H|H] [H2 H3]]; fold m in H, H2, H3; auto.
  split; auto. destruct vs as [|v vs]; [congruence|]. apply Forall_inv in Hb.
  pose proof (Forall_inv H3). cbn beta in *. clearbody m. left. lia.
Qed.

(** ** One axis: the values in the order of the axis, and argmax *)

Lemma all_idx_one : forall n, all_idx [n] = map (fun x => [x]) (seq 0 n).
Proof.
  intros n. cbn [all_idx map]. generalize (seq 0 n) as l.
  induction l as [|x l IH]; [reflexivity|]. cbn [flat_map map app]. now rewrite IH.
Qed.

Lemma visit_one : forall keep d s j, visit keep [d] s j =
  map (fun x => upd (base_idx keep [d] (length s) j) d x) (seq 0 (nth d s 0)).
Proof.
  intros. unfold visit, extents. cbn [map]. rewrite all_idx_one, map_map. reflexivity.
Qed.

(** the index of the first maximum of a list *)
Definition first_max {A} (gtb : A -> A -> bool) (vs : list A) (m : nat) : Prop :=
  exists vm, nth_error vs m = Some vm /\
    (forall k v, nth_error vs k = Some v -> gtb v vm = false) /\
    (forall k v, k < m -> nth_error vs k = Some v -> gtb vm v = true).

Definition arg_h {A} (gtb : A -> A -> bool) (d : nat) (ii : list nat) (acc : option (A * nat)) (v : A) :=
  match acc with
  | None => Some (v, nth d ii 0)
  | Some (m, j) => if gtb v m then Some (v, nth d ii 0) else acc
  end.

Lemma argmax_fold : forall A (gtb : A -> A -> bool)
  (Hirr : forall a, gtb a a = false)
  (Htr : forall a b c, gtb a b = true -> gtb b c = true -> gtb a c = true)
  (Htot : forall a b, gtb a b = false -> gtb b a = false -> forall c, gtb c a = gtb c b /\ gtb a c = gtb b c)
  (vs : list A) d (g : nat -> list nat) n pre m vm,
  (forall k, nth d (g k) 0 = k) ->
  length pre = n -> first_max gtb pre m -> nth_error pre m = Some vm ->
  exists m' vm', fold_left (fun b p => arg_h gtb d (fst p) b (snd p))
      (combine (map g (seq n (length vs))) vs) (Some (vm, m)) = Some (vm', m') /\
    first_max gtb (pre ++ vs) m' /\ nth_error (pre ++ vs) m' = Some vm'.
Proof.
  intros A gtb Hirr Htr Htot. induction vs as [|v vs IH]; intros d g n pre m vm Hg Hn Hf Hm.
  - rewrite app_nil_r. cbn. eauto.
  - cbn [length seq map combine fold_left fst snd arg_h].
    rewrite Hg. destruct Hf as [vm0 [F1 [F2 F3]]]. assert (vm0 = vm) by congruence. subst vm0.
    destruct (gtb v vm) eqn:E.
    + destruct (IH d g (S n) (pre ++ [v]) n v Hg) as [m' [vm' [H1 [H2 H3]]]].
      * rewrite app_length. simpl. lia.
      * exists v. split; [rewrite nth_error_app2 by lia; subst; now rewrite Nat.sub_diag|]. split.
        -- intros k w Hw. destruct (Nat.lt_ge_cases k n) as [Hk|Hk].
           ++ rewrite nth_error_app1 in Hw by lia. specialize (F2 k w Hw).
              destruct (gtb w v) eqn:E2; auto. rewrite (Htr _ _ _ E2 E) in F2. discriminate.
           ++ rewrite nth_error_app2 in Hw by lia. destruct (k - length pre) as [|q].
              ** simpl in Hw. injection Hw as <-. apply Hirr.
              ** simpl in Hw. destruct q; discriminate.
        -- intros k w Hk Hw. rewrite nth_error_app1 in Hw by lia. specialize (F2 k w Hw).
           destruct (gtb vm w) eqn:E3; [now apply (Htr _ _ _ E E3)|].
           destruct (Htot w vm F2 E3 v) as [T _]. now rewrite T.
      * rewrite nth_error_app2 by lia. subst. now rewrite Nat.sub_diag.
      * rewrite <- app_assoc in H2, H3. cbn [app] in H2, H3. eauto.
    + destruct (IH d g (S n) (pre ++ [v]) m vm Hg) as [m' [vm' [H1 [H2 H3]]]].
      * rewrite app_length. simpl. lia.
      * assert (Hml : m < length pre) by (apply nth_error_Some; congruence).
        exists vm. split; [now rewrite nth_error_app1|]. split.
        -- intros k w Hw. destruct (Nat.lt_ge_cases k n) as [Hk|Hk].
           ++ rewrite nth_error_app1 in Hw by lia. eapply F2; eauto.
           ++ rewrite nth_error_app2 in Hw by lia. destruct (k - length pre) as [|q].
              ** simpl in Hw. now injection Hw as <-.
              ** simpl in Hw. destruct q; discriminate.
        -- intros k w Hk Hw. rewrite nth_error_app1 in Hw by lia. eapply F3; eauto.
      * assert (Hml : m < length pre) by (apply nth_error_Some; congruence).
        now rewrite nth_error_app1.
      * rewrite <- app_assoc in H2, H3. cbn [app] in H2, H3. eauto.
Qed.

Lemma argmax_spec : forall A (gtb : A -> A -> bool) (d0 : A)
  (Hirr : forall a, gtb a a = false)
  (Htr : forall a b c, gtb a b = true -> gtb b c = true -> gtb a c = true)
  (Htot : forall a b, gtb a b = false -> gtb b a = false -> forall c, gtb c a = gtb c b /\ gtb a c = gtb b c)
  (t : tensor A) dims d n keep, good t ->
  axes_of (length (tshape t)) dims [d] -> length (tshape t) <= 16 ->
  kept_pos keep [d] (tshape t) -> nth_error (tshape t) d = Some n -> 0 < n ->
  exists r, t_reduce None (argmax_step gtb) argmax_fin 0 t dims keep = Ok r /\
    tlay r = from_shape (rshape keep [d] (tshape t)) /\
    forall j, valid (tshape r) j -> exists base vs m,
      rproj keep [d] base = j /\ length vs = n /\
      (forall k v, nth_error vs k = Some v -> elem t (upd base d k) = Some v) /\
      elem r j = Some m /\ first_max gtb vs m.
Proof.
  intros A gtb d0 Hirr Htr Htot t dims d n keep Hg Hax HR Hk Hn Hpos.
  assert (Hd : d < length (tshape t)) by (apply nth_error_Some; congruence).
  destruct (t_reduce_spec None (argmax_step gtb) (arg_h gtb d) argmax_fin 0 d0 t dims [d] keep)
    as [r [E [G [L H]]]]; auto.
  { constructor; auto. constructor. }
  { intros ii b v Hl. unfold argmax_step. cbn [nth_error obind].
    rewrite (nth_error_nth' ii 0) by lia. cbn [obind]. unfold arg_h.
    destruct b as [[m j]|]; reflexivity. }
  exists r. split; auto. split; auto. intros j Hj. destruct (H j Hj) as [vs [F Er]].
  assert (Hj' : valid (rshape keep [d] (tshape t)) j) by (unfold tshape at 1 in Hj; rewrite L in Hj; exact Hj).
  destruct (base_idx_spec keep [d] (tshape t) j Hj') as [Lb [Pb _]].
  set (b := base_idx keep [d] (length (tshape t)) j) in *.
  rewrite visit_one in F, Er. fold b in F, Er.
  replace (nth d (tshape t) 0) with n in F, Er by (symmetry; now apply nth_error_nth).
  pose proof (Forall2_len _ _ _ _ _ F) as FL. rewrite map_length, seq_length in FL.
  assert (Hval : forall k v, nth_error vs k = Some v -> elem t (upd b d k) = Some v).
  { intros k v Hv. assert (k < n) by (rewrite FL; apply nth_error_Some; congruence).
    clear - F Hv H0. revert Hv.
    assert (G : forall a l, Forall2 (fun i v => elem t i = Some v) (map (fun x => upd b d x) (seq a n)) l ->
              forall k v, nth_error l k = Some v -> elem t (upd b d (a + k)) = Some v).
    { clear. induction n as [|n IH]; intros a l F k v Hv; inversion F; subst; [destruct k; discriminate|].
      destruct k as [|k]; simpl in Hv.
      - injection Hv as <-. now rewrite Nat.add_0_r.
      - rewrite Nat.add_succ_r, <- Nat.add_succ_l. eapply IH; eauto. }
    apply (G 0 vs F k v). }
  destruct vs as [|v vs]; [simpl in FL; lia|]. simpl in FL. subst n.
  cbn [seq map combine fold_left fst snd arg_h] in Er.
  assert (Hnb : forall k, nth d (upd b d k) 0 = k).
  { intros k. apply nth_error_nth. apply nth_error_upd_eq. lia. }
  rewrite Hnb in Er.
  destruct (argmax_fold A gtb Hirr Htr Htot vs d (fun x => upd b d x) 1 [v] 0 v) as [m [vm [H1 [H2 H3]]]]; auto.
  { exists v. split; auto. split.
    - intros [|k] w Hw; simpl in Hw; [injection Hw as <-; apply Hirr|destruct k; discriminate].
    - intros k w Hk0. lia. }
  exists b, (v :: vs), m. split; auto. split; auto. split; auto. split; [|exact H2].
  rewrite H1 in Er. exact Er.
Qed.

(** one axis: the accumulator meets the values in the order of the axis *)
Lemma reduce_one_axis : forall A B C (init : B) (f : B -> A -> B) (fin : nat -> B -> C) z (d0 : A)
  (t : tensor A) dims d n keep, good t ->
  axes_of (length (tshape t)) dims [d] -> length (tshape t) <= 16 ->
  kept_pos keep [d] (tshape t) -> nth_error (tshape t) d = Some n ->
  exists r, t_reduce init (plain f) fin z t dims keep = Ok r /\
    tlay r = from_shape (rshape keep [d] (tshape t)) /\
    forall j, valid (tshape r) j -> exists base vs,
      rproj keep [d] base = j /\ length base = length (tshape t) /\ length vs = n /\
      (forall k v, nth_error vs k = Some v -> elem t (upd base d k) = Some v) /\
      elem r j = Some (fin n (fold_left f vs init)).
Proof.
  intros A B C init f fin z d0 t dims d n keep Hg Hax HR Hk Hn.
  assert (Hd : d < length (tshape t)) by (apply nth_error_Some; congruence).
  destruct (t_reduce_spec init (plain f) (fun _ b v => f b v) fin z d0 t dims [d] keep)
    as [r [E [G [L H]]]]; auto.
  { constructor; auto. constructor. }
  exists r. split; auto. split; auto. intros j Hj. destruct (H j Hj) as [vs [F Er]].
  assert (Hj' : valid (rshape keep [d] (tshape t)) j) by (unfold tshape at 1 in Hj; rewrite L in Hj; exact Hj).
  destruct (base_idx_spec keep [d] (tshape t) j Hj') as [Lb [Pb _]].
  set (b := base_idx keep [d] (length (tshape t)) j) in *.
  rewrite (fold_combine_plain A B _ f) in Er by (eapply Forall2_len; eauto).
  rewrite visit_one in F. fold b in F.
  assert (En : nth d (tshape t) 0 = n) by (now apply nth_error_nth).
  unfold extents in Er. cbn [map] in Er. rewrite En in *.
  pose proof (Forall2_len _ _ _ _ _ F) as FL. rewrite map_length, seq_length in FL.
  exists b, vs. split; auto. split; auto. split; auto. split.
  - intros k v Hv.
    assert (G0 : forall a l, Forall2 (fun i v => elem t i = Some v) (map (fun x => upd b d x) (seq a n)) l ->
              forall k v, nth_error l k = Some v -> elem t (upd b d (a + k)) = Some v).
    { clear. induction n as [|n IH]; intros a l F k v Hv; inversion F; subst; [destruct k; discriminate|].
      destruct k as [|k]; simpl in Hv.
      - injection Hv as <-. now rewrite Nat.add_0_r.
      - rewrite Nat.add_succ_r, <- Nat.add_succ_l. eapply IH; eauto. }
    apply (G0 0 vs F k v Hv).
  - rewrite Er. do 2 f_equal. rewrite nelem_cons. change (nelem []) with 1. lia.
Qed.
