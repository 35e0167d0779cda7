(** Proofs about the gradient rules of sum, mean, reshape, transpose and permute. *)
From Coq Require Import List Arith ZArith Bool Lia.
From Verif Require Import Base IndexSpec LayoutModel ViewSpec KernelModel TensorModel TensorSpec
  KernelProofs TensorProofs ReduceModel ReduceSpec ShapeGradModel.
Import ListNotations.

(** ** sum, mean *)
Lemma set_axes_bcast : forall ds s k, Forall2 (fun d d' => d = d' \/ d = 1) (set_axes ds 1 k s) s.
Proof.
  intros ds s. induction s as [|d s IH]; intro k; simpl; constructor; auto.
  destruct (in_dec Nat.eq_dec k ds); auto.
Qed.
Lemma bidx_same : forall s i, length s = length i ->
  bidx s i = map (fun p => if fst p =? 1 then 0 else snd p) (combine s i).
Proof. intros s i H. unfold bidx. replace (length i - length s) with 0 by lia. reflexivity. Qed.
Lemma bidx_id : forall s i, valid s i -> map (fun p => if fst p =? 1 then 0 else snd p) (combine s i) = i.
Proof.
  intros s. induction s as [|d s IH]; intros [|x i] H; simpl in *; try contradiction; auto. destruct H as [Hx H]. rewrite IH by auto.
  destruct (Nat.eqb_spec d 1); auto. f_equal. lia.
Qed.
Lemma set_axes_bidx : forall ds s i k, valid s i ->
  map (fun p => if fst p =? 1 then 0 else snd p) (combine (set_axes ds 1 k s) i) = set_axes ds 0 k i.
Proof.
  intros ds s. induction s as [|d s IH]; intros [|x i] k H; simpl in *; try contradiction; auto. destruct H as [Hx H]. rewrite IH by auto.
  destruct (in_dec Nat.eq_dec k ds); simpl; auto.
  destruct (Nat.eqb_spec d 1); auto. f_equal. lia.
Qed.
Lemma set_axes_length : forall A ds (v : A) l k, length (set_axes ds v k l) = length l.
Proof. intros A ds v l. induction l as [|x l IH]; intro k; simpl; auto. Qed.

Lemma drop_all_after : forall A ds (l : list A) k m, (forall j, In j ds <-> j < m) -> m <= k -> drop_axes ds k l = l.
Proof.
  intros A ds l. induction l as [|x l IH]; intros k m H Hk; simpl; auto.
  destruct (in_dec Nat.eq_dec k ds) as [Hi|Hi]; [apply H in Hi; lia|]. now rewrite (IH (S k) m) by (auto; lia).
Qed.
Lemma drop_leading : forall A ds (l : list A) k m, (forall j, In j ds <-> j < m) -> k <= m ->
  drop_axes ds k l = skipn (m - k) l.
Proof.
  intros A ds l. induction l as [|x l IH]; intros k m H Hk; simpl; [now rewrite skipn_nil|].
  destruct (in_dec Nat.eq_dec k ds) as [Hi|Hi].
  - apply H in Hi. rewrite (IH (S k) m) by (auto; lia). replace (m - k) with (S (m - S k)) by lia. reflexivity.
  - assert (k = m) by (destruct (Nat.eq_dec k m); auto; elim Hi; apply H; lia). subst k.
    rewrite Nat.sub_diag. simpl. f_equal. apply (drop_all_after A ds l (S m) m); auto.
Qed.
Lemma valid_skipn : forall m s i, valid s i -> valid (skipn m s) (skipn m i).
Proof.
  induction m as [|m IH]; intros [|d s] [|x i] H; simpl in *; try contradiction; auto. now apply IH.
Qed.

(** the reduced axes are the leading ones *)
Definition leading (ds : list nat) (n : nat) : Prop := exists m, m <= n /\ forall j, In j ds <-> j < m.

Lemma sum_broadcast : forall keep ds s, (keep = false -> leading ds (length s)) ->
  shape_rel (VBroadcast s) (rshape keep ds s) s /\
  forall i, valid s i -> bidx (rshape keep ds s) i = rproj keep ds i.
Proof.
  intros keep ds s H. destruct keep; simpl.
  - split.
    + split; auto. exists [], s. split; auto. apply set_axes_bcast.
    + intros i Hi. pose proof (valid_length _ _ Hi) as Hl.
      rewrite bidx_same by (rewrite set_axes_length; auto). now apply set_axes_bidx.
  - destruct (H eq_refl) as (m & Hm & Hd). rewrite (drop_leading _ ds s 0 m Hd) by lia. rewrite Nat.sub_0_r. split.
    + split; auto. exists (firstn m s), (skipn m s). split; [now rewrite firstn_skipn|].
      induction (skipn m s) as [|x r IH]; constructor; auto.
    + intros i Hi. pose proof (valid_length _ _ Hi) as Hl.
      rewrite (drop_leading _ ds i 0 m Hd) by lia. rewrite Nat.sub_0_r.
      unfold bidx. rewrite skipn_length. replace (length i - (length s - m)) with m by lia.
      apply bidx_id. now apply valid_skipn.
Qed.

Lemma v_sum_spec : forall A (z : A) s ds keep g, good g -> tshape g = rshape keep ds s ->
  (keep = false -> leading ds (length s)) ->
  exists r, v_sum z s g = Ok r /\ good r /\ tshape r = s /\
    forall i, valid s i -> valid (tshape g) (rproj keep ds i) /\ elem r i = elem g (rproj keep ds i).
Proof.
  intros A z s ds keep g Hg Hs Hl. destruct (sum_broadcast keep ds s Hl) as [Hb Hi].
  rewrite <- Hs in Hb. destruct (t_broadcast_spec A z g s Hg Hb) as (r & Er & Hgr & Hsr & He).
  exists r. split; [exact Er|]. split; auto. split; auto. intros i Hv. destruct (He i Hv) as [H1 H2].
  rewrite Hs, (Hi i Hv) in H1, H2. rewrite Hs. auto.
Qed.

Lemma v_mean_spec : forall A e (z : A) scale s dims ds keep g, env_ok e -> good g -> offset_read (tlay g) ->
  ds = (match dims with [] => seq 0 (length s) | _ => dims end) -> Forall (fun d => d < length s) ds ->
  tshape g = rshape keep ds s -> (keep = false -> leading ds (length s)) ->
  exists r, v_mean e z scale s dims g = Ok r /\ good r /\ tshape r = s /\
    forall i, valid s i ->
      elem r i = option_map (scale (fold_left Nat.mul (extents ds s) 1)) (elem g (rproj keep ds i)).
Proof.
  intros A e z scale s dims ds keep g He Hg Ho Hd Hf Hs Hl.
  assert (En : mapO (nth_error s) (v_reduce_dims s dims) = Some (extents ds s)).
  { change (v_reduce_dims s dims) with (match dims with [] => seq 0 (length s) | _ => dims end). rewrite <- Hd.
    clear - Hf. unfold extents. induction Hf as [|d ds Hd Hf IH]; [reflexivity|].
    rewrite mapO_cons, (nth_error_nth' s 0 Hd), IH. reflexivity. }
  unfold v_mean. rewrite En. cbn [ub bind].
  destruct (t_unary_spec A A e z (scale (fold_left Nat.mul (extents ds s) 1)) g He Hg Ho)
    as (g' & Eg & Hgg & Hsg & _ & _ & Heg).
  rewrite Eg. cbn [bind]. rewrite Hs in Hsg.
  destruct (v_sum_spec A z s ds keep g' Hgg Hsg Hl) as (r & Er & Hgr & Hsr & Hi).
  exists r. split; [exact Er|]. split; auto. split; auto. intros i Hv. destruct (Hi i Hv) as [H1 H2].
  rewrite H2. apply Heg. rewrite Hsg in H1. now rewrite Hs.
Qed.

(** ** reshape, flatten, squeeze, unsqueeze *)
Lemma v_reshape_spec : forall A (z : A) o s g, good g ->
  (match o with VReshape _ | VFlatten | VSqueeze _ | VUnsqueeze _ => True | _ => False end) ->
  nelem s = nelem (tshape g) ->
  exists r, v_reshape z s g = Ok r /\ good r /\ tshape r = s /\
    forall i j, valid s i -> valid (tshape g) j -> index_rel o s (tshape g) j i -> elem r i = elem g j.
Proof.
  intros A z o s g Hg Ho Hn.
  destruct (t_view_total A z (VReshape s) g s Hg I) as (r & Er & Hsr); [split; auto|].
  exists r. split; [exact Er|]. destruct (t_view_spec A z (VReshape s) g r Hg I Er) as (Hgr & _ & Hi).
  split; auto. split; auto. intros i j Hvi Hvj Hr.
  rewrite Hsr in Hi. destruct (Hi i Hvi) as (j' & Hx & Hv & E). rewrite E. simpl in Hx.
  assert (Hr' : ravel s i = ravel (tshape g) j) by (destruct o; try contradiction; exact Hr).
  f_equal. apply (ravel_inj (tshape g)); auto. congruence.
Qed.

(** ** transpose *)
Lemma nth_firstn_lt : forall A (l : list A) m k d, k < m -> nth k (firstn m l) d = nth k l d.
Proof.
  intros A l. induction l as [|x l IH]; intros m k d H; [now rewrite firstn_nil|].
  destruct m; [lia|]. destruct k; simpl; auto. apply IH. lia.
Qed.
Lemma swap_last_two : forall (s gs : list nat) a b n, n = length s -> 2 <= n ->
  (axis_of n a = n - 2 /\ axis_of n b = n - 1) \/ (axis_of n a = n - 1 /\ axis_of n b = n - 2) ->
  shape_rel (VTranspose a b) s gs -> last_two_swapped s gs = true.
Proof.
  intros s gs a b n En H2 Hab (_ & _ & _ & Hl & Hn). rewrite <- En in Hl, Hn.
  unfold last_two_swapped. rewrite <- En.
  assert (P : forall k, k < n -> nth k gs 0 = nth (if k =? n - 2 then n - 1 else if k =? n - 1 then n - 2 else k) s 0).
  { intros k Hk. specialize (Hn k Hk). apply (f_equal (fun o => match o with Some v => v | None => 0 end)) in Hn.
    rewrite <- !nth_default_eq. unfold nth_default. rewrite Hn.
    destruct Hab as [[-> ->]|[-> ->]]; destruct (Nat.eqb_spec k (n - 2)), (Nat.eqb_spec k (n - 1)); try reflexivity; lia. }
  rewrite (P (n - 2)), (P (n - 1)) by lia. rewrite Nat.eqb_refl.
  destruct (Nat.eqb_spec (n - 1) (n - 2)); [lia|]. rewrite !Nat.eqb_refl. simpl.
  apply forallb_forall. intros [x y] Hin. simpl.
  apply In_nth with (d := (0, 0)) in Hin. destruct Hin as (k & Hk & E).
  rewrite combine_length, !firstn_length in Hk. rewrite combine_nth in E by (rewrite !firstn_length; lia).
  injection E as <- <-. apply Nat.eqb_eq.
  rewrite !nth_firstn_lt by lia. rewrite (P k) by lia.
  destruct (Nat.eqb_spec k (n - 2)), (Nat.eqb_spec k (n - 1)); lia.
Qed.

Lemma axis_of_nat : forall n k, axis_of n (Z.of_nat k) = k.
Proof. intros n k. unfold axis_of. destruct (Z.ltb_spec (Z.of_nat k) 0); lia. Qed.

Lemma v_transpose_spec : forall A (z : A) a b s g n, good g -> n = length s ->
  shape_rel (VTranspose a b) s (tshape g) ->
  (axis_of n a = n - 2 /\ axis_of n b = n - 1) \/ (axis_of n a = n - 1 /\ axis_of n b = n - 2) ->
  exists r, v_transpose z s g = Ok r /\ good r /\ tshape r = s /\
    forall i j, valid s i -> index_rel (VTranspose a b) s (tshape g) j i -> length j = n -> elem r i = elem g j.
Proof.
  intros A z a b s g n Hg En Hs Hab. pose proof Hs as (H2 & Ha & Hb & Hl & Hn).
  pose proof (swap_last_two s (tshape g) a b n En ltac:(lia) Hab Hs) as Hlt.
  unfold v_transpose. change (lshape (tlay g)) with (tshape g). rewrite Hl, Nat.eqb_refl. cbn [negb].
  destruct (Nat.ltb_spec (length s) 2); [lia|]. rewrite Hlt. cbn [fst snd].
  rewrite <- En in *.
  set (c1 := (Z.of_nat n - 2)%Z). set (c2 := (Z.of_nat n - 1)%Z).
  assert (E1 : axis_of n c1 = n - 2) by (unfold c1; replace (Z.of_nat n - 2)%Z with (Z.of_nat (n - 2)) by lia; apply axis_of_nat).
  assert (E2 : axis_of n c2 = n - 1) by (unfold c2; replace (Z.of_nat n - 1)%Z with (Z.of_nat (n - 1)) by lia; apply axis_of_nat).
  set (sw := fun k => if k =? n - 2 then n - 1 else if k =? n - 1 then n - 2 else k).
  assert (Hsw : forall k, (if k =? axis_of n a then axis_of n b else if k =? axis_of n b then axis_of n a else k) = sw k).
  { intro k. unfold sw. destruct Hab as [[-> ->]|[-> ->]];
      destruct (Nat.eqb_spec k (n - 2)), (Nat.eqb_spec k (n - 1)); try reflexivity; lia. }
  assert (Hinv : forall k, sw (sw k) = k).
  { intro k. unfold sw.
    destruct (Nat.eqb_spec k (n - 2)); [destruct (Nat.eqb_spec (n - 1) (n - 2)); [lia|]; rewrite Nat.eqb_refl; lia|].
    destruct (Nat.eqb_spec k (n - 1)); [rewrite Nat.eqb_refl; lia|].
    destruct (Nat.eqb_spec k (n - 2)); [lia|]. destruct (Nat.eqb_spec k (n - 1)); [lia|]. reflexivity. }
  assert (Hlt' : forall k, k < n -> sw k < n).
  { intros k Hk. unfold sw. destruct (Nat.eqb_spec k (n - 2)); [lia|]. destruct (Nat.eqb_spec k (n - 1)); lia. }
  destruct (t_view_total A z (VTranspose c1 c2) g s Hg I) as (r & Er & Hsr).
  { simpl. rewrite Hl. split; [lia|]. split; [unfold axis_ok, c1; lia|]. split; [unfold axis_ok, c2; lia|].
    split; [auto|]. intros k Hk. rewrite E1, E2. fold (sw k). rewrite (Hn (sw k)) by (apply Hlt'; auto).
    now rewrite Hsw, Hinv. }
  exists r. split; [exact Er|]. destruct (t_view_spec A z (VTranspose c1 c2) g r Hg I Er) as (Hgr & _ & Hi).
  split; auto. split; auto. intros i j Hv Hx Hj. rewrite Hsr in Hi. destruct (Hi i Hv) as (j' & Hy & Hv' & E).
  rewrite E. f_equal. simpl in Hx, Hy. rewrite <- En in Hx. rewrite Hl in Hy. destruct Hx as [Lx Hx]. destruct Hy as [Ly Hy].
  apply list_ext. intros k.
  destruct (Nat.lt_ge_cases k n) as [Hk|Hk].
  - rewrite (Hy k) by auto. rewrite E1, E2. fold (sw k). rewrite (Hx (sw k)) by auto. now rewrite Hsw, Hinv.
  - rewrite (proj2 (nth_error_None j' k)), (proj2 (nth_error_None j k)) by lia. reflexivity.
Qed.

(** ** permute *)
Lemma forward_perm_app : forall gs s taken, exists r, forward_perm gs taken s = taken ++ r /\ length r = length s.
Proof.
  intros gs s. induction s as [|d s IH]; intro taken; simpl.
  - exists []. now rewrite app_nil_r.
  - destruct (IH (taken ++ [guess_axis gs taken d])) as (r & E & L). exists (guess_axis gs taken d :: r).
    rewrite E, <- app_assoc. simpl. auto.
Qed.

Lemma find_unique : forall (p : nat -> bool) l x, In x l -> p x = true -> (forall y, In y l -> p y = true -> y = x) ->
  find p l = Some x.
Proof.
  intros p l x Hin Hp Hu. destruct (find p l) as [y|] eqn:E.
  - apply find_some in E. destruct E as [E1 E2]. f_equal. now apply Hu.
  - apply (find_none _ _ E) in Hin. congruence.
Qed.

(** [pos ax i]: where [i] occurs in [ax] *)
Section Perm.
Variables (s gs ax : list nat).
Let n := length s.
Hypothesis Hs : NoDup s.
Hypothesis Hax : length ax = n.
Hypothesis Hrange : forall a, In a ax -> a < n.
Hypothesis Hnd : NoDup ax.
Hypothesis Hgl : length gs = n.
Hypothesis Hgs : forall k a, nth_error ax k = Some a -> nth_error gs k = nth_error s a.

Lemma ax_onto : forall i, i < n -> exists k, k < n /\ nth k ax 0 = i.
Proof.
  intros i Hi. assert (Hin : In i ax).
  { assert (Hinc : incl ax (seq 0 n)) by (intros a Ha; apply in_seq; specialize (Hrange a Ha); lia).
    apply (@NoDup_length_incl nat ax (seq 0 n) Hnd); [rewrite seq_length; lia|exact Hinc|]. apply in_seq. lia. }
  apply In_nth with (d := 0) in Hin. destruct Hin as (k & Hk & E). exists k. split; [lia|auto].
Qed.
Lemma gs_nth : forall k, k < n -> nth k gs 0 = nth (nth k ax 0) s 0.
Proof.
  intros k Hk. assert (Hk' : k < length ax) by lia.
  pose proof (Hgs k (nth k ax 0) (nth_error_nth' ax 0 Hk')) as E.
  assert (H1 : nth_error gs k = Some (nth k gs 0)) by (apply nth_error_nth'; lia).
  assert (H2 : nth_error s (nth k ax 0) = Some (nth (nth k ax 0) s 0)).
  { apply nth_error_nth'. apply Hrange. apply nth_In. lia. }
  congruence.
Qed.
Lemma ax_lt : forall k, k < n -> nth k ax 0 < n.
Proof. intros k Hk. apply Hrange. apply nth_In. lia. Qed.

(** the guess at operand axis [i], once the guesses before were right *)
Lemma guess_right : forall taken i k, i < n -> k < n -> nth k ax 0 = i ->
  (forall j, In j taken -> j < n /\ nth j ax 0 < i) ->
  guess_axis gs taken (nth i s 0) = k.
Proof.
  intros taken i k Hi Hk Hki Ht. unfold guess_axis. rewrite (find_unique _ _ k); auto.
  - apply in_seq. lia.
  - rewrite gs_nth, Hki, Nat.eqb_refl by auto. simpl.
    destruct (existsb (Nat.eqb k) taken) eqn:E; auto. apply existsb_exists in E. destruct E as (j & Hj & Ej).
    apply Nat.eqb_eq in Ej. subst j. destruct (Ht k Hj). lia.
  - intros y Hy Hp. apply in_seq in Hy. apply andb_true_iff in Hp. destruct Hp as [Hp _].
    apply Nat.eqb_eq in Hp. rewrite gs_nth in Hp by lia.
    assert (E : i = nth y ax 0) by (apply (proj1 (NoDup_nth s 0) Hs); auto; apply ax_lt; lia).
    apply (proj1 (NoDup_nth ax 0) Hnd); lia.
Qed.

Lemma skipn_tail : forall A m (l : list A) d r, skipn m l = d :: r -> skipn (S m) l = r.
Proof.
  intros A m. induction m as [|m IH]; intros [|x l] d r H; simpl in *; try congruence. apply (IH l d r H).
Qed.

Lemma forward_right : forall r taken, length taken + length r = n -> r = skipn (length taken) s ->
  (forall i, i < length taken -> nth i taken 0 < n /\ nth (nth i taken 0) ax 0 = i) ->
  let f := forward_perm gs taken r in
  length f = n /\ forall i, i < n -> nth i f 0 < n /\ nth (nth i f 0) ax 0 = i.
Proof.
  induction r as [|d r IH]; intros taken Hl Hr Ht; simpl.
  - simpl in Hl. split; [lia|]. intros i Hi. apply Ht. lia.
  - simpl in Hl. destruct (ax_onto (length taken) ltac:(lia)) as (k & Hk & Ek).
    assert (Ed : d = nth (length taken) s 0).
    { rewrite <- (firstn_skipn (length taken) s) at 1. rewrite <- Hr, app_nth2; rewrite firstn_length_le by (unfold n in *; lia); [|lia].
      now rewrite Nat.sub_diag. }
    assert (Eg : guess_axis gs taken d = k).
    { rewrite Ed. apply guess_right; auto; [lia|]. intros j Hj. apply In_nth with (d := 0) in Hj.
      destruct Hj as (m & Hm & <-). destruct (Ht m Hm). split; lia. }
    rewrite Eg. apply IH.
    + rewrite app_length. simpl. lia.
    + rewrite app_length. simpl. rewrite Nat.add_1_r. symmetry. eapply skipn_tail. symmetry. exact Hr.
    + intros i Hi. rewrite app_length in Hi. simpl in Hi. destruct (Nat.eq_dec i (length taken)) as [->|Hne].
      * rewrite app_nth2, Nat.sub_diag by lia. simpl. auto.
      * rewrite app_nth1 by lia. apply Ht. lia.
Qed.

Lemma upd_length : forall A (l : list A) i x, length (upd l i x) = length l.
Proof. intros A l. induction l as [|y l IH]; intros [|i] x; simpl; auto. Qed.
Lemma nth_upd : forall A (l : list A) i x j d, i < length l ->
  nth j (upd l i x) d = if j =? i then x else nth j l d.
Proof.
  intros A l. induction l as [|y l IH]; intros [|i] x [|j] d H; simpl in *; auto; try lia. apply IH. lia.
Qed.

Lemma inverse_right : forall f inv i, length inv = n ->
  (forall m, m < length f -> nth m f 0 < n) -> NoDup f ->
  let v := inverse_perm inv i f in
  length v = n /\ (forall m, m < length f -> nth (nth m f 0) v 0 = i + m) /\
  (forall k, ~ In k f -> nth k v 0 = nth k inv 0).
Proof.
  induction f as [|p f IH]; intros inv i Hi Hf Hn; simpl.
  - split; auto. split; [lia|auto].
  - inversion Hn as [|? ? Hp Hn']; subst.
    destruct (IH (upd inv p i) (S i)) as (L & E1 & E2); auto.
    + now rewrite upd_length.
    + intros m Hm. apply (Hf (S m)). simpl. lia.
    + split; auto. assert (Hpn : p < length inv) by (rewrite Hi; apply (Hf 0); simpl; lia). split.
      * intros [|m] Hm; simpl.
        -- rewrite E2 by auto. rewrite nth_upd by auto. rewrite Nat.eqb_refl. lia.
        -- rewrite E1 by (simpl in Hm; lia). lia.
      * intros k Hk. rewrite E2 by auto. rewrite nth_upd by auto. destruct (Nat.eqb_spec k p); auto. subst. elim Hk. auto.
Qed.

Lemma inverse_is_ax : inverse_perm (repeat 0 n) 0 (forward_perm gs [] s) = ax.
Proof.
  destruct (forward_right s [] eq_refl eq_refl) as [Lf Hf]; [simpl; lia|].
  set (f := forward_perm gs [] s) in *.
  assert (Nf : NoDup f).
  { apply (NoDup_nth f 0). intros i j Hi Hj E. rewrite Lf in *. destruct (Hf i Hi) as [_ E1], (Hf j Hj) as [_ E2]. congruence. }
  destruct (inverse_right f (repeat 0 n) 0) as (Lv & Hv & _); auto.
  - apply repeat_length.
  - intros m Hm. apply Hf. lia.
  - apply (nth_ext _ _ 0 0); [congruence|]. intros k Hk. rewrite Lv in Hk.
    pose proof (ax_lt k Hk) as Hi. destruct (Hf _ Hi) as [H1 H2].
    assert (Ek : nth (nth k ax 0) f 0 = k) by (apply (proj1 (NoDup_nth ax 0) Hnd); lia).
    rewrite <- Ek at 1. rewrite Hv by lia. lia.
Qed.
End Perm.
