(** Symbolic shapes and the registry of resolutions. *)
From Coq Require Import List Arith ZArith NArith Bool Lia.
From Verif Require Import Base IndexSpec LayoutModel LayoutProofs SymbolicModel.
Import ListNotations.

(** ** specification *)

(** a resolution gives every dynamic dimension a size *)
Definition resolve (r : N -> nat) (s : sshape) : shape :=
  map (fun d => match d with Concrete n => n | Dynamic i _ => r i end) s.
(** within the declared bounds *)
Definition within (r : N -> nat) (s : sshape) : Prop :=
  Forall (fun d => match d with Dynamic i (Some m) => r i <= m | _ => True end) s.
Definition bounded (s : sshape) : Prop :=
  Forall (fun d => match d with Dynamic _ None => False | _ => True end) s.

(** ** shapes *)
Lemma filter_map_concrete : forall s, filter_map concrete_size (map Concrete s) = s.
Proof. induction s; cbn; congruence. Qed.
Lemma fully_concrete_map : forall s, ss_fully_concrete (map Concrete s) = true.
Proof. induction s; cbn; auto. Qed.
Lemma fully_concrete_iff : forall s, ss_fully_concrete s = true <-> exists c, s = map Concrete c.
Proof.
  induction s as [|d s IH]; cbn.
  - split; auto. intros _. exists []. reflexivity.
  - rewrite andb_true_iff, IH. split.
    + intros [H [c ->]]. destruct d as [n|]; [|discriminate]. exists (n :: c). reflexivity.
    + intros [[|n c] H]; [discriminate|]. injection H as -> ->. split; [reflexivity|]. now exists c.
Qed.
Lemma dynamic_negb : forall s, ss_is_dynamic s = negb (ss_fully_concrete s).
Proof. unfold ss_is_dynamic, ss_fully_concrete. induction s as [|d s IH]; cbn; [reflexivity|]. rewrite IH. destruct d; reflexivity. Qed.
Lemma to_concrete_iff : forall s c, ss_to_concrete s = Some c <-> s = map Concrete c.
Proof.
  intros s c. unfold ss_to_concrete. destruct (ss_fully_concrete s) eqn:E.
  - apply fully_concrete_iff in E. destruct E as [c' ->]. rewrite filter_map_concrete. split.
    + intro H. now injection H as ->.
    + intro H. f_equal. revert c H. induction c' as [|x c' IH]; intros [|y c] H; try discriminate; auto.
      injection H as -> H. f_equal. auto.
  - split; [discriminate|]. intros ->. rewrite fully_concrete_map in E. discriminate.
Qed.
Lemma fold_mul : forall l a, fold_left Nat.mul l a = a * nelem l.
Proof. induction l as [|x l IH]; intro a; cbn; [unfold nelem; cbn; lia|]. rewrite IH, nelem_cons. lia. Qed.
Lemma size_concrete : forall c, ss_size (map Concrete c) = Some (nelem c).
Proof. intro c. unfold ss_size. rewrite fully_concrete_map, filter_map_concrete, fold_mul. f_equal. lia. Qed.
Lemma try_mul_collect : forall l a, try_mul a l = match collect l with Some c => Some (a * nelem c) | None => None end.
Proof.
  induction l as [|[x|] l IH]; intro a; cbn; [unfold nelem; cbn; f_equal; lia| |reflexivity].
  rewrite IH. destruct (collect l); [|reflexivity]. rewrite nelem_cons. f_equal. lia.
Qed.
Lemma max_size_shape : forall s, ss_max_size s = match ss_to_max_shape s with Some c => Some (nelem c) | None => None end.
Proof. intro s. unfold ss_max_size, ss_to_max_shape. rewrite try_mul_collect. destruct (collect _); [|reflexivity]. f_equal. lia. Qed.
Lemma max_shape_bounded : forall s, bounded s <-> exists c, ss_to_max_shape s = Some c.
Proof.
  unfold ss_to_max_shape, bounded. induction s as [|d s IH]; cbn.
  - split; [now exists []|constructor].
  - split.
    + intro H. inversion H as [|? ? H1 H2]; subst. apply IH in H2. destruct H2 as [c ->].
      destruct d as [n|i [m|]]; [now exists (n :: c)|now exists (m :: c)|contradiction].
    + intros [c H]. constructor.
      * destruct d as [n|i [m|]]; auto. discriminate.
      * apply IH. destruct (allocation_size d); [|discriminate]. destruct (collect (map allocation_size s)); [|discriminate]. eauto.
Qed.
Lemma max_dominates : forall r s c, within r s -> ss_to_max_shape s = Some c -> Forall2 le (resolve r s) c.
Proof.
  unfold ss_to_max_shape. intros r. induction s as [|d s IH]; intros c Hw H; cbn in *.
  - injection H as <-. constructor.
  - inversion Hw as [|? ? W1 W2]; subst. destruct (allocation_size d) as [a|] eqn:Ea; [|discriminate].
    destruct (collect (map allocation_size s)) as [c'|]; [|discriminate]. injection H as <-. constructor; auto.
    destruct d as [n|i [m|]]; cbn in *; try discriminate; injection Ea as <-; lia.
Qed.
Lemma nelem_le : forall a b, Forall2 le a b -> nelem a <= nelem b.
Proof. induction 1; [lia|]. rewrite !nelem_cons. now apply Nat.mul_le_mono. Qed.
Lemma valid_le : forall a b i, Forall2 le a b -> valid a i -> valid b i.
Proof. intros a b i H. revert i. induction H; intros [|k i] V; cbn in *; try tauto. destruct V. split; [lia|auto]. Qed.

(** ** strides *)
Lemma strides_max : forall s c, ss_to_max_shape s = Some c -> ss_strides s = Some (compute_strides c).
Proof.
  unfold ss_to_max_shape. induction s as [|d s IH]; intros c H; cbn in H.
  - injection H as <-. reflexivity.
  - destruct (allocation_size d) as [a|]; [|discriminate]. destruct (collect (map allocation_size s)) as [c'|] eqn:E; [|discriminate].
    injection H as <-. specialize (IH c' eq_refl). destruct s as [|e s]; cbn in E.
    + injection E as <-. reflexivity.
    + change (ss_strides (d :: e :: s)) with
        (match ss_strides (e :: s) with
         | Some (st :: sts) => match allocation_size e with Some a => Some (st * a :: st :: sts) | None => None end
         | _ => None end). rewrite IH.
      destruct (allocation_size e) as [ae|]; [|discriminate]. destruct (collect (map allocation_size s)) as [c''|]; [|discriminate].
      injection E as <-. rewrite !compute_strides_cons, nelem_cons. f_equal. f_equal. lia.
Qed.

(** replacing dimensions one by one *)
Fixpoint with_dims (l : slayout) (ds : list (nat * dim)) : option slayout :=
  match ds with
  | [] => Some l
  | (i, d) :: r => match sl_with_dim l i d with Some l' => with_dims l' r | None => None end
  end.
Lemma with_dim_strides : forall l i d l', sl_with_dim l i d = Some l' ->
  ss_strides (sl_shape l') = Some (sl_strides l') /\ sl_offset l' = sl_offset l /\ sl_shape l' = upd (sl_shape l) i d.
Proof.
  intros l i d l'. unfold sl_with_dim. destruct (length (sl_shape l) <=? i); [discriminate|].
  destruct (ss_strides (upd (sl_shape l) i d)) as [st|] eqn:E; [|discriminate]. intro H. injection H as <-. cbn. auto.
Qed.
Lemma with_dims_strides : forall ds l l', ss_strides (sl_shape l) = Some (sl_strides l) -> with_dims l ds = Some l' ->
  ss_strides (sl_shape l') = Some (sl_strides l') /\ sl_offset l' = sl_offset l.
Proof.
  induction ds as [|[i d] ds IH]; intros l l' Hs H; cbn in H.
  - injection H as <-. auto.
  - destruct (sl_with_dim l i d) as [l1|] eqn:E; [|discriminate]. apply with_dim_strides in E. destruct E as (E1 & E2 & _).
    destruct (IH l1 l' E1 H) as [A B]. split; congruence.
Qed.
Lemma max_shape_concrete : forall c, ss_to_max_shape (map Concrete c) = Some c.
Proof. unfold ss_to_max_shape. induction c as [|x c IH]; cbn; [reflexivity|]. now rewrite IH. Qed.
Lemma from_shape_strides : forall s l, sl_from_shape s = Some l ->
  sl_shape l = s /\ ss_strides s = Some (sl_strides l) /\ sl_offset l = 0.
Proof.
  intros s l. unfold sl_from_shape. destruct (ss_max_size s); [|discriminate]. destruct (ss_strides s); [|discriminate].
  intro H. injection H as <-. auto.
Qed.
Lemma from_shape_iff : forall s, bounded s <-> exists l, sl_from_shape s = Some l.
Proof.
  intro s. rewrite max_shape_bounded. unfold sl_from_shape. rewrite max_size_shape. split.
  - intros [c H]. rewrite H, (strides_max s c H). eauto.
  - intros [l H]. destruct (ss_to_max_shape s); [eauto|discriminate].
Qed.
Lemma resolved_concrete : forall s l ds l', sl_from_shape s = Some l -> with_dims l ds = Some l' ->
  ss_fully_concrete (sl_shape l') = true ->
  exists c, sl_shape l' = map Concrete c /\ sl_to_concrete l' = Some (from_shape c).
Proof.
  intros s l ds l' H1 H2 H3. apply from_shape_strides in H1. destruct H1 as (A & B & C). rewrite <- A in B.
  destruct (with_dims_strides ds l l' B H2) as [D E]. pose proof H3 as H4. apply fully_concrete_iff in H3. destruct H3 as [c Hc].
  exists c. split; [exact Hc|]. unfold sl_to_concrete. rewrite H4.
  assert (K : ss_to_concrete (sl_shape l') = Some c) by now apply to_concrete_iff. rewrite K.
  rewrite Hc, (strides_max _ c (max_shape_concrete c)) in D. injection D as <-. reflexivity.
Qed.

(** ** the registry *)

(** the value of the last [resolve] of [i] by thread [t] since its last [clear];
    the history is latest first *)
Fixpoint last_resolve (rh : list (nat * dop)) (t : nat) (i : N) : option nat :=
  match rh with
  | [] => None
  | (u, o) :: past =>
    if u =? t then
      match o with
      | DResolve j v => if (j =? i)%N then Some v else last_resolve past t i
      | DClear => None
      | _ => last_resolve past t i
      end
    else last_resolve past t i
  end.
Definition news (h : list (nat * dop)) : nat := length (filter (fun e => match snd e with DNew => true | _ => false end) h).

Lemma drun_snoc : forall h s t o, drun s (h ++ [(t, o)]) = fst (dstep (drun s h) t o).
Proof. induction h as [|[u p] h IH]; intros; cbn; auto. Qed.
Lemma dget_insert : forall m i v j, dget (dinsert m i v) j = if (i =? j)%N then Some v else dget m j.
Proof.
  intros m i v j. unfold dinsert. cbn [dget]. destruct (N.eqb_spec i j) as [E|E]; [reflexivity|].
  induction m as [|[k w] m IH]; cbn [filter dget fst]; [reflexivity|].
  destruct (N.eqb_spec k i) as [E1|E1]; cbn [negb].
  - rewrite IH. destruct (N.eqb_spec k j); [congruence|reflexivity].
  - cbn [dget]. destruct (N.eqb_spec k j); [reflexivity|exact IH].
Qed.
Lemma drun_map : forall h t i, dget (d_maps (drun dinit h) t) i = last_resolve (rev h) t i.
Proof.
  intros h. induction h as [|[u o] h IH] using rev_ind; intros t i; [reflexivity|].
  rewrite drun_snoc, rev_app_distr. cbn [rev app last_resolve]. destruct o as [|j v| |j]; cbn [dstep fst d_maps].
  - rewrite IH. destruct (u =? t); reflexivity.
  - rewrite (Nat.eqb_sym t u). destruct (Nat.eqb_spec u t) as [->|E]; [rewrite dget_insert, IH; reflexivity|apply IH].
  - rewrite (Nat.eqb_sym t u). destruct (u =? t); [reflexivity|apply IH].
  - rewrite IH. destruct (u =? t); reflexivity.
Qed.
Lemma drun_next : forall h, d_next (drun dinit h) = (N.of_nat (news h) mod id_wrap)%N.
Proof.
  intros h. induction h as [|[u o] h IH] using rev_ind; [reflexivity|].
  rewrite drun_snoc. unfold news in *. rewrite filter_app, app_length.
  destruct o; cbn [dstep fst d_next filter snd length]; rewrite IH; [|f_equal; lia|f_equal; lia|f_equal; lia].
  rewrite N.add_mod_idemp_l by discriminate. f_equal. lia.
Qed.
