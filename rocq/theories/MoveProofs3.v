(** Proofs about flip and padding. *)
From Coq Require Import List Arith ZArith Lia Bool ZifyBool.
From Verif Require Import Base IndexSpec LayoutModel ViewSpec LayoutProofs BcastProofs.
From Verif Require Import KernelModel TensorModel TensorSpec KernelProofs TensorProofs.
From Verif Require Import ReduceModel ReduceSpec ReduceProofs ScanModel ScanProofs MoveModel MoveProofs MoveProofs2.
Import ListNotations.

Definition a_od (a : axis_map) : nat := fst (fst a).
Definition a_id (a : axis_map) : nat := snd (fst a).

Fixpoint horner (xs ids : list nat) : nat :=
  match xs, ids with
  | x :: xs', d :: ids' => x + d * horner xs' ids'
  | _, _ => 0
  end.

Lemma horner_ravel : forall xs ids, length xs = length ids -> horner xs ids = ravel (rev ids) (rev xs).
Proof.
  induction xs as [|x xs IH]; intros [|d ids] H; try discriminate; auto.
  cbn [horner rev]. rewrite ravel_app by (rewrite !rev_length; simpl in H; lia).
  rewrite <- IH by (simpl in H; lia). cbn [ravel]. rewrite nelem_cons. change (nelem []) with 1. lia.
Qed.

Lemma map_walk_coords : forall rs k st cs ys,
  c_unravel_rev k (map a_od rs) = Some cs ->
  Forall2 (fun p y => snd (fst p) (snd p) = Some y) (combine rs cs) ys ->
  map_walk k st rs = Some (option_map (fun xs => st * horner xs (map a_id rs)) (sequence ys)).
Proof.
  induction rs as [|[[od id] g] rs IH]; intros k st cs ys Hc HF.
  - cbn in *. injection Hc as <-. inversion HF; subst. cbn. f_equal. f_equal. lia.
  - cbn [map c_unravel_rev a_od fst map_walk] in *. destruct (od =? 0); [discriminate|].
    destruct (c_unravel_rev (k / od) (map a_od rs)) as [cs'|] eqn:E; [|discriminate].
    cbn [obind] in Hc. injection Hc as <-. cbn [combine] in HF. inversion HF as [|? y ? ys' Hy HF' E1 E2]; subst.
    cbn [fst snd] in Hy. rewrite Hy. cbn [obind]. destruct y as [x|]; [|reflexivity].
    rewrite (IH _ _ cs' ys' E HF'). cbn [obind sequence]. f_equal.
    destruct (sequence ys'); [|reflexivity]. cbn. f_equal. cbn [a_id fst snd]. nia.
Qed.

Lemma sequence_app : forall B (a b : list (option B)),
  sequence (a ++ b) = match sequence a, sequence b with Some x, Some y => Some (x ++ y) | _, _ => None end.
Proof.
  induction a as [|[x|] a IH]; intros b; cbn [sequence app]; auto.
  - now destruct (sequence b).
  - rewrite IH. destruct (sequence a); auto. destruct (sequence b); auto.
Qed.
Lemma sequence_rev : forall B (l : list (option B)), sequence (rev l) = option_map (@rev B) (sequence l).
Proof.
  induction l as [|[x|] l IH]; cbn [rev]; auto; rewrite sequence_app, IH; cbn [sequence];
    destruct (sequence l); reflexivity.
Qed.
Lemma Forall2_rev' : forall A B (R : A -> B -> Prop) l l', Forall2 R l l' -> Forall2 R (rev l) (rev l').
Proof. induction 1; cbn; auto. apply Forall2_app; auto. Qed.

Lemma sequence_len : forall B (l : list (option B)) r, sequence l = Some r -> length r = length l.
Proof.
  induction l as [|[x|] l IH]; intros r H; cbn in H; try discriminate.
  - now injection H as <-.
  - destruct (sequence l); [|discriminate]. injection H as <-. simpl. f_equal. auto.
Qed.

Lemma map_walk_spec : forall axs k ys, k < nelem (map a_od axs) ->
  Forall2 (fun p y => snd (fst p) (snd p) = Some y) (combine axs (unravel (map a_od axs) k)) ys ->
  map_walk k 1 (rev axs) = Some (option_map (ravel (map a_id axs)) (sequence ys)).
Proof.
  intros axs k ys Hk HF.
  pose proof (c_unravel_spec _ _ Hk) as U. unfold c_unravel in U.
  destruct (c_unravel_rev k (rev (map a_od axs))) as [cs|] eqn:E; [|discriminate].
  cbn in U. injection U as U. rewrite <- map_rev in E.
  assert (Ec : cs = rev (unravel (map a_od axs) k)) by (rewrite <- U; now rewrite rev_involutive).
  assert (Lc : length (unravel (map a_od axs) k) = length axs) by (now rewrite unravel_length, map_length).
  rewrite (map_walk_coords _ _ _ cs (rev ys) E).
  - rewrite sequence_rev. destruct (sequence ys) as [xs|] eqn:Es; [|reflexivity]. cbn. f_equal. f_equal.
    rewrite horner_ravel.
    + rewrite rev_involutive, map_rev, rev_involutive. lia.
    + rewrite rev_length, map_length, rev_length. rewrite (sequence_len _ _ _ Es).
      rewrite <- (Forall2_len _ _ _ _ _ HF). rewrite combine_length. lia.
  - rewrite Ec, <- rev_combine by auto. now apply Forall2_rev'.
Qed.

(** a tensor whose layout is row-major from the start of its storage *)
Definition plain_layout {A} (t : tensor A) : Prop :=
  is_contiguous (tlay t) = true /\ loffset (tlay t) = 0.
Lemma plain_elem : forall A (t : tensor A) i, good t -> plain_layout t -> length i = length (tshape t) ->
  elem t i = nth_error (tstore t) (ravel (tshape t) i).
Proof.
  intros A t i [Hw _] [Hc Ho] Hi. unfold elem. rewrite addr_contiguous by auto. now rewrite Ho.
Qed.
Lemma fresh_plain : forall A (t : tensor A) s, tlay t = from_shape s -> plain_layout t.
Proof. intros A t s H. unfold plain_layout. rewrite H. split; [apply from_shape_contiguous|reflexivity]. Qed.

(* ---------- flip ---------- *)

(** mirrored coordinates *)
Fixpoint mirror (s : list nat) (m : nat -> bool) (p : nat) (i : list nat) : list nat :=
  match s, i with
  | d :: s', x :: i' => (if m p then d - 1 - x else x) :: mirror s' m (S p) i'
  | _, _ => []
  end.
Lemma mirror_valid : forall s m p i, valid s i -> valid s (mirror s m p i).
Proof.
  induction s as [|d s IH]; intros m p [|x i] H; simpl in *; try tauto.
  destruct H as [Hx H]. split; auto. destruct (m p); lia.
Qed.
Lemma mirror_mirror : forall s m p i, valid s i -> mirror s m p (mirror s m p i) = i.
Proof.
  induction s as [|d s IH]; intros m p [|x i] H; simpl in *; try tauto.
  destruct H as [Hx H]. f_equal; auto. destruct (m p); lia.
Qed.
Lemma mirror_nth : forall s m p i k d x, nth_error s k = Some d -> nth_error i k = Some x ->
  nth_error (mirror s m p i) k = Some (if m (p + k) then d - 1 - x else x).
Proof.
  induction s as [|e s IH]; intros m p [|y i] [|k] d x Hd Hx; simpl in *; try discriminate.
  - injection Hd as ->. injection Hx as ->. now rewrite Nat.add_0_r.
  - rewrite (IH m (S p) i k d x Hd Hx). now rewrite Nat.add_succ_r.
Qed.

Section Flip.
Variables (A : Type) (z d0 : A).

Lemma flip_axes : forall s (m : nat -> bool) p i, valid s i ->
  let axs := map (fun q : nat * nat => (fst q, fst q, fun c => Some (Some (if snd q =? 0 then c else fst q - 1 - c))))
               (combine s (map (fun d => if m d then 1 else 0) (seq p (length s)))) in
  map a_od axs = s /\ map a_id axs = s /\
  Forall2 (fun p y => snd (fst p) (snd p) = Some y) (combine axs i) (map Some (mirror s m p i)).
Proof.
  induction s as [|d s IH]; intros m p [|x i] H; cbn [valid] in H; try tauto.
  - cbn. auto.
  - destruct H as [Hx H]. destruct (IH m (S p) i H) as [E1 [E2 E3]].
    cbn [length seq map combine] in *. split; [cbn; f_equal; exact E1|]. split; [cbn; f_equal; exact E2|].
    cbn [mirror map combine]. constructor; [|exact E3]. cbn [fst snd]. destruct (m p); reflexivity.
Qed.

Lemma flip_kernel_spec : forall input out l ds, length out = nelem (lshape l) ->
  nelem (lshape l) <= length input ->
  flip_kernel input out (flip_metadata l ds) =
  Some (map (fun k => rd d0 input (ravel (lshape l) (mirror (lshape l) (in_list ds) 0 (unravel (lshape l) k))))
            (seq 0 (nelem (lshape l)))).
Proof.
  intros input out l ds Ho Hb. set (s := lshape l) in *. set (nd := length s).
  unfold flip_kernel, flip_metadata. fold s nd.
  set (mask := map (fun d => if in_list ds d then 1 else 0) (seq 0 nd)).
  assert (LM : length mask = nd) by (unfold mask; now rewrite map_length, seq_length).
  assert (M2 : md_slice ([layout_size l; nd] ++ s ++ mask) 2 nd = Some s).
  { apply (md_at _ [layout_size l; nd] s mask); auto. }
  assert (M3 : md_slice ([layout_size l; nd] ++ s ++ mask) (2 + nd) nd = Some mask).
  { apply (md_at _ ([layout_size l; nd] ++ s) mask []); auto. rewrite app_nil_r. assoc. }
  cbn [nth_error app obind] in *. rewrite M2. cbn [obind]. rewrite M3. cbn [obind].
  change (layout_size l) with (nelem s).
  apply seq_for_total; auto. intros k Hk. cbv beta.
  pose proof (unravel_valid s k Hk) as V.
  destruct (flip_axes s (in_list ds) 0 (unravel s k) V) as [E1 [E2 E3]]. fold nd mask in E1, E2, E3.
  set (axs := map _ (combine s mask)) in *.
  refine (eq_trans (f_equal (fun m => obind m _)
    (map_walk_spec axs k (map Some (mirror s (in_list ds) 0 (unravel s k))) _ _)) _).
  - now rewrite E1.
  - now rewrite E1.
  - assert (ES : forall l, sequence (map (@Some nat) l) = Some l).
    { induction l0 as [|x l0 IH]; cbn; auto. now rewrite IH. }
    rewrite ES, E2. cbn [option_map obind]. apply nth_error_rd.
    eapply Nat.lt_le_trans; [|exact Hb]. apply ravel_lt. now apply mirror_valid.
Qed.

Lemma plain_len : forall (t : tensor A), good t -> plain_layout t -> nelem (tshape t) <= length (tstore t).
Proof.
  intros t [Hw Hb] [Hc Ho]. destruct (nelem (tshape t)) as [|n] eqn:E; [lia|].
  assert (V : valid (tshape t) (unravel (tshape t) n)) by (apply unravel_valid; lia).
  pose proof (Hb _ V) as H. rewrite addr_contiguous in H; auto; [|now apply valid_length].
  fold (tshape t) in H. rewrite Ho, ravel_unravel in H by lia. lia.
Qed.

Lemma t_flip_spec : forall (t : tensor A) dims ds, good t -> plain_layout t ->
  Forall2 (fun a d => axis_ok (length (tshape t)) a /\ d = axis_of (length (tshape t)) a) dims ds ->
  exists r, t_flip z t dims = Ok r /\ good r /\ tlay r = from_shape (tshape t) /\
    forall i, valid (tshape t) i -> elem r i = elem t (mirror (tshape t) (in_list ds) 0 i).
Proof.
  intros t dims ds Hg Hp Hax. unfold t_flip. fold (tshape t).
  assert (ED : map (fun d => match MoveModel.axis_usize (length (tshape t)) d with
                    | Some d1 => d1 | None => length (tshape t) end) dims = ds).
  { induction Hax as [|a d dims ds [Ha ->] _ IH]; auto. cbn [map]. rewrite axis_usize_ok by auto. now f_equal. }
  rewrite ED. unfold layout_size. fold (tshape t). change shape_size with nelem.
  rewrite flip_kernel_spec; [|apply repeat_length|now apply plain_len].
  fold (tshape t). cbn [ub bind]. eexists. split; [reflexivity|].
  split; [apply from_shape_good; now rewrite map_length, seq_length|]. split; [reflexivity|].
  intros i Hi. rewrite elem_fresh by auto. rewrite unravel_ravel by auto.
  pose proof (mirror_valid _ (in_list ds) 0 _ Hi) as V.
  rewrite (plain_elem _ t _ Hg Hp (valid_length _ _ V)). symmetry. apply nth_error_rd.
  eapply Nat.lt_le_trans; [now apply ravel_lt|]. now apply plain_len.
Qed.
End Flip.

(* ---------- padding ---------- *)

(** textbook source coordinate [y] of position [c] on an axis of [n] elements *)
Definition pad_src (m : pad_mode) (n c y : Z) : Prop :=
  (0 <= y < n)%Z /\
  match m with
  | PadConstant => y = c
  | PadReflect => (n = 1 \/ exists q, c = 2 * (n - 1) * q + y \/ c = 2 * (n - 1) * q - y)%Z
  | PadReplicate => (c < 0 -> y = 0)%Z /\ (0 <= c < n -> y = c)%Z /\ (n <= c -> y = n - 1)%Z
  | PadCircular => exists q, (c = n * q + y)%Z
  end.

Lemma reflect_spec : forall c n, 0 < n -> exists y, reflect_index c n = Some y /\
  pad_src PadReflect (Z.of_nat n) c (Z.of_nat y).
Proof.
  intros c n Hn. unfold reflect_index. set (a := (if c <? 0 then - c else c)%Z).
  assert (Ha : (0 <= a /\ (a = c \/ a = - c))%Z) by (unfold a; destruct (c <? 0)%Z eqn:E; lia). clearbody a.
  destruct Ha as [Ha Hc]. cbv zeta. destruct (a >=? Z.of_nat n)%Z eqn:E.
  - replace (n =? 0) with false by lia. set (p := (2 * (Z.of_nat n - 1))%Z).
    destruct (p >? 0)%Z eqn:Ep.
    + pose proof (Z.mod_pos_bound a p ltac:(lia)) as Hm. pose proof (Z.div_mod a p ltac:(lia)) as Hd.
      set (r := (a mod p)%Z) in *. set (q := (a / p)%Z) in *. clearbody r q.
      eexists. split; [reflexivity|]. unfold pad_src. fold p.
      destruct (r >=? Z.of_nat n)%Z eqn:Er; rewrite Z2Nat.id by (unfold p in *; lia).
      * split; [unfold p in *; lia|]. right. destruct Hc as [Hc|Hc].
        -- exists (q + 1)%Z. right. rewrite <- Hc. lia.
        -- exists (- q - 1)%Z. left. lia.
      * split; [lia|]. right. destruct Hc as [Hc|Hc].
        -- exists q. left. lia.
        -- exists (- q)%Z. right. lia.
    + exists 0. split; auto. unfold pad_src. split; [lia|]. left. unfold p in Ep. lia.
  - eexists. split; [reflexivity|]. unfold pad_src. rewrite Z2Nat.id by lia. split; [lia|].
    right. exists 0%Z. lia.
Qed.
Lemma replicate_spec : forall c n, 0 < n -> exists y, replicate_index c n = Some y /\
  pad_src PadReplicate (Z.of_nat n) c (Z.of_nat y).
Proof.
  intros c n Hn. unfold replicate_index, pad_src. destruct (c <? 0)%Z eqn:E.
  - exists 0. split; auto. lia.
  - destruct (c >=? Z.of_nat n)%Z eqn:E2.
    + replace (n =? 0) with false by lia. exists (n - 1). split; auto. lia.
    + eexists. split; [reflexivity|]. lia.
Qed.
Lemma circular_spec : forall c n, 0 < n -> exists y, circular_index c n = Some y /\
  pad_src PadCircular (Z.of_nat n) c (Z.of_nat y).
Proof.
  intros c n Hn. unfold circular_index, pad_src. replace (n =? 0) with false by lia.
  pose proof (Z.quot_rem' c (Z.of_nat n)) as Hq. cbv zeta.
  assert (B : (- Z.of_nat n < Z.rem c (Z.of_nat n) < Z.of_nat n)%Z).
  { pose proof (Z.rem_bound_abs c (Z.of_nat n) ltac:(lia)). lia. }
  set (r := Z.rem c (Z.of_nat n)) in *. set (q := Z.quot c (Z.of_nat n)) in *. clearbody r q.
  destruct (r <? 0)%Z eqn:E; eexists; (split; [reflexivity|]); rewrite Z2Nat.id by lia; (split; [lia|]).
  - exists (q - 1)%Z. lia.
  - exists q. lia.
Qed.

(** Multi-axis source rule: [ys] is the source of output coordinate [i]. *)
Definition pad_source (m : pad_mode) (s : list nat) (before : list nat) (i ys : list nat) : Prop :=
  length ys = length s /\
  forall p n b c y, nth_error s p = Some n -> nth_error before p = Some b -> nth_error i p = Some c ->
    nth_error ys p = Some y -> pad_src m (Z.of_nat n) (Z.of_nat c - Z.of_nat b) (Z.of_nat y).

Lemma pad_src_inj : forall m n c y y', pad_src m n c y -> pad_src m n c y' -> y = y'.
Proof.
  intros [] n c y y' [Hb H] [Hb' H']; try lia.
  - destruct H as [->|[q H]], H' as [E|[q' H']]; try lia.
    assert (Hn : (n = 1 \/ 2 <= n)%Z) by lia. destruct Hn as [->|Hn]; [lia|].
    (* c is congruent to +-y and +-y' modulo 2(n-1) *)
    set (p := (2 * (n - 1))%Z) in *.
    assert (D : (exists k, y - y' = p * k \/ y + y' = p * k)%Z).
    { destruct H as [H|H], H' as [H'|H'].
      - exists (q' - q)%Z. left. nia.
      - exists (q' - q)%Z. right. nia.
      - exists (q - q')%Z. right. nia.
      - exists (q - q')%Z. left. nia. }
    destruct D as [k [D|D]].
    + assert (k = 0)%Z by (unfold p in *; nia). subst k. lia.
    + assert (k = 0 \/ k = 1)%Z by (unfold p in *; nia). unfold p in *. destruct H0; subst k; lia.
  - destruct H as [q H], H' as [q' H']. assert (q = q')%Z by nia. subst q'. lia.
Qed.

Lemma pad_coord_some : forall m b n c, 0 < n ->
  exists r, pad_coord m b n c = Some r /\
    match r with
    | Some y => pad_src m (Z.of_nat n) (Z.of_nat c - Z.of_nat b) (Z.of_nat y)
    | None => m = PadConstant /\ ~ (0 <= Z.of_nat c - Z.of_nat b < Z.of_nat n)%Z
    end.
Proof.
  intros m b n c Hn. unfold pad_coord. set (i := (Z.of_nat c - Z.of_nat b)%Z). destruct m.
  - eexists. split; [reflexivity|]. destruct ((i <? 0) || (i >=? Z.of_nat n))%Z eqn:E.
    + split; auto. lia.
    + unfold pad_src. rewrite Z2Nat.id by lia. lia.
  - destruct (reflect_spec i n Hn) as [y [-> H]]. cbn. eauto.
  - destruct (replicate_spec i n Hn) as [y [-> H]]. cbn. eauto.
  - destruct (circular_spec i n Hn) as [y [-> H]]. cbn. eauto.
Qed.
(** constant padding is also fine on an axis of size 0 *)
Lemma pad_coord_const : forall b n c,
  exists r, pad_coord PadConstant b n c = Some r /\
    match r with
    | Some y => pad_src PadConstant (Z.of_nat n) (Z.of_nat c - Z.of_nat b) (Z.of_nat y)
    | None => ~ (0 <= Z.of_nat c - Z.of_nat b < Z.of_nat n)%Z
    end.
Proof.
  intros b n c. unfold pad_coord. eexists. split; [reflexivity|].
  destruct ((Z.of_nat c - Z.of_nat b <? 0) || (Z.of_nat c - Z.of_nat b >=? Z.of_nat n))%Z eqn:E.
  - lia.
  - unfold pad_src. rewrite Z2Nat.id by lia. lia.
Qed.

Fixpoint pad_rows (m : pad_mode) (s before i : list nat) : option (list (option nat)) :=
  match s, before, i with
  | n :: s', b :: before', c :: i' =>
    match pad_coord m b n c, pad_rows m s' before' i' with
    | Some r, Some rs => Some (r :: rs)
    | _, _ => None
    end
  | _, _, _ => Some []
  end.

Lemma pad_rows_spec : forall m s before i, length before = length s -> length i = length s ->
  (m = PadConstant \/ all_pos s) ->
  exists rs, pad_rows m s before i = Some rs /\
    match sequence rs with
    | Some ys => pad_source m s before i ys
    | None => m = PadConstant /\ ~ exists ys, pad_source m s before i ys
    end.
Proof.
  intros m. induction s as [|n s IH]; intros [|b before] [|c i] Hb Hi Hm; try discriminate.
  - exists []. split; auto. cbn. split; auto. intros [|p]; discriminate.
  - assert (Hr : exists r, pad_coord m b n c = Some r /\
      match r with
      | Some y => pad_src m (Z.of_nat n) (Z.of_nat c - Z.of_nat b) (Z.of_nat y)
      | None => m = PadConstant /\ ~ (0 <= Z.of_nat c - Z.of_nat b < Z.of_nat n)%Z
      end).
    { destruct Hm as [->|Hm].
      - destruct (pad_coord_const b n c) as [r [H1 H2]]. exists r. split; auto. destruct r; auto.
      - apply pad_coord_some. now inversion Hm. }
    destruct Hr as [r [E1 H1]].
    destruct (IH before i ltac:(simpl in *; lia) ltac:(simpl in *; lia)) as [rs [E2 H2]].
    { destruct Hm as [->|Hm]; auto. right. now inversion Hm. }
    exists (r :: rs). cbn [pad_rows]. rewrite E1, E2. split; auto. cbn [sequence].
    destruct r as [y|].
    + destruct (sequence rs) as [ys|].
      * destruct H2 as [L2 H2]. split; [simpl; lia|].
        intros [|p] n' b' c' y' Hn Hb' Hc Hy; simpl in *.
        -- congruence.
        -- eauto.
      * destruct H2 as [-> H2]. split; auto. intros [ys [L H]]. apply H2.
        destruct ys as [|y' ys]; [discriminate|]. exists ys. split; [simpl in L; lia|].
        intros p n' b' c' y'' Hn Hb' Hc Hy. exact (H (S p) _ _ _ _ Hn Hb' Hc Hy).
    + destruct H1 as [-> H1]. split; auto. intros [ys [L H]]. apply H1.
      destruct ys as [|y' ys]; [discriminate|].
      destruct (H 0 n b c y' eq_refl eq_refl eq_refl eq_refl) as [Hy Ec]. lia.
Qed.

Lemma pad_source_valid : forall m s before i ys, length before = length s -> length i = length s ->
  pad_source m s before i ys -> valid s ys.
Proof.
  intros m. induction s as [|n s IH]; intros [|b before] [|c i] [|y ys] Hb Hi [L H]; try discriminate; cbn; auto.
  split.
  - destruct (H 0 n b c y eq_refl eq_refl eq_refl eq_refl) as [B _]. lia.
  - apply (IH before i ys); simpl in *; try lia. split; [lia|].
    intros p n' b' c' y' Hn Hb' Hc Hy. exact (H (S p) _ _ _ _ Hn Hb' Hc Hy).
Qed.

Section Pad.
Variables (A : Type) (z d0 : A).

Lemma pad_axes : forall m os s before i rs, length os = length s -> length before = length s -> length i = length s ->
  pad_rows m s before i = Some rs ->
  let axs := map (fun p : nat * (nat * nat) =>
        (fst p, fst (snd p), pad_coord m (snd (snd p)) (fst (snd p))))
        (combine os (combine s before)) in
  map a_od axs = os /\ map a_id axs = s /\
  Forall2 (fun p y => snd (fst p) (snd p) = Some y) (combine axs i) rs.
Proof.
  intros m. induction os as [|o os IH]; intros [|n s] [|b before] [|c i] rs Ho Hb Hi H; try discriminate.
  - cbn in *. injection H as <-. auto.
  - cbn [pad_rows] in H. destruct (pad_coord m b n c) as [r|] eqn:E; [|discriminate].
    destruct (pad_rows m s before i) as [rs'|] eqn:E2; [|discriminate]. injection H as <-.
    destruct (IH s before i rs' ltac:(simpl in *; lia) ltac:(simpl in *; lia) ltac:(simpl in *; lia) E2)
      as [H1 [H2 H3]].
    cbn [combine map]. split; [cbn; f_equal; exact H1|]. split; [cbn; f_equal; exact H2|].
    constructor; auto.
Qed.

Definition pad_value (m : pad_mode) (pv : A) (input : list A) (s before i : list nat) : A :=
  match pad_rows m s before i with
  | Some rs => match sequence rs with Some ys => rd d0 input (ravel s ys) | None => pv end
  | None => pv
  end.

Lemma pad_kernel_spec : forall m pv input out l before os,
  length before = length (lshape l) -> length os = length (lshape l) ->
  (m = PadConstant \/ all_pos (lshape l)) ->
  length out = nelem os -> nelem (lshape l) <= length input ->
  pad_kernel m pv input out (padding_metadata l before os) =
  Some (map (fun k => pad_value m pv input (lshape l) before (unravel os k)) (seq 0 (nelem os))).
Proof.
  intros m pv input out l before os Hb Hos Hm Ho Hin. set (s := lshape l) in *. set (nd := length s) in *.
  unfold pad_kernel, padding_metadata. fold s nd. change shape_size with nelem.
  assert (M2 : md_slice ([nelem os; nd] ++ s ++ os ++ before) 2 nd = Some s).
  { apply (md_at _ [nelem os; nd] s (os ++ before)); auto. }
  assert (M3 : md_slice ([nelem os; nd] ++ s ++ os ++ before) (2 + nd) nd = Some os).
  { apply (md_at _ ([nelem os; nd] ++ s) os before); auto. }
  assert (M4 : md_slice ([nelem os; nd] ++ s ++ os ++ before) (2 + 2 * nd) nd = Some before).
  { apply (md_at _ ([nelem os; nd] ++ s ++ os) before []); auto.
    - rewrite app_nil_r. assoc.
    - rewrite !app_length. cbn [length]. fold nd. lia. }
  cbn [nth_error app obind] in *. rewrite M2. cbn [obind]. rewrite M3. cbn [obind]. rewrite M4. cbn [obind].
  apply seq_for_total; auto. intros k Hk. cbv beta.
  assert (Lu : length (unravel os k) = length s) by (rewrite unravel_length; lia).
  destruct (pad_rows_spec m s before (unravel os k) Hb Lu Hm) as [rs [E1 E2]].
  destruct (pad_axes m os s before (unravel os k) rs Hos Hb Lu E1) as [F1 [F2 F3]].
  set (axs := map _ (combine os (combine s before))) in *.
  refine (eq_trans (f_equal (fun m => obind m _) (map_walk_spec axs k rs _ _)) _);
    [now rewrite F1|now rewrite F1|].
  rewrite F2. unfold pad_value. rewrite E1.
  destruct (sequence rs) as [ys|]; cbn [option_map obind]; auto.
  apply nth_error_rd. eapply Nat.lt_le_trans; [|exact Hin].
  apply ravel_lt. exact (pad_source_valid _ _ _ _ _ Hb Lu E2).
Qed.

Definition padded_shape (s : list nat) (padding : list (nat * nat)) : list nat :=
  map (fun p : nat * (nat * nat) => fst p + fst (snd p) + snd (snd p)) (combine s padding).

Lemma t_pad_spec : forall m pv (t : tensor A) padding, good t -> plain_layout t ->
  length padding = length (tshape t) -> (m = PadConstant \/ all_pos (tshape t)) ->
  exists r, t_pad z m pv t padding = Ok r /\ good r /\ tlay r = from_shape (padded_shape (tshape t) padding) /\
    forall i, valid (padded_shape (tshape t) padding) i ->
      (forall ys, pad_source m (tshape t) (map fst padding) i ys -> elem r i = elem t ys) /\
      ((m = PadConstant /\ ~ exists ys, pad_source m (tshape t) (map fst padding) i ys) -> elem r i = Some pv) /\
      (m <> PadConstant -> exists ys, pad_source m (tshape t) (map fst padding) i ys).
Proof.
  intros m pv t padding Hg Hp HL Hm. unfold t_pad. fold (tshape t). rewrite HL, Nat.eqb_refl. cbn [negb].
  fold (padded_shape (tshape t) padding). set (os := padded_shape (tshape t) padding).
  assert (Los : length os = length (tshape t)).
  { unfold os, padded_shape. rewrite map_length, combine_length. lia. }
  assert (Lb : length (map fst padding) = length (tshape t)) by (now rewrite map_length).
  change shape_size with nelem.
  rewrite pad_kernel_spec; auto; [|apply repeat_length|now apply plain_len].
  fold (tshape t). cbn [ub bind]. eexists. split; [reflexivity|].
  split; [apply from_shape_good; now rewrite map_length, seq_length|]. split; [reflexivity|].
  intros i Hi. rewrite elem_fresh by auto. rewrite unravel_ravel by auto.
  assert (Li : length i = length (tshape t)) by (rewrite (valid_length _ _ Hi); auto).
  destruct (pad_rows_spec m _ _ i Lb Li Hm) as [rs [E1 E2]]. unfold pad_value. rewrite E1.
  destruct (sequence rs) as [ys|].
  - assert (V := pad_source_valid _ _ _ _ _ Lb Li E2).
    split; [|split].
    + intros ys' H'.
      assert (ys' = ys).
      { apply list_ext. intros p.
        destruct H' as [L' H'], E2 as [L2 H2].
        destruct (Nat.lt_ge_cases p (length (tshape t))) as [Hlt|Hge].
        - assert (Q : forall B (l : list B), p < length l -> exists x, nth_error l p = Some x).
          { intros B l Hl. destruct (nth_error l p) eqn:E; eauto. apply nth_error_None in E. lia. }
          destruct (Q _ (tshape t) Hlt) as [n En]. destruct (Q _ (map fst padding) ltac:(lia)) as [b Eb].
          destruct (Q _ i ltac:(lia)) as [c Ec]. destruct (Q _ ys ltac:(lia)) as [y Ey].
          destruct (Q _ ys' ltac:(lia)) as [y' Ey']. rewrite Ey, Ey'. f_equal. apply Nat2Z.inj.
          exact (pad_src_inj _ _ _ _ _ (H' _ _ _ _ _ En Eb Ec Ey') (H2 _ _ _ _ _ En Eb Ec Ey)).
        - rewrite (proj2 (nth_error_None ys' p)) by lia. now rewrite (proj2 (nth_error_None ys p)) by lia. }
      subst ys'. rewrite (plain_elem _ t ys Hg Hp (valid_length _ _ V)). symmetry. apply nth_error_rd.
      eapply Nat.lt_le_trans; [now apply ravel_lt|]. now apply plain_len.
    + intros [_ N]. exfalso. eauto.
    + intros _. eauto.
  - destruct E2 as [-> N]. split; [|split].
    + intros ys H'. exfalso. eauto.
    + auto.
    + congruence.
Qed.
End Pad.
