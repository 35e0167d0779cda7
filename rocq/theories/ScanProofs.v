(** Proofs about the cumulative sum. *)
From Coq Require Import List Arith ZArith Lia Bool ZifyBool.
From Verif Require Import Base IndexSpec LayoutModel ViewSpec LayoutProofs BcastProofs.
From Verif Require Import KernelModel TensorModel TensorSpec KernelProofs TensorProofs.
From Verif Require Import ReduceModel ReduceSpec ReduceProofs ScanModel.
Import ListNotations.

(** ** Loops that fill a buffer with the values of a function of the position *)
Definition better {C} (h : nat -> C) (out out' : list C) : Prop :=
  length out' = length out /\
  forall p, nth_error out p = Some (h p) -> nth_error out' p = Some (h p).

Lemma better_refl : forall C (h : nat -> C) o, better h o o.
Proof. split; auto. Qed.
Lemma better_trans : forall C (h : nat -> C) a b c, better h a b -> better h b c -> better h a c.
Proof. intros C h a b c [H1 H2] [H3 H4]. split; [congruence|auto]. Qed.

Lemma store_better : forall C (h : nat -> C) out p v, p < length out -> v = h p ->
  exists out', c_store out p v = Some out' /\ better h out out' /\ nth_error out' p = Some (h p).
Proof.
  intros C h out p v Hp ->. unfold c_store. replace (p <? length out) with true by lia.
  eexists. split; [reflexivity|]. split; [split|].
  - apply upd_length.
  - intros q Hq. destruct (Nat.eq_dec q p) as [->|E].
    + now rewrite nth_error_upd_eq.
    + now rewrite nth_error_upd_neq by auto.
  - now rewrite nth_error_upd_eq.
Qed.

Lemma loopO_better : forall X C (h : nat -> C) n (P : X -> nat -> Prop) f l out,
  length out = n ->
  (forall x o, In x l -> length o = n -> exists o', f x o = Some o' /\ better h o o' /\
     forall p, P x p -> nth_error o' p = Some (h p)) ->
  exists out', loopO f l out = Some out' /\ better h out out' /\
    forall x p, In x l -> P x p -> nth_error out' p = Some (h p).
Proof.
  intros X C h n P f l. induction l as [|x l IH]; intros out Hl Hf.
  - exists out. split; [reflexivity|]. split; [apply better_refl|]. intros x p [].
  - destruct (Hf x out) as [o' [E [Hb HP]]]; [now left|auto|].
    destruct (IH o') as [o2 [E2 [Hb2 HP2]]].
    + destruct Hb; congruence.
    + intros; apply Hf; auto. now right.
    + exists o2. simpl. rewrite E. cbn [obind]. split; auto.
      split; [eapply better_trans; eauto|].
      intros y p [<-|Hy] Hp; [|eauto]. apply Hb2. auto.
Qed.

Lemma filled : forall C (h : nat -> C) n out, length out = n ->
  (forall p, p < n -> nth_error out p = Some (h p)) -> out = map h (seq 0 n).
Proof.
  intros C h n out Hl H. apply list_ext. intro p.
  destruct (Nat.lt_ge_cases p n).
  - rewrite H, nth_error_map_seq; auto.
  - rewrite !(proj2 (nth_error_None _ _)); auto; [rewrite map_length, seq_length|]; lia.
Qed.

(** ** Small facts *)
Lemma nelem_rev : forall s, nelem (rev s) = nelem s.
Proof.
  induction s as [|d s IH]; auto. simpl. rewrite nelem_app, IH, !nelem_cons.
  change (nelem []) with 1. lia.
Qed.
Lemma valid_rev : forall s i, valid s i -> valid (rev s) (rev i).
Proof.
  induction s as [|d s IH]; intros [|x i] H; simpl in *; try tauto. destruct H as [Hx H].
  apply valid_app; [|split; [auto|simpl; auto]].
  rewrite !rev_length. now apply valid_length.
Qed.
Lemma dot_rev : forall i s, length i = length s -> dot (rev i) (rev s) = dot i s.
Proof.
  induction i as [|x i IH]; intros [|y s] H; simpl in *; try discriminate; auto.
  rewrite dot_app by (rewrite !rev_length; lia). simpl. rewrite IH by lia. lia.
Qed.
Lemma split_nth : forall (s : list nat) d n, nth_error s d = Some n ->
  s = firstn d s ++ n :: skipn (S d) s /\ length (firstn d s) = d.
Proof.
  induction s as [|x s IH]; intros [|d] n H; simpl in *; try discriminate.
  - injection H as ->. auto.
  - destruct (IH _ _ H) as [E L]. split; [f_equal; auto|f_equal; auto].
Qed.
Lemma upd_mid : forall A (a : list A) x b y, upd (a ++ x :: b) (length a) y = a ++ y :: b.
Proof. induction a as [|z a IH]; intros x b y; simpl; auto. f_equal. auto. Qed.
Lemma nth_mid : forall A (a : list A) x b z, nth (length a) (a ++ x :: b) z = x.
Proof. induction a as [|w a IH]; intros; simpl; auto. Qed.

Section S.
Variables (A B C : Type) (init : B) (add : B -> A -> B) (fin : B -> C) (d0 : A).

Definition sidx (s1 s2 : list nat) (o k q : nat) : list nat :=
  rev (unravel (rev s1) o) ++ k :: unravel s2 q.

Lemma sidx_valid : forall s1 n s2 o k q, o < nelem s1 -> q < nelem s2 -> k < n ->
  valid (s1 ++ n :: s2) (sidx s1 s2 o k q).
Proof.
  intros s1 n s2 o k q Ho Hq Hk. unfold sidx.
  apply valid_app; [rewrite rev_length, unravel_length, rev_length; auto|]. split.
  - rewrite <- (rev_involutive s1) at 1. apply valid_rev. apply unravel_valid. now rewrite nelem_rev.
  - split; auto. now apply unravel_valid.
Qed.

Lemma scan_pos_spec : forall s1 n s2 t1 u t2 d o q k,
  length s1 = d -> length t1 = d -> length t2 = length s2 -> o < nelem s1 -> q < nelem s2 ->
  scan_pos (s1 ++ n :: s2) (t1 ++ u :: t2) d o q k = Some (dot (sidx s1 s2 o k q) (t1 ++ u :: t2)).
Proof.
  intros s1 n s2 t1 u t2 d o q k L1 L2 L3 Ho Hq. unfold scan_pos.
  assert (F1 : firstn d (s1 ++ n :: s2) = s1).
  { subst d. rewrite firstn_app, Nat.sub_diag, firstn_all. simpl. now rewrite app_nil_r. }
  assert (F2 : firstn d (t1 ++ u :: t2) = t1).
  { rewrite <- L2. rewrite firstn_app, Nat.sub_diag, firstn_all. simpl. now rewrite app_nil_r. }
  assert (K1 : skipn (S d) (s1 ++ n :: s2) = s2).
  { rewrite skipn_app, skipn_all2 by lia. replace (S d - length s1) with 1 by lia. reflexivity. }
  assert (K2 : skipn (S d) (t1 ++ u :: t2) = t2).
  { rewrite skipn_app, skipn_all2 by lia. replace (S d - length t1) with 1 by lia. reflexivity. }
  rewrite F1, F2, K1, K2. rewrite nth_error_app_at by auto.
  rewrite c_strided_walk_spec; [|lia|apply nelem_pos; lia]. cbn [obind].
  rewrite rev_combine by lia. rewrite c_strided_walk_spec;
    [|rewrite !rev_length; lia|apply nelem_pos; rewrite nelem_rev; lia]. cbn [obind].
  rewrite !rev_involutive, nelem_rev, !Nat.mod_small by auto.
  f_equal. unfold sidx. rewrite dot_app by (rewrite rev_length, unravel_length, rev_length; lia).
  cbn [dot]. rewrite <- (dot_rev (rev _) t1) by (rewrite rev_length, unravel_length, rev_length; lia).
  rewrite rev_involutive. lia.
Qed.

(** the value of the cumulative sum at index [i] *)
Definition prefix (input : list A) (off : nat) (st : list nat) (d : nat) (i : list nat) (m : nat) : B :=
  fold_left add (map (fun k => rd d0 input (off + dot (upd i d k) st)) (seq 0 m)) init.

Lemma cumsum_kernel_spec : forall (copy : A -> C) input out l d n,
  wf_layout l -> in_bounds (length input) l -> length (lshape l) <= 16 ->
  nth_error (lshape l) d = Some n -> length out = nelem (lshape l) ->
  cumsum_kernel init add fin input out copy (scan_metadata l d) =
  Some (map (fun p => let i := unravel (lshape l) p in
             fin (prefix input (loffset l) (lstrides l) d i (S (nth d i 0)))) (seq 0 (nelem (lshape l)))).
Proof.
  intros copy input out l d n Hw Hb HR Hn Ho.
  set (s := lshape l) in *. set (st := lstrides l) in *. set (off := loffset l).
  assert (Ld : d < length s) by (apply nth_error_Some; congruence).
  unfold cumsum_kernel, scan_metadata. fold s st off.
  set (nd := length s).
  assert (LS : length st = nd) by exact Hw.
  assert (E1 : forall X, md_slice ([layout_size l; nd] ++ s ++ st ++ X) 2 nd = Some s).
  { intros X. apply (md_slice_app [layout_size l; nd] s); reflexivity. }
  assert (E2 : forall X, md_slice ([layout_size l; nd] ++ s ++ st ++ X) (2 + nd) nd = Some st).
  { intros X. rewrite (app_assoc _ s). apply md_slice_app; auto. }
  assert (E3 : nth_error ([layout_size l; nd] ++ s ++ st ++ [off; d]) (2 + 2 * nd) = Some off).
  { replace ([layout_size l; nd] ++ s ++ st ++ [off; d]) with
      (([layout_size l; nd] ++ s ++ st) ++ off :: [d]) by (rewrite <- !app_assoc; reflexivity).
    apply nth_error_app_at. rewrite !app_length. simpl. fold nd. lia. }
  assert (E4 : nth_error ([layout_size l; nd] ++ s ++ st ++ [off; d]) (3 + 2 * nd) = Some d).
  { replace ([layout_size l; nd] ++ s ++ st ++ [off; d]) with
      ((([layout_size l; nd] ++ s ++ st) ++ [off]) ++ [d]) by (rewrite <- !app_assoc; reflexivity).
    apply nth_error_app_at. rewrite !app_length. simpl. fold nd. lia. }
  cbn [nth_error app obind] in *. rewrite E1, E2. cbn [obind]. rewrite E3, E4. cbn [obind].
  replace (nd =? 0) with false by (unfold nd; lia).
  replace ((16 <? nd) || (nd <=? d)) with false by (unfold nd; lia).
  rewrite Hn. cbn [obind].
  destruct (split_nth s d n Hn) as [Es L1].
  set (s1 := firstn d s) in *. set (s2 := skipn (S d) s) in *.
  destruct (nth_error st d) as [u|] eqn:Hu; [|apply nth_error_None in Hu; unfold nd in LS; lia].
  destruct (split_nth st d u Hu) as [Et L2].
  set (t1 := firstn d st) in *. set (t2 := skipn (S d) st) in *.
  assert (L3 : length t2 = length s2).
  { unfold t2, s2. rewrite !skipn_length. unfold nd in LS. lia. }
  set (cs := compute_strides s).
  assert (LC : length cs = nd) by apply compute_strides_length.
  destruct (nth_error cs d) as [v|] eqn:Hv; [|apply nth_error_None in Hv; unfold nd in LC; lia].
  destruct (split_nth cs d v Hv) as [Ec L4].
  set (c1 := firstn d cs) in *. set (c2 := skipn (S d) cs) in *.
  assert (L5 : length c2 = length s2).
  { unfold c2, s2. rewrite !skipn_length. unfold nd in LC. lia. }
  set (h := fun p => let i := unravel s p in fin (prefix input off st d i (S (nth d i 0)))).
  change shape_size with nelem.
  assert (PI : forall o q k, o < nelem s1 -> q < nelem s2 -> k < n ->
     scan_pos s st d o q k = Some (dot (sidx s1 s2 o k q) st)).
  { intros. rewrite Es, Et. apply scan_pos_spec; auto. }
  assert (PO : forall o q k, o < nelem s1 -> q < nelem s2 -> k < n ->
     scan_pos s cs d o q k = Some (ravel s (sidx s1 s2 o k q))).
  { intros. rewrite Es at 1. rewrite Ec, scan_pos_spec, <- Ec by auto. f_equal.
    unfold cs. apply dot_compute_strides. rewrite Es.
    unfold sidx. rewrite !app_length, rev_length, unravel_length, rev_length. simpl. rewrite unravel_length. lia. }
  assert (PV : forall o q k, o < nelem s1 -> q < nelem s2 -> k < n -> valid s (sidx s1 s2 o k q)).
  { intros. rewrite Es at 1. now apply sidx_valid. }
  assert (Lp : forall o (k q : nat), length (rev (unravel (rev s1) o)) = d).
  { intros. now rewrite rev_length, unravel_length, rev_length. }
  assert (PU : forall o q k k', upd (sidx s1 s2 o k q) d k' = sidx s1 s2 o k' q).
  { intros. unfold sidx. rewrite <- (Lp o k q) at 1. apply upd_mid. }
  assert (PN : forall o q k, nth d (sidx s1 s2 o k q) 0 = k).
  { intros. unfold sidx. rewrite <- (Lp o k q) at 1. apply nth_mid. }
  (* the innermost loop *)
  assert (IN : forall o q, o < nelem s1 -> q < nelem s2 -> forall m k out0, k + m <= n -> length out0 = nelem s ->
    exists acc out', loopO (fun s0 (p : B * list C) =>
          obind (scan_pos s st d o q s0) (fun in_idx =>
          obind (scan_pos s cs d o q s0) (fun out_idx =>
          obind (nth_error input (off + in_idx)) (fun x =>
          obind (c_store (snd p) out_idx (fin (add (fst p) x))) (fun out' =>
          Some (add (fst p) x, out')))))) (seq k m) (prefix input off st d (sidx s1 s2 o 0 q) k, out0) = Some (acc, out')
      /\ better h out0 out' /\
      forall k', k <= k' < k + m -> nth_error out' (ravel s (sidx s1 s2 o k' q)) = Some (h (ravel s (sidx s1 s2 o k' q)))).
  { intros o q Hoo Hq. induction m as [|m IH]; intros k out0 Hk Hl.
    - do 2 eexists. split; [reflexivity|]. split; [apply better_refl|]. intros; lia.
    - cbn [seq loopO]. rewrite PI, PO by (auto; lia). cbn [obind fst snd].
      pose proof (PV o q k Hoo Hq ltac:(lia)) as V.
      assert (Hbk : off + dot (sidx s1 s2 o k q) st < length input) by (apply (Hb _ V)).
      rewrite (nth_error_rd A d0 input _ Hbk). cbn [obind].
      assert (EQ : add (prefix input off st d (sidx s1 s2 o 0 q) k) (rd d0 input (off + dot (sidx s1 s2 o k q) st))
                   = prefix input off st d (sidx s1 s2 o 0 q) (S k)).
      { unfold prefix. rewrite seq_S, map_app, fold_left_app. cbn [map fold_left plus]. now rewrite PU. }
      rewrite EQ.
      destruct (store_better C h out0 (ravel s (sidx s1 s2 o k q))
                 (fin (prefix input off st d (sidx s1 s2 o 0 q) (S k)))) as [o1 [Es1 [Hb1 Hp1]]].
      { rewrite Hl. now apply ravel_lt. }
      { unfold h. rewrite unravel_ravel by auto. cbn zeta. rewrite PN. unfold prefix. do 2 f_equal.
        apply map_ext. intro k'. now rewrite !PU. }
      rewrite Es1. cbn [obind].
      destruct (IH (S k) o1) as [acc [o2 [E [Hb2 Hp2]]]]; [lia|destruct Hb1; congruence|].
      exists acc, o2. split; [exact E|]. split; [eapply better_trans; eauto|].
      intros k' Hk'. destruct (Nat.eq_dec k' k) as [->|]; [apply Hb2; auto|apply Hp2; lia]. }
  destruct (loopO_better nat C h (nelem s)
    (fun o p => exists q k, q < nelem s2 /\ k < n /\ p = ravel s (sidx s1 s2 o k q))
    (fun outer out => loopO (fun inner out =>
        obind (loopO (fun s0 (p : B * list C) =>
          obind (scan_pos s st d outer inner s0) (fun in_idx =>
          obind (scan_pos s cs d outer inner s0) (fun out_idx =>
          obind (nth_error input (off + in_idx)) (fun x =>
          obind (c_store (snd p) out_idx (fin (add (fst p) x))) (fun out' =>
          Some (add (fst p) x, out')))))) (seq 0 n) (init, out))
        (fun p => Some (snd p))) (seq 0 (nelem s2)) out)
    (seq 0 (nelem s1)) out) as [out' [E [[Hlen _] Hall]]]; auto.
  { intros o o0 Hin Hl. apply in_seq in Hin.
    destruct (loopO_better nat C h (nelem s)
      (fun q p => exists k, k < n /\ p = ravel s (sidx s1 s2 o k q))
      (fun inner out =>
        obind (loopO (fun s0 (p : B * list C) =>
          obind (scan_pos s st d o inner s0) (fun in_idx =>
          obind (scan_pos s cs d o inner s0) (fun out_idx =>
          obind (nth_error input (off + in_idx)) (fun x =>
          obind (c_store (snd p) out_idx (fin (add (fst p) x))) (fun out' =>
          Some (add (fst p) x, out')))))) (seq 0 n) (init, out))
        (fun p => Some (snd p))) (seq 0 (nelem s2)) o0) as [o' [E [Hbb Hp]]]; auto.
    - intros q o1 Hq Hl1. apply in_seq in Hq.
      destruct (IN o q ltac:(lia) ltac:(lia) n 0 o1 ltac:(lia) Hl1) as [acc [o2 [E [Hb2 Hp2]]]].
      exists o2. change (prefix input off st d (sidx s1 s2 o 0 q) 0) with init in E.
      rewrite E. split; [reflexivity|]. split; auto.
      intros p [k [Hk ->]]. apply Hp2. lia.
    - exists o'. split; auto. split; auto. intros p [q [k [Hq [Hk ->]]]].
      apply (Hp q); [apply in_seq; lia|]. eauto. }
  refine (eq_trans E _). f_equal. apply filled; [congruence|].
  intros p Hp.
  pose proof (unravel_valid s p Hp) as V. set (i := unravel s p) in *.
  destruct (nth_error i d) as [k|] eqn:Hk;
    [|apply nth_error_None in Hk; rewrite (valid_length _ _ V) in Hk; lia].
  destruct (split_nth i d k Hk) as [Ei Li].
  set (i1 := firstn d i) in *. set (i2 := skipn (S d) i) in *.
  assert (V' : valid (s1 ++ n :: s2) (i1 ++ k :: i2)) by (rewrite <- Es, <- Ei; exact V).
  apply valid_app in V'; [|congruence]. destruct V' as [V1 [Hkn V2]].
  apply (Hall (ravel (rev s1) (rev i1))).
  - apply in_seq. split; [lia|]. rewrite <- nelem_rev. apply ravel_lt. now apply valid_rev.
  - exists (ravel s2 i2), k. split; [now apply ravel_lt|]. split; [auto|].
    unfold sidx. rewrite !unravel_ravel by (auto using valid_rev).
    rewrite rev_involutive, <- Ei. unfold i. now rewrite ravel_unravel.
Qed.
End S.

Lemma axis_usize : forall n a, axis_ok n a ->
  (if (a <? 0)%Z then as_usize (Z.of_nat n + a) else as_usize a) = Some (axis_of n a) /\ axis_of n a < n.
Proof.
  intros n a H. unfold axis_ok in H. unfold axis_of, as_usize. destruct (a <? 0)%Z eqn:E.
  - replace (Z.of_nat n + a <? 0)%Z with false by lia. split; [f_equal; f_equal; lia|lia].
  - split; [reflexivity|lia].
Qed.

Lemma t_cumsum_spec : forall A B C (init : B) add (fin : B -> C) (copy : A -> C) z (d0 : A) (t : tensor A) a,
  good t -> length (tshape t) <= 16 -> axis_ok (length (tshape t)) a ->
  exists r, t_cumsum init add fin copy z t a = Ok r /\ good r /\ tlay r = from_shape (tshape t) /\
    forall i, valid (tshape t) i -> exists vs,
      length vs = S (nth (axis_of (length (tshape t)) a) i 0) /\
      (forall k v, nth_error vs k = Some v -> elem t (upd i (axis_of (length (tshape t)) a) k) = Some v) /\
      elem r i = Some (fin (fold_left add vs init)).
Proof.
  intros A B C init add fin copy z d0 t a Hg HR Ha.
  destruct (axis_usize _ _ Ha) as [Ea Hd]. unfold t_cumsum.
  change (lshape (tlay t)) with (tshape t). rewrite Ea. clear Ea Ha.
  set (d := axis_of (length (tshape t)) a) in *. clearbody d.
  destruct (nth_error (tshape t) d) as [n|] eqn:Hn; [|apply nth_error_None in Hn; lia].
  rewrite (cumsum_kernel_spec A B C init add fin d0 copy _ _ (tlay t) d n);
    [|apply Hg|apply Hg|exact HR|exact Hn|apply repeat_length].
  cbn [ub bind]. eexists. split; [reflexivity|]. split; [|split; [reflexivity|]].
  { apply from_shape_good. rewrite map_length, seq_length. reflexivity. }
  intros i Hi.
  exists (map (fun k => rd d0 (tstore t) (loffset (tlay t) + dot (upd i d k) (lstrides (tlay t))))
              (seq 0 (S (nth d i 0)))).
  split; [now rewrite map_length, seq_length|]. split.
  - intros k v Hk.
    assert (HK : k < S (nth d i 0)).
    { rewrite <- (seq_length (S (nth d i 0)) 0), <- (map_length (fun k => rd d0 (tstore t) (loffset (tlay t) + dot (upd i d k) (lstrides (tlay t))))).
      apply nth_error_Some. congruence. }
    rewrite nth_error_map_seq in Hk by auto. injection Hk as <-.
    apply elem_rd; auto. apply valid_nth in Hi. destruct Hi as [Li Hi]. apply valid_nth.
    rewrite upd_length. split; auto. intros q x e Hx He.
    destruct (Nat.eq_dec q d) as [->|Hq].
    + rewrite nth_error_upd_eq in Hx by lia. injection Hx as <-.
      assert (nth d i 0 < e).
      { apply (Hi d); auto. apply nth_error_nth'. lia. }
      lia.
    + rewrite nth_error_upd_neq in Hx by auto. eauto.
  - unfold tshape in *. rewrite elem_fresh by auto. cbn zeta. rewrite unravel_ravel by auto. reflexivity.
Qed.

(** exact addition: neighbouring outputs differ by the input *)
Lemma cumsum_diff : forall (t r : tensor Z) d i vs vs' x x0 y k,
  (forall k v, nth_error vs k = Some v -> elem t (upd i d k) = Some v) ->
  (forall k v, nth_error vs' k = Some v -> elem t (upd (upd i d k) d k) = Some v \/ elem t (upd i d k) = Some v) ->
  length vs = S (S k) -> length vs' = S k -> elem t (upd i d (S k)) = Some y ->
  x = fold_left Z.add vs 0%Z -> x0 = fold_left Z.add vs' 0%Z ->
  (x - x0)%Z = y.
Proof.
  intros t r d i vs vs' x x0 y k H1 H2 L1 L2 Ey -> ->.
  assert (E : vs = vs' ++ [y]).
  { apply list_ext. intro p. destruct (Nat.lt_trichotomy p (S k)) as [Hp|[->|Hp]].
    - rewrite nth_error_app1 by lia.
      destruct (nth_error vs p) as [a|] eqn:Ea; [|apply nth_error_None in Ea; lia].
      destruct (nth_error vs' p) as [b|] eqn:Eb; [|apply nth_error_None in Eb; lia].
      apply H1 in Ea. destruct (H2 _ _ Eb) as [G|G]; [rewrite upd_upd in G|]; congruence.
    - rewrite nth_error_app2 by lia. rewrite L2, Nat.sub_diag. change (nth_error [y] 0) with (Some y).
      destruct (nth_error vs (S k)) as [a|] eqn:Ea; [|apply nth_error_None in Ea; lia].
      apply H1 in Ea. congruence.
    - rewrite !(proj2 (nth_error_None _ _)); auto; [rewrite app_length; simpl; lia|lia]. }
  rewrite E, fold_left_app. simpl. lia.
Qed.
