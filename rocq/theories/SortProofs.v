(** Proofs about top-k selection. *)
From Coq Require Import List Arith ZArith Lia Bool ZifyBool Permutation Sorted.
From Verif Require Import Base IndexSpec LayoutModel ViewSpec LayoutProofs.
From Verif Require Import KernelModel TensorModel TensorSpec KernelProofs TensorProofs ScanModel ScanProofs.
From Verif Require Import MoveModel MoveProofs2 MoveProofs3 SortModel PermFacts.
Import ListNotations.

Section Q.
Variables (E : Type).

(** [seg l r arr arr']: same multiset, unchanged outside, and what is inside was
    inside *)
Definition seg (l r : nat) (arr arr' : list E) : Prop :=
  Permutation arr arr' /\ length arr' = length arr /\
  (forall i, i < l \/ r < i -> nth_error arr' i = nth_error arr i) /\
  (forall i e, l <= i <= r -> nth_error arr' i = Some e -> exists i0, l <= i0 <= r /\ nth_error arr i0 = Some e).

Lemma seg_refl : forall l r arr, seg l r arr arr.
Proof. intros. repeat split; auto. intros i e H1 H2. eauto. Qed.
Lemma seg_trans : forall l r a b c, seg l r a b -> seg l r b c -> seg l r a c.
Proof.
  intros l r a b c [P1 [L1 [O1 I1]]] [P2 [L2 [O2 I2]]]. repeat split.
  - eapply Permutation_trans; eauto.
  - congruence.
  - intros i H. rewrite O2, O1; auto.
  - intros i e H1 H2. destruct (I2 i e H1 H2) as [i0 [H3 H4]]. eauto.
Qed.
Lemma seg_wider : forall l r l' r' a b, l' <= l -> r <= r' -> seg l r a b -> seg l' r' a b.
Proof.
  intros l r l' r' a b Hl Hr [P [L [O I]]]. repeat split; auto.
  - intros i H. apply O. lia.
  - intros i e H1 H2. destruct (Nat.lt_ge_cases i l) as [X|X].
    + exists i. split; auto. rewrite <- O; auto.
    + destruct (Nat.lt_ge_cases r i) as [Y|Y].
      * exists i. split; auto. rewrite <- O; auto.
      * destruct (I i e ltac:(lia) H2) as [i0 [H3 H4]]. exists i0. split; auto. lia.
Qed.

Lemma swap_seg : forall arr i j l r a b, l <= i <= r -> l <= j <= r ->
  nth_error arr i = Some a -> nth_error arr j = Some b ->
  c_swap arr i j = Some (upd (upd arr i b) j a) /\ seg l r arr (upd (upd arr i b) j a).
Proof.
  intros arr i j l r a b Hi Hj Ha Hb. unfold c_swap. rewrite Ha, Hb. cbn [obind]. split; auto.
  assert (Li : i < length arr) by (apply nth_error_Some; congruence).
  assert (Lj : j < length arr) by (apply nth_error_Some; congruence).
  repeat split.
  - now apply exchange_perm.
  - now rewrite !upd_length.
  - intros k Hk. rewrite !nth_error_upd_neq by lia. auto.
  - intros k e Hk He. destruct (Nat.eq_dec k j) as [->|Kj].
    + rewrite nth_error_upd_eq in He by (now rewrite upd_length). exists i. split; [lia|congruence].
    + rewrite nth_error_upd_neq in He by auto. destruct (Nat.eq_dec k i) as [->|Ki].
      * rewrite nth_error_upd_eq in He by auto. exists j. split; [lia|congruence].
      * rewrite nth_error_upd_neq in He by auto. eauto.
Qed.
End Q.

Section Sel.
Variables (A K : Type) (gt : K -> K -> bool).
Hypothesis gt_asym : forall a b, gt a b = true -> gt b a = false.
Hypothesis gt_neg : forall a b c, gt a b = false -> gt b c = false -> gt a c = false.
Notation E := (K * nat)%type.
Notation bet := (better gt).

Lemma better_asym : forall lg (a b : E), bet lg a b = true -> bet lg b a = false.
Proof. intros [] a b; unfold better; apply gt_asym. Qed.
Lemma better_neg : forall lg (a b c : E), bet lg a b = false -> bet lg b c = false -> bet lg a c = false.
Proof. intros [] a b c; unfold better; intros H1 H2; eapply gt_neg; eauto. Qed.
Lemma better_irr : forall lg (a : E), bet lg a a = false.
Proof. intros lg a. destruct (bet lg a a) eqn:X; auto. pose proof (better_asym _ _ _ X). congruence. Qed.

Lemma part_loop_spec : forall lg pv left right n j i (arr : list E),
  left <= i <= j -> j + n = right -> right < length arr -> nth_error arr right = Some pv ->
  (forall q e, left <= q < i -> nth_error arr q = Some e -> bet lg e pv = true) ->
  (forall q e, i <= q < j -> nth_error arr q = Some e -> bet lg e pv = false) ->
  exists p arr', part_loop gt lg pv (seq j n) i arr = Some (p, arr') /\
    left <= p <= right /\ seg E left (right - 1) arr arr' /\ nth_error arr' right = Some pv /\
    (forall q e, left <= q < p -> nth_error arr' q = Some e -> bet lg e pv = true) /\
    (forall q e, p <= q < right -> nth_error arr' q = Some e -> bet lg e pv = false).
Proof.
  intros lg pv left right. induction n as [|n IH]; intros j i arr Hi Hj HL Hp H1 H2.
  - cbn [seq part_loop]. exists i, arr. split; auto. split; [lia|]. split; [apply seg_refl|]. split; auto. split; auto.
    intros q e Hq. apply H2. lia.
  - cbn [seq part_loop].
    destruct (nth_error arr j) as [x|] eqn:Ex; [|apply nth_error_None in Ex; lia]. cbn [obind].
    destruct (bet lg x pv) eqn:B.
    + destruct (nth_error arr i) as [y|] eqn:Ey; [|apply nth_error_None in Ey; lia].
      destruct (swap_seg E arr i j left (right - 1) y x) as [S1 S2]; auto; try lia.
      rewrite S1. cbn [obind].
      set (arr1 := upd (upd arr i x) j y) in *.
      assert (Ai : nth_error arr1 i = Some x).
      { unfold arr1. destruct (Nat.eq_dec i j) as [->|D].
        - rewrite nth_error_upd_eq by (rewrite upd_length; lia). congruence.
        - rewrite nth_error_upd_neq by auto. apply nth_error_upd_eq. lia. }
      assert (Aj : nth_error arr1 j = Some y) by (apply nth_error_upd_eq; rewrite upd_length; lia).
      assert (Ao : forall q, q <> i -> q <> j -> nth_error arr1 q = nth_error arr q).
      { intros q Q1 Q2. unfold arr1. now rewrite !nth_error_upd_neq by auto. }
      destruct (IH (S j) (S i) arr1) as [p [arr' [R1 [R2 [R3 [R4 [R5 R6]]]]]]]; try lia.
      * unfold arr1. rewrite !upd_length. lia.
      * rewrite Ao by lia. auto.
      * intros q e Hq He. destruct (Nat.eq_dec q i) as [->|Q].
        -- congruence.
        -- rewrite Ao in He by lia. apply (H1 q); auto. lia.
      * intros q e Hq He. destruct (Nat.eq_dec q j) as [->|Q].
        -- rewrite Aj in He. injection He as <-. apply (H2 i); auto. lia.
        -- rewrite Ao in He by lia. apply (H2 q); auto. lia.
      * exists p, arr'. split; auto. split; [lia|]. split; [eapply seg_trans; eauto|]. auto.
    + destruct (IH (S j) i arr) as [p [arr' R]]; auto; try lia.
      * intros q e Hq He. destruct (Nat.eq_dec q j) as [->|Q]; [congruence|]. apply (H2 q); auto. lia.
      * exists p, arr'. exact R.
Qed.

Lemma partition_spec : forall lg (arr : list E) left right, left <= right -> right < length arr ->
  exists p arr' pv, partition gt lg arr left right = Some (p, arr') /\
    left <= p <= right /\ seg E left right arr arr' /\ nth_error arr' p = Some pv /\
    (forall q e, left <= q < p -> nth_error arr' q = Some e -> bet lg e pv = true) /\
    (forall q e, p < q <= right -> nth_error arr' q = Some e -> bet lg e pv = false).
Proof.
  intros lg arr left right H1 H2. unfold partition.
  destruct (nth_error arr right) as [pv|] eqn:Ep; [|apply nth_error_None in Ep; lia]. cbn [obind].
  destruct (part_loop_spec lg pv left right (right - left) left left arr) as [p [arr1 [R1 [R2 [R3 [R4 [R5 R6]]]]]]];
    auto; try lia.
  rewrite R1. cbn [obind fst snd].
  assert (L1 : length arr1 = length arr) by apply R3.
  destruct (nth_error arr1 p) as [x|] eqn:Ex; [|apply nth_error_None in Ex; lia].
  destruct (swap_seg E arr1 p right left right x pv) as [S1 S2]; auto; try lia.
  rewrite S1. cbn [obind]. exists p, (upd (upd arr1 p pv) right x), pv. split; auto. split; [lia|]. split.
  { eapply seg_trans; [|eauto]. eapply seg_wider; [| |exact R3]; lia. }
  assert (Ap : nth_error (upd (upd arr1 p pv) right x) p = Some pv).
  { destruct (Nat.eq_dec p right) as [->|D].
    - rewrite nth_error_upd_eq by (rewrite upd_length; lia). congruence.
    - rewrite nth_error_upd_neq by auto. apply nth_error_upd_eq. lia. }
  split; auto. split.
  - intros q e Hq He. rewrite !nth_error_upd_neq in He by lia. eauto.
  - intros q e Hq He. destruct (Nat.eq_dec q right) as [->|D].
    + rewrite nth_error_upd_eq in He by (rewrite upd_length; lia). injection He as <-. apply (R6 p); auto. lia.
    + rewrite !nth_error_upd_neq in He by lia. apply (R6 q); auto. lia.
Qed.

(** elements before [a] are at least as good as those from [b] on *)
Definition parted (lg : bool) (a b : nat) (arr : list E) : Prop :=
  forall i j x y, i < a -> b <= j -> nth_error arr i = Some x -> nth_error arr j = Some y -> bet lg y x = false.

Lemma quickselect_spec : forall lg k fuel left right (arr : list E),
  0 < k -> left <= k - 1 <= right -> right < length arr -> right - left < fuel ->
  parted lg left left arr -> parted lg (S right) (S right) arr ->
  exists arr', quickselect_loop gt fuel lg k left right arr = Some arr' /\
    Permutation arr arr' /\ length arr' = length arr /\ parted lg k k arr'.
Proof.
  intros lg k. induction fuel as [|fuel IH]; intros left right arr Hk Hb HL Hf P1 P2; [lia|].
  cbn [quickselect_loop]. destruct (left <? right) eqn:LR.
  - destruct (partition_spec lg arr left right) as [p [arr1 [pv [R1 [R2 [R3 [R4 [R5 R6]]]]]]]]; try lia.
    rewrite R1. cbn [obind fst snd]. destruct R3 as [S1 [S2 [S3 S4]]].
    (* the outer bounds survive *)
    assert (Q1 : parted lg left left arr1).
    { intros i j x y Hi Hj Hx Hy. rewrite S3 in Hx by lia. destruct (Nat.le_gt_cases j right) as [J|J].
      - destruct (S4 j y ltac:(lia) Hy) as [j0 [J1 J2]]. apply (P1 i j0); auto; lia.
      - rewrite S3 in Hy by lia. apply (P1 i j); auto. }
    assert (Q2 : parted lg (S right) (S right) arr1).
    { intros i j x y Hi Hj Hx Hy. rewrite S3 in Hy by lia. destruct (Nat.le_gt_cases left i) as [J|J].
      - destruct (S4 i x ltac:(lia) Hx) as [i0 [J1 J2]]. apply (P2 i0 j); auto; lia.
      - rewrite S3 in Hx by lia. apply (P2 i j); auto. }
    (* around the pivot *)
    assert (Q3 : forall i x, i < p -> nth_error arr1 i = Some x -> bet lg pv x = false).
    { intros i x Hi Hx. destruct (Nat.le_gt_cases left i) as [J|J].
      - apply better_asym. apply (R5 i); auto.
      - apply (Q1 i p); auto; lia. }
    assert (Q4 : forall j y, p < j -> nth_error arr1 j = Some y -> bet lg y pv = false).
    { intros j y Hj Hy. destruct (Nat.le_gt_cases j right) as [J|J].
      - apply (R6 j); auto.
      - apply (Q2 p j); auto; lia. }
    assert (Q5 : parted lg p p arr1).
    { intros i j x y Hi Hj Hx Hy. destruct (Nat.eq_dec j p) as [->|D].
      - rewrite R4 in Hy. injection Hy as <-. eauto.
      - apply better_neg with pv; [apply (Q4 j); auto; lia|eauto]. }
    assert (Q6 : parted lg (S p) (S p) arr1).
    { intros i j x y Hi Hj Hx Hy. destruct (Nat.eq_dec i p) as [->|D].
      - rewrite R4 in Hx. injection Hx as <-. apply (Q4 j); auto.
      - apply better_neg with pv; [apply (Q4 j); auto|apply (Q3 i); auto; lia]. }
    destruct (p =? k - 1) eqn:PK.
    + exists arr1. repeat split; auto. replace k with (S p) by lia. auto.
    + destruct (p <? k - 1) eqn:PK2.
      * destruct (IH (p + 1) right arr1) as [arr' [T1 [T2 [T3 T4]]]]; auto; try lia.
        { rewrite Nat.add_1_r. auto. }
        exists arr'. repeat split; auto; try congruence. eapply Permutation_trans; eauto.
      * replace (p =? 0) with false by lia.
        destruct (IH left (p - 1) arr1) as [arr' [T1 [T2 [T3 T4]]]]; auto; try lia.
        { replace (S (p - 1)) with p by lia. auto. }
        exists arr'. repeat split; auto; try congruence. eapply Permutation_trans; eauto.
  - assert (left = k - 1) by lia. assert (right = k - 1) by lia. exists arr. repeat split; auto.
    replace k with (S right) by lia. auto.
Qed.

(** What the C standard promises about [qsort] for a consistent comparison. *)
Definition qsort_ok (qsort : (E -> E -> bool) -> list E -> list E) : Prop :=
  forall bf l, (forall a b, bf a b = true -> bf b a = false) ->
    (forall a b c, bf a b = false -> bf b c = false -> bf a c = false) ->
    Permutation l (qsort bf l) /\ StronglySorted (fun a b => bf b a = false) (qsort bf l).

Lemma sorted_nth : forall T (R : T -> T -> Prop) l, StronglySorted R l ->
  forall i j x y, i < j -> nth_error l i = Some x -> nth_error l j = Some y -> R x y.
Proof.
  induction 1 as [|a l S IH F]; intros i j x y Hij Hx Hy; [destruct i; discriminate|].
  destruct j as [|j]; [lia|]. cbn [nth_error] in Hy. destruct i as [|i].
  - injection Hx as <-. rewrite Forall_forall in F. apply F. eapply nth_error_In; eauto.
  - cbn [nth_error] in Hx. apply (IH i j); auto. lia.
Qed.

Lemma topk_select_spec : forall qsort lg st (arr : list E) k, qsort_ok qsort -> k <= length arr ->
  exists arr', topk_select gt qsort lg st arr (length arr) k = Some arr' /\
    Permutation arr arr' /\ parted lg k k arr' /\
    (st = true -> forall i j x y, i < j < k -> nth_error arr' i = Some x -> nth_error arr' j = Some y -> bet lg y x = false).
Proof.
  intros qsort lg st arr k Hq Hk. unfold topk_select. destruct (length arr <=? k) eqn:C.
  - destruct (Hq (bet lg) arr) as [P S]; [apply better_asym|apply better_neg|].
    exists (qsort (bet lg) arr). repeat split; auto.
    + intros i j x y Hi Hj Hx Hy. apply Permutation_length in P. assert (j < length (qsort (bet lg) arr)) by (apply nth_error_Some; congruence). lia.
    + intros _ i j x y Hij. apply (sorted_nth _ _ _ S). lia.
  - assert (Q : exists arr', quickselect_k gt lg arr (length arr) k = Some arr' /\
       Permutation arr arr' /\ length arr' = length arr /\ parted lg k k arr').
    { unfold quickselect_k. destruct ((length arr <=? 1) || (k =? 0)) eqn:C2.
      - assert (k = 0) by lia. subst k. exists arr. repeat split; auto. intros i j x y Hi. lia.
      - apply quickselect_spec; try lia.
        + intros i j x y Hi. lia.
        + intros i j x y Hi Hj Hx Hy. assert (j < length arr) by (apply nth_error_Some; congruence). lia. }
    destruct Q as [arr' [Q1 [Q2 [Q3 Q4]]]]. rewrite Q1. cbn [obind]. destruct st.
    + destruct (Hq (bet lg) (firstn k arr')) as [P S]; [apply better_asym|apply better_neg|].
      set (h := qsort (bet lg) (firstn k arr')) in *.
      assert (Lh : length h = k). { rewrite <- (Permutation_length P), firstn_length. lia. }
      eexists. split; [reflexivity|]. split; [|split].
      * rewrite Q2. rewrite <- (firstn_skipn k arr') at 1. now apply Permutation_app_tail.
      * intros i j x y Hi Hj Hx Hy. rewrite nth_error_app1 in Hx by lia. rewrite nth_error_app2 in Hy by lia.
        assert (In x (firstn k arr')) as Hin.
        { apply Permutation_in with h; [now symmetry|]. eapply nth_error_In; eauto. }
        apply In_nth_error in Hin. destruct Hin as [i0 Hi0].
        assert (I0 : i0 < length (firstn k arr')) by (apply nth_error_Some; congruence).
        rewrite firstn_length in I0.
        assert (Hx' : nth_error arr' i0 = Some x).
        { rewrite <- (firstn_skipn k arr'). rewrite nth_error_app1 by (rewrite firstn_length; lia). auto. }
        assert (Hy' : nth_error arr' j = Some y).
        { rewrite <- (firstn_skipn k arr'). rewrite nth_error_app2 by (rewrite firstn_length; lia).
          rewrite firstn_length. replace (j - Nat.min k (length arr')) with (j - length h) by lia. auto. }
        apply (Q4 i0 j); auto; lia.
      * intros _ i j x y Hij Hx Hy. rewrite nth_error_app1 in Hx by lia. rewrite nth_error_app1 in Hy by lia.
        apply (sorted_nth _ _ _ S i j); auto. lia.
    + exists arr'. repeat split; auto. discriminate.
Qed.

Variable key : A -> K.

(** [js] are the positions of [k] best elements of [row]. *)
Definition top_of (lg st : bool) (k : nat) (row : list A) (js : list nat) : Prop :=
  let good_ (a b : A) := if lg then gt (key a) (key b) else gt (key b) (key a) in
  length js = k /\ NoDup js /\ (forall j, In j js -> j < length row) /\
  (forall i j x y, In i js -> ~ In j js -> nth_error row i = Some x -> nth_error row j = Some y -> good_ y x = false) /\
  (st = true -> forall p q i j x y, p < q -> nth_error js p = Some i -> nth_error js q = Some j ->
     nth_error row i = Some x -> nth_error row j = Some y -> good_ y x = false).

Lemma nth_error_combine' : forall X Y (l : list X) (l' : list Y) i,
  nth_error (combine l l') i =
  match nth_error l i, nth_error l' i with Some a, Some b => Some (a, b) | _, _ => None end.
Proof.
  induction l as [|a l IH]; intros [|b l'] i; cbn [combine].
  - destruct i; reflexivity.
  - destruct i; reflexivity.
  - destruct i; cbn [nth_error]; auto. destruct (nth_error l i); auto.
  - destruct i; cbn [nth_error]; auto.
Qed.

Lemma topk_row_spec : forall qsort lg st row k, qsort_ok qsort -> k <= length row ->
  exists r, topk_row key gt qsort lg st row k = Some r /\ top_of lg st k row (map snd r) /\
    forall i v j, nth_error r i = Some (v, j) -> nth_error row j = Some v.
Proof.
  intros qsort lg st row k Hq Hk. unfold topk_row. set (temp := combine (map key row) (seq 0 (length row)) : list E).
  assert (LT : length temp = length row) by (unfold temp; rewrite combine_length, map_length, seq_length; lia).
  assert (Hk' : k <= length temp) by (rewrite LT; exact Hk).
  destruct (topk_select_spec qsort lg st temp k Hq Hk') as [arr [R1 [R2 [R3 R4]]]].
  rewrite LT in R1. cbv zeta. change (combine (map key row) (seq 0 (length row))) with temp.
  rewrite R1. cbn [obind].
  assert (LA : length arr = length row) by (rewrite <- (Permutation_length R2); auto).
  (* every entry of arr is a row element with its position *)
  assert (HE : forall e, In e arr -> exists v, nth_error row (snd e) = Some v /\ fst e = key v).
  { intros e He. apply (Permutation_in _ (Permutation_sym R2)) in He. apply In_nth_error in He. destruct He as [i Hi].
    unfold temp in Hi. rewrite nth_error_combine' in Hi.
    destruct (nth_error (map key row) i) as [a|] eqn:Ea; [|discriminate].
    destruct (nth_error (seq 0 (length row)) i) as [b|] eqn:Eb; [|discriminate].
    injection Hi as <-. cbn [fst snd].
    assert (Li : i < length row).
    { assert (i < length (map key row)) by (apply nth_error_Some; congruence). now rewrite map_length in *. }
    rewrite nth_error_seq in Eb by auto. injection Eb as <-. rewrite nth_error_map in Ea.
    cbn [Nat.add]. destruct (nth_error row i) as [v|]; [|discriminate]. injection Ea as <-. eauto. }
  assert (ND : NoDup (map snd arr)).
  { apply (Permutation_NoDup (Permutation_map snd R2)). unfold temp.
    assert (X : forall X Y (l : list X) (l' : list Y), length l = length l' -> map snd (combine l l') = l').
    { induction l as [|a0 l IH]; intros [|b0 l'] HL; try discriminate; auto. cbn [combine map snd]. f_equal. apply IH. now injection HL. }
    rewrite X by (now rewrite map_length, seq_length). apply seq_NoDup. }
  assert (HA : forall j, j < length row -> exists p e, nth_error arr p = Some e /\ snd e = j).
  { intros j Hj. destruct (nth_error row j) as [v|] eqn:Ev; [|apply nth_error_None in Ev; lia].
    assert (In (key v, j) temp).
    { apply nth_error_In with j. unfold temp. rewrite nth_error_combine', nth_error_map, Ev, nth_error_seq by auto.
      reflexivity. }
    apply (Permutation_in _ R2) in H. apply In_nth_error in H. destruct H as [p Hp]. exists p, (key v, j). auto. }
  (* the copied out prefix *)
  set (dv := fun e : E => match nth_error row (snd e) with Some v => [(v, snd e)] | None => [] end).
  assert (HM : forall n p, p + n <= length arr ->
    exists r, mapO (fun i => obind (nth_error arr i) (fun e => obind (nth_error row (snd e)) (fun v => Some (v, snd e)))) (seq p n) = Some r /\
      length r = n /\ forall i, i < n -> exists e v, nth_error arr (p + i) = Some e /\ nth_error row (snd e) = Some v /\
        fst e = key v /\ nth_error r i = Some (v, snd e)).
  { induction n as [|n IH]; intros p Hp.
    - exists []. repeat split. intros i Hi; lia.
    - cbn [seq]. rewrite mapO_cons.
      destruct (nth_error arr p) as [e|] eqn:Ee; [|apply nth_error_None in Ee; lia]. cbn [obind].
      destruct (HE e (nth_error_In _ _ Ee)) as [v [Hv Hkv]]. rewrite Hv. cbn [obind].
      destruct (IH (S p)) as [r [Hr [Lr Hr2]]]; [lia|]. rewrite Hr. exists ((v, snd e) :: r).
      split; auto. split; [cbn [length]; lia|]. intros [|i] Hi.
      + exists e, v. rewrite Nat.add_0_r. repeat split; auto.
      + destruct (Hr2 i ltac:(lia)) as [e' [v' [X1 X2]]]. exists e', v'.
        replace (p + S i) with (S p + i) by lia. split; auto. }
  destruct (HM k 0 ltac:(lia)) as [r [Hr [Lr Hr2]]]. cbn [Nat.add] in Hr2.
  exists r. split; [exact Hr|].
  assert (HJ : forall p j, nth_error (map snd r) p = Some j <-> p < k /\ exists e, nth_error arr p = Some e /\ snd e = j).
  { intros p j. rewrite nth_error_map. split.
    - destruct (nth_error r p) as [[v j']|] eqn:Er; [|discriminate]. intros H. injection H as <-.
      assert (p < k) by (rewrite <- Lr; apply nth_error_Some; congruence). split; auto.
      destruct (Hr2 p H) as [e [v' [X1 [X2 [X3 X4]]]]]. exists e. split; auto. rewrite Er in X4. now injection X4.
    - intros [Hp [e [He <-]]]. destruct (Hr2 p Hp) as [e' [v' [X1 [X2 [X3 X4]]]]]. rewrite X4.
      rewrite He in X1. now injection X1 as <-. }
  assert (FJ : map snd r = firstn k (map snd arr)).
  { apply list_ext. intro p. destruct (Nat.lt_ge_cases p k) as [H|H].
    - destruct (Hr2 p H) as [e [v' [X1 [X2 [X3 X4]]]]]. rewrite nth_error_map, X4. cbn [option_map snd].
      rewrite <- (firstn_skipn k (map snd arr)) in ND. symmetry.
      assert (Y : nth_error (map snd arr) p = Some (snd e)) by (rewrite nth_error_map, X1; auto).
      rewrite <- (firstn_skipn k (map snd arr)) in Y. rewrite nth_error_app1 in Y; auto.
      rewrite firstn_length, map_length. lia.
    - rewrite !(proj2 (nth_error_None _ _)); auto; [rewrite firstn_length|rewrite map_length]; lia. }
  split; [split|].
  - rewrite map_length. auto.
  - split; [|split; [|split]].
    + rewrite FJ. rewrite <- (firstn_skipn k (map snd arr)) in ND.
      clear - ND. revert ND. generalize (skipn k (map snd arr)). generalize (firstn k (map snd arr)).
      induction l as [|a l IH]; intros l0 H; [constructor|]. inversion H; subst. constructor; [|eapply IH; eauto].
      intro X. apply H2. apply in_or_app. auto.
    + intros j Hj. apply In_nth_error in Hj. destruct Hj as [p Hp]. apply HJ in Hp. destruct Hp as [_ [e [He <-]]].
      destruct (HE e (nth_error_In _ _ He)) as [v [Hv _]]. apply nth_error_Some. congruence.
    + intros i j x y Hi Hj Hx Hy.
      apply In_nth_error in Hi. destruct Hi as [p Hp]. apply HJ in Hp. destruct Hp as [Lp [e [He <-]]].
      assert (Lj : j < length row) by (apply nth_error_Some; congruence).
      destruct (HA j Lj) as [q [e2 [He2 Ee2]]].
      assert (k <= q).
      { destruct (Nat.le_gt_cases k q) as [X|X]; auto. exfalso. apply Hj. apply nth_error_In with q. apply HJ. split; auto. eauto. }
      pose proof (R3 p q e e2 Lp H He He2) as B.
      destruct (HE e (nth_error_In _ _ He)) as [v [Hv1 Hv2]]. destruct (HE e2 (nth_error_In _ _ He2)) as [v2 [Hw1 Hw2]].
      rewrite Hv1 in Hx. injection Hx as <-. rewrite Ee2, Hy in Hw1. injection Hw1 as <-.
      unfold better in B. rewrite Hv2, Hw2 in B. exact B.
    + intros Hst p q i j x y Hpq Hi Hj Hx Hy. apply HJ in Hi. apply HJ in Hj.
      destruct Hi as [Lp [e [He <-]]]. destruct Hj as [Lq [e2 [He2 <-]]].
      pose proof (R4 Hst p q e e2 ltac:(lia) He He2) as B.
      destruct (HE e (nth_error_In _ _ He)) as [v [Hv1 Hv2]]. destruct (HE e2 (nth_error_In _ _ He2)) as [v2 [Hw1 Hw2]].
      rewrite Hv1 in Hx. injection Hx as <-. rewrite Hw1 in Hy. injection Hy as <-.
      unfold better in B. rewrite Hv2, Hw2 in B. exact B.
  - intros i v j Hi. assert (Li : i < k) by (rewrite <- Lr; apply nth_error_Some; congruence).
    destruct (Hr2 i Li) as [e [v' [X1 [X2 [X3 X4]]]]]. rewrite X4 in Hi. injection Hi as <- <-. auto.
Qed.

(* ---------- kernel ---------- *)

Lemma store_from_app : forall B (vs pre mid post : list B) n, length mid = length vs -> n = length pre ->
  store_from (pre ++ mid ++ post) n vs = Some (pre ++ vs ++ post).
Proof.
  induction vs as [|v vs IH]; intros pre mid post n HL Hn; destruct mid as [|m mid]; try discriminate; auto.
  cbn [store_from]. unfold c_store. subst n.
  replace (length pre <? length (pre ++ (m :: mid) ++ post)) with true by (rewrite !app_length; cbn [length]; lia).
  cbn [obind app]. rewrite upd_at.
  replace (pre ++ v :: mid ++ post) with ((pre ++ [v]) ++ mid ++ post) by (rewrite <- app_assoc; reflexivity).
  rewrite IH; [now rewrite <- app_assoc|now injection HL|rewrite app_length; cbn [length]; lia].
Qed.

Lemma topk_kernel_spec : forall qsort lg st input values indices l k n m, qsort_ok qsort -> k <= n ->
  loffset l + m * n <= length input -> length values = m * k -> length indices = m * k ->
  let row o := map (fun i => nth_error input (loffset l + (o * n + i))) (seq 0 n) in
  exists vs is_, topk_kernel key gt qsort input values indices (topk_metadata l k n m lg st) = Some (vs, is_) /\
    length vs = m * k /\ length is_ = m * k /\
    forall o, o < m -> exists row js, length row = n /\
      (forall i, i < n -> nth_error row i = nth_error input (loffset l + (o * n + i))) /\
      top_of lg st k row js /\
      forall i, i < k -> exists j v, nth_error js i = Some j /\ nth_error row j = Some v /\
        nth_error vs (o * k + i) = Some v /\ nth_error is_ (o * k + i) = Some (Z.of_nat j).
Proof.
  intros qsort lg st input values indices l k n m Hq Hk Hin HV HI _.
  unfold topk_kernel, topk_metadata. cbn [nth_error obind].
  replace (negb ((if lg then 1 else 0) =? 0)) with lg by (now destruct lg).
  replace (negb ((if st then 1 else 0) =? 0)) with st by (now destruct st).
  set (P := fun o vs is_ => exists row js, length row = n /\
      (forall i, i < n -> nth_error row i = nth_error input (loffset l + (o * n + i))) /\
      top_of lg st k row js /\
      forall i, i < k -> exists j v, nth_error js i = Some j /\ nth_error row j = Some v /\
        nth_error vs (o * k + i) = Some v /\ nth_error is_ (o * k + i) = Some (Z.of_nat j)).
  assert (G : forall c o pv pi tv ti, o + c = m -> length pv = o * k -> length pi = o * k ->
     length tv = c * k -> length ti = c * k -> (forall o', o' < o -> P o' pv pi) ->
     exists vs is_, loopO (fun outer (o : list A * list Z) =>
        obind (mapO (fun i => nth_error input (loffset l + (outer * n + i))) (seq 0 n)) (fun row =>
        obind (topk_row key gt qsort lg st row k) (fun r =>
        obind (store_from (fst o) (outer * k) (map fst r)) (fun vs =>
        obind (store_from (snd o) (outer * k) (map (fun e => Z.of_nat (snd e)) r)) (fun is_ => Some (vs, is_))))))
        (seq o c) (pv ++ tv, pi ++ ti) = Some (vs, is_) /\
       length vs = m * k /\ length is_ = m * k /\ forall o', o' < m -> P o' vs is_).
  { induction c as [|c IH]; intros o pv pi tv ti Hm Lpv Lpi Ltv Lti HP.
    - assert (tv = []) by (destruct tv; [auto|cbn in Ltv; lia]). assert (ti = []) by (destruct ti; [auto|cbn in Lti; lia]).
      subst tv ti. rewrite !app_nil_r. cbn [seq loopO]. assert (o = m) by lia. subst o. exists pv, pi. repeat split; auto.
    - cbn [seq loopO].
      assert (HR : exists row, mapO (fun i => nth_error input (loffset l + (o * n + i))) (seq 0 n) = Some row /\
         length row = n /\ (forall i, i < n -> nth_error row i = nth_error input (loffset l + (o * n + i)))).
      { assert (Hin2 : loffset l + (o * n + n) <= length input) by nia.
        clear - Hin2. destruct input as [|d0 inp] eqn:EI.
        { assert (n = 0) by (cbn in Hin2; lia). subst n. exists []. repeat split. intros; lia. }
        rewrite <- EI in *.
        exists (map (fun i => rd d0 input (loffset l + (o * n + i))) (seq 0 n)). split; [|split].
        - apply mapO_total. intros i Hi. apply in_seq in Hi. apply nth_error_rd. lia.
        - now rewrite map_length, seq_length.
        - intros i Hi. rewrite nth_error_map_seq by auto. symmetry. apply nth_error_rd. lia. }
      destruct HR as [row [HR1 [HR2 HR3]]]. rewrite HR1. cbn [obind].
      destruct (topk_row_spec qsort lg st row k Hq ltac:(lia)) as [r [T1 [T2 T3]]]. rewrite T1. cbn [obind fst snd].
      assert (Lr : length r = k). { destruct T2 as [T2 _]. now rewrite map_length in T2. }
      assert (Dv : tv = firstn k tv ++ skipn k tv) by (symmetry; apply firstn_skipn).
      assert (Di : ti = firstn k ti ++ skipn k ti) by (symmetry; apply firstn_skipn).
      assert (Fv : length (firstn k tv) = k) by (rewrite firstn_length; lia).
      assert (Fi : length (firstn k ti) = k) by (rewrite firstn_length; lia).
      rewrite Dv, Di. rewrite (store_from_app A) by (rewrite ?map_length; lia). cbn [obind].
      rewrite (store_from_app Z) by (rewrite ?map_length; lia). cbn [obind].
      rewrite !app_assoc.
      destruct (IH (S o) (pv ++ map fst r) (pi ++ map (fun e => Z.of_nat (snd e)) r) (skipn k tv) (skipn k ti))
        as [vs [is_ H]]; try (rewrite ?app_length, ?map_length, ?skipn_length; lia).
      + intros o' Ho'. destruct (Nat.eq_dec o' o) as [->|D].
        * exists row, (map snd r). repeat split; auto; try apply T2. intros i Hi.
          destruct (nth_error r i) as [[v j]|] eqn:Er; [|apply nth_error_None in Er; lia].
          exists j, v. rewrite nth_error_map, Er. repeat split; auto; try (now apply (T3 i)).
          -- rewrite nth_error_app2 by lia. replace (o * k + i - length pv) with i by lia. now rewrite nth_error_map, Er.
          -- rewrite nth_error_app2 by lia. replace (o * k + i - length pi) with i by lia. now rewrite nth_error_map, Er.
        * destruct (HP o' ltac:(lia)) as [row' [js [X1 [X2 [X3 X4]]]]]. exists row', js. repeat split; auto; try apply X3.
          intros i Hi. destruct (X4 i Hi) as [j [v [Y1 [Y2 [Y3 Y4]]]]]. exists j, v.
          assert (o' * k + i < o * k) by nia.
          repeat split; auto; rewrite nth_error_app1 by lia; auto.
      + exists vs, is_. exact H. }
  destruct (G m 0 [] [] values indices) as [vs [is_ H]]; auto; try lia.
  exists vs, is_. exact H.
Qed.

Lemma nelem_last : forall s d, nelem (s ++ [d]) = nelem s * d.
Proof. intros s d. rewrite nelem_app. cbv [nelem fold_left fold_right]. lia. Qed.

(** Tensor level: the last axis of a contiguous tensor. *)
Lemma t_topk_spec : forall qsort z (t : tensor A) s n k a lg st, qsort_ok qsort -> good t ->
  is_contiguous (tlay t) = true -> tshape t = s ++ [n] -> axis_ok (length (tshape t)) a ->
  axis_of (length (tshape t)) a = length s -> 0 < k -> k <= n -> 0 < nelem s ->
  exists v ix, t_topk key gt qsort z t k a lg st = Ok (v, ix) /\ good v /\ good ix /\
    tshape v = s ++ [k] /\ tshape ix = s ++ [k] /\
    forall o, valid s o -> exists row js, length row = n /\
      (forall i, i < n -> nth_error row i = elem t (o ++ [i])) /\ top_of lg st k row js /\
      forall i, i < k -> exists j, nth_error js i = Some j /\
        elem v (o ++ [i]) = elem t (o ++ [j]) /\ elem ix (o ++ [i]) = Some (Z.of_nat j).
Proof.
  intros qsort z t s n k a lg st Hq Hg Hc Hs Ha Hd Hk Hkn Hs0. unfold t_topk. fold (tshape t).
  assert (LS : length (tshape t) = S (length s)) by (rewrite Hs, app_length; cbn [length]; lia).
  rewrite LS in *. cbn [Nat.eqb]. rewrite axis_usize_ok by auto. rewrite Hd.
  rewrite Hs, nth_error_app2 by lia. rewrite Nat.sub_diag. cbn [nth_error].
  replace (n <? k) with false by lia. replace (k =? 0) with false by lia.
  replace (S (length s) - 1) with (length s) by lia. rewrite Nat.eqb_refl. cbn [negb bind].
  unfold t_contiguous. rewrite Hc. cbn [bind]. fold (tshape t). rewrite Hs.
  rewrite app_nth2, Nat.sub_diag by lia. cbn [nth].
  replace (firstn (length s) (s ++ [n])) with s by (rewrite firstn_app, Nat.sub_diag, firstn_all; cbn; now rewrite app_nil_r).
  change shape_size with nelem. rewrite upd_at.
  assert (Hlen : loffset (tlay t) + nelem s * n <= length (tstore t)).
  { destruct Hg as [Hw Hb]. assert (V : valid (tshape t) (unravel (tshape t) (nelem (tshape t) - 1))).
    { apply unravel_valid. rewrite Hs, nelem_last. nia. }
    pose proof (Hb _ V) as H. rewrite addr_contiguous in H; auto; [|now apply valid_length].
    rewrite ravel_unravel in H by (rewrite Hs, nelem_last; nia).
    assert (NE : nelem (tshape t) = nelem s * n) by (rewrite Hs; apply nelem_last).
    rewrite NE in H. nia. }
  destruct (topk_kernel_spec qsort lg st (tstore t) (repeat z (nelem s * k)) (repeat 0%Z (nelem s * k)) (tlay t) k n (nelem s))
    as [vs [is_ [E1 [L1 [L2 H]]]]]; auto; try apply repeat_length.
  rewrite E1. cbn [ub bind fst snd]. exists (mkT vs (from_shape (s ++ [k]))), (mkT is_ (from_shape (s ++ [k]))).
  assert (NK : nelem (s ++ [k]) = nelem s * k) by (apply nelem_last).
  split; auto. split; [apply from_shape_good; lia|]. split; [apply from_shape_good; lia|]. split; auto. split; auto.
  intros o Vo. destruct (H (ravel s o) (ravel_lt _ _ Vo)) as [row [js [R1 [R2 [R3 R4]]]]].
  assert (RA : forall d i, ravel (s ++ [d]) (o ++ [i]) = ravel s o * d + i).
  { intros d i. rewrite ravel_app by (now apply valid_length). cbn [ravel]. change (nelem []) with 1. rewrite (nelem_last [] d : nelem [d] = _). change (nelem []) with 1. lia. }
  assert (EA : forall i, elem t (o ++ [i]) = nth_error (tstore t) (loffset (tlay t) + (ravel s o * n + i))).
  { intros i. unfold elem. rewrite addr_contiguous; auto.
    - fold (tshape t). now rewrite Hs, RA.
    - apply Hg.
    - fold (tshape t). rewrite LS, app_length, (valid_length _ _ Vo). cbn [length]. lia. }
  assert (EB : forall B (bs : list B) i, elem (mkT bs (from_shape (s ++ [k]))) (o ++ [i]) = nth_error bs (ravel s o * k + i)).
  { intros B bs i. unfold elem. cbn [tlay tstore]. rewrite addr_from_shape.
    - now rewrite RA.
    - rewrite !app_length, (valid_length _ _ Vo). reflexivity. }
  exists row, js. repeat split; auto; try apply R3.
  - intros i Hi. now rewrite R2, EA.
  - intros i Hi. destruct (R4 i Hi) as [j [v [J1 [J2 [J3 J4]]]]]. exists j. repeat split; auto.
    + rewrite EB, EA, J3. rewrite <- J2. symmetry. rewrite R2; auto.
      destruct R3 as [_ [_ [B _]]]. rewrite <- R1. apply B. eapply nth_error_In; eauto.
    + now rewrite EB.
Qed.
End Sel.
