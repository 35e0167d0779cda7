(** Proofs about printing tensors. *)
From Coq Require Import String List Arith Bool Lia.
From Verif Require Import Base IndexSpec LayoutModel TensorModel TensorSpec TensorProofs EncodeModel EncodeSpec EncodeProofs.
From Verif Require Import DisplayModel DisplaySpec.
Import ListNotations.

Lemma items_app {A} (a b : list (piece A)) : items (a ++ b) = items a ++ items b.
Proof. induction a as [|[] a IH]; cbn; congruence. Qed.
Lemma nested_app {A} r l (a b : list (piece A)) k : nested r l a = Some k -> nested r l (a ++ b) = nested r k b.
Proof.
  revert l. induction a as [|[] a IH]; intros l; cbn [nested app].
  - intros E. injection E as ->. reflexivity.
  - apply IH.
  - destruct l; [discriminate|apply IH].
  - apply IH.
  - destruct (l =? r); [apply IH|discriminate].
Qed.
(** No elements and no brackets. *)
Definition silent {A} (l : list (piece A)) : Prop := items l = [] /\ forall r k, nested r k l = Some k.
Lemma silent_break {A} d : silent (@break_line A d).
Proof. unfold break_line. destruct (d <? 2); split; reflexivity. Qed.
Lemma silent_dots {A} d : silent (@dots A d).
Proof. unfold dots, break_line. destruct (d <? 2); split; reflexivity. Qed.

Lemma filter_seq_low P a n : (forall x, a <= x < a + n -> P x = true) -> filter P (seq a n) = seq a n.
Proof.
  revert a. induction n as [|n IH]; intros a H; [reflexivity|]. cbn [seq filter].
  rewrite H by lia. f_equal. apply IH. intros x Hx. apply H. lia.
Qed.
Lemma filter_seq_none P a n : (forall x, a <= x < a + n -> P x = false) -> filter P (seq a n) = [].
Proof.
  revert a. induction n as [|n IH]; intros a H; [reflexivity|]. cbn [seq filter].
  rewrite H by lia. apply IH. intros x Hx. apply H. lia.
Qed.
Lemma visible_seq n : let (a, b) := shown n in
  filter (visible n) (seq 0 n) = seq 0 a ++ seq (n - b) b /\ a <= n /\ b <= n /\
  ((0 <? b) && (a + b <? n) = true \/ (b = 0 /\ a = n)).
Proof.
  unfold shown. destruct (Nat.leb_spec n 8) as [L|L].
  - rewrite filter_seq_low; [cbn [seq]; rewrite app_nil_r; repeat split; lia|].
    intros x Hx. unfold visible. now rewrite (proj2 (Nat.leb_le n 8) L).
  - split; [|repeat split; try lia; left; rewrite (proj2 (Nat.ltb_lt (4 + 4) n)) by lia; reflexivity].
    replace (seq 0 n) with (seq 0 4 ++ seq 4 (n - 8) ++ seq (n - 4) 4).
    + rewrite !filter_app. rewrite filter_seq_low, filter_seq_none, filter_seq_low; auto;
        intros x Hx; unfold visible; destruct (Nat.leb_spec n 8), (Nat.ltb_spec x 4), (Nat.leb_spec (n - 4) x); cbn; lia || reflexivity.
    + replace (n - 4) with (4 + (n - 8)) by lia. rewrite <- seq_app. rewrite <- (seq_app 4 _ 0). f_equal. lia.
Qed.

(* ---------- one row ---------- *)

Definition picks {A} (data : list A) (l : list nat) : list (option A) := map (nth_error data) l.
Lemma items_front {A} w (data : list A) : forall k a, a <= length data ->
  map Some (items (flat_map (fun p => comma (fst p) ++ [Item (snd p) w]) (combine (seq k a) data))) = picks data (seq 0 a) /\
  forall r, nested r r (flat_map (fun p => comma (fst p) ++ [Item (snd p) w]) (combine (seq k a) data)) = Some r.
Proof.
  induction data as [|x data IH]; intros k a H; cbn [length] in H.
  - assert (a = 0) by lia. subst a. split; reflexivity.
  - destruct a as [|a]; [split; reflexivity|]. destruct (IH (S k) a) as [I1 I2]; [lia|]. cbn [seq combine flat_map fst snd].
    split.
    + rewrite !items_app, !map_app, I1. unfold comma. destruct (k =? 0); cbn [items map app]; unfold picks; cbn [seq map nth_error]; f_equal;
        rewrite <- seq_shift, map_map; reflexivity.
    + intros r. rewrite <- app_assoc. rewrite (nested_app r r (comma k)) with (k := r) by (unfold comma; destruct (k =? 0); reflexivity).
      cbn [app nested]. rewrite Nat.eqb_refl. apply I2.
Qed.
Lemma items_back {A} w (l : list A) :
  map Some (items (flat_map (fun x => [Fixed ", "; Item x w]) l)) = picks l (seq 0 (length l)) /\
  forall r, nested r r (flat_map (fun x => [Fixed ", "; Item x w]) l) = Some r.
Proof.
  induction l as [|x l [I1 I2]]; [split; reflexivity|]. split.
  - cbn [flat_map app items map length seq]. rewrite I1. unfold picks. cbn [map nth_error]. f_equal. rewrite <- seq_shift, map_map. reflexivity.
  - intros r. cbn [flat_map app nested]. rewrite Nat.eqb_refl. apply I2.
Qed.
Lemma nth_skipn {A} (l : list A) n k : nth_error (skipn n l) k = nth_error l (n + k).
Proof. revert l. induction n as [|n IH]; intros l; [reflexivity|]. destruct l; cbn; [destruct k; reflexivity|apply IH]. Qed.
Lemma row_thm {A} w (data : list A) :
  map Some (items (row w data)) = picks data (filter (visible (length data)) (seq 0 (length data))) /\
  forall r, nested r r (row w data) = Some r.
Proof.
  unfold row. pose proof (visible_seq (length data)) as V. destruct (shown (length data)) as [a b]. destruct V as (V & A1 & B1 & C).
  rewrite Nat.min_l by lia. destruct (items_front w data 0 a A1) as [F1 F2]. destruct (items_back w (skipn (length data - b) data)) as [K1 K2].
  rewrite V. unfold picks in *. rewrite map_app, <- F1.
  assert (K3 : map (nth_error (skipn (length data - b) data)) (seq 0 (length (skipn (length data - b) data))) = map (nth_error data) (seq (length data - b) b)).
  { rewrite skipn_length. replace (length data - (length data - b)) with b by lia.
    replace (seq (length data - b) b) with (map (fun x => length data - b + x) (seq 0 b)).
    - rewrite map_map. apply map_ext. intros x. apply nth_skipn.
    - transitivity (seq (length data - b + 0) b); [|f_equal; lia]. generalize 0. induction b as [|b' IHb]; intros z; [reflexivity|].
      clear. revert z. generalize (length data - S b') as q. induction (S b') as [|j IHj]; intros q z; [reflexivity|]. cbn [seq map]. f_equal.
      rewrite IHj. f_equal. lia. }
  rewrite K3 in K1. split.
  - rewrite !items_app, !map_app. f_equal. destruct C as [C|(-> & ->)].
    + rewrite C. apply andb_prop in C. destruct C as [_ C]. rewrite C. cbn [items map app]. exact K1.
    + assert (X : (length data + 0 <? length data) = false) by (apply Nat.ltb_ge; lia). rewrite X. reflexivity.
  - intros r. rewrite (nested_app r r _ _ r (F2 r)). destruct C as [C|(-> & ->)].
    + rewrite C. apply andb_prop in C. destruct C as [_ C]. rewrite C. cbn [nested app]. apply K2.
    + assert (X : (length data + 0 <? length data) = false) by (apply Nat.ltb_ge; lia). rewrite X. reflexivity.
Qed.

(* ---------- the whole tensor ---------- *)

Lemma filter_flat {A B} (P : B -> bool) (f : A -> list B) l : filter P (flat_map f l) = flat_map (fun x => filter P (f x)) l.
Proof. induction l as [|x l IH]; cbn; auto. now rewrite filter_app, IH. Qed.
Lemma filter_mapped {A B} (P : B -> bool) (f : A -> B) l : filter P (map f l) = map f (filter (fun x => P (f x)) l).
Proof. induction l as [|x l IH]; cbn; auto. destruct (P (f x)); cbn; now rewrite IH. Qed.
Lemma flat_filter {A B} (P : A -> bool) (f : A -> list B) l : flat_map (fun x => if P x then f x else []) l = flat_map f (filter P l).
Proof. induction l as [|x l IH]; cbn; auto. destruct (P x); cbn; now rewrite IH. Qed.
Lemma visible_all n s : filter (visible_idx (n :: s)) (all_idx (n :: s)) =
  flat_map (fun x => map (cons x) (filter (visible_idx s) (all_idx s))) (filter (visible n) (seq 0 n)).
Proof.
  cbn [all_idx]. rewrite filter_flat, <- flat_filter. apply flat_map_ext. intros x. rewrite filter_mapped. cbn [visible_idx].
  destruct (visible n x); cbn [andb]; auto. induction (all_idx s); cbn; auto.
Qed.

Definition at_ravel {A} (data : list A) (s : list nat) : list (option A) :=
  map (fun i => nth_error data (ravel s i)) (filter (visible_idx s) (all_idx s)).
Lemma slice_part {A} (data : list A) n sub i : length data = n * sub -> i < n ->
  exists d, slice data (i * sub) ((i + 1) * sub) = Ok d /\ length d = sub /\ forall k, k < sub -> nth_error d k = nth_error data (i * sub + k).
Proof.
  intros L H. unfold slice. assert (E1 : i * sub <= (i + 1) * sub) by nia. assert (E2 : (i + 1) * sub <= length data) by nia.
  rewrite (proj2 (Nat.leb_le _ _) E1), (proj2 (Nat.leb_le _ _) E2). cbn [andb]. eexists. split; [reflexivity|].
  replace ((i + 1) * sub - i * sub) with sub by lia. split.
  - rewrite firstn_length, skipn_length. nia.
  - intros k K. rewrite <- nth_skipn. revert K. generalize (skipn (i * sub) data). clear. intros l. revert sub k.
    induction l as [|x l IH]; intros [|sub] [|k] K; try lia; cbn; auto. apply IH. lia.
Qed.
Lemma concat_ok {A B} (f : nat -> outcome (list (piece A))) (g : nat -> list B) (h : list (piece A) -> list B) (P : list (piece A) -> Prop) l :
  h [] = [] -> (forall a b, h (a ++ b) = h a ++ h b) -> P [] -> (forall a b, P a -> P b -> P (a ++ b)) ->
  (forall i, In i l -> exists p, f i = Ok p /\ h p = g i /\ P p) ->
  exists p, concat_outcomes (map f l) = Ok p /\ h p = flat_map g l /\ P p.
Proof.
  intros H0 Ha P0 Pa. unfold concat_outcomes. induction l as [|i l IH]; intros H.
  - exists []. auto.
  - destruct (H i) as (p & E1 & E2 & E3); [now left|]. destruct IH as (q & Q1 & Q2 & Q3); [intros; apply H; now right|].
    cbn [map collect]. rewrite E1. cbn [bind]. destruct (collect (map f l)) as [c| |]; cbn [bind] in *; try discriminate.
    injection Q1 as <-. exists (p ++ concat c). cbn [concat flat_map]. rewrite Ha, E2, Q2. auto.
Qed.
Lemma concat_panic {A} (f : nat -> outcome (list (piece A))) l i : In i l -> (forall j, In j l -> f j = Panic) -> concat_outcomes (map f l) = Panic.
Proof. unfold concat_outcomes. destruct l as [|j l]; [contradiction|]. intros _ H. cbn [map collect]. rewrite H by now left. reflexivity. Qed.
Lemma nelem_cons' n s : nelem (n :: s) = n * nelem s.
Proof. reflexivity. Qed.
Lemma display_unfold {A} (text : A -> string) data stride n m s depth column :
  display_data text data stride (n :: m :: s) depth column =
  if n =? 0 then Panic else
  let sub := stride / n in
  let (a, b) := shown n in
  let width := match s with [] => Some (corner_width text data sub n m) | _ => None end in
  let part := fun i => do d <- slice data (i * sub) ((i + 1) * sub) ; display_data text d sub (m :: s) (S depth) width in
  do front <- concat_outcomes (map (fun i => do p <- part i ; Ok ((if i =? 0 then [] else break_line depth) ++ p)) (seq 0 (Nat.min a n))) ;
  do back <- (if (0 <? b) && (a + b <? n)
              then concat_outcomes (map (fun i => do p <- part i ; Ok (break_line depth ++ p)) (seq (n - b) b)) else Ok []) ;
  Ok (Open :: front ++ (if a + b <? n then dots depth else []) ++ back ++ [Close]).
Proof. reflexivity. Qed.
Lemma display_ok {A} (text : A -> string) : forall s data depth column, length data = nelem s -> ~ inner_zero s ->
  exists p, display_data text data (nelem s) s depth column = Ok p /\
    map Some (items p) = at_ravel data s /\ forall r k, r = k + length s -> nested r k p = Some k.
Proof.
  induction s as [|n s IH]; intros data depth column L Z.
  - cbn in L. destruct data as [|x [|y data]]; try discriminate. exists [Item x 0]. split; [reflexivity|]. split; [reflexivity|].
    intros r k ->. cbn. now rewrite Nat.add_0_r, Nat.eqb_refl.
  - destruct s as [|m s].
    + cbn [display_data]. eexists. split; [reflexivity|]. rewrite nelem_cons' in L. change (nelem []) with 1 in L. rewrite Nat.mul_1_r in L.
      match goal with |- context [row ?w data] => destruct (row_thm w data) as [R1 R2] end. split.
      * cbn [items]. rewrite items_app. cbn [items]. rewrite app_nil_r, R1. unfold at_ravel, picks. rewrite visible_all, L.
        change (filter (visible_idx []) (all_idx [])) with (@cons (list nat) [] []). generalize (filter (visible n) (seq 0 n)).
        intros l. induction l as [|x l IHl]; cbn [map flat_map app]; auto. rewrite IHl.
        replace (ravel [n] [x]) with x; [reflexivity|]. cbn [ravel]. change (nelem []) with 1. lia.
      * intros r k ->. cbn [nested length]. rewrite Nat.add_1_r. rewrite (nested_app (S k) (S k) _ _ (S k) (R2 (S k))). reflexivity.
    + assert (N0 : n <> 0) by (intros ->; apply Z; now left).
      assert (Z' : ~ inner_zero (m :: s)) by (intros I; apply Z; right; exact I).
      set (s' := m :: s) in *. set (sub := nelem s').
      assert (Hs : nelem (n :: s') / n = sub) by (rewrite nelem_cons', Nat.mul_comm; now apply Nat.div_mul).
      assert (Ls : length data = n * sub) by (rewrite L; apply nelem_cons').
      set (w := match s with [] => Some (corner_width text data sub n m) | _ => None end).
      assert (Part : forall i, i < n -> exists p, (do d <- slice data (i * sub) ((i + 1) * sub) ; display_data text d sub s' (S depth) w) = Ok p /\
                map Some (items p) = map (fun j => nth_error data (ravel (n :: s') (i :: j))) (filter (visible_idx s') (all_idx s')) /\
                forall r k, r = k + length s' -> nested r k p = Some k).
      { intros i Hi. destruct (slice_part data n sub i Ls Hi) as (d & E & Ld & Nd). rewrite E. cbn [bind].
        destruct (IH d (S depth) w Ld Z') as (p & E1 & E2 & E3). exists p. split; [exact E1|]. split; [|exact E3].
        rewrite E2. unfold at_ravel. apply map_ext_in. intros j Hj. apply filter_In in Hj. destruct Hj as [Hj _]. apply in_all_idx in Hj.
        rewrite Nd by (now apply ravel_lt). reflexivity. }
      set (g := fun i => map (fun j => nth_error data (ravel (n :: s') (i :: j))) (filter (visible_idx s') (all_idx s'))) in *.
      set (P := fun p : list (piece A) => forall r k, r = k + length s' -> nested r k p = Some k).
      assert (Pa : forall a b, P a -> P b -> P (a ++ b)).
      { intros a b Ha Hb r k Hr. rewrite (nested_app r k a b k (Ha r k Hr)). now apply Hb. }
      assert (Pc : forall pre l, (forall i, silent (pre i)) -> (forall i, In i l -> i < n) -> exists p,
                concat_outcomes (map (fun i => do q <- (do d <- slice data (i * sub) ((i + 1) * sub) ; display_data text d sub s' (S depth) w) ; Ok (pre i ++ q)) l) = Ok p /\
                map Some (items p) = flat_map g l /\ P p).
      { intros pre l Hp Hl. apply (concat_ok _ g (fun p => map Some (items p)) P).
        - reflexivity.
        - intros a b. now rewrite items_app, map_app.
        - intros r k _. reflexivity.
        - exact Pa.
        - intros i Hi. destruct (Part i (Hl i Hi)) as (p & E1 & E2 & E3). rewrite E1. cbn [bind]. exists (pre i ++ p). split; [reflexivity|].
          destruct (Hp i) as [S1 S2]. split.
          + now rewrite items_app, S1.
          + intros r k Hr. rewrite (nested_app r k (pre i) p k (S2 r k)). now apply E3. }
      assert (Main : exists p, display_data text data (nelem (n :: s')) (n :: s') depth column = Ok p /\
                map Some (items p) = flat_map g (filter (visible n) (seq 0 n)) /\ forall r k, r = S k + length s' -> nested r k p = Some k).
      { unfold s' at 2. rewrite display_unfold. fold s'. rewrite (proj2 (Nat.eqb_neq n 0) N0), Hs. cbv zeta. fold w.
        pose proof (visible_seq n) as V. destruct (shown n) as [a b]. destruct V as (V & A1 & B1 & C). rewrite Nat.min_l by lia. rewrite V, flat_map_app.
        destruct (Pc (fun i => if i =? 0 then [] else break_line depth) (seq 0 a)) as (p & E1 & E2 & E3).
        { intros i. destruct (i =? 0); [split; reflexivity|apply silent_break]. }
        { intros i Hi. apply in_seq in Hi. lia. }
        destruct (Pc (fun i => break_line depth) (seq (n - b) b)) as (q & Q1 & Q2 & Q3).
        { intros i. apply silent_break. }
        { intros i Hi. apply in_seq in Hi. lia. }
        rewrite E1. cbn [bind]. destruct C as [C|(-> & ->)].
        - rewrite C, Q1. cbn [bind]. eexists. split; [reflexivity|]. apply andb_prop in C. destruct C as [_ C]. rewrite C.
          destruct (@silent_dots A depth) as [D1 D2]. split.
          + cbn [items]. rewrite !items_app, D1. cbn [items app]. rewrite app_nil_r, map_app, E2, Q2. reflexivity.
          + intros r k Hr. cbn [nested]. rewrite (nested_app r (S k) _ _ (S k)) by (apply E3; lia).
            rewrite (nested_app r (S k) _ _ (S k) (D2 r (S k))). rewrite (nested_app r (S k) _ _ (S k)) by (apply Q3; lia). reflexivity.
        - change (0 <? 0) with false. cbn [andb bind]. assert (X : (n + 0 <? n) = false) by (apply Nat.ltb_ge; lia).
          rewrite X. eexists. split; [reflexivity|]. split.
          + cbn [items app seq flat_map]. rewrite !items_app. cbn [items app]. rewrite !app_nil_r. exact E2.
          + intros r k Hr. cbn [nested app]. rewrite (nested_app r (S k) _ _ (S k)) by (apply E3; lia). reflexivity. }
      destruct Main as (p & E1 & E2 & E3). exists p. split; [exact E1|]. split.
      * rewrite E2. unfold at_ravel. rewrite visible_all. generalize (filter (visible n) (seq 0 n)). intros l.
        induction l as [|x l IHl]; cbn [flat_map]; auto. rewrite map_app, <- IHl. f_equal. unfold g. rewrite map_map. reflexivity.
      * intros r k Hr. apply E3. cbn [length] in *. lia.
Qed.

(** An inner axis of size 0: a division by zero. *)
Lemma display_zero {A} (text : A -> string) : forall s data depth column, length data = nelem s -> inner_zero s ->
  display_data text data (nelem s) s depth column = Panic.
Proof.
  induction s as [|n s IH]; intros data depth column L Z; [contradiction|].
  destruct s as [|m s]; [contradiction|]. rewrite display_unfold. destruct (Nat.eqb_spec n 0) as [_|N0]; [reflexivity|].
  destruct Z as [Z|Z]; [congruence|]. change (inner_zero (m :: s)) in Z. set (s' := m :: s) in *. cbv zeta.
  assert (Hs : nelem (n :: s') / n = nelem s') by (rewrite nelem_cons', Nat.mul_comm; now apply Nat.div_mul). rewrite Hs.
  assert (Ls : length data = n * nelem s') by (rewrite L; apply nelem_cons').
  pose proof (visible_seq n) as V. destruct (shown n) as [a b] eqn:Sh. destruct V as (_ & A1 & B1 & _). rewrite Nat.min_l by lia.
  assert (A0 : 0 < a) by (unfold shown in Sh; destruct (n <=? 8); injection Sh as <- <-; lia).
  rewrite (concat_panic _ (seq 0 a) 0); [reflexivity|apply in_seq; lia|].
  intros j Hj. apply in_seq in Hj. destruct (slice_part data n (nelem s') j Ls) as (d & E & Ld & _); [lia|]. rewrite E. cbn [bind].
  rewrite IH by auto. reflexivity.
Qed.

Lemma reads_at {A} (t : tensor A) l : reads t l -> forall i, valid (tshape t) i -> elem t i = nth_error l (ravel (tshape t) i).
Proof.
  intros R i V. apply reads_seq in R. pose proof (ravel_lt _ _ V) as Lt.
  apply (f_equal (fun w => nth_error w (ravel (tshape t) i))) in R.
  rewrite nth_error_map, (nth_error_nth' _ 0) in R by (now rewrite seq_length). rewrite seq_nth in R by auto. cbn [option_map plus] in R.
  rewrite unravel_ravel in R by auto. rewrite nth_error_map in R. destruct (nth_error l (ravel (tshape t) i)); cbn in R; congruence.
Qed.
Lemma display_shows {A} (text : A -> string) (t : tensor A) : good t ->
  (is_contiguous (tlay t) = true -> exact_storage t) -> (is_contiguous (tlay t) = false -> loffset (tlay t) = 0) ->
  (~ inner_zero (tshape t) -> exists p, display text t = Ok p /\ shows t p) /\
  (inner_zero (tshape t) -> display text t = Panic).
Proof.
  intros G C O. destruct (flatten_partial A t G C O) as (l & E & R). unfold display. rewrite E.
  pose proof (reads_length _ t l R) as L. change (layout_size (tlay t)) with (nelem (tshape t)). change (lshape (tlay t)) with (tshape t).
  split; intros Z.
  - destruct (display_ok text (tshape t) l 0 None L Z) as (p & P1 & P2 & P3). exists p. split; [exact P1|]. split; [|now apply P3].
    rewrite P2. unfold at_ravel. apply map_ext_in. intros i Hi. apply filter_In in Hi. destruct Hi as [Hi _]. apply in_all_idx in Hi.
    symmetry. now apply reads_at.
  - now apply display_zero.
Qed.
(** Debug prints the elements as one row. *)
Lemma debug_shows {A} (t : tensor A) l : t_to_flatten_vec t = Ok l -> reads t l ->
  exists p, debug t = Ok p /\
    map Some (items p) = map (fun k => elem t (unravel (tshape t) k)) (filter (visible (nelem (tshape t))) (seq 0 (nelem (tshape t)))) /\
    nested (if forallb (fun d => d =? 1) (tshape t) then 0 else 1) 0 p = Some 0.
Proof.
  intros E R. unfold debug. rewrite E. eexists. split; [reflexivity|]. pose proof (reads_length _ t l R) as L.
  assert (Q : map (fun k => elem t (unravel (tshape t) k)) (filter (visible (nelem (tshape t))) (seq 0 (nelem (tshape t)))) =
              picks l (filter (visible (length l)) (seq 0 (length l)))).
  { rewrite <- L. unfold picks. apply map_ext_in. intros k K. apply filter_In in K. destruct K as [K _]. apply in_seq in K.
    rewrite (reads_at t l R) by (apply unravel_valid; lia). rewrite ravel_unravel by lia. reflexivity. }
  rewrite Q. assert (V : nested 1 0 (Open :: row 0 l ++ [Close]) = Some 0).
  { cbn [nested]. rewrite (nested_app 1 1 (row 0 l) [Close] 1); [reflexivity|]. apply row_thm. }
  assert (W : map Some (items (Open :: row 0 l ++ [Close])) = picks l (filter (visible (length l)) (seq 0 (length l)))).
  { cbn [items]. rewrite items_app. cbn [items]. rewrite app_nil_r. apply row_thm. }
  assert (N : forallb (fun d => d =? 1) (tshape t) = true -> nelem (tshape t) = 1).
  { clear. induction (tshape t) as [|d s IH]; [reflexivity|]. cbn [forallb]. intros F. apply andb_prop in F. destruct F as [F1 F2].
    apply Nat.eqb_eq in F1. subst d. rewrite nelem_cons', IH by auto. reflexivity. }
  unfold debug_data. change (lshape (tlay t)) with (tshape t).
  destruct (forallb (fun d => d =? 1) (tshape t)) eqn:F.
  - rewrite (N eq_refl) in L. destruct l as [|x [|y l]]; try discriminate L. split; reflexivity.
  - destruct l as [|x l]; split; assumption.
Qed.
