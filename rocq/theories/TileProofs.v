From Coq Require Import List Arith ZArith Bool Lia.
From Verif Require Import Base IndexSpec LayoutModel KernelModel TensorModel ReduceModel ScanModel MatrixModel TileModel.
Import ListNotations.

Section P.
Context {A : Type}.
Variables (zero : A) (mac : A -> A -> A -> A).
Notation fl := (fetch_left zero).
Notation fr := (fetch_right zero).

Definition sane (l : launch A) : Prop := 0 < side l /\ side l <= tile l.

(** what thread [i] of block [c] reads as element [k] of tile [t] *)
Definition seen_left (l : launch A) (gl : list (option A)) (c i t k : nat) : option A :=
  if k <? side l then fl l c (thread_y l i * side l + k) t else nth (thread_y l i * tile l + k) gl None.
Definition seen_right (l : launch A) (gr : list (option A)) (c i t k : nat) : option A :=
  if k <? side l then fr l c (k * side l + thread_x l i) t else nth (k * tile l + thread_x l i) gr None.
Definition sums (l : launch A) (gl gr : list (option A)) (c i n : nat) : option A :=
  fold_left (fun s m => mac_opt mac s (seen_left l gl c i (m / tile l) (m mod tile l))
                                      (seen_right l gr c i (m / tile l) (m mod tile l)))
            (seq 0 n) (Some zero).

Lemma sums_S : forall l gl gr c i n, sums l gl gr c i (S n) =
  mac_opt mac (sums l gl gr c i n) (seen_left l gl c i (n / tile l) (n mod tile l))
                                   (seen_right l gr c i (n / tile l) (n mod tile l)).
Proof. intros. unfold sums. rewrite seq_S, fold_left_app. reflexivity. Qed.

Definition passed (l : launch A) (p : place) : nat :=
  match p with
  | LoadLeft t | LoadRight t | Loaded t => 2 * t
  | Multiply t _ | Used t => 2 * t + 1
  | Store | Done => 2 * tiles l
  end.
Definition summed (l : launch A) (p : place) : nat :=
  match p with
  | LoadLeft t | LoadRight t | Loaded t => t * tile l
  | Multiply t k => t * tile l + k
  | Used t => S t * tile l
  | Store | Done => tiles l * tile l
  end.
Definition inside (l : launch A) (p : place) : Prop :=
  match p with
  | LoadLeft t | LoadRight t | Loaded t | Used t => t < tiles l
  | Multiply t k => t < tiles l /\ k < tile l
  | Store | Done => True
  end.
Definition has_left (p : place) (t : nat) : Prop :=
  match p with LoadRight u | Loaded u | Multiply u _ | Used u => u = t | _ => False end.
Definition has_right (p : place) (t : nat) : Prop :=
  match p with Loaded u | Multiply u _ | Used u => u = t | _ => False end.
Definition cell (l : launch A) (i : nat) : nat := thread_y l i * tile l + thread_x l i.

Record fine (l : launch A) (gl gr : list (option A)) (c : nat) (b : block A) : Prop := {
  f_threads : length (threads b) = side l * side l;
  f_left : length (ltile b) = tile l * tile l;
  f_right : length (rtile b) = tile l * tile l;
  f_each : forall i p s, nth_error (threads b) i = Some (p, s) ->
    inside l p /\ s = sums l gl gr c i (summed l p) /\
    (forall t, has_left p t -> nth_error (ltile b) (cell l i) = Some (fl l c i t)) /\
    (forall t, has_right p t -> nth_error (rtile b) (cell l i) = Some (fr l c i t));
  f_sync : forall i j p q s u, nth_error (threads b) i = Some (p, s) -> nth_error (threads b) j = Some (q, u) ->
    passed l p <= arrivals l q;
  f_garbage_l : forall y k, y < side l -> side l <= k < tile l ->
    nth (y * tile l + k) (ltile b) None = nth (y * tile l + k) gl None;
  f_garbage_r : forall k x, side l <= k < tile l -> x < side l ->
    nth (k * tile l + x) (rtile b) None = nth (k * tile l + x) gr None }.

Lemma thread_pos : forall (l : launch A) i, sane l -> i < side l * side l ->
  thread_y l i < side l /\ thread_x l i < side l /\ i = thread_y l i * side l + thread_x l i.
Proof.
  intros l i [S _] I. unfold thread_y, thread_x.
  assert (X := Nat.div_mod i (side l) ltac:(lia)). assert (Y := Nat.mod_upper_bound i (side l) ltac:(lia)).
  split; [apply Nat.div_lt_upper_bound; lia|]. lia.
Qed.
Lemma thread_of : forall (l : launch A) y x, x < side l ->
  thread_y l (y * side l + x) = y /\ thread_x l (y * side l + x) = x.
Proof.
  intros l y x X. unfold thread_y, thread_x. rewrite (Nat.add_comm (y * side l)).
  rewrite Nat.div_add by lia. rewrite Nat.mod_add by lia. rewrite Nat.div_small by lia. rewrite Nat.mod_small by lia. lia.
Qed.
Lemma pair_inj : forall n a b c d, b < n -> d < n -> a * n + b = c * n + d -> a = c /\ b = d.
Proof.
  intros n a b c d B D E.
  assert (a = c) by (assert ((a * n + b) / n = (c * n + d) / n) by congruence;
    rewrite !(Nat.add_comm (_ * n)) in H; rewrite !Nat.div_add in H by lia; rewrite !Nat.div_small in H by lia; lia).
  subst. split; lia.
Qed.
Lemma cell_inj : forall (l : launch A) i j, sane l -> i < side l * side l -> j < side l * side l ->
  cell l i = cell l j -> i = j.
Proof.
  intros l i j S I J E. destruct (thread_pos l i S I) as (A1 & A2 & A3). destruct (thread_pos l j S J) as (B1 & B2 & B3).
  destruct S as [_ S]. apply pair_inj in E; [|lia|lia]. destruct E as [E1 E2]. rewrite A3, B3. congruence.
Qed.
Lemma cell_lt : forall (l : launch A) i, sane l -> i < side l * side l -> cell l i < tile l * tile l.
Proof.
  intros l i S I. destruct (thread_pos l i S I) as (A1 & A2 & A3). destruct S as [_ S]. unfold cell. nia.
Qed.

Lemma nth_upd : forall B (l : list B) i j x d, nth j (upd l i x) d = if (j =? i) && (i <? length l) then x else nth j l d.
Proof.
  induction l as [|h t IH]; intros i j x d; cbn.
  - rewrite andb_false_r. reflexivity.
  - destruct i; destruct j; cbn; auto.
    rewrite IH. change (S i <? S (length t)) with (i <? length t). reflexivity.
Qed.

Lemma upd_cases : forall B (l : list B) i j x y, nth_error (upd l i x) j = Some y ->
  (j = i /\ y = x) \/ (j <> i /\ nth_error l j = Some y).
Proof.
  intros B l i j x y H. rewrite nth_error_upd in H. destruct (i =? j) eqn:E.
  - apply Nat.eqb_eq in E. left. destruct (i <? length l) eqn:L; cbn in H; split; try congruence.
    apply Nat.ltb_ge in L. apply nth_error_None in L. congruence.
  - right. apply Nat.eqb_neq in E. auto.
Qed.

Lemma enter_facts : forall (l : launch A) t, t <= tiles l ->
  inside l (enter l t) /\ summed l (enter l t) = t * tile l /\ passed l (enter l t) = 2 * t /\
  arrivals l (enter l t) = 2 * t /\ (forall u, ~ has_left (enter l t) u) /\ (forall u, ~ has_right (enter l t) u).
Proof.
  intros l t T. unfold enter. destruct (t <? tiles l) eqn:E.
  - apply Nat.ltb_lt in E. cbn. repeat split; auto.
  - apply Nat.ltb_ge in E. assert (t = tiles l) by lia. subst. cbn. repeat split; auto.
Qed.

(** a thread that moves from [p] to [q] without touching the tiles *)
Lemma fine_move : forall l gl gr c b i p s q s', sane l -> fine l gl gr c b -> nth_error (threads b) i = Some (p, s) ->
  inside l q -> s' = sums l gl gr c i (summed l q) ->
  (forall t, has_left q t -> has_left p t) -> (forall t, has_right q t -> has_right p t) ->
  arrivals l p <= arrivals l q ->
  (forall j r u, nth_error (threads b) j = Some (r, u) -> passed l q <= arrivals l r) -> passed l q <= arrivals l q ->
  fine l gl gr c (move b i q s').
Proof.
  intros l gl gr c b i p s q s' S F Hi Iq Sq HL HR AR SY SE. destruct F as [F1 F2 F3 F4 F5 F6 F7].
  unfold move. constructor; cbn [threads ltile rtile]; auto.
  - rewrite upd_length; auto.
  - intros j r u H. apply upd_cases in H. destruct H as [[-> H]|[NE H]].
    + injection H as -> ->. destruct (F4 i p s Hi) as (_ & _ & L & R). split; auto.
    + exact (F4 j r u H).
  - intros a j r r' u u' H1 H2. apply upd_cases in H1. apply upd_cases in H2.
    destruct H1 as [[-> H1]|[N1 H1]]; destruct H2 as [[-> H2]|[N2 H2]].
    + injection H1 as -> ->. injection H2 as -> ->. exact SE.
    + injection H1 as -> ->. exact (SY j r' u' H2).
    + injection H2 as -> ->. assert (X := F5 a i r p u s H1 Hi). lia.
    + exact (F5 a j r r' u u' H1 H2).
Qed.

Lemma all_arrived_spec : forall (l : launch A) (b : block A) n, all_arrived l b n = true <->
  (forall j r u, nth_error (threads b) j = Some (r, u) -> n <= arrivals l r).
Proof.
  intros l b n. unfold all_arrived. rewrite forallb_forall. split.
  - intros H j r u E. specialize (H (r, u) (nth_error_In _ _ E)). now apply Nat.leb_le in H.
  - intros H [r u] I. apply In_nth_error in I. destruct I as [j E]. apply Nat.leb_le. exact (H j r u E).
Qed.

(** while a thread multiplies, all threads of the block have their parts of the
    tile in place *)
Lemma synced : forall (l : launch A) q t, inside l q -> t < tiles l ->
  2 * t + 1 <= arrivals l q -> passed l q <= 2 * t + 1 -> has_right q t /\ has_left q t.
Proof. intros l q t I T H1 H2. destruct q; cbn in *; lia. Qed.

Lemma fine_step : forall l gl gr c b i out, sane l -> fine l gl gr c b ->
  fine l gl gr c (fst (step_block zero mac l c i b out)).
Proof.
  intros l gl gr c b i out SN F. unfold step_block.
  destruct (nth_error (threads b) i) as [[p s]|] eqn:Hi; [|exact F].
  assert (LI : i < side l * side l) by (rewrite <- (f_threads _ _ _ _ _ F); apply nth_error_Some; congruence).
  destruct (f_each _ _ _ _ _ F i p s Hi) as (IN & SU & HL & HR).
  assert (SY : forall j r u, nth_error (threads b) j = Some (r, u) -> passed l p <= arrivals l r)
    by (intros j r u E; exact (f_sync _ _ _ _ _ F i j p r s u Hi E)).
  assert (CL := cell_lt l i SN LI). destruct (thread_pos l i SN LI) as (TY & TX & TI).
  destruct p as [t|t|t|t k|t| |]; cbn [fst].
  - (* LoadLeft *)
    pose proof F as [F1 F2 F3 F4 F5 F6 F7]. cbn in IN.
    constructor; cbn [threads ltile rtile]; auto; try (rewrite upd_length; auto).
    + intros j r u H. apply upd_cases in H. destruct H as [[-> H]|[NE H]].
      * injection H as -> ->. cbn. split; auto. split; auto. split; [|intros ? []]. intros u <-. apply nth_error_upd_eq. rewrite F2. exact CL.
      * destruct (F4 j r u H) as (X1 & X2 & X3 & X4). repeat split; auto.
        intros v V. rewrite nth_error_upd_neq; auto. intro X. apply NE. symmetry.
        apply (cell_inj l); auto. rewrite <- F1. apply nth_error_Some. congruence.
    + intros a j r r' u u' H1 H2. apply upd_cases in H1. apply upd_cases in H2.
      destruct H1 as [[-> H1]|[N1 H1]]; destruct H2 as [[-> H2]|[N2 H2]].
      * injection H1 as -> ->. injection H2 as -> ->. cbn. lia.
      * injection H1 as -> ->. exact (SY j r' u' H2).
      * injection H2 as -> ->. assert (X := F5 a i r (LoadLeft t) u s H1 Hi). cbn in X |- *. lia.
      * exact (F5 a j r r' u u' H1 H2).
    + intros y k Y K. rewrite nth_upd. destruct (y * tile l + k =? thread_y l i * tile l + thread_x l i) eqn:E; cbn [andb].
      * apply Nat.eqb_eq in E. destruct SN as [_ SN]. apply pair_inj in E; lia.
      * apply F6; auto.
  - (* LoadRight *)
    pose proof F as [F1 F2 F3 F4 F5 F6 F7]. cbn in IN.
    constructor; cbn [threads ltile rtile]; auto; try (rewrite upd_length; auto).
    + intros j r u H. apply upd_cases in H. destruct H as [[-> H]|[NE H]].
      * injection H as -> ->. cbn. split; auto. split; auto. split; auto. intros u <-. apply nth_error_upd_eq. rewrite F3. exact CL.
      * destruct (F4 j r u H) as (X1 & X2 & X3 & X4). repeat split; auto.
        intros v V. rewrite nth_error_upd_neq; auto. intro X. apply NE. symmetry.
        apply (cell_inj l); auto. rewrite <- F1. apply nth_error_Some. congruence.
    + intros a j r r' u u' H1 H2. apply upd_cases in H1. apply upd_cases in H2.
      destruct H1 as [[-> H1]|[N1 H1]]; destruct H2 as [[-> H2]|[N2 H2]].
      * injection H1 as -> ->. injection H2 as -> ->. cbn. lia.
      * injection H1 as -> ->. exact (SY j r' u' H2).
      * injection H2 as -> ->. assert (X := F5 a i r (LoadRight t) u s H1 Hi). cbn in X |- *. lia.
      * exact (F5 a j r r' u u' H1 H2).
    + intros k x K X. rewrite nth_upd. destruct (k * tile l + x =? thread_y l i * tile l + thread_x l i) eqn:E; cbn [andb].
      * apply Nat.eqb_eq in E. destruct SN as [_ SN]. apply pair_inj in E; lia.
      * apply F7; auto.
  - (* Loaded *)
    destruct (all_arrived l b (2 * t + 1)) eqn:AA; [|exact F]. cbn [fst].
    rewrite all_arrived_spec in AA. cbn in IN.
    apply (fine_move l gl gr c b i (Loaded t) s); auto; cbn [inside summed has_left has_right arrivals passed]; try lia.
    rewrite SU. cbn [summed]. f_equal. lia.
  - (* Multiply *)
    cbn in IN. destruct IN as [IT IK]. pose proof F as [F1 F2 F3 F4 F5 F6 F7].
    assert (NB : forall j r u, nth_error (threads b) j = Some (r, u) -> has_right r t /\ has_left r t).
    { intros j r u E. destruct (F4 j r u E) as (X & _ & _ & _). apply (synced l); auto.
      - exact (SY j r u E).
      - exact (F5 j i r (Multiply t k) u s E Hi). }
    assert (RL : nth (thread_y l i * tile l + k) (ltile b) None = seen_left l gl c i t k).
    { unfold seen_left. destruct (k <? side l) eqn:E.
      - apply Nat.ltb_lt in E. set (j := thread_y l i * side l + k).
        destruct (thread_of l (thread_y l i) k E) as [J1 J2]. fold j in J1, J2.
        assert (LJ : j < side l * side l) by (unfold j; nia).
        destruct (nth_error (threads b) j) as [[r u]|] eqn:EJ; [|apply nth_error_None in EJ; lia].
        destruct (NB j r u EJ) as [_ HJ]. destruct (F4 j r u EJ) as (_ & _ & X & _). specialize (X t HJ).
        unfold cell in X. rewrite J1, J2 in X. apply nth_error_nth with (d := None) in X. exact X.
      - apply Nat.ltb_ge in E. apply F6; auto. }
    assert (RR : nth (k * tile l + thread_x l i) (rtile b) None = seen_right l gr c i t k).
    { unfold seen_right. destruct (k <? side l) eqn:E.
      - apply Nat.ltb_lt in E. set (j := k * side l + thread_x l i).
        destruct (thread_of l k (thread_x l i) TX) as [J1 J2]. fold j in J1, J2.
        assert (LJ : j < side l * side l) by (unfold j; nia).
        destruct (nth_error (threads b) j) as [[r u]|] eqn:EJ; [|apply nth_error_None in EJ; lia].
        destruct (NB j r u EJ) as [HJ _]. destruct (F4 j r u EJ) as (_ & _ & _ & X). specialize (X t HJ).
        unfold cell in X. rewrite J1, J2 in X. apply nth_error_nth with (d := None) in X. exact X.
      - apply Nat.ltb_ge in E. apply F7; auto. }
    assert (NX : mac_opt mac s (nth (thread_y l i * tile l + k) (ltile b) None) (nth (k * tile l + thread_x l i) (rtile b) None)
                 = sums l gl gr c i (t * tile l + S k)).
    { rewrite RL, RR, SU. cbn [summed]. rewrite Nat.add_succ_r, sums_S.
      assert (D : (t * tile l + k) / tile l = t /\ (t * tile l + k) mod tile l = k).
      { rewrite (Nat.add_comm (t * tile l)). rewrite Nat.div_add by lia. rewrite Nat.mod_add by lia. rewrite Nat.div_small by lia. rewrite Nat.mod_small by lia. lia. }
      destruct D as [-> ->]. reflexivity. }
    destruct (S k <? tile l) eqn:E.
    + apply Nat.ltb_lt in E. apply (fine_move l gl gr c b i (Multiply t k) s); auto; cbn [inside has_left has_right arrivals passed]; try lia.
    + apply Nat.ltb_ge in E. apply (fine_move l gl gr c b i (Multiply t k) s); auto; cbn [inside has_left has_right arrivals passed]; try lia.
      rewrite NX. cbn [summed]. f_equal. replace (S k) with (tile l) by lia. lia.
  - (* Used *)
    destruct (all_arrived l b (2 * t + 2)) eqn:AA; [|exact F]. cbn [fst].
    rewrite all_arrived_spec in AA. cbn in IN. destruct (enter_facts l (S t) ltac:(lia)) as (E1 & E2 & E3 & E4 & E5 & E6).
    apply (fine_move l gl gr c b i (Used t) s); auto.
    + rewrite E2. exact SU.
    + intros u U. now apply E5 in U.
    + intros u U. now apply E6 in U.
    + rewrite E4. cbn. lia.
    + intros j r u E. rewrite E3. assert (X := AA j r u E). lia.
    + lia.
  - (* Store *)
    apply (fine_move l gl gr c b i Store s); auto; cbn; auto; lia.
  - exact F.
Qed.

Lemma nth_error_repeat' : forall B (x : B) n i y, nth_error (repeat x n) i = Some y -> y = x.
Proof. intros B x n i y H. apply nth_error_In in H. now apply repeat_spec in H. Qed.

Lemma fine_start : forall l gl gr c, sane l -> length gl = tile l * tile l -> length gr = tile l * tile l ->
  fine l gl gr c (mkBlock gl gr (repeat (enter l 0, Some zero) (side l * side l))).
Proof.
  intros l gl gr c S G1 G2. destruct (enter_facts l 0 ltac:(lia)) as (E1 & E2 & E3 & E4 & E5 & E6).
  constructor; cbn [threads ltile rtile]; auto.
  - apply repeat_length.
  - intros i p s H. apply nth_error_repeat' in H. injection H as -> ->. split; auto. split; [rewrite E2; reflexivity|].
    split; intros t T; [now apply E5 in T|now apply E6 in T].
  - intros i j p q s u H1 H2. apply nth_error_repeat' in H1, H2. injection H1 as -> ->. injection H2 as -> ->. lia.
Qed.
End P.
