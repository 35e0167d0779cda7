(** Proofs about the gradient rules of the window reductions. *)
From Coq Require Import List Arith ZArith Bool Lia Reals Lra Permutation Sorted.
From Verif Require Import Base IndexSpec LayoutModel ViewSpec LayoutProofs LayoutProofs2 BcastProofs KernelModel TensorModel TensorSpec KernelProofs TensorProofs ElementwiseProofs.
From Verif Require Import DenSpec DenProofs CountProofs WindowModel WindowProofs ConvModel ConvReal MoveGradProofs MatGradSpec RedSpec RedProofs LinGradProofs RedGradProofs.
From Verif Require Import IndexGradProofs PoolProofs WinGradModel WinGradSpec.
Import ListNotations.
Open Scope nat_scope.

(* ---------- tensors as functions, at any offset ---------- *)
Definition shows {A} (t : tensor A) (s : list nat) (f : list nat -> A) : Prop :=
  good t /\ tshape t = s /\ all_pos s /\ forall i, valid s i -> elem t i = Some (f i).
Lemma shows_den : forall A (t : tensor A) s f, shows t s f -> usable t -> den t s f.
Proof. intros A t s f (G & S & P & H) U. repeat (split; auto). Qed.
Lemma shows_view : forall A (z : A) o t s s' f g, (forall a b c d, o <> VSlice a b c d) ->
  shows t s f -> regular o s -> shape_rel o s s' -> all_pos s' ->
  (forall i j, valid s' i -> valid s j -> index_rel o s s' i j -> g i = f j) ->
  exists t', t_view z o t = Ok t' /\ shows t' s' g /\ (usable t -> usable t').
Proof.
  intros A z o t s s' f g N (G & S & P & H) Rg SR P' HI. subst s.
  destruct (t_view_total A z o t s' G Rg SR) as [t' [E Es]]. exists t'. split; auto.
  destruct (t_view_spec A z o t t' G Rg E) as [G' [_ HJ]].
  split; [|intros U; left; exact (t_view_usable A z o t t' N G U E)].
  split; [auto|]. split; [auto|]. split; [auto|].
  intros i V. rewrite Es in HJ. destruct (HJ i V) as [j [IR [Vj Ej]]]. rewrite Ej, H by auto. f_equal. symmetry. now apply HI.
Qed.

(* ---------- repeating the entries of an axis ---------- *)
Section Up.
Variables (A : Type) (z : A).
Lemma mid_pos : forall pre n l, all_pos (pre ++ n :: l) <-> all_pos pre /\ 0 < n /\ all_pos l.
Proof.
  intros pre n l. unfold all_pos. rewrite Forall_app. split; intros [H1 H2]; [inversion H2; auto|]. destruct H2. split; auto.
Qed.
Lemma split_mid : forall pre n l i, valid (pre ++ n :: l) i -> exists i1 x i2, i = i1 ++ x :: i2 /\ valid pre i1 /\ x < n /\ valid l i2.
Proof.
  induction pre as [|p pre IH]; intros n l [|x i] V; cbn [app] in V; try (now destruct V).
  - destruct V. exists [], x, i. repeat split; auto.
  - destruct V as [V1 V2]. destruct (IH n l i V2) as (i1 & y & i2 & -> & W1 & W2 & W3). exists (x :: i1), y, i2. repeat split; auto.
Qed.
Lemma valid_mid : forall pre n l i x j, valid pre i -> x < n -> valid l j -> valid (pre ++ n :: l) (i ++ x :: j).
Proof. intros. apply valid_app; [now apply valid_length|]. split; auto. cbn. auto. Qed.
Lemma ravel_eq : forall s i j, valid s i -> valid s j -> ravel s i = ravel s j -> i = j.
Proof. intros s i j Vi Vj H. rewrite <- (unravel_ravel s i), <- (unravel_ravel s j) by auto. now rewrite H. Qed.
Lemma bidx_app : forall a b i j, length i = length a -> length j = length b -> bidx (a ++ b) (i ++ j) = bidx a i ++ bidx b j.
Proof.
  intros a b i j Li Lj. unfold bidx. rewrite !app_length, Li, Lj, !Nat.sub_diag. cbn [skipn].
  revert i Li. induction a as [|x a IH]; intros [|y i] Li; try discriminate; [reflexivity|]. cbn [app combine map]. f_equal. apply IH. cbn in Li. lia.
Qed.
Lemma repeat_axis_ok : forall (t : tensor A) pre n l k f, shows t (pre ++ n :: l) f -> 0 < k ->
  exists r, repeat_axis z (length pre) k t = Ok r /\ (usable t -> usable r) /\
    shows r (pre ++ (n * k) :: l) (fun i => f (upd i (length pre) (nth (length pre) i 0 / k))).
Proof.
  intros t pre n l k f Sh Hk. pose proof Sh as (G & S & P & H). apply mid_pos in P. destruct P as (Pp & Pn & Pl).
  assert (UPD : forall (q : list nat) (i : list nat) x y, length i = length pre -> upd (i ++ x :: q) (length pre) y = i ++ y :: q).
  { intros q i x y Li. rewrite <- Li. clear. induction i as [|a i IH]; cbn [app length upd]; [reflexivity|now rewrite IH]. }
  assert (NTH : forall (q : list nat) (i : list nat) x, length i = length pre -> nth (length pre) (i ++ x :: q) 0 = x).
  { intros q i x Li. rewrite <- Li. rewrite app_nth2, Nat.sub_diag by lia. reflexivity. }
  unfold repeat_axis. destruct (Nat.ltb_spec 1 k) as [Hk1|Hk1].
  - change (lshape (tlay t)) with (tshape t). rewrite S. replace (length (pre ++ n :: l) <? Datatypes.S (length pre)) with false by (symmetry; apply Nat.ltb_ge; rewrite app_length; cbn; lia).
    unfold idx_or_panic. rewrite nth_error_app2, Nat.sub_diag by lia. cbn [nth_error bind].
    replace (firstn (Datatypes.S (length pre)) (pre ++ n :: l) ++ 1 :: skipn (Datatypes.S (length pre)) (pre ++ n :: l)) with (pre ++ n :: 1 :: l).
    2: { change (n :: l) with ([n] ++ l). rewrite app_assoc. replace (Datatypes.S (length pre)) with (length (pre ++ [n])) by (rewrite app_length; cbn; lia).
         rewrite firstn_app, skipn_app, firstn_all, skipn_all, Nat.sub_diag. cbn [firstn skipn app]. rewrite app_nil_r, <- app_assoc. reflexivity. }
    set (ex := pre ++ n :: 1 :: l). set (sh := fun i => f (firstn (Datatypes.S (length pre)) i ++ skipn (Datatypes.S (Datatypes.S (length pre))) i)).
    assert (CUT : forall (i : list nat) x c j, length i = length pre -> firstn (Datatypes.S (length pre)) (i ++ x :: c :: j) ++ skipn (Datatypes.S (Datatypes.S (length pre))) (i ++ x :: c :: j) = i ++ x :: j).
    { intros i x c j Li. rewrite <- Li. clear. induction i as [|a i IH]; [reflexivity|]. cbn [app length firstn skipn]. f_equal. exact IH. }
    destruct (shows_view A z (VReshape ex) t (pre ++ n :: l) ex f sh) as (t1 & E1 & Sh1 & U1); auto; try discriminate; try exact I.
    { cbn [shape_rel]. split; [|reflexivity]. unfold ex. rewrite !nelem_app, !nelem_cons. lia. }
    { unfold ex. apply mid_pos. split; auto. split; auto. constructor; auto. }
    { intros i j Vi Vj IR. cbn [index_rel] in IR. unfold ex in *. destruct (split_mid pre n (1 :: l) i Vi) as (i1 & x & i2 & -> & V1 & V2 & V3).
      destruct i2 as [|c i2]; [destruct V3|]. destruct V3 as [Vc V3]. assert (c = 0) by lia. subst c. pose proof (valid_length _ _ V1) as L1.
      unfold sh. rewrite CUT by auto. f_equal. apply (ravel_eq (pre ++ n :: l)); auto; [now apply valid_mid|]. rewrite IR.
      rewrite !ravel_app by auto. cbn [ravel]. rewrite !nelem_cons. lia. }
    rewrite E1. cbn [bind].
    replace (upd ex (Datatypes.S (length pre)) k) with (pre ++ n :: k :: l).
    2: { unfold ex. clear. induction pre as [|a pre IH]; [reflexivity|]. cbn [app length upd]. f_equal. exact IH. }
    set (bx := pre ++ n :: k :: l).
    destruct (shows_view A z (VBroadcast bx) t1 ex bx sh sh) as (t2 & E2 & Sh2 & U2); auto; try discriminate; try exact I.
    { cbn [shape_rel]. split; [reflexivity|]. exists [], bx. split; [reflexivity|]. unfold ex, bx. apply Forall2_app.
      - clear. induction pre; constructor; auto.
      - constructor; auto. constructor; auto. clear. induction l; constructor; auto. }
    { unfold bx. apply mid_pos. split; auto. split; auto. constructor; auto. }
    { intros i j Vi Vj IR. pose proof (valid_length _ _ Vi) as Li. apply index_rel_bidx in IR; auto; [|unfold ex, bx; rewrite !app_length; cbn; lia].
      subst j. unfold ex, bx in *. destruct (split_mid pre n (k :: l) i Vi) as (i1 & x & i2 & -> & V1 & V2 & V3).
      destruct i2 as [|c i2]; [destruct V3|]. destruct V3 as [Vc V3]. pose proof (valid_length _ _ V1) as L1. pose proof (valid_length _ _ V3) as L3.
      rewrite bidx_app by (auto; cbn [length]; lia). change (n :: 1 :: l) with ([n; 1] ++ l). change (x :: c :: i2) with ([x; c] ++ i2). rewrite bidx_app by auto.
      rewrite !bidx_self by auto. change (bidx [n; 1] [x; c]) with [if n =? 1 then 0 else x; 0]. cbn [app]. unfold sh. rewrite !CUT by (now apply valid_length).
      rewrite (bidx_self l i2) by auto. destruct (Nat.eqb_spec n 1) as [->|]; auto. replace x with 0 by lia. reflexivity. }
    rewrite E2. cbn [bind].
    replace (upd (pre ++ n :: l) (length pre) (n * k)) with (pre ++ (n * k) :: l) by (symmetry; now apply UPD).
    destruct (shows_view A z (VReshape (pre ++ (n * k) :: l)) t2 bx (pre ++ (n * k) :: l) sh (fun i => f (upd i (length pre) (nth (length pre) i 0 / k)))) as (t3 & E3 & Sh3 & U3); auto; try discriminate; try exact I.
    { cbn [shape_rel]. split; [|reflexivity]. unfold bx. rewrite !nelem_app, !nelem_cons. lia. }
    { apply mid_pos. split; auto. split; auto. nia. }
    { intros i j Vi Vj IR. cbn [index_rel] in IR. unfold bx in *. destruct (split_mid pre (n * k) l i Vi) as (i1 & x & i2 & -> & V1 & V2 & V3).
      pose proof (valid_length _ _ V1) as L1. rewrite UPD, NTH by auto.
      assert (HD : x / k < n) by (apply Nat.div_lt_upper_bound; nia). assert (HM := Nat.mod_upper_bound x k).
      replace j with (i1 ++ x / k :: x mod k :: i2); [unfold sh; now rewrite CUT by (now apply valid_length)|].
      apply (ravel_eq (pre ++ n :: k :: l)); auto; [apply valid_mid; auto; split; auto; lia|]. rewrite IR.
      rewrite !ravel_app by auto. cbn [ravel]. rewrite !nelem_cons. pose proof (Nat.div_mod x k) as DM. assert (DM' : x = k * (x / k) + x mod k) by (apply DM; lia).
      set (a := x / k) in *. set (b := x mod k) in *. clearbody a b. subst x. nia. }
    exists t3. split; [exact E3|]. split; auto.
  - exists t. assert (k = 1) by lia. subst k. split; auto. split; auto. rewrite Nat.mul_1_r. split; [auto|]. split; [auto|]. split; [apply mid_pos; auto|].
    intros i V. rewrite H by auto. f_equal. rewrite Nat.div_1_r. f_equal. destruct (split_mid pre n l i V) as (i1 & x & i2 & -> & V1 & V2 & V3).
    rewrite NTH, UPD by (now apply valid_length). reflexivity.
Qed.
Fixpoint times (a b : list nat) : list nat := match a, b with x :: a', y :: b' => x * y :: times a' b' | _, _ => [] end.
Lemma upsample_ok : forall strides pre l (t : tensor A) f, length strides = length l -> all_pos strides -> shows t (pre ++ l) f ->
  exists r, upsample z (length pre) strides t = Ok r /\ (usable t -> usable r) /\
    shows r (pre ++ times l strides) (fun i => f (firstn (length pre) i ++ cell strides (skipn (length pre) i))).
Proof.
  induction strides as [|k strides IH]; intros pre [|n l] t f L P Sh; try discriminate.
  - exists t. split; auto. split; auto. destruct Sh as (G & Ss & P' & H). split; [auto|]. split; [auto|]. split; [auto|].
    intros i V. rewrite H by auto. cbn [times] in *. rewrite app_nil_r in V. apply valid_length in V. cbn [cell]. now rewrite app_nil_r, <- V, firstn_all.
  - inversion P as [|? ? P1 P2]. subst. cbn [upsample]. injection L as L.
    destruct (IH (pre ++ [n]) l t f L P2) as (t1 & E1 & U1 & Sh1); [now rewrite <- app_assoc|].
    replace (length (pre ++ [n])) with (S (length pre)) in E1 by (rewrite app_length; cbn; lia).
    rewrite E1. cbn [bind]. rewrite <- app_assoc in Sh1. cbn [app] in Sh1.
    destruct (repeat_axis_ok t1 pre n (times l strides) k _ Sh1 P1) as (r & E2 & U2 & G2 & S2 & P2' & H2). exists r. split; [auto|]. split; [auto|]. cbn [times].
    split; [auto|]. split; [auto|]. split; [auto|]. intros i V. rewrite H2 by auto. f_equal. f_equal.
    destruct (split_mid pre (n * k) (times l strides) i V) as (i1 & x & i2 & -> & V1 & V2 & V3). apply valid_length in V1. rewrite app_length. cbn [length].
    rewrite <- V1. clear. replace (length i1 + 1) with (S (length i1)) by lia.
    induction i1 as [|a i1 IH]; [reflexivity|]. cbn [app length upd nth firstn skipn] in *. f_equal. exact IH.
Qed.

(* ---------- the spread gradient ---------- *)
Lemma tiling_lengths : forall s window strides padding out, tiling s window strides padding out ->
  length window = length s /\ length strides = length s /\ length padding = length s /\ length out = length s /\
  all_pos s /\ all_pos strides /\ all_pos out /\ all_pos window.
Proof.
  induction 1 as [|n w st pad q s window strides padding out T _ (L1 & L2 & L3 & L4 & P1 & P2 & P3 & P4)]; [repeat (split; auto); constructor|].
  destruct T as (-> & Hw & Hq & -> & Hst). cbn [length]. repeat split; auto; constructor; auto; nia.
Qed.
Lemma cell_valid : forall s window strides padding out, tiling s window strides padding out -> forall i, valid s i -> valid out (cell window i).
Proof.
  induction 1 as [|n w st pad q s window strides padding out T _ IH]; intros [|x i] V; try (now destruct V).
  destruct V as [V1 V2]. destruct T as (-> & Hw & Hq & -> & Hst). split; [apply Nat.div_lt_upper_bound; nia|]. now apply IH.
Qed.
Lemma cell_spread : forall s window strides padding out, tiling s window strides padding out -> forall i, valid s i ->
  cell strides (bidx (times out strides) i) = cell window i.
Proof.
  induction 1 as [|n w st pad q s window strides padding out T TT IH]; intros [|x i] V; try (now destruct V).
  destruct V as [V1 V2]. cbn [times]. change (q * st :: times out strides) with ([q * st] ++ times out strides). change (x :: i) with ([x] ++ i).
  assert (LL : length i = length (times out strides)).
  { rewrite (valid_length _ _ V2). destruct (tiling_lengths _ _ _ _ _ TT) as (_ & L2 & _ & L4 & _). revert L2 L4. clear. revert out strides.
    induction s; intros [|? ?] [|? ?] L2 L4; try discriminate; auto. cbn in *. f_equal. apply IHs; lia. }
  rewrite bidx_app by auto. change (bidx [q * st] [x]) with [if q * st =? 1 then 0 else x]. cbn [app cell]. f_equal; [|now apply IH].
  destruct T as (-> & Hw & Hq & -> & Hst). destruct (Nat.eqb_spec (q * st) 1) as [E|E].
  - rewrite Nat.div_0_l by (destruct Hst; nia). symmetry. apply Nat.div_small. destruct Hst as [->|[-> ->]]; nia.
  - destruct Hst as [->|[-> ->]]; [reflexivity|lia].
Qed.
Lemma spread_rel : forall s window strides padding out, tiling s window strides padding out ->
  Forall2 (fun d d' => d = d' \/ d = 1) (times out strides) s.
Proof.
  induction 1 as [|n w st pad q s window strides padding out T TT IH]; [constructor|]. constructor; auto.
  destruct T as (-> & Hw & Hq & -> & Hst). destruct Hst as [->|[-> ->]]; [now left|right; lia].
Qed.
Lemma spread_ok : forall s window strides padding out (t : tensor A) f, tiling s window strides padding out -> shows t out f ->
  exists r, spread z s strides t = Ok r /\ (usable t -> usable r) /\ shows r s (fun i => f (cell window i)).
Proof.
  intros s window strides padding out t f T Sh. pose proof (tiling_lengths _ _ _ _ _ T) as (L1 & L2 & L3 & L4 & P1 & P2 & P3 & P4).
  destruct (upsample_ok strides [] out t f) as (u & E1 & U1 & Sh1); auto; [congruence|]. cbn [length app firstn skipn] in *.
  assert (LT : length (times out strides) = length s) by (exact (Forall2_len _ _ _ _ _ (spread_rel _ _ _ _ _ T))).
  unfold spread. rewrite E1. cbn [bind].
  destruct (shows_view A z (VBroadcast s) u (times out strides) s _ (fun i => f (cell window i)) ltac:(discriminate) Sh1 I) as (r & E2 & Sh2 & U2); auto.
  - split; [reflexivity|]. exists [], s. split; [reflexivity|]. now apply (spread_rel _ window strides padding).
  - intros i j Vi Vj IR. apply index_rel_bidx in IR; [|lia|now apply valid_length]. subst j. f_equal. symmetry. now apply (cell_spread s window strides padding out).
  - exists r. split; auto.
Qed.
End Up.

(* ---------- the windows of a tiling ---------- *)
Lemma tiling_fits : forall s window strides padding out, tiling s window strides padding out ->
  window_fits s window strides padding /\ out_sizes s window strides padding = out.
Proof.
  unfold window_fits, out_sizes. induction 1 as [|n w st pad q s window strides padding out T _ [IH1 IH2]]; [split; constructor|].
  destruct T as (-> & Hw & Hq & -> & Hst). cbn [combine map]. split.
  - constructor; [destruct Hst as [->|[-> ->]]; nia|auto].
  - rewrite IH2. f_equal. destruct Hst as [->|[-> ->]].
    + replace (q * w + 0 + 0 - w) with ((q - 1) * w) by nia. rewrite Nat.div_mul by lia. lia.
    + replace (1 * w + 0 + 0 - w) with 0 by lia. reflexivity.
Qed.
Lemma tiling_window : forall s window strides padding out, tiling s window strides padding out -> forall o i, valid out o ->
  in_window o strides window (map fst padding) s i <-> valid s i /\ cell window i = o.
Proof.
  induction 1 as [|n w st pad q s window strides padding out T _ IH]; intros [|x o] [|y i] V; try (now destruct V); cbn [in_window map cell valid]; try tauto.
  destruct V as [V1 V2]. specialize (IH o i V2). destruct T as (-> & Hw & Hq & -> & Hst). cbn [fst].
    assert (D : y < q * w -> (x * st <= y + 0 < x * st + w <-> y / w = x)).
    { intros Hy. destruct Hst as [->|[-> ->]].
      - split.
        + intros H. symmetry. apply (Nat.div_unique y w x (y - x * w)); nia.
        + intros <-. pose proof (Nat.div_mod y w). pose proof (Nat.mod_upper_bound y w). nia.
      - assert (x = 0) by lia. subst x. rewrite Nat.div_small by lia. lia. }
    split.
    + intros (H1 & H2 & H3). apply IH in H3. destruct H3 as [H3 <-]. apply D in H2; auto. rewrite H2. auto.
    + intros [[H1 H2] H3]. injection H3 as H3 H4. split; auto. split; [now apply D|]. now apply IH.
Qed.
Lemma in_members : forall window s o i, In i (members window s o) <-> valid s i /\ cell window i = o.
Proof.
  intros window s o i. unfold members. rewrite filter_In, in_all_idx. destruct (list_eq_dec Nat.eq_dec (cell window i) o); split; intros []; auto; discriminate.
Qed.
(** the window reductions on a tiling *)
Lemma tiled_reduce : forall A B C (init : B) (f : B -> A -> B) (oob : option A) (fin : nat -> B -> C) (P : B -> Prop) (Q : A -> Prop),
  P init -> (forall b a, Q a -> P b -> P (f b a)) -> (forall v b, oob = Some v -> P b -> f b v = b) ->
  forall z (t : tensor A) s h window strides padding out, shows t s h -> length s <= 16 -> tiling s window strides padding out ->
  (forall i, valid s i -> Q (h i)) ->
  exists r, t_reduce_window init f oob fin z t window strides padding = Ok r /\ usable r /\
    shows r out (fun o => fin (nelem window) (fold_left f (map h (members window s o)) init)).
Proof.
  intros A B C init f oob fin P Q P0 Pf Ho z t s h window strides padding out (G & Es & Ps & H) H16 T HQ.
  destruct (tiling_lengths _ _ _ _ _ T) as (L1 & L2 & L3 & L4 & _ & _ & P3 & _). destruct (tiling_fits _ _ _ _ _ T) as [F1 F2]. subst s.
  destruct (t_reduce_window_spec A B C init f oob fin P Q P0 Pf Ho z t window strides padding h G L1 L2 L3 H16 F1 H HQ) as (r & E & Gr & Lr & Hr).
  assert (Sr : tshape r = out) by (unfold tshape; rewrite Lr; exact F2). exists r. split; [auto|]. split; [left; now rewrite Lr|].
  split; [auto|]. split; [auto|]. split; [auto|]. intros o V. rewrite Sr in Hr. destruct (Hr o V) as (srcs & S1 & S2 & S3). rewrite S3.
  replace (members window (tshape t) o) with srcs; [reflexivity|]. apply sorted_same; auto; [apply sorted_filter_lex, all_idx_sorted|].
  intros i. rewrite S2, in_members. now apply (tiling_window _ _ _ _ out).
Qed.

(* ---------- sum and mean ---------- *)
Lemma Sum_cells : forall window s out F, (forall i, valid s i -> valid out (cell window i)) ->
  Sum (all_idx out) (fun o => Sum (members window s o) (F o)) = Sum (all_idx s) (fun i => F (cell window i) i).
Proof.
  intros window s out F H.
  transitivity (Sum (all_idx out) (fun o => Sum (all_idx s) (fun i => ind (if list_eq_dec Nat.eq_dec (cell window i) o then true else false) (F o i)))).
  { apply Sum_ext. intros o _. unfold members. apply Sum_filter. }
  rewrite Sum_swap. apply Sum_idx_ext. intros i V. specialize (H i V). apply in_all_idx in H. pose proof (all_idx_NoDup out) as N. revert H N.
  generalize (all_idx out). set (c := cell window i). clearbody c. clear. induction l as [|o l IH]; intros I N; [destruct I|]. inversion N as [|? ? N1 N2]; subst. rewrite Sum_cons.
  destruct (list_eq_dec Nat.eq_dec c o) as [<-|NE].
  - unfold ind at 1. replace (Sum l _) with 0%R; [lra|]. symmetry. transitivity (Sum l (fun _ => 0%R)); [|apply Sum_zero]. apply Sum_ext.
    intros o Ho. destruct (list_eq_dec Nat.eq_dec c o) as [<-|]; [contradiction|reflexivity].
  - unfold ind at 1. rewrite IH; auto; [lra|]. destruct I; auto. congruence.
Qed.
Lemma fold_left_sum : forall X (h : X -> R) l a, fold_left Rplus (map h l) a = (a + Sum l h)%R.
Proof. induction l as [|x l IH]; intros a; cbn [map fold_left]; [rewrite Sum_nil; lra|]. rewrite IH, Sum_cons. lra. Qed.
Lemma shows_val : forall (t : tensor R), good t -> all_pos (tshape t) -> shows t (tshape t) (val t).
Proof. intros t G P. split; [auto|]. split; [auto|]. split; [auto|]. intros i V. now apply val_good. Qed.

(* ---------- the derivative of a window loss ---------- *)
Lemma members_split : forall window s i, valid s i -> exists rest,
  Permutation (members window s (cell window i)) (i :: rest) /\ ~ In i rest.
Proof.
  intros window s i V. assert (I : In i (members window s (cell window i))) by (apply in_members; auto).
  destruct (in_split _ _ I) as (l1 & l2 & E). exists (l1 ++ l2). rewrite E. split; [symmetry; apply Permutation_middle|].
  assert (N : NoDup (members window s (cell window i))) by apply NoDup_filter, all_idx_NoDup.
  rewrite E in N. now apply NoDup_remove_2 in N.
Qed.
Lemma wloss_derivative : forall h window s out w r i D rest, (forall l l', Permutation l l' -> h l = h l') ->
  valid s i -> valid out (cell window i) -> Permutation (members window s (cell window i)) (i :: rest) -> ~ In i rest ->
  derivable_pt_lim (fun t => h ((r i + t)%R :: map r rest)) 0 D ->
  derivable_pt_lim (fun t => wloss h window s out w (nudge r i t)) 0 (D * w (cell window i))%R.
Proof.
  intros h window s out w r i D rest Ph V Vj P N HD. set (j := cell window i) in *.
  apply (derivable_local _ (fun t => (wloss h window s out w r - w j * h (map r (members window s j)))%R + w j * h ((r i + t)%R :: map r rest))%R _ 1); [lra| |].
  - intros t _. unfold wloss. change (fold_right Rplus 0%R) with NnSpec.Rsum.
    rewrite (Rsum_one (all_idx out) (fun k => w k * h (map (nudge r i t) (members window s k)))%R (fun k => w k * h (map r (members window s k)))%R j).
    + replace (h (map (nudge r i t) (members window s j))) with (h ((r i + t)%R :: map r rest)); [lra|].
      transitivity (h (map (nudge r i t) (i :: rest))); [cbn [map]; now rewrite nudge_at, nudge_off|].
      apply Ph, Permutation_map. now symmetry.
    + now apply in_all_idx.
    + apply all_idx_NoDup.
    + intros k K NE. rewrite nudge_off; auto. intros I. apply in_members in I. destruct I as [_ I]. now symmetry in I.
  - set (c := (wloss h window s out w r - w j * h (map r (members window s j)))%R). replace (D * w j)%R with (0 + w j * D)%R by lra.
    apply (derivable_pt_lim_plus (fun _ => c) (fun t => w j * h ((r i + t)%R :: map r rest))%R); [apply derivable_pt_lim_const|].
    now apply (derivable_pt_lim_scal (fun t => h ((r i + t)%R :: map r rest))).
Qed.
Lemma cell_onto : forall s window strides padding out, tiling s window strides padding out -> forall o, valid out o -> exists i, valid s i /\ cell window i = o.
Proof.
  induction 1 as [|n w st pad q s' window' strides' padding' out' TT _ IH]; intros [|x o] V; try (now destruct V); [exists []; split; auto|].
  destruct V as [V1 V2]. destruct (IH o V2) as (i & I1 & I2). destruct TT as (-> & Hw & Hq & -> & _). exists (x * w :: i). cbn [valid cell]. rewrite Nat.div_mul by lia. rewrite I2. repeat split; auto. nia.
Qed.
(* ---------- the rules ---------- *)
Section Rules.
Variables (s window strides out : list nat) (padding : list (nat * nat)).
Hypothesis T : tiling s window strides padding out.
Hypothesis H16 : length s <= 16.
Lemma vjp_window_sum_ok : forall x g, good x -> tshape x = s -> good g -> tshape g = out ->
  exists y gx, t_reduce_window 0%R Rplus (Some 0%R) (fun _ b => b) 0%R x window strides padding = Ok y /\
    vjp_window_sum 0%R s strides g = Ok gx /\ good gx /\ tshape gx = s /\ pairing g y = pairing gx x.
Proof.
  intros x g Gx Sx Gg Sg. destruct (tiling_lengths _ _ _ _ _ T) as (_ & _ & _ & _ & P1 & _ & P3 & _).
  destruct (tiled_reduce R R R 0%R Rplus (Some 0%R) (fun _ b => b) (fun _ => True) (fun _ => True)) with (z := 0%R) (t := x) (s := s) (h := val x) (window := window) (strides := strides) (padding := padding) (out := out)
    as (y & Ey & _ & Gy & Sy & _ & Hy); auto.
  { intros v b E _. injection E as <-. lra. }
  { rewrite <- Sx. apply shows_val; auto. now rewrite Sx. }
  destruct (spread_ok R 0%R s window strides padding out g (val g) T) as (gx & Eg & _ & Gr & Sr & _ & Hr).
  { rewrite <- Sg. apply shows_val; auto. now rewrite Sg. }
  exists y, gx. split; [exact Ey|]. split; [exact Eg|]. split; [auto|]. split; [auto|]. unfold pairing. rewrite Sg, Sr.
  transitivity (Sum (all_idx out) (fun o => Sum (members window s o) (fun i => val g o * val x i)%R)).
  { apply Sum_idx_ext. intros o V. rewrite (val_some y o _ (Hy o V)), fold_left_sum, Rplus_0_l. apply Sum_scale. }
  rewrite (Sum_cells window s out (fun o i => val g o * val x i)%R) by (intros i V; now apply (cell_valid s window strides padding)). apply Sum_idx_ext. intros i V.
  now rewrite (val_some gx i _ (Hr i V)).
Qed.
Lemma vjp_window_mean_ok : forall e x g, env_ok e -> good x -> tshape x = s -> good g -> usable g -> tshape g = out ->
  exists y gx, t_reduce_window 0%R Rplus None (fun n b => b / INR n)%R 0%R x window strides padding = Ok y /\
    vjp_window_mean e 0%R Rmult (1 / INR (nelem window))%R s strides g = Ok gx /\ good gx /\ tshape gx = s /\ pairing g y = pairing gx x.
Proof.
  intros e x g He Gx Sx Gg Ug Sg. destruct (tiling_lengths _ _ _ _ _ T) as (_ & _ & _ & _ & P1 & _ & P3 & _).
  destruct (tiled_reduce R R R 0%R Rplus None (fun n b => b / INR n)%R (fun _ => True) (fun _ => True)) with (z := 0%R) (t := x) (s := s) (h := val x) (window := window) (strides := strides) (padding := padding) (out := out)
    as (y & Ey & _ & Gy & Sy & _ & Hy); auto.
  { intros v b E _. discriminate. }
  { rewrite <- Sx. apply shows_val; auto. now rewrite Sx. }
  destruct (spread_ok R 0%R s window strides padding out g (val g) T) as (u & Eg & Uu & Shu).
  { rewrite <- Sg. apply shows_val; auto. now rewrite Sg. }
  destruct (den_unary R R e 0%R (fun v => v * (1 / INR (nelem window)))%R u s _ He (shows_den _ _ _ _ Shu (Uu Ug))) as (gx & E2 & Gr & _ & Sr & _ & Hr).
  exists y, gx. split; [exact Ey|]. split; [unfold vjp_window_mean; rewrite Eg; exact E2|]. split; [auto|]. split; [auto|]. unfold pairing. rewrite Sg, Sr.
  transitivity (Sum (all_idx out) (fun o => Sum (members window s o) (fun i => val g o * (1 / INR (nelem window)) * val x i)%R)).
  { apply Sum_idx_ext. intros o V. rewrite (val_some y o _ (Hy o V)), fold_left_sum, Rplus_0_l. rewrite <- Sum_scale. unfold Rdiv. ring. }
  rewrite (Sum_cells window s out (fun o i => val g o * (1 / INR (nelem window)) * val x i)%R) by (intros i V; now apply (cell_valid s window strides padding)). apply Sum_idx_ext. intros i V.
  now rewrite (val_some gx i _ (Hr i V)).
Qed.
(** max and min *)
Definition Reqb (a b : R) : bool := if Req_EM_T a b then true else false.
Lemma vjp_window_max_den : forall e x y g r m w, env_ok e -> den x s r -> den y out m -> den g out w ->
  exists gx, vjp_window_max e 0%R 1%R Rmult Reqb x y strides g = Ok gx /\
    den gx s (fun i => (w (cell window i) * (if Req_EM_T (r i) (m (cell window i)) then 1 else 0))%R).
Proof.
  intros e x y g r m w He Dx Dy Dg. unfold vjp_window_max. pose proof Dx as (Gx & Ux & Sx & Px & Hx). change (lshape (tlay x)) with (tshape x). rewrite Sx.
  assert (SH : forall (t : tensor R) f, den t out f -> shows t out f /\ usable t) by (intros t f (G1 & U1 & S1 & P1 & H1); split; auto; repeat (split; auto)).
  destruct (SH y m Dy) as [Shy Uy]. destruct (SH g w Dg) as [Shg Ug].
  destruct (spread_ok R 0%R s window strides padding out y m T Shy) as (uo & E1 & U1 & Sh1). rewrite E1. cbn [bind].
  destruct (spread_ok R 0%R s window strides padding out g w T Shg) as (ug & E2 & U2 & Sh2). rewrite E2. cbn [bind].
  destruct (den_binary_same R R bool e 0%R 0%R false Reqb x uo s r _ He Dx (shows_den _ _ _ _ Sh1 (U1 Uy))) as (mask & E3 & D3). rewrite E3. cbn [bind].
  destruct (den_unary bool R e 0%R (fun b : bool => if b then 1 else 0)%R mask s _ He D3) as (mf & E4 & D4). change (t_cast e 0%R (fun b : bool => if b then 1%R else 0%R) mask) with (t_unary e 0%R (fun b : bool => if b then 1%R else 0%R) mask). rewrite E4. cbn [bind].
  destruct (den_binary_same R R R e 0%R 0%R 0%R Rmult ug mf s _ _ He (shows_den _ _ _ _ Sh2 (U2 Ug)) D4) as (gx & E5 & D5). exists gx. split; [exact E5|].
  destruct D5 as (G5 & U5 & S5 & P5 & H5). repeat (split; auto). intros i V. rewrite H5 by auto. f_equal. f_equal. unfold Reqb. now destruct (Req_EM_T _ _).
Qed.
Lemma members_ne : forall i (r : list nat -> R), valid s i -> map r (members window s (cell window i)) <> [].
Proof. intros i r V E. apply map_eq_nil in E. assert (I : In i (members window s (cell window i))) by (apply in_members; auto). rewrite E in I. destruct I. Qed.
Lemma vjp_window_max_ok : forall e x y g r w, env_ok e -> den x s r -> den y out (fun o => Rtop (map r (members window s o))) -> den g out w ->
  (forall i k, valid s i -> valid s k -> cell window k = cell window i -> let m := Rtop (map r (members window s (cell window i))) in r i = m -> r k = m -> k = i) ->
  exists gx p, vjp_window_max e 0%R 1%R Rmult Reqb x y strides g = Ok gx /\ den gx s p /\
    forall i, valid s i -> derivable_pt_lim (fun t => wloss Rtop window s out w (nudge r i t)) 0 (p i).
Proof.
  intros e x y g r w He Dx Dy Dg NT. destruct (vjp_window_max_den e x y g r _ w He Dx Dy Dg) as (gx & E & D). exists gx. eexists. split; [exact E|]. split; [exact D|].
  intros i V. cbn beta. rewrite Rmult_comm. destruct (members_split window s i V) as (rest & P & N).
  apply (wloss_derivative Rtop window s out w r i _ rest Rtop_perm V); auto; [now apply (cell_valid s window strides padding)|].
  destruct (top_spec _ (members_ne i r V)) as [I U]. rewrite Forall_forall in U. set (m := Rtop (map r (members window s (cell window i)))) in *.
  assert (PM := Permutation_map r P). cbn [map] in PM.
  destruct (Req_EM_T (r i) m) as [Q|Q].
  - apply D_top_in. apply Forall_map, Forall_forall. intros k K. assert (Ik : In k (members window s (cell window i))) by (eapply Permutation_in; [symmetry; exact P|right; auto]).
    pose proof (U (r k) (in_map r _ _ Ik)) as [U'|U']; [rewrite Q; exact U'|]. elim N. apply in_members in Ik. destruct Ik as [Vk Ck]. replace i with k; auto.
  - apply (D_top_out _ _ m).
    + apply (Permutation_in _ PM) in I. destruct I as [I|I]; [congruence|auto].
    + assert (Ii : In (r i) (map r (members window s (cell window i)))) by (apply in_map, in_members; auto). specialize (U _ Ii). lra.
    + apply Forall_forall. intros v Hv. apply U. eapply Permutation_in; [symmetry; exact PM|]. right; auto.
Qed.
Lemma vjp_window_min_ok : forall e x y g r w, env_ok e -> den x s r -> den y out (fun o => Rbot (map r (members window s o))) -> den g out w ->
  (forall i k, valid s i -> valid s k -> cell window k = cell window i -> let m := Rbot (map r (members window s (cell window i))) in r i = m -> r k = m -> k = i) ->
  exists gx p, vjp_window_max e 0%R 1%R Rmult Reqb x y strides g = Ok gx /\ den gx s p /\
    forall i, valid s i -> derivable_pt_lim (fun t => wloss Rbot window s out w (nudge r i t)) 0 (p i).
Proof.
  intros e x y g r w He Dx Dy Dg NT. destruct (vjp_window_max_den e x y g r _ w He Dx Dy Dg) as (gx & E & D). exists gx. eexists. split; [exact E|]. split; [exact D|].
  intros i V. cbn beta. rewrite Rmult_comm. destruct (members_split window s i V) as (rest & P & N).
  apply (wloss_derivative Rbot window s out w r i _ rest Rbot_perm V); auto; [now apply (cell_valid s window strides padding)|].
  destruct (bot_spec _ (members_ne i r V)) as [I U]. rewrite Forall_forall in U. set (m := Rbot (map r (members window s (cell window i)))) in *.
  assert (PM := Permutation_map r P). cbn [map] in PM.
  destruct (Req_EM_T (r i) m) as [Q|Q].
  - apply D_bot_in. apply Forall_map, Forall_forall. intros k K. assert (Ik : In k (members window s (cell window i))) by (eapply Permutation_in; [symmetry; exact P|right; auto]).
    pose proof (U (r k) (in_map r _ _ Ik)) as [U'|U']; [rewrite Q; exact U'|]. elim N. apply in_members in Ik. destruct Ik as [Vk Ck]. replace i with k; auto.
  - apply (D_bot_out _ _ m).
    + apply (Permutation_in _ PM) in I. destruct I as [I|I]; [congruence|auto].
    + assert (Ii : In (r i) (map r (members window s (cell window i)))) by (apply in_map, in_members; auto). specialize (U _ Ii). lra.
    + apply Forall_forall. intros v Hv. apply U. eapply Permutation_in; [symmetry; exact PM|]. right; auto.
Qed.
(** the forward operations *)
Lemma fold_max : forall l lo, l <> [] -> Forall (fun v => lo <= v)%R l -> fold_left (fun acc v => if Rlt_dec v acc then acc else v) l lo = Rtop l.
Proof.
  intros l lo N F. symmetry.
  assert (G : forall l a, let m := fold_left (fun acc v => if Rlt_dec v acc then acc else v) l a in (a <= m)%R /\ Forall (fun v => v <= m)%R l /\ (m = a \/ In m l)).
  { clear. induction l as [|x l IH]; intros a; cbn [fold_left]; [split; [apply Rle_refl|split; [constructor|now left]]|].
    destruct (IH (if Rlt_dec x a then a else x)) as (I1 & I2 & I3). cbv zeta. set (m := fold_left _ l _) in *. clearbody m. destruct (Rlt_dec x a).
    - split; [lra|]. split; [constructor; [lra|auto]|]. destruct I3; auto. right. now right.
    - split; [lra|]. split; [constructor; [lra|auto]|]. right. destruct I3; [left; auto|now right]. }
  destruct (G l lo) as (G1 & G2 & G3). cbv zeta in *. set (m := fold_left _ l lo) in *. clearbody m. apply top_unique; auto.
  destruct G3 as [G3|G3]; auto. destruct l as [|v l]; [contradiction|]. inversion F; inversion G2; subst. left. lra.
Qed.
Lemma fold_min : forall l hi, l <> [] -> Forall (fun v => v <= hi)%R l -> fold_left (fun acc v => if Rlt_dec acc v then acc else v) l hi = Rbot l.
Proof.
  intros l lo N F. symmetry.
  assert (G : forall l a, let m := fold_left (fun acc v => if Rlt_dec acc v then acc else v) l a in (m <= a)%R /\ Forall (fun v => m <= v)%R l /\ (m = a \/ In m l)).
  { clear. induction l as [|x l IH]; intros a; cbn [fold_left]; [split; [apply Rle_refl|split; [constructor|now left]]|].
    destruct (IH (if Rlt_dec a x then a else x)) as (I1 & I2 & I3). cbv zeta. set (m := fold_left _ l _) in *. clearbody m. destruct (Rlt_dec a x).
    - split; [lra|]. split; [constructor; [lra|auto]|]. destruct I3; auto. right. now right.
    - split; [lra|]. split; [constructor; [lra|auto]|]. right. destruct I3; [left; auto|now right]. }
  destruct (G l lo) as (G1 & G2 & G3). cbv zeta in *. set (m := fold_left _ l lo) in *. clearbody m. apply bot_unique; auto.
  destruct G3 as [G3|G3]; auto. destruct l as [|v l]; [contradiction|]. inversion F; inversion G2; subst. left. lra.
Qed.
Lemma window_max_den : forall lo x r, den x s r -> (forall i, valid s i -> lo <= r i)%R ->
  exists y, t_reduce_window lo (fun acc v => if Rlt_dec v acc then acc else v) (Some lo) (fun _ b => b) 0%R x window strides padding = Ok y /\
    den y out (fun o => Rtop (map r (members window s o))).
Proof.
  intros lo x r (Gx & Ux & Sx & Px & Hx) B.
  destruct (tiled_reduce R R R lo (fun acc v => if Rlt_dec v acc then acc else v) (Some lo) (fun _ b => b) (fun b => lo <= b)%R (fun a => lo <= a)%R) with (z := 0%R) (t := x) (s := s) (h := r) (window := window) (strides := strides) (padding := padding) (out := out)
    as (y & Ey & Uy & Gy & Sy & Py & Hy); auto.
  { apply Rle_refl. } { intros b a H1 H2. destruct (Rlt_dec a b); lra. } { intros v b E Hb. injection E as <-. destruct (Rlt_dec lo b); lra. }
  { repeat (split; auto). }
  exists y. split; auto. repeat (split; auto). intros o V. rewrite Hy by auto. f_equal. destruct (cell_onto s window strides padding out T o V) as (i & Vi & <-). apply fold_max; [now apply members_ne|].
  apply Forall_map, Forall_forall. intros k K. apply in_members in K. now apply B.
Qed.
Lemma window_min_den : forall hi x r, den x s r -> (forall i, valid s i -> r i <= hi)%R ->
  exists y, t_reduce_window hi (fun acc v => if Rlt_dec acc v then acc else v) (Some hi) (fun _ b => b) 0%R x window strides padding = Ok y /\
    den y out (fun o => Rbot (map r (members window s o))).
Proof.
  intros lo x r (Gx & Ux & Sx & Px & Hx) B.
  destruct (tiled_reduce R R R lo (fun acc v => if Rlt_dec acc v then acc else v) (Some lo) (fun _ b => b) (fun b => b <= lo)%R (fun a => a <= lo)%R) with (z := 0%R) (t := x) (s := s) (h := r) (window := window) (strides := strides) (padding := padding) (out := out)
    as (y & Ey & Uy & Gy & Sy & Py & Hy); auto.
  { apply Rle_refl. } { intros b a H1 H2. destruct (Rlt_dec b a); lra. } { intros v b E Hb. injection E as <-. destruct (Rlt_dec b lo); lra. }
  { repeat (split; auto). }
  exists y. split; auto. repeat (split; auto). intros o V. rewrite Hy by auto. f_equal. destruct (cell_onto s window strides padding out T o V) as (i & Vi & <-). apply fold_min; [now apply members_ne|].
  apply Forall_map, Forall_forall. intros k K. apply in_members in K. now apply B.
Qed.
End Rules.

(* ---------- where the rule fails ---------- *)
Lemma times_length : forall a b, length a = length b -> length (times a b) = length a.
Proof. induction a as [|x a IH]; intros [|y b] L; try discriminate; auto. cbn in *. f_equal. apply IH. lia. Qed.
Lemma times_nth : forall a b k, length a = length b -> nth k (times a b) 0 = nth k a 0 * nth k b 0.
Proof. induction a as [|x a IH]; intros [|y b] [|k] L; try discriminate; auto. cbn in *. apply IH. lia. Qed.
Lemma Forall2_at : forall (P : nat -> nat -> Prop) a b k, Forall2 P a b -> k < length a -> P (nth k a 0) (nth k b 0).
Proof. intros P a b k F. revert k. induction F; intros [|k] Hk; cbn in *; auto; try lia. apply IHF. lia. Qed.
Lemma spread_fails : forall A (z : A) s strides (g : tensor A) k, good g -> all_pos (tshape g) -> all_pos strides -> length strides = length (tshape g) -> length s = length (tshape g) ->
  k < length s -> nth k (tshape g) 0 * nth k strides 0 <> nth k s 0 -> nth k (tshape g) 0 * nth k strides 0 <> 1 -> forall gx, spread z s strides g <> Ok gx.
Proof.
  intros A z s strides g k Gg Pg Ps L1 L2 Hk N1 N2 gx E. unfold spread in E.
  assert (Sh : exists f, shows g (tshape g) f).
  { destruct (tstore g) as [|d0 l] eqn:ES.
    - exfalso. assert (V := zeros_valid (tshape g) Pg).
      destruct (good_elem _ g _ Gg V) as (v & Ev). unfold elem in Ev. rewrite ES in Ev. destruct (addr (tlay g) _); discriminate.
    - exists (fun i => match elem g i with Some v => v | None => d0 end). split; [auto|]. split; [auto|]. split; [auto|]. intros i V. destruct (good_elem _ g _ Gg V) as (v & Ev). now rewrite Ev. }
  destruct Sh as (f & Sh). destruct (upsample_ok A z strides [] (tshape g) g f L1 Ps Sh) as (u & E1 & _ & Gu & Su & _). cbn [length app] in *.
  rewrite E1 in E. cbn [bind] in E. destruct (t_view_spec A z (VBroadcast s) u gx Gu I E) as (_ & SR & _). rewrite Su in SR. destruct SR as (_ & added & rest & Es & F).
  assert (LT := times_length (tshape g) strides (eq_sym L1)). assert (LF := Forall2_len _ _ _ _ _ F).
  assert (added = []). { destruct added; auto. subst s. rewrite app_length in L2. cbn in L2. lia. } subst added. cbn [app] in Es. subst rest.
  assert (HF := Forall2_at _ _ _ k F). cbn beta in HF. rewrite times_nth in HF by auto. destruct HF; lia.
Qed.
