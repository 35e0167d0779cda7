(** Proofs about the cumulative sum on CUDA. *)
From Coq Require Import List Arith ZArith Lia Bool ZifyBool.
From Verif Require Import Base IndexSpec LayoutModel ViewSpec LayoutProofs BcastProofs.
From Verif Require Import KernelModel TensorModel TensorSpec KernelProofs TensorProofs.
From Verif Require Import ReduceModel ReduceSpec ReduceProofs ScanModel ScanProofs TileModel TileSpec TileProofs4.
From Verif Require Import LaunchModel LaunchSpec LaunchProofs CudaScanModel.
Import ListNotations.

Section Turns.
Variables (A B C : Type) (init : B) (add : B -> A -> B) (fin : B -> C).
Variables (input : list A) (offset : nat) (shape strides : list nat) (dim num inner size N : nat).
(** [pos t k]: the cell written by thread [t] in iteration [k]; [acc t k] the sum before it; [h] the final output *)
Variables (pos : nat -> nat -> nat) (acc : nat -> nat -> B) (h : nat -> C).
Hypothesis A0 : forall t, acc t 0 = init.
Hypothesis NUM : num <= launched num.
Hypothesis BODY : forall t k, t < num -> k < size -> exists i x,
  scan_pos shape strides dim (t / inner) (t mod inner) k = Some i /\
  scan_pos shape (compute_strides shape) dim (t / inner) (t mod inner) k = Some (pos t k) /\
  nth_error input (offset + i) = Some x /\ add (acc t k) x = acc t (S k) /\ pos t k < N /\ fin (acc t (S k)) = h (pos t k).

(** after the turns [ts]: each thread has run as many iterations as it had turns, at most [size] *)
Definition reached (ts : list nat) (p : scan_state) : Prop :=
  length (fst p) = launched num /\ length (snd p) = N /\
  (forall t, t < num -> nth_error (fst p) t =
     Some (Nat.min (count_occ Nat.eq_dec ts t) size, acc t (Nat.min (count_occ Nat.eq_dec ts t) size))) /\
  (forall t k, t < num -> k < Nat.min (count_occ Nat.eq_dec ts t) size -> nth_error (snd p) (pos t k) = Some (Some (h (pos t k)))).

Lemma turn_reached : forall ts p t, reached ts p ->
  exists p', scan_turn add fin input offset shape strides dim num inner size p t = Some p' /\ reached (ts ++ [t]) p'.
Proof.
  intros ts p t (L1 & L2 & S1 & S2). unfold scan_turn.
  assert (CO : forall u, count_occ Nat.eq_dec (ts ++ [t]) u = count_occ Nat.eq_dec ts u + (if Nat.eq_dec t u then 1 else 0)).
  { intro u. rewrite count_occ_app. cbn [count_occ]. destruct (Nat.eq_dec t u); reflexivity. }
  destruct (nth_error (fst p) t) as [[s a]|] eqn:T.
  2:{ exists p. split; [reflexivity|]. assert (launched num <= t) by (apply nth_error_None in T; lia).
      repeat split; auto; intros u; [intros U|intros k U K]; rewrite CO in *;
        (destruct (Nat.eq_dec t u); [lia|]); rewrite Nat.add_0_r in *; auto. }
  assert (TL : t < launched num) by (rewrite <- L1; apply nth_error_Some; congruence).
  rewrite (as_u32_thread num) by exact TL. cbv zeta.
  destruct ((t <? num) && (s <? size)) eqn:G.
  - assert (TN : t < num) by lia. assert (SK : s < size) by lia.
    pose proof (S1 t TN) as E. rewrite T in E. assert (ES : s = count_occ Nat.eq_dec ts t) by (injection E as E1 E2; lia).
    assert (EA : a = acc t s) by (injection E as E1 E2; rewrite E2; f_equal; lia).
    destruct (BODY t s TN SK) as (i & x & B1 & B2 & B3 & B4 & B5 & B6). rewrite B1, B2. cbn [obind]. rewrite B3. cbn [obind].
    unfold c_store. replace (pos t s <? length (snd p)) with true by lia. cbn [obind].
    rewrite EA, B4. eexists. split; [reflexivity|]. split; [cbn [fst]; now rewrite upd_length|].
    split; [cbn [snd]; now rewrite upd_length|]. cbn [fst snd]. split.
    + intros u U. rewrite CO. destruct (Nat.eq_dec t u) as [<-|NE].
      * rewrite nth_error_upd_eq by lia. replace (Nat.min (count_occ Nat.eq_dec ts t + 1) size) with (S s) by lia. reflexivity.
      * rewrite nth_error_upd_neq by auto. rewrite Nat.add_0_r. auto.
    + intros u k U K. rewrite CO in K. destruct (Nat.eq_dec (pos u k) (pos t s)) as [EQ|NE].
      * rewrite EQ, nth_error_upd_eq by lia. now rewrite B6.
      * rewrite nth_error_upd_neq by auto. apply S2; [exact U|]. destruct (Nat.eq_dec t u) as [<-|]; [|lia].
        destruct (Nat.eq_dec k s) as [->|]; [congruence|lia].
  - exists p. split; [reflexivity|]. split; [exact L1|]. split; [exact L2|].
    assert (M : forall u, u < num -> Nat.min (count_occ Nat.eq_dec (ts ++ [t]) u) size = Nat.min (count_occ Nat.eq_dec ts u) size).
    { intros u U. rewrite CO. destruct (Nat.eq_dec t u) as [->|]; [|lia]. pose proof (S1 u U) as E. rewrite T in E. injection E as E1 E2. lia. }
    split; intros u; [intro U|intros k U K]; rewrite M in * by auto; auto.
Qed.

Lemma turns_reached : forall more ts p, reached ts p ->
  exists p', loopO (fun t p => scan_turn add fin input offset shape strides dim num inner size p t) more p = Some p' /\ reached (ts ++ more) p'.
Proof.
  induction more as [|t more IH]; intros ts p R.
  - exists p. split; [reflexivity|]. now rewrite app_nil_r.
  - destruct (turn_reached ts p t R) as (p1 & E1 & R1). destruct (IH _ _ R1) as (p2 & E2 & R2).
    exists p2. cbn [loopO]. rewrite E1. cbn [obind]. split; [exact E2|]. now rewrite <- app_assoc in R2.
Qed.

Lemma turns_over : forall ts out, length out = N -> (forall t, t < launched num -> size <= count_occ Nat.eq_dec ts t) ->
  (forall q, q < N -> exists t k, t < num /\ k < size /\ q = pos t k) ->
  exists p, loopO (fun t p => scan_turn add fin input offset shape strides dim num inner size p t) ts
              (repeat (0, init) (launched num), out) = Some p /\ snd p = map (fun q => Some (h q)) (seq 0 N).
Proof.
  intros ts out LO ENOUGH COVER. destruct (turns_reached ts [] (repeat (0, init) (launched num), out)) as (p & E & R).
  { split; [apply repeat_length|]. split; [exact LO|]. cbn [fst snd count_occ]. rewrite Nat.min_0_l. split.
    - intros t T. rewrite nth_error_repeat by lia. now rewrite A0.
    - intros t k T K. lia. }
  exists p. split; [exact E|]. destruct R as (L1 & L2 & S1 & S2). cbn [app] in *.
  apply (filled _ (fun q => Some (h q)) N); [exact L2|]. intros q Q. destruct (COVER q Q) as (t & k & T & K & ->). apply S2; [exact T|].
  specialize (ENOUGH t ltac:(lia)). lia.
Qed.
End Turns.

Lemma all_some_known : forall X (l : list X), all_some (map Some l) = Some l.
Proof. induction l as [|x l IH]; [reflexivity|]. cbn. now rewrite IH. Qed.

Section S.
Variables (A B C : Type) (init : B) (add : B -> A -> B) (fin : B -> C) (d0 : A) (sched : nat -> nat -> list nat).
Hypothesis EN : enough_turns sched.

Lemma cuda_cumsum_spec : forall (copy : A -> C) input out l d n,
  wf_layout l -> in_bounds (length input) l -> length (lshape l) <= 16 ->
  nth_error (lshape l) d = Some n -> length out = nelem (lshape l) ->
  (Z.of_nat (nelem (upd (lshape l) d 1%nat)) < 2 ^ 32)%Z ->
  cuda_cumsum init add fin sched input out copy (scan_metadata l d) =
  Some (map (fun p => let i := unravel (lshape l) p in
             fin (prefix A B init add d0 input (loffset l) (lstrides l) d i (S (nth d i 0)))) (seq 0 (nelem (lshape l)))).
Proof.
  intros copy input out l d n Hw Hb HR Hn Ho HN.
  set (s := lshape l) in *. set (st := lstrides l) in *. set (off := loffset l).
  assert (Ld : d < length s) by (apply nth_error_Some; congruence).
  unfold cuda_cumsum, scan_metadata. fold s st off.
  set (nd := length s).
  assert (LS : length st = nd) by exact Hw.
  assert (E1 : forall X, md_slice ([layout_size l; nd] ++ s ++ st ++ X) 2 nd = Some s).
  { intros X. apply (md_slice_app [layout_size l; nd] s); reflexivity. }
  assert (E2 : forall X, md_slice ([layout_size l; nd] ++ s ++ st ++ X) (2 + nd) nd = Some st).
  { intros X. rewrite (app_assoc _ s). apply md_slice_app; auto. }
  assert (E3 : nth_error ([layout_size l; nd] ++ s ++ st ++ [off; d]) (2 + 2 * nd) = Some off).
  { replace ([layout_size l; nd] ++ s ++ st ++ [off; d]) with
      (([layout_size l; nd] ++ s ++ st) ++ off :: [d]) by (rewrite <- !app_assoc; reflexivity).
    apply nth_error_app_at. rewrite !app_length. simpl. fold nd. lia. }
  assert (E4 : nth_error ([layout_size l; nd] ++ s ++ st ++ [off; d]) (3 + 2 * nd) = Some d).
  { replace ([layout_size l; nd] ++ s ++ st ++ [off; d]) with
      ((([layout_size l; nd] ++ s ++ st) ++ [off]) ++ [d]) by (rewrite <- !app_assoc; reflexivity).
    apply nth_error_app_at. rewrite !app_length. simpl. fold nd. lia. }
  cbn [nth_error app obind] in *. rewrite E1, E2. cbn [obind]. rewrite E3, E4. cbn [obind].
  replace (nd =? 0) with false by (unfold nd; lia).
  replace ((16 <? nd) || (nd <=? d)) with false by (unfold nd; lia).
  rewrite Hn. cbn [obind]. cbv zeta.
  destruct (split_nth s d n Hn) as [Es L1].
  set (s1 := firstn d s) in *. set (s2 := skipn (S d) s) in *.
  destruct (nth_error st d) as [u|] eqn:Hu; [|apply nth_error_None in Hu; unfold nd in LS; lia].
  destruct (split_nth st d u Hu) as [Et L2].
  set (t1 := firstn d st) in *. set (t2 := skipn (S d) st) in *.
  assert (L3 : length t2 = length s2).
  { unfold t2, s2. rewrite !skipn_length. unfold nd in LS. lia. }
  set (cs := compute_strides s).
  assert (LC : length cs = nd) by apply compute_strides_length.
  destruct (nth_error cs d) as [v|] eqn:Hv; [|apply nth_error_None in Hv; unfold nd in LC; lia].
  destruct (split_nth cs d v Hv) as [Ec L4].
  set (c1 := firstn d cs) in *. set (c2 := skipn (S d) cs) in *.
  assert (L5 : length c2 = length s2).
  { unfold c2, s2. rewrite !skipn_length. unfold nd in LC. lia. }
  set (prefix' := prefix A B init add d0).
  set (h := fun p => let i := unravel s p in fin (prefix' input off st d i (S (nth d i 0)))).
  change shape_size with nelem.
  assert (PI : forall o q k, o < nelem s1 -> q < nelem s2 -> k < n ->
     scan_pos s st d o q k = Some (dot (sidx s1 s2 o k q) st)).
  { intros. rewrite Es, Et. apply (scan_pos_spec A B C init add fin d0); auto. }
  assert (PO : forall o q k, o < nelem s1 -> q < nelem s2 -> k < n ->
     scan_pos s cs d o q k = Some (ravel s (sidx s1 s2 o k q))).
  { intros. rewrite Es at 1. rewrite Ec, (scan_pos_spec A B C init add fin d0), <- Ec by auto. f_equal.
    unfold cs. apply dot_compute_strides. rewrite Es.
    unfold sidx. rewrite !app_length, rev_length, unravel_length, rev_length. simpl. rewrite unravel_length. lia. }
  assert (PV : forall o q k, o < nelem s1 -> q < nelem s2 -> k < n -> valid s (sidx s1 s2 o k q)).
  { intros. rewrite Es at 1. now apply sidx_valid. }
  assert (Lp : forall o (k q : nat), length (rev (unravel (rev s1) o)) = d).
  { intros. now rewrite rev_length, unravel_length, rev_length. }
  assert (PU : forall o q k k', upd (sidx s1 s2 o k q) d k' = sidx s1 s2 o k' q).
  { intros. unfold sidx. rewrite <- (Lp o k q) at 1. apply upd_mid. }
  assert (PN : forall o q k, nth d (sidx s1 s2 o k q) 0 = k).
  { intros. unfold sidx. rewrite <- (Lp o k q) at 1. apply nth_mid. }
  set (num := nelem s1 * nelem s2) in *.
  assert (NU : (Z.of_nat num < 2 ^ 32)%Z).
  { replace num with (nelem (upd s d 1)); [exact HN|]. rewrite Es. rewrite <- L1 at 1. rewrite upd_mid, nelem_app, nelem_cons. unfold num. lia. }
  assert (SPLIT : forall t, t < num -> t / nelem s2 < nelem s1 /\ t mod nelem s2 < nelem s2).
  { intros t T. assert (nelem s2 <> 0) by (unfold num in T; nia). split.
    - apply Nat.div_lt_upper_bound; [auto|]. unfold num in T. lia.
    - now apply Nat.mod_upper_bound. }
  destruct (turns_over A B C init add fin input off s st d num (nelem s2) n (nelem s)
     (fun t k => ravel s (sidx s1 s2 (t / nelem s2) k (t mod nelem s2)))
     (fun t k => prefix' input off st d (sidx s1 s2 (t / nelem s2) 0 (t mod nelem s2)) k) h) with (ts := sched num n) (out := out) as (p & E & SP).
  - intro t. reflexivity.
  - destruct (launched_bound num) as (Q & _). now rewrite as_u32_id in Q by lia.
  - intros t k T K. destruct (SPLIT t T) as [Ho' Hq]. set (o := t / nelem s2) in *. set (q := t mod nelem s2) in *. clearbody o q.
    pose proof (PV o q k Ho' Hq K) as V.
    assert (Hbk : off + dot (sidx s1 s2 o k q) st < length input) by (apply (Hb _ V)).
    exists (dot (sidx s1 s2 o k q) st), (rd d0 input (off + dot (sidx s1 s2 o k q) st)).
    split; [now apply PI|]. split; [now apply PO|]. split; [now apply nth_error_rd|]. split; [|split].
    + unfold prefix', prefix. rewrite seq_S, map_app, fold_left_app. cbn [map fold_left plus]. now rewrite PU.
    + now apply ravel_lt.
    + unfold h. rewrite unravel_ravel by auto. cbn zeta. rewrite PN. unfold prefix', prefix. do 2 f_equal.
      apply map_ext. intro k'. now rewrite !PU.
  - exact Ho.
  - intros t T. now apply EN.
  - intros p Hp.
    pose proof (unravel_valid s p Hp) as V. set (i := unravel s p) in *.
    destruct (nth_error i d) as [k|] eqn:Hk;
      [|apply nth_error_None in Hk; rewrite (valid_length _ _ V) in Hk; lia].
    destruct (split_nth i d k Hk) as [Ei Li].
    set (i1 := firstn d i) in *. set (i2 := skipn (S d) i) in *.
    assert (V' : valid (s1 ++ n :: s2) (i1 ++ k :: i2)) by (rewrite <- Es, <- Ei; exact V).
    apply valid_app in V'; [|congruence]. destruct V' as [V1 [Hkn V2]].
    assert (Q1 : ravel (rev s1) (rev i1) < nelem s1) by (rewrite <- nelem_rev; apply ravel_lt; now apply valid_rev).
    assert (Q2 : ravel s2 i2 < nelem s2) by (now apply ravel_lt).
    exists (ravel (rev s1) (rev i1) * nelem s2 + ravel s2 i2), k. split; [unfold num; nia|]. split; [exact Hkn|].
    rewrite Nat.div_add_l, Nat.div_small, Nat.add_0_r by lia.
    replace ((ravel (rev s1) (rev i1) * nelem s2 + ravel s2 i2) mod nelem s2) with (ravel s2 i2).
    2:{ rewrite Nat.add_comm, Nat.mod_add, Nat.mod_small by lia. reflexivity. }
    unfold sidx. rewrite !unravel_ravel by (auto using valid_rev).
    rewrite rev_involutive, <- Ei. unfold i. now rewrite ravel_unravel.
  - refine (eq_trans (f_equal (fun x => obind x _) E) _). cbn [obind]. rewrite SP. rewrite <- (map_map h Some). apply all_some_known.
Qed.

(** What the CPU gives, for an axis in range. *)
Lemma cuda_t_cumsum_same : forall (copy : A -> C) z (t : tensor A) a,
  good t -> length (tshape t) <= 16 -> axis_ok (length (tshape t)) a ->
  (Z.of_nat (nelem (upd (tshape t) (axis_of (length (tshape t)) a) 1%nat)) < 2 ^ 32)%Z ->
  cuda_t_cumsum init add fin sched copy t a = t_cumsum init add fin copy z t a.
Proof.
  intros copy z t a Hg HR Ha HN. destruct (axis_usize _ _ Ha) as [Ea Hd]. unfold t_cumsum, cuda_t_cumsum.
  change (lshape (tlay t)) with (tshape t). rewrite Ea. clear Ea Ha.
  set (d := axis_of (length (tshape t)) a) in *. clearbody d.
  destruct (nth_error (tshape t) d) as [n|] eqn:Hn; [|apply nth_error_None in Hn; lia].
  replace (length (tshape t) <? d) with false by lia. cbv zeta.
  rewrite (cumsum_kernel_spec A B C init add fin d0 copy _ _ (tlay t) d n);
    [|apply Hg|apply Hg|exact HR|exact Hn|apply repeat_length].
  rewrite (cuda_cumsum_spec copy _ _ (tlay t) d n); [reflexivity|apply Hg|apply Hg|exact HR|exact Hn|apply repeat_length|exact HN].
Qed.
End S.

(** A scalar: for the axis 0 only. *)
Lemma cuda_t_cumsum_scalar : forall A B C (init : B) add (fin : B -> C) sched (copy : A -> C) (t : tensor A) a x,
  tshape t = [] -> lstrides (tlay t) = [] -> elem t [] = Some x ->
  cuda_t_cumsum init add fin sched copy t a = if (a =? 0)%Z then Ok (mkT [copy x] (from_shape [])) else Panic.
Proof.
  intros A B C init add fin sched copy [st [sh str off]] a x Hs Ht He. unfold tshape in Hs. cbn in Hs, Ht. subst.
  unfold elem, addr in He. cbn in He. unfold cuda_t_cumsum. cbn [tlay lshape length]. destruct (a =? 0)%Z eqn:Z0.
  - apply Z.eqb_eq in Z0. subst a. cbn. rewrite Nat.add_0_r in He. now rewrite He.
  - destruct (a <? 0)%Z eqn:N; unfold as_usize.
    + replace (Z.of_nat 0 + a <? 0)%Z with true by lia. reflexivity.
    + rewrite N. replace (0 <? Z.to_nat a) with true by lia. reflexivity.
Qed.
