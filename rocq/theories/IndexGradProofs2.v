(** The gradient rules of gather, index_select, scatter, topk and slice, from the sums of IndexGradProofs.v. *)
From Coq Require Import List Arith ZArith Bool Lia Reals Lra Permutation.
From Verif Require Import Base IndexSpec LayoutModel ViewSpec LayoutProofs BcastProofs KernelModel TensorModel TensorSpec KernelProofs TensorProofs ReduceModel MoveModel MoveProofs MoveProofs2 MoveProofs3 ScanModel ScanProofs SelectModel IndexModel IndexProofs IndexProofs2 SortModel SortProofs DenSpec DenProofs CountProofs.
From Verif Require Import ConvModel ConvReal MoveGradModel MoveGradSpec MoveGradProofs IndexGradModel IndexGradProofs.
Import ListNotations.
Open Scope nat_scope.

(** the index at position [j] *)
Definition ixof (idx : tensor Z) (j : list nat) : Z := match elem idx j with Some x => x | None => 0%Z end.
Lemma ixof_good : forall idx j, good idx -> valid (tshape idx) j -> elem idx j = Some (ixof idx j).
Proof. intros idx j G V. destruct (good_elem _ idx j G V) as (v & E). unfold ixof. now rewrite E. Qed.

Lemma gather_val : forall z (t : tensor R) a (idx : tensor Z) n, good t -> good idx -> plain_layout idx -> axis_ok (length (tshape t)) a ->
  let d := axis_of (length (tshape t)) a in
  nth_error (tshape t) d = Some n -> length (tshape idx) = length (tshape t) ->
  (forall k x y, k <> d -> nth_error (tshape idx) k = Some x -> nth_error (tshape t) k = Some y -> x <= y) ->
  exists r, t_gather 0%R z t a idx = Ok r /\ good r /\ tshape r = tshape idx /\
    forall j, valid (tshape idx) j -> val r j = named n d (ixof idx j) t j.
Proof.
  intros z t a idx n Gt Gi Pi Ha d Hn HL Hle. destruct (t_gather_spec R 0%R z 0%R t a idx n Gt Gi Pi Ha Hn HL Hle) as (r & E & G & S & H).
  exists r. split; auto. split; auto. split; auto. intros j V. destruct (H j _ (ixof_good idx j Gi V) V) as [H1 H2]. unfold named.
  destruct (wrap_index (ixof idx j) n) as [k|] eqn:W.
  - apply val_elem. apply H1. now apply wrap_names.
  - apply val_some. apply H2. intros k N. apply wrap_names in N. congruence.
Qed.

(** no element is gathered twice *)
Definition once (n d : nat) (idx : tensor Z) : Prop := forall j j' k, valid (tshape idx) j -> valid (tshape idx) j' ->
  names n (ixof idx j) k -> names n (ixof idx j') k -> upd j d k = upd j' d k -> j = j'.

Lemma vjp_gather_adjoint : forall z max min s a (idx : tensor Z) n (g : tensor R), axis_ok (length s) a -> (0 <= a)%Z -> length s <= 32 ->
  let d := axis_of (length s) a in
  nth_error s d = Some n -> good idx -> plain_layout idx -> length (tshape idx) = length s ->
  (forall k x y, k <> d -> nth_error (tshape idx) k = Some x -> nth_error s k = Some y -> x <= y) ->
  once n d idx -> good g -> tshape g = tshape idx ->
  exists gx, vjp_pick 0%R Rplus max min s a idx g = Ok gx /\ tshape gx = s /\
    forall t, good t -> tshape t = s -> exists y, t_gather 0%R z t a idx = Ok y /\ tshape y = tshape g /\ pairing g y = pairing gx t.
Proof.
  intros z max min s a idx n g Ha H0 H32 d Hn Gi Pi HL Hle Ho Gg Sg.
  assert (Ed : to_usize a = d) by (symmetry; now apply to_usize_axis). unfold vjp_pick. rewrite Ed.
  destruct (scatter_adjoint d s n idx (ixof idx) g max min) with (op := ScatterAdd) as (gx & E & G & Sx & H); auto; rewrite ?Sg; auto.
  - intros j V. apply (index_same_rank idx (tshape idx)); auto. now apply ixof_good.
  - exists gx. split; [exact E|]. split; [exact Sx|]. intros t Gt St.
    destruct (gather_val z t a idx n Gt Gi Pi) as (y & Ey & _ & Sy & Hy); rewrite ?St; auto.
    exists y. split; [exact Ey|]. split; [exact Sy|]. rewrite H. unfold pairing. rewrite Sg. apply Sum_idx_ext. intros j V. rewrite St in Hy. now rewrite Hy.
Qed.

(* ---------- index_select along the first axis ---------- *)
Lemma upd0 : forall (j0 : nat) j k, upd (j0 :: j) 0 k = k :: j.
Proof. reflexivity. Qed.
Lemma vjp_select_adjoint : forall z max min n l (idx : tensor Z) m (g : tensor R), S (length l) <= 32 ->
  good idx -> plain_layout idx -> tshape idx = [m] ->
  (forall p q k, p < m -> q < m -> names n (ixof idx [p]) k -> names n (ixof idx [q]) k -> p = q) ->
  good g -> tshape g = m :: l ->
  exists gx, vjp_pick 0%R Rplus max min (n :: l) 0 idx g = Ok gx /\ tshape gx = n :: l /\
    forall t, good t -> tshape t = n :: l -> exists y, t_index_select 0%R z t 0 idx = Ok y /\ tshape y = tshape g /\ pairing g y = pairing gx t.
Proof.
  intros z max min n l idx m g H32 Gi Pi Si Ho Gg Sg. unfold vjp_pick. change (to_usize 0) with 0.
  assert (ST : lstrides (tlay idx) = [1]).
  { destruct Pi as [C _]. destruct Gi as [W _]. apply is_contiguous_iff in C; [|exact W]. rewrite C. change (lshape (tlay idx)) with (tshape idx). now rewrite Si. }
  assert (OF : loffset (tlay idx) = 0) by (now destruct Pi).
  assert (IX : forall p, p < m -> nth_error (tstore idx) p = Some (ixof idx [p])).
  { intros p Hp. rewrite <- (ixof_good idx [p] Gi) by (rewrite Si; cbn; auto). rewrite (plain_elem _ idx [p] Gi Pi) by (now rewrite Si). rewrite Si. cbn [ravel]. f_equal. unfold nelem. cbn. lia. }
  destruct (scatter_adjoint 0 (n :: l) n idx (fun j => ixof idx [nth 0 j 0]) g max min) with (op := ScatterAdd) as (gx & E & G & Sx & H); auto; rewrite ?Sg; auto.
  - intros [|q] x y N Hx Hy; [lia|]. cbn in Hx, Hy. assert (x = y) by congruence. lia.
  - intros [|j0 j] V; [destruct V|]. rewrite OF, ST. apply index_rank1; [cbn; lia|]. cbn [nth]. apply IX. now destruct V.
  - intros [|p j] [|q j'] k V V' N N' U; try (now destruct V); try (now destruct V'). cbn [nth] in N, N'. rewrite !upd0 in U. injection U as ->. f_equal.
    apply (Ho p q k); auto; [now destruct V|now destruct V'].
  - exists gx. split; [exact E|]. split; [exact Sx|]. intros t Gt St.
    destruct (t_index_select_spec R 0%R z 0%R t 0%Z idx n Gt Gi Pi) as (y & Ey & _ & Ly & Hy); rewrite ?St; auto; [unfold axis_ok; cbn [length]; lia|].
    rewrite St in Ly, Hy. change (axis_of (length (n :: l)) 0) with 0 in Ly, Hy. rewrite Si in Ly. change (nelem [m]) with (m * 1) in Ly. rewrite Nat.mul_1_r in Ly. cbn [upd] in Ly.
    assert (Sy : tshape y = m :: l) by (unfold tshape; rewrite Ly; reflexivity).
    exists y. split; [exact Ey|]. split; [exact Sy|]. rewrite H. unfold pairing. rewrite Sg. apply Sum_idx_ext. intros [|p j] V; [destruct V|]. f_equal. cbn [nth].
    rewrite Sy, Si in Hy. destruct (Hy (p :: j) (ixof idx [p]) V) as [H1 H2].
    { cbn [nth unravel]. change (nelem []) with 1. rewrite Nat.div_1_r. apply ixof_good; auto. rewrite Si. cbn. split; auto. now destruct V. }
    unfold named. destruct (wrap_index (ixof idx [p]) n) as [k|] eqn:W.
    + apply val_elem. apply H1. now apply wrap_names.
    + apply val_some. apply H2. intros k N. apply wrap_names in N. congruence.
Qed.

(* ---------- scatter ---------- *)
Lemma last_map_const : forall X (l : list X) (c x : R), last (map (fun _ => c) l) x = if length l =? 0 then x else c.
Proof. induction l as [|y [|y' l] IH]; intros c x; try reflexivity. cbn [map last length] in *. rewrite IH. reflexivity. Qed.
Lemma last_one : forall X (f : X -> R) l x, length l <= 1 -> last (map f l) x = (x * (if length l =? 0 then 1 else 0) + Sum l f)%R.
Proof. intros X f [|a [|b l]] x H; cbn [length] in H; try lia; cbn [map last length Nat.eqb]; rewrite ?Sum_cons, Sum_nil; lra. Qed.
Lemma full_one : forall s v, good (@t_full R s v) /\ tshape (@t_full R s v) = s /\ plain_layout (@t_full R s v) /\ forall i, valid s i -> elem (@t_full R s v) i = Some v.
Proof.
  intros s v. assert (G : good (@t_full R s v)) by (apply from_shape_good; apply repeat_length). split; [exact G|]. split; [reflexivity|].
  split; [apply (fresh_plain _ _ s); reflexivity|]. intros i V. destruct (good_elem _ (t_full s v) i G V) as (x & E). rewrite E. f_equal.
  unfold elem, t_full in E. cbn [tstore] in E. apply nth_error_In in E. now apply repeat_spec in E.
Qed.
Lemma vjp_scatter_adjoint : forall e z max min s a (idx : tensor Z) n (g : tensor R), env_ok e -> axis_ok (length s) a -> (0 <= a)%Z -> length s <= 32 ->
  let d := axis_of (length s) a in
  nth_error s d = Some n -> good idx -> plain_layout idx -> length (tshape idx) = length s ->
  (forall k x y, k <> d -> nth_error (tshape idx) k = Some x -> nth_error s k = Some y -> x <= y) ->
  once n d idx -> good g -> usable g -> tshape g = s -> all_pos s ->
  exists gs gv, vjp_scatter z 0%R 1%R Rplus Rmult max min e s a idx g = Ok (gs, gv) /\ tshape gs = s /\ tshape gv = tshape idx /\
    forall t src, good t -> plain_layout t -> tshape t = s -> good src -> tshape src = tshape idx ->
      exists r, t_scatter Rplus max min Scatter t a idx src = Ok r /\ tshape r = s /\ pairing g r = (pairing gs t + pairing gv src)%R.
Proof.
  intros e z max min s a idx n g He Ha H0 H32 d Hn Gi Pi HL Hle Ho Gg Ug Sg Ps.
  assert (Ed : to_usize a = d) by (symmetry; now apply to_usize_axis). unfold vjp_scatter. rewrite Ed.
  assert (Hd : d < length s) by (apply nth_error_Some; congruence).
  assert (AOK : axis_ok (length s) (Z.of_nat d)) by (unfold axis_ok; lia).
  assert (IX : forall j, valid (tshape idx) j -> nth_error (tstore idx) (loffset (tlay idx) + dot j (padded (length s) 0 (lstrides (tlay idx)))) = Some (ixof idx j))
    by (intros j V; apply (index_same_rank idx (tshape idx)); auto; now apply ixof_good).
  set (hits := fun i => filter (fun j => landsb n d (ixof idx j) j i) (all_idx (tshape idx))).
  assert (ONE : forall i, length (hits i) <= 1).
  { intros i. apply filter_one; [apply all_idx_NoDup|]. intros j j' Hj Hj' LB LB'. apply in_all_idx in Hj, Hj'. pose proof (valid_length _ _ Hj) as Q. pose proof (valid_length _ _ Hj') as Q'.
    apply landsb_iff in LB; [|lia]. apply landsb_iff in LB'; [|lia]. destruct LB as (k & N & ->). destruct LB' as (k' & N' & Eu).
    assert (k = k') by (apply (f_equal (fun l => nth d l 0)) in Eu; rewrite !nth_upd_eq in Eu by lia; exact Eu). subst k'. now apply (Ho j j' k). }
  (* the mask *)
  destruct (full_one s 1%R) as (F1 & F2 & F3 & F4). destruct (full_one (tshape idx) 0%R) as (Q1 & Q2 & _ & Q4).
  destruct (scatter_any R 0%R Rplus max min Scatter (t_full s 1%R) d idx (t_full (tshape idx) 0%R) n (ixof idx) (fun _ => 0%R)) as (m & Em & Gm & Lm & Hm); auto.
  change (lshape (tlay idx)) with (tshape idx). rewrite Em. cbn [bind].
  assert (Sm : tshape m = s) by (unfold tshape; rewrite Lm; reflexivity).
  assert (Dm : den m s (fun i => if length (hits i) =? 0 then 1 else 0)%R).
  { split; [exact Gm|]. split; [left; rewrite Lm; reflexivity|]. split; [exact Sm|]. split; [exact Ps|]. intros i V.
    rewrite (Hm i 1%R V (F4 i V)). f_equal. apply last_map_const. }
  assert (Dg : den g s (val g)) by (split; [exact Gg|]; split; [exact Ug|]; split; [exact Sg|]; split; [exact Ps|]; intros i V; apply val_good; auto; now rewrite Sg).
  destruct (den_binary_same R R R e z z z Rmult g m s _ _ He Dg Dm) as (gs & Egs & _ & _ & Sgs & _ & Hgs). rewrite Egs. cbn [bind].
  destruct (gather_val z g (Z.of_nat d) idx n Gg Gi Pi) as (gv & Egv & _ & Sgv & Hgv); rewrite ?Sg, ?axis_of_nat; auto.
  rewrite Egv. cbn [bind]. exists gs, gv. split; [reflexivity|]. split; [exact Sgs|]. split; [exact Sgv|]. rewrite Sg, axis_of_nat in Hgv.
  intros t src Gt Pt St Gs Ss.
  destruct (scatter_any R 0%R Rplus max min Scatter t d idx src n (ixof idx) (val src)) as (r & Er & _ & Lr & Hr); rewrite ?St, ?Ss; auto.
  { intros j V. apply val_good; auto. now rewrite Ss. }
  exists r. split.
  { rewrite <- Er. unfold t_scatter. fold (tshape t). rewrite St. rewrite !axis_usize_ok by auto. now rewrite axis_of_nat. }
  assert (Sr : tshape r = s) by (unfold tshape; rewrite Lr; exact St). split; [exact Sr|].
  unfold pairing. rewrite Sg, Sgs, Sgv. rewrite St, Ss in Hr.
  fold (Sum (all_idx s) (fun i => val g i * val r i)%R). fold (Sum (all_idx s) (fun i => val gs i * val t i)%R). fold (Sum (all_idx (tshape idx)) (fun i => val gv i * val src i)%R).
  transitivity (Sum (all_idx s) (fun i => val gs i * val t i + Sum (all_idx (tshape idx)) (fun j => val src j * ind (landsb n d (ixof idx j) j i) (val g i)))%R).
  - apply Sum_idx_ext. intros i V. rewrite (val_some r i _ (Hr i (val t i) V ltac:(apply val_good; auto; now rewrite St))). fold (hits i). rewrite last_one by apply ONE.
    rewrite (val_some gs i _ (Hgs i V)). unfold hits at 2. rewrite Sum_filter.
    rewrite Rmult_plus_distr_l. f_equal; [ring|]. rewrite Sum_scale. apply Sum_ext. intros j _. rewrite !ind_scale. f_equal. ring.
  - rewrite Sum_plus. f_equal. rewrite Sum_swap. apply Sum_idx_ext. intros j V. rewrite <- Sum_scale, Rmult_comm. f_equal. rewrite Hgv by auto.
    apply (named_sum s (tshape idx) d n); auto.
Qed.

(** the rule of scatter_add, for the documented operation *)
Lemma vjp_scatter_add_adjoint : forall z s a (idx : tensor Z) n (g : tensor R), axis_ok (length s) a -> (0 <= a)%Z ->
  let d := axis_of (length s) a in
  nth_error s d = Some n -> good idx -> plain_layout idx -> length (tshape idx) = length s ->
  (forall k x y, k <> d -> nth_error (tshape idx) k = Some x -> nth_error s k = Some y -> x <= y) ->
  good g -> tshape g = s ->
  exists gv, vjp_scatter_add z 0%R a idx g = Ok (g, gv) /\ tshape gv = tshape idx /\
    forall t src r, tshape t = s -> tshape src = tshape idx -> tshape r = s ->
      (forall i, valid s i -> val r i = (val t i + Sum (all_idx (tshape idx)) (fun j => if landsb n d (ixof idx j) j i then val src j else 0))%R) ->
      pairing g r = (pairing g t + pairing gv src)%R.
Proof.
  intros z s a idx n g Ha H0 d Hn Gi Pi HL Hle Gg Sg.
  assert (Ed : to_usize a = d) by (symmetry; now apply to_usize_axis). unfold vjp_scatter_add. rewrite Ed.
  assert (Hd : d < length s) by (apply nth_error_Some; congruence).
  destruct (gather_val z g (Z.of_nat d) idx n Gg Gi Pi) as (gv & Egv & _ & Sgv & Hgv); rewrite ?Sg, ?axis_of_nat; auto; [unfold axis_ok; lia|].
  rewrite Egv. cbn [bind]. exists gv. split; [reflexivity|]. split; [exact Sgv|]. rewrite Sg, axis_of_nat in Hgv.
  intros t src r St Ss Sr H. unfold pairing. rewrite Sg, Sgv.
  fold (Sum (all_idx s) (fun i => val g i * val r i)%R). fold (Sum (all_idx s) (fun i => val g i * val t i)%R). fold (Sum (all_idx (tshape idx)) (fun i => val gv i * val src i)%R).
  transitivity (Sum (all_idx s) (fun i => val g i * val t i + Sum (all_idx (tshape idx)) (fun j => val src j * ind (landsb n d (ixof idx j) j i) (val g i)))%R).
  - apply Sum_idx_ext. intros i V. rewrite H by auto. rewrite Rmult_plus_distr_l. f_equal. rewrite Sum_scale. apply Sum_ext. intros j _. unfold ind. destruct landsb; ring.
  - rewrite Sum_plus. f_equal. rewrite Sum_swap. apply Sum_idx_ext. intros j V. rewrite <- Sum_scale, Rmult_comm. f_equal. rewrite Hgv by auto.
    apply (named_sum s (tshape idx) d n); auto.
Qed.

(* ---------- slice along the first axis ---------- *)
Lemma up_from_nth : forall step stop n, (0 < step)%Z -> forall fuel i k, (n - i <= Z.of_nat fuel)%Z ->
  nth_error (up_from fuel i stop n step) k = if ((i + step * Z.of_nat k <? stop) && (i + step * Z.of_nat k <? n))%Z then Some (i + step * Z.of_nat k)%Z else None.
Proof.
  intros step stop n Hs. induction fuel as [|fuel IH]; intros i k Hf; cbn [up_from].
  - replace (i + step * Z.of_nat k <? n)%Z with false by (symmetry; apply Z.ltb_ge; nia). rewrite andb_false_r. now destruct k.
  - destruct ((i <? stop) && (i <? n))%Z eqn:C.
    + destruct k as [|k]; cbn [nth_error].
      * replace (i + step * Z.of_nat 0)%Z with i by lia. now rewrite C.
      * rewrite IH by lia. replace (i + step + step * Z.of_nat k)%Z with (i + step * Z.of_nat (S k))%Z by lia. reflexivity.
    + replace ((i + step * Z.of_nat k <? stop) && (i + step * Z.of_nat k <? n))%Z with false; [now destruct k|].
      symmetry. apply andb_false_iff in C. apply andb_false_iff. destruct C as [C|C]; apply Z.ltb_ge in C; [left|right]; apply Z.ltb_ge; nia.
Qed.
Lemma slice_positions_ok : forall n start end_ step m, (0 < step)%Z -> (- Z.of_nat n <= start)%Z -> 0 < m ->
  py_count (py_start (Z.of_nat n) start) (py_stop (Z.of_nat n) end_) step (Z.of_nat m) ->
  let ps := slice_positions (Z.of_nat n) start end_ step in
  length ps = m /\ (0 <= py_start (Z.of_nat n) start)%Z /\
  forall k, k < m -> nth_error ps k = Some (py_start (Z.of_nat n) start + step * Z.of_nat k)%Z /\ (py_start (Z.of_nat n) start + step * Z.of_nat k < Z.of_nat n)%Z.
Proof.
  intros n start end_ step m Hs H0 Hm [_ PC] ps. unfold ps, slice_positions. replace (step >? 0)%Z with true in * by (symmetry; lia).
  set (st := if (start <? 0)%Z then (Z.of_nat n + start)%Z else start).
  set (en := match end_ with Some e => if (e <? 0)%Z then (Z.of_nat n + e)%Z else e | None => Z.of_nat n end).
  assert (LT : forall x, (0 <= x)%Z -> (x <? py_stop (Z.of_nat n) end_)%Z = ((x <? en) && (x <? Z.of_nat n))%Z).
  { intros x Hx. unfold py_stop, en. destruct end_ as [e|]; [destruct (Z.ltb_spec e 0)|]; lia. }
  assert (PS : (py_stop (Z.of_nat n) end_ <= Z.of_nat n)%Z) by (unfold py_stop; destruct end_ as [e|]; [destruct (Z.ltb_spec e 0)|]; lia).
  pose proof (proj1 (PC 0%Z ltac:(lia)) ltac:(lia)) as P0. rewrite Z.mul_0_r, Z.add_0_r in P0.
  assert (ES : py_start (Z.of_nat n) start = st) by (unfold py_start, st in *; destruct (Z.ltb_spec start 0); lia). rewrite ES in *.
  assert (S0 : (0 <= st)%Z) by (unfold st; destruct (Z.ltb_spec start 0); lia).
  assert (NTH : forall k, nth_error (up_from (Z.to_nat (Z.of_nat n - st)) st en (Z.of_nat n) step) k = if (k <? m) then Some (st + step * Z.of_nat k)%Z else None).
  { intros k. rewrite up_from_nth by lia. rewrite <- LT by nia. specialize (PC (Z.of_nat k) ltac:(lia)).
    destruct (Nat.ltb_spec k m); destruct (Z.ltb_spec (st + step * Z.of_nat k) (py_stop (Z.of_nat n) end_)); auto; lia. }
  split; [|split; [exact S0|]].
  - set (u := up_from _ _ _ _ _) in *. clearbody u. destruct (Nat.lt_trichotomy (length u) m) as [L|[L|L]]; auto; exfalso.
    + specialize (NTH (length u)). rewrite (proj2 (nth_error_None _ _)) in NTH by lia. destruct (Nat.ltb_spec (length u) m); [discriminate|lia].
    + specialize (NTH m). rewrite Nat.ltb_irrefl in NTH. apply nth_error_None in NTH. lia.
  - intros k Hk. specialize (PC (Z.of_nat k) ltac:(lia)). split; [|lia]. rewrite NTH. destruct (Nat.ltb_spec k m); [reflexivity|lia].
Qed.
Lemma vjp_slice_adjoint : forall z max min n l start end_ step (g : tensor R), S (length l) <= 32 -> (0 < step)%Z -> (- Z.of_nat n <= start)%Z ->
  shape_rel (VSlice 0 start end_ step) (n :: l) (tshape g) -> good g ->
  exists gx, vjp_slice 0%R Rplus max min (n :: l) 0 start end_ step g = Ok gx /\ tshape gx = n :: l /\
    forall t, good t -> tshape t = n :: l -> exists y, t_view z (VSlice 0 start end_ step) t = Ok y /\ tshape y = tshape g /\ pairing g y = pairing gx t.
Proof.
  intros z max min n l start end_ step g H32 Hs H0 SR Gg. pose proof SR as SR'. cbn [shape_rel] in SR. change (axis_of (length (n :: l)) 0) with 0 in SR.
  destruct SR as (_ & Lg & Hk & n' & m & Hn & Hm & Mp & PC). cbn in Hn. injection Hn as <-. replace (step >? 0)%Z with true in PC by (symmetry; lia).
  assert (Sg : tshape g = m :: l).
  { destruct (tshape g) as [|m' l'] eqn:E; [discriminate|]. cbn in Hm. injection Hm as ->. f_equal. apply list_ext. intros k. exact (Hk (S k) ltac:(lia)). }
  destruct (slice_positions_ok n start end_ step m Hs H0 Mp PC) as (LP & ST0 & NP). set (ps := slice_positions (Z.of_nat n) start end_ step) in *. set (st := py_start (Z.of_nat n) start) in *.
  unfold vjp_slice. change (0 <? 0)%Z with false. cbv iota. change (Z.to_nat 0) with 0. cbn [idx_or_panic nth_error bind]. fold ps. change (lshape (tlay g)) with (tshape g). rewrite Sg. cbn [length]. rewrite Nat.eqb_refl. cbn [negb nth_error idx_or_panic bind].
  unfold idx_or_panic. cbn [nth_error bind]. rewrite LP, Nat.eqb_refl. cbn [negb].
  assert (WR : forall k, k < m -> wrap_index (st + step * Z.of_nat k)%Z n = Some (Z.to_nat (st + step * Z.of_nat k))).
  { intros k Hlt. destruct (NP k Hlt) as [_ B]. apply wrap_names. split; [lia|]. left. lia. }
  destruct (scatter_adjoint 0 (n :: l) n (mkT ps (from_shape [m])) (fun j => (st + step * Z.of_nat (nth 0 j 0%nat))%Z) g max min) with (op := ScatterAdd) as (gx & E & G & Sx & H); auto; rewrite ?Sg; auto.
  - intros [|q] x y N Hx Hy; [lia|]. cbn in Hx, Hy. assert (x = y) by congruence. lia.
  - intros [|j0 j] V; [destruct V|]. cbn [tlay tstore from_shape loffset lstrides]. change (compute_strides [m]) with [1]. apply index_rank1; [cbn; lia|]. cbn [nth]. apply NP. now destruct V.
  - intros [|p j] [|q j'] k V V' N N' U; try (now destruct V); try (now destruct V'). cbn [nth] in N, N'. rewrite !upd0 in U. injection U as ->. f_equal.
    destruct V as [Vp _], V' as [Vq _]. apply wrap_names in N, N'. rewrite WR in N by auto. rewrite WR in N' by auto.
    assert (Z.to_nat (st + step * Z.of_nat p) = Z.to_nat (st + step * Z.of_nat q)) by congruence. assert ((step * Z.of_nat p = step * Z.of_nat q)%Z) by nia. nia.
  - exists gx. split; [exact E|]. split; [exact Sx|]. intros t Gt St.
    assert (RG : regular (VSlice 0 start end_ step) (tshape t)) by (cbn; lia).
    destruct (t_view_total R z (VSlice 0 start end_ step) t (tshape g) Gt RG ltac:(now rewrite St)) as (y & Ey & Sy).
    destruct (t_view_spec R z _ t y Gt RG Ey) as (_ & _ & Hy). exists y. split; [exact Ey|]. split; [congruence|]. rewrite H. unfold pairing. rewrite Sg. apply Sum_idx_ext. intros [|p j] V; [destruct V|].
    f_equal. cbn [nth]. destruct V as [Vp Vj]. unfold named. rewrite WR by auto. rewrite Sy, Sg in Hy. destruct (Hy (p :: j) (conj Vp Vj)) as (i & IR & Vi & Ei). apply val_elem. rewrite Ei. f_equal.
    rewrite St in IR. cbn [index_rel] in IR. change (axis_of (length (n :: l)) 0) with 0 in IR. destruct IR as (Li & Hi & n0 & x & y0 & Q1 & Q2 & Q3 & Q4). cbn in Q1, Q2. injection Q1 as <-. injection Q2 as <-.
    replace (step >? 0)%Z with true in Q4 by (symmetry; lia). fold st in Q4. destruct i as [|i0 i]; [discriminate|]. cbn in Q3. injection Q3 as ->. rewrite upd0. f_equal; [lia|]. apply list_ext. intros k. exact (Hi (S k) ltac:(lia)).
Qed.

(* ---------- slice backwards along the first axis ---------- *)
Lemma down_from_nth : forall step stop, (step < 0)%Z -> forall fuel i k, (i < Z.of_nat fuel)%Z ->
  nth_error (down_from fuel i stop step) k = if ((i + step * Z.of_nat k >? stop) && (i + step * Z.of_nat k >=? 0))%Z then Some (i + step * Z.of_nat k)%Z else None.
Proof.
  intros step stop Hs. induction fuel as [|fuel IH]; intros i k Hf; cbn [down_from].
  - replace (i + step * Z.of_nat k >=? 0)%Z with false by (symmetry; rewrite Z.geb_leb; apply Z.leb_gt; nia). rewrite andb_false_r. now destruct k.
  - destruct ((i >? stop) && (i >=? 0))%Z eqn:C.
    + destruct k as [|k]; cbn [nth_error].
      * replace (i + step * Z.of_nat 0)%Z with i by lia. now rewrite C.
      * rewrite IH by lia. replace (i + step + step * Z.of_nat k)%Z with (i + step * Z.of_nat (S k))%Z by lia. reflexivity.
    + replace ((i + step * Z.of_nat k >? stop) && (i + step * Z.of_nat k >=? 0))%Z with false; [now destruct k|].
      symmetry. apply andb_false_iff in C. apply andb_false_iff. rewrite !Z.gtb_ltb, !Z.geb_leb in *. destruct C as [C|C]; [left; apply Z.ltb_ge in C; apply Z.ltb_ge|right; apply Z.leb_gt in C; apply Z.leb_gt]; nia.
Qed.
Lemma slice_positions_back : forall n start end_ step m, (step < 0)%Z -> (start < Z.of_nat n)%Z -> 0 < m ->
  py_count (py_start_neg (Z.of_nat n) start) (py_stop_neg (Z.of_nat n) end_) step (Z.of_nat m) ->
  let ps := slice_positions (Z.of_nat n) start end_ step in
  length ps = m /\
  forall k, k < m -> nth_error ps k = Some (py_start_neg (Z.of_nat n) start + step * Z.of_nat k)%Z /\ (0 <= py_start_neg (Z.of_nat n) start + step * Z.of_nat k < Z.of_nat n)%Z.
Proof.
  intros n start end_ step m Hs H0 Hm [_ PC] ps. unfold ps, slice_positions. replace (step >? 0)%Z with false in * by (symmetry; lia).
  set (st := if (start <? 0)%Z then (Z.of_nat n + start)%Z else start).
  set (en := match end_ with Some e => if (e <? 0)%Z then (Z.of_nat n + e)%Z else e | None => (-1)%Z end).
  pose proof (proj1 (PC 0%Z ltac:(lia)) ltac:(lia)) as P0. rewrite Z.mul_0_r, Z.add_0_r in P0.
  assert (PS : (-1 <= py_stop_neg (Z.of_nat n) end_)%Z) by (unfold py_stop_neg; destruct end_ as [e|]; [destruct (Z.ltb_spec e 0)|]; lia).
  assert (ES : py_start_neg (Z.of_nat n) start = st) by (unfold py_start_neg, st in *; destruct (Z.ltb_spec start 0); lia). rewrite ES in *.
  assert (S1 : (st < Z.of_nat n)%Z) by (unfold st; destruct (Z.ltb_spec start 0); lia).
  assert (LT : forall x, (x < Z.of_nat n)%Z -> (x >? py_stop_neg (Z.of_nat n) end_)%Z = ((x >? en) && (x >=? 0))%Z).
  { intros x Hx. unfold py_stop_neg, en in *. destruct end_ as [e|]; [destruct (Z.ltb_spec e 0)|]; lia. }
  assert (NTH : forall k, nth_error (down_from (Z.to_nat (st + 1)) st en step) k = if (k <? m) then Some (st + step * Z.of_nat k)%Z else None).
  { intros k. rewrite down_from_nth by lia. rewrite <- LT by nia. specialize (PC (Z.of_nat k) ltac:(lia)). rewrite Z.gtb_ltb.
    destruct (Nat.ltb_spec k m); destruct (Z.ltb_spec (py_stop_neg (Z.of_nat n) end_) (st + step * Z.of_nat k)); auto; lia. }
  split.
  - set (u := down_from _ _ _ _) in *. clearbody u. destruct (Nat.lt_trichotomy (length u) m) as [L|[L|L]]; auto; exfalso.
    + specialize (NTH (length u)). rewrite (proj2 (nth_error_None _ _)) in NTH by lia. destruct (Nat.ltb_spec (length u) m); [discriminate|lia].
    + specialize (NTH m). rewrite Nat.ltb_irrefl in NTH. apply nth_error_None in NTH. lia.
  - intros k Hk. specialize (PC (Z.of_nat k) ltac:(lia)). split; [|split; [|nia]].
    + rewrite NTH. destruct (Nat.ltb_spec k m); [reflexivity|lia].
    + assert (E : (st + step * Z.of_nat k >? py_stop_neg (Z.of_nat n) end_)%Z = true) by (rewrite Z.gtb_ltb; apply Z.ltb_lt; lia). rewrite LT in E by nia. apply andb_true_iff in E. destruct E as [_ E]. rewrite Z.geb_leb in E. apply Z.leb_le in E. exact E.
Qed.
Lemma vjp_slice_back : forall max min n l start end_ step (g : tensor R), S (length l) <= 32 -> (step < 0)%Z -> (start < Z.of_nat n)%Z ->
  shape_rel (VSlice 0 start end_ step) (n :: l) (tshape g) -> good g ->
  exists gx, vjp_slice 0%R Rplus max min (n :: l) 0 start end_ step g = Ok gx /\ tshape gx = n :: l /\
    forall t y, tshape t = n :: l -> tshape y = tshape g ->
      (forall i, valid (tshape y) i -> exists j, index_rel (VSlice 0 start end_ step) (n :: l) (tshape y) i j /\ elem y i = elem t j) ->
      pairing g y = pairing gx t.
Proof.
  intros max min n l start end_ step g H32 Hs H0 SR Gg. cbn [shape_rel] in SR. change (axis_of (length (n :: l)) 0) with 0 in SR.
  destruct SR as (_ & Lg & Hk & n' & m & Hn & Hm & Mp & PC). cbn in Hn. injection Hn as <-. replace (step >? 0)%Z with false in PC by (symmetry; lia).
  assert (Sg : tshape g = m :: l).
  { destruct (tshape g) as [|m' l'] eqn:E; [discriminate|]. cbn in Hm. injection Hm as ->. f_equal. apply list_ext. intros k. exact (Hk (S k) ltac:(lia)). }
  destruct (slice_positions_back n start end_ step m Hs H0 Mp PC) as (LP & NP). set (ps := slice_positions (Z.of_nat n) start end_ step) in *. set (st := py_start_neg (Z.of_nat n) start) in *.
  unfold vjp_slice. change (0 <? 0)%Z with false. cbv iota. change (Z.to_nat 0) with 0. cbn [idx_or_panic nth_error bind]. fold ps. change (lshape (tlay g)) with (tshape g). rewrite Sg. cbn [length]. rewrite Nat.eqb_refl. cbn [negb nth_error idx_or_panic bind].
  unfold idx_or_panic. cbn [nth_error bind]. rewrite LP, Nat.eqb_refl. cbn [negb].
  assert (WR : forall k, k < m -> wrap_index (st + step * Z.of_nat k)%Z n = Some (Z.to_nat (st + step * Z.of_nat k))).
  { intros k Hlt. destruct (NP k Hlt) as [_ B]. apply wrap_names. split; [lia|]. left. lia. }
  destruct (scatter_adjoint 0 (n :: l) n (mkT ps (from_shape [m])) (fun j => (st + step * Z.of_nat (nth 0 j 0%nat))%Z) g max min) with (op := ScatterAdd) as (gx & E & G & Sx & H); auto; rewrite ?Sg; auto.
  - intros [|q] x y N Hx Hy; [lia|]. cbn in Hx, Hy. assert (x = y) by congruence. lia.
  - intros [|j0 j] V; [destruct V|]. cbn [tlay tstore from_shape loffset lstrides]. change (compute_strides [m]) with [1]. apply index_rank1; [cbn; lia|]. cbn [nth]. apply NP. now destruct V.
  - intros [|p j] [|q j'] k V V' N N' U; try (now destruct V); try (now destruct V'). cbn [nth] in N, N'. rewrite !upd0 in U. injection U as ->. f_equal.
    destruct V as [Vp _], V' as [Vq _]. apply wrap_names in N, N'. rewrite WR in N by auto. rewrite WR in N' by auto.
    pose proof (proj2 (NP p Vp)). pose proof (proj2 (NP q Vq)).
    assert (Z.to_nat (st + step * Z.of_nat p) = Z.to_nat (st + step * Z.of_nat q)) by congruence. assert ((step * Z.of_nat p = step * Z.of_nat q)%Z) by lia. nia.
  - exists gx. split; [exact E|]. split; [exact Sx|]. intros t y St Sy Hy. rewrite H. unfold pairing. rewrite Sg. apply Sum_idx_ext. intros [|p j] V; [destruct V|].
    f_equal. cbn [nth]. destruct V as [Vp Vj]. unfold named. rewrite WR by auto. rewrite Sy in Hy. destruct (Hy (p :: j) (conj Vp Vj)) as (i & IR & Ei). apply val_elem. rewrite Ei. f_equal.
    cbn [index_rel] in IR. change (axis_of (length (n :: l)) 0) with 0 in IR. destruct IR as (Li & Hi & n0 & x & y0 & Q1 & Q2 & Q3 & Q4). cbn in Q1, Q2. injection Q1 as <-. injection Q2 as <-.
    replace (step >? 0)%Z with false in Q4 by (symmetry; lia). fold st in Q4. destruct i as [|i0 i]; [discriminate|]. cbn in Q3. injection Q3 as ->. rewrite upd0. f_equal; [lia|]. apply list_ext. intros k. exact (Hi (S k) ltac:(lia)).
Qed.

(* ---------- topk ---------- *)
Lemma upd_snoc : forall (o : list nat) x k, upd (o ++ [x]) (length o) k = o ++ [k].
Proof. induction o as [|y o IH]; intros x k; cbn [app length upd]; auto. now rewrite IH. Qed.
Lemma valid_snoc : forall s n j, valid (s ++ [n]) j -> exists o x, j = o ++ [x] /\ valid s o /\ x < n /\ length o = length s.
Proof.
  induction s as [|m s IH]; intros n [|y j] V; cbn in V; try tauto.
  - destruct V as [V1 V2]. destruct j; [|destruct V2]. now exists [], y.
  - destruct V as [V1 V2]. destruct (IH n j V2) as (o & x & -> & Vo & Hx & L). exists (y :: o), x. cbn. auto.
Qed.
Section TopK.
Variables (K : Type) (gt : K -> K -> bool).
Hypothesis gt_asym : forall a b, gt a b = true -> gt b a = false.
Hypothesis gt_neg : forall a b c, gt a b = false -> gt b c = false -> gt a c = false.
Variable key : R -> K.
Lemma vjp_topk_adjoint : forall qsort z max min (t : tensor R) s n k a lg st v ix (g : tensor R), qsort_ok K qsort -> good t ->
  is_contiguous (tlay t) = true -> tshape t = s ++ [n] -> axis_ok (length (tshape t)) a ->
  axis_of (length (tshape t)) a = length s -> 0 < k -> k <= n -> 0 < nelem s -> S (length s) <= 32 ->
  t_topk key gt qsort z t k a lg st = Ok (v, ix) -> good g -> tshape g = s ++ [k] ->
  exists gx, vjp_topk 0%R Rplus max min (tshape t) a ix g = Ok gx /\ tshape gx = tshape t /\
    forall t' v', good t' -> is_contiguous (tlay t') = true -> tshape t' = s ++ [n] ->
      t_topk key gt qsort z t' k a lg st = Ok (v', ix) -> tshape v' = tshape g /\ pairing g v' = pairing gx t'.
Proof.
  intros qsort z max min t s n k a lg st v ix g Hq Gt Ct St Ha Hd Hk Hkn Hs0 H32 E Gg Sg.
  assert (SPEC : forall (u w : tensor R), good u -> is_contiguous (tlay u) = true -> tshape u = s ++ [n] -> t_topk key gt qsort z u k a lg st = Ok (w, ix) ->
    good w /\ good ix /\ tshape w = s ++ [k] /\ tshape ix = s ++ [k] /\
    forall o, valid s o -> exists js, NoDup js /\ (forall j, In j js -> j < n) /\
      forall i, i < k -> exists j, nth_error js i = Some j /\ elem w (o ++ [i]) = elem u (o ++ [j]) /\ elem ix (o ++ [i]) = Some (Z.of_nat j)).
  { intros u w Gu Cu Su Eu.
    destruct (t_topk_spec R K gt gt_asym gt_neg key qsort z u s n k a lg st Hq Gu Cu Su ltac:(rewrite Su, <- St; exact Ha) ltac:(rewrite Su, <- St; exact Hd) Hk Hkn Hs0) as (w' & ix' & E' & G1 & G2 & S1 & S2 & H).
    rewrite Eu in E'. injection E' as <- <-. split; auto. split; auto. split; auto. split; auto. intros o Vo. destruct (H o Vo) as (row & js & Lr & _ & (_ & ND & IN & _) & X).
    exists js. split; auto. split; [intros j Ij; rewrite <- Lr; now apply IN|exact X]. }
  destruct (SPEC t v Gt Ct St E) as (_ & Gi & _ & Si & HS).
  assert (AX : MoveModel.axis_usize (length (tshape t)) a = Some (length s)) by (rewrite axis_usize_ok by auto; now rewrite Hd).
  unfold vjp_topk. rewrite AX.
  assert (IXR : forall j, valid (s ++ [k]) j -> exists y, ixof ix j = Z.of_nat y /\ y < n).
  { intros j V. destruct (valid_snoc s k j V) as (o & x & -> & Vo & Hx & _). destruct (HS o Vo) as (js & _ & IN & X). destruct (X x Hx) as (y & Ey & _ & Eix).
    exists y. split; [unfold ixof; now rewrite Eix|]. apply IN. now apply nth_error_In in Ey. }
  assert (WR : forall y, y < n -> wrap_index (Z.of_nat y) n = Some y) by (intros y Hy; apply wrap_names; split; auto).
  destruct (scatter_adjoint (length s) (s ++ [n]) n ix (ixof ix) g max min) with (op := ScatterAdd) as (gx & Eg & G & Sx & H); auto; rewrite ?Sg; auto.
  - rewrite nth_error_app2, Nat.sub_diag by lia. reflexivity.
  - rewrite app_length. cbn [length]. lia.
  - now rewrite !app_length.
  - intros q x y N Hx Hy. destruct (Nat.lt_ge_cases q (length s)) as [Q|Q].
    + rewrite nth_error_app1 in Hx, Hy by auto. assert (x = y) by congruence. lia.
    + rewrite nth_error_app2 in Hx by auto. destruct (q - length s) as [|[|]] eqn:Q'; [lia| |]; discriminate.
  - intros j V. apply (index_same_rank ix (s ++ [k])); auto; [rewrite Si, !app_length; reflexivity|]. apply ixof_good; auto. now rewrite Si.
  - intros j j' y V V' N N' U. destruct (valid_snoc s k j V) as (o & x & -> & Vo & Hx & Lo). destruct (valid_snoc s k j' V') as (o' & x' & -> & Vo' & Hx' & Lo').
    rewrite <- Lo in U at 1. rewrite <- Lo' in U. rewrite !upd_snoc in U. apply app_inj_tail in U. destruct U as [-> _]. f_equal. f_equal.
    destruct (HS o' Vo) as (js & ND & IN & X). destruct (X x Hx) as (p & Ep & _ & E1). destruct (X x' Hx') as (p' & Ep' & _ & E2).
    unfold ixof in N, N'. rewrite E1 in N. rewrite E2 in N'.
    assert (p < n) by (apply IN; now apply nth_error_In in Ep). assert (p' < n) by (apply IN; now apply nth_error_In in Ep').
    assert (p = p') by (destruct N, N'; lia). subst p'. rewrite NoDup_nth_error in ND. apply ND; [apply nth_error_Some; congruence|congruence].
  - rewrite St. exists gx. split; [exact Eg|]. split; [exact Sx|]. intros t' v' Gt' Ct' St' E'. destruct (SPEC t' v' Gt' Ct' St' E') as (_ & _ & Sv & _ & HS').
    split; [congruence|]. rewrite H. unfold pairing. rewrite Sg. apply Sum_idx_ext. intros j V. f_equal. destruct (valid_snoc s k j V) as (o & x & -> & Vo & Hx & Lo).
    destruct (HS' o Vo) as (js & _ & IN & X). destruct (X x Hx) as (y & Ey & Ev & Eix). unfold named, ixof. rewrite Eix. rewrite WR by (apply IN; now apply nth_error_In in Ey).
    apply val_elem. rewrite Ev, <- Lo. now rewrite upd_snoc.
Qed.
End TopK.
