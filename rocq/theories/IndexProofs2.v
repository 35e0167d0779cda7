(** Proofs about the scatter family and index_put. *)
From Coq Require Import List Arith ZArith Lia Bool ZifyBool Permutation.
From Verif Require Import Base IndexSpec LayoutModel ViewSpec LayoutProofs BcastProofs.
From Verif Require Import KernelModel TensorModel TensorSpec KernelProofs TensorProofs.
From Verif Require Import ReduceModel ReduceSpec ReduceProofs ScanModel ScanProofs MoveModel MoveProofs.
From Verif Require Import MoveProofs2 MoveProofs3 IndexModel IndexProofs.
Import ListNotations.

Lemma seq_for_from_prefix : forall B (h : nat -> B) g n start pre out,
  length pre = start -> n <= length out -> (forall i, start <= i < start + n -> g i = Some (h i)) ->
  seq_for_from start n g (pre ++ out) = Some (pre ++ map h (seq start n) ++ skipn n out).
Proof.
  intros B h g. induction n as [|n IH]; intros start pre out Hp Ho Hg; auto.
  destruct out as [|o out]; [cbn in Ho; lia|]. cbn [length] in Ho. cbn [seq_for_from].
  rewrite Hg by lia. cbn [obind]. unfold c_store.
  replace (start <? length (pre ++ o :: out)) with true by (rewrite app_length; cbn [length]; lia).
  cbn [obind]. rewrite <- Hp at 2. rewrite upd_mid.
  replace (pre ++ h start :: out) with ((pre ++ [h start]) ++ out) by (rewrite <- app_assoc; reflexivity).
  rewrite IH; [|rewrite app_length; cbn [length]; lia|lia|intros; apply Hg; lia].
  cbn [seq map skipn]. rewrite <- app_assoc. reflexivity.
Qed.
Lemma seq_for_prefix : forall B (h : nat -> B) g n out,
  n <= length out -> (forall i, i < n -> g i = Some (h i)) ->
  seq_for n g out = Some (map h (seq 0 n) ++ skipn n out).
Proof.
  intros B h g n out H Hg. unfold seq_for. rewrite <- (app_nil_l out) at 1.
  rewrite (seq_for_from_prefix B h); auto. intros i Hi. apply Hg. lia.
Qed.

(* ---------- a loop of updates ---------- *)

Section Writes.
Context {A X : Type}.
Variables (f : A -> A -> A) (w : X -> option (nat * A)).

Definition at_pos (p : nat) (x : X) : bool := match w x with Some (q, _) => q =? p | None => false end.
Definition writes (p : nat) (l : list X) : list A :=
  flat_map (fun x => match w x with Some (q, v) => if q =? p then [v] else [] | None => [] end) l.

Lemma loop_writes : forall step l n out,
  (forall x o, In x l -> length o = n -> step x o =
     match w x with None => Some o | Some (p, v) => let? old := nth_error o p in c_store o p (f old v) end) ->
  (forall x p v, In x l -> w x = Some (p, v) -> p < n) ->
  length out = n ->
  exists out', loopO step l out = Some out' /\ length out' = n /\
    forall p o, nth_error out p = Some o -> nth_error out' p = Some (fold_left f (writes p l) o).
Proof.
  intros step. induction l as [|x l IH]; intros n out Hs Hp Ho.
  - exists out. split; auto.
  - cbn [loopO]. rewrite (Hs x out) by (auto; now left).
    destruct (w x) as [[p v]|] eqn:E.
    + pose proof (Hp x p v (or_introl eq_refl) E) as Lp.
      destruct (nth_error out p) as [old|] eqn:En; [|apply nth_error_None in En; lia].
      cbn [obind]. unfold c_store. replace (p <? length out) with true by lia. cbn [obind].
      destruct (IH n (upd out p (f old v))) as [out' [E1 [E2 E3]]].
      * intros y o Hy. apply Hs. now right.
      * intros y q u Hy. apply Hp. now right.
      * now rewrite upd_length.
      * exists out'. repeat split; auto. intros q o Hq. unfold writes. cbn [flat_map]. rewrite E.
        destruct (p =? q) eqn:K.
        -- assert (p = q) by lia. subst q. rewrite Hq in En. injection En as ->.
           cbn [app fold_left]. apply E3. apply nth_error_upd_eq. lia.
        -- apply E3. rewrite nth_error_upd_neq by lia. auto.
    + destruct (IH n out) as [out' [E1 [E2 E3]]]; auto.
      * intros y o Hy. apply Hs. now right.
      * intros y q u Hy. apply Hp. now right.
      * exists out'. cbn [obind]. repeat split; auto. intros q o Hq. unfold writes. cbn [flat_map]. rewrite E. now apply E3.
Qed.
End Writes.

(** Source element [j] with index value [ix] is written to [i]: [i] is [j] with
    the coordinate on the axis replaced by the position [ix] names. *)
Definition lands (n d : nat) (ix : Z) (j i : list nat) : Prop :=
  exists k, names n ix k /\ i = upd j d k.
Definition landsb (n d : nat) (ix : Z) (j i : list nat) : bool :=
  let k := nth d i 0 in
  (k <? n) && ((ix =? Z.of_nat k) || (ix =? Z.of_nat k - Z.of_nat n))%Z
  && (if list_eq_dec Nat.eq_dec i (upd j d k) then true else false).

Lemma nth_upd_eq : forall (l : list nat) d k, d < length l -> nth d (upd l d k) 0 = k.
Proof. intros l d k H. apply nth_error_nth. now apply nth_error_upd_eq. Qed.

Lemma landsb_iff : forall n d ix j i, d < length j -> landsb n d ix j i = true <-> lands n d ix j i.
Proof.
  intros n d ix j i Hd. unfold landsb, lands, names. cbv zeta.
  destruct (list_eq_dec Nat.eq_dec i (upd j d (nth d i 0))) as [E|E]; split.
  - intros H. exists (nth d i 0). split; auto. lia.
  - intros [k [H1 H2]]. assert (K : nth d i 0 = k) by (rewrite H2; now apply nth_upd_eq). rewrite K. lia.
  - lia.
  - intros [k [H1 H2]]. exfalso. apply E. rewrite H2 at 1. f_equal. rewrite H2. symmetry. now apply nth_upd_eq.
Qed.
Lemma lands_fun : forall n d ix j i i', lands n d ix j i -> lands n d ix j i' -> i = i'.
Proof.
  intros n d ix j i i' [k [H1 ->]] [k' [H2 ->]]. f_equal. unfold names in *. lia.
Qed.

Section Scatter.
Variables (A : Type) (d0 : A) (f : A -> A -> A).

(** The write the loop performs for source element number [id]. *)
Definition scatter_write (s ss : shape) (d n : nat) (ixat : list nat -> Z) (val : list nat -> A) (id : nat)
    : option (nat * A) :=
  let j := unravel ss id in
  match wrap_index (ixat j) n with
  | None => None
  | Some k => Some (ravel s (upd j d k), val j)
  end.

Lemma writes_filter : forall s ss d n ixat val i, d < length ss -> valid s i -> nth_error s d = Some n ->
  (forall j k, valid ss j -> names n (ixat j) k -> valid s (upd j d k)) ->
  writes (scatter_write s ss d n ixat val) (ravel s i) (seq 0 (nelem ss)) =
  map val (filter (fun j => landsb n d (ixat j) j i) (all_idx ss)).
Proof.
  intros s ss d n ixat val i Hd V Hn Hv. rewrite all_idx_map_unravel. unfold writes.
  assert (G : forall l, (forall x, In x l -> x < nelem ss) ->
     flat_map (fun x => match scatter_write s ss d n ixat val x with
                        | Some (q, v) => if q =? ravel s i then [v] else [] | None => [] end) l =
     map val (filter (fun j => landsb n d (ixat j) j i) (map (unravel ss) l))).
  { induction l as [|x l IH]; intros Hl; auto. cbn [flat_map map filter].
    assert (Vx : valid ss (unravel ss x)) by (apply unravel_valid, Hl; now left).
    assert (Lx : length (unravel ss x) = length ss) by (now apply valid_length).
    rewrite IH by (intros; apply Hl; now right). unfold scatter_write at 1. cbv zeta.
    destruct (wrap_index (ixat (unravel ss x)) n) as [k|] eqn:E.
    - apply wrap_names in E. destruct (ravel s (upd (unravel ss x) d k) =? ravel s i) eqn:K.
      + assert (K' : ravel s (upd (unravel ss x) d k) = ravel s i) by lia.
        assert (LB : landsb n d (ixat (unravel ss x)) (unravel ss x) i = true).
        { apply landsb_iff; [lia|]. exists k. split; auto. symmetry. eapply ravel_inj; eauto. }
        now rewrite LB.
      + destruct (landsb n d (ixat (unravel ss x)) (unravel ss x) i) eqn:LB; auto.
        apply landsb_iff in LB; [|lia]. destruct LB as [k' [N' ->]].
        assert (k = k') by (unfold names in *; lia). subst k'. lia.
    - destruct (landsb n d (ixat (unravel ss x)) (unravel ss x) i) eqn:LB; auto.
      apply landsb_iff in LB; [|lia]. destruct LB as [k' [N' ->]]. apply wrap_names in N'. congruence. }
  apply G. intros x Hx. apply in_seq in Hx. lia.
Qed.

Lemma scatter_kernel_spec : forall input indices src out l il sl d n ixat val,
  wf_layout l -> in_bounds (length input) l -> wf_layout il -> wf_layout sl ->
  length (lshape il) = length (lshape l) -> length (lshape sl) = length (lshape l) ->
  length (lshape l) <= 32 -> nth_error (lshape l) d = Some n ->
  (forall k x y, k <> d -> nth_error (lshape sl) k = Some x -> nth_error (lshape l) k = Some y -> x <= y) ->
  (forall j, valid (lshape sl) j -> nth_error indices (addr il j) = Some (ixat j)) ->
  (forall j, valid (lshape sl) j -> nth_error src (addr sl j) = Some (val j)) ->
  nelem (lshape l) <= length out ->
  exists out', scatter_kernel f input indices src out (scatter_metadata l il sl d) = Some out' /\
    length out' = length out /\
    forall i x, valid (lshape l) i -> nth_error input (addr l i) = Some x ->
      nth_error out' (ravel (lshape l) i) =
      Some (fold_left f (map val (filter (fun j => landsb n d (ixat j) j i) (all_idx (lshape sl)))) x).
Proof.
  intros input indices src out l il sl d n ixat val Hw Hb Hwi Hws HLi HLs H32 Hn Hle Hix Hval Hout.
  unfold scatter_kernel.
  set (s := lshape l) in *. set (ss := lshape sl) in *. set (nd := length s) in *.
  set (md := scatter_metadata l il sl d).
  assert (LS : length (lstrides l) = nd) by exact Hw.
  assert (LI : length (lstrides il) = nd) by (unfold wf_layout in Hwi; congruence).
  assert (LSS : length (lstrides sl) = nd) by (unfold wf_layout in Hws; unfold ss in HLs; congruence).
  set (tl := [loffset l; loffset sl; loffset il; d]).
  assert (EM : md = [nelem ss; nd] ++ s ++ lstrides l ++ ss ++ lstrides sl ++ lstrides il ++ tl).
  { unfold md, scatter_metadata. fold s ss nd. rewrite !padded_id by auto. reflexivity. } clearbody md.
  assert (M0 : nth_error md 0 = Some (nelem ss)) by (now rewrite EM).
  assert (M1 : nth_error md 1 = Some nd) by (now rewrite EM).
  assert (M2 : md_slice md 2 nd = Some s).
  { rewrite EM. apply (md_at _ [nelem ss; nd] s (lstrides l ++ ss ++ lstrides sl ++ lstrides il ++ tl)); auto. }
  assert (M3 : md_slice md (2 + nd) nd = Some (lstrides l)).
  { rewrite EM. apply (md_at _ ([nelem ss; nd] ++ s) (lstrides l) (ss ++ lstrides sl ++ lstrides il ++ tl));
      [assoc|rewrite !app_length; cbn [length]; fold nd; lia|auto]. }
  assert (M4 : md_slice md (2 + 2 * nd) nd = Some ss).
  { rewrite EM. apply (md_at _ ([nelem ss; nd] ++ s ++ lstrides l) ss (lstrides sl ++ lstrides il ++ tl));
      [assoc|rewrite !app_length, LS; cbn [length]; fold nd; lia|auto]. }
  assert (M5 : md_slice md (2 + 3 * nd) nd = Some (lstrides sl)).
  { rewrite EM. apply (md_at _ ([nelem ss; nd] ++ s ++ lstrides l ++ ss) (lstrides sl) (lstrides il ++ tl));
      [assoc|rewrite !app_length, LS, HLs; cbn [length]; fold nd; lia|auto]. }
  assert (M6 : md_slice md (2 + 4 * nd) nd = Some (lstrides il)).
  { rewrite EM. apply (md_at _ ([nelem ss; nd] ++ s ++ lstrides l ++ ss ++ lstrides sl) (lstrides il) tl);
      [assoc|rewrite !app_length, LS, HLs, LSS; cbn [length]; fold nd; lia|auto]. }
  assert (M7 : forall q X Y, tl = X ++ q :: Y -> nth_error md (2 + 5 * nd + length X) = Some q).
  { intros q X Y E. rewrite EM.
    apply (nth_at _ ([nelem ss; nd] ++ s ++ lstrides l ++ ss ++ lstrides sl ++ lstrides il ++ X) Y).
    - rewrite E. assoc.
    - rewrite !app_length, HLs, LS, LSS, LI. cbn [length]. fold nd. lia. }
  rewrite M0, M1. cbn [obind]. rewrite M2. cbn [obind]. rewrite M3. cbn [obind].
  rewrite M4. cbn [obind]. rewrite M5. cbn [obind]. rewrite M6. cbn [obind].
  pose proof (M7 (loffset l) [] _ eq_refl) as E0. cbn [length] in E0. rewrite Nat.add_0_r in E0.
  pose proof (M7 (loffset sl) [loffset l] _ eq_refl) as E1.
  pose proof (M7 (loffset il) [loffset l; loffset sl] _ eq_refl) as E2.
  pose proof (M7 d [loffset l; loffset sl; loffset il] _ eq_refl) as E3.
  cbn [length] in E1, E2, E3. rewrite E0. cbn [obind]. rewrite E1. cbn [obind]. rewrite E2. cbn [obind].
  rewrite E3. cbn [obind]. change shape_size with nelem. cbv zeta.
  rewrite (seq_for_prefix A (fun k => rd d0 input (addr l (unravel s k)))); auto.
  2:{ intros k Hk. cbv beta. rewrite c_unravel_spec by exact Hk. cbn [obind].
      rewrite flat_index_dot. fold (addr l (unravel s k)). apply nth_error_rd. apply Hb. now apply unravel_valid. }
  cbn [obind]. set (out1 := _ ++ skipn _ out).
  assert (L1 : length out1 = length out).
  { unfold out1. rewrite app_length, map_length, seq_length, skipn_length. lia. }
  assert (Hd : d < nd) by (apply nth_error_Some; congruence).
  assert (Hv : forall j k, valid ss j -> names n (ixat j) k -> valid s (upd j d k)).
  { intros j k V [Hk _]. apply valid_nth in V. destruct V as [L V]. apply valid_nth. rewrite upd_length.
    split; [unfold nd in *; lia|]. intros q x e Hx He. destruct (Nat.eq_dec q d) as [->|Hq].
    - rewrite nth_error_upd_eq in Hx by (unfold nd in *; lia). congruence.
    - rewrite nth_error_upd_neq in Hx by auto. destruct (nth_error ss q) as [y|] eqn:Ey.
      + pose proof (V _ _ _ Hx Ey). pose proof (Hle _ _ _ Hq Ey He). lia.
      + apply nth_error_None in Ey. assert (q < length j) by (apply nth_error_Some; congruence).
        unfold nd in *; lia. }
  match goal with |- context [loopO ?st (seq 0 _) _] =>
    destruct (loop_writes f (scatter_write s ss d n ixat val) st (seq 0 (nelem ss)) (length out) out1)
      as [out' [Z1 [Z2 Z3]]] end; auto.
  - intros id o Hid Lo. apply in_seq in Hid.
    assert (V : valid ss (unravel ss id)) by (apply unravel_valid; lia).
    assert (Lj := valid_length _ _ V).
    rewrite c_unravel_spec by lia. cbn [obind]. rewrite !flat_index_dot.
    fold (addr il (unravel ss id)). rewrite Hix by auto. cbn [obind]. rewrite Hn. cbn [obind].
    unfold scatter_write. cbv zeta.
    destruct (wrap_index (ixat (unravel ss id)) n) as [k|] eqn:E; auto.
    replace (32 <? nd) with false by lia.
    rewrite (adjust_spec d _ _ (nth d (unravel ss id) 0)) by (apply nth_error_nth'; lia).
    rewrite flat_index_dot. rewrite Nat.add_0_l, dot_compute_strides by (rewrite upd_length; unfold nd in *; lia).
    apply wrap_names in E. pose proof (ravel_lt _ _ (Hv _ _ V E)) as R.
    replace (nelem s <=? ravel s (upd (unravel ss id) d k)) with false by lia.
    fold (addr sl (unravel ss id)). rewrite Hval by auto. reflexivity.
  - intros id p v Hid. unfold scatter_write. cbv zeta. apply in_seq in Hid.
    assert (V : valid ss (unravel ss id)) by (apply unravel_valid; lia).
    destruct (wrap_index (ixat (unravel ss id)) n) as [k|] eqn:E; [|discriminate].
    intros H. injection H as <- <-. apply wrap_names in E.
    pose proof (ravel_lt _ _ (Hv _ _ V E)). lia.
  - exists out'. repeat split; auto. intros i x V Hx.
    rewrite (Z3 (ravel s i) x).
    + rewrite writes_filter; auto. unfold nd in *; lia.
    + unfold out1. pose proof (ravel_lt _ _ V) as R. rewrite nth_error_app1 by (now rewrite map_length, seq_length).
      rewrite nth_error_map_seq by auto. rewrite unravel_ravel by auto. rewrite <- Hx.
      symmetry. apply nth_error_rd. now apply Hb.
Qed.
End Scatter.

Section ScatterT.
Variables (A : Type) (d0 : A) (add max min : A -> A -> A).

Lemma t_scatter_spec : forall op (t : tensor A) a (idx : tensor Z) (src : tensor A) n ixat val,
  good t -> good idx -> good src -> plain_layout t -> axis_ok (length (tshape t)) a ->
  let d := axis_of (length (tshape t)) a in
  nth_error (tshape t) d = Some n -> length (tshape t) <= 32 ->
  length (tshape idx) = length (tshape t) -> length (tshape src) = length (tshape t) ->
  (forall k x y, k <> d -> nth_error (tshape src) k = Some x -> nth_error (tshape t) k = Some y -> x <= y) ->
  (forall j, valid (tshape src) j -> elem idx j = Some (ixat j)) ->
  (forall j, valid (tshape src) j -> elem src j = Some (val j)) ->
  exists r, t_scatter add max min op t a idx src = Ok r /\ good r /\ tlay r = tlay t /\
    forall i x, valid (tshape t) i -> elem t i = Some x ->
      elem r i = Some (fold_left (scatter_combine add max min (scatter_kernel_of op))
                   (map val (filter (fun j => landsb n d (ixat j) j i) (all_idx (tshape src)))) x).
Proof.
  intros op t a idx src n ixat val Hg Hi Hs Hp Ha d Hn H32 HLi HLs Hle Hix Hval.
  unfold t_scatter. fold (tshape t). rewrite axis_usize_ok by auto. fold d.
  assert (Hd : d < length (tshape t)) by (now apply axis_of_lt).
  replace (d <? length (tshape t)) with true by lia.
  pose proof (plain_len _ t Hg Hp) as PL. pose proof Hg as [Hw Hb]. destruct Hi as [Hwi _]. destruct Hs as [Hws _].
  destruct (scatter_kernel_spec A d0 (scatter_combine add max min (scatter_kernel_of op))
              (tstore t) (tstore idx) (tstore src) (tstore t) (tlay t) (tlay idx) (tlay src) d n ixat val)
    as [out' [E [L H]]]; auto.
  rewrite E. cbn [ub bind]. exists (mkT out' (tlay t)). split; auto.
  assert (G : good (mkT out' (tlay t))).
  { split; [exact Hw|]. cbn. now rewrite L. }
  repeat split; auto; try apply G. intros i x V Hx. rewrite (plain_elem _ (mkT out' (tlay t)) i G Hp (valid_length _ _ V)).
  cbn [tstore]. apply H; auto.
Qed.
End ScatterT.

(** Overwriting keeps the last value. *)
Lemma fold_last : forall A (l : list A) x, fold_left (fun _ v => v) l x = last l x.
Proof.
  induction l as [|y l IH]; intros x; auto. cbn [fold_left]. rewrite IH.
  destruct l; auto. cbn [last]. clear. revert a. induction l as [|b l IH]; intros a; auto. cbn [last] in *. destruct l; auto.
Qed.
Lemma fold_perm : forall A (f : A -> A -> A), (forall x a b, f (f x a) b = f (f x b) a) ->
  forall l l', Permutation l l' -> forall x, fold_left f l x = fold_left f l' x.
Proof.
  intros A f H l l' P. induction P; intros z; cbn [fold_left]; auto.
  - now rewrite H. - now rewrite IHP1.
Qed.

(* ---------- index_put ---------- *)

Section Put.
Variables (A : Type) (d0 : A).

Lemma put_find_spec : forall n k is i, k < n ->
  match put_find i is n k with
  | Some j => exists m, j = i + m /\ m < length is /\ names n (nth m is 0%Z) k /\
                forall m', m' < m -> ~ names n (nth m' is 0%Z) k
  | None => forall m, m < length is -> ~ names n (nth m is 0%Z) k
  end.
Proof.
  intros n k. induction is as [|ix is IH]; intros i Hk; cbn [put_find].
  - cbn [length]. lia.
  - cbv zeta. destruct (_ && _)%Z eqn:E.
    + exists 0. cbn [nth length]. unfold names. destruct (ix <? 0)%Z eqn:E2; repeat split; try lia.
    + specialize (IH (S i) Hk). assert (N : ~ names n ix k) by (unfold names; destruct (ix <? 0)%Z eqn:E2; lia).
      destruct (put_find (S i) is n k) as [j|].
      * destruct IH as [m [-> [L [N1 N2]]]]. exists (S m). cbn [nth length]. repeat split; try lia; try apply N1.
        intros [|m'] Hm; cbn [nth]; auto. apply N2. lia.
      * intros [|m] Hm; cbn [nth]; auto. cbn [length] in Hm. apply IH. lia.
Qed.

(** The metadata layout ops_indexing.c:95-110 documents. *)
Definition index_put_md_doc (l vl : layout) (d num n : nat) : list nat :=
  [n; length (lshape l)] ++ lshape l ++ lstrides l ++ lstrides vl ++ [loffset l; loffset vl; d; num].

Lemma index_put_kernel_spec : forall (input : list A) indices (values out : list A) l vl d n,
  wf_layout l -> in_bounds (length input) l -> wf_layout vl -> in_bounds (length values) vl ->
  nth_error (lshape l) d = Some n -> lshape vl = upd (lshape l) d (length indices) ->
  length out = nelem (lshape l) ->
  exists out', index_put_kernel input indices values out
                 (index_put_md_doc l vl d (length indices) (nelem (lshape l))) = Some out' /\
    length out' = length out /\
    forall i, valid (lshape l) i ->
      (forall m, m < length indices -> names n (nth m indices 0%Z) (nth d i 0) ->
         (forall m', m' < m -> ~ names n (nth m' indices 0%Z) (nth d i 0)) ->
         nth_error out' (ravel (lshape l) i) = nth_error values (addr vl (upd i d m))) /\
      ((forall m, m < length indices -> ~ names n (nth m indices 0%Z) (nth d i 0)) ->
         nth_error out' (ravel (lshape l) i) = nth_error input (addr l i)).
Proof.
  intros input indices values out l vl d n Hw Hb Hwv Hbv Hn Hsv Ho. unfold index_put_kernel.
  set (s := lshape l) in *. set (nd := length s) in *.
  set (md := index_put_md_doc l vl d (length indices) (nelem s)).
  assert (LS : length (lstrides l) = nd) by exact Hw.
  assert (LV : length (lstrides vl) = nd) by (unfold wf_layout in Hwv; rewrite Hsv, upd_length in Hwv; exact Hwv).
  set (tl := [loffset l; loffset vl; d; length indices]).
  assert (EM : md = [nelem s; nd] ++ s ++ lstrides l ++ lstrides vl ++ tl) by reflexivity. clearbody md.
  assert (M0 : nth_error md 0 = Some (nelem s)) by (now rewrite EM).
  assert (M1 : nth_error md 1 = Some nd) by (now rewrite EM).
  assert (M2 : md_slice md 2 nd = Some s).
  { rewrite EM. apply (md_at _ [nelem s; nd] s (lstrides l ++ lstrides vl ++ tl)); auto. }
  assert (M3 : md_slice md (2 + nd) nd = Some (lstrides l)).
  { rewrite EM. apply (md_at _ ([nelem s; nd] ++ s) (lstrides l) (lstrides vl ++ tl));
      [assoc|rewrite !app_length; cbn [length]; fold nd; lia|auto]. }
  assert (M4 : md_slice md (2 + 2 * nd) nd = Some (lstrides vl)).
  { rewrite EM. apply (md_at _ ([nelem s; nd] ++ s ++ lstrides l) (lstrides vl) tl);
      [assoc|rewrite !app_length, LS; cbn [length]; fold nd; lia|auto]. }
  assert (M7 : forall q X Y, tl = X ++ q :: Y -> nth_error md (2 + 3 * nd + length X) = Some q).
  { intros q X Y E. rewrite EM. apply (nth_at _ ([nelem s; nd] ++ s ++ lstrides l ++ lstrides vl ++ X) Y).
    - rewrite E. assoc.
    - rewrite !app_length, LS, LV. cbn [length]. fold nd. lia. }
  assert (Hd : d < nd) by (apply nth_error_Some; congruence).
  assert (M8 : nth_error md (2 + d) = Some n).
  { rewrite EM. cbn [app Nat.add nth_error]. now rewrite nth_error_app1. }
  rewrite M0, M1. cbn [obind]. rewrite M2. cbn [obind]. rewrite M3. cbn [obind]. rewrite M4. cbn [obind].
  pose proof (M7 (loffset l) [] _ eq_refl) as E0. cbn [length] in E0. rewrite Nat.add_0_r in E0.
  pose proof (M7 (loffset vl) [loffset l] _ eq_refl) as E1.
  pose proof (M7 d [loffset l; loffset vl] _ eq_refl) as E2.
  pose proof (M7 (length indices) [loffset l; loffset vl; d] _ eq_refl) as E3.
  cbn [length] in E1, E2, E3. rewrite E0. cbn [obind]. rewrite E1. cbn [obind]. rewrite E2. cbn [obind].
  rewrite E3. cbn [obind]. clear E0 E1 E2 E3 M7.
  set (h := fun i => match put_find 0 indices n (nth d i 0) with
                     | Some j => rd d0 values (addr vl (upd i d j)) | None => rd d0 input (addr l i) end).
  assert (IV : forall i m, valid s i -> m < length indices -> valid (lshape vl) (upd i d m)).
  { intros i m V Hm. apply valid_nth in V. destruct V as [L V]. rewrite Hsv. apply valid_nth. rewrite !upd_length.
    split; auto. intros q x e Hx He. destruct (Nat.eq_dec q d) as [->|Hq].
    - rewrite nth_error_upd_eq in Hx by (unfold nd in *; lia). rewrite nth_error_upd_eq in He by auto. congruence.
    - rewrite nth_error_upd_neq in Hx by auto. rewrite nth_error_upd_neq in He by auto. eauto. }
  assert (XK : forall i, valid s i -> nth d i 0 < n).
  { intros i V. apply valid_nth in V. destruct V as [L V]. apply (V d); auto. apply nth_error_nth'. unfold nd in *; lia. }
  rewrite (seq_for_total A (fun k => h (unravel s k))); auto.
  2:{ intros k Hk. cbv beta. rewrite c_unravel_spec by exact Hk. cbn [obind]. rewrite !flat_index_dot.
      assert (V := unravel_valid s k Hk). fold (addr l (unravel s k)). unfold h.
      destruct (length indices =? 0) eqn:Z0.
      - assert (Zn : indices = []) by (destruct indices; [auto|cbn in Z0; lia]). rewrite Zn. cbn [put_find].
        apply nth_error_rd. now apply Hb.
      - rewrite M8. cbn [obind]. rewrite firstn_all.
        pose proof (put_find_spec n (nth d (unravel s k) 0) indices 0 (XK _ V)) as P.
        destruct (put_find 0 indices n (nth d (unravel s k) 0)) as [j|].
        + destruct P as [m [-> [Lm _]]]. cbn [Nat.add].
          rewrite (adjust_spec d _ _ (nth d (unravel s k) 0)) by (apply nth_error_nth'; rewrite (valid_length _ _ V); exact Hd).
          rewrite flat_index_dot. fold (addr vl (upd (unravel s k) d m)).
          apply nth_error_rd. apply Hbv. auto.
        + replace (length indices <? length indices) with false by lia.
          apply nth_error_rd. now apply Hb. }
  eexists. split; [reflexivity|]. split; [now rewrite map_length, seq_length|].
  intros i V. pose proof (ravel_lt _ _ V) as R. rewrite nth_error_map_seq by auto. rewrite unravel_ravel by auto.
  unfold h. pose proof (put_find_spec n (nth d i 0) indices 0 (XK _ V)) as P.
  destruct (put_find 0 indices n (nth d i 0)) as [j|]; split.
  - intros m Lm Nm Fm. destruct P as [m2 [-> [L2 [N2 F2]]]]. cbn [Nat.add].
    assert (m2 = m). { destruct (Nat.lt_trichotomy m2 m) as [X|[X|X]]; auto.
      - exfalso. apply (Fm _ X). exact N2. - exfalso. apply (F2 _ X). exact Nm. }
    subst m2. symmetry. apply nth_error_rd. apply Hbv. auto.
  - intros F. destruct P as [m2 [-> [L2 [N2 F2]]]]. exfalso. eapply F; eauto.
  - intros m Lm Nm Fm. exfalso. eapply P; eauto.
  - intros F. symmetry. apply nth_error_rd. now apply Hb.
Qed.
End Put.
