(** Proofs about concat, split and chunk. *)
From Coq Require Import List Arith ZArith Lia Bool ZifyBool.
From Verif Require Import Base IndexSpec LayoutModel ViewSpec LayoutProofs BcastProofs.
From Verif Require Import KernelModel TensorModel TensorSpec KernelProofs TensorProofs.
From Verif Require Import ReduceModel ReduceSpec ReduceProofs ScanModel ScanProofs MoveModel.
Import ListNotations.

(** reading metadata words behind a prefix *)
Lemma md_at : forall (L a b c : list nat) off n, L = a ++ b ++ c -> length a = off -> length b = n ->
  md_slice L off n = Some b.
Proof. intros L a b c off n ->. apply md_slice_app. Qed.
Lemma nth_at : forall (L a b : list nat) x k, L = a ++ x :: b -> length a = k -> nth_error L k = Some x.
Proof. intros L a b x k -> H. now apply nth_error_app_at. Qed.
Ltac assoc := rewrite <- ?app_assoc; cbn [app]; rewrite <- ?app_assoc; reflexivity.

Lemma adjust_spec : forall d f l x, nth_error l d = Some x -> adjust d f l = upd l d (f x).
Proof. intros d f l x H. unfold adjust. now rewrite H. Qed.
Lemma adjust_length : forall d f l, length (adjust d f l) = length l.
Proof. intros. unfold adjust. destruct (nth_error l d); auto. apply upd_length. Qed.
Lemma nth_error_adjust : forall d f l k, nth_error (adjust d f l) k =
  if k =? d then option_map f (nth_error l k) else nth_error l k.
Proof.
  intros d f l k. unfold adjust. destruct (nth_error l d) as [x|] eqn:E.
  - destruct (k =? d) eqn:K.
    + replace k with d by lia. rewrite E. cbn. apply nth_error_upd_eq. apply nth_error_Some. congruence.
    + apply nth_error_upd_neq. lia.
  - destruct (k =? d) eqn:K; auto. replace k with d by lia. now rewrite E.
Qed.
Lemma valid_adjust : forall s s' d f i, valid s i -> length s' = length s ->
  (forall k, k <> d -> nth_error s' k = nth_error s k) ->
  (forall x e, nth_error i d = Some x -> nth_error s' d = Some e -> f x < e) ->
  valid s' (adjust d f i).
Proof.
  intros s s' d f i Hi Hl Hk Hd. apply valid_nth in Hi. destruct Hi as [Li Hi]. apply valid_nth.
  rewrite adjust_length. split; [congruence|]. intros k x e Hx He. rewrite nth_error_adjust in Hx.
  destruct (k =? d) eqn:K.
  - assert (k = d) by lia. subst k. destruct (nth_error i d) as [y|] eqn:Ey; [|discriminate].
    injection Hx as <-. eauto.
  - rewrite Hk in He by lia. eauto.
Qed.

(* ---------- split ---------- *)
Section Split.
Variables (A : Type) (z d0 : A).

Lemma split_kernel_spec : forall input out l d n size start,
  wf_layout l -> in_bounds (length input) l -> length (lshape l) <= 16 ->
  nth_error (lshape l) d = Some n -> start + size <= n ->
  length out = nelem (upd (lshape l) d size) ->
  split_kernel input out (split_metadata l d size start (nelem (upd (lshape l) d size))) =
  Some (map (fun k => rd d0 input (addr l (adjust d (fun x => x + start) (unravel (upd (lshape l) d size) k))))
            (seq 0 (nelem (upd (lshape l) d size)))).
Proof.
  intros input out l d n size start Hw Hb HR Hn Hs Ho.
  set (s := lshape l) in *. set (N := nelem (upd s d size)) in *.
  unfold split_kernel. set (md := split_metadata l d size start N). set (nd := length s).
  assert (LS : length (lstrides l) = nd) by exact Hw.
  assert (M0 : nth_error md 0 = Some N) by reflexivity.
  assert (M1 : nth_error md 1 = Some nd) by reflexivity.
  assert (M2 : md_slice md 2 nd = Some s).
  { apply (md_at md [N; nd] s (lstrides l ++ [loffset l; d; size; start])); auto. }
  assert (M3 : md_slice md (2 + nd) nd = Some (lstrides l)).
  { apply (md_at md ([N; nd] ++ s) (lstrides l) [loffset l; d; size; start]); [unfold md, split_metadata; assoc|auto|auto]. }
  assert (M4 : forall q X Y, [loffset l; d; size; start] = X ++ q :: Y ->
               nth_error md (2 + 2 * nd + length X) = Some q).
  { intros q X Y E. apply (nth_at md ([N; nd] ++ s ++ lstrides l ++ X) Y).
    - unfold md, split_metadata. rewrite E. fold s nd. assoc.
    - rewrite !app_length. cbn [length]. fold nd. lia. }
  rewrite M0, M1. cbn [obind]. rewrite M2. cbn [obind]. rewrite M3. cbn [obind].
  pose proof (M4 (loffset l) [] [d; size; start] eq_refl) as E0. cbn [length] in E0. rewrite Nat.add_0_r in E0.
  rewrite E0. cbn [obind].
  pose proof (M4 d [loffset l] [size; start] eq_refl) as E1.
  pose proof (M4 size [loffset l; d] [start] eq_refl) as E2.
  pose proof (M4 start [loffset l; d; size] [] eq_refl) as E3. cbn [length] in E1, E2, E3.
  rewrite E1. cbn [obind]. rewrite E2. cbn [obind]. rewrite E3. cbn [obind].
  replace (16 <? nd) with false by (unfold nd; lia).
  rewrite (adjust_spec d _ s n Hn).
  apply seq_for_total; auto. intros k Hk.
  rewrite c_unravel_spec by exact Hk. cbn [obind]. rewrite flat_index_dot. fold (addr l).
  apply nth_error_rd. apply Hb. fold s.
  assert (V : valid (upd s d size) (unravel (upd s d size) k)) by (apply unravel_valid; exact Hk).
  eapply valid_adjust; [exact V|now rewrite upd_length| |].
  - intros q Hq. rewrite nth_error_upd_neq by auto; auto.
  - intros x e Hx He. rewrite Hn in He. injection He as <-.
    apply valid_nth in V. destruct V as [_ V].
    assert (x < size).
    { apply (V d); auto. apply nth_error_upd_eq. apply nth_error_Some. congruence. }
    lia.
Qed.

Lemma split_piece : forall (t : tensor A) d n size start, good t -> length (tshape t) <= 16 ->
  nth_error (tshape t) d = Some n -> start + size <= n -> 0 < size ->
  exists st, call_ops_split z (tstore t) (tlay t) d start size = Ok st /\
    length st = nelem (upd (tshape t) d size) /\
    forall i, valid (upd (tshape t) d size) i ->
      elem (mkT st (from_shape (upd (tshape t) d size))) i = elem t (adjust d (fun x => x + start) i).
Proof.
  intros t d n size start [Hw Hb] HR Hn Hs Hp. unfold call_ops_split. fold (tshape t). rewrite Hn.
  replace (n <=? start) with false by lia. replace (n <? start + size) with false by lia.
  change shape_size with nelem.
  rewrite (split_kernel_spec _ _ (tlay t) d n size start); auto using repeat_length.
  eexists. split; [reflexivity|]. split; [now rewrite map_length, seq_length|].
  intros i Hi. fold (tshape t). rewrite elem_fresh by auto. rewrite unravel_ravel by auto.
  symmetry. unfold elem. apply nth_error_rd. apply Hb. fold (tshape t).
  eapply valid_adjust; [exact Hi|now rewrite upd_length| |].
  - intros q Hq. rewrite nth_error_upd_neq by auto; auto.
  - intros x e Hx He. rewrite Hn in He. injection He as <-.
    apply valid_nth in Hi. destruct Hi as [_ V].
    assert (x < size).
    { apply (V d); auto. apply nth_error_upd_eq. apply nth_error_Some. congruence. }
    lia.
Qed.

(** what a list of pieces of [t] along [d], starting at [start], must satisfy *)
Definition pieces (t : tensor A) (d start : nat) (sizes : list nat) (ps : list (tensor A)) : Prop :=
  length ps = length sizes /\
  forall j p size, nth_error ps j = Some p -> nth_error sizes j = Some size ->
    good p /\ tlay p = from_shape (upd (tshape t) d size) /\ length (tstore p) = nelem (tshape p) /\
    forall i, valid (tshape p) i ->
      elem p i = elem t (adjust d (fun x => x + (start + list_sum (firstn j sizes))) i).

Lemma split_loop_spec : forall (t : tensor A) d n sizes start, good t -> length (tshape t) <= 16 ->
  nth_error (tshape t) d = Some n -> Forall (fun s => 0 < s) sizes -> start + list_sum sizes <= n ->
  exists ps, split_loop z t (Some d) start sizes = Ok ps /\ pieces t d start sizes ps.
Proof.
  intros t d n sizes. induction sizes as [|s sizes IH]; intros start Hg HR Hn HP Hs.
  - exists []. split; [reflexivity|]. split; [reflexivity|]. intros [|j]; discriminate.
  - inversion HP; subst. cbn [list_sum fold_right] in Hs. fold (list_sum sizes) in Hs.
    destruct (split_piece t d n s start Hg HR Hn) as [st [E [L H]]]; auto; [lia|].
    destruct (IH (start + s)) as [ps [Ep [Lp Hp]]]; auto; [lia|].
    cbn [split_loop]. rewrite E. cbn [bind]. rewrite Ep. cbn [bind].
    eexists. split; [reflexivity|]. split; [simpl; now rewrite Lp|].
    intros [|j] p size Hj Hsz; cbn [nth_error] in Hj, Hsz.
    + injection Hj as <-. injection Hsz as <-. fold (tshape t). split; [now apply from_shape_good|].
      split; [reflexivity|]. split; [exact L|]. intros i Hi. cbn [firstn list_sum fold_right].
      rewrite Nat.add_0_r. now apply H.
    + destruct (Hp j p size Hj Hsz) as [G1 [G2 [G3 G4]]]. split; auto. split; auto. split; auto.
      intros i Hi. rewrite (G4 i Hi). cbn [firstn list_sum fold_right]. fold (list_sum (firstn j sizes)).
      now rewrite Nat.add_assoc.
Qed.
End Split.

(* ---------- concat ---------- *)

Lemma concat_find_spec : forall sizes i c x, x < list_sum sizes ->
  exists j, j < length sizes /\
    concat_find i c (c + x) sizes = (i + j, c + list_sum (firstn j sizes)) /\
    list_sum (firstn j sizes) <= x < list_sum (firstn (S j) sizes).
Proof.
  induction sizes as [|s sizes IH]; intros i c x Hx; [simpl in Hx; lia|].
  cbn [list_sum fold_right] in Hx. fold (list_sum sizes) in Hx.
  cbn [concat_find]. destruct (c + x <? c + s) eqn:E.
  - exists 0. split; [simpl; lia|]. split; [f_equal; simpl; lia|]. simpl. lia.
  - destruct (IH (S i) (c + s) (x - s)) as [j [Hj [E2 Hr]]]; [lia|].
    replace (c + s + (x - s)) with (c + x) in E2 by lia.
    exists (S j). split; [simpl; lia|]. split.
    + rewrite E2. f_equal; [lia|]. cbn [firstn list_sum fold_right]. fold (list_sum (firstn j sizes)). lia.
    + cbn [firstn list_sum fold_right] in *. fold (list_sum (firstn j sizes)).
      destruct sizes as [|s' sizes']; [simpl in Hj; lia|]. cbn [firstn list_sum fold_right] in Hr.
      cbn [list_sum fold_right]. fold (list_sum (firstn j sizes')) in *. lia.
Qed.

Lemma sum_firstn_le : forall l j, list_sum (firstn j l) <= list_sum l.
Proof.
  induction l as [|x l IH]; intros [|j]; cbn [firstn]; try (simpl; lia).
  cbn [list_sum fold_right]. specialize (IH j). unfold list_sum in *. lia.
Qed.
Lemma sum_firstn_S : forall l j x, nth_error l j = Some x ->
  list_sum (firstn (S j) l) = list_sum (firstn j l) + x.
Proof.
  induction l as [|y l IH]; intros [|j] x H; simpl in H; try discriminate.
  - injection H as ->. cbn. lia.
  - specialize (IH _ _ H). cbn [firstn] in *. cbn [list_sum fold_right].
    fold (list_sum (firstn j l)). fold (list_sum (match l with [] => [] | a :: l0 => a :: firstn j l0 end)).
    rewrite IH. lia.
Qed.
Lemma sum_firstn_mono : forall l a b, a <= b -> list_sum (firstn a l) <= list_sum (firstn b l).
Proof.
  induction l as [|x l IH]; intros [|a] [|b] H; cbn [firstn]; try (simpl; lia).
  cbn [list_sum fold_right]. specialize (IH a b ltac:(lia)). unfold list_sum in *. lia.
Qed.

(** the owner of a coordinate is unique *)
Lemma owner_unique : forall sizes x j j',
  list_sum (firstn j sizes) <= x < list_sum (firstn (S j) sizes) ->
  list_sum (firstn j' sizes) <= x < list_sum (firstn (S j') sizes) -> j = j'.
Proof.
  intros sizes x j j' H H'. destruct (Nat.lt_trichotomy j j') as [L|[E|L]]; auto.
  - pose proof (sum_firstn_mono sizes (S j) j' L). lia.
  - pose proof (sum_firstn_mono sizes (S j') j L). lia.
Qed.

Lemma md_slice_flat : forall (f : layout -> list nat) ls a c nd j l,
  (forall l, In l ls -> length (f l) = nd) -> nth_error ls j = Some l ->
  md_slice (a ++ flat_map f ls ++ c) (length a + j * nd) nd = Some (f l).
Proof.
  intros f ls. induction ls as [|l0 ls IH]; intros a c nd j l HL Hj; [destruct j; discriminate|].
  destruct j as [|j]; simpl in Hj.
  - injection Hj as ->. cbn [flat_map]. rewrite <- app_assoc. apply md_slice_app; [lia|]. apply HL. now left.
  - cbn [flat_map]. rewrite <- app_assoc.
    replace (a ++ f l0 ++ flat_map f ls ++ c) with ((a ++ f l0) ++ flat_map f ls ++ c) by (now rewrite <- app_assoc).
    replace (length a + S j * nd) with (length (a ++ f l0) + j * nd).
    + apply IH; auto. intros; apply HL; now right.
    + rewrite app_length, (HL l0) by (now left). lia.
Qed.
Lemma nth_flat : forall (f : layout -> list nat) ls a c nd j l d,
  (forall l, In l ls -> length (f l) = nd) -> nth_error ls j = Some l -> d < nd ->
  nth_error (a ++ flat_map f ls ++ c) (length a + (j * nd + d)) = nth_error (f l) d.
Proof.
  intros f ls. induction ls as [|l0 ls IH]; intros a c nd j l d HL Hj Hd; [destruct j; discriminate|].
  assert (L0 : length (f l0) = nd) by (apply HL; now left).
  destruct j as [|j]; simpl in Hj.
  - injection Hj as ->. cbn [flat_map]. rewrite nth_error_app2 by lia.
    rewrite <- app_assoc, nth_error_app1 by lia. f_equal. lia.
  - cbn [flat_map]. rewrite <- app_assoc.
    replace (a ++ f l0 ++ flat_map f ls ++ c) with ((a ++ f l0) ++ flat_map f ls ++ c) by (now rewrite <- app_assoc).
    replace (length a + (S j * nd + d)) with (length (a ++ f l0) + (j * nd + d)) by (rewrite app_length; lia).
    apply IH; auto. intros; apply HL; now right.
Qed.
Lemma flat_map_len : forall (f : layout -> list nat) ls nd, (forall l, In l ls -> length (f l) = nd) ->
  length (flat_map f ls) = length ls * nd.
Proof.
  intros f ls nd H. induction ls as [|l ls IH]; auto. cbn [flat_map length]. rewrite app_length, IH.
  - rewrite (H l) by (now left). lia.
  - intros; apply H; now right.
Qed.
Lemma buffer_offsets_nth : forall ls acc j, j < length ls ->
  nth_error (buffer_offsets acc ls) j = Some (acc + list_sum (firstn j (map (fun l => nelem (lshape l)) ls))).
Proof.
  induction ls as [|l ls IH]; intros acc j H; [simpl in H; lia|].
  destruct j as [|j]; cbn [buffer_offsets nth_error map firstn]; [simpl; f_equal; lia|].
  rewrite IH by (simpl in H; lia). f_equal. cbn [list_sum fold_right].
  change (shape_size (lshape l)) with (nelem (lshape l)). unfold list_sum. lia.
Qed.
Lemma buffer_offsets_len : forall ls acc, length (buffer_offsets acc ls) = length ls.
Proof. induction ls as [|l ls IH]; intros acc; simpl; auto. Qed.

Lemma nth_concat : forall A (sts : list (list A)) j st k, nth_error sts j = Some st -> k < length st ->
  nth_error (concat sts) (list_sum (firstn j (map (@length A) sts)) + k) = nth_error st k.
Proof.
  intros A sts. induction sts as [|s sts IH]; intros j st k Hj Hk; [destruct j; discriminate|].
  destruct j as [|j]; simpl in Hj.
  - injection Hj as ->. cbn [concat map firstn list_sum fold_right]. now rewrite nth_error_app1 by lia.
  - cbn [concat map firstn list_sum fold_right].
    fold (list_sum (firstn j (map (@length A) sts))).
    rewrite nth_error_app2 by lia. rewrite <- (IH j st k Hj Hk). f_equal. lia.
Qed.

(** compatible inputs: same rank and, off the axis, same sizes *)
Definition compatible (d : nat) (s0 s : list nat) : Prop :=
  length s = length s0 /\ forall k, k <> d -> nth_error s k = nth_error s0 k.

(** The storages before the last fill the space their shapes account for. *)
Definition packed {A} (ts : list (tensor A)) : Prop :=
  forall j t, S j < length ts -> nth_error ts j = Some t -> length (tstore t) = nelem (tshape t).

Definition axis_sizes {A} (d : nat) (ts : list (tensor A)) : list nat :=
  map (fun t => nth d (tshape t) 0) ts.

Lemma packed_offsets : forall A (ts : list (tensor A)) j, packed ts -> j < length ts ->
  list_sum (firstn j (map (fun l => nelem (lshape l)) (map tlay ts))) =
  list_sum (firstn j (map (@length A) (map tstore ts))).
Proof.
  intros A ts j Hp Hj. f_equal. apply list_ext. intro k.
  destruct (Nat.lt_ge_cases k j) as [Hk|Hk].
  - rewrite !map_map.
    assert (F : forall (f : tensor A -> nat), nth_error (firstn j (map f ts)) k = option_map f (nth_error ts k)).
    { intro f. rewrite <- nth_error_map. clear -Hk. revert j Hk. generalize (map f ts) as l.
      revert k. induction k as [|k IH]; intros [|x l] [|j] H; simpl; auto; try lia. apply IH. lia. }
    rewrite !F. destruct (nth_error ts k) as [t|] eqn:E; auto. cbn. f_equal. symmetry.
    apply (Hp k); auto. lia.
  - rewrite !(proj2 (nth_error_None _ _)); auto; rewrite firstn_length; lia.
Qed.

Section Concat.
Variables (A : Type) (z d0 : A).

(** [val j i] is what the packed storages hold where the metadata says element
    [i] of input [j] is *)
Definition reads (ts : list (tensor A)) (val : nat -> list nat -> A) : Prop :=
  forall j t i, nth_error ts j = Some t -> valid (tshape t) i ->
    nth_error (concat (map tstore ts))
      (list_sum (firstn j (map (fun t => nelem (tshape t)) ts)) + addr (tlay t) i) = Some (val j i).

Lemma packed_reads : forall (ts : list (tensor A)), Forall good ts -> packed ts ->
  reads ts (fun j i => match nth_error ts j with Some t => rd d0 (tstore t) (addr (tlay t) i) | None => d0 end).
Proof.
  intros ts Hg Hp j t i Et V. rewrite Et.
  rewrite Forall_forall in Hg. destruct (Hg t (nth_error_In _ _ Et)) as [_ Hb]. specialize (Hb _ V).
  assert (Hj : j < length ts) by (apply nth_error_Some; congruence).
  pose proof (packed_offsets A ts j Hp Hj) as E. rewrite map_map in E.
  change (fun x => nelem (lshape (tlay x))) with (fun t : tensor A => nelem (tshape t)) in E. rewrite E.
  rewrite (nth_concat A (map tstore ts) j (tstore t)); auto.
  - now apply nth_error_rd.
  - now rewrite nth_error_map, Et.
Qed.

Lemma concat_kernel_spec : forall (ts : list (tensor A)) d s0 n0 out val,
  Forall good ts -> (forall t, In t ts -> compatible d s0 (tshape t)) ->
  length s0 <= 16 -> nth_error s0 d = Some n0 -> reads ts val ->
  let S := upd s0 d (list_sum (axis_sizes d ts)) in
  length out = nelem S ->
  exists st, concat_kernel (concat (map tstore ts)) out (concat_metadata (map tlay ts) d S) = Some st /\
    length st = nelem S /\
    forall k, k < nelem S -> exists j t, nth_error ts j = Some t /\
      list_sum (firstn j (axis_sizes d ts)) <= nth d (unravel S k) 0
        < list_sum (firstn (Datatypes.S j) (axis_sizes d ts)) /\
      valid (tshape t) (adjust d (fun x => x - list_sum (firstn j (axis_sizes d ts))) (unravel S k)) /\
      nth_error st k =
        Some (val j (adjust d (fun x => x - list_sum (firstn j (axis_sizes d ts))) (unravel S k))).
Proof.
  intros ts d s0 n0 out val Hg Hc HR Hn Hp S Ho.
  set (ls := map tlay ts). set (nd := length s0). set (ni := length ts).
  assert (Hd : d < nd) by (apply nth_error_Some; congruence).
  assert (LSH : length S = nd) by apply upd_length.
  assert (LN : length ls = ni) by apply map_length.
  assert (H1 : forall l, In l ls -> length (lshape l) = nd).
  { intros l Hl. apply in_map_iff in Hl. destruct Hl as [t [<- Ht]]. apply (Hc t Ht). }
  assert (H2 : forall l, In l ls -> length (lstrides l) = nd).
  { intros l Hl. rewrite <- (H1 l Hl). apply in_map_iff in Hl. destruct Hl as [t [<- Ht]].
    rewrite Forall_forall in Hg. apply (Hg t Ht). }
  unfold concat_kernel. set (md := concat_metadata ls d S).
  assert (EM : md = [nelem S; nd] ++ S ++ [d; ni] ++ flat_map lshape ls ++ flat_map lstrides ls
                    ++ map loffset ls ++ buffer_offsets 0 ls).
  { unfold md, concat_metadata. now rewrite LSH, LN. }
  assert (F1 : length (flat_map lshape ls) = ni * nd) by (rewrite <- LN; now apply flat_map_len).
  assert (F2 : length (flat_map lstrides ls) = ni * nd) by (rewrite <- LN; now apply flat_map_len).
  assert (M0 : nth_error md 0 = Some (nelem S)) by (rewrite EM; reflexivity).
  assert (M1 : nth_error md 1 = Some nd) by (rewrite EM; reflexivity).
  assert (M2 : md_slice md 2 nd = Some S).
  { eapply (md_at md [nelem S; nd] S); [exact EM|reflexivity|exact LSH]. }
  assert (M3 : nth_error md (2 + nd) = Some d).
  { eapply (nth_at md ([nelem S; nd] ++ S)); [rewrite EM; assoc|rewrite app_length; cbn [length]; lia]. }
  assert (M4 : nth_error md (2 + nd + 1) = Some ni).
  { eapply (nth_at md ([nelem S; nd] ++ S ++ [d])); [rewrite EM; assoc|rewrite !app_length; cbn [length]; lia]. }
  assert (M5 : forall j l, nth_error ls j = Some l -> nth_error md (2 + nd + 2 + (j * nd + d)) = nth_error (lshape l) d).
  { intros j l Hj.
    replace md with (([nelem S; nd] ++ S ++ [d; ni]) ++ flat_map lshape ls ++ (flat_map lstrides ls
                    ++ map loffset ls ++ buffer_offsets 0 ls)) by (rewrite EM; assoc).
    replace (2 + nd + 2) with (length ([nelem S; nd] ++ S ++ [d; ni])) by (rewrite !app_length; cbn [length]; lia).
    eapply nth_flat; eauto. }
  assert (M6 : forall j l, nth_error ls j = Some l -> md_slice md (2 + nd + 2 + ni * nd + j * nd) nd = Some (lstrides l)).
  { intros j l Hj.
    replace md with (([nelem S; nd] ++ S ++ [d; ni] ++ flat_map lshape ls) ++ flat_map lstrides ls
                    ++ (map loffset ls ++ buffer_offsets 0 ls)) by (rewrite EM; assoc).
    replace (2 + nd + 2 + ni * nd) with (length ([nelem S; nd] ++ S ++ [d; ni] ++ flat_map lshape ls))
      by (rewrite !app_length; cbn [length]; lia).
    eapply md_slice_flat; eauto. }
  assert (M7 : forall j l, nth_error ls j = Some l -> nth_error md (2 + nd + 2 + ni * nd + ni * nd + j) = Some (loffset l)).
  { intros j l Hj.
    replace md with (([nelem S; nd] ++ S ++ [d; ni] ++ flat_map lshape ls ++ flat_map lstrides ls)
                    ++ (map loffset ls ++ buffer_offsets 0 ls)) by (rewrite EM; assoc).
    rewrite nth_error_app2 by (rewrite !app_length; cbn [length]; lia).
    replace (2 + nd + 2 + ni * nd + ni * nd + j - _) with j by (rewrite !app_length; cbn [length]; lia).
    rewrite nth_error_app1 by (rewrite map_length; apply nth_error_Some; congruence).
    now rewrite nth_error_map, Hj. }
  assert (M8 : forall j, j < ni -> nth_error md (2 + nd + 2 + ni * nd + ni * nd + ni + j)
             = Some (list_sum (firstn j (map (fun l => nelem (lshape l)) ls)))).
  { intros j Hj.
    replace md with (([nelem S; nd] ++ S ++ [d; ni] ++ flat_map lshape ls ++ flat_map lstrides ls
                    ++ map loffset ls) ++ buffer_offsets 0 ls) by (rewrite EM; assoc).
    rewrite nth_error_app2 by (rewrite !app_length, map_length; cbn [length]; lia).
    replace (2 + nd + 2 + ni * nd + ni * nd + ni + j - _) with j
      by (rewrite !app_length, map_length; cbn [length]; lia).
    rewrite buffer_offsets_nth by lia. reflexivity. }
  rewrite M0, M1. cbn [obind]. rewrite M2. cbn [obind]. rewrite M3. cbn [obind]. rewrite M4. cbn [obind].
  assert (Esz : mapO (fun i => nth_error md (2 + nd + 2 + (i * nd + d))) (seq 0 ni) = Some (axis_sizes d ts)).
  { apply mapO_Some. apply list_ext. intro k.
    destruct (Nat.lt_ge_cases k ni) as [Hk|Hk].
    - rewrite nth_error_map_seq by auto. unfold axis_sizes. rewrite !nth_error_map.
      destruct (nth_error ts k) as [t|] eqn:Et; [|apply nth_error_None in Et; unfold ni in Hk; lia].
      cbn [option_map]. f_equal. rewrite (M5 k (tlay t)) by (unfold ls; now rewrite nth_error_map, Et).
      fold (tshape t). apply nth_error_nth'. destruct (Hc t) as [Lt _]; [eapply nth_error_In; eauto|]. fold nd in Lt. lia.
    - rewrite !(proj2 (nth_error_None _ _)); auto; [unfold axis_sizes|]; rewrite ?map_length, ?seq_length; auto. }
  rewrite Esz. cbn [obind]. replace (16 <? nd) with false by (unfold nd; lia).
  set (sizes := axis_sizes d ts) in *.
  set (g := fun id => obind (c_unravel id S) (fun oi => obind (nth_error oi d) (fun dim_index =>
      let (ti, cum) := concat_find 0 0 dim_index sizes in
      obind (md_slice md (2 + nd + 2 + ni * nd + ti * nd) nd) (fun st =>
      obind (nth_error md (2 + nd + 2 + ni * nd + ni * nd + ti)) (fun off =>
      obind (nth_error md (2 + nd + 2 + ni * nd + ni * nd + ni + ti)) (fun boff =>
      nth_error (concat (map tstore ts)) (boff + flat_index off (adjust d (fun x => x - cum) oi) st))))))).
  assert (G : forall k, k < nelem S -> exists j t, nth_error ts j = Some t /\
      list_sum (firstn j sizes) <= nth d (unravel S k) 0 < list_sum (firstn (Datatypes.S j) sizes) /\
      valid (tshape t) (adjust d (fun x => x - list_sum (firstn j sizes)) (unravel S k)) /\
      g k = Some (val j (adjust d (fun x => x - list_sum (firstn j sizes)) (unravel S k)))).
  { intros k Hk. unfold g. rewrite c_unravel_spec by auto. cbn [obind].
    pose proof (unravel_valid S k Hk) as V. set (oi := unravel S k) in *.
    assert (Lo : length oi = nd) by (rewrite (valid_length _ _ V); auto).
    assert (Ex : nth_error oi d = Some (nth d oi 0)) by (apply nth_error_nth'; lia).
    rewrite Ex. cbn [obind]. set (x := nth d oi 0) in *.
    assert (Hx : x < list_sum sizes).
    { apply valid_nth in V. destruct V as [_ V]. apply (V d); auto. apply nth_error_upd_eq. exact Hd. }
    destruct (concat_find_spec sizes 0 0 x Hx) as [j [Hj [Ej Hr]]]. cbn [plus] in Ej. rewrite Ej.
    assert (Lsz : length sizes = ni) by (unfold sizes, axis_sizes; apply map_length).
    destruct (nth_error ts j) as [t|] eqn:Et; [|apply nth_error_None in Et; unfold ni in Lsz; lia].
    assert (El : nth_error ls j = Some (tlay t)) by (unfold ls; now rewrite nth_error_map, Et).
    rewrite (M6 _ _ El). cbn [obind]. rewrite (M7 _ _ El). cbn [obind].
    rewrite M8 by lia. cbn [obind]. rewrite flat_index_dot.
    change (loffset (tlay t) + dot ?i (lstrides (tlay t))) with (addr (tlay t) i).
    destruct (Hc t) as [Lt Ht]; [eapply nth_error_In; eauto|].
    assert (Vt : valid (tshape t) (adjust d (fun x0 => x0 - list_sum (firstn j sizes)) oi)).
    { eapply valid_adjust; [exact V|rewrite Lt; symmetry; exact LSH| |].
      - intros q Hq. rewrite Ht by auto. unfold S. rewrite nth_error_upd_neq by auto; auto.
      - intros y e Hy He. rewrite Ex in Hy. injection Hy as <-.
        rewrite (sum_firstn_S sizes j e) in Hr; [lia|].
        unfold sizes, axis_sizes. rewrite nth_error_map, Et. cbn. f_equal. now apply nth_error_nth. }
    exists j, t. split; auto. split; auto. split; [exact Vt|].
    rewrite <- (Hp j t _ Et Vt). unfold ls. rewrite map_map. reflexivity. }
  assert (GT : mapO g (seq 0 (nelem S)) <> None).
  { assert (GG : forall l, (forall k, In k l -> k < nelem S) -> mapO g l <> None).
    { induction l as [|k l IH]; intros Hl; [discriminate|]. rewrite mapO_cons.
      destruct (G k) as [j [t [_ [_ [_ E]]]]]; [apply Hl; now left|]. rewrite E.
      specialize (IH (fun k' Hk' => Hl k' (or_intror Hk'))). destruct (mapO g l); congruence. }
    apply GG. intros k Hk. apply in_seq in Hk. lia. }
  destruct (mapO g (seq 0 (nelem S))) as [st|] eqn:Est; [|congruence].
  exists st. split.
  { rewrite seq_for_spec by exact Ho. exact Est. }
  pose proof (mapO_length _ _ _ _ _ Est) as Lst. rewrite seq_length in Lst. split; auto.
  intros k Hk. destruct (G k Hk) as [j [t [Et [Hr [V E]]]]]. exists j, t. split; auto. split; auto. split; auto.
  rewrite (mapO_nth _ _ _ _ _ k k Est) by (now apply nth_error_seq). exact E.
Qed.
End Concat.
