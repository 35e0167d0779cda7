From Coq Require Import List Arith ZArith Bool Lia.
From Verif Require Import Base IndexSpec LayoutModel ViewSpec KernelModel KernelProofs TensorModel TensorSpec
  TensorProofs ScanModel EinsumModel EinsumProofs2 CountModel CountProofs CountProofs2 ConvModel ConvSpec ConvProofs.
Import ListNotations.

(** ** Loops that add into cells *)
Section Adds.
  Context {A : Type}.
  Variables (zero : A) (add : A -> A -> A).
  Definition adds (ts : list (nat * A)) (out : list A) : option (list A) :=
    loopO (fun t out => let? old := nth_error out (fst t) in c_store out (fst t) (add old (snd t))) ts out.
  (** what is added to cell [a], in order *)
  Definition sel (a : nat) (ts : list (nat * A)) : list A := map snd (filter (fun t => fst t =? a) ts).

  Lemma adds_spec : forall ts out, (forall t, In t ts -> fst t < length out) ->
    exists out', adds ts out = Some out' /\ length out' = length out /\
      forall a v, nth_error out a = Some v -> nth_error out' a = Some (fold_left add (sel a ts) v).
  Proof.
    induction ts as [|[c x] ts IH]; intros out H.
    - exists out. repeat split; auto.
    - assert (Hc : c < length out) by (apply (H (c, x)); now left).
      destruct (nth_error out c) as [old|] eqn:E; [|apply nth_error_None in E; lia].
      destruct (IH (upd out c (add old x))) as (out' & E' & L & N).
      { intros t Ht. rewrite upd_length. apply H. now right. }
      exists out'. split.
      { unfold adds. cbn [loopO fst snd]. rewrite E. cbn [obind]. rewrite c_store_some by auto. exact E'. }
      rewrite upd_length in L. split; [auto|].
      intros a v Ha. unfold sel. cbn [filter map fst]. destruct (Nat.eqb_spec c a) as [->|D].
      + cbn [map fold_left snd]. rewrite E in Ha. inversion Ha; subst v. apply N.
        apply nth_error_upd_eq. auto.
      + apply N. rewrite nth_error_upd_neq by auto. auto.
  Qed.

  Lemma adds_app : forall a b out, adds (a ++ b) out = obind (adds a out) (adds b).
  Proof. intros. apply loopO_app. Qed.
  Lemma loop_adds : forall X (f : X -> list A -> option (list A)) T l out,
    (forall x out, In x l -> f x out = adds (T x) out) -> loopO f l out = adds (flat_map T l) out.
  Proof.
    intros X f T l. induction l as [|x l IH]; intros out H; auto.
    cbn [loopO flat_map]. rewrite adds_app, H by now left. destruct (adds (T x) out); cbn [obind]; auto.
    apply IH. intros; apply H; now right.
  Qed.
  Lemma sel_flat_map : forall X (T : X -> list (nat * A)) a l, sel a (flat_map T l) = flat_map (fun x => sel a (T x)) l.
  Proof.
    intros X T a l. induction l as [|x l IH]; auto. cbn [flat_map]. unfold sel in *.
    rewrite filter_app, map_app. now f_equal.
  Qed.
  (** the cells being named by indices *)
  Lemma sel_cell : forall s i i0 v, valid s i -> valid s i0 ->
    sel (ravel s i0) [(ravel s i, v)] = if list_eq_dec Nat.eq_dec i i0 then [v] else [].
  Proof.
    intros s i i0 v V V0. unfold sel. cbn [filter fst]. destruct (list_eq_dec Nat.eq_dec i i0) as [->|N].
    - now rewrite Nat.eqb_refl.
    - rewrite (proj2 (Nat.eqb_neq _ _)); auto. intros E. apply N. now apply (ravel_inj s).
  Qed.
  (** the whole of such a kernel *)
  Lemma adds_zero : forall s ts, (forall t, In t ts -> fst t < nelem s) ->
    exists out, adds ts (repeat zero (nelem s)) = Some out /\ length out = nelem s /\
      forall i, valid s i -> nth_error out (ravel s i) = Some (fold_left add (sel (ravel s i) ts) zero).
  Proof.
    intros s ts H. destruct (adds_spec ts (repeat zero (nelem s))) as (out & E & L & N).
    { now rewrite repeat_length. }
    exists out. split; [auto|]. rewrite repeat_length in L. split; [auto|].
    intros i V. apply N. apply nth_error_repeat. now apply ravel_lt.
  Qed.
  Lemma zero_fill : forall n, seq_for n (fun _ => Some zero) (repeat zero n) = Some (repeat zero n).
  Proof.
    intros n. rewrite (seq_for_total _ (fun _ => zero)) by (auto; apply repeat_length). f_equal.
    assert (G : forall m start, map (fun _ : nat => zero) (seq start m) = repeat zero m)
      by (induction m as [|m IH]; intros start; cbn; auto; now rewrite IH).
    apply G.
  Qed.
End Adds.

Lemma In_flat_map_fst : forall X A (T : X -> list (nat * A)) l n,
  (forall x t, In x l -> In t (T x) -> fst t < n) -> forall t, In t (flat_map T l) -> fst t < n.
Proof. intros X A T l n H t Ht. apply in_flat_map in Ht as (x & Hx & Ht). eapply H; eauto. Qed.

(** of the loops over the channels only one adds to a cell *)
Lemma only_channel : forall Y (n : nat) (P : nat -> Prop) (dec : forall c, {P c} + {~ P c}) (v : nat -> Y) c0,
  c0 < n -> (forall c, P c -> c = c0) ->
  flat_map (fun c => if dec c then [v c] else []) (seq 0 n) = if dec c0 then [v c0] else [].
Proof.
  intros Y n P dec v c0 H U. apply (flat_map_single _ _ (fun c => if dec c then [v c] else [])).
  - apply seq_NoDup.
  - apply in_seq; lia.
  - intros y _ N. destruct (dec y) as [p|]; auto. exfalso; auto.
Qed.

Section Transposed.
  Context {A : Type}.
  Variables (zero : A) (add mul : A -> A -> A).

  (** the kernel, the weight read as [cin, cout, ker] *)
  Lemma conv_t_kernel_spec : forall nd li lw input weight s p d B C Co isp ker osp X W,
    lshape li = B :: C :: isp -> skipn 2 (lshape lw) = ker ->
    length isp = nd -> length ker = nd -> length osp = nd ->
    (forall i, valid (B :: C :: isp) i -> nth_error input (loffset li + ravel (B :: C :: isp) i) = Some (X i)) ->
    (forall i, valid (C :: Co :: ker) i -> nth_error weight (loffset lw + ravel (C :: Co :: ker) i) = Some (W i)) ->
    exists out, conv_t_kernel zero add mul nd input weight (repeat zero (nelem (B :: Co :: osp)))
        (conv_metadata li lw (repeat s nd) (repeat p nd) (repeat d nd) (B :: Co :: osp)) = Some out /\
      length out = nelem (B :: Co :: osp) /\
      forall b oc o, valid (B :: Co :: osp) (b :: oc :: o) ->
        nth_error out (ravel (B :: Co :: osp) (b :: oc :: o)) =
        Some (fold_left add (conv_t_terms mul s p d X W (fun ic oc k => ic :: oc :: k) C ker isp b oc o) zero).
  Proof.
    intros nd li lw input weight s p d B C Co isp ker osp X W Si Sw Li Lk Lo HX HW.
    set (out := B :: Co :: osp).
    set (tasks := flat_map (fun b => flat_map (fun ic => flat_map (fun i => flat_map (fun k =>
        match c_pos i k (repeat s nd) (repeat p nd) (repeat d nd) osp with
        | Some o => flat_map (fun oc => [(ravel out (b :: oc :: o), mul (X (b :: ic :: i)) (W (ic :: oc :: k)))]) (seq 0 Co)
        | None => [] end) (all_idx ker)) (all_idx isp)) (seq 0 C)) (seq 0 B)).
    assert (K : conv_t_kernel zero add mul nd input weight (repeat zero (nelem out))
        (conv_metadata li lw (repeat s nd) (repeat p nd) (repeat d nd) out) = adds add tasks (repeat zero (nelem out))).
    { unfold conv_t_kernel.
      rewrite (read_conv_eq _ _ _ _ _ _ out B C Co isp ker); try (rewrite ?repeat_length; auto; fail).
      cbn [obind cv_els cv_batch cv_cin cv_cout cv_in cv_ker cv_out cv_stride cv_pad cv_dil cv_ioff cv_woff skipn out].
      fold out. rewrite zero_fill. cbn [obind].
      apply loop_adds. intros b o1 Hb. apply in_seq in Hb.
      apply loop_adds. intros ic o2 Hic. apply in_seq in Hic.
      apply loop_adds. intros i o3 Hi. apply in_all_idx in Hi. pose proof (valid_length _ _ Hi).
      apply loop_adds. intros k o4 Hk. apply in_all_idx in Hk. pose proof (valid_length _ _ Hk).
      replace nd with (length osp).
      destruct (c_pos i k _ _ _ osp) as [o|] eqn:Eo; [|reflexivity].
      apply loop_adds. intros oc o5 Hoc. apply in_seq in Hoc.
      replace (loffset li + b * C * nelem isp + ic * nelem isp + ravel isp i)
        with (loffset li + ravel (B :: C :: isp) (b :: ic :: i)) by (rewrite ravel2; lia).
      replace (loffset lw + ic * Co * nelem ker + oc * nelem ker + ravel ker k)
        with (loffset lw + ravel (C :: Co :: ker) (ic :: oc :: k)) by (rewrite ravel2; lia).
      rewrite HX by (cbn; repeat split; auto; lia). rewrite HW by (cbn; repeat split; auto; lia).
      cbn [obind]. unfold adds. cbn [loopO fst snd]. unfold out. rewrite ravel2.
      destruct (nth_error o5 _); cbn [obind]; auto. now destruct (c_store _ _ _). }
    destruct (adds_zero zero add out tasks) as (res & E & L & N).
    { unfold tasks. apply In_flat_map_fst. intros b t Hb. apply in_seq in Hb. revert t.
      apply In_flat_map_fst. intros ic t _. revert t.
      apply In_flat_map_fst. intros i t Hi. apply in_all_idx, valid_length in Hi. revert t.
      apply In_flat_map_fst. intros k t Hk. apply in_all_idx, valid_length in Hk. revert t.
      replace nd with (length osp). destruct (c_pos i k _ _ _ osp) as [o|] eqn:Eo; [|intros t []].
      apply c_pos_some in Eo as [Vo _]; [|lia|lia].
      apply In_flat_map_fst. intros oc t Hoc [<-|[]]. apply in_seq in Hoc. cbn [fst].
      apply ravel_lt. cbn. repeat split; auto; lia. }
    exists res. fold out. rewrite K. split; [auto|]. split; [auto|].
    intros b oc o V. rewrite N by auto. do 2 f_equal.
    pose proof V as V0. cbn [valid out] in V. destruct V as (Vb & Vc & Vo).
    unfold tasks, conv_t_terms. rewrite sel_flat_map.
    assert (S1 : forall b', In b' (seq 0 B) -> 
       sel (ravel out (b :: oc :: o)) (flat_map (fun ic => flat_map (fun i => flat_map (fun k =>
        match c_pos i k (repeat s nd) (repeat p nd) (repeat d nd) osp with
        | Some o => flat_map (fun oc => [(ravel out (b' :: oc :: o), mul (X (b' :: ic :: i)) (W (ic :: oc :: k)))]) (seq 0 Co)
        | None => [] end) (all_idx ker)) (all_idx isp)) (seq 0 C)) =
       if Nat.eq_dec b' b then conv_t_terms mul s p d X W (fun ic oc k => ic :: oc :: k) C ker isp b oc o else []).
    { intros b' Hb'. apply in_seq in Hb'. rewrite sel_flat_map.
      transitivity (flat_map (fun ic => flat_map (fun i => flat_map (fun k =>
         if Nat.eq_dec b' b then (if meets s p d i k o then [mul (X (b :: ic :: i)) (W (ic :: oc :: k))] else []) else [])
         (all_idx ker)) (all_idx isp)) (seq 0 C)).
      2:{ unfold conv_t_terms. destruct (Nat.eq_dec b' b); [reflexivity|].
          apply flat_map_nil; intros. apply flat_map_nil; intros. apply flat_map_nil; intros. reflexivity. }
      apply flat_map_ext_in. intros ic Hic. apply in_seq in Hic. rewrite sel_flat_map.
      apply flat_map_ext_in. intros i Hi. apply in_all_idx in Hi. pose proof (valid_length _ _ Hi). rewrite sel_flat_map.
      apply flat_map_ext_in. intros k Hk. apply in_all_idx in Hk. pose proof (valid_length _ _ Hk).
      replace nd with (length osp).
      destruct (c_pos i k _ _ _ osp) as [o'|] eqn:Eo.
      - pose proof Eo as Eo'. apply c_pos_some in Eo' as [Vo' Mo']; [|lia|lia].
        rewrite sel_flat_map.
        rewrite (flat_map_ext_in _ _ _ (fun c => if list_eq_dec Nat.eq_dec (b' :: c :: o') (b :: oc :: o)
           then [mul (X (b' :: ic :: i)) (W (ic :: c :: k))] else [])).
        2:{ intros c Hc. apply in_seq in Hc. apply sel_cell; auto. cbn. repeat split; auto; lia. }
        rewrite (only_channel _ _ (fun c => b' :: c :: o' = b :: oc :: o) (fun c => list_eq_dec Nat.eq_dec _ _) (fun c => mul (X (b' :: ic :: i)) (W (ic :: c :: k))) oc)
          by (auto; congruence).
        destruct (list_eq_dec Nat.eq_dec (b' :: oc :: o') (b :: oc :: o)) as [Q|Q].
        + inversion Q; subst. destruct (Nat.eq_dec b b); [|congruence]. now rewrite Mo'.
        + destruct (Nat.eq_dec b' b) as [->|]; auto.
          destruct (meets s p d i k o) eqn:M; auto.
          rewrite (c_pos_meets _ _ _ _ _ _ _ Vo M) in Eo. congruence.
      - destruct (Nat.eq_dec b' b); auto.
        destruct (meets s p d i k o) eqn:M; auto.
        rewrite (c_pos_meets _ _ _ _ _ _ _ Vo M) in Eo. discriminate. }
    rewrite (flat_map_ext_in _ _ _ _ _ S1).
    rewrite (flat_map_single _ _ _ _ b).
    - destruct (Nat.eq_dec b b); [reflexivity|congruence].
    - apply seq_NoDup.
    - apply in_seq; lia.
    - intros y _ Ny. destruct (Nat.eq_dec y b); [congruence|auto].
  Qed.
End Transposed.
