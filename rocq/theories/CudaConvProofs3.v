From Coq Require Import List Arith ZArith Bool Lia Permutation.
From Verif Require Import Base IndexSpec LayoutModel ViewSpec LayoutProofs KernelModel KernelProofs TensorModel TensorSpec.
From Verif Require Import ScanModel CountModel CountProofs ConvModel ConvSpec ConvProofs ConvProofs3 TileSpec TileProofs4 CudaIndexProofs2 CudaConvModel CudaConvModel2 CudaConvProofs CudaConvProofs2.
Import ListNotations.
Local Open Scope nat_scope.

(** * Orders of nested lists *)
Lemma flat_map_flat_map : forall X Y Z (f : Y -> list Z) (g : X -> list Y) l, flat_map f (flat_map g l) = flat_map (fun x => flat_map f (g x)) l.
Proof. induction l as [|x l IH]; [reflexivity|]. cbn. now rewrite flat_map_app, IH. Qed.
Lemma flat_map_ext_in : forall X Y (f g : X -> list Y) l, (forall x, In x l -> f x = g x) -> flat_map f l = flat_map g l.
Proof. induction l as [|x l IH]; intro H; [reflexivity|]. cbn. rewrite H by now left. rewrite IH; [reflexivity|]. intros; apply H; now right. Qed.
Lemma fm_ext : forall X Y (f g : X -> list Y) l, (forall x, In x l -> Permutation (f x) (g x)) -> Permutation (flat_map f l) (flat_map g l).
Proof. intros X Y f g. induction l as [|x l IH]; intro H; [constructor|]. cbn. apply Permutation_app; [apply H; now left|apply IH; intros; apply H; now right]. Qed.
Lemma fm_app : forall X Y (f g : X -> list Y) l, Permutation (flat_map (fun x => f x ++ g x) l) (flat_map f l ++ flat_map g l).
Proof.
  intros X Y f g. induction l as [|x l IH]; [constructor|]. cbn. rewrite IH, <- !app_assoc. apply Permutation_app_head.
  rewrite !app_assoc. apply Permutation_app_tail. apply Permutation_app_comm.
Qed.
Lemma fm_swap : forall X Y Z (f : X -> Y -> list Z) ys xs,
  Permutation (flat_map (fun x => flat_map (f x) ys) xs) (flat_map (fun y => flat_map (fun x => f x y) xs) ys).
Proof.
  intros X Y Z f ys. induction xs as [|x xs IH]; cbn [flat_map].
  - induction ys as [|y ys IH]; [constructor|exact IH].
  - rewrite fm_app. apply Permutation_app_head. exact IH.
Qed.
Lemma orders : forall Y I1 I2 I3 I4 I5 (f : I1 -> I2 -> I3 -> I4 -> I5 -> list Y) ics is_ ocs ks os,
  Permutation (flat_map (fun ic => flat_map (fun i => flat_map (fun oc => flat_map (fun k => flat_map (fun o => f ic i oc k o) os) ks) ocs) is_) ics)
              (flat_map (fun oc => flat_map (fun o => flat_map (fun ic => flat_map (fun k => flat_map (fun i => f ic i oc k o) is_) ks) ics) os) ocs).
Proof.
  intros Y I1 I2 I3 I4 I5 f ics is_ ocs ks os.
  transitivity (flat_map (fun ic => flat_map (fun oc => flat_map (fun i => flat_map (fun k => flat_map (fun o => f ic i oc k o) os) ks) is_) ocs) ics).
  { apply fm_ext. intros ic _. apply (fm_swap _ _ _ (fun i oc => flat_map (fun k => flat_map (fun o => f ic i oc k o) os) ks)). }
  rewrite (fm_swap _ _ _ (fun ic oc => flat_map (fun i => flat_map (fun k => flat_map (fun o => f ic i oc k o) os) ks) is_)).
  apply fm_ext. intros oc _.
  transitivity (flat_map (fun ic => flat_map (fun o => flat_map (fun k => flat_map (fun i => f ic i oc k o) is_) ks) os) ics).
  2: apply (fm_swap _ _ _ (fun ic o => flat_map (fun k => flat_map (fun i => f ic i oc k o) is_) ks)).
  apply fm_ext. intros ic _.
  rewrite (fm_swap _ _ _ (fun i k => flat_map (fun o => f ic i oc k o) os)).
  rewrite <- (fm_swap _ _ _ (fun k o => flat_map (fun i => f ic i oc k o) is_)).
  apply fm_ext. intros k _. apply (fm_swap _ _ _ (fun i o => f ic i oc k o)).
Qed.

Section Grad.
Context {A T : Type} (up : A -> T) (down : T -> A) (mul : T -> T -> T) (za : A) (plus : A -> A -> A).
Let mulA := fun x g => down (mul (up x) (up g)).
Let applies := applies za plus.

Lemma loop_applies : forall X (f : X -> list A -> option (list A)) (l : X -> list (nat * A)) xs out out',
  (forall x o o', In x xs -> f x o = Some o' -> applies (l x) o o') ->
  loopO f xs out = Some out' -> applies (flat_map l xs) out out'.
Proof.
  intros X f l. induction xs as [|x xs IH]; intros out out' H E; cbn [loopO flat_map] in *.
  - injection E as <-. apply applies_nil.
  - destruct (f x out) as [o|] eqn:F; [|discriminate]. cbn [obind] in E.
    apply (applies_app _ _ _ _ _ o); [apply H; [now left|exact F]|apply IH; [intros; apply H; auto; now right|exact E]].
Qed.
Lemma loop_acc : forall X Y (g : X -> list Y -> option (list Y)) (l : X -> list Y) xs acc,
  (forall x acc, In x xs -> g x acc = Some (acc ++ l x)) -> loopO g xs acc = Some (acc ++ flat_map l xs).
Proof.
  intros X Y g l. induction xs as [|x xs IH]; intros acc H; cbn [loopO flat_map]; [now rewrite app_nil_r|].
  rewrite H by now left. cbn [obind]. rewrite IH by (intros; apply H; now right). now rewrite app_assoc.
Qed.

Hypothesis PC : forall x y z, plus (plus x y) z = plus (plus x z) y.

Lemma gradw_t_same : forall log (t g : tensor A) B C Co isp osp ker ws s p d nd r X G,
  0 < s -> dense t -> good t -> good g -> tshape t = B :: C :: isp -> tshape g = B :: Co :: osp -> skipn 2 ws = ker ->
  length isp = nd -> length osp = nd -> length ws = nd + 2 ->
  (forall i, valid (tshape t) i -> elem t i = Some (X i)) -> (forall i, valid (tshape g) i -> elem g i = Some (G i)) ->
  Permutation log (seq 0 (nelem (B :: Co :: osp))) ->
  t_gradw_t za plus mulA nd t g ws s p d = Ok r ->
  cuda_gradw_t up down mul plus log (tstore t) (tstore g) (repeat (Some za) (nelem ws))
    (gradw_metadata (tlay t) (tlay g) ws (repeat s nd) (repeat p nd) (repeat d nd) nd) = Some (tstore r).
Proof.
  intros log t g B C Co isp osp ker ws s p d nd r X G S0 Dt [Wt _] [Wg _] St Sg Sk Li Lo Lw HX HG P H.
  assert (Lk : length ker = nd) by (rewrite <- Sk, skipn_length; lia).
  assert (RX : forall b ic i, b < B -> ic < C -> valid isp i ->
    nth_error (tstore t) (loffset (tlay t) + b * C * nelem isp + ic * nelem isp + ravel isp i) = Some (X (b :: ic :: i))).
  { intros b ic i Hb Hc Hi. assert (V : valid (tshape t) (b :: ic :: i)) by (rewrite St; cbn; auto).
    rewrite <- (HX _ V), <- (dense_read _ _ _ Dt V), St, ravel2. f_equal. lia. }
  assert (RG : forall b oc o, b < B -> oc < Co -> valid osp o ->
    nth_error (tstore g) (loffset (tlay g) + dot (b :: oc :: o) (lstrides (tlay g))) = Some (G (b :: oc :: o))).
  { intros b oc o Hb Hc Ho. assert (V : valid (tshape g) (b :: oc :: o)) by (rewrite Sg; cbn; auto).
    rewrite <- (HG _ V). reflexivity. }
  unfold t_gradw_t, t_gradw_with in H. destruct (negb _); [discriminate|]. destruct (negb _); [discriminate|]. destruct (negb _); [discriminate|].
  unfold gradw_t_kernel in H. unfold cuda_gradw_t.
  rewrite read_gradw_eq in * by (try assumption; try apply repeat_length; fold (tshape t); fold (tshape g); rewrite ?St, ?Sg; cbn [length]; lia).
  cbn [obind gw_ishape gw_gshape gw_wshape gw_els gw_ioff gw_goff gw_gstrides gw_stride gw_pad gw_dil] in H |- *.
  fold (tshape t) in H. fold (tshape g) in H. fold (tshape t). fold (tshape g). rewrite St, Sg, Sk in H. cbn [nth skipn] in H.
  rewrite (seq_for_total _ (fun _ => za)) in H by auto using repeat_length. cbn [obind] in H.
  rewrite map_const, seq_length in H.
  destruct (loopO _ (seq 0 B) _) as [st|] eqn:K in H; [|discriminate]. cbn [ub bind] in H. injection H as <-. cbn [tstore].
  set (e := fun b ic (i : list nat) oc (k o : list nat) =>
    if meets s p d i k o then [(ic * Co * nelem ker + oc * nelem ker + ravel ker k, mulA (X (b :: ic :: i)) (G (b :: oc :: o)))] else []).
  assert (AC : applies (flat_map (fun b => flat_map (fun ic => flat_map (fun i => flat_map (fun oc => flat_map (fun k => flat_map (fun o => e b ic i oc k o)
      (all_idx osp)) (all_idx ker)) (seq 0 Co)) (all_idx isp)) (seq 0 C)) (seq 0 B)) (repeat za (nelem ws)) st).
  { revert K. apply loop_applies. intros b o1 o2 Ib. apply loop_applies. intros ic o3 o4 Ic. apply loop_applies. intros i o5 o6 Ii.
    apply in_seq in Ib. apply in_seq in Ic. apply in_all_idx in Ii.
    rewrite RX by (auto; lia). cbn [obind]. apply loop_applies. intros oc o7 o8 Io. apply loop_applies. intros k o9 o10 Ik E.
    apply in_seq in Io. apply in_all_idx in Ik. cbv beta in E. pose proof (valid_length _ _ Ii) as LI. pose proof (valid_length _ _ Ik) as LK.
    unfold e. rewrite (pick _ s p d i k osp (fun o => [(ic * Co * nelem ker + oc * nelem ker + ravel ker k, mulA (X (b :: ic :: i)) (G (b :: oc :: o)))])) by lia.
    rewrite Lo. destruct (c_pos i k _ _ _ osp) as [o|] eqn:CP.
    - rewrite <- Lo in CP. apply c_pos_some in CP as [Vo _]; [|lia|lia].
      rewrite RG in E by (auto; lia). cbn [obind] in E. cbv zeta in E. set (a := ic * Co * _ + _ + _) in *.
      destruct (nth_error o9 a) as [old|] eqn:Ea; [|discriminate]. cbn [obind] in E. unfold c_store in E.
      destruct (Nat.ltb_spec a (length o9)) as [Ha|]; [|discriminate]. injection E as <-.
      split; [now repeat constructor|]. cbn [fold_left]. unfold addA. cbn [fst snd]. now rewrite (nth_error_nth _ _ za Ea).
    - injection E as <-. apply applies_nil. }
  assert (PM : Permutation
    (flat_map (fun b => flat_map (fun ic => flat_map (fun i => flat_map (fun oc => flat_map (fun k => flat_map (fun o => e b ic i oc k o)
      (all_idx osp)) (all_idx ker)) (seq 0 Co)) (all_idx isp)) (seq 0 C)) (seq 0 B))
    (flat_map (fun b => flat_map (fun oc => flat_map (fun o => flat_map (fun ic => flat_map (fun k => flat_map (fun i => e b ic i oc k o)
      (all_idx isp)) (all_idx ker)) (seq 0 C)) (all_idx osp)) (seq 0 Co)) (seq 0 B))).
  { apply fm_ext. intros b _. apply (orders _ _ _ _ _ _ (fun ic i oc k o => e b ic i oc k o)). }
  set (m := mkGw _ _ _ _ _ _ _ _ _ _) in *.
  set (adds := fun idx => match unravel (B :: Co :: osp) idx with
    | b :: oc :: o => flat_map (fun ic => flat_map (fun k => flat_map (fun i => e b ic i oc k o) (all_idx isp)) (all_idx ker)) (seq 0 C)
    | _ => [] end).
  assert (AD : forall idx, idx < nelem (B :: Co :: osp) -> gradw_t_adds up down mul m (tstore t) (tstore g) idx = Some (adds idx)).
  { intros q Q. unfold gradw_t_adds, adds. pose proof (unravel_valid _ _ Q) as V.
    destruct (unravel (B :: Co :: osp) q) as [|b [|oc o]] eqn:U; [destruct V|destruct V as [_ []]|].
    subst m. cbn [gw_ishape gw_gshape gw_wshape gw_ioff gw_goff gw_gstrides gw_stride gw_pad gw_dil]. rewrite Sk, St, Sg. cbn [nth skipn].
    change (q / nelem (Co :: osp) :: unravel (Co :: osp) (q mod nelem (Co :: osp)) = b :: oc :: o) in U.
    injection U as U0 U1 U2. destruct V as (V0 & V1 & V2).
    replace (c_coords (rev (Co :: osp)) q []) with (Some (oc :: o)).
    2:{ symmetry. replace (rev (Co :: osp)) with (rev (Co :: osp) ++ []) by apply app_nil_r.
        rewrite c_coords_rev.
        - rewrite app_nil_r. cbn [c_coords]. f_equal. cbn [unravel]. now rewrite U1, U2.
        - apply (nelem_pos_dims _ (ravel (Co :: osp) (oc :: o))). apply ravel_lt. now split. }
    cbn [obind hd tl]. rewrite U0, RG by auto. cbn [obind].
    rewrite (loop_acc _ _ _ (fun ic => flat_map (fun k => flat_map (fun i => e b ic i oc k o) (all_idx isp)) (all_idx ker))); [reflexivity|].
    intros ic acc Ic. apply loop_acc. intros k acc' Ik. apply in_seq in Ic. apply in_all_idx in Ik.
    pose proof (valid_length _ _ V2) as LO. pose proof (valid_length _ _ Ik) as LK.
    unfold e. rewrite (pick_back _ s p d o k isp (fun i => [(ic * Co * nelem ker + oc * nelem ker + ravel ker k, mulA (X (b :: ic :: i)) (G (b :: oc :: o)))])) by lia.
    rewrite Li. destruct (c_back o k _ _ _ isp) as [i|] eqn:CB; [|now rewrite app_nil_r].
    rewrite <- Li in CB. apply c_back_some in CB as [Vi _]; [|lia|lia|lia]. rewrite RX by (auto; lia). reflexivity. }
  assert (AP : applies (flat_map adds log) (repeat za (nelem ws)) st).
  { apply (applies_perm za plus PC _ _ (Permutation_sym (Permutation_flat_map adds P))).
    rewrite <- (nested_seq up down mul za plus PC). apply (applies_perm za plus PC _ _ PM) in AC.
    rewrite !flat_map_flat_map. erewrite flat_map_ext_in; [exact AC|]. intros b Ib. cbv beta.
    rewrite !flat_map_flat_map. apply flat_map_ext_in. intros oc Ic. cbv beta. rewrite !flat_map_flat_map. apply flat_map_ext_in. intros o Io.
    apply in_seq in Ib. apply in_seq in Ic. apply in_all_idx in Io. cbn [flat_map]. rewrite app_nil_r. unfold adds.
    rewrite unravel_ravel by (cbn; repeat split; auto; lia). reflexivity. }
  rewrite (mapO_total _ _ _ adds).
  2:{ intros i I. apply AD. apply (Permutation_in _ P) in I. apply in_seq in I. lia. }
  cbn [obind]. rewrite <- flat_map_concat_map.
  replace (forallb _ (flat_map adds log)) with true.
  2:{ symmetry. apply forallb_forall. intros x I. destruct AP as [F _]. rewrite Forall_forall in F. specialize (F x I).
      rewrite repeat_length in F |- *. now apply Nat.ltb_lt. }
  cbn [negb]. replace (repeat (Some za) (nelem ws)) with (map Some (repeat za (nelem ws))) by apply map_repeat. rewrite (applies_some _ _ _ _ _ AP). apply all_some_map.
Qed.

Lemma any_order : forall n l l' r, Forall (fun p => fst p < n) l -> Permutation l l' ->
  all_some (fold_left (add_at plus) l (repeat (Some za) n)) = Some r ->
  all_some (fold_left (add_at plus) l' (repeat (Some za) n)) = Some r.
Proof.
  intros n l l' r F P H.
  assert (AP : applies l (repeat za n) (fold_left (addA za plus) l (repeat za n))).
  { split; [|reflexivity]. now rewrite repeat_length. }
  rewrite <- map_repeat in *. rewrite (applies_some _ _ _ _ _ AP), all_some_map in H. injection H as <-.
  apply (applies_perm za plus PC _ _ P) in AP. rewrite (applies_some _ _ _ _ _ AP). apply all_some_map.
Qed.

Lemma t_gradw_t_none : forall log nd (t g : tensor A) ws s p d r, 0 < nelem ws ->
  cuda_t_gradw_t up down mul plus log nd t g ws s p d <> Ok r.
Proof.
  intros log nd t g ws s p d r P. unfold cuda_t_gradw_t.
  destruct (negb _); [discriminate|]. destruct (negb _); [discriminate|]. destruct (negb _); [discriminate|].
  unfold cuda_gradw_t. destruct (read_gradw _) as [m|]; [|discriminate]. cbn [obind].
  destruct (mapO _ log) as [adds|]; [|discriminate]. cbn [obind]. destruct (negb _); [discriminate|].
  rewrite (all_some_none _ _ 0); [discriminate|]. apply adds_none. destruct (nelem ws); [inversion P|reflexivity].
Qed.
End Grad.
