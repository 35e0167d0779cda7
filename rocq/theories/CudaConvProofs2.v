From Coq Require Import List Arith ZArith Bool Lia Permutation.
From Verif Require Import Base IndexSpec LayoutModel KernelModel KernelProofs TensorModel.
From Verif Require Import ScanModel CountModel CountProofs ConvModel ConvProofs TileSpec TileProofs4 CudaConvModel CudaConvProofs.
Import ListNotations.
Local Open Scope nat_scope.

(** * The gradient of the weight on a buffer of zeros *)
Section Grad.
Context {A T : Type} (up : A -> T) (down : T -> A) (mul : T -> T -> T) (za : A) (plus : A -> A -> A).
Let mulA := fun x g => down (mul (up x) (up g)).

Definition addA (out : list A) (p : nat * A) : list A := upd out (fst p) (plus (nth (fst p) out za) (snd p)).
Lemma addA_length : forall l out, length (fold_left addA l out) = length out.
Proof. induction l as [|x l IH]; intro out; [reflexivity|]. cbn [fold_left]. rewrite IH. apply upd_length. Qed.
Definition applies (l : list (nat * A)) (out out' : list A) : Prop :=
  Forall (fun p => fst p < length out) l /\ fold_left addA l out = out'.
Lemma applies_nil : forall out, applies [] out out.
Proof. split; [constructor|reflexivity]. Qed.
Lemma applies_app : forall l l' a b c, applies l a b -> applies l' b c -> applies (l ++ l') a c.
Proof.
  intros l l' a b c [F1 E1] [F2 E2]. split; [|now rewrite fold_left_app, E1].
  apply Forall_app. split; [exact F1|]. rewrite <- E1, addA_length in F2. exact F2.
Qed.
Lemma upd_map : forall B C (f : B -> C) l i x, upd (map f l) i (f x) = map f (upd l i x).
Proof. intros B C f. induction l as [|y l IH]; intros [|i] x; cbn; try reflexivity. now rewrite IH. Qed.
Lemma applies_some : forall l out out', applies l out out' -> fold_left (add_at plus) l (map Some out) = map Some out'.
Proof.
  induction l as [|[a v] l IH]; intros out out' [F E]; cbn [fold_left] in *; [now rewrite E|].
  inversion F as [|? ? F1 F2]; subst. cbn [fst] in F1.
  assert (S : add_at plus (map Some out) (a, v) = map Some (addA out (a, v))).
  { unfold add_at, addA. cbn [fst snd]. rewrite nth_error_map, (nth_error_nth' _ za) by exact F1. cbn [option_map]. apply upd_map. }
  rewrite S. apply IH. split; [|reflexivity]. unfold addA. now rewrite upd_length.
Qed.

(** a loop of additions and the loop that lists them *)
Lemma loop_adds : forall X (f : X -> list A -> option (list A)) (g : X -> list (nat * A) -> option (list (nat * A))) xs out out',
  (forall x o o', In x xs -> f x o = Some o' -> exists l, (forall acc, g x acc = Some (acc ++ l)) /\ applies l o o') ->
  loopO f xs out = Some out' -> exists l, (forall acc, loopO g xs acc = Some (acc ++ l)) /\ applies l out out'.
Proof.
  intros X f g. induction xs as [|x xs IH]; intros out out' H E; cbn [loopO] in E.
  - injection E as <-. exists []. split; [|apply applies_nil]. intro acc. cbn. now rewrite app_nil_r.
  - destruct (f x out) as [o|] eqn:F; [|discriminate]. cbn [obind] in E.
    destruct (H x out o (or_introl eq_refl) F) as (l1 & G1 & A1).
    destruct (IH o out' (fun y a b I => H y a b (or_intror I)) E) as (l2 & G2 & A2).
    exists (l1 ++ l2). split; [|now apply (applies_app _ _ _ o)]. intro acc. cbn [loopO]. rewrite G1. cbn [obind]. rewrite G2. now rewrite app_assoc.
Qed.
Lemma loop_lists : forall X (f : X -> list A -> option (list A)) (Q : nat -> Prop) (adds : nat -> list (nat * A)) (ix : X -> list nat) xs out out',
  (forall x o o', In x xs -> f x o = Some o' -> Forall Q (ix x) /\ applies (flat_map adds (ix x)) o o') ->
  loopO f xs out = Some out' -> Forall Q (flat_map ix xs) /\ applies (flat_map adds (flat_map ix xs)) out out'.
Proof.
  intros X f Q adds ix. induction xs as [|x xs IH]; intros out out' H E; cbn [loopO] in E.
  - injection E as <-. split; [constructor|apply applies_nil].
  - destruct (f x out) as [o|] eqn:F; [|discriminate]. cbn [obind] in E. cbn [flat_map]. rewrite flat_map_app.
    destruct (H x out o (or_introl eq_refl) F) as [Q1 A1].
    destruct (IH o out' (fun y a b I => H y a b (or_intror I)) E) as [Q2 A2].
    split; [now apply Forall_app|now apply (applies_app _ _ _ o)].
Qed.

Hypothesis PC : forall x y z, plus (plus x y) z = plus (plus x z) y.
Lemma addA_swap : forall out p q, fst p < length out -> fst q < length out -> addA (addA out p) q = addA (addA out q) p.
Proof.
  intros out [a v] [b w] Ha Hb. unfold addA. cbn [fst snd] in *. apply list_ext. intro i.
  destruct (Nat.eq_dec a b) as [->|D].
  - destruct (Nat.eq_dec b i) as [->|Di].
    + rewrite !nth_error_upd_eq by (now rewrite ?upd_length). f_equal.
      assert (N : forall x, nth i (upd out i x) za = x) by (intro x; apply nth_error_nth; now apply nth_error_upd_eq).
      rewrite !N. apply PC.
    + now rewrite !nth_error_upd_neq by exact Di.
  - assert (Na : nth a (upd out b (plus (nth b out za) w)) za = nth a out za).
    { apply nth_error_nth. rewrite nth_error_upd_neq by congruence. now apply nth_error_nth'. }
    assert (Nb : nth b (upd out a (plus (nth a out za) v)) za = nth b out za).
    { apply nth_error_nth. rewrite nth_error_upd_neq by congruence. now apply nth_error_nth'. }
    rewrite Na, Nb. destruct (Nat.eq_dec a i) as [->|Di], (Nat.eq_dec b i) as [->|Dj]; try congruence.
    + rewrite (nth_error_upd_neq _ _ b) by exact Dj. now rewrite !nth_error_upd_eq by (now rewrite ?upd_length).
    + rewrite nth_error_upd_eq by (now rewrite upd_length). rewrite nth_error_upd_neq by exact Di. now rewrite nth_error_upd_eq.
    + now rewrite !nth_error_upd_neq by assumption.
Qed.
Lemma applies_perm : forall l l', Permutation l l' -> forall out out', applies l out out' -> applies l' out out'.
Proof.
  induction 1 as [|x l l' P IH|x y l|l l' l'' P1 IH1 P2 IH2]; intros out out' H; [exact H| | |auto].
  - destruct H as [F E]. inversion F as [|? ? F1 F2]; subst. cbn [fold_left].
    destruct (IH (addA out x) (fold_left addA l (addA out x))) as [G1 G2].
    { split; [|reflexivity]. unfold addA. now rewrite upd_length. }
    unfold addA in G1. rewrite upd_length in G1. split; [now constructor|]. exact G2.
  - destruct H as [F E]. inversion F as [|? ? F1 F2]; subst. inversion F2 as [|? ? F3 F4]; subst.
    split; [now repeat constructor|]. cbn [fold_left]. now rewrite (addA_swap _ x y).
Qed.

Definition listed (m : gradw_md) (input grad : list A) (i : nat) : list (nat * A) :=
  match gradw_adds up down mul m input grad i with Some l => l | None => [] end.
Lemma map_const : forall X (l : list X), map (fun _ => za) l = repeat za (length l).
Proof. induction l as [|x l IH]; [reflexivity|]. cbn. now rewrite IH. Qed.
Lemma map_repeat : forall n, map Some (repeat za n) = repeat (Some za) n.
Proof. induction n as [|n IH]; [reflexivity|]. cbn. now rewrite IH. Qed.
Lemma all_idx_ravel : forall s, map (ravel s) (all_idx s) = seq 0 (nelem s).
Proof.
  intro s. rewrite all_idx_map_unravel, map_map. rewrite <- (map_id (seq 0 (nelem s))) at 2. apply map_ext_in.
  intros k I. apply in_seq in I. apply ravel_unravel. lia.
Qed.
Lemma flat_map_single_map : forall X (f : X -> nat) l, flat_map (fun x => [f x]) l = map f l.
Proof. induction l as [|x l IH]; [reflexivity|]. cbn. now rewrite IH. Qed.
Lemma flat_map_map2 : forall X Y Z (f : X -> Y) (g : Y -> list Z) l, flat_map g (map f l) = flat_map (fun x => g (f x)) l.
Proof. induction l as [|x l IH]; [reflexivity|]. cbn. now rewrite IH. Qed.
Lemma map_flat_map2 : forall X Y Z (f : Y -> Z) (g : X -> list Y) l, map f (flat_map g l) = flat_map (fun x => map f (g x)) l.
Proof. induction l as [|x l IH]; [reflexivity|]. cbn. now rewrite map_app, IH. Qed.
Lemma nested_seq : forall B C sp,
  flat_map (fun b => flat_map (fun c => flat_map (fun o => [ravel (B :: C :: sp) (b :: c :: o)]) (all_idx sp)) (seq 0 C)) (seq 0 B) = seq 0 (nelem (B :: C :: sp)).
Proof.
  intros B C sp. rewrite <- all_idx_ravel. cbn [all_idx]. rewrite map_flat_map2. apply flat_map_ext. intro b.
  rewrite map_map, map_flat_map2. apply flat_map_ext. intro c. rewrite map_map. apply flat_map_single_map.
Qed.

(** one index *)
Lemma one_index : forall m (input grad : list A) b oc o out out',
  valid (nth 0 (gw_ishape m) 0 :: nth 1 (gw_gshape m) 0 :: skipn 2 (gw_gshape m)) (b :: oc :: o) ->
  obind (nth_error grad (gw_goff m + dot (b :: oc :: o) (gw_gstrides m))) (fun g =>
    loopO (fun ic out =>
      loopO (fun k out =>
        match c_pos o k (gw_stride m) (gw_pad m) (gw_dil m) (skipn 2 (gw_ishape m)) with
        | Some i =>
            let? x := nth_error input (gw_ioff m + b * nth 1 (gw_ishape m) 0 * nelem (skipn 2 (gw_ishape m)) + ic * nelem (skipn 2 (gw_ishape m)) + ravel (skipn 2 (gw_ishape m)) i) in
            let a := oc * nth 1 (gw_ishape m) 0 * nelem (skipn 2 (gw_wshape m)) + ic * nelem (skipn 2 (gw_wshape m)) + ravel (skipn 2 (gw_wshape m)) k in
            let? old := nth_error out a in
            c_store out a (plus old (mulA x g))
        | None => Some out
        end) (all_idx (skipn 2 (gw_wshape m))) out)
      (seq 0 (nth 1 (gw_ishape m) 0)) out) = Some out' ->
  exists l, gradw_adds up down mul m input grad (ravel (nth 0 (gw_ishape m) 0 :: nth 1 (gw_gshape m) 0 :: skipn 2 (gw_gshape m)) (b :: oc :: o)) = Some l /\
    applies l out out'.
Proof.
  intros m input grad b oc o out out' V H. unfold gradw_adds.
  set (B := nth 0 (gw_ishape m) 0) in *. set (Co := nth 1 (gw_gshape m) 0) in *. set (osp := skipn 2 (gw_gshape m)) in *.
  set (s := B :: Co :: osp) in *.
  assert (P : nelem (Co :: osp) <> 0).
  { destruct V as [_ V]. pose proof (ravel_lt _ _ V). lia. }
  assert (U : unravel s (ravel s (b :: oc :: o)) = b :: oc :: o) by (now apply unravel_ravel).
  set (q := ravel s (b :: oc :: o)) in *. clearbody q.
  replace (c_coords (rev (Co :: osp)) q []) with (Some (oc :: o)).
  2:{ symmetry. replace (rev (Co :: osp)) with (rev (Co :: osp) ++ []) by apply app_nil_r.
      rewrite c_coords_rev.
      - rewrite app_nil_r. unfold s in U. change (q / nelem (Co :: osp) :: unravel (Co :: osp) (q mod nelem (Co :: osp)) = b :: oc :: o) in U.
        injection U as _ U1 U2. cbn [c_coords]. f_equal. cbn [unravel]. now rewrite U1, U2.
      - apply (nelem_pos_dims _ (ravel (Co :: osp) (oc :: o))). apply ravel_lt. now destruct V. }
  cbn [obind hd tl]. replace (q / nelem (Co :: osp)) with b.
  2:{ unfold s in U. change (q / nelem (Co :: osp) :: unravel (Co :: osp) (q mod nelem (Co :: osp)) = b :: oc :: o) in U.
      now injection U as -> _ _. }
  destruct (nth_error grad _) as [g|]; [|discriminate]. cbn [obind] in *.
  match goal with |- exists l, loopO ?g _ _ = _ /\ _ => enough (X : exists l, (forall acc, loopO g (seq 0 (nth 1 (gw_ishape m) 0)) acc = Some (acc ++ l)) /\ applies l out out') end.
  { destruct X as (l & L1 & L2). exists l. split; [apply (L1 [])|exact L2]. }
  revert H. apply loop_adds. intros ic o1 o2 _. apply loop_adds.
  intros k o3 o4 _ E'. cbv beta in *. destruct (c_pos o k _ _ _ _) as [i|].
  - destruct (nth_error input _) as [x|]; [|discriminate]. cbn [obind] in *. cbv zeta in E'. set (a := oc * _ * _ + _ + _) in *.
    destruct (nth_error o3 a) as [old|] eqn:Ea; [|discriminate]. cbn [obind] in E'. unfold c_store in E'.
    destruct (Nat.ltb_spec a (length o3)) as [Ha|]; [|discriminate]. injection E' as <-.
    exists [(a, mulA x g)]. split; [reflexivity|]. split; [now repeat constructor|]. cbn [fold_left]. unfold addA. cbn [fst snd].
    now rewrite (nth_error_nth _ _ za Ea).
  - injection E' as <-. exists []. split; [intro acc; now rewrite app_nil_r|apply applies_nil].
Qed.

Lemma gradw_same : forall log (input grad : list A) out0 md r m, read_gradw md = Some m -> length out0 = gw_els m ->
  Permutation log (seq 0 (nelem (nth 0 (gw_ishape m) 0 :: skipn 1 (gw_gshape m)))) -> 1 < length (gw_gshape m) ->
  gradw_kernel za plus mulA input grad out0 md = Some r ->
  cuda_gradw up down mul plus log input grad (repeat (Some za) (gw_els m)) md = Some r.
Proof.
  intros log input grad out0 md r m M L0 P LG H. unfold gradw_kernel in H. unfold cuda_gradw. rewrite M in *. cbn [obind] in *.
  rewrite (seq_for_total _ (fun _ => za)) in H by auto. cbn [obind] in H.
  replace (map (fun _ => za) (seq 0 (gw_els m))) with (repeat za (gw_els m)) in H.
  2:{ rewrite map_const. now rewrite seq_length. }
  set (adds := listed m input grad). set (s := nth 0 (gw_ishape m) 0 :: nth 1 (gw_gshape m) 0 :: skipn 2 (gw_gshape m)).
  replace (nth 0 (gw_ishape m) 0 :: skipn 1 (gw_gshape m)) with s in P.
  2:{ unfold s. destruct (gw_gshape m) as [|x [|y l]]; cbn in LG |- *; try lia. reflexivity. }
  assert (X : Forall (fun i => gradw_adds up down mul m input grad i = Some (adds i)) (seq 0 (nelem s)) /\
              applies (flat_map adds (seq 0 (nelem s))) (repeat za (gw_els m)) r).
  { unfold s. rewrite <- nested_seq. revert H. apply loop_lists. intros b o1 o2 Ib. apply loop_lists. intros oc o3 o4 Ic.
    apply loop_lists. intros o o5 o6 Io H. apply in_seq in Ib. apply in_seq in Ic. apply in_all_idx in Io.
    apply one_index in H; [|cbn; repeat split; [lia|lia|exact Io]]. destruct H as (l & G & AP).
    assert (EA : adds (ravel s (b :: oc :: o)) = l) by (unfold adds, listed, s; now rewrite G).
    cbn [flat_map]. fold s in G |- *. rewrite app_nil_r, EA. split; [|exact AP]. constructor; [|constructor]. now rewrite EA. }
  destruct X as [FA AP].
  rewrite (mapO_total _ _ _ adds).
  2:{ intros i I. rewrite Forall_forall in FA. apply FA. now apply (Permutation_in _ P). }
  cbn [obind]. rewrite <- flat_map_concat_map.
  apply (applies_perm _ _ (Permutation_sym (Permutation_flat_map adds P))) in AP.
  replace (forallb _ (flat_map adds log)) with true.
  2:{ symmetry. apply forallb_forall. intros x I. destruct AP as [F _]. rewrite Forall_forall in F. specialize (F x I).
      rewrite repeat_length in F |- *. now apply Nat.ltb_lt. }
  cbn [negb]. replace (repeat (Some za) (gw_els m)) with (map Some (repeat za (gw_els m))) by apply map_repeat. rewrite (applies_some _ _ _ AP). apply all_some_map.
Qed.
End Grad.
