(** The gradient rules of concat, split, cumsum and flip are adjoints. *)
From Coq Require Import List Arith ZArith Bool Lia Reals Lra Permutation.
From Verif Require Import Base IndexSpec LayoutModel ViewSpec LayoutProofs KernelModel TensorModel TensorSpec TensorProofs ReduceModel MoveModel MoveProofs MoveProofs2 MoveProofs3 ScanModel ScanProofs SelectModel CountProofs.
From Verif Require Import ConvModel ConvReal MoveGradModel MoveGradSpec.
Import ListNotations.
Open Scope nat_scope.

(* ---------- sums over indices ---------- *)
Lemma Sum_none : forall X (l : list X) f, (forall x, In x l -> False) -> Sum l f = 0%R.
Proof. intros X [|x l] f H; [reflexivity|]. destruct (H x). now left. Qed.
Lemma Sum_idx_ext : forall s f g, (forall i, valid s i -> f i = g i) -> Sum (all_idx s) f = Sum (all_idx s) g.
Proof. intros s f g H. apply Sum_ext. intros i Hi. apply H. now apply in_all_idx. Qed.
Lemma adjust_0 : forall f x l, adjust 0 f (x :: l) = f x :: l.
Proof. reflexivity. Qed.
Lemma adjust_S : forall d f x l, adjust (S d) f (x :: l) = x :: adjust d f l.
Proof. intros d f x l. unfold adjust. cbn [nth_error upd]. destruct (nth_error l d); reflexivity. Qed.
Lemma seq_shift_by : forall a n, seq a n = map (fun x => x + a) (seq 0 n).
Proof.
  intros a n. apply (nth_ext _ _ 0 (0 + a)); [now rewrite map_length, !seq_length|]. intros k Hk. rewrite seq_length in Hk.
  rewrite (map_nth (fun x => x + a) (seq 0 n) 0 k), !seq_nth; lia.
Qed.
Lemma Sum_split : forall s d a b f, d < length s ->
  Sum (all_idx (upd s d (a + b))) f = (Sum (all_idx (upd s d a)) f + Sum (all_idx (upd s d b)) (fun i => f (adjust d (fun x => x + a)%nat i)))%R.
Proof.
  induction s as [|n s IH]; intros [|d] a b f H; cbn [length] in H; try lia; cbn [upd]; rewrite !Sum_axis.
  - rewrite seq_app, Sum_app. f_equal. rewrite Nat.add_0_l, seq_shift_by, Sum_map. reflexivity.
  - rewrite <- Sum_plus. apply Sum_ext. intros x _. rewrite IH by lia. f_equal. apply Sum_ext. intros i _. now rewrite adjust_S.
Qed.
(** in pieces along an axis *)
Fixpoint pieces_sum (d : nat) (s : shape) (off : nat) (sizes : list nat) (f : list nat -> R) : R :=
  match sizes with
  | [] => 0%R
  | n :: r => (Sum (all_idx (upd s d n)) (fun i => f (adjust d (fun x => x + off)%nat i)) + pieces_sum d s (off + n)%nat r f)%R
  end.
Lemma adjust_adjust : forall d f g l, adjust d f (adjust d g l) = adjust d (fun x => f (g x)) l.
Proof. induction d as [|d IH]; intros f g [|x l]; try reflexivity; rewrite !adjust_S, IH; reflexivity. Qed.
Lemma adjust_ext : forall d f g l, (forall x, f x = g x) -> adjust d f l = adjust d g l.
Proof. intros d f g l H. unfold adjust. destruct (nth_error l d); [now rewrite H|reflexivity]. Qed.
Lemma Sum_pieces : forall d s sizes off f, d < length s ->
  Sum (all_idx (upd s d (list_sum sizes))) (fun i => f (adjust d (fun x => x + off) i)) = pieces_sum d s off sizes f.
Proof.
  intros d s sizes. induction sizes as [|n r IH]; intros off f H.
  - cbn [list_sum fold_right pieces_sum]. apply Sum_none. intros i Hi. apply in_all_idx in Hi. pose proof (valid_length _ _ Hi) as L. rewrite upd_length in L.
    pose proof (proj1 (valid_nth _ _) Hi) as N. destruct N as [_ N]. specialize (N d (nth d i 0) 0).
    assert (E1 : nth_error (upd s d 0) d = Some 0) by (apply nth_error_upd_eq; auto). assert (E2 : nth_error i d = Some (nth d i 0)) by (apply nth_error_nth'; lia).
    specialize (N E2 E1). lia.
  - change (list_sum (n :: r)) with (n + list_sum r). rewrite Sum_split by auto. cbn [pieces_sum]. f_equal. rewrite <- IH by auto.
    apply Sum_ext. intros i _. rewrite adjust_adjust. f_equal. apply adjust_ext. intros x. lia.
Qed.

(* ---------- concat and split ---------- *)
Lemma val_elem : forall t i t' i', elem t i = elem t' i' -> val t i = val t' i'.
Proof. intros t i t' i' H. unfold val. now rewrite H. Qed.
Lemma pairs_sum : forall d s sizes gs ts off f, length gs = length sizes -> length ts = length sizes ->
  (forall j gj tj n, nth_error gs j = Some gj -> nth_error ts j = Some tj -> nth_error sizes j = Some n ->
     tshape gj = upd s d n /\ forall i, valid (upd s d n) i ->
       (val gj i * val tj i)%R = f (adjust d (fun x => x + (off + list_sum (firstn j sizes))) i)) ->
  pairings gs ts = pieces_sum d s off sizes f.
Proof.
  intros d s sizes. induction sizes as [|n r IH]; intros [|g gs] [|t ts] off f L1 L2 H; try discriminate; [reflexivity|].
  unfold pairings. cbn [combine map fold_right fst snd pieces_sum]. f_equal.
  - destruct (H 0 g t n eq_refl eq_refl eq_refl) as [S1 H1]. unfold pairing. rewrite S1. apply Sum_idx_ext. intros i V. rewrite H1 by auto.
    f_equal. apply adjust_ext. intros x. cbn. lia.
  - apply (IH gs ts (off + n) f); [now injection L1|now injection L2|]. intros j gj tj m Hg Ht Hm.
    destruct (H (S j) gj tj m Hg Ht Hm) as [S1 H1]. split; auto. intros i V. rewrite H1 by auto. f_equal. apply adjust_ext. intros x. cbn [firstn list_sum fold_right]. unfold list_sum. lia.
Qed.
Lemma sizes_at_ok : forall d (ts : list (tensor R)), (forall t, In t ts -> d < length (tshape t)) -> sizes_at d (map tshape ts) = Ok (axis_sizes d ts).
Proof.
  intros d ts. induction ts as [|t ts IH]; intros H; [reflexivity|]. cbn [map sizes_at]. unfold idx_or_panic.
  rewrite (nth_error_nth' (tshape t) 0) by (apply H; now left). cbn [bind]. rewrite IH by (intros; apply H; now right). reflexivity.
Qed.
Lemma axis_of_nat : forall n d, axis_of n (Z.of_nat d) = d.
Proof. intros n d. unfold axis_of. destruct (Z.ltb_spec (Z.of_nat d) 0); lia. Qed.
Lemma to_usize_axis : forall n a, (0 <= a)%Z -> axis_of n a = to_usize a.
Proof. intros n a H. unfold axis_of, to_usize. destruct (Z.ltb_spec a 0); lia. Qed.
Lemma compatible_upd : forall d s0 s, compatible d s0 s -> d < length s0 -> s = upd s0 d (nth d s 0).
Proof.
  intros d s0 s [L H] Hd. apply list_ext. intros k. destruct (Nat.eq_dec k d) as [->|N].
  - rewrite nth_error_upd_eq by auto. apply nth_error_nth'. lia.
  - rewrite nth_error_upd_neq by auto. auto.
Qed.
Lemma firstn_total : forall (l : list nat) j n, nth_error l j = Some n -> list_sum (firstn j l) + n <= list_sum l.
Proof. induction l as [|x l IH]; intros [|j] n H; cbn in *; try discriminate; [injection H as ->; lia|]. specialize (IH _ _ H). unfold list_sum in *. lia. Qed.
Lemma piece_valid : forall s d n off tot i, d < length s -> off + n <= tot -> valid (upd s d n) i -> valid (upd s d tot) (adjust d (fun x => x + off) i).
Proof.
  induction s as [|m s IH]; intros [|d] n off tot [|x i] Hd Ht V; cbn [length upd] in *; try lia; cbn [valid] in V; try tauto.
  - rewrite adjust_0. cbn [valid]. split; [lia|tauto].
  - rewrite adjust_S. cbn [valid]. split; [tauto|]. apply (IH d n); tauto || lia.
Qed.

Section Concat.
Variable z : R.
Lemma split_pieces : forall (t : tensor R) sizes a n, good t -> length (tshape t) <= 16 -> axis_ok (length (tshape t)) a ->
  nth_error (tshape t) (axis_of (length (tshape t)) a) = Some n -> Forall (fun s => 0 < s) sizes -> list_sum sizes <= n ->
  exists ps, t_split z t sizes a = Ok ps /\ length ps = length sizes /\
    forall j p size, nth_error ps j = Some p -> nth_error sizes j = Some size ->
      good p /\ tshape p = upd (tshape t) (axis_of (length (tshape t)) a) size /\
      (forall i, valid (tshape p) i -> elem p i = elem t (adjust (axis_of (length (tshape t)) a) (fun x => x + list_sum (firstn j sizes)) i)).
Proof.
  intros t sizes a n Hg HR Ha Hn HP Hs. unfold t_split. fold (tshape t). rewrite axis_usize_ok by auto.
  destruct (split_loop_spec R z 0%R t _ n sizes 0 Hg HR Hn HP Hs) as [ps [E [L H]]].
  exists ps. split; auto. split; auto. intros j p size Hj Hz. destruct (H j p size Hj Hz) as [G [L' [_ H']]].
  split; auto. split; [unfold tshape at 1; now rewrite L'|]. exact H'.
Qed.

Lemma vjp_concat_adjoint : forall (t0 : tensor R) r a g,
  let ts := t0 :: r in let s0 := tshape t0 in let d := axis_of (length s0) a in
  axis_ok (length s0) a -> (0 <= a)%Z -> length s0 <= 16 ->
  (forall t, In t ts -> compatible d s0 (tshape t) /\ 0 < nth d (tshape t) 0) ->
  good g -> tshape g = upd s0 d (list_sum (axis_sizes d ts)) ->
  exists gs, vjp_concat z (map tshape ts) a g = Ok gs /\ map tshape gs = map tshape ts /\
    forall ts', map tshape ts' = map tshape ts -> Forall good ts' -> packed ts' ->
      exists c, t_concat z ts' a = Ok c /\ tshape c = tshape g /\ pairing g c = pairings gs ts'.
Proof.
  intros t0 r a g ts s0 d Ha H0 HR Hc Gg Sg. pose proof (axis_of_lt _ _ Ha) as Hd. fold d in Hd.
  assert (Ed : to_usize a = d) by (symmetry; now apply to_usize_axis).
  assert (LEN : forall t, In t ts -> length (tshape t) = length s0) by (intros t Ht; destruct (Hc t Ht) as [[L _] _]; exact L).
  unfold vjp_concat. rewrite Ed, sizes_at_ok by (intros t Ht; rewrite LEN; auto). cbn [bind].
  assert (Lg : length (tshape g) = length s0) by (rewrite Sg; apply upd_length).
  set (sizes := axis_sizes d ts) in *.
  assert (POS : Forall (fun n => 0 < n) sizes).
  { apply Forall_forall. intros n Hn. apply in_map_iff in Hn. destruct Hn as (t & <- & Ht). apply Hc. exact Ht. }
  destruct (split_pieces g sizes a (list_sum sizes)) as (gs & E & L & H); auto; try lia.
  { now rewrite Lg. } { rewrite Lg. fold d. rewrite Sg. now apply nth_error_upd_eq. }
  rewrite Lg in H. fold d in H. exists gs. split; [exact E|].
  assert (LS : length sizes = length ts) by (unfold sizes, axis_sizes; apply map_length).
  assert (SHP : forall j t, nth_error ts j = Some t -> nth_error sizes j = Some (nth d (tshape t) 0) /\ tshape t = upd s0 d (nth d (tshape t) 0)).
  { intros j t Hj. split; [unfold sizes, axis_sizes; exact (map_nth_error (fun t => nth d (tshape t) 0) j ts Hj)|].
    apply compatible_upd; auto. apply Hc. eapply nth_error_In; eauto. }
  split.
  - apply list_ext. intros j. destruct (nth_error ts j) as [t|] eqn:Hj.
    + rewrite (map_nth_error tshape j ts Hj). destruct (SHP j t Hj) as [S1 S2].
      destruct (nth_error gs j) as [gj|] eqn:Hgj; [|apply nth_error_None in Hgj; assert (j < length ts) by (apply nth_error_Some; congruence); lia].
      rewrite (map_nth_error tshape j gs Hgj). f_equal. destruct (H j gj _ Hgj S1) as (_ & S3 & _). rewrite S3, Sg, LayoutProofs.upd_upd. now symmetry.
    + apply nth_error_None in Hj. rewrite !(proj2 (nth_error_None _ _)); auto; rewrite map_length; lia.
  - intros ts' HS HG HP.
    assert (LT : length ts' = length ts) by (rewrite <- (map_length tshape ts'), HS; apply map_length).
    assert (AT : forall j t', nth_error ts' j = Some t' -> exists t, nth_error ts j = Some t /\ tshape t' = tshape t).
    { intros j t' Hj. assert (X : nth_error (map tshape ts) j = Some (tshape t')) by (rewrite <- HS; now apply map_nth_error).
      rewrite nth_error_map in X. destruct (nth_error ts j) as [t|]; [|discriminate]. exists t. split; auto. cbn in X. congruence. }
    assert (AX : axis_sizes d ts' = sizes).
    { unfold sizes, axis_sizes. rewrite <- (map_map tshape (fun s => nth d s 0) ts'), <- (map_map tshape (fun s => nth d s 0) ts). now rewrite HS. }
    destruct ts' as [|t0' r'] eqn:ET; [discriminate|]. assert (S0 : tshape t0' = s0) by (injection HS as HS _; exact HS).
    destruct (t_concat_spec R z 0%R t0' r' a) as (c & Ec & Gc & Lc & Hcc); rewrite ?S0; auto.
    { fold d. intros t Ht. apply In_nth_error in Ht. destruct Ht as [j Hj]. destruct (AT j t Hj) as (u & Hu & ->). apply Hc. eapply nth_error_In; eauto. }
    rewrite S0 in *. fold d in Lc, Hcc. rewrite AX in *. exists c. split; [exact Ec|].
    assert (Sc : tshape c = tshape g) by (unfold tshape at 1; rewrite Lc, Sg; reflexivity). split; [exact Sc|].
    unfold pairing. rewrite Sg. symmetry. etransitivity.
    + apply (pairs_sum d s0 sizes gs (t0' :: r') 0 (fun i => (val g i * val c i)%R)); [auto|rewrite LT; auto|].
      intros j gj tj n Hgj Htj Hn. destruct (H j gj n Hgj Hn) as (G1 & S1 & H1). rewrite Sg, LayoutProofs.upd_upd in S1. split; [exact S1|].
      intros i V. rewrite S1 in H1. f_equal; apply val_elem.
      * rewrite H1 by auto. reflexivity.
      * symmetry. destruct (AT j tj Htj) as (u & Hu & Su). destruct (SHP j u Hu) as [X1 X2]. assert (n = nth d (tshape u) 0) by congruence. subst n.
        apply (Hcc j tj i Htj). now rewrite Su, X2.
    + rewrite <- Sum_pieces by auto. apply Sum_ext. intros i _. assert (X : adjust d (fun x => x + 0) i = i); [|now rewrite X].
      unfold adjust. destruct (nth_error i d) as [x|] eqn:Hx; auto. apply list_ext. intros k. destruct (Nat.eq_dec k d) as [->|N].
      * rewrite nth_error_upd_eq by (apply nth_error_Some; congruence). rewrite Hx. f_equal. lia.
      * now rewrite nth_error_upd_neq by auto.
Qed.
End Concat.

Section Split.
Variable z : R.
Lemma full_good : forall s, good (@t_full R s 0%R) /\ tshape (@t_full R s 0%R) = s /\ length (tstore (@t_full R s 0%R)) = nelem s /\ forall i, val (@t_full R s 0%R) i = 0%R.
Proof.
  intros s. split; [apply from_shape_good; apply repeat_length|]. split; [reflexivity|]. split; [apply repeat_length|]. intros i. unfold val.
  destruct (elem (t_full s 0%R) i) as [x|] eqn:E; auto. unfold elem, t_full in E. cbn [tstore] in E. apply nth_error_In in E. now apply repeat_spec in E.
Qed.
Lemma grad_pieces_ok : forall s d idx g sizes k, d < length s -> exists ps, grad_pieces 0%R s d k sizes idx g = Ok ps /\ length ps = length sizes /\
  forall j p size, nth_error ps j = Some p -> nth_error sizes j = Some size -> p = if k + j =? idx then g else t_full (upd s d size) 0%R.
Proof.
  intros s d idx g sizes. induction sizes as [|n r IH]; intros k Hd.
  - exists []. split; [reflexivity|]. split; [reflexivity|]. intros [|j]; discriminate.
  - cbn [grad_pieces]. destruct (IH (S k) Hd) as (ps & E & L & H). rewrite E.
    assert (Hb : (d <? length s) = true) by (now apply Nat.ltb_lt). rewrite Hb.
    exists ((if k =? idx then g else t_full (upd s d n) 0%R) :: ps). split; [destruct (k =? idx); reflexivity|]. split; [cbn; now rewrite L|].
    intros [|j] p size Hp Hs; cbn [nth_error] in *.
    + injection Hp as <-. injection Hs as <-. now rewrite Nat.add_0_r.
    + rewrite (H j p size Hp Hs). now rewrite Nat.add_succ_r.
Qed.
(** a pairing in which one piece counts *)
Lemma pairings_one : forall gs ts idx g t, length gs = length ts -> nth_error gs idx = Some g -> nth_error ts idx = Some t ->
  (forall j gj tj, j <> idx -> nth_error gs j = Some gj -> nth_error ts j = Some tj -> pairing gj tj = 0%R) -> pairings gs ts = pairing g t.
Proof.
  assert (Z : forall gs ts, length gs = length ts -> (forall j gj tj, nth_error gs j = Some gj -> nth_error ts j = Some tj -> pairing gj tj = 0%R) -> pairings gs ts = 0%R).
  { induction gs as [|g gs IH]; intros [|t ts] L H; try discriminate; [reflexivity|]. unfold pairings. cbn [combine map fold_right fst snd].
    rewrite (H 0 g t eq_refl eq_refl). fold (pairings gs ts). rewrite IH; [lra|now injection L|]. intros j. exact (H (S j)). }
  induction gs as [|g0 gs IH]; intros [|t0 ts] [|idx] g t L Hg Ht H; try discriminate; unfold pairings; cbn [combine map fold_right fst snd]; fold (pairings gs ts).
  - injection Hg as ->. injection Ht as ->. rewrite Z; [lra|now injection L|]. intros j gj tj. exact (H (S j) gj tj ltac:(discriminate)).
  - rewrite (H 0 g0 t0 ltac:(discriminate) eq_refl eq_refl). rewrite (IH ts idx g t); auto; [lra|]. intros j gj tj N. apply (H (S j)). congruence.
Qed.

Lemma vjp_split_adjoint : forall s a sizes idx size n (g : tensor R), let d := axis_of (length s) a in
  axis_ok (length s) a -> (0 <= a)%Z -> length s <= 16 -> nth_error s d = Some n ->
  Forall (fun m => 0 < m) sizes -> list_sum sizes = n -> nth_error sizes idx = Some size ->
  good g -> tshape g = upd s d size -> (S idx < length sizes -> length (tstore g) = nelem (tshape g)) ->
  exists gx, vjp_split z 0%R s a sizes idx g = Ok gx /\ tshape gx = s /\
    forall t, good t -> tshape t = s -> exists ps p, t_split z t sizes a = Ok ps /\ nth_error ps idx = Some p /\ tshape p = tshape g /\ pairing g p = pairing gx t.
Proof.
  intros s a sizes idx size n g d Ha H0 HR Hn HP HS Hi Gg Sg PK. pose proof (axis_of_lt _ _ Ha) as Hd. fold d in Hd.
  assert (Ed : to_usize a = d) by (symmetry; now apply to_usize_axis).
  unfold vjp_split. rewrite Ed. destruct (grad_pieces_ok s d idx g sizes 0 Hd) as (ps & E & L & H). rewrite E. cbn [bind].
  assert (US : upd s d n = s) by (apply list_ext; intros k; destruct (Nat.eq_dec k d) as [->|N]; [rewrite nth_error_upd_eq; auto|now rewrite nth_error_upd_neq by auto]).
  (* the pieces *)
  assert (P : forall j p, nth_error ps j = Some p -> exists m, nth_error sizes j = Some m /\ good p /\ tshape p = upd s d m /\
    (S j < length ps -> length (tstore p) = nelem (tshape p)) /\ (j = idx -> p = g) /\ (j <> idx -> forall i, val p i = 0%R)).
  { intros j p Hp. destruct (nth_error sizes j) as [m|] eqn:Hm; [|apply nth_error_None in Hm; assert (j < length ps) by (apply nth_error_Some; congruence); lia].
    exists m. split; auto. specialize (H j p m Hp Hm). cbn [Nat.add] in H. destruct (Nat.eqb_spec j idx) as [->|N]; subst p.
    - assert (m = size) by congruence. subst m. rewrite L. repeat split; auto; try apply Gg. congruence.
    - destruct (full_good (upd s d m)) as (F1 & F2 & F3 & F4). repeat split; auto; try apply F1; try congruence. }
  assert (NE : sizes <> []) by (intros ->; now destruct idx).
  destruct ps as [|p0 ps'] eqn:EP; [destruct sizes; [congruence|discriminate]|].
  destruct (P 0 p0 eq_refl) as (m0 & Hm0 & _ & S0 & _).
  assert (L0 : length (tshape p0) = length s) by (rewrite S0; apply upd_length).
  assert (AX : axis_sizes d (p0 :: ps') = sizes).
  { apply list_ext. intros j. unfold axis_sizes. rewrite nth_error_map. destruct (nth_error (p0 :: ps') j) as [p|] eqn:Hp.
    - destruct (P j p Hp) as (m & Hm & _ & Sp & _). rewrite Hm. cbn [option_map]. f_equal. rewrite Sp. apply nth_error_nth. now apply nth_error_upd_eq.
    - cbn. symmetry. apply nth_error_None. apply nth_error_None in Hp. lia. }
  destruct (t_concat_spec R z 0%R p0 ps' (Z.of_nat d)) as (gx & Ec & Gc & Lc & Hc); rewrite ?L0, ?axis_of_nat; auto.
  { apply Forall_forall. intros p Hp. apply In_nth_error in Hp. destruct Hp as [j Hp]. destruct (P j p Hp) as (m & _ & G & _). exact G. }
  { unfold axis_ok. lia. }
  { intros p Hp. apply In_nth_error in Hp. destruct Hp as [j Hp]. destruct (P j p Hp) as (m & _ & _ & Sp & _). split; [rewrite Sp, L0; apply upd_length|].
    intros k N. rewrite Sp, S0. now rewrite !nth_error_upd_neq by auto. }
  { intros j p Hj Hp. destruct (P j p Hp) as (m & _ & _ & _ & X & _). auto. }
  rewrite L0, axis_of_nat in Lc, Hc. rewrite AX in *. rewrite S0, LayoutProofs.upd_upd, HS, US in Lc. exists gx. split; [exact Ec|].
  assert (Sx : tshape gx = s) by (unfold tshape; rewrite Lc; reflexivity). split; [exact Sx|].
  intros t Gt St. destruct (split_pieces z t sizes a n) as (qs & Eq & Lq & Hq); rewrite ?St; auto; [lia|]. rewrite St in Hq. fold d in Hq.
  destruct (nth_error qs idx) as [q|] eqn:Hqi; [|apply nth_error_None in Hqi; assert (idx < length sizes) by (apply nth_error_Some; congruence); lia].
  exists qs, q. split; auto. split; auto. destruct (Hq idx q size Hqi Hi) as (_ & Sq & _). split; [congruence|].
  assert (Hpi : nth_error (p0 :: ps') idx = Some g).
  { destruct (nth_error (p0 :: ps') idx) as [p|] eqn:Hp; [|apply nth_error_None in Hp; assert (idx < length sizes) by (apply nth_error_Some; congruence); lia].
    destruct (P idx p Hp) as (_ & _ & _ & _ & _ & X & _). now rewrite X. }
  rewrite <- (pairings_one (p0 :: ps') qs idx g q); auto; [|lia|].
  - unfold pairing. rewrite Sx. rewrite <- US at 1. rewrite <- HS. etransitivity.
    + apply (pairs_sum d s sizes (p0 :: ps') qs 0 (fun i => (val gx i * val t i)%R)); auto.
      intros j gj tj m Hgj Htj Hm. destruct (P j gj Hgj) as (m' & Hm' & _ & Sp & _). assert (m' = m) by congruence. subst m'. split; [exact Sp|].
      intros i V. f_equal; apply val_elem.
      * symmetry. apply (Hc j gj i Hgj). now rewrite Sp.
      * destruct (Hq j tj m Htj Hm) as (_ & Sj & X). apply X. now rewrite Sj.
    + rewrite <- Sum_pieces by auto. apply Sum_ext. intros i _. assert (X : adjust d (fun x => x + 0) i = i); [|now rewrite X].
      unfold adjust. destruct (nth_error i d) as [x|] eqn:Hx; auto. apply list_ext. intros k. destruct (Nat.eq_dec k d) as [->|N].
      * rewrite nth_error_upd_eq by (apply nth_error_Some; congruence). rewrite Hx. f_equal. lia.
      * now rewrite nth_error_upd_neq by auto.
  - intros j gj tj N Hgj _. destruct (P j gj Hgj) as (m & _ & _ & Sp & _ & _ & X). transitivity (Sum (all_idx (tshape gj)) (fun _ => 0%R)); [|apply Sum_zero]. apply Sum_ext. intros i _. rewrite X by auto. lra.
Qed.
End Split.

(* ---------- flip ---------- *)
Lemma Sum_perm : forall X (l l' : list X) f, Permutation l l' -> Sum l f = Sum l' f.
Proof.
  intros X l l' f P. induction P as [|x l l' P IH|x y l|l1 l2 l3 P1 IH1 P2 IH2]; auto; rewrite ?Sum_cons; [now rewrite IH|lra|congruence].
Qed.
Lemma NoDup_map_on : forall X Y (f : X -> Y) l, (forall x y, In x l -> In y l -> f x = f y -> x = y) -> NoDup l -> NoDup (map f l).
Proof.
  intros X Y f l. induction l as [|x l IH]; intros H N; cbn [map]; constructor; inversion N; subst.
  - intros I. apply in_map_iff in I. destruct I as (y & E & Iy). assert (y = x) by (apply H; auto; [now right|now left]). congruence.
  - apply IH; auto. intros a b Ia Ib. apply H; now right.
Qed.
Lemma Sum_mirror : forall s m f, Sum (all_idx s) f = Sum (all_idx s) (fun i => f (mirror s m 0 i)).
Proof.
  intros s m f. rewrite <- (Sum_map _ _ (all_idx s) (mirror s m 0) f). apply Sum_perm. apply NoDup_Permutation.
  - apply all_idx_NoDup.
  - apply NoDup_map_on; [|apply all_idx_NoDup]. intros x y Hx Hy E. apply in_all_idx in Hx, Hy. rewrite <- (mirror_mirror s m 0 x), <- (mirror_mirror s m 0 y) by auto. now rewrite E.
  - intros i. split; intros H.
    + apply in_all_idx in H. apply in_map_iff. exists (mirror s m 0 i). split; [now apply mirror_mirror|]. apply in_all_idx. now apply mirror_valid.
    + apply in_map_iff in H. destruct H as (j & <- & Hj). apply in_all_idx in Hj. apply in_all_idx. now apply mirror_valid.
Qed.
Lemma vjp_flip_adjoint : forall z axes (g : tensor R), good g -> plain_layout g -> Forall (axis_ok (length (tshape g))) axes ->
  let dims := map (axis_of (length (tshape g))) axes in
  exists gx, vjp_flip z dims g = Ok gx /\ tshape gx = tshape g /\
    forall t, good t -> plain_layout t -> tshape t = tshape g -> exists y, t_flip z t axes = Ok y /\ tshape y = tshape g /\ pairing g y = pairing gx t.
Proof.
  intros z axes g Gg Pg Ha dims.
  assert (FA : Forall2 (fun a d => axis_ok (length (tshape g)) a /\ d = axis_of (length (tshape g)) a) axes dims)
    by (unfold dims; clear dims; induction Ha as [|a axes H Ha IH]; cbn [map]; constructor; auto).
  assert (Hd : Forall (fun d => d < length (tshape g)) dims).
  { unfold dims. clear - Ha. induction Ha as [|a axes H Ha IH]; cbn [map]; constructor; auto. now apply axis_of_lt. }
  clearbody dims.
  assert (F2 : Forall2 (fun a d => axis_ok (length (tshape g)) a /\ d = axis_of (length (tshape g)) a) (map Z.of_nat dims) dims).
  { clear - Hd. induction Hd as [|d dims Hd _ IH]; cbn [map]; constructor; auto. split; [unfold axis_ok; lia|]. symmetry. apply axis_of_nat. }
  destruct (t_flip_spec R z 0%R g (map Z.of_nat dims) dims Gg Pg F2) as (gx & E & G & L & H). exists gx. split; [exact E|].
  assert (Sx : tshape gx = tshape g) by (unfold tshape at 1; rewrite L; reflexivity). split; [exact Sx|].
  intros t Gt Pt St. destruct (t_flip_spec R z 0%R t axes dims Gt Pt ltac:(now rewrite St)) as (y & Ey & _ & Ly & Hy). exists y. split; [exact Ey|].
  assert (Sy : tshape y = tshape g) by (unfold tshape at 1; rewrite Ly; exact St). split; [exact Sy|].
  unfold pairing. rewrite Sx. etransitivity; [apply (Sum_mirror (tshape g) (in_list dims))|]. apply Sum_idx_ext. intros i V. f_equal; apply val_elem.
  - symmetry. now apply H.
  - rewrite St in Hy. rewrite Hy by (now apply mirror_valid). now rewrite mirror_mirror.
Qed.

(* ---------- cumulative sums ---------- *)
Lemma Sum_fibre : forall s d f, d < length s ->
  Sum (all_idx s) f = Sum (all_idx (upd s d 1)) (fun b => Sum (seq 0 (nth d s 0)) (fun k => f (upd b d k))).
Proof.
  induction s as [|n s IH]; intros [|d] f H; cbn [length] in H; try lia; cbn [upd nth]; rewrite !Sum_axis.
  - change (seq 0 1) with [0]. rewrite Sum_cons, Sum_nil, Rplus_0_r. cbn [upd]. apply Sum_swap.
  - apply Sum_ext. intros x _. apply IH. lia.
Qed.
Lemma Sum_below : forall n k (f : nat -> R), k < n -> Sum (seq 0 (S k)) f = Sum (seq 0 n) (fun m => ind (m <=? k) (f m)).
Proof.
  intros n k f H. replace n with (S k + (n - S k)) by lia. rewrite seq_app, Sum_app. rewrite <- (Rplus_0_r (Sum (seq 0 (S k)) f)). f_equal.
  - apply Sum_ext. intros m Hm. apply in_seq in Hm. unfold ind. destruct (Nat.leb_spec m k); [reflexivity|lia].
  - symmetry. etransitivity; [|apply (Sum_zero _ (seq (0 + S k) (n - S k)))]. apply Sum_ext. intros m Hm. apply in_seq in Hm. unfold ind. destruct (Nat.leb_spec m k); [lia|reflexivity].
Qed.
Lemma Sum_above : forall n m (f : nat -> R), m <= n -> Sum (seq m (n - m)) f = Sum (seq 0 n) (fun k => ind (m <=? k) (f k)).
Proof.
  intros n m f H. replace n with (m + (n - m)) at 2 by lia. rewrite seq_app, Sum_app. rewrite <- (Rplus_0_l (Sum (seq m (n - m)) f)). f_equal.
  - symmetry. etransitivity; [|apply (Sum_zero _ (seq 0 m))]. apply Sum_ext. intros k Hk. apply in_seq in Hk. unfold ind. destruct (Nat.leb_spec m k); [lia|reflexivity].
  - apply Sum_ext. intros k Hk. apply in_seq in Hk. unfold ind. destruct (Nat.leb_spec m k); [reflexivity|lia].
Qed.
Lemma Sum_triangle : forall n (G X : nat -> R),
  Sum (seq 0 n) (fun k => (G k * Sum (seq 0 (S k)) X)%R) = Sum (seq 0 n) (fun m => (Sum (seq m (n - m)) G * X m)%R).
Proof.
  intros n G X. transitivity (Sum (seq 0 n) (fun k => Sum (seq 0 n) (fun m => ind (m <=? k) (G k * X m)%R))).
  - apply Sum_ext. intros k Hk. apply in_seq in Hk. rewrite (Sum_below n) by lia. rewrite Sum_scale. apply Sum_ext. intros m _. apply ind_scale.
  - rewrite Sum_swap. apply Sum_ext. intros m Hm. apply in_seq in Hm. rewrite Sum_above by lia. rewrite Rmult_comm, Sum_scale. apply Sum_ext. intros k _. rewrite ind_scale. now rewrite Rmult_comm.
Qed.
Lemma Sum_reverse : forall c k (G : nat -> R), Sum (seq 0 c) (fun m => G (k + c - 1 - m)) = Sum (seq k c) G.
Proof.
  induction c as [|c IH]; intros k G; [reflexivity|]. rewrite (seq_S c k), Sum_app, <- IH. cbn [seq]. rewrite Sum_cons, <- seq_shift, Sum_map, !Sum_cons, Sum_nil.
  rewrite Rplus_comm. f_equal; [apply Sum_ext; intros m _; f_equal; lia|]. rewrite Rplus_0_r. f_equal. lia.
Qed.
Lemma mirror_one : forall s d i, valid s i -> d < length s -> mirror s (in_list [d]) 0 i = upd i d (nth d s 0 - 1 - nth d i 0).
Proof.
  intros s d i V Hd. pose proof (valid_length _ _ V) as Li. pose proof (valid_length _ _ (mirror_valid s (in_list [d]) 0 i V)) as Lm.
  apply list_ext. intros k. destruct (Nat.lt_ge_cases k (length s)) as [Hk|Hk].
  - rewrite (mirror_nth s _ 0 i k (nth k s 0) (nth k i 0)) by (apply nth_error_nth'; lia). cbn [Nat.add]. unfold in_list. cbn [existsb]. rewrite orb_false_r.
    destruct (Nat.eqb_spec d k) as [<-|N].
    + symmetry. apply nth_error_upd_eq. lia.
    + rewrite nth_error_upd_neq by auto. symmetry. apply nth_error_nth'. lia.
  - rewrite !(proj2 (nth_error_None _ _)); auto; rewrite ?upd_length; lia.
Qed.
Lemma cumsum_val : forall z (t : tensor R) a, good t -> length (tshape t) <= 16 -> axis_ok (length (tshape t)) a ->
  exists r, t_cumsum 0%R Rplus (fun x => x) (fun x => x) z t a = Ok r /\ good r /\ tlay r = from_shape (tshape t) /\
    forall i, valid (tshape t) i -> val r i = Sum (seq 0 (S (nth (axis_of (length (tshape t)) a) i 0))) (fun k => val t (upd i (axis_of (length (tshape t)) a) k)).
Proof.
  intros z t a Hg HR Ha. destruct (t_cumsum_spec R R R 0%R Rplus (fun x => x) (fun x => x) z 0%R t a Hg HR Ha) as (r & E & G & L & H).
  exists r. split; auto. split; auto. split; auto. intros i V. destruct (H i V) as (vs & Lv & Hv & Er). unfold val at 1. rewrite Er, fold_Sum0. rewrite <- Lv.
  rewrite <- (Sum_map _ _ (seq 0 (length vs)) (fun k => val t (upd i (axis_of (length (tshape t)) a) k)) (fun x => x)). f_equal. apply (nth_ext _ _ 0%R (val t (upd i (axis_of (length (tshape t)) a) 0))).
  - now rewrite map_length, seq_length.
  - intros k Hk. rewrite (map_nth (fun k => val t (upd i (axis_of (length (tshape t)) a) k)) (seq 0 (length vs)) 0 k), seq_nth by auto. cbn [Nat.add].
    unfold val. now rewrite (Hv k (nth k vs 0%R)) by (now apply nth_error_nth').
Qed.
Lemma vjp_cumsum_adjoint : forall z a (g : tensor R), good g -> plain_layout g -> length (tshape g) <= 16 -> axis_ok (length (tshape g)) a ->
  let d := axis_of (length (tshape g)) a in
  exists gx, vjp_cumsum z 0%R Rplus d g = Ok gx /\ tshape gx = tshape g /\
    forall t, good t -> tshape t = tshape g -> exists y, t_cumsum 0%R Rplus (fun x => x) (fun x => x) z t a = Ok y /\ tshape y = tshape g /\ pairing g y = pairing gx t.
Proof.
  intros z a g Gg Pg HR Ha d. assert (Hd : d < length (tshape g)) by (now apply axis_of_lt). set (s := tshape g) in *. set (n := nth d s 0).
  assert (AO : forall u : tensor R, tshape u = s -> axis_ok (length (tshape u)) (Z.of_nat d)) by (intros u ->; unfold axis_ok; lia).
  assert (F2 : forall u : tensor R, tshape u = s -> Forall2 (fun a e => axis_ok (length (tshape u)) a /\ e = axis_of (length (tshape u)) a) [Z.of_nat d] [d]).
  { intros u Su. constructor; [|constructor]. split; [now apply AO|]. symmetry. apply axis_of_nat. }
  destruct (t_flip_spec R z 0%R g [Z.of_nat d] [d] Gg Pg (F2 g eq_refl)) as (f & E1 & G1 & L1 & H1). fold s in L1, H1.
  assert (S1 : tshape f = s) by (unfold tshape; rewrite L1; reflexivity).
  destruct (cumsum_val z f (Z.of_nat d) G1 ltac:(rewrite S1; exact HR) (AO f S1)) as (c & E2 & G2 & L2 & H2). rewrite S1, axis_of_nat in H2. rewrite S1 in L2.
  assert (S2 : tshape c = s) by (unfold tshape; rewrite L2; reflexivity).
  destruct (t_flip_spec R z 0%R c [Z.of_nat d] [d] G2 (fresh_plain _ _ _ L2) (F2 c S2)) as (gx & E3 & G3 & L3 & H3). rewrite S2 in L3, H3.
  assert (S3 : tshape gx = s) by (unfold tshape; rewrite L3; reflexivity).
  exists gx. split; [unfold vjp_cumsum; rewrite E1; cbn [bind]; rewrite E2; cbn [bind]; exact E3|]. split; [exact S3|].
  intros t Gt St. destruct (cumsum_val z t a Gt ltac:(rewrite St; exact HR) ltac:(rewrite St; exact Ha)) as (y & Ey & _ & Ly & Hy). rewrite St in Hy. fold d in Hy. rewrite St in Ly.
  exists y. split; [exact Ey|]. assert (Sy : tshape y = s) by (unfold tshape; rewrite Ly; reflexivity). split; [exact Sy|].
  unfold pairing. fold s. rewrite S3. fold (Sum (all_idx s) (fun i => val g i * val y i)%R). fold (Sum (all_idx s) (fun i => val gx i * val t i)%R).
  rewrite !(Sum_fibre s d) by auto. fold n. apply Sum_idx_ext. intros b Vb.
  pose proof (valid_length _ _ Vb) as Lb. rewrite upd_length in Lb.
  assert (VU : forall k, k < n -> valid s (upd b d k)).
  { intros k Hk. apply valid_nth. split; [rewrite upd_length; lia|]. intros q x e Hx He. apply valid_nth in Vb. destruct Vb as [_ Vb].
    destruct (Nat.eq_dec q d) as [->|N]; [rewrite nth_error_upd_eq in Hx by lia; injection Hx as <-; unfold n in Hk; now rewrite (nth_error_nth _ _ _ He) in Hk|].
    rewrite nth_error_upd_neq in Hx by auto. apply (Vb q x e Hx). rewrite nth_error_upd_neq; auto. }
  assert (ND : forall k, nth d (upd b d k) 0 = k) by (intros k; apply nth_error_nth; apply nth_error_upd_eq; lia).
  transitivity (Sum (seq 0 n) (fun k => (val g (upd b d k) * Sum (seq 0 (S k)) (fun m => val t (upd b d m)))%R)).
  { apply Sum_ext. intros k Hk. apply in_seq in Hk. f_equal. rewrite Hy by (apply VU; lia). rewrite ND. apply Sum_ext. intros m _. now rewrite LayoutProofs.upd_upd. }
  rewrite (Sum_triangle n (fun k => val g (upd b d k)) (fun m => val t (upd b d m))). apply Sum_ext. intros m Hm. apply in_seq in Hm. f_equal.
  rewrite (val_elem gx _ c _ (H3 _ (VU m ltac:(lia)))). rewrite mirror_one, ND, LayoutProofs.upd_upd by (auto; apply VU; lia). fold n.
  rewrite H2 by (apply VU; lia). rewrite ND. replace (S (n - 1 - m)) with (n - m) by lia. rewrite <- Sum_reverse. apply Sum_ext. intros q Hq. apply in_seq in Hq.
  rewrite LayoutProofs.upd_upd. symmetry. rewrite (val_elem f _ g _ (H1 _ (VU q ltac:(lia)))). rewrite mirror_one, ND, LayoutProofs.upd_upd by (auto; apply VU; lia). fold n. do 2 f_equal. lia.
Qed.
