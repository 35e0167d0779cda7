(** The gradient rules of the convolutions over the reals: they are the adjoints of the
    convolution in each operand. *)
From Coq Require Import List Arith ZArith Bool Lia Reals Lra.
From Verif Require Import Base IndexSpec LayoutModel ViewSpec TensorModel TensorSpec CountProofs
  ConvModel ConvSpec ConvProofs ConvProofs2 ConvProofs3 ConvProofs4.
Import ListNotations.
Open Scope R_scope.

(** the value at an index, and the inner product of two tensors of the same shape *)
Definition val (t : tensor R) (i : list nat) : R := match elem t i with Some v => v | None => 0 end.
Definition pairing (a b : tensor R) : R :=
  fold_right Rplus 0 (map (fun i => val a i * val b i) (all_idx (tshape a))).

Definition Sum {X} (l : list X) (f : X -> R) : R := fold_right Rplus 0 (map f l).
Lemma Sum_cons : forall X (x : X) l f, Sum (x :: l) f = f x + Sum l f.
Proof. reflexivity. Qed.
Lemma Sum_nil : forall X (f : X -> R), Sum [] f = 0.
Proof. reflexivity. Qed.
Lemma Sum_app : forall X (a b : list X) f, Sum (a ++ b) f = Sum a f + Sum b f.
Proof. induction a as [|x a IH]; intros b f; [cbn [app]; rewrite Sum_nil; lra|]. cbn [app]. rewrite !Sum_cons, IH. lra. Qed.
Lemma Sum_ext : forall X (l : list X) f g, (forall x, In x l -> f x = g x) -> Sum l f = Sum l g.
Proof.
  induction l as [|x l IH]; intros f g H; auto. rewrite !Sum_cons, H by now left. f_equal. apply IH.
  intros; apply H; now right.
Qed.
Lemma Sum_zero : forall X (l : list X), Sum l (fun _ => 0) = 0.
Proof. induction l as [|x l IH]; auto. rewrite Sum_cons, IH. lra. Qed.
Lemma Sum_plus : forall X (l : list X) f g, Sum l (fun x => f x + g x) = Sum l f + Sum l g.
Proof. induction l as [|x l IH]; intros f g; [rewrite !Sum_nil; lra|]. rewrite !Sum_cons, IH. lra. Qed.
Lemma Sum_scale : forall X (l : list X) c f, c * Sum l f = Sum l (fun x => c * f x).
Proof. induction l as [|x l IH]; intros c f; [rewrite !Sum_nil; lra|]. rewrite !Sum_cons, <- IH. lra. Qed.
Lemma Sum_swap : forall X Y (l : list X) (m : list Y) f,
  Sum l (fun x => Sum m (fun y => f x y)) = Sum m (fun y => Sum l (fun x => f x y)).
Proof.
  induction l as [|x l IH]; intros m f.
  - rewrite Sum_nil. symmetry. apply Sum_zero.
  - rewrite Sum_cons, IH, <- Sum_plus. reflexivity.
Qed.
Lemma Sum_flat : forall X Y (l : list X) (h : X -> list Y) f, Sum (flat_map h l) f = Sum l (fun x => Sum (h x) f).
Proof. induction l as [|x l IH]; intros h f; auto. cbn [flat_map]. rewrite Sum_app, Sum_cons. now rewrite IH. Qed.
Lemma Sum_map : forall X Y (l : list X) (h : X -> Y) f, Sum (map h l) f = Sum l (fun x => f (h x)).
Proof. intros. unfold Sum. now rewrite map_map. Qed.
Lemma Sum_axis : forall n s f, Sum (all_idx (n :: s)) f = Sum (seq 0 n) (fun x => Sum (all_idx s) (fun i => f (x :: i))).
Proof. intros. cbn [all_idx]. rewrite Sum_flat. apply Sum_ext. intros. apply Sum_map. Qed.
Lemma fold_Sum : forall l z, fold_left Rplus l z = z + Sum l (fun x => x).
Proof.
  induction l as [|x l IH]; intros z; [cbn [fold_left]; rewrite Sum_nil; lra|]. cbn [fold_left]. rewrite IH, Sum_cons. lra.
Qed.
Lemma fold_Sum0 : forall l, fold_left Rplus l 0 = Sum l (fun x => x).
Proof. intros. rewrite fold_Sum. lra. Qed.

(** indicator *)
Definition ind (b : bool) (x : R) : R := if b then x else 0.
Lemma Sum_ind : forall (b : bool) x, Sum (if b then [x] else []) (fun x => x) = ind b x.
Proof. intros [|] x; unfold ind; rewrite ?Sum_cons, Sum_nil; lra. Qed.
Lemma ind_scale : forall b c x, c * ind b x = ind b (c * x).
Proof. intros [|] c x; unfold ind; lra. Qed.

Section Expand.
  Variables (s p d : nat).
  Lemma conv_terms_Sum : forall X W C ker isp b oc o,
    fold_left Rplus (conv_terms Rmult s p d X W C ker isp b oc o) 0 =
    Sum (seq 0 C) (fun ic => Sum (all_idx ker) (fun k => Sum (all_idx isp) (fun i =>
      ind (meets s p d o k i) (X (b :: ic :: i) * W (oc :: ic :: k))))).
  Proof.
    intros. rewrite fold_Sum0. unfold conv_terms. rewrite Sum_flat. apply Sum_ext; intros ic _.
    rewrite Sum_flat. apply Sum_ext; intros k _. rewrite Sum_flat. apply Sum_ext; intros i _. apply Sum_ind.
  Qed.
  Lemma conv_t_terms_Sum : forall X W wi C ker isp b oc o,
    fold_left Rplus (conv_t_terms Rmult s p d X W wi C ker isp b oc o) 0 =
    Sum (seq 0 C) (fun ic => Sum (all_idx isp) (fun i => Sum (all_idx ker) (fun k =>
      ind (meets s p d i k o) (X (b :: ic :: i) * W (wi ic oc k))))).
  Proof.
    intros. rewrite fold_Sum0. unfold conv_t_terms. rewrite Sum_flat. apply Sum_ext; intros ic _.
    rewrite Sum_flat. apply Sum_ext; intros k _. rewrite Sum_flat. apply Sum_ext; intros i _. apply Sum_ind.
  Qed.
  Lemma gradw_terms_Sum : forall X G B isp osp oc ic k,
    fold_left Rplus (gradw_terms Rmult s p d X G B isp osp oc ic k) 0 =
    Sum (seq 0 B) (fun b => Sum (all_idx osp) (fun o => Sum (all_idx isp) (fun i =>
      ind (meets s p d o k i) (X (b :: ic :: i) * G (b :: oc :: o))))).
  Proof.
    intros. rewrite fold_Sum0. unfold gradw_terms. rewrite Sum_flat. apply Sum_ext; intros b _.
    rewrite Sum_flat. apply Sum_ext; intros k' _. rewrite Sum_flat. apply Sum_ext; intros i _. apply Sum_ind.
  Qed.
  Lemma gradw_t_terms_Sum : forall X G B isp osp ic oc k,
    fold_left Rplus (gradw_t_terms Rmult s p d X G B isp osp ic oc k) 0 =
    Sum (seq 0 B) (fun b => Sum (all_idx isp) (fun i => Sum (all_idx osp) (fun o =>
      ind (meets s p d i k o) (X (b :: ic :: i) * G (b :: oc :: o))))).
  Proof.
    intros. rewrite fold_Sum0. unfold gradw_t_terms. rewrite Sum_flat. apply Sum_ext; intros b _.
    rewrite Sum_flat. apply Sum_ext; intros k' _. rewrite Sum_flat. apply Sum_ext; intros i _. apply Sum_ind.
  Qed.
End Expand.

Lemma Sum_axis2 : forall a b l f, Sum (all_idx (a :: b :: l)) f =
  Sum (seq 0 a) (fun x => Sum (seq 0 b) (fun y => Sum (all_idx l) (fun i => f (x :: y :: i)))).
Proof. intros. rewrite Sum_axis. apply Sum_ext; intros. apply Sum_axis. Qed.

Lemma scale3 : forall X Y Z (l : list X) (m : list Y) (n : list Z) c f,
  c * Sum l (fun x => Sum m (fun y => Sum n (fun z => f x y z))) =
  Sum l (fun x => Sum m (fun y => Sum n (fun z => c * f x y z))).
Proof.
  intros. rewrite Sum_scale. apply Sum_ext; intros. rewrite Sum_scale. apply Sum_ext; intros. apply Sum_scale.
Qed.

(** sums over (oc, o, ic, k, i) in the orders of the two operands *)
Lemma order_x : forall (oc ic : list nat) (o k i : list (list nat)) f,
  Sum oc (fun a => Sum o (fun b => Sum ic (fun c => Sum k (fun e => Sum i (fun g => f a b c e g))))) =
  Sum ic (fun c => Sum i (fun g => Sum oc (fun a => Sum o (fun b => Sum k (fun e => f a b c e g))))).
Proof.
  intros.
  transitivity (Sum oc (fun a => Sum ic (fun c => Sum o (fun b => Sum k (fun e => Sum i (fun g => f a b c e g)))))).
  { apply Sum_ext; intros. apply Sum_swap. }
  rewrite Sum_swap. apply Sum_ext; intros c _.
  rewrite Sum_swap with (l := i). apply Sum_ext; intros a _.
  rewrite Sum_swap with (l := i). apply Sum_ext; intros b _. apply Sum_swap.
Qed.
Lemma order_w : forall (bs oc ic : list nat) (o k i : list (list nat)) f,
  Sum bs (fun b => Sum oc (fun a => Sum o (fun b' => Sum ic (fun c => Sum k (fun e => Sum i (fun g => f b a b' c e g)))))) =
  Sum oc (fun a => Sum ic (fun c => Sum k (fun e => Sum bs (fun b => Sum o (fun b' => Sum i (fun g => f b a b' c e g)))))).
Proof.
  intros. rewrite Sum_swap. apply Sum_ext; intros a _.
  transitivity (Sum bs (fun b => Sum ic (fun c => Sum o (fun b' => Sum k (fun e => Sum i (fun g => f b a b' c e g)))))).
  { apply Sum_ext; intros. apply Sum_swap. }
  rewrite Sum_swap. apply Sum_ext; intros c _.
  transitivity (Sum bs (fun b => Sum k (fun e => Sum o (fun b' => Sum i (fun g => f b a b' c e g))))).
  { apply Sum_ext; intros. apply Sum_swap. }
  apply Sum_swap.
Qed.

Lemma val_some : forall t i v, elem t i = Some v -> val t i = v.
Proof. intros t i v H. unfold val. now rewrite H. Qed.
Lemma val_good : forall t i, good t -> valid (tshape t) i -> elem t i = Some (val t i).
Proof. intros t i G V. destruct (good_elem _ t i G V) as (v & E). unfold val. now rewrite E. Qed.

Lemma exact_out_lens : forall o k n s p d, (0 < s)%nat ->
  Forall2 (fun o k => (0 < o /\ 0 < k /\ 2 * p <= (o - 1) * s)%nat) o k -> t_out_lens o k s p d 0 n ->
  out_lens n k s p d o /\ Forall2 (fun n k => (0 < k /\ d * (k - 1) < n + 2 * p)%nat) n k.
Proof.
  induction o as [|o1 o IH]; intros [|k1 k] [|n1 n] s p d Hs F T; cbn in *; try contradiction; auto.
  inversion F; subst. destruct T as [T1 T]. destruct (IH k n s p d) as [O F']; auto.
  split; [split; [|auto]|constructor; [|auto]].
  - intros q. unfold t_out_len in T1. split; intros Q.
    + assert (q * s <= (o1 - 1) * s)%nat by (apply Nat.mul_le_mono_r; lia). lia.
    + destruct (Nat.lt_ge_cases q o1) as [|L]; auto.
      assert (o1 * s <= q * s)%nat by (apply Nat.mul_le_mono_r; lia).
      assert ((o1 - 1) * s + s = o1 * s)%nat by nia. lia.
  - unfold t_out_len in T1. lia.
Qed.
Lemma out_lens_inj : forall n k s p d o o', out_lens n k s p d o -> out_lens n k s p d o' -> o = o'.
Proof.
  induction n as [|n1 n IH]; intros [|k1 k] s p d [|o1 o] [|o2 o'] H H'; cbn in *; try contradiction; auto.
  destruct H as [H1 H], H' as [H1' H']. f_equal; [eapply out_len_inj; eauto|eapply IH; eauto].
Qed.

(** ** the convolution *)
Lemma vjp_conv_adjoint : forall nd (x w g : tensor R) s p d B C Co isp ker osp,
  good x -> good w -> good g -> dense x -> dense w -> dense g ->
  tshape x = B :: C :: isp -> tshape w = Co :: C :: ker -> tshape g = B :: Co :: osp ->
  length isp = nd -> length ker = nd -> length osp = nd -> (0 < s)%nat ->
  Forall2 (fun o k => (0 < o /\ 0 < k /\ 2 * p <= (o - 1) * s)%nat) osp ker ->
  t_out_lens osp ker s p d 0 isp ->
  exists gx gw, vjp_conv 0 Rplus Rmult nd x w g s p d = Ok (gx, gw) /\ tshape gx = tshape x /\ tshape gw = tshape w /\
    (forall x', good x' -> dense x' -> tshape x' = tshape x -> exists y,
       t_conv 0 Rplus Rmult nd x' w s p d = Ok y /\ tshape y = tshape g /\ pairing g y = pairing gx x') /\
    (forall w', good w' -> dense w' -> tshape w' = tshape w -> exists y,
       t_conv 0 Rplus Rmult nd x w' s p d = Ok y /\ tshape y = tshape g /\ pairing g y = pairing gw w').
Proof.
  intros nd x w g s p d B C Co isp ker osp Gx Gw Gg Dx Dw Dg Sx Sw Sg Li Lk Lo Hs F T.
  destruct (exact_out_lens _ _ _ _ _ _ Hs F T) as [O F'].
  destruct (vjp_conv_spec 0 Rplus Rmult nd x w g s p d B C Co isp ker osp (val x) (val w) (val g))
    as (gx & gw & E & Ggx & Ggw & Sgx & Sgw & Vx & Vw); auto; try (intros; now apply val_good).
  exists gx, gw. split; [auto|]. split; [auto|]. split; [auto|]. split.
  - intros x' Gx' Dx' Sx'. rewrite Sx in Sx'.
    destruct (t_conv_spec 0 Rplus Rmult nd x' w s p d B C Co isp ker (val x') (val w))
      as (y & osp' & Ey & Gy & Sy & Oy & Vy); auto; try (intros; now apply val_good).
    rewrite (out_lens_inj _ _ _ _ _ _ _ Oy O) in *.
    exists y. split; [auto|]. split; [congruence|].
    unfold pairing. rewrite Sgx, Sx, Sg. fold (Sum (all_idx (B :: Co :: osp)) (fun i => val g i * val y i)).
    fold (Sum (all_idx (B :: C :: isp)) (fun i => val gx i * val x' i)).
    rewrite !Sum_axis2. apply Sum_ext; intros b Hb. apply in_seq in Hb.
    transitivity (Sum (seq 0 Co) (fun oc => Sum (all_idx osp) (fun o => Sum (seq 0 C) (fun ic => Sum (all_idx ker) (fun k =>
        Sum (all_idx isp) (fun i => ind (meets s p d o k i) (val g (b :: oc :: o) * (val x' (b :: ic :: i) * val w (oc :: ic :: k))))))))).
    { apply Sum_ext; intros oc Hoc. apply in_seq in Hoc. apply Sum_ext; intros o Ho. apply in_all_idx in Ho.
      rewrite (val_some y _ _ (Vy b oc o ltac:(cbn; repeat split; auto; lia))). rewrite conv_terms_Sum, scale3.
      repeat (apply Sum_ext; intros). apply ind_scale. }
    rewrite order_x. apply Sum_ext; intros ic Hic. apply in_seq in Hic. apply Sum_ext; intros i Hi. apply in_all_idx in Hi.
    rewrite Rmult_comm. rewrite (val_some gx _ _ (Vx b ic i ltac:(rewrite Sx; cbn; repeat split; auto; lia))).
    rewrite conv_t_terms_Sum, scale3. repeat (apply Sum_ext; intros). rewrite ind_scale. f_equal. lra.
  - intros w' Gw' Dw' Sw'. rewrite Sw in Sw'.
    destruct (t_conv_spec 0 Rplus Rmult nd x w' s p d B C Co isp ker (val x) (val w'))
      as (y & osp' & Ey & Gy & Sy & Oy & Vy); auto; try (intros; now apply val_good).
    rewrite (out_lens_inj _ _ _ _ _ _ _ Oy O) in *.
    exists y. split; [auto|]. split; [congruence|].
    unfold pairing. rewrite Sgw, Sw, Sg. fold (Sum (all_idx (B :: Co :: osp)) (fun i => val g i * val y i)).
    fold (Sum (all_idx (Co :: C :: ker)) (fun i => val gw i * val w' i)).
    rewrite !Sum_axis2.
    transitivity (Sum (seq 0 B) (fun b => Sum (seq 0 Co) (fun oc => Sum (all_idx osp) (fun o => Sum (seq 0 C) (fun ic => Sum (all_idx ker) (fun k =>
        Sum (all_idx isp) (fun i => ind (meets s p d o k i) (val g (b :: oc :: o) * (val x (b :: ic :: i) * val w' (oc :: ic :: k)))))))))).
    { apply Sum_ext; intros b Hb. apply in_seq in Hb.
      apply Sum_ext; intros oc Hoc. apply in_seq in Hoc. apply Sum_ext; intros o Ho. apply in_all_idx in Ho.
      rewrite (val_some y _ _ (Vy b oc o ltac:(cbn; repeat split; auto; lia))). rewrite conv_terms_Sum, scale3.
      repeat (apply Sum_ext; intros). apply ind_scale. }
    rewrite order_w. apply Sum_ext; intros oc Hoc. apply in_seq in Hoc. apply Sum_ext; intros ic Hic. apply in_seq in Hic.
    apply Sum_ext; intros k Hk. apply in_all_idx in Hk.
    rewrite Rmult_comm. rewrite (val_some gw _ _ (Vw oc ic k ltac:(rewrite Sw; cbn; repeat split; auto; lia))).
    rewrite gradw_terms_Sum, scale3. repeat (apply Sum_ext; intros). rewrite ind_scale. f_equal. lra.
Qed.

(** ** the transposed convolution, as many output as input channels *)
Lemma vjp_conv_t_adjoint : forall nd (x w g : tensor R) s p d B C isp ker osp,
  good x -> good w -> good g -> dense x -> dense w -> dense g ->
  tshape x = B :: C :: isp -> tshape w = C :: C :: ker -> tshape g = B :: C :: osp ->
  length isp = nd -> length ker = nd -> length osp = nd -> (0 < s)%nat ->
  Forall2 (fun i k => (0 < i /\ 0 < k /\ 2 * p <= (i - 1) * s)%nat) isp ker ->
  t_out_lens isp ker s p d 0 osp ->
  exists gx gw, vjp_conv_transpose 0 Rplus Rmult nd x w g s p d = Ok (gx, gw) /\ tshape gx = tshape x /\ tshape gw = tshape w /\
    (forall x', good x' -> dense x' -> tshape x' = tshape x -> exists y,
       t_conv_transpose 0 Rplus Rmult nd x' w s p 0 d = Ok y /\ tshape y = tshape g /\ pairing g y = pairing gx x') /\
    (forall w', good w' -> dense w' -> tshape w' = tshape w -> exists y,
       t_conv_transpose 0 Rplus Rmult nd x w' s p 0 d = Ok y /\ tshape y = tshape g /\ pairing g y = pairing gw w').
Proof.
  intros nd x w g s p d B C isp ker osp Gx Gw Gg Dx Dw Dg Sx Sw Sg Li Lk Lo Hs F T.
  destruct (exact_out_lens _ _ _ _ _ _ Hs F T) as [O F'].
  destruct (t_conv_spec 0 Rplus Rmult nd g w s p d B C C osp ker (val g) (val w))
      as (gx & isp' & Ex & Ggx & Sgx & Ox & Vx); auto; try (intros; now apply val_good).
  rewrite (out_lens_inj _ _ _ _ _ _ _ Ox O) in *.
  destruct (t_gradw_t_spec 0 Rplus Rmult nd x g s p d B C C isp ker osp (val x) (val g))
      as (gw & Ew & Ggw & _ & Sgw & Vw); auto; try (intros; now apply val_good).
  exists gx, gw. split.
  { unfold vjp_conv_transpose. rewrite Ex. cbn [bind]. fold (tshape x). fold (tshape w). rewrite Sx, Sw.
    cbn [nth skipn]. rewrite Ew. reflexivity. }
  split; [congruence|]. split; [congruence|].
  assert (FW : forall x' w', good x' -> dense x' -> tshape x' = B :: C :: isp -> good w' -> dense w' -> tshape w' = C :: C :: ker ->
    exists y, t_conv_transpose 0 Rplus Rmult nd x' w' s p 0 d = Ok y /\ tshape y = tshape g /\
      forall b oc o, valid (B :: C :: osp) (b :: oc :: o) -> elem y (b :: oc :: o) =
        Some (fold_left Rplus (conv_t_terms Rmult s p d (val x') (val w') (fun ic oc k => ic :: oc :: k) C ker isp b oc o) 0)).
  { intros x' w' Gx' Dx' Sx' Gw' Dw' Sw'.
    destruct (t_conv_transpose_spec 0 Rplus Rmult nd x' w' s p d B C C isp ker (val x') (val w'))
      as (y & osp' & Ey & Gy & _ & Sy & Oy & Vy); auto; try (intros; now apply val_good).
    { intros i V. rewrite <- Sw' in V |- *. rewrite dense_read by auto. now apply val_good. }
    rewrite (t_out_lens_inj _ _ _ _ _ _ _ _ Oy T) in *. exists y. split; [auto|]. split; [congruence|auto]. }
  split.
  - intros x' Gx' Dx' Sx'. rewrite Sx in Sx'. destruct (FW x' w) as (y & Ey & Sy & Vy); auto.
    exists y. split; [auto|]. split; [auto|].
    unfold pairing. rewrite Sgx, Sg. fold (Sum (all_idx (B :: C :: osp)) (fun i => val g i * val y i)).
    fold (Sum (all_idx (B :: C :: isp)) (fun i => val gx i * val x' i)).
    rewrite !Sum_axis2. apply Sum_ext; intros b Hb. apply in_seq in Hb. symmetry.
    transitivity (Sum (seq 0 C) (fun ic => Sum (all_idx isp) (fun i => Sum (seq 0 C) (fun oc => Sum (all_idx ker) (fun k =>
        Sum (all_idx osp) (fun o => ind (meets s p d i k o) (val x' (b :: ic :: i) * (val g (b :: oc :: o) * val w (ic :: oc :: k))))))))).
    { apply Sum_ext; intros oc Hoc. apply in_seq in Hoc. apply Sum_ext; intros o Ho. apply in_all_idx in Ho.
      rewrite Rmult_comm.
      rewrite (val_some gx _ _ (Vx b oc o ltac:(cbn; repeat split; auto; lia))). rewrite conv_terms_Sum, scale3.
      repeat (apply Sum_ext; intros). apply ind_scale. }
    rewrite order_x. apply Sum_ext; intros ic Hic. apply in_seq in Hic. apply Sum_ext; intros i Hi. apply in_all_idx in Hi.
    rewrite (val_some y _ _ (Vy b ic i ltac:(cbn; repeat split; auto; lia))).
    rewrite conv_t_terms_Sum, scale3. repeat (apply Sum_ext; intros). rewrite ind_scale. f_equal. lra.
  - intros w' Gw' Dw' Sw'. rewrite Sw in Sw'. destruct (FW x w') as (y & Ey & Sy & Vy); auto.
    exists y. split; [auto|]. split; [auto|].
    unfold pairing. rewrite Sgw, Sg. fold (Sum (all_idx (B :: C :: osp)) (fun i => val g i * val y i)).
    fold (Sum (all_idx (C :: C :: ker)) (fun i => val gw i * val w' i)).
    rewrite !Sum_axis2.
    transitivity (Sum (seq 0 B) (fun b => Sum (seq 0 C) (fun ic => Sum (all_idx isp) (fun i => Sum (seq 0 C) (fun oc => Sum (all_idx ker) (fun k =>
        Sum (all_idx osp) (fun o => ind (meets s p d i k o) (val g (b :: oc :: o) * (val x (b :: ic :: i) * val w' (ic :: oc :: k)))))))))).
    { apply Sum_ext; intros b Hb. apply in_seq in Hb.
      transitivity (Sum (seq 0 C) (fun oc => Sum (all_idx osp) (fun o => Sum (seq 0 C) (fun ic => Sum (all_idx isp) (fun i =>
        Sum (all_idx ker) (fun k => ind (meets s p d i k o) (val g (b :: oc :: o) * (val x (b :: ic :: i) * val w' (ic :: oc :: k))))))))).
      { apply Sum_ext; intros oc Hoc. apply in_seq in Hoc. apply Sum_ext; intros o Ho. apply in_all_idx in Ho.
        rewrite (val_some y _ _ (Vy b oc o ltac:(cbn; repeat split; auto; lia))). rewrite conv_t_terms_Sum, scale3.
        repeat (apply Sum_ext; intros). apply ind_scale. }
      rewrite (order_x (seq 0 C) (seq 0 C) (all_idx osp) (all_idx isp) (all_idx ker)
        (fun oc o ic i k => ind (meets s p d i k o) (val g (b :: oc :: o) * (val x (b :: ic :: i) * val w' (ic :: oc :: k))))).
      apply Sum_ext; intros ic _.
      transitivity (Sum (seq 0 C) (fun oc => Sum (all_idx ker) (fun k => Sum (all_idx osp) (fun o => Sum (all_idx isp) (fun i =>
         ind (meets s p d i k o) (val g (b :: oc :: o) * (val x (b :: ic :: i) * val w' (ic :: oc :: k)))))))).
      { apply Sum_swap. }
      rewrite Sum_swap with (l := all_idx isp). apply Sum_ext; intros oc _.
      rewrite Sum_swap with (l := all_idx isp). apply Sum_ext; intros k _. apply Sum_swap. }
    rewrite order_w. apply Sum_ext; intros oc Hoc. apply in_seq in Hoc. apply Sum_ext; intros ic Hic. apply in_seq in Hic.
    apply Sum_ext; intros k Hk. apply in_all_idx in Hk.
    rewrite Rmult_comm. rewrite (val_some gw _ _ (Vw oc ic k ltac:(cbn; repeat split; auto; lia))).
    rewrite gradw_t_terms_Sum, scale3. repeat (apply Sum_ext; intros). rewrite ind_scale. f_equal. lra.
Qed.
