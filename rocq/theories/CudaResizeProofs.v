From Coq Require Import List Arith ZArith Bool Lia.
From Verif Require Import Base IndexSpec LayoutModel ViewSpec LayoutProofs KernelModel KernelProofs TensorModel TensorSpec TensorProofs.
From Verif Require Import EinsumModel CountModel CountProofs ResizeModel ResizeProofs TileSpec LaunchModel LaunchSpec LaunchProofs2 CudaIndexProofs CudaIndexProofs2 CudaResizeModel.
Import ListNotations.
Local Open Scope nat_scope.

Section Same.
Context {F A : Type} (sched : nat -> list nat) (ar : arith F) (kc : contraction F) (to_f : A -> F) (from_f : F -> A).

(** what the coordinates and values need of the contraction *)
Definition coords_agree (tr : rcoord) : Prop :=
  tr = Asymmetric \/ tr = AlignCorners \/ forall x y z, k_mulsub kc x y z = a_sub ar (a_mul ar x y) z.
Definition values_agree (mode : rmode) : Prop :=
  mode = RNearest \/ (mode = RLinear /\ forall f x y, k_mix kc f x y = mix ar f x y) \/
  (mode = RCubic /\ forall a b c d t, k_cubic kc a b c d t = cubic_interp ar a b c d t).

Lemma transform_same : forall tr o n m, coords_agree tr -> cuda_transform ar kc o n m (coord_val tr) = transform_coord ar o n m (coord_val tr).
Proof.
  intros tr o n m H. unfold cuda_transform, transform_coord. destruct (n =? m); [reflexivity|].
  destruct H as [-> | [-> | H]]; [reflexivity|reflexivity|]. destruct tr; cbn [coord_val]; rewrite ?H; reflexivity.
Qed.
Lemma round_same : forall c n near, cuda_round ar c n near = round_nearest ar c n near.
Proof. intros c n near. unfold cuda_round, round_nearest. destruct near as [|[|[|[|]]]]; reflexivity. Qed.
Lemma read_same : forall m input c p, cuda_read m input c p = rz_read (A := A) m input c p.
Proof. intros m input c p. unfold cuda_read, rz_read. f_equal. lia. Qed.
Lemma readf_same : forall m input c p, cuda_readf to_f m input c p = rz_readf to_f m input c p.
Proof. intros m input c p. unfold cuda_readf, rz_readf. now rewrite read_same. Qed.
Lemma coord_same : forall m c d tr, coords_agree tr -> rz_tr m = coord_val tr -> cuda_coord ar kc m c d = rz_coord ar m c d.
Proof. intros m c d tr H T. unfold cuda_coord, rz_coord. rewrite T. now apply transform_same. Qed.
Lemma nearest_same : forall m input c tr, coords_agree tr -> rz_tr m = coord_val tr -> cuda_nearest ar kc m input c = rz_nearest (A := A) ar m input c.
Proof.
  intros m input c tr H T. unfold cuda_nearest, rz_nearest. rewrite read_same. f_equal. apply map_ext. intro s.
  now rewrite round_same, (coord_same m c _ tr H T).
Qed.

Lemma at_same : forall m input c mode tr, coords_agree tr -> values_agree mode -> rz_tr m = coord_val tr -> rz_mode m = mode_val mode ->
  cuda_resize_at ar kc to_f from_f m input c =
  (let ns := length (rz_in m) - 2 in
   if rz_mode m =? 0 then rz_nearest ar m input c
   else if (rz_mode m =? 1) && (ns =? 2) then rz_bilinear ar to_f from_f m input c
   else if (rz_mode m =? 1) && (ns =? 3) then rz_trilinear ar to_f from_f m input c
   else if (rz_mode m =? 2) && (ns =? 2) then rz_bicubic ar to_f from_f m input c
   else rz_nearest ar m input c).
Proof.
  intros m input c mode tr H V T M. unfold cuda_resize_at. cbv zeta. rewrite !(nearest_same m input c tr H T), !M.
  pose proof (fun d => coord_same m c d tr H T) as CS.
  destruct V as [-> | [[-> K] | [-> K]]]; cbn [mode_val Nat.eqb andb]; [reflexivity|..].
  - destruct (_ =? 2).
    + unfold cuda_bilinear, rz_bilinear. rewrite !CS. cbv zeta. change cuda_clamp with clamp_idx. rewrite !readf_same.
      repeat (destruct (rz_readf _ _ _ _ _); cbn [obind]; [|reflexivity]). now rewrite !K.
    + destruct (_ =? 3); [|reflexivity].
      unfold cuda_trilinear, rz_trilinear. rewrite !CS. cbv zeta. change cuda_clamp with clamp_idx. rewrite !readf_same.
      repeat (destruct (rz_readf _ _ _ _ _); cbn [obind]; [|reflexivity]). now rewrite !K.
  - destruct (_ =? 2); [|reflexivity].
    unfold cuda_bicubic, rz_bicubic. rewrite !CS. cbv zeta. change cuda_clamp with clamp_idx. rewrite !readf_same.
    repeat (destruct (rz_readf _ _ _ _ _); cbn [obind]; [|reflexivity]). now rewrite !K.
Qed.

Lemma t_resize_err : forall dflt (t : tensor A) size mode tr near e,
  t_resize ar to_f from_f dflt t size mode tr near = Err e <-> cuda_t_resize sched ar kc to_f from_f t size mode tr near = Err e.
Proof.
  intros dflt t size mode tr near e. unfold t_resize, cuda_t_resize. cbv zeta.
  destruct (negb _ && negb _); [split; intro X; inversion X; reflexivity|].
  destruct (negb _); [split; intro X; inversion X; reflexivity|].
  destruct (resize_kernel _ _ _ _ _ _), (cuda_resize _ _ _ _ _ _ _ _); cbn [ub bind]; split; discriminate.
Qed.

Hypothesis EN : ending sched.

Lemma t_resize_same : forall dflt (t : tensor A) size mode tr near r, good t -> coords_agree tr -> values_agree mode ->
  (Z.of_nat (nelem (tshape r)) <= 2 ^ 32 - 256)%Z ->
  t_resize ar to_f from_f dflt t size mode tr near = Ok r ->
  cuda_t_resize sched ar kc to_f from_f t size mode tr near = Ok r.
Proof.
  intros dflt t size mode tr near r G H V N E. unfold t_resize in E. unfold cuda_t_resize. cbv zeta in *.
  destruct (negb _ && negb _) eqn:R in E |- *; [discriminate|].
  destruct (Nat.eqb_spec (length size) (length (lshape (tlay t)) - 2)) as [L|]; [|discriminate]. cbn [negb] in *.
  set (out := _ :: _ :: size) in *.
  assert (Lo : length out = length (lshape (tlay t))).
  { cbn [out length]. destruct (Nat.eqb_spec (length (lshape (tlay t))) 4), (Nat.eqb_spec (length (lshape (tlay t))) 5); try discriminate R; lia. }
  assert (L8 : (8 <? length out) = false).
  { apply Nat.ltb_ge. rewrite Lo. destruct (Nat.eqb_spec (length (lshape (tlay t))) 4), (Nat.eqb_spec (length (lshape (tlay t))) 5); try discriminate R; lia. }
  destruct (resize_kernel _ _ _ _ _ _) as [st|] eqn:K; [|discriminate]. cbn [ub bind] in E. injection E as <-. change (tshape _) with out in N.
  unfold resize_kernel in K. unfold cuda_resize. rewrite read_resize_eq in * by (try apply G; exact Lo). cbn [obind rz_out rz_els] in *.
  rewrite L8. erewrite elementwise_same; [reflexivity|exact EN|exact N| | |exact K|]; [apply repeat_length|apply repeat_length|].
  intros i v I Q. cbn beta in Q |- *. destruct (c_coords _ i []) as [c|]; [|discriminate]. cbn [obind] in *.
  rewrite (at_same _ _ _ mode tr H V) by reflexivity. exact Q.
Qed.

(** ** Any contraction: no read outside the input *)
Lemma clamp_valid : forall i n, 0 < n -> cuda_clamp i n < n.
Proof. intros i n P. change (clamp_idx i n < n). now apply clamp_lt. Qed.
Lemma at_total : forall (t : tensor A) B C isp osp mode tr near els b c o, good t -> tshape t = B :: C :: isp ->
  Forall (fun n => 0 < n) isp -> b < B -> c < C -> length isp = 2 \/ length isp = 3 ->
  cuda_resize_at ar kc to_f from_f (mkRz els (lshape (tlay t)) (lstrides (tlay t)) (loffset (tlay t)) (B :: C :: osp) mode tr near)
    (tstore t) (b :: c :: o) <> None.
Proof.
  intros t B C isp osp mode tr near els b c o G St Pos Hb Hc R.
  set (m := mkRz _ _ _ _ _ _ _ _).
  assert (Hn : forall p, valid isp p -> exists x, cuda_read m (tstore t) (b :: c :: o) p = Some x).
  { intros p V. assert (Vi : valid (tshape t) (b :: c :: p)) by (rewrite St; cbn; auto).
    pose proof (proj2 G _ Vi) as LT. pose proof (proj1 G) as W. unfold wf_layout in W. fold (tshape t) in W. rewrite St in W.
    unfold addr in LT. unfold m, cuda_read. cbn [rz_off rz_strides nth].
    destruct (lstrides (tlay t)) as [|s0 [|s1 sr]]; cbn in W; try lia. cbn [nth skipn dot] in *.
    match goal with |- exists x, nth_error _ ?k = _ => destruct (nth_error (tstore t) k) as [x|] eqn:E end; [now exists x|].
    apply nth_error_None in E. lia. }
  assert (Hf : forall p, valid isp p -> exists x, cuda_readf to_f m (tstore t) (b :: c :: o) p = Some x).
  { intros p V. destruct (Hn p V) as [x E]. exists (to_f x). unfold cuda_readf. now rewrite E. }
  assert (I : rz_in m = B :: C :: isp) by exact St. clearbody m.
  assert (NN : cuda_nearest ar kc m (tstore t) (b :: c :: o) <> None).
  { unfold cuda_nearest. destruct (Hn (map (fun s => cuda_round ar (cuda_coord ar kc m (b :: c :: o) (2 + s)) (nth (2 + s) (rz_in m) 0) (rz_near m)) (seq 0 (length (rz_in m) - 2)))) as [x E].
    - rewrite I. cbn [length Nat.sub]. rewrite Nat.sub_0_r.
      destruct isp as [|n1 [|n2 [|n3 [|]]]]; cbn [length] in R; try lia; cbn [length seq map nth Nat.add valid];
        repeat match goal with H : Forall _ (_ :: _) |- _ => inversion H; subst; clear H end;
        repeat split; apply clamp_valid; assumption.
    - rewrite E. discriminate. }
  unfold cuda_resize_at. cbv zeta. destruct (rz_mode m =? 0); [exact NN|]. rewrite I in *. cbn [length Nat.sub].
  destruct isp as [|n1 [|n2 [|n3 [|]]]]; cbn [length] in R; try lia; cbn [length Nat.sub Nat.eqb]; rewrite ?andb_true_r, ?andb_false_r;
    repeat match goal with H : Forall _ (_ :: _) |- _ => inversion H; subst; clear H end.
  - assert (HR2 : forall i j, exists x, cuda_readf to_f m (tstore t) (b :: c :: o) [cuda_clamp i n1; cuda_clamp j n2] = Some x).
    { intros i j. apply Hf. cbn [valid]. repeat split; apply clamp_valid; assumption. }
    assert (HB : cuda_bilinear ar kc to_f from_f m (tstore t) (b :: c :: o) <> None).
    { unfold cuda_bilinear. rewrite I. cbv zeta. cbn [nth].
      repeat match goal with |- context [cuda_readf to_f m ?a ?b [cuda_clamp ?i n1; cuda_clamp ?j n2]] => destruct (HR2 i j) as [? ->]; cbn [obind] end. discriminate. }
    assert (HC : cuda_bicubic ar kc to_f from_f m (tstore t) (b :: c :: o) <> None).
    { unfold cuda_bicubic. rewrite I. cbv zeta. cbn [nth].
      repeat match goal with |- context [cuda_readf to_f m ?a ?b [cuda_clamp ?i n1; cuda_clamp ?j n2]] => destruct (HR2 i j) as [? ->]; cbn [obind] end. discriminate. }
    destruct (rz_mode m =? 1); [exact HB|]. destruct (rz_mode m =? 2); [exact HC|exact NN].
  - assert (HR3 : forall i j k, exists x, cuda_readf to_f m (tstore t) (b :: c :: o) [cuda_clamp i n1; cuda_clamp j n2; cuda_clamp k n3] = Some x).
    { intros i j k. apply Hf. cbn [valid]. repeat split; apply clamp_valid; assumption. }
    assert (HB : cuda_trilinear ar kc to_f from_f m (tstore t) (b :: c :: o) <> None).
    { unfold cuda_trilinear. rewrite I. cbv zeta. cbn [nth].
      repeat match goal with |- context [cuda_readf to_f m ?a ?b [cuda_clamp ?i n1; cuda_clamp ?j n2; cuda_clamp ?k n3]] => destruct (HR3 i j k) as [? ->]; cbn [obind] end. discriminate. }
    destruct (rz_mode m =? 1); [exact HB|exact NN].
Qed.

Lemma t_resize_total : forall (t : tensor A) size mode tr near B C isp,
  good t -> tshape t = B :: C :: isp -> length isp = 2 \/ length isp = 3 -> length size = length isp ->
  Forall (fun n => 0 < n) isp -> (Z.of_nat (nelem (B :: C :: size)) <= 2 ^ 32 - 256)%Z ->
  exists r, cuda_t_resize sched ar kc to_f from_f t size mode tr near = Ok r /\ good r /\ tshape r = B :: C :: size.
Proof.
  intros t size mode tr near B C isp G St R L Pos N. set (out := B :: C :: size) in *.
  assert (E : exists st, cuda_resize sched ar kc to_f from_f (tstore t) (repeat None (nelem out))
            (resize_metadata (tlay t) out (mode_val mode) (coord_val tr) (near_val near)) = Some st /\ length st = nelem out).
  { unfold cuda_resize. rewrite read_resize_eq; [|apply G|fold (tshape t); rewrite St; cbn; lia]. cbn [obind rz_els rz_out].
    replace (8 <? length out) with false by (symmetry; apply Nat.ltb_ge; cbn [out length]; lia).
    match goal with |- exists st, elementwise _ _ ?b _ = _ /\ _ => destruct (elementwise_total A sched (nelem out) b (repeat None (nelem out)) EN N (repeat_length _ _)) as (r & E & Lr & _) end.
    - intros i I. cbn beta. rewrite c_coords_spec by auto. cbn [obind].
      pose proof (unravel_valid out i I) as V. destruct (unravel out i) as [|b [|c o]]; [destruct V|destruct V as [_ []]|].
      destruct V as (V1 & V2 & V3). apply (at_total t B C isp); auto.
    - exists r. auto. }
  destruct E as (st & E & Ls). exists (mkT st (from_shape out)). split; [|split; [now apply from_shape_good|reflexivity]].
  unfold cuda_t_resize. fold (tshape t). rewrite St. cbn [length nth].
  replace (negb (S (S (length isp)) =? 4) && negb (S (S (length isp)) =? 5)) with false by (destruct R as [-> | ->]; reflexivity).
  cbn [Nat.sub]. rewrite (proj2 (Nat.eqb_eq (length size) (length isp - 0))) by lia. cbn [negb]. fold out. rewrite E. reflexivity.
Qed.

(** The result, from that of the body on every index in turn *)
Lemma t_resize_turns : forall dflt (t : tensor A) size mode tr near st,
  let out := nth 0 (tshape t) 0 :: nth 1 (tshape t) 0 :: size in
  good t -> length (tshape t) = 4 \/ length (tshape t) = 5 -> length size = length (tshape t) - 2 ->
  (Z.of_nat (nelem out) <= 2 ^ 32 - 256)%Z ->
  seq_for (nelem out) (fun idx => let? c := c_coords (rev out) idx [] in
    cuda_resize_at ar kc to_f from_f (mkRz (nelem out) (tshape t) (lstrides (tlay t)) (loffset (tlay t)) out (mode_val mode) (coord_val tr) (near_val near))
      (tstore t) c) (repeat dflt (nelem out)) = Some st ->
  cuda_t_resize sched ar kc to_f from_f t size mode tr near = Ok (mkT st (from_shape out)).
Proof.
  intros dflt t size mode tr near st out G R L N K. unfold cuda_t_resize. fold (tshape t). fold out. cbv zeta.
  replace (negb (length (tshape t) =? 4) && negb (length (tshape t) =? 5)) with false by (destruct R as [-> | ->]; reflexivity).
  rewrite (proj2 (Nat.eqb_eq _ _) L). cbn [negb].
  assert (Lo : length out = length (lshape (tlay t))) by (cbn [out length]; unfold tshape in *; lia).
  unfold cuda_resize. rewrite read_resize_eq by (try apply G; exact Lo). cbn [obind rz_out rz_els].
  replace (8 <? length out) with false by (symmetry; apply Nat.ltb_ge; unfold tshape in *; lia).
  erewrite elementwise_same; [reflexivity|exact EN|exact N| | |exact K|]; [apply repeat_length|apply repeat_length|].
  intros i v _ Q. exact Q.
Qed.
(** An empty spatial axis is read from *)
Lemma t_resize_none : forall (t : tensor A) size mode tr near, tstore t = [] ->
  good t -> length (tshape t) = 4 \/ length (tshape t) = 5 -> length size = length (tshape t) - 2 ->
  0 < nelem (nth 0 (tshape t) 0 :: nth 1 (tshape t) 0 :: size) ->
  (Z.of_nat (nelem (nth 0 (tshape t) 0%nat :: nth 1 (tshape t) 0%nat :: size)) <= 2 ^ 32 - 256)%Z ->
  cuda_t_resize sched ar kc to_f from_f t size mode tr near = Panic.
Proof.
  intros t size mode tr near Et G R L P N. set (out := _ :: _ :: size) in *. unfold cuda_t_resize. fold (tshape t). fold out. cbv zeta.
  replace (negb (length (tshape t) =? 4) && negb (length (tshape t) =? 5)) with false by (destruct R as [-> | ->]; reflexivity).
  rewrite (proj2 (Nat.eqb_eq _ _) L). cbn [negb].
  assert (Lo : length out = length (lshape (tlay t))) by (cbn [out length]; unfold tshape in *; lia).
  unfold cuda_resize. rewrite read_resize_eq by (try apply G; exact Lo). cbn [obind rz_out rz_els].
  replace (8 <? length out) with false by (symmetry; apply Nat.ltb_ge; unfold tshape in *; lia).
  rewrite (elementwise_none A sched (nelem out) _ _ 0 EN N (repeat_length _ _) P); [reflexivity|].
  rewrite c_coords_spec by exact P. cbn [obind]. rewrite Et.
  assert (RN : forall m c p, cuda_read (A := A) m [] c p = None) by (intros m c p; unfold cuda_read; apply nth_error_None; cbn; lia).
  assert (RF : forall m c p, cuda_readf to_f m [] c p = None) by (intros m c p; unfold cuda_readf; now rewrite RN).
  unfold cuda_resize_at, cuda_nearest, cuda_bilinear, cuda_trilinear, cuda_bicubic. cbv zeta. rewrite !RN, !RF. cbn [obind].
  repeat (match goal with |- (if ?b then _ else _) = _ => destruct b end; try reflexivity).
Qed.
End Same.
