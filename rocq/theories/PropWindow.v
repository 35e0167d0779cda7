(** Property C34: window reductions. *)
From Coq Require Import List Arith ZArith Lia Bool ZifyBool Sorted.
From Verif Require Import Base IndexSpec LayoutModel ViewSpec.
From Verif Require Import KernelModel TensorModel TensorSpec WindowModel WindowProofs.
Import ListNotations.

(** Every axis of output [o]: [o*stride <= i + pad_before < o*stride + window],
    and [i] inside the input. *)
Definition covers (o strides window : list nat) (padding : list (nat * nat)) (s i : list nat) : Prop :=
  length i = length s /\
  forall k, k < length s -> nth k i 0 < nth k s 0 /\
    nth k o 0 * nth k strides 0 <= nth k i 0 + fst (nth k padding (0, 0))
      < nth k o 0 * nth k strides 0 + nth k window 0.
Lemma covers_in_window : forall s o strides window padding i, length o = length s -> length strides = length s ->
  length window = length s -> length padding = length s ->
  in_window o strides window (map fst padding) s i <-> covers o strides window padding s i.
Proof.
  unfold covers.
  induction s as [|n s IH]; intros [|o0 o] [|t0 st] [|w0 W] [|[p q] pad] i L1 L2 L3 L4; try discriminate.
  - destruct i; cbn; split; intros H; try tauto; [split; auto; intros; lia|destruct H; discriminate].
  - destruct i as [|x i]; cbn [in_window map]; [split; [tauto|intros [X _]; discriminate]|].
    cbn [fst length]. injection L1 as L1. injection L2 as L2. injection L3 as L3. injection L4 as L4.
    rewrite (IH o st W pad i L1 L2 L3 L4). split.
    + intros [H1 [H2 [H3 H4]]]. split; [lia|]. intros [|k] Hk; cbn [nth fst]; [lia|]. apply H4. lia.
    + intros [H1 H2]. assert (H0 := H2 0). cbn [nth fst] in H0.
      split; [lia|]. split; [lia|]. split; [lia|]. intros k Hk. apply (H2 (S k)). lia.
Qed.

(** The parameters accepted: one entry per axis, rank at most 16, window not
    larger than the padded input, stride not zero. *)
Definition window_ok (s window strides : list nat) (padding : list (nat * nat)) : Prop :=
  length window = length s /\ length strides = length s /\ length padding = length s /\ length s <= 16 /\
  forall k, k < length s ->
    nth k window 0 <= nth k s 0 + fst (nth k padding (0, 0)) + snd (nth k padding (0, 0)) /\ 0 < nth k strides 0.
Lemma window_ok_fits : forall s window strides padding, window_ok s window strides padding ->
  window_fits s window strides padding.
Proof.
  intros s W st pad [L1 [L2 [L3 [_ H]]]]. revert W st pad L1 L2 L3 H. unfold window_fits.
  induction s as [|n s IH]; intros [|w W] [|t st] [|[p q] pad] L1 L2 L3 H; try discriminate; [constructor|].
  cbn [combine]. constructor; [assert (X := H 0); cbn in X; lia|]. apply IH; auto.
  intros k Hk. apply (H (S k)). cbn. lia.
Qed.
Lemma out_sizes_nth : forall s window strides padding, length window = length s -> length strides = length s ->
  length padding = length s -> forall k, k < length s ->
  nth k (out_sizes s window strides padding) 0 =
    (nth k s 0 + fst (nth k padding (0, 0)) + snd (nth k padding (0, 0)) - nth k window 0) / nth k strides 0 + 1.
Proof.
  unfold out_sizes.
  induction s as [|n s IH]; intros [|w W] [|t st] [|[p q] pad] L1 L2 L3 [|k] Hk; try discriminate; try (cbn in Hk; lia); auto.
  cbn [combine map nth]. apply IH; auto. cbn in Hk. lia.
Qed.

(** For any reduction [f] from [init] such that accumulating the padding value
    changes no accumulator that can occur ([P]): the output at [o] is [f] folded
    over exactly the elements covered by the window of [o], in row-major order.
    [fin] is the final step (division by the window size for the mean). *)
Theorem C34_window_partial : forall A B C (d0 : A) (init : B) (f : B -> A -> B) (oob : option A) (fin : nat -> B -> C) (P : B -> Prop),
  P init -> (forall b a, P b -> P (f b a)) -> (forall v b, oob = Some v -> P b -> f b v = b) ->
  forall (z : C) (t : tensor A) window strides padding, good t -> window_ok (tshape t) window strides padding ->
  exists r, t_reduce_window init f oob fin z t window strides padding = Ok r /\ good r /\
    length (tshape r) = length (tshape t) /\
    (forall k, k < length (tshape t) -> nth k (tshape r) 0 =
      (nth k (tshape t) 0 + fst (nth k padding (0, 0)) + snd (nth k padding (0, 0)) - nth k window 0)
        / nth k strides 0 + 1) /\
    forall o, valid (tshape r) o -> exists srcs vals,
      StronglySorted lex_lt srcs /\ (forall i, In i srcs <-> covers o strides window padding (tshape t) i) /\
      map (elem t) srcs = map Some vals /\
      elem r o = Some (fin (nelem window) (fold_left f vals init)).
Proof.
  intros A B C d0 init f oob fin P P0 Pf Hoob z t window strides padding Hg Hok.
  assert (HF := window_ok_fits _ _ _ _ Hok). destruct Hok as [LW [LT [LP [H16 Hfit]]]].
  set (val := fun i => match elem t i with Some v => v | None => d0 end).
  assert (Hval : forall i, valid (tshape t) i -> elem t i = Some (val i)).
  { intros i Vi. unfold val. destruct (elem t i) eqn:E; auto. exfalso.
    destruct Hg as [_ Hb]. specialize (Hb i Vi). unfold elem in E. apply nth_error_None in E. lia. }
  destruct (t_reduce_window_spec A B C init f oob fin P (fun _ => True) P0 (fun b a _ => Pf b a) Hoob z t window strides padding val
    Hg LW LT LP H16 HF Hval (fun _ _ => I)) as [r [E1 [E2 [E3 E4]]]].
  exists r. split; auto. split; auto. assert (ES : tshape r = out_sizes (tshape t) window strides padding).
  { unfold tshape. now rewrite E3. }
  destruct (window_dims_ok _ _ _ _ LW LT LP HF) as [_ L].
  rewrite ES. split; auto. split; [intros; now apply out_sizes_nth|]. rewrite <- ES.
  intros o V. assert (Lo := valid_length _ _ V). rewrite ES in Lo.
  destruct (E4 o V) as [srcs [S1 [S2 S3]]]. exists srcs, (map val srcs). split; auto.
  assert (S4 : forall i, In i srcs <-> covers o strides window padding (tshape t) i).
  { intros i. rewrite S2. apply covers_in_window; congruence. }
  split; auto. split; auto. rewrite map_map. apply map_ext_in. intros i Hi. apply Hval.
  apply S2 in Hi. eapply in_window_valid; eauto.
Qed.
Print Assumptions C34_window_partial.

(** Sum, maximum and minimum of integers.  [lo] and [hi] are the least and
    greatest values of the element type; an empty window gives them back. *)
Theorem C34_sum : forall z (t : tensor Z) window strides padding, good t -> window_ok (tshape t) window strides padding ->
  exists r, window_sum z t window strides padding = Ok r /\
    forall o, valid (tshape r) o -> exists srcs vals,
      NoDup srcs /\ (forall i, In i srcs <-> covers o strides window padding (tshape t) i) /\
      map (elem t) srcs = map Some vals /\ elem r o = Some (fold_right Z.add 0%Z vals).
Proof.
  intros z t window strides padding Hg Hok.
  destruct (C34_window_partial Z Z Z 0%Z 0%Z Z.add (Some 0%Z) (fun _ b => b) (fun _ => True) I
    (fun _ _ _ => I) ltac:(intros v b H _; injection H as <-; lia) z t window strides padding Hg Hok) as [r [E1 [_ [_ [_ E2]]]]].
  exists r. split; [exact E1|]. intros o V. destruct (E2 o V) as [srcs [vals [S1 [S2 [S3 S4]]]]].
  exists srcs, vals. split; [|split; [auto|split; [auto|]]].
  - clear -S1. induction S1 as [|x l S IH F]; constructor; auto. intro H. rewrite Forall_forall in F. specialize (F x H).
    clear -F. induction x as [|a x IH]; cbn in F; [tauto|]. destruct F as [F|[_ F]]; [lia|auto].
  - rewrite S4. f_equal. apply fold_symmetric; intros; lia.
Qed.
Print Assumptions C34_sum.

Theorem C34_max : forall lo z (t : tensor Z) window strides padding, good t -> window_ok (tshape t) window strides padding ->
  (forall i v, valid (tshape t) i -> elem t i = Some v -> (lo <= v)%Z) ->
  exists r, window_max lo z t window strides padding = Ok r /\
    forall o, valid (tshape r) o -> exists m, elem r o = Some m /\
      (forall i v, covers o strides window padding (tshape t) i -> elem t i = Some v -> (v <= m)%Z) /\
      ((exists i, covers o strides window padding (tshape t) i /\ elem t i = Some m) \/
       m = lo /\ forall i, ~ covers o strides window padding (tshape t) i).
Proof.
  intros lo z t window strides padding Hg Hok Hlo.
  destruct (C34_window_partial Z Z Z 0%Z lo (fun acc v => if (acc >? v)%Z then acc else v) (Some lo) (fun _ b => b)
    (fun b => (lo <= b)%Z) (Z.le_refl lo) ltac:(intros b a H; cbv beta in *; destruct (b >? a)%Z eqn:E; lia)
    ltac:(intros v b H H'; injection H as <-; cbv beta in *; destruct (b >? lo)%Z eqn:E; lia)
    z t window strides padding Hg Hok) as [r [E1 [_ [_ [_ E2]]]]].
  exists r. split; [exact E1|]. intros o V. destruct (E2 o V) as [srcs [vals [S1 [S2 [S3 S4]]]]].
  assert (HC : forall i, In i srcs -> exists v, elem t i = Some v /\ In v vals).
  { intros i Hi. assert (X := in_map (elem t) _ _ Hi). rewrite S3 in X. apply in_map_iff in X.
    destruct X as [v [X1 X2]]. eauto. }
  assert (HD : forall v, In v vals -> exists i, In i srcs /\ elem t i = Some v).
  { intros v Hv. assert (X := in_map Some _ _ Hv). rewrite <- S3 in X. apply in_map_iff in X.
    destruct X as [i [X1 X2]]. eauto. }
  assert (G : forall l acc, let m := fold_left (fun acc v => if (acc >? v)%Z then acc else v) l acc in
    (acc <= m)%Z /\ (forall v, In v l -> (v <= m)%Z) /\ (m = acc \/ In m l)).
  { induction l as [|x l IH]; intros acc; cbn [fold_left]; [cbn; split; [lia|split; [tauto|auto]]|].
    cbv zeta. destruct (IH (if (acc >? x)%Z then acc else x)) as [I1 [I2 I3]].
    set (m := fold_left _ l _) in *. clearbody m. destruct (acc >? x)%Z eqn:E.
    - split; [lia|]. split; [|destruct I3; auto; right; now right].
      intros v [<-|Hv]; [lia|auto].
    - split; [lia|]. split; [|destruct I3; auto; right; [now left|now right]].
      intros v [<-|Hv]; [lia|auto]. }
  destruct (G vals lo) as [G1 [G2 G3]]. eexists. split; [exact S4|]. cbv zeta in *.
  set (m := fold_left _ vals lo) in *. clearbody m. split.
  - intros i v Hi Hv. apply S2 in Hi. destruct (HC i Hi) as [v' [X1 X2]]. assert (v = v') by congruence. subst. auto.
  - destruct G3 as [G3|G3].
    + destruct vals as [|v vals].
      * right. split; auto. intros i Hi. apply S2 in Hi. destruct (HC i Hi) as [v' [_ []]].
      * left. destruct (HD v (or_introl eq_refl)) as [i [X1 X2]]. exists i. apply S2 in X1. split; auto.
        assert (valid (tshape t) i).
        { destruct Hok as [L1 [L2 [L3 _]]]. destruct X1 as [X1 X3]. apply valid_nth. split; auto.
          intros k x d Hx Hd. assert (k < length (tshape t)) by (apply nth_error_Some; congruence).
          destruct (X3 k) as [X4 _]; auto. rewrite (nth_error_nth _ _ 0 Hx), (nth_error_nth _ _ 0 Hd) in X4. exact X4. }
        rewrite X2. f_equal. assert (X4 := Hlo i v H X2). assert (X5 := G2 v (or_introl eq_refl)). lia.
    + left. destruct (HD m G3) as [i [X1 X2]]. exists i. apply S2 in X1. auto.
Qed.
Print Assumptions C34_max.

(** A window larger than the padded input, or a zero stride, panics (debug
    build) instead of answering with an error. *)
Theorem C34_misfit_panics : forall A B C (init : B) (f : B -> A -> B) (oob : option A) (fin : nat -> B -> C) z (t : tensor A)
  window strides padding k, length window = length (tshape t) -> length strides = length (tshape t) ->
  length padding = length (tshape t) -> k < length (tshape t) ->
  nth k (tshape t) 0 + fst (nth k padding (0, 0)) + snd (nth k padding (0, 0)) < nth k window 0 \/ nth k strides 0 = 0 ->
  t_reduce_window init f oob fin z t window strides padding = Panic.
Proof.
  intros A B C init f oob fin z t window strides padding k L1 L2 L3 Hk H. unfold t_reduce_window. fold (tshape t).
  rewrite L1, L2, L3, !Nat.eqb_refl. cbn [negb]. rewrite window_dims_panic; auto.
  unfold window_fits. generalize dependent k. generalize dependent padding. generalize dependent strides.
  generalize dependent window. generalize (tshape t). clear.
  induction l as [|n s IH]; intros [|w W] L1 [|t st] L2 [|[p q] pad] L3 k Hk H F; try discriminate; [cbn in Hk; lia|].
  cbn [combine] in F. apply Forall_cons_iff in F. destruct F as [F1 F2].
  destruct k as [|k]; [cbn in H; lia|]. revert F2. cbn [length] in *. apply (IH W ltac:(lia) st ltac:(lia) pad ltac:(lia) k); auto. lia.
Qed.
Print Assumptions C34_misfit_panics.

(** 3x4 input, window 2x2, stride 1x2, padding (1,0) and (0,1). *)
Definition wt := mkT [1; 2; 3; 4; 5; 6; 7; 8; 9; 10; 11; 12]%Z (from_shape [3; 4]).
Example C34_sum_ex : window_sum 0%Z wt [2; 2] [1; 2] [(1, 0); (0, 1)] =
  Ok (mkT [3; 7; 14; 22; 30; 38]%Z (from_shape [3; 2])).
Proof. reflexivity. Qed.
Example C34_max_ex : window_max (-128)%Z 0%Z wt [2; 2] [1; 2] [(1, 0); (0, 1)] =
  Ok (mkT [2; 4; 6; 8; 10; 12]%Z (from_shape [3; 2])).
Proof. reflexivity. Qed.
Example C34_min_ex : window_min 127%Z 0%Z wt [2; 2] [1; 2] [(1, 0); (0, 1)] =
  Ok (mkT [1; 3; 1; 3; 5; 7]%Z (from_shape [3; 2])).
Proof. reflexivity. Qed.
Example C34_ok_ex : good wt /\ window_ok (tshape wt) [2; 2] [1; 2] [(1, 0); (0, 1)].
Proof.
  split; [apply TensorProofs.from_shape_good; reflexivity|].
  split; [reflexivity|]. split; [reflexivity|]. split; [reflexivity|]. split; [cbn; lia|].
  intros [|[|k]] Hk; cbn in *; lia.
Qed.

(** The mean of bf16 values adds and divides the 16-bit patterns as integers:
    1.0 (0x3F80) and 3.0 (0x4040) average to 0x3FE0 = 1.75, not 0x4000 = 2.0. *)
Theorem C34_mean_bf16_refuted :
  window_mean_bits 16 0%Z (mkT [16256; 16448]%Z (from_shape [2])) [2] [1] [(0, 0)] =
    Ok (mkT [16352]%Z (from_shape [1])) /\ 16352%Z <> 16384%Z.
Proof. split; [reflexivity|lia]. Qed.
Print Assumptions C34_mean_bf16_refuted.
