(** Proofs about selection operations. *)
From Coq Require Import List Arith ZArith Lia Bool ZifyBool.
From Coq Require Import Floats.SpecFloat.
From Verif Require Import Base IndexSpec LayoutModel ViewSpec LayoutProofs LayoutProofs2 BcastProofs.
From Verif Require Import KernelModel KernelProofs TensorModel TensorSpec TensorProofs ElementwiseProofs.
From Verif Require Import SelectModel.
Import ListNotations.

(** What it takes for the arithmetic formula to select, up to [eqv], on the
    values of interest. *)
Definition mask_laws {A} (o : arith A) (fin : A -> Prop) (eqv : A -> A -> Prop) : Prop :=
  forall u v, fin u -> fin v ->
    eqv (aadd o (amul o (aone o) u) (amul o (asub o (aone o) (aone o)) v)) u /\
    eqv (aadd o (amul o (azero o) u) (amul o (asub o (aone o) (azero o)) v)) v.

Lemma broadcast_strides_self : forall s st, length st = length s ->
  broadcast_strides 0 s s st = Ok st.
Proof.
  induction s as [|d s IH]; intros [|x st] H; simpl in *; try discriminate; auto.
  rewrite Nat.eqb_refl, IH by lia. reflexivity.
Qed.

Lemma broadcast_to_self : forall l, wf_layout l -> broadcast_to l (lshape l) = Ok l.
Proof.
  intros [s st o] H. unfold wf_layout in H. simpl in H. unfold broadcast_to. simpl.
  rewrite Nat.ltb_irrefl, Nat.sub_diag. cbn [repeat app].
  rewrite broadcast_strides_self by auto. reflexivity.
Qed.

(** left operand fresh, right operand of the same shape *)
Lemma t_binary_fresh : forall A C B e (za : A) (zc : C) (z : B) f a b s,
  env_ok e -> good a -> good b -> all_pos s -> tlay a = from_shape s -> tshape b = s ->
  exists t, t_binary e za zc z f a b = Ok t /\ good t /\ tlay t = from_shape s /\
    forall i, valid s i -> exists x y,
      elem a i = Some x /\ elem b i = Some y /\ elem t i = Some (f x y).
Proof.
  intros A C B e za zc z f a b s He Ga Gb Ps Hla Hsb.
  assert (Hsa : tshape a = s) by (unfold tshape; now rewrite Hla).
  destruct (t_binary_storage A C B e za zc z f a b s) as [t [a' [E [S [Ta [L [Ln Hv]]]]]]];
    auto; try congruence.
  { rewrite Hsa, Hsb. apply bcast_idem. }
  assert (La : tlay a' = from_shape s).
  { unfold t_broadcast, t_view, t_contiguous in Ta.
    rewrite Hla, from_shape_contiguous in Ta. cbn [bind apply_view] in Ta.
    rewrite Hla in Ta. change s with (lshape (from_shape s)) in Ta at 2.
    rewrite broadcast_to_self in Ta by apply from_shape_wf. cbn [bind] in Ta.
    injection Ta as <-. reflexivity. }
  exists t. split; auto. split.
  { destruct t as [st l]. cbn in *. rewrite L, La. now apply from_shape_good. }
  split; [congruence|]. intros i Hi. destruct (Hv i Hi) as [x [y [H1 [H2 H3]]]].
  rewrite Hsa, bidx_self in H1 by auto. rewrite Hsb, bidx_self in H2 by auto.
  exists x, y. split; auto. split; auto. unfold elem. rewrite L, La.
  rewrite addr_from_shape by (now apply valid_length). auto.
Qed.

Lemma t_full_spec : forall A s (v : A), good (t_full s v) /\ tlay (t_full s v) = from_shape s /\
  forall i, valid s i -> elem (t_full s v) i = Some v.
Proof.
  intros A s v. split; [apply from_shape_good; apply repeat_length|]. split; [reflexivity|].
  intros i Hi. unfold elem, t_full. cbn [tstore tlay].
  rewrite addr_from_shape by (now apply valid_length).
  apply nth_error_repeat. now apply ravel_lt.
Qed.

Lemma bcast3_good : forall A C D (za : A) (zc : C) (zd : D) a b c a' b' c',
  good a -> good b -> good c ->
  broadcast_tensors3 za zc zd a b c = Ok (a', b', c') ->
  exists s, t_broadcast za a s = Ok a' /\ t_broadcast zc b s = Ok b' /\ t_broadcast zd c s = Ok c' /\
            good a' /\ good b' /\ good c'.
Proof.
  intros A C D za zc zd a b c a' b' c' Ga Gb Gc E. unfold broadcast_tensors3 in E.
  destruct (broadcast_tensors2 za zc a b) as [[a1 b1]| |]; try discriminate.
  cbn [bind fst] in E.
  destruct (broadcast_tensors2 za zd a1 c) as [[a2 c2]| |]; try discriminate.
  cbn [bind fst] in E. exists (lshape (tlay a2)).
  destruct (t_broadcast za a _) as [x| |] eqn:E1; try discriminate.
  destruct (t_broadcast zc b _) as [y| |] eqn:E2; try discriminate.
  destruct (t_broadcast zd c _) as [w| |] eqn:E3; try discriminate.
  cbn [bind] in E. inversion E; subst. split; auto. split; auto. split; auto.
  split; [|split]; eapply (t_view_spec _ _ (VBroadcast _)); eauto; exact I.
Qed.

Section Where.
Context {C A : Type} (e : env) (o : arith A) (zc : C) (truth : C -> bool)
  (fin : A -> Prop) (eqv : A -> A -> Prop).
Hypothesis He : env_ok e.
Hypothesis Hlaws : mask_laws o fin eqv.

(** the shape the three operands broadcast to *)
Lemma where3_spec : forall (cond : tensor C) x y cx r,
  good cond -> good x -> good y ->
  all_pos (tshape cond) -> all_pos (tshape x) -> all_pos (tshape y) ->
  bcast (tshape cond) (tshape x) cx -> bcast cx (tshape y) r ->
  (r <> [] \/ loffset (tlay cond) = 0) ->
  (forall i v, elem x i = Some v -> fin v) -> (forall i v, elem y i = Some v -> fin v) ->
  exists t, t_where3 e o zc (fun c => bconv o (truth c)) x cond y = Ok t /\
    good t /\ tlay t = from_shape r /\
    forall i, valid r i -> exists c vx vy w,
      elem cond (bidx (tshape cond) i) = Some c /\
      elem x (bidx (tshape x) i) = Some vx /\ elem y (bidx (tshape y) i) = Some vy /\
      elem t i = Some w /\ eqv w (if truth c then vx else vy).
Proof.
  intros cond x y cx r Gc Gx Gy Pc Px Py B1 B2 Ho Fx Fy.
  destruct (proj1 (bcast_tensors3_thm C A A zc (azero o) (azero o) cond x y Gc Gx Gy Pc Px Py r)
              (ex_intro _ cx (conj B1 B2))) as [c' [x' [y' [E [Sc [Sx [Sy Hv]]]]]]].
  destruct (bcast3_good _ _ _ _ _ _ _ _ _ _ _ _ Gc Gx Gy E) as [s0 [T1 [_ [_ [Gc' [Gx' Gy']]]]]].
  assert (Pr : all_pos r) by (eapply bcast_all_pos; [exact B2| |auto]; eapply bcast_all_pos; eauto).
  unfold t_where3. rewrite E. cbn [bind].
  assert (Oc : offset_read (tlay c')).
  { destruct Ho as [Ho|Ho].
    - left. unfold tshape in Sc. congruence.
    - destruct r as [|d r]; [right|left; unfold tshape in Sc; congruence].
      assert (Es : tshape cond = []).
      { destruct B2 as [L2 _]. destruct B1 as [L1 _]. cbn [length] in L2.
        apply length_zero_iff_nil. lia. }
      assert (Hcc : is_contiguous (tlay cond) = true).
      { destruct (is_contiguous (tlay cond)) eqn:Ec; auto.
        apply noncontig_rank in Ec; [|apply Gc]. unfold tshape in Es. congruence. }
      assert (Hcc' : t_contiguous zc cond = Ok cond) by (unfold t_contiguous; now rewrite Hcc).
      assert (Sc2 : s0 = []).
      { destruct (t_broadcast_addr _ zc cond cond s0 c' Gc Hcc' T1) as [R _]. congruence. }
      subst s0. unfold t_broadcast, t_view, t_contiguous in T1. rewrite Hcc in T1.
      cbn [bind apply_view] in T1. unfold tshape in Es. rewrite <- Es in T1.
      rewrite broadcast_to_self in T1 by apply Gc. cbn [bind] in T1. injection T1 as <-. exact Ho. }
  destruct (t_unary_spec C A e (azero o) (fun c => bconv o (truth c)) c' He Gc' Oc)
    as [mask [Em [Gm [Sm [Lm [_ Hm]]]]]].
  change (t_cast e (azero o) (fun c => bconv o (truth c)) c')
    with (t_unary e (azero o) (fun c => bconv o (truth c)) c').
  rewrite Em. cbn [bind]. rewrite Sc in *.
  replace (lshape (tlay mask)) with r by (now rewrite Lm).
  destruct (t_full_spec A r (aone o)) as [G1 [L1 H1]].
  destruct (t_binary_fresh A A A e (azero o) (azero o) (azero o) (asub o) (t_full r (aone o)) mask r)
    as [inv [Ei [Gi [Li Hi]]]]; auto.
  rewrite Ei. cbn [bind].
  destruct (t_binary_fresh A A A e (azero o) (azero o) (azero o) (amul o) mask x' r)
    as [xp [Exp [Gxp [Lxp Hxp]]]]; auto.
  rewrite Exp. cbn [bind].
  destruct (t_binary_fresh A A A e (azero o) (azero o) (azero o) (amul o) inv y' r)
    as [yp [Eyp [Gyp [Lyp Hyp]]]]; auto.
  rewrite Eyp. cbn [bind].
  destruct (t_binary_fresh A A A e (azero o) (azero o) (azero o) (aadd o) xp yp r)
    as [t [Et [Gt [Lt Ht]]]]; auto.
  { unfold tshape. now rewrite Lyp. }
  exists t. split; auto. split; auto. split; auto.
  intros i Vi. destruct (Hv i Vi) as [V1 [V2 V3]].
  destruct (Ht i Vi) as [p [q [P1 [P2 P3]]]].
  destruct (Hxp i Vi) as [m1 [vx [X1 [X2 X3]]]].
  destruct (Hyp i Vi) as [m2 [vy [Y1 [Y2 Y3]]]].
  destruct (Hi i Vi) as [w [m3 [I1 [I2 I3]]]].
  rewrite H1 in I1 by auto. injection I1 as <-.
  rewrite Hm in X1 by auto. destruct (elem c' i) as [c|] eqn:Ec'; [|discriminate].
  cbn in X1. injection X1 as <-.
  rewrite Hm in I2 by auto. rewrite Ec' in I2. cbn in I2. injection I2 as <-.
  rewrite I3 in Y1. injection Y1 as <-.
  rewrite X3 in P1. injection P1 as <-. rewrite Y3 in P2. injection P2 as <-.
  assert (Fvx : fin vx) by (eapply Fx; rewrite <- V2; eauto).
  assert (Fvy : fin vy) by (eapply Fy; rewrite <- V3; eauto).
  destruct (Hlaws vx vy Fvx Fvy) as [Q1 Q2].
  eexists c, vx, vy, _. split; [congruence|]. split; [congruence|]. split; [congruence|].
  split; [exact P3|]. unfold bconv. destruct (truth c); assumption.
Qed.
End Where.

Lemma Zmask_laws : mask_laws Zarith (fun _ => True) eq.
Proof. intros u v _ _. unfold Zarith; cbn -[Z.mul Z.add]. lia. Qed.

(** condition, self and the constant all of self's shape *)
Lemma where3_same : forall e (cond : tensor bool) (x : tensor Z) v s,
  env_ok e -> good cond -> good x -> all_pos s -> tshape cond = s -> tshape x = s ->
  (s <> [] \/ loffset (tlay cond) = 0) ->
  exists t, t_where3 e Zarith false (bconv Zarith) x cond (t_full s v) = Ok t /\
    good t /\ tlay t = from_shape s /\
    forall i, valid s i -> exists c w, elem cond i = Some c /\ elem x i = Some w /\
      elem t i = Some (if c then w else v).
Proof.
  intros e cond x v s He Gc Gx Ps Sc Sx Ho.
  destruct (t_full_spec Z s v) as [Gf [Lf Hf]].
  destruct (where3_spec e Zarith false (fun b => b) (fun _ => True) eq He Zmask_laws
              cond x (t_full s v) s s) as [t [E [G [L H]]]]; auto; try congruence.
  - rewrite Sc, Sx. apply bcast_idem.
  - apply bcast_idem.
  - exists t. split; [exact E|]. split; auto. split; auto. intros i Hi.
    destruct (H i Hi) as [c [vx [vy [w [E1 [E2 [E3 [E4 E5]]]]]]]]. subst w.
    rewrite Sc, bidx_self in E1 by auto. rewrite Sx, bidx_self in E2 by auto.
    change (tshape (t_full s v)) with s in E3. rewrite bidx_self in E3 by auto.
    rewrite Hf in E3 by auto. injection E3 as <-. eauto.
Qed.

Lemma clamp_min_actual : forall e (x : tensor Z) lo, env_ok e -> good x -> all_pos (tshape x) ->
  offset_read (tlay x) ->
  exists t, t_clamp_min e Zarith Z.ltb x lo = Ok t /\ good t /\ tlay t = from_shape (tshape x) /\
    forall i, valid (tshape x) i -> exists v, elem x i = Some v /\ elem t i = Some (Z.min v lo).
Proof.
  intros e x lo He Gx Px Ho. unfold t_clamp_min.
  destruct (t_unary_spec Z bool e false (fun v => (v <? lo)%Z) x He Gx Ho)
    as [c [Ec [Gc [Sc [Lc [_ Hc]]]]]].
  rewrite Ec. cbn [bind]. fold (tshape x).
  destruct (where3_same e c x lo (tshape x)) as [t [E [G [L H]]]]; auto.
  { right. now rewrite Lc. }
  exists t. split; auto. split; auto. split; auto. intros i Hi.
  destruct (H i Hi) as [b [w [E1 [E2 E3]]]]. exists w. split; auto. rewrite E3.
  rewrite Hc, E2 in E1 by auto. cbn in E1. injection E1 as <-. f_equal.
  destruct (Z.ltb_spec w lo); lia.
Qed.

Lemma clamp_max_actual : forall e (x : tensor Z) hi, env_ok e -> good x -> all_pos (tshape x) ->
  offset_read (tlay x) ->
  exists t, t_clamp_max e Zarith Z.ltb x hi = Ok t /\ good t /\ tlay t = from_shape (tshape x) /\
    forall i, valid (tshape x) i -> exists v, elem x i = Some v /\ elem t i = Some (Z.max v hi).
Proof.
  intros e x hi He Gx Px Ho. unfold t_clamp_max.
  destruct (t_unary_spec Z bool e false (fun v => (hi <? v)%Z) x He Gx Ho)
    as [c [Ec [Gc [Sc [Lc [_ Hc]]]]]].
  rewrite Ec. cbn [bind]. fold (tshape x).
  destruct (where3_same e c x hi (tshape x)) as [t [E [G [L H]]]]; auto.
  { right. now rewrite Lc. }
  exists t. split; auto. split; auto. split; auto. intros i Hi.
  destruct (H i Hi) as [b [w [E1 [E2 E3]]]]. exists w. split; auto. rewrite E3.
  rewrite Hc, E2 in E1 by auto. cbn in E1. injection E1 as <-. f_equal.
  destruct (Z.ltb_spec hi w); lia.
Qed.

Lemma clamp_actual : forall e (x : tensor Z) lo hi, env_ok e -> good x -> all_pos (tshape x) ->
  offset_read (tlay x) -> (lo <= hi)%Z ->
  exists t, t_clamp e Zarith Z.ltb x lo hi = Ok t /\ tshape t = tshape x /\
    forall i, valid (tshape x) i -> elem t i = Some hi.
Proof.
  intros e x lo hi He Gx Px Ho Hlh. unfold t_clamp.
  destruct (clamp_min_actual e x lo He Gx Px Ho) as [c [Ec [Gc [Lc Hc]]]].
  rewrite Ec. cbn [bind].
  assert (Sc : tshape c = tshape x) by (unfold tshape at 1; now rewrite Lc).
  destruct (clamp_max_actual e c hi) as [t [Et [Gt [Lt Ht]]]]; auto; try congruence.
  { right. now rewrite Lc. }
  exists t. split; auto. split; [unfold tshape at 1; rewrite Lt; exact Sc|].
  intros i Hi. destruct (Hc i Hi) as [v [_ E1]].
  rewrite Sc in Ht. destruct (Ht i Hi) as [w [E2 E3]]. rewrite E1 in E2.
  injection E2 as <-. rewrite E3. f_equal. lia.
Qed.

Lemma masked_fill_actual : forall e (x : tensor Z) (m : tensor bool) v, env_ok e ->
  good x -> good m -> all_pos (tshape x) -> tshape m = tshape x ->
  (tshape x <> [] \/ loffset (tlay m) = 0) ->
  exists t, t_masked_fill e Zarith x m v = Ok t /\ tshape t = tshape x /\
    forall i, valid (tshape x) i -> exists c w, elem m i = Some c /\ elem x i = Some w /\
      elem t i = Some (if c then w else v).
Proof.
  intros e x m v He Gx Gm Px Sm Ho. unfold t_masked_fill. fold (tshape x).
  destruct (where3_same e m x v (tshape x)) as [t [E [G [L H]]]]; auto.
  exists t. split; auto. split; [unfold tshape at 1; now rewrite L|]. auto.
Qed.

(** ** IEEE 754 binary32 and binary64 *)

Definition Farith (prec emax : Z) : arith spec_float :=
  mkArith (S754_zero false) (S754_finite false (Z.to_pos (2 ^ (prec - 1))) (1 - prec))
    (SFadd prec emax) (SFsub prec emax) (SFmul prec emax).
Definition F32 := Farith 24 128.
Definition F64 := Farith 53 1024.

Definition is_finite_SF (x : spec_float) : bool :=
  match x with S754_zero _ | S754_finite _ _ _ => true | _ => false end.
(** a number of the format, neither infinite nor NaN *)
Definition finite_float (prec emax : Z) (x : spec_float) : Prop :=
  valid_binary prec emax x = true /\ is_finite_SF x = true.
(** equal, or both a zero (of either sign) *)
Definition same_number (x y : spec_float) : Prop :=
  x = y \/ exists s1 s2, x = S754_zero s1 /\ y = S754_zero s2.

Lemma shr_none : forall prec emax m e, (fexp prec emax (Zdigits2 m + e) = e) ->
  shr_fexp prec emax m e loc_Exact = (shr_record_of_loc m loc_Exact, e).
Proof. intros prec emax m e H. unfold shr_fexp. rewrite H, Z.sub_diag. reflexivity. Qed.

Lemma canonical_fexp : forall prec emax m e, bounded prec emax m e = true ->
  fexp prec emax (Zdigits2 (Zpos m) + e) = e /\ (e <= emax - prec)%Z.
Proof.
  intros prec emax m e H. unfold bounded, canonical_mantissa in H.
  apply andb_true_iff in H. destruct H as [H1 H2]. apply Zeq_bool_eq in H1. cbn [Zdigits2]. lia.
Qed.

Lemma F32_mul_one : forall s m e, bounded 24 128 m e = true ->
  SFmul 24 128 (aone F32) (S754_finite s m e) = S754_finite s m e.
Proof.
  intros s m e H. destruct (canonical_fexp _ _ _ _ H) as [H1 H2].
  unfold F32, Farith, aone, SFmul. rewrite Bool.xorb_false_l.
  change (Z.to_pos (2 ^ (24 - 1))) with 8388608%positive.
  unfold binary_round_aux.
  assert (E : shr_fexp 24 128 (Zpos (8388608 * m)) (1 - 24 + e) loc_Exact
              = (shr_record_of_loc (Zpos m) loc_Exact, e)).
  { unfold shr_fexp.
    replace (Zdigits2 (Zpos (8388608 * m)) + (1 - 24 + e))%Z with (Zdigits2 (Zpos m) + e)%Z.
    2:{ cbn [Pos.mul Zdigits2 digits2_pos]. lia. }
    rewrite H1. replace (e - (1 - 24 + e))%Z with 23%Z by lia.
    unfold shr. replace (1 - 24 + e + 23)%Z with e by lia. reflexivity. }
  rewrite E. cbn [shr_record_of_loc shr_m loc_of_shr_record round_nearest_even].
  rewrite shr_none by exact H1. cbn [shr_record_of_loc shr_m].
  replace (e <=? 128 - 24)%Z with true by lia. reflexivity.
Qed.

Lemma F64_mul_one : forall s m e, bounded 53 1024 m e = true ->
  SFmul 53 1024 (aone F64) (S754_finite s m e) = S754_finite s m e.
Proof.
  intros s m e H. destruct (canonical_fexp _ _ _ _ H) as [H1 H2].
  unfold F64, Farith, aone, SFmul. rewrite Bool.xorb_false_l.
  change (Z.to_pos (2 ^ (53 - 1))) with 4503599627370496%positive.
  unfold binary_round_aux.
  assert (E : shr_fexp 53 1024 (Zpos (4503599627370496 * m)) (1 - 53 + e) loc_Exact
              = (shr_record_of_loc (Zpos m) loc_Exact, e)).
  { unfold shr_fexp.
    replace (Zdigits2 (Zpos (4503599627370496 * m)) + (1 - 53 + e))%Z with (Zdigits2 (Zpos m) + e)%Z.
    2:{ cbn [Pos.mul Zdigits2 digits2_pos]. lia. }
    rewrite H1. replace (e - (1 - 53 + e))%Z with 52%Z by lia.
    unfold shr. replace (1 - 53 + e + 52)%Z with e by lia. reflexivity. }
  rewrite E. cbn [shr_record_of_loc shr_m loc_of_shr_record round_nearest_even].
  rewrite shr_none by exact H1. cbn [shr_record_of_loc shr_m].
  replace (e <=? 1024 - 53)%Z with true by lia. reflexivity.
Qed.

Lemma F32_laws : mask_laws F32 (finite_float 24 128) same_number.
Proof.
  intros u v [Vu Fu] [Vv Fv].
  replace (asub F32 (aone F32) (aone F32)) with (azero F32) by (vm_compute; reflexivity).
  replace (asub F32 (aone F32) (azero F32)) with (aone F32) by (vm_compute; reflexivity).
  change (aadd F32) with (SFadd 24 128). change (amul F32) with (SFmul 24 128).
  destruct u as [su| | |su mu eu]; try discriminate;
  destruct v as [sv| | |sv mv ev]; try discriminate;
  rewrite ?F32_mul_one by assumption; cbn;
  repeat match goal with |- context [Bool.eqb ?a ?b] => destruct (Bool.eqb a b)
         | |- context [if ?b then _ else _] => destruct b end;
  split; solve [left; reflexivity | right; eauto].
Qed.

Lemma F64_laws : mask_laws F64 (finite_float 53 1024) same_number.
Proof.
  intros u v [Vu Fu] [Vv Fv].
  replace (asub F64 (aone F64) (aone F64)) with (azero F64) by (vm_compute; reflexivity).
  replace (asub F64 (aone F64) (azero F64)) with (aone F64) by (vm_compute; reflexivity).
  change (aadd F64) with (SFadd 53 1024). change (amul F64) with (SFmul 53 1024).
  destruct u as [su| | |su mu eu]; try discriminate;
  destruct v as [sv| | |sv mv ev]; try discriminate;
  rewrite ?F64_mul_one by assumption; cbn;
  repeat match goal with |- context [Bool.eqb ?a ?b] => destruct (Bool.eqb a b)
         | |- context [if ?b then _ else _] => destruct b end;
  split; solve [left; reflexivity | right; eauto].
Qed.
