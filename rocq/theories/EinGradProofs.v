(** Proofs about the gradient rule of einsum. *)
From Coq Require Import List Arith Bool Lia Reals Lra Permutation Sorted.
From Verif Require Import Base IndexSpec LayoutModel ViewSpec KernelModel TensorModel TensorSpec TensorProofs CountProofs EinsumModel EinsumSpec EinsumProofs EinsumProofs2.
From Verif Require Import LayoutProofs MoveProofs3 EinsumProofs3 ConvReal MoveGradProofs EinGradModel.
Import ListNotations.
Open Scope nat_scope.

(* ---------- sums over the values of labels ---------- *)
Definition bound (rho : nat -> nat) (l x : nat) : nat -> nat := fun c => if l =? c then x else rho c.
Definition respects (F : (nat -> nat) -> R) : Prop := forall r r', (forall c, r c = r' c) -> F r = F r'.
Fixpoint SumL (size : nat -> nat) (L : list nat) (F : (nat -> nat) -> R) : R :=
  match L with
  | [] => F (fun _ => 0)
  | l :: L' => Sum (seq 0 (size l)) (fun x => SumL size L' (fun rho => F (bound rho l x)))
  end.
Lemma SumL_ext : forall size L F G, (forall r, F r = G r) -> SumL size L F = SumL size L G.
Proof. induction L as [|l L IH]; intros F G H; cbn [SumL]; auto. apply Sum_ext. intros x _. apply IH. intros r. apply H. Qed.
Lemma respects_bound : forall F l x, respects F -> respects (fun rho => F (bound rho l x)).
Proof. intros F l x H r r' E. apply H. intros c. unfold bound. destruct (l =? c); auto. Qed.
Lemma SumL_valuation : forall size L F, respects F -> Sum (all_idx (map size L)) (fun v => F (valuation L v)) = SumL size L F.
Proof.
  induction L as [|l L IH]; intros F HF; cbn [map].
  - cbn [all_idx]. rewrite Sum_cons, Sum_nil. cbn [SumL]. rewrite Rplus_0_r. now apply HF.
  - rewrite Sum_axis. cbn [SumL]. apply Sum_ext. intros x _. rewrite <- (IH (fun rho => F (bound rho l x))) by now apply respects_bound.
    apply Sum_ext. intros v _. apply HF. intros c. reflexivity.
Qed.
Lemma SumL_perm : forall size L L', Permutation L L' -> NoDup L -> forall F, respects F -> SumL size L F = SumL size L' F.
Proof.
  intros size L L' P. induction P as [|l L L' P IH|a b L|L1 L2 L3 P1 IH1 P2 IH2]; intros N F HF; auto.
  - inversion N; subst. cbn [SumL]. apply Sum_ext. intros x _. apply IH; auto. now apply respects_bound.
  - cbn [SumL]. rewrite Sum_swap. apply Sum_ext. intros x _. apply Sum_ext. intros y _. apply SumL_ext. intros r. apply HF. intros c. unfold bound.
    inversion N as [|? ? N1 N2]; subst. destruct (Nat.eqb_spec a c), (Nat.eqb_spec b c); auto. subst. elim N1. now left.
  - rewrite IH1 by auto. apply IH2; auto. eapply Permutation_NoDup; eauto.
Qed.
Lemma valuation_app : forall a b i j c, length i = length a -> In c a -> valuation (a ++ b) (i ++ j) c = valuation a i c.
Proof.
  induction a as [|x a IH]; intros b [|y i] j c L I; try discriminate; [destruct I|]. cbn [app valuation]. destruct (Nat.eqb_spec x c); auto. apply IH; auto. destruct I; [contradiction|auto].
Qed.
Lemma valuation_self : forall a i, NoDup a -> length i = length a -> map (valuation a i) a = i.
Proof.
  induction a as [|x a IH]; intros [|y i] N L; try discriminate; auto. inversion N as [|? ? N1 N2]; subst. cbn [map valuation]. rewrite Nat.eqb_refl. f_equal.
  transitivity (map (valuation a i) a); [|now apply IH; [|injection L]]. apply map_ext_in. intros c I. destruct (Nat.eqb_spec x c); auto. subst. contradiction.
Qed.
Lemma Sum_app_idx : forall s1 s2 F, Sum (all_idx (s1 ++ s2)) F = Sum (all_idx s1) (fun i => Sum (all_idx s2) (fun j => F (i ++ j))).
Proof.
  induction s1 as [|n s1 IH]; intros s2 F; cbn [app].
  - cbn [all_idx]. rewrite Sum_cons, Sum_nil. cbn [app]. rewrite Rplus_0_r. reflexivity.
  - rewrite !Sum_axis. apply Sum_ext. intros x _. rewrite IH. reflexivity.
Qed.

(* ---------- products of operands ---------- *)
Fixpoint prodv (subs : list (list nat)) (ts : list (tensor R)) (rho : nat -> nat) : R :=
  match subs, ts with
  | s :: subs', t :: ts' => (val t (map rho s) * prodv subs' ts' rho)%R
  | _, _ => 1%R
  end.
Lemma respects_prodv : forall subs ts, respects (prodv subs ts).
Proof. induction subs as [|s subs IH]; intros [|t ts] r r' E; auto. cbn [prodv]. rewrite (IH ts r r' E). do 2 f_equal. now apply map_ext. Qed.
Lemma prodv_app : forall s1 t1 s2 t2 rho, length s1 = length t1 -> prodv (s1 ++ s2) (t1 ++ t2) rho = (prodv s1 t1 rho * prodv s2 t2 rho)%R.
Proof. induction s1 as [|s s1 IH]; intros [|t t1] s2 t2 rho L; try discriminate; cbn [app prodv]; [lra|]. rewrite IH by (cbn in L; lia). lra. Qed.
Notation Rterm := (term (fun v : R => v) Rmult).
Notation Rein := (einsum_at (fun v : R => v) 0%R 1%R Rplus Rmult).
Definition inside (size : nat -> nat) (rho : nat -> nat) (s : list nat) : Prop := forall c, In c s -> rho c < size c.
Lemma inside_valid : forall size rho s, inside size rho s -> valid (map size s) (map rho s).
Proof. induction s as [|c s IH]; intros H; cbn; auto. split; [apply H; now left|apply IH; intros d D; apply H; now right]. Qed.
Lemma term_prodv : forall size subs ts rho acc, sized subs ts size -> Forall good ts -> inside size rho (concat subs) ->
  Rterm subs ts rho acc = Some (acc * prodv subs ts rho)%R.
Proof.
  intros size subs ts rho acc S. revert acc. induction S as [|s t subs ts E S IH]; intros acc G H; cbn [term prodv]; [f_equal; lra|].
  inversion G; subst. assert (V : valid (tshape t) (map rho s)). { rewrite <- E. apply inside_valid. intros c I. apply H. cbn. apply in_or_app. now left. }
  rewrite (val_good t (map rho s)) by auto. rewrite IH; auto; [f_equal; lra|]. intros c I. apply H. cbn. apply in_or_app. now right.
Qed.
Lemma total_sum : forall X (l : list X) (f : X -> R) acc, total Rplus (map (fun x => Some (f x)) l) acc = Some (acc + Sum l f)%R.
Proof. induction l as [|x l IH]; intros f acc; cbn [map total]; [rewrite Sum_nil; f_equal; lra|]. rewrite IH, Sum_cons. f_equal. lra. Qed.
Lemma valuation_inside : forall size L v, valid (map size L) v -> inside size (valuation L v) L.
Proof.
  induction L as [|l L IH]; intros [|x v] V c I; try (now destruct V). destruct V as [V1 V2]. cbn [valuation]. destruct (Nat.eqb_spec l c) as [<-|NE]; auto.
  apply IH; auto. destruct I; [contradiction|auto].
Qed.
Lemma einsum_at_sum : forall size subs out con ts o, sized subs ts size -> Forall good ts -> contracted subs out con -> incl out (concat subs) -> valid (map size out) o ->
  Rein subs out con size ts o = Some (Sum (all_idx (map size con)) (fun v => prodv subs ts (valuation (out ++ con) (o ++ v)))).
Proof.
  intros size subs out con ts o S G [_ C] I V. unfold einsum_at.
  rewrite (map_ext_in _ (fun v => Some (prodv subs ts (valuation (out ++ con) (o ++ v))))).
  - rewrite total_sum. f_equal. lra.
  - intros v Hv. apply in_all_idx in Hv. assert (VV : valid (map size (out ++ con)) (o ++ v)).
    { rewrite map_app. apply valid_app; auto. now apply valid_length. }
    assert (IN : inside size (valuation (out ++ con) (o ++ v)) (concat subs)).
    { intros c Hc. apply (valuation_inside size _ _ VV). apply in_or_app. destruct (in_dec Nat.eq_dec c out); [now left|right; now apply C]. }
    rewrite (term_prodv size) by auto. f_equal. lra.
Qed.

(* ---------- the rule ---------- *)
Lemma sorted_NoDup : forall l, StronglySorted lt l -> NoDup l.
Proof. induction 1 as [|x l S IH F]; constructor; auto. intro I. rewrite Forall_forall in F. specialize (F x I). lia. Qed.
Lemma NoDup_app' : forall (a b : list nat), NoDup a -> NoDup b -> (forall c, In c a -> ~ In c b) -> NoDup (a ++ b).
Proof.
  induction a as [|x a IH]; intros b Na Nb D; auto. inversion Na; subst. cbn. constructor; [|apply IH; auto; intros c I; apply D; now right].
  intro I. apply in_app_or in I. destruct I as [I|I]; auto. apply (D x); auto. now left.
Qed.
Lemma labels_NoDup : forall subs out con, contracted subs out con -> NoDup out -> NoDup (out ++ con).
Proof. intros subs out con [S C] N. apply NoDup_app'; auto; [now apply sorted_NoDup|]. intros c I I'. apply C in I'. tauto. Qed.
Lemma all_labels : forall subs out con, contracted subs out con -> forall c, In c (out ++ con) <-> In c out \/ In c (concat subs).
Proof. intros subs out con [_ C] c. rewrite in_app_iff, C. destruct (in_dec Nat.eq_dec c out); tauto. Qed.
Lemma Sum_einsum : forall size out con (W : (nat -> nat) -> R) (h : list nat -> R), NoDup out ->
  Sum (all_idx (map size out)) (fun o => (h o * Sum (all_idx (map size con)) (fun v => W (valuation (out ++ con) (o ++ v))))%R) =
  Sum (all_idx (map size (out ++ con))) (fun v => (h (map (valuation (out ++ con) v) out) * W (valuation (out ++ con) v))%R).
Proof.
  intros size out con W h N. rewrite map_app, Sum_app_idx. apply Sum_idx_ext. intros o V. rewrite Sum_scale. apply Sum_ext. intros v _. f_equal. f_equal.
  apply valid_length in V. rewrite map_length in V. rewrite <- (valuation_self out o N V) at 1. apply map_ext_in. intros c I. symmetry. now apply valuation_app.
Qed.
Lemma einsum_adjoint : forall size pre s post out con con' tpre x tpost g,
  let subs := pre ++ s :: post in let ts := tpre ++ x :: tpost in
  length pre = length tpre -> sized subs ts size -> Forall good ts -> good g -> tshape g = map size out ->
  NoDup out -> NoDup s -> incl out (concat subs) -> incl s (out ++ concat (pre ++ post)) ->
  contracted subs out con -> contracted (out :: pre ++ post) s con' ->
  exists y gx, (forall o, valid (map size out) o -> Rein subs out con size ts o = Some (y o)) /\
    (forall j, valid (map size s) j -> Rein (out :: pre ++ post) s con' size (g :: tpre ++ tpost) j = Some (gx j)) /\
    Sum (all_idx (map size out)) (fun o => val g o * y o)%R = Sum (all_idx (map size s)) (fun j => gx j * val x j)%R.
Proof.
  intros size pre s post out con con' tpre x tpost g subs ts L S G Gg Sg No Ns I1 I2 C C'.
  eexists. eexists. split; [|split].
  - intros o V. now apply (einsum_at_sum size subs out con ts o).
  - intros j V. apply (einsum_at_sum size (out :: pre ++ post) s con' (g :: tpre ++ tpost) j); auto.
    + unfold subs, ts, sized in *. apply Forall2_app_inv_l in S. destruct S as (a & b & S1 & S2 & E). inversion S2; subst. constructor; auto.
      assert (LA : length a = length tpre) by (rewrite <- L; symmetry; clear - S1; induction S1; cbn; auto).
      assert (a = tpre /\ y :: l' = x :: tpost) as [-> E2]. { clear - LA E. revert tpre LA E. induction a as [|w a IH]; intros [|q tpre] LA E; try discriminate; [split; auto|]. cbn in *. injection E as -> E. destruct (IH tpre) as [-> ?]; auto. }
      injection E2 as -> ->. now apply Forall2_app.
    + unfold ts in G. apply Forall_app in G. destruct G as [G1 G2]. inversion G2; subst. constructor; auto. now apply Forall_app.
  - cbn beta.
    set (F := fun rho : nat -> nat => (val g (map rho out) * prodv subs ts rho)%R).
    assert (RF : respects F). { intros r r' E. unfold F. rewrite (respects_prodv subs ts r r' E). do 2 f_equal. now apply map_ext. }
    rewrite (Sum_einsum size out con (prodv subs ts) (val g) No).
    transitivity (SumL size (out ++ con) F); [rewrite <- (SumL_valuation size (out ++ con) F RF); reflexivity|].
    transitivity (SumL size (s ++ con') F).
    { apply SumL_perm; auto; [|now apply (labels_NoDup subs)]. apply NoDup_Permutation; [now apply (labels_NoDup subs)|now apply (labels_NoDup (out :: pre ++ post))|].
      intros c. rewrite (all_labels subs out con C), (all_labels (out :: pre ++ post) s con' C').
      assert (X1 := I1 c). assert (X2 := I2 c). unfold subs in *. cbn [concat]. rewrite !concat_app in *. cbn [concat] in *. rewrite !in_app_iff in *.
      clear - X1 X2. tauto. }
    rewrite <- (SumL_valuation size (s ++ con') F RF).
    transitivity (Sum (all_idx (map size s)) (fun j => (val x j * Sum (all_idx (map size con')) (fun v => prodv (out :: pre ++ post) (g :: tpre ++ tpost) (valuation (s ++ con') (j ++ v))))%R)).
    2: { apply Sum_ext. intros j _. apply Rmult_comm. }
    rewrite (Sum_einsum size s con' (prodv (out :: pre ++ post) (g :: tpre ++ tpost)) (val x) Ns).
    apply Sum_ext. intros v _. unfold F, subs, ts. cbn [prodv]. rewrite !prodv_app by auto. cbn [prodv]. ring.
Qed.

(* ---------- the calls ---------- *)
Lemma parse_text : forall subs out shapes p, subs <> [] -> Forall label (concat subs) -> Forall label out -> parse (text subs out) shapes = Ok p ->
  p_subs p = subs /\ p_out p = out.
Proof.
  intros subs out shapes p N L LO H. rewrite Forall_forall in L, LO. unfold parse in H. rewrite filter_all in H.
  2:{ unfold text. intros c J. apply negb_true_iff, Nat.eqb_neq. unfold c_space.
      apply in_app_or in J as [J|[<-|[<-|J]]]; try lia.
      - apply in_join in J as [->|J]; [lia|]. apply L in J. exact (proj1 J).
      - apply LO in J. exact (proj1 J). }
  unfold text in H. rewrite split_arrow_two in H.
  2:{ intro J. apply in_join in J as [J|J]; [discriminate|]. apply L in J. now destruct J as (_ & _ & J). }
  2:{ intro J. apply LO in J. now destruct J as (_ & _ & J). }
  cbn [rev app bind fst snd] in H. unfold c_comma in H. rewrite split_on_join in H; auto.
  2:{ apply Forall_forall. intros s J K. destruct (L 44) as (_ & F & _); [|congruence]. apply in_concat. eauto. }
  destruct (negb _); [discriminate|]. destruct (negb _); [discriminate|]. destruct (all_sizes subs shapes []) as [m|e|]; try discriminate. cbn [bind] in H.
  destruct (negb _); [discriminate|]. injection H as <-. auto.
Qed.
Lemma without_at : forall X (a : list X) x b, without (length a) (a ++ x :: b) = a ++ b.
Proof.
  intros X a x b. unfold without. rewrite firstn_app, firstn_all, Nat.sub_diag. cbn [firstn]. rewrite app_nil_r.
  rewrite skipn_app. replace (S (length a) - length a) with 1 by lia. rewrite skipn_all2 by lia. reflexivity.
Qed.
Lemma plain_val : forall (r : list R) s i v, length r = nelem s -> valid s i -> nth_error r (ravel s i) = Some v -> val (mkT r (from_shape s)) i = v.
Proof.
  intros r s i v L V H. apply val_some. rewrite plain_elem; auto.
  - apply from_shape_good. lia.
  - split; [apply from_shape_contiguous|reflexivity].
  - now apply valid_length.
Qed.
Notation Rkernel := (einsum_kernel (fun v : R => v) (fun v : R => v) 0%R 1%R Rplus Rmult).
Lemma sized_mid : forall size pre s post (tpre : list (tensor R)) x tpost, length pre = length tpre -> sized (pre ++ s :: post) (tpre ++ x :: tpost) size ->
  map size s = tshape x /\ sized (pre ++ post) (tpre ++ tpost) size.
Proof.
  unfold sized. induction pre as [|a pre IH]; intros s post [|b tpre] x tpost L S; try discriminate; cbn [app] in *; inversion S; subst; [auto|].
  destruct (IH s post tpre x tpost) as [X1 X2]; auto.
Qed.
Lemma einsum_rule : forall size pre s post out tpre x tpost g z,
  let subs := pre ++ s :: post in let ts := tpre ++ x :: tpost in
  length pre = length tpre -> Forall label (concat subs) -> sized subs ts size -> Forall good ts -> good g -> tshape g = map size out ->
  Forall (fun t => length (tshape t) <= 16) ts -> length out <= 16 -> length ts <= 4 ->
  NoDup out -> NoDup s -> incl out (concat subs) -> incl s (out ++ concat (pre ++ post)) -> nelem (map size out) <> 0 -> nelem (tshape x) <> 0 ->
  exists p p', parse (text subs out) (map tshape ts) = Ok p /\ out_shape p = tshape g /\
    parse (text (out :: pre ++ post) s) (map tshape (g :: tpre ++ tpost)) = Ok p' /\ out_shape p' = tshape x /\
    (length (nodup Nat.eq_dec (concat subs)) <= 16 ->
     exists r r', Rkernel (map tstore ts) (repeat z (nelem (tshape g))) (einsum_metadata p (map tlay ts)) = Some r /\
       Rkernel (map tstore (g :: tpre ++ tpost)) (repeat z (nelem (tshape x))) (einsum_metadata p' (map tlay (g :: tpre ++ tpost))) = Some r' /\
       length r = nelem (tshape g) /\ length r' = nelem (tshape x) /\
       pairing g (mkT r (from_shape (tshape g))) = pairing (mkT r' (from_shape (tshape x))) x).
Proof.
  intros size pre s post out tpre x tpost g z subs ts L LB S G Gg Sg RK R16 L4 No Ns I1 I2 Z1 Z2.
  destruct (sized_mid size pre s post tpre x tpost L S) as [Sx S'].
  assert (CC : concat subs = concat pre ++ s ++ concat post) by (unfold subs; now rewrite concat_app).
  assert (CC' : concat (pre ++ post) = concat pre ++ concat post) by apply concat_app.
  assert (INC : incl (concat (out :: pre ++ post)) (concat subs)).
  { intros c J. cbn [concat] in J. apply in_app_or in J. destruct J as [J|J]; auto. rewrite CC' in J. rewrite CC, !in_app_iff. apply in_app_or in J. tauto. }
  assert (GG : Forall good (g :: tpre ++ tpost)).
  { unfold ts in G. apply Forall_app in G. destruct G as [G1 G2]. inversion G2; subst. constructor; auto. now apply Forall_app. }
  destruct (einsum_full (fun v : R => v) (fun v : R => v) 0%R 1%R Rplus Rmult size subs out ts z) as (p & con & E1 & E2 & C & K); auto.
  { unfold subs. destruct pre; discriminate. }
  destruct (einsum_full (fun v : R => v) (fun v : R => v) 0%R 1%R Rplus Rmult size (out :: pre ++ post) s (g :: tpre ++ tpost) z) as (p' & con' & E1' & E2' & C' & K'); auto.
  { discriminate. } { rewrite Forall_forall in *. intros c J. apply LB. now apply INC. }
  { constructor; auto. }
  { constructor; [rewrite Sg, map_length; auto|]. unfold ts in RK. apply Forall_app in RK. destruct RK as [R1 R2]. inversion R2; subst. now apply Forall_app. }
  { unfold ts in L4. cbn [length]. rewrite app_length in *. cbn [length] in L4. lia. }
  { now rewrite Sx. }
  exists p, p'. split; [auto|]. split; [congruence|]. split; [auto|]. split; [congruence|].
  intros H16. set (n := length (nodup Nat.eq_dec (concat subs))) in *.
  assert (Hn : forall l, NoDup l -> incl l (concat subs) -> length l <= n).
  { intros l N I. apply NoDup_incl_length; auto. intros c J. apply nodup_In. now apply I. }
  assert (A1 : length (out ++ con) <= n). { apply Hn; [now apply (labels_NoDup subs)|]. intros c J. apply (all_labels subs out con C) in J. destruct J; auto. }
  assert (A2 : length (s ++ con') <= n).
  { apply Hn; [now apply (labels_NoDup (out :: pre ++ post))|]. intros c J. apply (all_labels _ s con' C') in J. destruct J as [J|J]; [rewrite CC, !in_app_iff; auto|now apply INC]. }
  rewrite app_length in A1, A2. destruct K as (r & K1 & K2 & K3); [lia|]. destruct K' as (r' & K1' & K2' & K3'); [lia|].
  destruct (einsum_adjoint size pre s post out con con' tpre x tpost g L S G Gg Sg No Ns I1 I2 C C') as (y & gx & Y1 & Y2 & Y3).
  exists r, r'. rewrite Sg, <- Sx. split; [exact K1|]. split; [exact K1'|]. split; [exact K2|]. split; [exact K2'|].
  unfold pairing. rewrite Sg. change (tshape (mkT r' (from_shape (map size s)))) with (map size s).
  transitivity (Sum (all_idx (map size out)) (fun o => val g o * y o)%R).
  { apply Sum_idx_ext. intros o V. f_equal. apply plain_val; auto. destruct (K3 o V) as (v & V1 & V2). fold subs ts in Y1. rewrite Y1 in V1 by auto. congruence. }
  rewrite Y3. apply Sum_idx_ext. intros j V. f_equal. symmetry. apply plain_val; auto. destruct (K3' j V) as (v & V1 & V2). rewrite Y2 in V1 by auto. congruence.
Qed.
