(** C109: gradients of the reductions. *)
From Coq Require Import List Arith ZArith Bool Lia Lra Reals Permutation.
From Verif Require Import Base IndexSpec LayoutModel ViewSpec KernelModel KernelProofs TensorModel TensorSpec TensorProofs BcastProofs ElementwiseProofs
  ReduceModel ReduceSpec ReduceProofs ReduceProofs2 EncodeModel NumModel DenSpec DenProofs SelectModel NnModel NnSpec NnProofs NnProofs2 NormProofs
  LayerModel AttnModel ShapeGradModel ShapeGradProofs LinGradProofs MatGradSpec MatGradProofs
  RuleModel RedModel RedSpec RedProofs RedGradModel RedGradSpec RedGradProofs.
Import ListNotations.
Open Scope nat_scope.

(** The reduction is run on [a] along [dims] (recorded as [ds]), its result receives the gradient [w], and the rule
    returns the derivative of the sum of [w] times the result in every entry of [a]. *)
Theorem C109_prod_partial : forall e a g d s r w dims ds keep, env_ok e -> is_float d = true -> xden a d s (fun i => Fin (r i)) ->
  ReduceSpec.axes_of (length s) dims ds -> NoDup ds -> length s <= 16 ->
  xden g d (rshape keep ds s) (fun j => Fin (w j)) -> (keep = false -> leading ds (length s)) ->
  (forall i, valid s i -> r i <> 0)%R ->
  exists out gx p, x_prod a dims keep = Ok out /\ vjp_prod e a out g = Ok gx /\ xden gx d s (fun i => Fin (p i)) /\
    forall i, valid s i -> derivable_pt_lim (fun t => rloss Rprod keep ds s w (nudge r i t)) 0 (p i).
Proof.
  intros e a g d s r w dims ds keep He F Xa Hax ND HR Xg Hl H. destruct (prod_den a dims ds keep d s r F Xa Hax ND HR) as (out & E & D).
  destruct (vjp_prod_ok e He a g d s r w ds keep F Xa Xg Hl out D H) as (gx & p & X). now exists out, gx, p.
Qed.
Print Assumptions C109_prod_partial.
(** l2_norm, that is norm(2) *)
Theorem C109_norm_partial : forall e a g d s r w dims ds keep, env_ok e -> is_float d = true -> xden a d s (fun i => Fin (r i)) ->
  ReduceSpec.axes_of (length s) dims ds -> NoDup ds -> length s <= 16 ->
  xden g d (rshape keep ds s) (fun j => Fin (w j)) -> (keep = false -> leading ds (length s)) ->
  (forall i, valid s i -> exists j, In j (fibre keep ds s (rproj keep ds i)) /\ r j <> 0)%R ->
  exists out gx p, x_norm2 a dims keep = Ok out /\ vjp_norm e a out g = Ok gx /\ xden gx d s (fun i => Fin (p i)) /\
    forall i, valid s i -> derivable_pt_lim (fun t => rloss Rnorm2 keep ds s w (nudge r i t)) 0 (p i).
Proof.
  intros e a g d s r w dims ds keep He F Xa Hax ND HR Xg Hl H. destruct (norm2_den a dims ds keep d s r F Xa Hax ND HR) as (out & E & D).
  destruct (vjp_norm_ok e He a g d s r w ds keep F Xa Xg Hl out D H) as (gx & p & X). now exists out, gx, p.
Qed.
Print Assumptions C109_norm_partial.
(** for var and std the reduced axes must come first even with keep_dim: the rule takes the mean without it *)
Theorem C109_var_partial : forall e a g d s r w dims ds keep, env_ok e -> is_float d = true -> xden a d s (fun i => Fin (r i)) ->
  ReduceSpec.axes_of (length s) dims ds -> NoDup ds -> length s <= 16 ->
  xden g d (rshape keep ds s) (fun j => Fin (w j)) -> leading ds (length s) ->
  exists gx p, vjp_var e a g ds = Ok gx /\ xden gx d s (fun i => Fin (p i)) /\
    forall i, valid s i -> derivable_pt_lim (fun t => rloss Rvar keep ds s w (nudge r i t)) 0 (p i).
Proof.
  intros e a g d s r w dims ds keep He F Xa Hax ND HR Xg Hl.
  exact (vjp_var_ok e He a g d s r w dims ds keep F Xa Hax ND HR Xg (fun _ => Hl) Hl).
Qed.
Print Assumptions C109_var_partial.
Theorem C109_std_partial : forall e a g d s r w dims ds keep, env_ok e -> is_float d = true -> xden a d s (fun i => Fin (r i)) ->
  ReduceSpec.axes_of (length s) dims ds -> NoDup ds -> length s <= 16 ->
  xden g d (rshape keep ds s) (fun j => Fin (w j)) -> leading ds (length s) ->
  (forall i, valid s i -> 0 < Rvar (map r (fibre keep ds s (rproj keep ds i))))%R ->
  exists out gx p, x_std a dims keep = Ok out /\ vjp_std e a out g ds = Ok gx /\ xden gx d s (fun i => Fin (p i)) /\
    forall i, valid s i -> derivable_pt_lim (fun t => rloss (fun l => sqrt (Rvar l)) keep ds s w (nudge r i t)) 0 (p i).
Proof.
  intros e a g d s r w dims ds keep He F Xa Hax ND HR Xg Hl H. destruct (std_den a dims ds keep d s r F Xa Hax ND HR) as (out & E & D).
  destruct (vjp_std_ok e He a g d s r w dims ds keep F Xa Hax ND HR Xg (fun _ => Hl) out D Hl H) as (gx & p & X). now exists out, gx, p.
Qed.
Print Assumptions C109_std_partial.
Theorem C109_logsum_partial : forall e a g d s r w dims ds keep, env_ok e -> is_float d = true -> xden a d s (fun i => Fin (r i)) ->
  ReduceSpec.axes_of (length s) dims ds -> NoDup ds -> length s <= 16 ->
  xden g d (rshape keep ds s) (fun j => Fin (w j)) -> (keep = false -> leading ds (length s)) ->
  (forall j, valid (rshape keep ds s) j -> 0 < Rsum (map r (fibre keep ds s j)))%R ->
  exists out gx p, x_logsum a dims keep = Ok out /\ vjp_logsum e a out g = Ok gx /\ xden gx d s (fun i => Fin (p i)) /\
    forall i, valid s i -> derivable_pt_lim (fun t => rloss (fun l => ln (Rsum l)) keep ds s w (nudge r i t)) 0 (p i).
Proof.
  intros e a g d s r w dims ds keep He F Xa Hax ND HR Xg Hl H. destruct (logsum_den a dims ds keep d s r F Xa Hax ND HR) as (out & E & D).
  assert (D' : xden out d (rshape keep ds s) (fun j => Fin (ln (Rsum (map r (fibre keep ds s j)))))).
  { eapply xden_ext; [exact D|]. intros j V. specialize (H j V). cbn [xln]. unfold Rltb. now destruct (Rlt_dec _ _). }
  destruct (vjp_logsum_ok e He a g d s r w ds keep F Xa Xg Hl out D') as (gx & p & X); [|now exists out, gx, p].
  intros i V. apply H. now apply fibre_partition.
Qed.
Print Assumptions C109_logsum_partial.
Theorem C109_logsumexp_partial : forall e lo a g d s r w dims ds keep, env_ok e -> is_float d = true -> xden a d s (fun i => Fin (r i)) ->
  ReduceSpec.axes_of (length s) dims ds -> NoDup ds -> length s <= 16 ->
  xden g d (rshape keep ds s) (fun j => Fin (w j)) -> (keep = false -> leading ds (length s)) ->
  exists out gx p, x_logsumexp lo a dims keep = Ok out /\ vjp_logsumexp e a out g = Ok gx /\ xden gx d s (fun i => Fin (p i)) /\
    forall i, valid s i -> derivable_pt_lim (fun t => rloss Rlse keep ds s w (nudge r i t)) 0 (p i).
Proof.
  intros e lo a g d s r w dims ds keep He F Xa Hax ND HR Xg Hl. destruct (logsumexp_den lo a dims ds keep d s r F Xa Hax ND HR) as (out & E & D).
  destruct (vjp_lse_ok e He a g d s r w ds keep F Xa Xg Hl out D) as (gx & p & X). now exists out, gx, p.
Qed.
Print Assumptions C109_logsumexp_partial.
(** max and min, when no two entries along the reduced axes attain the result *)
Theorem C109_max_partial : forall e a g d s r w dims ds keep, env_ok e -> is_float d = true -> xden a d s (fun i => Fin (r i)) ->
  ReduceSpec.axes_of (length s) dims ds -> NoDup ds -> length s <= 16 ->
  xden g d (rshape keep ds s) (fun j => Fin (w j)) -> (keep = false -> leading ds (length s)) ->
  (forall i k, valid s i -> In k (fibre keep ds s (rproj keep ds i)) -> let m := Rtop (map r (fibre keep ds s (rproj keep ds i))) in
     r i = m -> r k = m -> k = i) ->
  exists out gx p, x_max a dims keep = Ok out /\ vjp_max e a out g ds = Ok gx /\ xden gx d s (fun i => Fin (p i)) /\
    forall i, valid s i -> derivable_pt_lim (fun t => rloss Rtop keep ds s w (nudge r i t)) 0 (p i).
Proof.
  intros e a g d s r w dims ds keep He F Xa Hax ND HR Xg Hl H. destruct (max_den a dims ds keep d s r F Xa Hax ND HR) as (out & E & D).
  destruct (vjp_max_ok e He a g d s r w dims ds keep F Xa Hax ND HR Xg Hl out D H) as (gx & p & X). now exists out, gx, p.
Qed.
Print Assumptions C109_max_partial.
Theorem C109_min_partial : forall e a g d s r w dims ds keep, env_ok e -> is_float d = true -> xden a d s (fun i => Fin (r i)) ->
  ReduceSpec.axes_of (length s) dims ds -> NoDup ds -> length s <= 16 ->
  xden g d (rshape keep ds s) (fun j => Fin (w j)) -> (keep = false -> leading ds (length s)) ->
  (forall i k, valid s i -> In k (fibre keep ds s (rproj keep ds i)) -> let m := Rbot (map r (fibre keep ds s (rproj keep ds i))) in
     r i = m -> r k = m -> k = i) ->
  exists out gx p, x_min a dims keep = Ok out /\ vjp_max e a out g ds = Ok gx /\ xden gx d s (fun i => Fin (p i)) /\
    forall i, valid s i -> derivable_pt_lim (fun t => rloss Rbot keep ds s w (nudge r i t)) 0 (p i).
Proof.
  intros e a g d s r w dims ds keep He F Xa Hax ND HR Xg Hl H. destruct (min_den a dims ds keep d s r F Xa Hax ND HR) as (out & E & D).
  destruct (vjp_min_ok e He a g d s r w dims ds keep F Xa Hax ND HR Xg Hl out D H) as (gx & p & X). now exists out, gx, p.
Qed.
Print Assumptions C109_min_partial.
(** with ties: only the largest entries receive anything, equal shares, adding up to the incoming gradient *)
Theorem C109_ties : forall e a g d s r w dims ds keep, env_ok e -> is_float d = true -> xden a d s (fun i => Fin (r i)) ->
  ReduceSpec.axes_of (length s) dims ds -> NoDup ds -> length s <= 16 ->
  xden g d (rshape keep ds s) (fun j => Fin (w j)) -> (keep = false -> leading ds (length s)) ->
  exists out gx p, x_max a dims keep = Ok out /\ vjp_max e a out g ds = Ok gx /\ xden gx d s (fun i => Fin (p i)) /\
    (forall j, valid (rshape keep ds s) j -> Rsum (map p (fibre keep ds s j)) = w j) /\
    (forall i, valid s i -> r i <> Rtop (map r (fibre keep ds s (rproj keep ds i))) -> p i = 0%R) /\
    (forall i k, valid s i -> In k (fibre keep ds s (rproj keep ds i)) -> r i = r k -> p i = p k).
Proof.
  intros e a g d s r w dims ds keep He F Xa Hax ND HR Xg Hl. destruct (max_den a dims ds keep d s r F Xa Hax ND HR) as (out & E & D).
  set (m := fun j => Rtop (map r (fibre keep ds s j))) in *.
  assert (AT : forall j, valid (rshape keep ds s) j -> exists k, In k (fibre keep ds s j) /\ r k = m j).
  { intros j V. pose proof (fibre_nonempty keep ds s j (xden_pos _ _ _ _ Xa) ND (axes_lt' _ _ _ Hax) V) as L.
    destruct (top_spec (map r (fibre keep ds s j))) as [I _]; [destruct (fibre keep ds s j); [cbn in L; lia|discriminate]|].
    apply in_map_iff in I. destruct I as (k & E' & I). exists k. auto. }
  destruct (vjp_max_den e He a g d s r w dims ds keep F Xa Hax ND HR Xg Hl out m D) as (gx & Eg & Dg).
  { intros i V. apply AT. now apply fibre_partition. }
  exists out, gx. eexists. split; [exact E|]. split; [exact Eg|]. split; [exact Dg|]. split; [|split].
  - intros j V. apply (shares r w ds s keep m j). now apply AT.
  - intros i V N. unfold hit. destruct (Req_EM_T _ _) as [Q|Q]; [elim N; exact Q|]. unfold Rdiv. lra.
  - intros i k V I Q. assert (Pk := fibre_proj _ _ _ _ _ I). unfold tied, hit at 1 3. rewrite Pk, Q. reflexivity.
Qed.
Print Assumptions C109_ties.

(** prod: wherever an entry is zero, its gradient is NaN instead of the product of the others. *)
Theorem C109_prod_refuted : forall e a g d s r w dims ds keep, env_ok e -> is_float d = true -> xden a d s (fun i => Fin (r i)) ->
  ReduceSpec.axes_of (length s) dims ds -> NoDup ds -> length s <= 16 ->
  xden g d (rshape keep ds s) (fun j => Fin (w j)) -> (keep = false -> leading ds (length s)) ->
  exists out gx, x_prod a dims keep = Ok out /\ vjp_prod e a out g = Ok gx /\
    forall i, valid s i -> r i = 0%R -> elem (xdata gx) i = Some Nan.
Proof.
  intros e a g d s r w dims ds keep He F Xa Hax ND HR Xg Hl. destruct (prod_den a dims ds keep d s r F Xa Hax ND HR) as (out & E & D).
  destruct (sum_broadcast keep ds s Hl) as [SR B].
  destruct (vjp_prod_den e He a g d s r w (rshape keep ds s) F Xa Xg SR out _ D) as (gx & Eg & (_ & _ & _ & _ & _ & H)).
  exists out, gx. split; auto. split; auto. intros i V Z. rewrite H by auto. rewrite (B i V). f_equal.
  replace (Rprod _) with 0%R; [rewrite Z; unfold xdiv; destruct (Req_EM_T 0 0) as [_|N]; [|contradiction]; unfold xscale, Rltb; destruct (Rlt_dec 0 0); [lra|reflexivity]|].
  symmetry. assert (I : In i (fibre keep ds s (rproj keep ds i))) by (now apply (proj2 (fibre_partition keep ds s i V))).
  clear - I Z. induction (fibre keep ds s (rproj keep ds i)) as [|x l IH]; [destruct I|]. unfold Rprod. cbn [map fold_right]. destruct I as [->|I]; [rewrite Z; lra|].
  unfold Rprod in IH. rewrite IH by auto. lra.
Qed.
Print Assumptions C109_prod_refuted.
(** var with keep_dim along the last axis: an error, whatever the entries, unless the shape happens to fit ... *)
Theorem C109_var_shape_refuted : forall x0 x1 x2 x3 x4 x5 g0 g1,
  let a := mkX F32 (mkT [x0; x1; x2; x3; x4; x5] (from_shape [2; 3])) in
  (exists out, x_var a [1%Z] true = Ok out /\ xshape out = [2; 1]) /\
  (exists err, vjp_var e1 a (mkX F32 (mkT [g0; g1] (from_shape [2; 1]))) [1] = Err err).
Proof. intros. split; eexists; [split|]; reflexivity. Qed.
Print Assumptions C109_var_shape_refuted.
(** ... and then the wrong mean: for [[0, 2], [10, 30]], rows, the entry 2 is given -18 instead of 1; *)
Definition sq : xtensor := mkX F32 (mkT [Fin 0; Fin 2; Fin 10; Fin 30] (from_shape [2; 2])).
Definition sq_at (i : list nat) : R := match i with [0; 0] => 0%R | [0; 1] => 2%R | [1; 0] => 10%R | _ => 30%R end.
Lemma sq_den : xden sq F32 [2; 2] (fun i => Fin (sq_at i)).
Proof.
  eapply xden_ext; [apply xlist_den; [reflexivity|repeat constructor]|].
  intros i V. apply in_all_idx in V. cbn in V. destruct V as [<-|[<-|[<-|[<-|[]]]]]; reflexivity.
Qed.
Definition ones (s : list nat) : xtensor := mkX F32 (t_full s (Fin 1)).
Lemma ones_den : forall s, all_pos s -> xden (ones s) F32 s (fun _ => Fin 1).
Proof. intros s P. split; [reflexivity|]. now apply t_full_good_den. Qed.
Lemma sq_axes : forall k, k < 2 -> ReduceSpec.axes_of (length [2; 2]) [Z.of_nat k] [k].
Proof. intros k K. constructor; [|constructor]. split; auto. Qed.
Theorem C109_var_refuted : exists gx, vjp_var e1 sq (ones [2; 1]) [1] = Ok gx /\ elem (xdata gx) [0; 1] = Some (Fin (-18)) /\
  derivable_pt_lim (fun t => rloss Rvar true [1] [2; 2] (fun _ => 1%R) (nudge sq_at [0; 1] t)) 0%R 1%R.
Proof.
  destruct (vjp_var_den e1 e1_ok sq (ones [2; 1]) F32 [2; 2] sq_at (fun _ => 1%R) [2; 1] [1] eq_refl sq_den) as (gx & E & (_ & _ & _ & _ & _ & H)).
  - apply ones_den. repeat constructor.
  - split; [reflexivity|]. exists [], [2; 2]. split; auto; repeat constructor; auto.
  - apply (sq_axes 1); lia.
  - repeat constructor. intros [].
  - cbn. lia.
  - split; [reflexivity|]. exists [2], [2]. split; auto; repeat constructor; auto.
  - exists gx. split; auto. split.
    + rewrite H by (cbn; lia). do 2 f_equal.
      change (fibre false [1] [2; 2] (bidx (rshape false [1] [2; 2]) [0; 1])) with [[1; 0]; [1; 1]].
      change (map sq_at [[1; 0]; [1; 1]]) with [10; 30]%R. change (nelem (extents [1] [2; 2])) with 2. change (sq_at [0; 1]) with 2%R. cbn [Rsum INR]. field.
    + apply (dlim_eq _ _ (2 * (2 - Ravg [2; 0]) / INR (length [2; 0]) * 1)%R); [unfold Ravg; cbn [length INR Rsum]; field|].
      apply (loss_derivative Rvar true [1] [2; 2] (fun _ => 1%R) sq_at [0; 1] _ [[0; 0]]).
      * apply Rvar_perm.
      * cbn; lia.
      * cbn; lia.
      * change (fibre true [1] [2; 2] (rproj true [1] [0; 1])) with [[0; 0]; [0; 1]]. constructor.
      * intros [X|[]]. discriminate X.
      * apply D_var.
Qed.
Print Assumptions C109_var_refuted.
(** ... and without keep_dim every other rule does the same with the result: prod along the rows of [[0, 2], [10, 30]]
    gives the entry 10 nothing, though the product of its row changes by 30. *)
Theorem C109_axis_refuted : exists out gx, x_prod sq [1%Z] false = Ok out /\ vjp_prod e1 sq out (ones [2]) = Ok gx /\
  elem (xdata gx) [1; 0] = Some (Fin 0) /\
  derivable_pt_lim (fun t => rloss Rprod false [1] [2; 2] (fun _ => 1%R) (nudge sq_at [1; 0] t)) 0%R 30%R.
Proof.
  destruct (prod_den sq [1%Z] [1] false F32 [2; 2] sq_at eq_refl sq_den) as (out & E & D); [apply (sq_axes 1); lia|repeat constructor; intros []|cbn; lia|].
  destruct (vjp_prod_den e1 e1_ok sq (ones [2]) F32 [2; 2] sq_at (fun _ => 1%R) [2] eq_refl sq_den) with (out := out) (m := fun j => Rprod (map sq_at (fibre false [1] [2; 2] j)))
    as (gx & Eg & (_ & _ & _ & _ & _ & H)).
  - apply ones_den. repeat constructor.
  - split; [reflexivity|]. exists [2], [2]. split; auto; repeat constructor; auto.
  - exact D.
  - exists out, gx. split; auto. split; auto. split.
    + rewrite H by (cbn; lia). f_equal. change (fibre false [1] [2; 2] (bidx [2] [1; 0])) with [[0; 0]; [0; 1]].
      change (map sq_at [[0; 0]; [0; 1]]) with [0; 2]%R. change (sq_at [1; 0]) with 10%R. unfold Rprod. cbn [fold_right]. rewrite fdiv by lra. cbn [xmul]. f_equal. field.
    + apply (dlim_eq _ _ (Rprod (map sq_at [[1%nat; 1%nat]]) * 1)%R); [unfold Rprod; cbn [map fold_right sq_at]; lra|].
      apply (loss_derivative Rprod false [1] [2; 2] (fun _ => 1%R) sq_at [1; 0] _ [[1; 1]]).
      * apply Rprod_perm.
      * cbn; lia.
      * cbn; lia.
      * change (fibre false [1] [2; 2] (rproj false [1] [1; 0])) with [[1; 0]; [1; 1]]. apply Permutation_refl.
      * intros [X|[]]. discriminate X.
      * apply D_prod.
Qed.
Print Assumptions C109_axis_refuted.

(** the column means of [sq]: var along the first axis *)
Example C109_var_ex : exists gx p, vjp_var e1 sq (ones [2]) [0] = Ok gx /\ xden gx F32 [2; 2] (fun i => Fin (p i)) /\
  derivable_pt_lim (fun t => rloss Rvar false [0] [2; 2] (fun _ => 1%R) (nudge sq_at [1; 1] t)) 0 (p [1; 1]).
Proof.
  destruct (C109_var_partial e1 sq (ones [2]) F32 [2; 2] sq_at (fun _ => 1%R) [0%Z] [0] false e1_ok eq_refl sq_den) as (gx & p & E & D & H).
  - apply (sq_axes 0); lia.
  - repeat constructor. intros [].
  - cbn. lia.
  - apply ones_den. repeat constructor.
  - exists 1. split; [cbn; lia|]. intros j. cbn. lia.
  - exists gx, p. split; auto. split; auto. apply H. cbn; lia.
Qed.
(** max along the last axis, kept: no ties in [sq] *)
Example C109_max_ex : exists out gx p, x_max sq [1%Z] true = Ok out /\ vjp_max e1 sq out (ones [2; 1]) [1] = Ok gx /\ xden gx F32 [2; 2] (fun i => Fin (p i)) /\
  derivable_pt_lim (fun t => rloss Rtop true [1] [2; 2] (fun _ => 1%R) (nudge sq_at [1; 1] t)) 0 (p [1; 1]).
Proof.
  destruct (C109_max_partial e1 sq (ones [2; 1]) F32 [2; 2] sq_at (fun _ => 1%R) [1%Z] [1] true e1_ok eq_refl sq_den) as (out & gx & p & E & Eg & D & H).
  - apply (sq_axes 1); lia.
  - repeat constructor. intros [].
  - cbn. lia.
  - apply ones_den. repeat constructor.
  - discriminate.
  - intros i k V I m Q1 Q2. apply in_all_idx in V. cbn in V.
    destruct V as [<-|[<-|[<-|[<-|[]]]]]; cbn in I; destruct I as [<-|[<-|[]]]; auto; exfalso; rewrite <- Q1 in Q2; cbn [sq_at] in Q2; lra.
  - exists out, gx, p. split; auto. split; auto. split; auto. apply H. cbn; lia.
Qed.
