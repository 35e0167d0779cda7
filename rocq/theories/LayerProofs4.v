(** Recurrent layers over a sequence. *)
From Coq Require Import List Arith ZArith Lia Bool Reals Lra.
From Verif Require Import Base IndexSpec LayoutModel ViewSpec LayoutProofs BcastProofs.
From Verif Require Import KernelModel TensorModel TensorSpec KernelProofs TensorProofs.
From Verif Require Import EncodeModel SelectModel IndexModel MoveModel MatrixModel DenSpec DenProofs.
From Verif Require Import MoveProofs MoveProofs2 MoveProofs3 IndexProofs DataProofs2 MatrixProofs4.
From Verif Require Import NumModel NnModel NnSpec NnProofs LayerModel LayerSpec LayerProofs LayerProofs2 LayerProofs3.
Import ListNotations.
Open Scope nat_scope.

(** [index_select] of one row, without the axis *)
Lemma x_row_ok : forall a d n s f t, xden a d (n :: s) f -> t < n ->
  exists r, x_row a t = Ok r /\ solid r /\ xden r d s (fun i => f (t :: i)).
Proof.
  intros a d n s f t [D [G [U [S [P H]]]]] Ht. unfold x_row.
  assert (Gi : good (mkT [Z.of_nat t] (from_shape [1]))) by (now apply from_shape_good).
  assert (Pi : plain_layout (mkT [Z.of_nat t] (from_shape [1]))) by (split; reflexivity).
  destruct (t_index_select_spec xr (Fin 0) (Fin 0) (Fin 0) (xdata a) 0 (mkT [Z.of_nat t] (from_shape [1])) n G Gi Pi) as [r [E [Gr [L Hv]]]].
  { rewrite S. unfold axis_ok. cbn [length]. lia. }
  { rewrite S. reflexivity. }
  rewrite S in L. change (axis_of (length (n :: s)) 0) with 0 in L. cbn [upd] in L. change (nelem (tshape (mkT [Z.of_nat t] (from_shape [1])))) with 1 in L.
  rewrite E. cbn [bind]. unfold x_view. cbn [xdata xdtype].
  assert (Es : t_view (Fin 0) (VSqueeze [0%Z]) r = Ok (mkT (tstore r) (from_shape s))).
  { unfold t_view, t_contiguous. rewrite L, from_shape_contiguous. cbn [bind apply_view]. rewrite L. unfold squeeze. rewrite from_shape_contiguous.
    cbn. reflexivity. }
  rewrite Es. cbn [bind]. eexists. split; [reflexivity|].
  assert (Len : length (tstore r) = nelem s).
  { unfold t_index_select in E. change (lshape (tlay (xdata a))) with (tshape (xdata a)) in E. rewrite S in E.
    change (MoveModel.axis_usize (length (n :: s)) 0) with (Some 0) in E. cbn [length Nat.ltb Nat.leb] in E.
    unfold layout_size in E. change shape_size with nelem in E. change (nelem (lshape (tlay (mkT [Z.of_nat t] (from_shape [1]))))) with 1 in E.
    cbn [upd] in E.
    pose proof (index_select_kernel_spec xr (Fin 0) (Fin 0) (tstore (xdata a)) [Z.of_nat t] (repeat (Fin 0) (nelem (1 :: s))) (tlay (xdata a)) 0 n 1) as K.
    change (lshape (tlay (xdata a))) with (tshape (xdata a)) in K. rewrite S in K. cbn [upd] in K. cbn [tstore] in E.
    rewrite K in E; [|apply G|apply G|reflexivity|cbn; lia|apply repeat_length].
    cbn [ub bind] in E. inversion E. cbn [tstore]. rewrite map_length, seq_length. rewrite nelem_cons. lia. }
  split. { split; [reflexivity|]. exact Len. }
  split; [exact D|]. split. { now apply from_shape_good. }
  split; [left; reflexivity|]. split; [reflexivity|]. split; [now inversion P|].
  intros i V. cbn [xdata]. unfold elem at 1. cbn [tstore tlay].
  assert (V2 : valid (tshape r) (0 :: i)). { unfold tshape. rewrite L. cbn. split; [lia|auto]. }
  assert (Ei : elem (mkT [Z.of_nat t] (from_shape [1])) (unravel (tshape (mkT [Z.of_nat t] (from_shape [1]))) (nth (axis_of (length (tshape (xdata a))) 0) (0 :: i) 0)) = Some (Z.of_nat t)).
  { rewrite S. reflexivity. }
  destruct (Hv (0 :: i) (Z.of_nat t) V2 Ei) as [Hk _]. specialize (Hk t ltac:(split; [auto|now left])).
  rewrite S in Hk. change (axis_of (length (n :: s)) 0) with 0 in Hk. cbn [upd] in Hk. rewrite H in Hk by (cbn; auto).
  rewrite <- Hk. unfold elem. rewrite L. rewrite !addr_from_shape by (cbn [length]; rewrite ?(valid_length _ _ V); auto).
  reflexivity.
Qed.

Lemma x_stack_ok : forall l d s f, l <> [] -> length s < 16 -> all_pos s ->
  (forall j x, nth_error l j = Some x -> solid x /\ xden x d s (f j)) ->
  exists r, x_stack l = Ok r /\ xden r d (length l :: s) (fun i => f (hd 0 i) (tl i)).
Proof.
  intros l d s f NE LS P H. destruct l as [|x0 l']; [congruence|]. set (l := x0 :: l') in *.
  assert (D : forall x, In x l -> solid x /\ xdtype x = d /\ xshape x = s).
  { intros x I. apply In_nth_error in I. destruct I as [j J]. destruct (H j x J) as [So X]. split; auto. split; [apply X|]. eapply xden_shape; eauto. }
  assert (EQ : x_stack l = if forallb (fun y => same_dtype (xdtype x0) (xdtype y)) l
    then do t <- t_stack (Fin 0) (map xdata l) 0 ; Ok (mkX (xdtype x0) t) else Err EDType) by reflexivity.
  rewrite EQ. clear EQ.
  replace (forallb (fun y => same_dtype (xdtype x0) (xdtype y)) l) with true.
  2:{ symmetry. apply forallb_forall. intros y I. destruct (D y I) as [_ [-> _]]. destruct (D x0 (or_introl eq_refl)) as [_ [-> _]]. apply same_dtype_refl. }
  destruct (stack_gen xr (Fin 0) (map xdata l) s (fun j i => f j i)) as [c [E [G [L Hc]]]].
  - discriminate.
  - exact LS.
  - intros t I. apply in_map_iff in I. destruct I as [x [<- I]]. apply In_nth_error in I. destruct I as [j J].
    destruct (H j x J) as [So [_ [Gx [_ [Sx _]]]]]. split; auto. split; auto. now apply solid_dense.
  - intros j t i J V. rewrite nth_error_map in J. destruct (nth_error l j) as [x|] eqn:Ej; [|discriminate]. cbn in J. inversion J; subst t. clear J.
    destruct (H j x Ej) as [[Lx Nx] X]. pose proof X as [_ [_ [_ [Sx [_ Hx]]]]]. unfold xshape in Lx. unfold tshape in Sx. rewrite Lx, Sx. cbn [loffset from_shape].
    specialize (Hx i V). unfold elem in Hx. rewrite Lx, Sx in Hx. rewrite addr_from_shape in Hx by (now apply valid_length).
    rewrite <- Hx. pose proof (nth_concat xr (map tstore (map xdata l)) j (tstore (xdata x)) (ravel s i)) as Q.
    rewrite !nth_error_map, Ej in Q. specialize (Q eq_refl). unfold xshape in Nx. rewrite Sx in Nx.
    rewrite <- Q by (rewrite Nx; now apply ravel_lt). f_equal.
    cut (list_sum (firstn j (map (@length xr) (map tstore (map xdata l)))) = j * nelem s); [intros ->; lia|].
    assert (EL : map (@length xr) (map tstore (map xdata l)) = map (fun _ => nelem s) l).
    { rewrite !map_map. apply map_ext_in. intros y I. destruct (D y I) as [[_ Ny] [_ Sy]]. rewrite Ny. now rewrite Sy. }
    rewrite EL. assert (Jl : j < length l) by (apply nth_error_Some; congruence). clear - Jl.
    revert j Jl. induction l as [|u l IH]; intros [|j] Jl; cbn [length] in *; try lia; auto.
    cbn [map firstn list_sum fold_right]. fold (list_sum (firstn j (map (fun _ : xtensor => nelem s) l))). rewrite IH by lia. lia.
  - rewrite E. cbn [bind]. eexists. split; [reflexivity|]. rewrite map_length in *.
    split; [apply (D x0 (or_introl eq_refl))|]. split; [exact G|]. split; [left; cbn [xdata]; rewrite L; reflexivity|].
    split; [unfold tshape; cbn [xdata]; now rewrite L|]. split; [constructor; [unfold l; cbn; lia|auto]|].
    intros i V. destruct i as [|j i]; [destruct V|]. destruct V as [Vj Vi]. cbn [xdata hd tl]. now apply Hc.
Qed.

Lemma xcube_transpose : forall x d n m k X, xcube x d n m k X ->
  exists t, x_view (VTranspose 0 1) x = Ok t /\ xcube t d m n k (fun i j => X j i).
Proof.
  intros x d n m k X H. pose proof (xden_pos _ _ _ _ H) as P.
  destruct (xden_view (VTranspose 0 1) x d [n; m; k] [m; n; k] _ (fun i => Fin (X (nth 1 i 0) (nth 0 i 0) (nth 2 i 0))) ltac:(discriminate) H) as [t [E D]].
  - exact I.
  - cbn [shape_rel length]. split; [lia|]. split; [unfold axis_ok; cbn; lia|]. split; [unfold axis_ok; cbn; lia|]. split; [reflexivity|].
    intros q Hq. destruct q as [|[|[|q]]]; try lia; reflexivity.
  - inversion P as [|? ? P1 P2]; subst. inversion P2 as [|? ? P3 P4]; subst. constructor; [auto|]. constructor; auto.
  - intros i j Vi Vj [L IR]. cbn [length] in *.
    destruct i as [|i0 [|i1 [|i2 [|? ?]]]]; cbn in Vi; try tauto. destruct j as [|j0 [|j1 [|j2 [|? ?]]]]; cbn in Vj; try tauto.
    pose proof (IR 0 ltac:(lia)) as I0. pose proof (IR 1 ltac:(lia)) as I1. pose proof (IR 2 ltac:(lia)) as I2. cbn in I0, I1, I2.
    inversion I0. inversion I1. inversion I2. reflexivity.
  - exists t. split; auto.
Qed.
Lemma xcube_row : forall x d n m k X t, xcube x d n m k X -> t < n ->
  exists r, x_row x t = Ok r /\ solid r /\ xmat r d m k (X t).
Proof.
  intros x d n m k X t H Ht. destruct (x_row_ok x d n [m; k] _ t H Ht) as [r [E [So D]]].
  exists r. split; auto.
Qed.
Lemma xcube_pos : forall x d n m k X, xcube x d n m k X -> 0 < n /\ 0 < m /\ 0 < k.
Proof.
  intros x d n m k X H. pose proof (xden_pos _ _ _ _ H) as P. inversion P as [|? ? P1 P2]; subst. inversion P2 as [|? ? P3 P4]; subst. inversion P4; subst. auto.
Qed.
Lemma x_stack_cube : forall l d m k F, l <> [] -> 0 < m -> 0 < k ->
  (forall j x, nth_error l j = Some x -> solid x /\ xmat x d m k (F j)) ->
  exists r, x_stack l = Ok r /\ xcube r d (length l) m k F.
Proof.
  intros l d m k F NE Pm Pk H.
  destruct (x_stack_ok l d [m; k] (fun j i => Fin (F j (nth 0 i 0) (nth 1 i 0))) NE) as [r [E D]].
  - cbn; lia.
  - constructor; auto.
  - exact H.
  - exists r. split; auto. eapply xden_ext; [exact D|]. intros i V. destruct i as [|i0 [|i1 [|i2 [|? ?]]]]; cbn in V; try tauto.
Qed.

Section Seq.
Context {S Sg : Type}.
Variables (blas : bool) (out : S -> xtensor) (outm : Sg -> matrix) (rel : S -> Sg -> Prop).
Variables (d : dtype) (B h : nat).
Hypothesis rel_out : forall s g, rel s g -> solid (out s) /\ xmat (out s) d B h (outm g).

Definition layer_ok (k : nat) (f : xtensor -> S -> outcome S) (g : matrix -> Sg -> Sg) : Prop :=
  forall x X s sg, xmat x d B k X -> fit blas x -> rel s sg -> exists s', f x s = Ok s' /\ rel s' (g X sg).
Fixpoint layers_ok (k : nat) (fs : list (xtensor -> S -> outcome S)) (gs : list (matrix -> Sg -> Sg)) : Prop :=
  match fs, gs with
  | [], [] => True
  | f :: fs, g :: gs => layer_ok k f g /\ layers_ok h fs gs
  | _, _ => False
  end.

Lemma through_ok : forall fs gs k x X st sg, fs <> [] -> layers_ok k fs gs -> length st = length fs ->
  Forall2 rel st sg -> xmat x d B k X -> fit blas x ->
  exists st' y, through out fs x st = Ok (st', y) /\ length st' = length fs /\
    Forall2 rel st' (fst (layers_at outm gs X sg)) /\
    solid y /\ xmat y d B h (snd (layers_at outm gs X sg)).
Proof.
  induction fs as [|f fs IH]; intros gs k x X st sg NE LO LE FR Xx Fx; [congruence|].
  destruct gs as [|g gs]; [destruct LO|]. destruct LO as [L1 L2]. destruct st as [|s st]; [discriminate|].
  inversion FR as [|? s0 ? sg' R1 R2]; subst.
  destruct (L1 x X s s0 Xx Fx R1) as [s' [E R']]. cbn [through layers_at]. rewrite E. cbn [bind].
  destruct (rel_out _ _ R') as [So Xo]. destruct fs as [|f2 fs].
  - destruct gs as [|? ?]; [|destruct L2]. cbn [length] in LE. destruct st; [|discriminate]. inversion R2; subst. cbn.
    exists [s'], (out s'). split; auto.
  - destruct (IH gs h (out s') (outm (g X s0)) st sg' ltac:(discriminate) L2 ltac:(cbn in *; lia) R2 Xo) as [st' [y [E2 [Ln [F2 [So2 X2]]]]]].
    { eapply solid_fit; eauto. }
    rewrite E2. cbn [bind fst snd]. exists (s' :: st'), y. split; auto. split; [cbn in *; lia|]. split; [constructor; auto|]. auto.
Qed.

Lemma unroll_ok : forall fs gs k T x X st0, fs <> [] -> layers_ok k fs gs -> xcube x d T B k X ->
  forall n a st, a + n <= T -> length st = length fs -> Forall2 rel st (states_at outm gs X st0 a) ->
  exists st' ys, unroll fs out x (seq a n) st = Ok (st', ys) /\ length st' = length fs /\
    Forall2 rel st' (states_at outm gs X st0 (a + n)) /\ length ys = n /\
    forall j y, nth_error ys j = Some y -> solid y /\ xmat y d B h (output_at outm gs X st0 (a + j)).
Proof.
  intros fs gs k T x X st0 NE LO Xx. induction n as [|n IH]; intros a st Hn Ls FR; cbn [seq unroll].
  - exists st, []. rewrite Nat.add_0_r. split; [auto|]. split; [auto|]. split; [auto|]. split; [auto|]. intros [|j] y J; discriminate.
  - destruct (xcube_row x d T B k X a Xx ltac:(lia)) as [r [Er [Sr Xr]]]. rewrite Er. cbn [bind].
    destruct (through_ok fs gs k r (X a) st _ NE LO Ls FR Xr) as [st' [y [E [L' [F' [Sy Xy]]]]]].
    { eapply solid_fit; eauto. }
    rewrite E. cbn [bind fst snd].
    destruct (IH (Datatypes.S a) st' ltac:(lia) L' F') as [st2 [ys [E2 [L2 [F2 [N2 H2]]]]]].
    rewrite E2. cbn [bind fst snd]. exists st2, (y :: ys). split; auto. split; auto.
    replace (a + Datatypes.S n) with (Datatypes.S a + n) by lia. split; auto. split; [cbn; lia|].
    intros [|j] z J; cbn in J.
    + inversion J; subst z. rewrite Nat.add_0_r. split; auto.
    + specialize (H2 j z J). replace (a + Datatypes.S j) with (Datatypes.S a + j) by lia. exact H2.
Qed.

Lemma forward_seq_ok : forall fs gs k T input X (bf : bool) init st sg, fs <> [] -> layers_ok k fs gs ->
  (if bf then xcube input d B T k (fun b t => X t b) else xcube input d T B k X) ->
  init B = Ok st -> length st = length fs -> Forall2 rel st sg ->
  exists o st', forward_seq fs out bf init input = Ok (o, st') /\ length st' = length fs /\
    Forall2 rel st' (states_at outm gs X sg T) /\
    (if bf then xcube o d B T h (fun b t => output_at outm gs X sg t b) else xcube o d T B h (output_at outm gs X sg)).
Proof.
  intros fs gs k T input X bf init st sg NE LO Xi Ei Ls FR.
  assert (Q : exists x, (if bf then x_view (VTranspose 0 1) input else Ok input) = Ok x /\ xcube x d T B k X /\
     idx_or_panic (xshape input) (if bf then 1 else 0) = Ok T /\ idx_or_panic (xshape input) (if bf then 0 else 1) = Ok B).
  { destruct bf.
    - destruct (xcube_transpose _ _ _ _ _ _ Xi) as [x [E D]]. exists x. split; auto. split; auto.
      rewrite (xden_shape _ _ _ _ Xi). auto.
    - exists input. split; auto. split; auto. rewrite (xden_shape _ _ _ _ Xi). auto. }
  destruct Q as [x [Ex [Xx [ET EB]]]]. unfold forward_seq. rewrite ET. cbn [bind]. rewrite EB. cbn [bind]. rewrite Ex. cbn [bind].
  rewrite Ei. cbn [bind].
  destruct (unroll_ok fs gs k T x X sg NE LO Xx T 0 st ltac:(lia) Ls FR) as [st' [ys [E [L' [F' [N' H']]]]]].
  rewrite E. cbn [bind fst snd]. destruct (xcube_pos _ _ _ _ _ _ Xx) as [PT [PB Pk]].
  assert (Ph : 0 < h).
  { destruct ys as [|y ys]; [cbn in N'; lia|]. destruct (H' 0 y eq_refl) as [_ Xy]. now destruct (xmat_pos _ _ _ _ _ Xy). }
  destruct (x_stack_cube ys d B h (output_at outm gs X sg)) as [o [Eo Xo]]; auto.
  { intros ->. cbn in N'. lia. }
  rewrite N' in Xo. rewrite Eo. cbn [bind]. destruct bf.
  - destruct (xcube_transpose _ _ _ _ _ _ Xo) as [o2 [Eo2 Xo2]]. rewrite Eo2. cbn [bind]. exists o2, st'. auto.
  - cbn [bind]. exists o, st'. auto.
Qed.
End Seq.
