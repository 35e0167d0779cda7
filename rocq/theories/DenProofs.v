(** The tensor operations, on tensors seen as functions ([den]). *)
From Coq Require Import List Arith ZArith Lia Bool Permutation.
From Verif Require Import Base IndexSpec LayoutModel ViewSpec LayoutProofs LayoutProofs2 BcastProofs.
From Verif Require Import KernelModel TensorModel TensorSpec KernelProofs TensorProofs ElementwiseProofs.
From Verif Require Import EncodeModel ReduceModel ReduceSpec ReduceProofs ReduceProofs2 DenSpec.
Import ListNotations.

Lemma den_ext : forall A (t : tensor A) s f g, den t s f -> (forall i, valid s i -> f i = g i) -> den t s g.
Proof.
  intros A t s f g [G [U [S [P H]]]] E. split; [auto|]. split; [auto|]. split; [auto|]. split; [auto|].
  intros i V. now rewrite H, E.
Qed.

Lemma zeros_valid : forall s, all_pos s -> valid s (repeat 0 (length s)).
Proof. induction s as [|d s IH]; intros P; cbn; auto. inversion P; subst. split; auto. Qed.
Lemma dot_zeros : forall n st, dot (repeat 0 n) st = 0.
Proof. induction n as [|n IH]; intros [|x st]; cbn; auto. Qed.
Lemma addr_zeros : forall l n, addr l (repeat 0 n) = loffset l.
Proof. intros. unfold addr. rewrite dot_zeros. lia. Qed.

Lemma usable_contig : forall A (z : A) t c, good t -> usable t -> t_contiguous z t = Ok c ->
  loffset (tlay c) = 0.
Proof.
  intros A z t c G U E. destruct (t_contiguous_spec A z t G) as [c' [E' [_ [_ [_ [_ [Hs Hc]]]]]]].
  rewrite E in E'. inversion E'; subst c'. destruct (is_contiguous (tlay t)) eqn:C.
  - rewrite Hs by auto. destruct U as [U|U]; congruence.
  - destruct (Hc eq_refl) as [-> _]. reflexivity.
Qed.

(** views other than slices keep the offset *)
Lemma apply_view_offset : forall o l l', (forall a b c d, o <> VSlice a b c d) ->
  apply_view l o = Ok l' -> loffset l' = loffset l.
Proof.
  intros o l l' N E. destruct o; cbn in E.
  - unfold reshape in E. destruct (negb _); [discriminate|]. destruct (negb _); [discriminate|]. now inversion E.
  - unfold flatten in E. destruct (negb _); [discriminate|]. now inversion E.
  - unfold squeeze in E. destruct (negb _); [discriminate|].
    destruct (match dims with [] => _ | _ => _ end); cbn in E; try discriminate. now inversion E.
  - unfold unsqueeze in E. destruct (as_usize _); [|discriminate]. destruct (_ <? _); [discriminate|].
    destruct (negb _); [discriminate|]. now inversion E.
  - unfold broadcast_to in E. destruct (_ <? _); [discriminate|].
    destruct (broadcast_strides _ _ _ _); cbn in E; try discriminate. now inversion E.
  - unfold transpose in E. destruct (_ <? _); [discriminate|].
    destruct (ok_or _ _); cbn in E; try discriminate. destruct (ok_or _ _); cbn in E; try discriminate.
    destruct (swap _ _ _); cbn in E; try discriminate. destruct (swap _ _ _); cbn in E; try discriminate.
    now inversion E.
  - unfold permute in E. destruct (negb _); [discriminate|].
    destruct (permute_axes _ _ _); cbn in E; try discriminate. destruct (LayoutModel.pick (lshape l) _); cbn in E; try discriminate.
    destruct (LayoutModel.pick (lstrides l) _); cbn in E; try discriminate. now inversion E.
  - exfalso. eapply N. reflexivity.
Qed.

Lemma t_view_usable : forall A (z : A) o t t', (forall a b c d, o <> VSlice a b c d) ->
  good t -> usable t -> t_view z o t = Ok t' -> loffset (tlay t') = 0.
Proof.
  intros A z o t t' N G U E. destruct (t_contiguous_spec A z t G) as [c [Ec _]].
  rewrite (t_view_unfold A z o t c G Ec) in E.
  destruct (apply_view (tlay c) o) as [l| |] eqn:Ev; try discriminate. inversion E; subst.
  cbn. rewrite (apply_view_offset o (tlay c) l N Ev). eapply usable_contig; eauto.
Qed.

(** any view but slicing, given where each index comes from *)
Lemma den_view : forall A (z : A) o t s s' f g, (forall a b c d, o <> VSlice a b c d) ->
  den t s f -> regular o s -> shape_rel o s s' -> all_pos s' ->
  (forall i j, valid s' i -> valid s j -> index_rel o s s' i j -> g i = f j) ->
  exists t', t_view z o t = Ok t' /\ den t' s' g.
Proof.
  intros A z o t s s' f g N [G [U [S [P H]]]] R SR P' HI. subst s.
  destruct (t_view_total A z o t s' G R SR) as [t' [E Es]]. exists t'. split; auto.
  destruct (t_view_spec A z o t t' G R E) as [G' [_ HJ]].
  split; [auto|]. split; [left; exact (t_view_usable A z o t t' N G U E)|]. split; [auto|]. split; [auto|].
  intros i V. rewrite Es in HJ. destruct (HJ i V) as [j [IR [Vj Ej]]].
  rewrite Ej, H by auto. f_equal. symmetry. now apply HI.
Qed.

Lemma ravel_inj : forall s i j, valid s i -> valid s j -> ravel s i = ravel s j -> i = j.
Proof. intros s i j Vi Vj E. rewrite <- (unravel_ravel s i Vi), <- (unravel_ravel s j Vj). now rewrite E. Qed.

(** reshape and its like: the same elements in row-major order *)
Lemma den_reshape : forall A (z : A) t s s' f, den t s f -> nelem s' = nelem s ->
  exists t', t_view z (VReshape s') t = Ok t' /\ den t' s' (fun i => f (unravel s (ravel s' i))).
Proof.
  intros A z t s s' f D E.
  assert (P' : all_pos s').
  { destruct D as [_ [_ [_ [P _]]]]. apply all_pos_nelem in P. rewrite <- E in P.
    clear - P. induction s' as [|d s' IH]; [constructor|]. rewrite nelem_cons in P.
    constructor; [lia|]. apply IH. lia. }
  apply (den_view A z (VReshape s') t s s' f); auto; try discriminate.
  - exact I.
  - split; auto.
  - intros i j Vi Vj IR. cbn in IR. f_equal. rewrite <- IR. now apply unravel_ravel.
Qed.

Lemma den_unary : forall A B e (z : B) (op : A -> B) t s f, env_ok e -> den t s f ->
  exists t', t_unary e z op t = Ok t' /\ den t' s (fun i => op (f i)).
Proof.
  intros A B e z op t s f He [G [U [S [P H]]]]. subst s.
  assert (OR : offset_read (tlay t)).
  { destruct U as [U|U]; [right; auto|left]. intro E. unfold is_contiguous in U. rewrite E in U.
    rewrite combine_nil in U. discriminate. }
  destruct (t_unary_spec A B e z op t He G OR) as [t' [E [G' [S' [L [_ HE]]]]]].
  exists t'. split; auto. split; [auto|]. split; [left; now rewrite L|]. split; [auto|]. split; [auto|].
  intros i V. rewrite HE, H by auto. reflexivity.
Qed.

Lemma t_full_good_den : forall A (v : A) s, all_pos s -> den (mkT (repeat v (nelem s)) (from_shape s)) s (fun _ => v).
Proof.
  intros A v s P. split; [apply from_shape_good; apply repeat_length|]. split; [left; reflexivity|].
  split; [reflexivity|]. split; [auto|]. intros i V. unfold elem. cbn [tstore tlay]. rewrite addr_from_shape by (now apply valid_length).
  pose proof (ravel_lt s i V) as L.
  destruct (nth_error (repeat v (nelem s)) (ravel s i)) as [w|] eqn:E.
  - apply nth_error_In in E. apply repeat_spec in E. now subst.
  - apply nth_error_None in E. rewrite repeat_length in E. lia.
Qed.

(** broadcasting the right operand *)
Lemma den_binary : forall A C B e (za : A) (zc : C) (z : B) op a b s sb f g, env_ok e ->
  den a s f -> den b sb g -> bcast s sb s ->
  exists t, t_binary e za zc z op a b = Ok t /\ den t s (fun i => op (f i) (g (bidx sb i))).
Proof.
  intros A C B e za zc z op a b s sb f g He [Ga [Ua [Sa [Pa Ha]]]] [Gb [Ub [Sb [Pb Hb]]]] HB.
  subst s sb.
  destruct (t_binary_storage A C B e za zc z op a b (tshape a)) as [t [a' [E [S [Ta [L [Ls Hv]]]]]]]; auto.
  destruct (t_contiguous_spec A za a Ga) as [c [Ec [Gc [Sc [Cc [_ [Hsame Hcopy]]]]]]].
  destruct (t_broadcast_addr A za a c (tshape a) a' Ga Ec Ta) as [Sa' [_ Had]].
  assert (Hoff : loffset (tlay c) = 0) by (exact (usable_contig A za a c Ga Ua Ec)).
  destruct (t_broadcast_spec A za a (tshape a) Ga) as [a2 [E2 [Ga2 _]]].
  { apply (proj1 (bcast_views _ _ _ HB)). }
  rewrite Ta in E2. inversion E2; subst a2. clear E2.
  assert (AD : forall i, valid (tshape a) i -> addr (tlay t) i = ravel (tshape a) i).
  { intros i Hi. rewrite L, Had, bidx_self by auto. rewrite addr_contiguous; auto; [|apply Gc|].
    - rewrite Hoff. change (lshape (tlay c)) with (tshape c). now rewrite Sc.
    - change (lshape (tlay c)) with (tshape c). rewrite Sc. now apply valid_length. }
  exists t. split; auto. split.
  { split; [rewrite L; apply Ga2|]. intros i Hi. change (lshape (tlay t)) with (tshape t) in Hi.
    rewrite S in Hi. rewrite AD, Ls by auto. now apply ravel_lt. }
  split.
  { left. pose proof (zeros_valid _ Pa) as ZV. pose proof (AD _ ZV) as A0. rewrite addr_zeros in A0.
    rewrite A0. clear. induction (tshape a) as [|d l IH]; cbn; auto. }
  split; [auto|]. split; [auto|].
  intros i Hi. destruct (Hv i Hi) as [x [y [Hx [Hy Hz]]]]. rewrite bidx_self in Hx by auto.
  unfold elem. rewrite AD by auto. rewrite Hz. rewrite Ha in Hx by auto.
  rewrite Hb in Hy.
  - inversion Hx. inversion Hy. reflexivity.
  - destruct (t_broadcast_spec C zc b (tshape a) Gb) as [b2 [_ [_ [_ Hb2]]]].
    + apply (proj2 (bcast_views _ _ _ HB)).
    + now apply Hb2.
Qed.

(** operands of one shape *)
Lemma den_binary_same : forall A C B e (za : A) (zc : C) (z : B) op a b s f g, env_ok e ->
  den a s f -> den b s g ->
  exists t, t_binary e za zc z op a b = Ok t /\ den t s (fun i => op (f i) (g i)).
Proof.
  intros A C B e za zc z op a b s f g He Da Db.
  destruct (den_binary A C B e za zc z op a b s s f g He Da Db) as [t [E D]].
  - apply bcast_idem.
  - exists t. split; auto. eapply den_ext; [exact D|]. intros i V. cbn. now rewrite bidx_self.
Qed.

(* ---------- reductions ---------- *)

Lemma set_axes_length : forall A ds (v : A) s k, length (set_axes ds v k s) = length s.
Proof. induction s as [|x s IH]; intros k; cbn; auto. Qed.
Lemma set_axes_pos : forall ds s k, all_pos s -> all_pos (set_axes ds 1 k s).
Proof. induction s as [|x s IH]; intros k P; cbn; constructor; inversion P; subst; [destruct in_dec; lia|now apply IH]. Qed.
Lemma drop_axes_pos : forall ds s k, all_pos s -> all_pos (drop_axes ds k s).
Proof.
  induction s as [|x s IH]; intros k P; cbn; [constructor|]. inversion P; subst.
  destruct in_dec; [now apply IH|]. constructor; auto. now apply IH.
Qed.
Lemma rshape_pos : forall keep ds s, all_pos s -> all_pos (rshape keep ds s).
Proof. intros [] ds s P; cbn; [now apply set_axes_pos|now apply drop_axes_pos]. Qed.

Lemma den_reduce : forall A B C (init : B) (f : B -> A -> B) (fin : nat -> B -> C) z
    (t : tensor A) dims ds keep s g, (forall b x y, f (f b x) y = f (f b y) x) ->
  den t s g -> ReduceSpec.axes_of (length s) dims ds -> NoDup ds -> length s <= 16 ->
  exists r, t_reduce init (plain f) fin z t dims keep = Ok r /\
    den r (rshape keep ds s)
      (fun j => fin (nelem (extents ds s)) (fold_left f (map g (fibre keep ds s j)) init)).
Proof.
  intros A B C init f fin z t dims ds keep s g HC [G [U [S [P H]]]] Hax ND HR. subst s.
  destruct (elem t (repeat 0 (length (tshape t)))) as [d0|] eqn:E0.
  2:{ rewrite H in E0 by now apply zeros_valid. discriminate. }
  destruct (reduce_any_order A B C init f fin z d0 t dims ds keep HC G Hax ND HR) as [r [E [Gr [L HJ]]]].
  { right. intros a d Ed _. apply nth_error_In in Ed. unfold all_pos in P. rewrite Forall_forall in P. now apply P. }
  assert (Sr : tshape r = rshape keep ds (tshape t)) by (unfold tshape at 1; now rewrite L).
  exists r. split; auto. split; [auto|]. split; [left; now rewrite L|]. split; [auto|].
  split; [now apply rshape_pos|]. intros j V. rewrite <- Sr in V. destruct (HJ j V) as [vs [F Er]].
  rewrite Er. do 3 f_equal. symmetry.
  assert (FV : Forall (valid (tshape t)) (fibre keep ds (tshape t) j)).
  { apply Forall_forall. intros i Hi. apply filter_In in Hi. destruct Hi as [Hi _]. now apply in_all_idx. }
  clear - F FV H. induction F as [|i v l l' E F IH]; cbn; auto.
  inversion FV; subst. rewrite H in E by auto. inversion E. f_equal. auto.
Qed.

(** a reduction whose result does not depend on the order for these values *)
Lemma den_reduce_by : forall A B C (init : B) (f : B -> A -> B) (fin : nat -> B -> C) z
    (t : tensor A) dims ds keep s g h,
  den t s g -> ReduceSpec.axes_of (length s) dims ds -> NoDup ds -> length s <= 16 ->
  (forall j l, valid (rshape keep ds s) j -> Permutation l (fibre keep ds s j) ->
     fin (nelem (extents ds s)) (fold_left f (map g l) init) = h j) ->
  exists r, t_reduce init (plain f) fin z t dims keep = Ok r /\ den r (rshape keep ds s) h.
Proof.
  intros A B C init f fin z t dims ds keep s g h [G [U [S [P H]]]] Hax ND HR HH. subst s.
  destruct (elem t (repeat 0 (length (tshape t)))) as [d0|] eqn:E0.
  2:{ rewrite H in E0 by now apply zeros_valid. discriminate. }
  destruct (reduce_plain A B C init f fin z d0 t dims ds keep) as [r [E [Gr [L HJ]]]]; auto.
  { right. intros a d Ed _. apply nth_error_In in Ed. unfold all_pos in P. rewrite Forall_forall in P. now apply P. }
  assert (Sr : tshape r = rshape keep ds (tshape t)) by (unfold tshape at 1; now rewrite L).
  exists r. split; auto. split; [auto|]. split; [left; now rewrite L|]. split; [auto|].
  split; [now apply rshape_pos|]. intros j V. rewrite <- Sr in V. destruct (HJ j V) as [I [vs [PI [F Er]]]].
  rewrite Er. f_equal. rewrite Sr in V. rewrite <- (HH j I V PI). do 2 f_equal.
  assert (FV : Forall (valid (tshape t)) I).
  { apply Forall_forall. intros i Hi. apply (Permutation_in _ PI) in Hi. apply filter_In in Hi.
    destruct Hi as [Hi _]. now apply in_all_idx. }
  clear - F FV H. induction F as [|i v l l' E F IH]; cbn; auto.
  inversion FV; subst. rewrite H in E by auto. inversion E. f_equal. auto.
Qed.
