(** Operations on dtype-tagged tensors seen as functions. *)
From Coq Require Import List Arith ZArith Lia Bool Permutation Reals Lra.
From Verif Require Import Base IndexSpec LayoutModel ViewSpec LayoutProofs LayoutProofs2 BcastProofs.
From Verif Require Import KernelModel TensorModel TensorSpec KernelProofs TensorProofs ElementwiseProofs.
From Verif Require Import EncodeModel ReduceModel ReduceSpec ReduceProofs ReduceProofs2 SelectModel.
From Verif Require Import NumModel DenSpec DenProofs NnModel NnSpec.
Import ListNotations.
Open Scope nat_scope.

(* ---------- lists ---------- *)

Lemma set_axes_one : forall A (v : A) d l k, set_axes [d + k] v k l = upd l d v.
Proof.
  intros A v. induction d as [|d IH]; intros [|x l] k; cbn [set_axes upd]; auto.
  - cbn [plus]. destruct in_dec as [|N]; [|exfalso; apply N; now left]. f_equal.
    assert (G : forall m, k < m -> set_axes [k] v m l = l).
    { clear. induction l as [|y l IH]; intros m H; cbn [set_axes]; auto.
      destruct in_dec as [[E|[]]|_]; [lia|]. now rewrite IH by lia. }
    apply G. lia.
  - destruct in_dec as [[E|[]]|_]; [lia|]. f_equal.
    replace (S d + k) with (d + S k) by lia. apply IH.
Qed.
Lemma rshape_one : forall d s, rshape true [d] s = upd s d 1.
Proof. intros. unfold rshape. replace d with (d + 0) at 1 by lia. apply set_axes_one. Qed.
Lemma rproj_one : forall d s, rproj true [d] s = upd s d 0.
Proof. intros. unfold rproj. replace d with (d + 0) at 1 by lia. apply set_axes_one. Qed.

Lemma upd_upd : forall A (l : list A) d x y, upd (upd l d x) d y = upd l d y.
Proof. induction l as [|a l IH]; intros [|d] x y; cbn; auto. now rewrite IH. Qed.
Lemma upd_same : forall (l : list nat) d, upd l d (nth d l 0) = l.
Proof. induction l as [|a l IH]; intros [|d]; cbn; auto. now rewrite IH. Qed.
Lemma nth_upd_same : forall (l : list nat) d x, d < length l -> nth d (upd l d x) 0 = x.
Proof. induction l as [|a l IH]; intros [|d] x H; cbn in *; try lia; auto. apply IH. lia. Qed.
Lemma upd_len : forall A (l : list A) d x, length (upd l d x) = length l.
Proof. induction l as [|a l IH]; intros [|d] x; cbn; auto. Qed.
Lemma valid_upd : forall s i d n k, valid s i -> nth_error s d = Some n -> k < n -> valid s (upd i d k).
Proof.
  induction s as [|a s IH]; intros [|x i] [|d] n k V E K; cbn in *; try discriminate; try tauto.
  - inversion E; subst. tauto.
  - destruct V as [V1 V2]. split; auto. eapply IH; eauto.
Qed.
Lemma valid_upd1 : forall s i d, valid s i -> valid (upd s d 1) (upd i d 0).
Proof.
  induction s as [|a s IH]; intros [|x i] [|d] V; cbn in *; try tauto.
  - destruct V. split; auto.
  - destruct V. split; auto.
Qed.
Lemma valid_upd1_inv : forall s j d n, valid (upd s d 1) j -> nth_error s d = Some n -> 0 < n -> valid s j.
Proof.
  induction s as [|a s IH]; intros [|x j] [|d] n V E N; cbn in *; try discriminate; try tauto.
  - inversion E; subst. destruct V. split; [lia|auto].
  - destruct V. split; auto. eapply IH; eauto.
Qed.
Lemma valid_upd1_zero : forall s j d n, valid (upd s d 1) j -> nth_error s d = Some n -> nth d j 0 = 0.
Proof.
  induction s as [|a s IH]; intros [|x j] [|d] n V E; cbn in *; try discriminate; try tauto.
  - lia.
  - destruct V. eapply IH; eauto.
Qed.
Lemma valid_nth : forall s i d n, valid s i -> nth_error s d = Some n -> nth d i 0 < n.
Proof.
  induction s as [|a s IH]; intros [|x i] [|d] n V E; cbn in *; try discriminate; try tauto.
  - inversion E; subst. tauto.
  - destruct V. eapply IH; eauto.
Qed.

Lemma fibre_one : forall d s j n, nth_error s d = Some n -> valid (upd s d 1) j ->
  Permutation (map (fun k => upd j d k) (seq 0 n)) (fibre true [d] s j).
Proof.
  intros d s j n E V.
  assert (DL : d < length s) by (apply nth_error_Some; congruence).
  assert (LJ : length j = length s) by (apply valid_length in V; now rewrite upd_len in V).
  destruct n as [|n'].
  { cbn. unfold fibre. apply Permutation_sym. replace (all_idx s) with (@nil (list nat)); auto.
    destruct (all_idx s) as [|i l] eqn:Ei; auto. exfalso.
    assert (In i (all_idx s)) as I by (rewrite Ei; now left). apply in_all_idx in I.
    pose proof (valid_nth _ _ _ _ I E). lia. }
  set (n := S n') in *.
  apply NoDup_Permutation.
  - apply NoDup_map_inj; [|apply seq_NoDup].
    intros x y _ _ H. apply (f_equal (fun l => nth d l 0)) in H. now rewrite !nth_upd_same in H by lia.
  - apply NoDup_filter. apply all_idx_NoDup.
  - intros i. rewrite in_map_iff. unfold fibre. rewrite filter_In, in_all_idx, rproj_one. split.
    + intros [k [<- K]]. apply in_seq in K. split.
      * apply valid_upd with (n := n); auto; [|lia]. eapply valid_upd1_inv; eauto. unfold n; lia.
      * rewrite upd_upd. destruct list_eq_dec as [_|N]; auto. exfalso; apply N.
        rewrite <- (valid_upd1_zero s j d n V E). apply upd_same.
    + intros [Vi H]. destruct list_eq_dec as [H'|_]; [|discriminate]. subst j.
      exists (nth d i 0). split.
      * rewrite upd_upd. apply upd_same.
      * apply in_seq. pose proof (valid_nth _ _ _ _ Vi E). lia.
Qed.

Lemma bidx_upd1 : forall s i d, valid s i -> bidx (upd s d 1) i = upd i d 0.
Proof.
  intros s i d V. assert (L : length i = length s) by now apply valid_length.
  unfold bidx. rewrite upd_len, L, Nat.sub_diag. cbn [skipn].
  revert i V L d. induction s as [|a s IH]; intros [|x i] V L d; cbn in *; try lia.
  - destruct d; auto.
  - destruct V as [V1 V2]. destruct d as [|d]; cbn.
    + f_equal. clear - V2. revert i V2. induction s as [|b s IH]; intros [|y i] V; cbn in *; try tauto.
      destruct V. destruct (b =? 1) eqn:B; f_equal; auto. apply Nat.eqb_eq in B. lia.
    + destruct (a =? 1) eqn:B; f_equal; try (apply IH; auto; lia). apply Nat.eqb_eq in B. lia.
Qed.

(* ---------- dtypes ---------- *)

Lemma same_dtype_iff : forall a b, same_dtype a b = true <-> a = b.
Proof.
  intros a b. unfold same_dtype. rewrite Nat.eqb_eq. split; [|now intros ->].
  destruct a, b; cbn; intros H; try reflexivity; discriminate.
Qed.
Lemma same_dtype_refl : forall a, same_dtype a a = true.
Proof. intros a. now apply same_dtype_iff. Qed.
Lemma float_allowed : forall c d, is_float d = true -> allowed c d = true.
Proof. intros [] []; cbn; auto; discriminate. Qed.

(* ---------- sums ---------- *)

Lemma Rsum_app : forall a b, Rsum (a ++ b) = (Rsum a + Rsum b)%R.
Proof. induction a as [|x a IH]; intros b; cbn [app Rsum]; [lra|]. rewrite IH. lra. Qed.
Lemma Rsum_perm : forall a b, Permutation a b -> Rsum a = Rsum b.
Proof. induction 1; cbn [Rsum]; lra. Qed.
Lemma Rsum_ext : forall A (l : list A) f g, (forall x, In x l -> f x = g x) -> Rsum (map f l) = Rsum (map g l).
Proof.
  intros A l f g H. f_equal. now apply map_ext_in.
Qed.
Lemma Rsum_scale : forall A (l : list A) f c, Rsum (map (fun x => f x * c)%R l) = (Rsum (map f l) * c)%R.
Proof. induction l as [|x l IH]; intros f c; cbn [map Rsum]; [lra|]. rewrite IH. lra. Qed.
Lemma Rsum_nonneg : forall l, Forall (fun x => 0 <= x)%R l -> (0 <= Rsum l)%R.
Proof. induction 1; cbn [Rsum]; lra. Qed.
Lemma Rsum_ge : forall l x, Forall (fun x => 0 <= x)%R l -> In x l -> (x <= Rsum l)%R.
Proof.
  induction l as [|y l IH]; intros x F I; [contradiction|]. inversion F; subst. cbn [Rsum].
  destruct I as [->|I]; [pose proof (Rsum_nonneg l H2); lra|]. specialize (IH x H2 I). lra.
Qed.
Lemma fold_xadd : forall A (l : list A) r a,
  fold_left xadd (map (fun i => Fin (r i)) l) (Fin a) = Fin (a + Rsum (map r l))%R.
Proof.
  induction l as [|x l IH]; intros r a; cbn [map fold_left Rsum]; [f_equal; lra|].
  cbn [xadd]. rewrite IH. f_equal. lra.
Qed.

Lemma fibre_in : forall keep ds s j i, In i (fibre keep ds s j) -> valid s i.
Proof. intros keep ds s j i H. apply filter_In in H. now apply in_all_idx. Qed.

(* ---------- the operations ---------- *)

Lemma bcast_ones : forall s sb, Forall2 (fun x y => y = x \/ y = 1) s sb -> bcast s sb s.
Proof.
  intros s sb F. assert (L : length s = length sb) by (induction F; cbn; lia).
  split; [lia|]. intros k. destruct (lt_dec k (length s)) as [K|K].
  - rewrite !rev_nth by lia. rewrite <- L.
    assert (G : forall n, n < length s -> nth n sb 1 = nth n s 1 \/ nth n sb 1 = 1).
    { clear - F. induction F as [|x y l l' H F IH]; intros [|n] K; cbn in *; try lia. apply IH. lia. }
    destruct (G (length s - S k)) as [->| ->]; [lia|left; auto|right; right; auto].
  - rewrite !nth_overflow by (rewrite rev_length; lia). left; auto.
Qed.
Lemma bcast_upd1 : forall s k, bcast s (upd s k 1) s.
Proof.
  intros s k. apply bcast_ones. revert k.
  induction s as [|a s IH]; intros [|k]; cbn; constructor; auto.
  clear. induction s; constructor; auto.
Qed.

Section Ops.
Variable e : env.
Hypothesis He : env_ok e.

Lemma xden_ext : forall x d s f g, xden x d s f -> (forall i, valid s i -> f i = g i) -> xden x d s g.
Proof. intros x d s f g [D H] E. split; auto. eapply den_ext; eauto. Qed.
Lemma xden_shape : forall x d s f, xden x d s f -> xshape x = s.
Proof. intros x d s f [_ [_ [_ [S _]]]]. exact S. Qed.
Lemma xden_pos : forall x d s f, xden x d s f -> all_pos s.
Proof. intros x d s f [_ [_ [_ [_ [P _]]]]]. exact P. Qed.

Lemma xden_binary : forall c op a b d s sb f g, allowed c d = true ->
  xden a d s f -> xden b d sb g -> bcast s sb s ->
  exists t, x_binary e c op a b = Ok t /\ xden t d s (fun i => op (f i) (g (bidx sb i))).
Proof.
  intros c op a b d s sb f g C [Da Ha] [Db Hb] HB. unfold x_binary. rewrite Da, Db, same_dtype_refl, C.
  destruct (den_binary _ _ _ e (Fin 0) (Fin 0) (Fin 0) op _ _ s sb f g He Ha Hb HB) as [t [E D]].
  rewrite E. eexists. split; [reflexivity|]. split; auto.
Qed.
Lemma xden_binary_same : forall c op a b d s f g, allowed c d = true ->
  xden a d s f -> xden b d s g ->
  exists t, x_binary e c op a b = Ok t /\ xden t d s (fun i => op (f i) (g i)).
Proof.
  intros c op a b d s f g C Ha Hb.
  destruct (xden_binary c op a b d s s f g C Ha Hb) as [t [E D]]; [apply bcast_idem|].
  exists t. split; auto. eapply xden_ext; [exact D|]. intros i V. cbn. now rewrite bidx_self.
Qed.
(** the right operand has size 1 along axis [k] *)
Lemma xden_binary_axis : forall c op a b d s k f g, allowed c d = true ->
  xden a d s f -> xden b d (upd s k 1) g ->
  exists t, x_binary e c op a b = Ok t /\ xden t d s (fun i => op (f i) (g (upd i k 0))).
Proof.
  intros c op a b d s k f g C Ha Hb.
  destruct (xden_binary c op a b d s (upd s k 1) f g C Ha Hb) as [t [E D]].
  - apply bcast_upd1.
  - exists t. split; auto. eapply xden_ext; [exact D|]. intros i V. cbn. now rewrite bidx_upd1.
Qed.
Lemma xden_unary : forall c op a d s f, allowed c d = true -> xden a d s f ->
  exists t, x_unary e c op a = Ok t /\ xden t d s (fun i => op (f i)).
Proof.
  intros c op a d s f C [Da Ha]. unfold x_unary. rewrite Da, C.
  destruct (den_unary _ _ e (Fin 0) op _ s f He Ha) as [t [E D]]. rewrite E.
  eexists. split; [reflexivity|]. split; auto.
Qed.
Lemma xden_scalar : forall c op a d s f v, allowed c d = true -> xden a d s f ->
  exists t, x_scalar e c op a (d, v) = Ok t /\ xden t d s (fun i => op (f i) v).
Proof.
  intros c op a d s f v C [Da Ha]. unfold x_scalar. cbn [fst snd]. rewrite Da, C, same_dtype_refl. cbn.
  destruct (den_unary _ _ e (Fin 0) (fun x => op x v) _ s f He Ha) as [t [E D]]. rewrite E.
  eexists. split; [reflexivity|]. split; auto.
Qed.
Lemma xden_full_like : forall v a d s f, xden a d s f -> xden (x_full_like v a) d s (fun _ => Fin v).
Proof.
  intros v a d s f H. pose proof (xden_shape _ _ _ _ H) as S. pose proof (xden_pos _ _ _ _ H) as P.
  destruct H as [D _]. split; [exact D|]. unfold x_full_like. cbn [xdata]. rewrite S.
  now apply t_full_good_den.
Qed.

Lemma xden_reduce : forall c init op fi a dims ds keep d s f h, allowed c d = true -> xden a d s f ->
  ReduceSpec.axes_of (length s) dims ds -> NoDup ds -> length s <= 16 ->
  (forall j l, valid (rshape keep ds s) j -> Permutation l (fibre keep ds s j) ->
     fi (nelem (extents ds s)) (fold_left op (map f l) init) = h j) ->
  exists r, x_reduce c init op fi a dims keep = Ok r /\ xden r d (rshape keep ds s) h.
Proof.
  intros c init op fi a dims ds keep d s f h C [Da Ha] Hax ND HR HH. unfold x_reduce. rewrite Da, C.
  destruct (den_reduce_by _ _ _ init op fi (Fin 0) _ dims ds keep s f h Ha Hax ND HR HH) as [r [E D]].
  rewrite E. eexists. split; [reflexivity|]. split; auto.
Qed.

Lemma xden_sum : forall a dims ds keep d s r, is_float d = true -> xden a d s (fun i => Fin (r i)) ->
  ReduceSpec.axes_of (length s) dims ds -> NoDup ds -> length s <= 16 ->
  exists t, x_sum a dims keep = Ok t /\
    xden t d (rshape keep ds s) (fun j => Fin (Rsum (map r (fibre keep ds s j)))).
Proof.
  intros a dims ds keep d s r F Ha Hax ND HR. apply (xden_reduce _ _ _ _ _ dims ds keep d s (fun i => Fin (r i))); auto.
  - now apply float_allowed.
  - intros j l _ P. rewrite fold_xadd. f_equal. rewrite Rplus_0_l. apply Rsum_perm. now apply Permutation_map.
Qed.

Lemma extents_pos : forall ds s, all_pos s -> Forall (fun d => d < length s) ds -> 0 < nelem (extents ds s).
Proof.
  intros ds s P F. apply all_pos_nelem. unfold extents. apply Forall_forall. intros x Hx.
  apply in_map_iff in Hx. destruct Hx as [d [<- Hd]]. rewrite Forall_forall in F. specialize (F d Hd).
  unfold all_pos in P. rewrite Forall_forall in P. apply P. now apply nth_In.
Qed.
Lemma xdiv_fin : forall a b, (b <> 0)%R -> xdiv (Fin a) (Fin b) = Fin (a / b).
Proof. intros a b H. unfold xdiv. destruct (Req_EM_T b 0); [contradiction|reflexivity]. Qed.
Lemma INR_pos : forall n, 0 < n -> (INR n <> 0)%R.
Proof. intros n H. apply not_0_INR. lia. Qed.

Lemma xden_mean : forall a dims ds keep d s r, is_float d = true -> xden a d s (fun i => Fin (r i)) ->
  ReduceSpec.axes_of (length s) dims ds -> NoDup ds -> length s <= 16 ->
  exists t, x_mean a dims keep = Ok t /\
    xden t d (rshape keep ds s)
      (fun j => Fin (Rsum (map r (fibre keep ds s j)) / INR (nelem (extents ds s)))).
Proof.
  intros a dims ds keep d s r F Ha Hax ND HR. pose proof (xden_pos _ _ _ _ Ha) as P.
  apply (xden_reduce _ _ _ _ _ dims ds keep d s (fun i => Fin (r i))); auto.
  - intros j l _ PL. rewrite fold_xadd. rewrite Rplus_0_l. unfold nat_x.
    rewrite (Rsum_perm _ _ (Permutation_map r PL)). apply xdiv_fin. apply INR_pos.
    apply extents_pos; auto. apply axes_lt with (dims := dims). auto.
Qed.

(* all axes *)
Lemma drop_all : forall A (l : list A) n k, length l + k <= n -> drop_axes (seq 0 n) k l = [].
Proof.
  intros A. induction l as [|x l IH]; intros n k H; cbn [drop_axes]; auto. cbn in H.
  destruct in_dec as [_|N]; [apply IH; lia|]. exfalso. apply N. apply in_seq. lia.
Qed.
Lemma filter_all : forall A (p : A -> bool) l, (forall x, In x l -> p x = true) -> filter p l = l.
Proof.
  intros A p. induction l as [|x l IH]; intros H; cbn; auto. rewrite H by now left.
  f_equal. apply IH. intros y Hy. apply H. now right.
Qed.
Lemma fibre_all : forall s, fibre false (seq 0 (length s)) s [] = all_idx s.
Proof.
  intros s. unfold fibre. apply filter_all. intros i Hi. apply in_all_idx in Hi. apply valid_length in Hi.
  unfold rproj. rewrite drop_all by lia. now destruct list_eq_dec.
Qed.
Lemma extents_all : forall s, extents (seq 0 (length s)) s = s.
Proof.
  intros s. unfold extents. induction s as [|a s IH]; auto.
  cbn [length seq map nth]. f_equal. rewrite <- seq_shift, map_map. exact IH.
Qed.
Lemma rshape_all : forall s, rshape false (seq 0 (length s)) s = [].
Proof. intros s. unfold rshape. apply drop_all. lia. Qed.

Lemma valid_nil : forall j, valid [] j -> j = [].
Proof. intros [|x j]; cbn; tauto. Qed.

Lemma xden_mean_all : forall a d s r, is_float d = true -> xden a d s (fun i => Fin (r i)) ->
  length s <= 16 -> exists t, x_mean_all a = Ok t /\ xden t d [] (fun _ => Fin (Rmean s r)).
Proof.
  intros a d s r F Ha HR. unfold x_mean_all.
  destruct (xden_mean a [] (seq 0 (length s)) false d s r F Ha) as [t [E D]]; auto.
  - reflexivity.
  - apply seq_NoDup.
  - exists t. split; auto. rewrite rshape_all in D. eapply xden_ext; [exact D|].
    intros i V. apply valid_nil in V. subst i. cbn beta. rewrite fibre_all, extents_all. reflexivity.
Qed.
Lemma xden_sum_all : forall a d s r, is_float d = true -> xden a d s (fun i => Fin (r i)) ->
  length s <= 16 -> exists t, x_sum_all a = Ok t /\ xden t d [] (fun _ => Fin (Rsum (map r (all_idx s)))).
Proof.
  intros a d s r F Ha HR. unfold x_sum_all.
  destruct (xden_sum a [] (seq 0 (length s)) false d s r F Ha) as [t [E D]]; auto.
  - reflexivity.
  - apply seq_NoDup.
  - exists t. split; auto. rewrite rshape_all in D. eapply xden_ext; [exact D|].
    intros i V. apply valid_nil in V. subst i. cbn beta. now rewrite fibre_all.
Qed.
End Ops.

(** a tensor written out *)
Definition xlist (d : dtype) (s : list nat) (l : list xr) : xtensor := mkX d (mkT l (from_shape s)).
Lemma xlist_den : forall d s l, length l = nelem s -> all_pos s ->
  xden (xlist d s l) d s (fun i => nth (ravel s i) l Nan).
Proof.
  intros d s l L P. split; [reflexivity|]. cbn. split; [now apply from_shape_good|].
  split; [left; reflexivity|]. split; [reflexivity|]. split; [auto|].
  intros i V. unfold elem. cbn [tstore tlay]. rewrite addr_from_shape by (now apply valid_length).
  apply nth_error_nth'. rewrite L. now apply ravel_lt.
Qed.
