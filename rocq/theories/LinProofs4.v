(** The loop over the matrices of a tensor. *)
From Coq Require Import List Arith Lia Bool.
From Verif Require Import Base IndexSpec LayoutModel ViewSpec KernelModel TensorModel TensorSpec CountModel.
From Verif Require Import LayoutProofs BcastProofs TensorProofs CountProofs DenSpec KernelProofs LinModel.
Import ListNotations.

Lemma map_opt_ok : forall X Y (f : X -> option Y) g l, (forall x, In x l -> f x = Some (g x)) -> map_opt f l = Some (map g l).
Proof.
  intros X Y f g. induction l as [|x l IH]; intros H; [reflexivity|]. cbn [map_opt map]. rewrite (H x) by (left; auto). cbn [obind].
  rewrite IH by (intros; apply H; right; auto). reflexivity.
Qed.
Lemma start_dot : forall p st, fold_right Nat.add 0 (map (fun q => fst q * snd q) (combine p st)) = dot p st.
Proof. induction p as [|x p IH]; intros [|y st]; cbn; auto. Qed.
Lemma dot_firstn : forall p st, dot p (firstn (length p) st) = dot p st.
Proof. induction p as [|x p IH]; intros [|y st]; cbn; auto. Qed.
Lemma stack_addr : forall l s n p i j, wf_layout l -> lshape l = s ++ [n; n] -> length p = length s ->
  addr l (p ++ [i; j]) = loffset l + dot p (lstrides l) + i * nth (length s) (lstrides l) 0 + j * nth (S (length s)) (lstrides l) 0.
Proof.
  intros l s n p i j W SL L. unfold wf_layout in W. rewrite SL, app_length in W. cbn [length] in W. unfold addr.
  rewrite <- (firstn_skipn (length s) (lstrides l)) at 1. rewrite dot_app by (rewrite firstn_length; lia).
  replace (dot p (firstn (length s) (lstrides l))) with (dot p (lstrides l)) by (rewrite <- L; symmetry; apply dot_firstn).
  assert (K : length (skipn (length s) (lstrides l)) = 2) by (rewrite skipn_length; lia).
  assert (N0 : nth (length s) (lstrides l) 0 = nth 0 (skipn (length s) (lstrides l)) 0).
  { rewrite <- (firstn_skipn (length s) (lstrides l)) at 1. rewrite app_nth2 by (rewrite firstn_length; lia). f_equal. rewrite firstn_length. lia. }
  assert (N1 : nth (S (length s)) (lstrides l) 0 = nth 1 (skipn (length s) (lstrides l)) 0).
  { rewrite <- (firstn_skipn (length s) (lstrides l)) at 1. rewrite app_nth2 by (rewrite firstn_length; lia). f_equal. rewrite firstn_length. lia. }
  rewrite N0, N1. destruct (skipn (length s) (lstrides l)) as [|a [|b [|? ?]]]; cbn in K; try lia. cbn. lia.
Qed.
Lemma all_idx_app : forall s1 s2, all_idx (s1 ++ s2) = flat_map (fun p => map (app p) (all_idx s2)) (all_idx s1).
Proof.
  induction s1 as [|d s1 IH]; intros s2; cbn [app all_idx flat_map].
  - rewrite app_nil_r. symmetry. apply map_id.
  - rewrite IH. generalize (seq 0 d). induction l as [|x l IHl]; [reflexivity|]. cbn [flat_map]. rewrite flat_map_app, <- IHl.
    assert (H : map (cons x) (flat_map (fun p => map (app p) (all_idx s2)) (all_idx s1)) = flat_map (fun p => map (app p) (all_idx s2)) (map (cons x) (all_idx s1))).
    { clear IHl l IH. induction (all_idx s1) as [|p ps IHp]; [reflexivity|]. cbn [flat_map map]. rewrite map_app, IHp, map_map. reflexivity. }
    rewrite H. reflexivity.
Qed.
Lemma all_idx_2 : forall m n, all_idx [m; n] = map (fun q => [fst q; snd q]) (list_prod (seq 0 m) (seq 0 n)).
Proof.
  intros m n. cbn [all_idx]. generalize (seq 0 m). induction l as [|x l IH]; [reflexivity|]. cbn [flat_map list_prod]. rewrite map_app, <- IH. f_equal.
  rewrite map_map. cbn [fst snd]. generalize (seq 0 n). induction l0 as [|y l0 IH0]; [reflexivity|]. cbn. f_equal. exact IH0.
Qed.

Section Loop.
Context {T : Type}.
Variable zero : T.
Variables (t : tensor T) (s : list nat) (n : nat) (f : list nat -> nat -> nat -> T).
Hypothesis G : good t.
Hypothesis SH : tshape t = s ++ [n; n].
Hypothesis P : all_pos s.
Hypothesis E : forall p i j, valid s p -> i < n -> j < n -> elem t (p ++ [i; j]) = Some (f p i j).

(** the matrix the kernel reads *)
Definition read_at (p : list nat) : nat -> nat -> T := fun i j =>
  nth (loffset (tlay t) + dot p (lstrides (tlay t)) + i * nth (length s) (lstrides (tlay t)) 0 + j * nth (S (length s)) (lstrides (tlay t)) 0) (tstore t) zero.
Lemma read_addr : forall p i j, valid s p ->
  loffset (tlay t) + dot p (lstrides (tlay t)) + i * nth (length s) (lstrides (tlay t)) 0 + j * nth (S (length s)) (lstrides (tlay t)) 0
  = addr (tlay t) (p ++ [i; j]).
Proof. intros p i j V. symmetry. apply (stack_addr _ s n); auto; [apply G|now apply valid_length]. Qed.
Lemma read_ok : forall p i j, valid s p -> i < n -> j < n -> read_at p i j = f p i j.
Proof.
  intros p i j V Hi Hj. unfold read_at. rewrite read_addr by auto. pose proof (E _ i j V Hi Hj) as X. unfold elem in X. now apply nth_error_nth.
Qed.
Lemma linalg_read : forall om size room out, (forall p, valid s p -> om n (read_at p) = Some (out p)) -> nelem s * size <= room ->
  linalg_kernel zero om size (tstore t) (tlay t) room = Some (concat (map out (all_idx s))).
Proof.
  intros om size room out H R. assert (N0 : 0 < nelem s) by now apply all_pos_nelem.
  unfold linalg_kernel. unfold tshape in SH. rewrite SH, app_length. cbn [length].
  replace (length s + 2 - 1) with (S (length s)) by lia. replace (length s + 2 - 2) with (length s) by lia.
  replace (nth (S (length s)) (s ++ [n; n]) 0) with n by (rewrite app_nth2 by lia; replace (S (length s) - length s) with 1 by lia; reflexivity).
  replace (firstn (length s) (s ++ [n; n])) with s by (rewrite firstn_app, Nat.sub_diag, firstn_all; cbn; now rewrite app_nil_r).
  assert (BC : batch_count s = nelem s).
  { unfold batch_count. fold (nelem s). destruct (Nat.eqb_spec (nelem s) 0); lia. }
  rewrite BC. rewrite (map_opt_ok _ _ _ (fun b => out (unravel s b))).
  - cbn [obind]. destruct (Nat.ltb_spec room (nelem s * size)); [lia|]. do 2 f_equal. rewrite all_idx_map_unravel, map_map. reflexivity.
  - intros b Hb. apply in_seq in Hb. assert (V : valid s (unravel s b)) by (apply unravel_valid; lia).
    unfold batch_start. rewrite c_coords_spec by lia. cbn [obind]. rewrite start_dot.
    unfold get_matrix. rewrite (proj2 (forallb_forall _ _)).
    + cbn [obind]. exact (H _ V).
    + intros [i j] Hq. apply in_prod_iff in Hq. destruct Hq as [Hi Hj]. apply in_seq in Hi. apply in_seq in Hj. cbn [fst snd]. rewrite read_addr by auto.
      apply Nat.ltb_lt, nth_error_Some. pose proof (E _ i j V ltac:(lia) ltac:(lia)) as X. unfold elem in X. congruence.
Qed.
Lemma linalg_ok : forall om size room out,
  (forall p a, valid s p -> (forall i j, i < n -> j < n -> a i j = f p i j) -> om n a = Some (out p)) ->
  nelem s * size <= room ->
  linalg_kernel zero om size (tstore t) (tlay t) room = Some (concat (map out (all_idx s))).
Proof. intros om size room out H R. apply linalg_read; auto. intros p V. apply H; auto. intros; now apply read_ok. Qed.
Lemma square_ok : square (lshape (tlay t)) = true.
Proof using SH.
  clear G P E f.
  unfold tshape in SH. rewrite SH. unfold square. rewrite app_length. cbn [length].
  rewrite !app_nth2 by lia. replace (length s + 2 - 1 - length s) with 1 by lia. replace (length s + 2 - 2 - length s) with 0 by lia. cbn [nth].
  rewrite Nat.eqb_refl, andb_true_r. apply Nat.leb_le. lia.
Qed.
(** where the result for matrix [p] is found: a single matrix gives a tensor of shape [1] *)
Definition spot (s p : list nat) : list nat := match s with [] => [0] | _ => p end.
Definition spot_shape (s : list nat) : list nat := match s with [] => [1] | _ => s end.
Lemma batch_shape_ok : batch_shape (lshape (tlay t)) = spot_shape s.
Proof using SH.
  clear G P E f.
  unfold tshape in SH. rewrite SH. unfold batch_shape. rewrite app_length. cbn [length]. destruct s as [|d s']; [reflexivity|].
  destruct (Nat.eqb_spec (length (d :: s') + 2) 2) as [Q|_]; [cbn in Q; lia|]. replace (length (d :: s') + 2 - 2) with (length (d :: s')) by lia.
  rewrite firstn_app, Nat.sub_diag, firstn_all. cbn. now rewrite app_nil_r.
Qed.
Lemma spot_nelem : nelem (spot_shape s) = nelem s.
Proof. destruct s; reflexivity. Qed.
Lemma one_each_read : forall om D, (forall p, valid s p -> om n (read_at p) = Some [D p]) ->
  exists st, linalg_kernel zero om 1 (tstore t) (tlay t) (shape_size (batch_shape (lshape (tlay t)))) = Some st /\
    length st = nelem (spot_shape s) /\
    forall p, valid s p -> elem (mkT st (from_shape (spot_shape s))) (spot s p) = Some (D p).
Proof.
  intros om D H. rewrite batch_shape_ok. rewrite (linalg_read om 1 _ (fun p => [D p])); auto.
  2:{ change (shape_size (spot_shape s)) with (nelem (spot_shape s)). rewrite spot_nelem. lia. }
  eexists. split; [reflexivity|].
  assert (C : concat (map (fun p => [D p]) (all_idx s)) = map (fun k => D (unravel s k)) (seq 0 (nelem (spot_shape s)))).
  { rewrite spot_nelem, all_idx_map_unravel, map_map. generalize (seq 0 (nelem s)). induction l as [|x l IH]; [reflexivity|]. cbn. f_equal. exact IH. }
  rewrite C. split; [now rewrite map_length, seq_length|]. intros p V. rewrite (elem_fresh _ (fun k => D (unravel s k))).
  - do 2 f_equal. destruct s as [|d s']; [destruct p; [reflexivity|destruct V]|]. now apply unravel_ravel.
  - destruct s as [|d s']; [cbn; lia|exact V].
Qed.
Lemma one_each : forall om D,
  (forall p a, valid s p -> (forall i j, i < n -> j < n -> a i j = f p i j) -> om n a = Some [D p]) ->
  exists st, linalg_kernel zero om 1 (tstore t) (tlay t) (shape_size (batch_shape (lshape (tlay t)))) = Some st /\
    length st = nelem (spot_shape s) /\
    forall p, valid s p -> elem (mkT st (from_shape (spot_shape s))) (spot s p) = Some (D p).
Proof. intros om D H. apply one_each_read. intros p V. apply H; auto. intros; now apply read_ok. Qed.
End Loop.
