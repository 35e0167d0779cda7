(** C67: the embedding layer, on the real numbers; rounding is not modelled here.
    The weight is V x D ([xmat]), the index tensor has shape [s] and entry [ix i] at index i ([den]:
    no empty axis, and not a contiguous view starting inside its storage, C18). *)
From Coq Require Import List Arith ZArith Lia Bool Reals Lra.
From Verif Require Import Base IndexSpec LayoutModel ViewSpec LayoutProofs LayoutProofs2 KernelModel TensorModel TensorSpec EncodeModel KernelProofs TensorProofs ElementwiseProofs BcastProofs.
From Verif Require Import NumModel DenSpec DenProofs NnModel NnSpec NnProofs LayerModel LayerSpec LayerProofs PropNn PropLayer EmbedModel EmbedSpec EmbedProofs.
Import ListNotations.
Open Scope nat_scope.

(** Every position of the input gets the row its index names; negative indices count from the end. *)
Theorem C67_lookup_partial : forall e w d V D W input s ix, xmat w d V D W -> den input s ix ->
  exists r g, embedding e w D None None input = Ok r /\ xden r d (s ++ [D]) (fun i => Fin (g i)) /\
    forall i c k, valid s i -> c < D -> points V (ix i) k -> g (i ++ [c]) = W k c.
Proof.
  intros e w d V D W input s ix Xw Hi. destruct (embedding_ok e w d V D W input s ix Xw Hi) as [r [E X]].
  exists r, (fun i => row_at V W (ix (removelast i)) (last i 0)). split; [exact E|]. split; [exact X|].
  intros i c k Vi Hc H. rewrite removelast_last, last_last. now apply row_names.
Qed.
Print Assumptions C67_lookup_partial.

(** An index that names no row should be an error; it gives a row of zeros. *)
Theorem C67_out_of_range_refuted : forall e w d V D W input s ix, xmat w d V D W -> den input s ix ->
  exists r g, embedding e w D None None input = Ok r /\ xden r d (s ++ [D]) (fun i => Fin (g i)) /\
    forall i c, valid s i -> c < D -> (forall k, ~ points V (ix i) k) -> g (i ++ [c]) = 0%R.
Proof.
  intros e w d V D W input s ix Xw Hi. destruct (embedding_ok e w d V D W input s ix Xw Hi) as [r [E X]].
  exists r, (fun i => row_at V W (ix (removelast i)) (last i 0)). split; [exact E|]. split; [exact X|].
  intros i c Vi Hc H. rewrite removelast_last, last_last. now apply row_out.
Qed.
Print Assumptions C67_out_of_range_refuted.

(** Rows of length two are shortened to the maximal norm, *)
Theorem C67_max_norm_partial : forall e w d V W input s ix m, env_ok e -> is_float d = true -> (0 < m)%R ->
  xmat w d V 2 W -> den input s ix ->
  exists r g, embedding e w 2 None (Some (d, Fin m)) input = Ok r /\ xden r d (s ++ [2]) (fun i => Fin (g i)) /\
    forall i c k, valid s i -> c < 2 -> points V (ix i) k -> g (i ++ [c]) = shorten m 2 (W k) c.
Proof.
  intros e w d V W input s ix m He F Hm Xw Hi. destruct (embedding_max_two e He w d V W input s ix m F Hm Xw Hi) as [r [E X]].
  eexists r, _. split; [exact E|]. split; [exact X|]. intros i c k Vi Hc H. cbn beta. rewrite removelast_last, last_last.
  unfold shorten, Rnorm. cbn [seq map]. now rewrite !(row_names V W _ k _ H).
Qed.
Print Assumptions C67_max_norm_partial.
(** and have at most that norm. *)
Theorem C67_max_norm_bound : forall m n x, (0 < m)%R -> (Rnorm n (shorten m n x) <= m)%R.
Proof. exact shorten_norm. Qed.
Print Assumptions C67_max_norm_bound.
(** Longer rows: a maximal norm always panics. *)
Theorem C67_max_norm_wide_refuted : forall e w d V D W input s ix p m, env_ok e -> is_float d = true -> 3 <= D ->
  xmat w d V D W -> den input s ix -> embedding e w D p (Some (d, Fin m)) input = Panic.
Proof. intros e w d V D W input s ix p m He. now apply embedding_max_wide. Qed.
Print Assumptions C67_max_norm_wide_refuted.
(** Rows of length one: the whole batch is scaled by the norm of the batch. *)
Theorem C67_max_norm_one_refuted : forall e w d V W input s ix m, env_ok e -> is_float d = true -> (0 < m)%R ->
  xmat w d V 1 W -> den input s ix ->
  exists r g, embedding e w 1 None (Some (d, Fin m)) input = Ok r /\ xden r d (s ++ [1]) (fun i => Fin (g i)) /\
    forall rows, (forall i, valid s i -> points V (ix i) (rows i)) ->
    forall i, valid s i -> g (i ++ [0]) = shorten m (nelem s) (fun q => W (rows (unravel s q)) 0) (ravel s i).
Proof.
  intros e w d V W input s ix m He F Hm Xw Hi. destruct (embedding_max_one e He w d V W input s ix m F Hm Xw Hi) as [r [E X]].
  eexists r, _. split; [exact E|]. split; [exact X|]. intros rows H i Vi. cbn beta. rewrite removelast_last.
  assert (EQ : forall q, q < nelem s -> row_at V W (ix (unravel s q)) 0 = W (rows (unravel s q)) 0).
  { intros q Hq. apply row_names. apply H. now apply unravel_valid. }
  unfold shorten, Rnorm.
  rewrite (map_ext_in (fun q => row_at V W (ix (unravel s q)) 0 * row_at V W (ix (unravel s q)) 0)%R
                      (fun q => W (rows (unravel s q)) 0%nat * W (rows (unravel s q)) 0%nat)%R).
  - now rewrite EQ by (now apply ravel_lt).
  - intros q Hq. apply in_seq in Hq. now rewrite !EQ by lia.
Qed.
Print Assumptions C67_max_norm_one_refuted.
(** A padding index makes every call fail. *)
Theorem C67_padding_refuted : forall e w d V D W input s ix p, env_ok e -> is_float d = true ->
  xmat w d V D W -> den input s ix -> embedding e w D (Some p) None input = Err EDType.
Proof. intros e w d V D W input s ix p He. now apply embedding_padding. Qed.
Print Assumptions C67_padding_refuted.

(** a view starting inside its storage [2; 0; 1]: the indices are 0 and 1, the rows those of 2 and 0 *)
Definition ex_w := xt [3; 2] [3; 4; 0; 1; 6; 8]%R.
Definition ex_ix : tensor Z := mkT [2; 0; 1]%Z (from_shape [3]).
Theorem C67_offset_refuted : exists t r, t_view 0%Z (VSlice 0 1 None 1) ex_ix = Ok t /\
  elem t [0] = Some 0%Z /\ elem t [1] = Some 1%Z /\
  embedding e1 ex_w 2 None None t = Ok r /\
  elem (xdata r) [0; 0] = Some (Fin 6%R) /\ elem (xdata r) [1; 0] = Some (Fin 3%R).
Proof. eexists _, _. split; [reflexivity|]. split; [reflexivity|]. split; [reflexivity|]. split; [lazy -[IZR]; reflexivity|]. split; reflexivity. Qed.
Print Assumptions C67_offset_refuted.

Lemma ex_w_mat : xmat ex_w F32 3 2 (fun i j => nth (i * 2 + j) [3; 4; 0; 1; 6; 8]%R 0%R).
Proof.
  eapply xden_ext; [apply xt_den; [reflexivity|repeat constructor]|]. intros i V. apply in_all_idx in V. vm_compute in V.
  repeat (destruct V as [<-|V]; [reflexivity|]); destruct V.
Qed.
Lemma zt_den : forall s (l : list Z), length l = nelem s -> all_pos s -> den (mkT l (from_shape s)) s (fun i => nth (ravel s i) l 0%Z).
Proof.
  intros s l L P. split; [now apply from_shape_good|]. split; [left; reflexivity|]. split; [reflexivity|]. split; [exact P|].
  intros i V. unfold elem. cbn [tstore tlay]. rewrite addr_from_shape by (now apply valid_length). apply nth_error_nth'. rewrite L. now apply ravel_lt.
Qed.
(** indices -1, 0, 7 as a 3 x 1 tensor: the last row, the first, zeros *)
Example C67_lookup_example : exists r g, embedding e1 ex_w 2 None None (mkT [-1; 0; 7]%Z (from_shape [3; 1])) = Ok r /\
  xden r F32 [3; 1; 2] (fun i => Fin (g i)) /\ g [0; 0; 1] = 8%R /\ g [1; 0; 0] = 3%R.
Proof.
  destruct (C67_lookup_partial e1 ex_w F32 3 2 _ (mkT [-1; 0; 7]%Z (from_shape [3; 1])) [3; 1] _ ex_w_mat
    (zt_den [3; 1] [-1; 0; 7]%Z eq_refl ltac:(repeat constructor))) as [r [g [E [X H]]]].
  exists r, g. split; [exact E|]. split; [exact X|]. split.
  - change [0; 0; 1] with ([0; 0] ++ [1]). rewrite (H [0; 0] 1 2); [reflexivity|cbn; lia|lia|]. change (points 3 (-1) 2). unfold points. lia.
  - change [1; 0; 0] with ([1; 0] ++ [0]). rewrite (H [1; 0] 0 0); [reflexivity|cbn; lia|lia|]. change (points 3 0 0). unfold points. lia.
Qed.
Example C67_out_of_range_example : exists r g, embedding e1 ex_w 2 None None (mkT [-1; 0; 7]%Z (from_shape [3; 1])) = Ok r /\
  xden r F32 [3; 1; 2] (fun i => Fin (g i)) /\ g [2; 0; 0] = 0%R /\ g [2; 0; 1] = 0%R.
Proof.
  destruct (C67_out_of_range_refuted e1 ex_w F32 3 2 _ (mkT [-1; 0; 7]%Z (from_shape [3; 1])) [3; 1] _ ex_w_mat
    (zt_den [3; 1] [-1; 0; 7]%Z eq_refl ltac:(repeat constructor))) as [r [g [E [X H]]]].
  exists r, g. split; [exact E|]. split; [exact X|].
  split; [apply (H [2; 0] 0)|apply (H [2; 0] 1)]; try lia; try (cbn; lia); intros k; change (~ points 3 7 k); unfold points; lia.
Qed.
(** maximal norm 1: the row (3, 4) becomes (3/5, 4/5), the row (0, 1) stays *)
Example C67_max_norm_example : exists r g, embedding e1 ex_w 2 None (Some (F32, Fin 1%R)) (mkT [0; 1]%Z (from_shape [2])) = Ok r /\
  xden r F32 [2; 2] (fun i => Fin (g i)) /\ g [0; 0] = (3/5)%R /\ g [0; 1] = (4/5)%R /\ g [1; 1] = 1%R.
Proof.
  destruct (C67_max_norm_partial e1 ex_w F32 3 _ (mkT [0; 1]%Z (from_shape [2])) [2] _ 1%R e1_ok eq_refl ltac:(lra) ex_w_mat
    (zt_den [2] [0; 1]%Z eq_refl ltac:(repeat constructor))) as [r [g [E [X H]]]].
  exists r, g. split; [exact E|]. split; [exact X|].
  assert (S5 : Rnorm 2 (fun j => nth (0 * 2 + j) [3; 4; 0; 1; 6; 8]%R 0%R) = 5%R).
  { unfold Rnorm. cbn. replace (3 * 3 + (4 * 4 + 0))%R with (5 * 5)%R by lra. apply sqrt_square. lra. }
  assert (S1 : Rnorm 2 (fun j => nth (1 * 2 + j) [3; 4; 0; 1; 6; 8]%R 0%R) = 1%R).
  { unfold Rnorm. cbn. replace (0 * 0 + (1 * 1 + 0))%R with (1 * 1)%R by lra. apply sqrt_square. lra. }
  assert (P0 : points 3 (nth (ravel [2] [0]) [0; 1]%Z 0%Z) 0) by (cbn; unfold points; lia).
  assert (P1 : points 3 (nth (ravel [2] [1]) [0; 1]%Z 0%Z) 1) by (change (points 3 1 1); unfold points; lia).
  split; [|split].
  - change [0; 0] with ([0] ++ [0]). rewrite (H [0] 0 0 ltac:(cbn; lia) ltac:(lia) P0). unfold shorten. rewrite S5. unfold Rltb. destruct (Rlt_dec 1 5); [|exfalso; lra]. cbn. lra.
  - change [0; 1] with ([0] ++ [1]). rewrite (H [0] 1 0 ltac:(cbn; lia) ltac:(lia) P0). unfold shorten. rewrite S5. unfold Rltb. destruct (Rlt_dec 1 5); [|exfalso; lra]. cbn. lra.
  - change [1; 1] with ([1] ++ [1]). rewrite (H [1] 1 1 ltac:(cbn; lia) ltac:(lia) P1). unfold shorten. rewrite S1. unfold Rltb. destruct (Rlt_dec 1 1); [exfalso; lra|]. reflexivity.
Qed.
