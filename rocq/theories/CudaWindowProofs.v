From Coq Require Import List Arith ZArith Bool Lia.
From Verif Require Import Base IndexSpec LayoutModel ViewSpec LayoutProofs KernelModel KernelProofs TensorModel TensorSpec TensorProofs.
From Verif Require Import ReduceModel ScanModel WindowModel WindowProofs TileModel LaunchModel LaunchSpec CudaIndexProofs CudaIndexProofs2 EncodeModel CudaWindowModel.
Import ListNotations.
Local Open Scope nat_scope.

(** the tensor with its storage converted *)
Definition converted {A B} (conv : A -> B) (t : tensor A) : tensor B := mkT (map conv (tstore t)) (tlay t).
Lemma converted_good : forall A B (conv : A -> B) t, good t -> good (converted conv t).
Proof. intros A B conv t [W I]. split; [exact W|]. intros i V. unfold converted. cbn [tstore tlay]. rewrite map_length. now apply I. Qed.
Lemma converted_elem : forall A B (conv : A -> B) t i, elem (converted conv t) i = option_map conv (elem t i).
Proof. intros A B conv t i. unfold elem, converted. cbn [tstore tlay]. apply nth_error_map. Qed.

Section Same.
Context {A B C : Type} (sched : nat -> list nat) (conv : A -> B) (init : B) (f : B -> B -> B) (oob : option B) (fin : nat -> B -> C).
Hypothesis EN : ending sched.

Lemma loopO_ext : forall X S (g h : X -> S -> option S) ks s, (forall k s, g k s = h k s) -> loopO g ks s = loopO h ks s.
Proof. intros X S g h ks s0 E. revert s0. induction ks as [|k ks IH]; intro s0; [reflexivity|]. cbn [loopO]. rewrite E. destruct (h k s0); [apply IH|reflexivity]. Qed.

Lemma window_same : forall input out0 out md r n, nth_error md 0 = Some n ->
  (Z.of_nat n <= 2 ^ 32 - 256)%Z -> length out0 = n -> length out = n ->
  reduce_window_kernel init f oob fin (map conv input) out0 md = Some r ->
  cuda_reduce_window sched conv init f oob fin input out md = Some r.
Proof.
  intros input out0 out md r n M0 N L0 L H. unfold reduce_window_kernel in H. unfold cuda_reduce_window.
  rewrite M0 in *. cbn [obind] in *.
  destruct (nth_error md 1) as [nd|]; [|discriminate]. cbn [obind] in *.
  destruct (md_slice md 2 nd) as [sh|]; [|discriminate]. cbn [obind] in *.
  destruct (md_slice md (2 + nd) nd) as [st|]; [|discriminate]. cbn [obind] in *.
  destruct (nth_error md (2 + 2 * nd)) as [off|]; [|discriminate]. cbn [obind] in *.
  destruct (md_slice md (2 + 2 * nd + 1) nd) as [w|]; [|discriminate]. cbn [obind] in *.
  destruct (md_slice md (2 + 3 * nd + 1) nd) as [ss|]; [|discriminate]. cbn [obind] in *.
  destruct (md_slice md (2 + 4 * nd + 1) (2 * nd)) as [pd|]; [|discriminate]. cbn [obind] in *.
  destruct (md_slice md (2 + 6 * nd + 1) nd) as [os|]; [|discriminate]. cbn [obind] in *.
  apply (elementwise_same _ sched n _ _ out0 out r EN N L0 L H). intros i v I. clear H. cbv beta. intro G. revert G.
  destruct (16 <? nd); [discriminate|]. destruct (c_unravel i os) as [oc|]; [|discriminate]. cbn [obind]. intro G.
  rewrite <- G. clear G. match goal with |- obind (loopO ?g _ _) _ = obind (loopO ?h _ _) _ => rewrite (loopO_ext _ _ g h); [reflexivity|] end. intros k acc. destruct (c_unravel k w) as [wc|]; [|reflexivity]. cbn [obind].
  destruct (win_coords oc ss wc _ sh) as [ic|]; [|reflexivity]. rewrite nth_error_map. now destruct (nth_error input _).
Qed.
Lemma t_window_same : forall dt z (t : tensor A) window strides padding r, cuda_windows dt = true ->
  (Z.of_nat (nelem (tshape r)) <= 2 ^ 32 - 256)%Z ->
  t_reduce_window init f oob fin z (converted conv t) window strides padding = Ok r ->
  cuda_t_reduce_window sched conv init f oob fin dt t window strides padding = Ok r.
Proof.
  intros dt z t window strides padding r D N H. unfold t_reduce_window in H. unfold cuda_t_reduce_window.
  change (tlay (converted conv t)) with (tlay t) in H. change (tstore (converted conv t)) with (map conv (tstore t)) in H.
  destruct (negb (length window =? length (lshape (tlay t)))); [discriminate|].
  destruct (negb (length strides =? length (lshape (tlay t)))); [discriminate|].
  destruct (negb (length padding =? length (lshape (tlay t)))); [discriminate|].
  destruct (window_dims _ _ _ _) as [out| |]; try discriminate. cbn [bind] in *. rewrite D. cbn [negb].
  destruct (reduce_window_kernel _ _ _ _ _ _ _) as [st|] eqn:K; [|discriminate]. cbn [ub bind] in H. injection H as <-.
  change (nelem (tshape _)) with (shape_size out) in N.
  erewrite (window_same _ (repeat z (shape_size out)) _ _ st (shape_size out) _ N); [reflexivity|apply repeat_length|apply repeat_length|exact K].
  Unshelve. reflexivity.
Qed.
Lemma t_window_types : forall dt (t : tensor A) window strides padding r, cuda_windows dt = false ->
  cuda_t_reduce_window sched conv init f oob fin dt t window strides padding <> Ok r.
Proof.
  intros dt t window strides padding r D. unfold cuda_t_reduce_window. rewrite D. cbn [negb].
  destruct (negb (length window =? length (lshape (tlay t)))); [discriminate|].
  destruct (negb (length strides =? length (lshape (tlay t)))); [discriminate|].
  destruct (negb (length padding =? length (lshape (tlay t)))); [discriminate|].
  now destruct (window_dims _ _ _ _).
Qed.
Lemma t_window_rank : forall dt (t : tensor A) window strides padding r, 16 < length (tshape t) ->
  0 < nelem (tshape r) -> (Z.of_nat (nelem (tshape r)) <= 2 ^ 32 - 256)%Z ->
  cuda_t_reduce_window sched conv init f oob fin dt t window strides padding <> Ok r.
Proof.
  intros dt t window strides padding r D PO N H. unfold cuda_t_reduce_window in H.
  destruct (negb (length window =? length (lshape (tlay t)))); [discriminate|].
  destruct (negb (length strides =? length (lshape (tlay t)))); [discriminate|].
  destruct (negb (length padding =? length (lshape (tlay t)))); [discriminate|].
  destruct (window_dims _ _ _ _) as [out| |]; try discriminate. cbn [bind] in H.
  destruct (negb (cuda_windows dt)); [discriminate|].
  destruct (cuda_reduce_window _ _ _ _ _ _ _ _ _) as [st|] eqn:K; [|discriminate]. cbn [ub bind] in H. injection H as <-.
  change (nelem (tshape _)) with (shape_size out) in N, PO.
  unfold cuda_reduce_window in K. set (md := reduce_window_metadata _ _ _ _ _) in K.
  change (nth_error md 0) with (Some (shape_size out)) in K. change (nth_error md 1) with (Some (length (tshape t))) in K. cbn [obind] in K.
  set (nd := length (tshape t)) in *.
  destruct (md_slice md 2 nd) as [sh|]; [|discriminate]. cbn [obind] in K.
  destruct (md_slice md (2 + nd) nd) as [s|]; [|discriminate]. cbn [obind] in K.
  destruct (nth_error md (2 + 2 * nd)) as [off|]; [|discriminate]. cbn [obind] in K.
  destruct (md_slice md (2 + 2 * nd + 1) nd) as [w|]; [|discriminate]. cbn [obind] in K.
  destruct (md_slice md (2 + 3 * nd + 1) nd) as [ss|]; [|discriminate]. cbn [obind] in K.
  destruct (md_slice md (2 + 4 * nd + 1) (2 * nd)) as [pd|]; [|discriminate]. cbn [obind] in K.
  destruct (md_slice md (2 + 6 * nd + 1) nd) as [os|]; [|discriminate]. cbn [obind] in K.
  apply Nat.ltb_lt in D. rewrite D in K.
  rewrite (elementwise_none C sched (shape_size out) _ _ 0 EN N (repeat_length _ _) PO eq_refl) in K. discriminate.
Qed.
End Same.
