(** Proofs about the indexing kernels of CUDA. *)
From Coq Require Import List Arith ZArith Bool Lia Permutation.
From Verif Require Import Base IndexSpec LayoutModel ViewSpec LayoutProofs KernelModel TensorModel TensorSpec KernelProofs TensorProofs.
From Verif Require Import ReduceModel ScanModel MoveModel ReduceProofs MoveProofs MoveProofs3 IndexModel IndexProofs IndexProofs2.
From Verif Require Import LaunchModel LaunchSpec LaunchProofs LaunchProofs2 CudaIndexModel.
Import ListNotations.

(** A kernel that stores what a sequential loop stores gives what the loop
    gives, under every schedule that comes to its end. *)
Lemma mapO_nth : forall B (g : nat -> option B) l r, mapO g l = Some r ->
  length r = length l /\ forall k i, nth_error l k = Some i -> g i = nth_error r k.
Proof.
  intros B g. induction l as [|x l IH]; intros r H.
  - assert (r = []) by (now inversion H). subst r. split; [reflexivity|]. intros [|k] i K; discriminate.
  - rewrite mapO_cons in H. destruct (g x) as [y|] eqn:E; [|discriminate]. destruct (mapO g l) as [ys|] eqn:M; [|discriminate].
    injection H as <-. destruct (IH ys eq_refl) as [L N]. split; [cbn; lia|].
    intros [|k] i K; cbn in *; [injection K as <-; exact E|now apply N].
Qed.
Lemma seq_for_nth : forall B (g : nat -> option B) n out r, length out = n -> seq_for n g out = Some r ->
  length r = n /\ forall i, i < n -> g i = nth_error r i.
Proof.
  intros B g n out r L H. rewrite seq_for_spec in H by exact L. destruct (mapO_nth _ _ _ _ H) as [LR N].
  rewrite seq_length in LR. split; [exact LR|]. intros i I. apply N.
  rewrite (nth_error_nth' _ 0) by (now rewrite seq_length). now rewrite seq_nth.
Qed.
Lemma elementwise_same : forall B sched n (g body : nat -> option B) out0 out r,
  ending sched -> (Z.of_nat n <= 2 ^ 32 - 256)%Z -> length out0 = n -> length out = n ->
  seq_for n g out0 = Some r -> (forall i v, i < n -> g i = Some v -> body i = Some v) ->
  elementwise sched n body out = Some r.
Proof.
  intros B sched n g body out0 out r E N L0 L S H. destruct (seq_for_nth _ _ _ _ _ L0 S) as [LR NR].
  assert (G : forall i, i < n -> body i = nth_error r i).
  { intros i I. destruct (nth_error r i) as [v|] eqn:V; [|apply nth_error_None in V; lia]. apply H; [exact I|]. now rewrite NR. }
  destruct (elementwise_total B sched n body out E N L) as (r' & R & L' & N').
  { intros i I. rewrite G by exact I. apply nth_error_Some. lia. }
  rewrite R. f_equal. apply list_ext. intro i. destruct (Nat.lt_ge_cases i n) as [I|I].
  - rewrite N' by exact I. now apply G.
  - rewrite (proj2 (nth_error_None r' i)) by lia. symmetry. apply nth_error_None. lia.
Qed.

Lemma c_unravel_rev_length : forall s k x, c_unravel_rev k s = Some x -> length x = length s.
Proof.
  induction s as [|d s IH]; intros k x H; cbn [c_unravel_rev] in H; [injection H as <-; reflexivity|].
  destruct (d =? 0); [discriminate|]. destruct (c_unravel_rev (k / d) s) as [y|] eqn:E; [|discriminate].
  cbn [obind] in H. injection H as <-. cbn. f_equal. eauto.
Qed.
Lemma c_unravel_length : forall s k x, c_unravel k s = Some x -> length x = length s.
Proof.
  intros s k x H. unfold c_unravel in H. destruct (c_unravel_rev k (rev s)) as [y|] eqn:E; [|discriminate].
  cbn in H. injection H as <-. rewrite rev_length. apply c_unravel_rev_length in E. now rewrite rev_length in E.
Qed.
Lemma md_slice_length : forall md a n x, md_slice md a n = Some x -> length x = n.
Proof.
  intros md a n x H. unfold md_slice in H. destruct (a + n <=? length md) eqn:E; [|discriminate].
  injection H as <-. rewrite firstn_length, skipn_length. apply Nat.leb_le in E. lia.
Qed.

Lemma dot_upd : forall i st d x k y, nth_error i d = Some x -> nth_error st d = Some y ->
  dot (upd i d k) st = dot (upd i d 0) st + k * y.
Proof.
  induction i as [|a i IH]; intros st d x k y X Y; [destruct d; discriminate|].
  destruct st as [|b st]; [destruct d; discriminate|]. destruct d as [|d]; cbn in *.
  - injection Y as <-. lia.
  - rewrite (IH st d x k y X Y). lia.
Qed.
Lemma flat_adjust : forall off i st d x k y, nth_error i d = Some x -> nth_error st d = Some y ->
  flat_index off (adjust d (fun _ => k) i) st = flat_index off (adjust d (fun _ => 0) i) st + k * y.
Proof.
  intros off i st d x k y X Y. rewrite !flat_index_dot. rewrite !(adjust_spec d _ i x X). rewrite (dot_upd i st d x k y X Y). lia.
Qed.

Lemma wrapped_in : forall ix n k, wrap_index ix n = Some k -> wrapped ix n = Z.of_nat k.
Proof.
  intros ix n k H. unfold wrap_index in H. unfold wrapped. cbv zeta in H.
  destruct (_ || _)%bool eqn:E; [discriminate|]. injection H as <-. lia.
Qed.
Lemma wrapped_test : forall ix n, wrap_index ix n =
  if ((wrapped ix n <? 0) || (wrapped ix n >=? Z.of_nat n))%Z then None else Some (Z.to_nat (wrapped ix n)).
Proof. reflexivity. Qed.

Section Same.
Variables (A : Type) (zero : A) (sched : nat -> list nat).
Hypothesis E : ending sched.

Lemma select_same : forall input indices out0 out md r n0,
  nth_error md 0 = Some n0 -> (Z.of_nat n0 <= 2 ^ 32 - 256)%Z -> length out0 = n0 -> length out = n0 ->
  (forall nd, nth_error md 1 = Some nd -> nd <= 16) ->
  (forall nd sh dim ni n i oi k ix, nth_error md 1 = Some nd -> md_slice md 2 nd = Some sh ->
     nth_error md (2 + 2 * nd + 1) = Some dim -> nth_error md (2 + 2 * nd + 2) = Some ni ->
     nth_error sh dim = Some n -> i < n0 -> c_unravel i (adjust dim (fun _ => ni) sh) = Some oi -> nth_error oi dim = Some k ->
     nth_error indices k = Some ix -> wrap_index ix n <> None) ->
  index_select_kernel zero input indices out0 md = Some r ->
  cuda_index_select sched input indices out md = Some r.
Proof.
  intros input indices out0 out md r n0 M0 N L0 L R16 RG H. unfold index_select_kernel in H. unfold cuda_index_select.
  rewrite M0 in *. cbn [obind] in *.
  destruct (nth_error md 1) as [nd|] eqn:M1; [|discriminate]. cbn [obind] in *.
  destruct (md_slice md 2 nd) as [sh|] eqn:M2; [|discriminate]. cbn [obind] in *.
  destruct (md_slice md (2 + nd) nd) as [st|] eqn:M3; [|discriminate]. cbn [obind] in *.
  destruct (nth_error md (2 + 2 * nd)) as [off|] eqn:M4; [|discriminate]. cbn [obind] in *.
  destruct (nth_error md (2 + 2 * nd + 1)) as [dim|] eqn:M5; [|discriminate]. cbn [obind] in *.
  destruct (nth_error md (2 + 2 * nd + 2)) as [ni|] eqn:M6; [|discriminate]. cbn [obind] in *.
  apply (elementwise_same _ sched n0 _ _ out0 out r E N L0 L H). intros i v I G. cbv beta in *.
  replace (16 <? nd) with false by (symmetry; apply Nat.ltb_ge; now apply R16).
  destruct (c_unravel i _) as [oi|] eqn:U; [|discriminate]. cbn [obind] in *.
  destruct (nth_error indices (nth dim oi 0)) as [ix|] eqn:IX; [|discriminate]. cbn [obind] in *.
  destruct (nth_error sh dim) as [n|] eqn:SN; [|discriminate]. cbn [obind] in *.
  pose proof (md_slice_length _ _ _ _ M2) as L2. pose proof (md_slice_length _ _ _ _ M3) as L3.
  pose proof (c_unravel_length _ _ _ U) as LU. rewrite adjust_length in LU.
  assert (D : dim < nd) by (rewrite <- L2; apply nth_error_Some; congruence).
  assert (K : nth_error oi dim = Some (nth dim oi 0)) by (apply nth_error_nth'; lia).
  rewrite K. cbn [obind]. rewrite IX. cbn [obind].
  destruct (nth_error st dim) as [y|] eqn:Y; [|apply nth_error_None in Y; lia]. cbn [obind].
  pose proof (RG nd sh dim ni n i oi _ ix eq_refl M2 M5 M6 SN I U K IX) as NW.
  destruct (wrap_index ix n) as [k|] eqn:W; [|congruence]. apply wrapped_in in W. rewrite W.
  rewrite (flat_adjust off oi st dim _ k y K Y) in G. set (b := flat_index _ _ _) in *. clearbody b. cbv zeta.
  replace (Z.of_nat b + Z.of_nat k * Z.of_nat y <? 0)%Z with false by (symmetry; apply Z.ltb_ge; nia).
  replace (Z.to_nat (Z.of_nat b + Z.of_nat k * Z.of_nat y)) with (b + k * y) by nia. exact G.
Qed.

Lemma gather_same : forall input indices out0 out md r n0,
  nth_error md 0 = Some n0 -> (Z.of_nat n0 <= 2 ^ 32 - 256)%Z -> length out0 = n0 -> length out = n0 ->
  (forall nd, nth_error md 1 = Some nd -> nd <= 16) ->
  gather_kernel zero input indices out0 md = Some r ->
  cuda_gather zero sched input indices out md = Some r.
Proof.
  intros input indices out0 out md r n0 M0 N L0 L R16 H. unfold gather_kernel in H. unfold cuda_gather.
  rewrite M0 in *. cbn [obind] in *.
  destruct (nth_error md 1) as [nd|] eqn:M1; [|discriminate]. cbn [obind] in *.
  do 4 (match type of H with context [obind (md_slice ?a ?b ?c) _] => destruct (md_slice a b c) as [?|]; [|discriminate] end; cbn [obind] in *).
  do 3 (match type of H with context [obind (nth_error md ?b) _] => destruct (nth_error md b) as [?|]; [|discriminate] end; cbn [obind] in *).
  apply (elementwise_same _ sched n0 _ _ out0 out r E N L0 L H). intros i v I G. cbv beta in *.
  replace (16 <? nd) with false by (symmetry; apply Nat.ltb_ge; now apply R16).
  destruct (c_unravel i _) as [oi|] eqn:U; [|discriminate]. cbn [obind] in *.
  destruct (nth_error indices _) as [ix|] eqn:IX; [|discriminate]. cbn [obind] in *.
  destruct (nth_error _ _) as [len|] in G |- *; [|discriminate]. cbn [obind] in *.
  rewrite wrapped_test in G. cbv zeta. destruct (_ || _)%bool; exact G.
Qed.

Lemma put_same : forall (input : list A) indices values out0 out md r n0 nd dim,
  nth_error md 0 = Some n0 -> (Z.of_nat n0 <= 2 ^ 32 - 256)%Z -> length out0 = n0 -> length out = n0 ->
  nth_error md 1 = Some nd -> nd <= 16 -> nth_error md (2 + 3 * nd + 2) = Some dim -> dim < nd ->
  index_put_kernel input indices values out0 md = Some r ->
  cuda_index_put sched input indices values out md = Some r.
Proof.
  intros input indices values out0 out md r n0 nd dim M0 N L0 L M1 R16 MD D H. unfold index_put_kernel in H. unfold cuda_index_put.
  rewrite M0 in *. cbn [obind] in *. rewrite M1 in *. cbn [obind] in *. 
  destruct (md_slice md 2 nd) as [sh|] eqn:M2; [|discriminate]. cbn [obind] in *.
  do 2 (match type of H with context [obind (md_slice ?a ?b ?c) _] => destruct (md_slice a b c) as [?|]; [|discriminate] end; cbn [obind] in *).
  do 2 (match type of H with context [obind (nth_error md ?b) _] => destruct (nth_error md b) as [?|]; [|discriminate] end; cbn [obind] in *).
  rewrite MD in *. cbn [obind] in *.
  destruct (nth_error md (2 + 3 * nd + 3)) as [ni|]; [|discriminate]; cbn [obind] in *.
  apply (elementwise_same _ sched n0 _ _ out0 out r E N L0 L H). intros i v I G. cbv beta in *.
  replace (16 <? nd) with false by (symmetry; apply Nat.ltb_ge; exact R16).
  destruct (c_unravel i _) as [oi|] eqn:U; [|discriminate]. cbn [obind] in *.
  destruct (ni =? 0); [exact G|]. destruct (nth_error md (2 + dim)) as [len|]; [|discriminate]. cbn [obind] in *.
  pose proof (md_slice_length _ _ _ _ M2) as L2. pose proof (c_unravel_length _ _ _ U) as LU.
  rewrite (nth_error_nth' oi 0) by lia. cbn [obind]. exact G.
Qed.
End Same.
