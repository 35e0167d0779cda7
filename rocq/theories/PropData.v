(** Properties C47 (shuffling), C48 (epochs), C49 (rows of a batch), C50
    (concatenated, split and sampled datasets). *)
From Coq Require Import List Arith ZArith Lia Bool ZifyBool ZifyNat Permutation SpecFloat.
From Verif Require Import Base IndexSpec LayoutModel ViewSpec KernelModel TensorModel TensorSpec TensorProofs MoveModel.
From Verif Require Import DataModel DataProofs DataProofs2.
Import ListNotations.

(* ---------- C47 ---------- *)

(** Whatever the generator answers within its contract, shuffling succeeds and
    permutes the list. *)
Theorem C47_shuffle_permutes : forall A R (draw : R -> nat -> nat * R) r (l : list A), fair draw ->
  exists l', shuffle draw r l = Ok l' /\ Permutation l l'.
Proof. exact shuffle_perm. Qed.
Print Assumptions C47_shuffle_permutes.

(** Every permutation is the result for some generator within the contract. *)
Theorem C47_all_reachable : forall A (l q : list A), Permutation l q ->
  exists R (draw : R -> nat -> nat * R) r, fair draw /\ shuffle draw r l = Ok q.
Proof.
  intros A l q P. destruct (shuffle_reach A l q P) as [f [Hf E]].
  exists unit, (choose f), tt. split; auto. intros r i. apply Hf.
Qed.
Print Assumptions C47_all_reachable.

(** The sampler visits every index once. *)
Theorem C47_random_sampler : forall R (draw : R -> nat -> nat * R) r n, fair draw ->
  exists l, random_sampler draw r n = Ok l /\ NoDup l /\ forall i, In i l <-> i < n.
Proof.
  intros R draw r n F. destruct (shuffle_perm nat R draw r (seq 0 n) F) as [l [E P]]. exists l. split; auto.
  split; [apply (Permutation_NoDup P), seq_NoDup|]. intro i. split; intro H.
  - apply (Permutation_in i (Permutation_sym P)), in_seq in H. lia.
  - apply (Permutation_in i P), in_seq. lia.
Qed.
Print Assumptions C47_random_sampler.

(** Outside the contract (a number above the bound) shuffling may panic: the
    hypothesis is needed. *)
Theorem C47_contract_needed : shuffle (fun (r : unit) i => (S i, r)) tt [5; 6] = Panic.
Proof. reflexivity. Qed.
Print Assumptions C47_contract_needed.

Example C47_example :
  shuffle (fun (r : nat) i => (r mod (i + 1), S r)) 1 [10; 20; 30; 40; 50] = Ok [50; 40; 10; 30; 20] /\
  fair (fun (r : nat) i => (r mod (i + 1), S r)).
Proof. split; [reflexivity|]. intros r i. cbn. pose proof (Nat.mod_upper_bound r (i + 1)). lia. Qed.

(* ---------- C48 ---------- *)

(** From the start of an epoch: the batches are built from lists of indices whose
    concatenation is a permutation of all indices (drop_last = false) or its prefix of
    length bs * floor(n / bs); every batch but the last (all, with drop_last) is full
    and none is empty; their number is [num_batches]; after them the loader answers
    "no more" to every call.  The loader is any a program can reach; the dataset
    produces its samples and the collate function accepts them. *)
Theorem C48_epoch : forall I B R (d : dataset I) (collate : list I -> outcome B) (draw : R -> nat -> nat * R)
    (seed_rng : Z -> R) checked g c bs sh drop seed l,
  fair draw -> (forall i, i < dlen d -> dget d i = Ok (g i)) -> (forall x, x <> [] -> collate x = Ok (c x)) ->
  0 < bs -> reachable d collate draw seed_rng checked bs sh drop seed l -> l_cur l = 0 ->
  exists order bl, Permutation (seq 0 (dlen d)) order /\ (sh = false -> order = seq 0 (dlen d)) /\
    concat bl = (if drop then firstn (bs * (length order / bs)) order else order) /\
    (forall k b, nth_error bl k = Some b -> 0 < length b <= bs) /\
    (forall k b, nth_error bl k = Some b -> S k < length bl \/ drop = true -> length b = bs) /\
    num_batches d l = Ok (length bl) /\
    forall j, fst (run d collate (length bl + j) l) = map (fun b => Ok (Some (c (map g b)))) bl ++ repeat (Ok None) j.
Proof.
  intros I B R d collate draw seed_rng checked g c bs sh drop seed l F G C Hb HR H0.
  destruct (epoch d collate draw seed_rng checked F g c G C bs sh drop seed l Hb HR H0) as [o [bl (P & O & (B1 & B2 & B3 & _) & N & RR)]].
  exists o, bl. repeat (split; auto).
Qed.
Print Assumptions C48_epoch.

(** Building a loader and resetting it start an epoch, unless the addition of seed and
    epoch overflows in a build with overflow checks. *)
Theorem C48_starts : forall I B R (d : dataset I) (collate : list I -> outcome B) (draw : R -> nat -> nat * R)
    (seed_rng : Z -> R) checked bs sh drop seed,
  fair draw ->
  (checked = false \/ forall s, seed = Some s -> (s < 2 ^ 64)%Z) ->
  (exists l, loader_new d draw seed_rng checked bs sh drop seed = Ok l /\ l_cur l = 0) /\
  (forall l, reachable d collate draw seed_rng checked bs sh drop seed l ->
     (checked = false \/ (match l_seed l with Some s => s | None => 0 end + (l_epoch l + 1) < 2 ^ 64)%Z /\
        (0 <= l_epoch l)%Z /\ (l_epoch l + 1 < 2 ^ 64)%Z) ->
     exists l', reset draw seed_rng checked l = Ok l' /\ l_cur l' = 0).
Proof.
  intros I B R d collate draw seed_rng checked bs sh drop seed F S. split.
  - unfold loader_new. destruct sh; [|eexists; split; reflexivity]. unfold shuffle_indices. cbn [l_seed l_epoch l_indices].
    assert (X : exists s, add_u64 checked (match seed with Some s => s | None => 0%Z end) 0 = Ok s).
    { unfold add_u64. destruct S as [->|S]; [rewrite andb_false_r; eexists; reflexivity|].
      destruct seed as [s|]; [specialize (S s eq_refl); replace (2 ^ 64 <=? s + 0)%Z with false by lia; eexists; reflexivity|eexists; reflexivity]. }
    destruct X as [s ->]. cbn [bind]. destruct (shuffle_perm nat R draw (seed_rng s) (seq 0 (dlen d)) F) as [x [-> _]].
    cbn [bind]. eexists. split; reflexivity.
  - intros l _ H. unfold reset.
    assert (X : exists ep, add_u64 checked (l_epoch l) 1 = Ok ep /\ (checked = false \/ ep = (l_epoch l + 1)%Z)).
    { unfold add_u64. destruct H as [->|[H1 [H2 H3]]]; [rewrite andb_false_r; eexists; split; [reflexivity|auto]|].
      replace (2 ^ 64 <=? l_epoch l + 1)%Z with false by lia. eexists. split; [reflexivity|]. right. apply Z.mod_small. lia. }
    destruct X as [ep [-> HE]]. cbn [bind l_shuffle]. destruct (l_shuffle l); [|eexists; split; reflexivity].
    unfold shuffle_indices. cbn [l_seed l_epoch l_indices].
    assert (Y : exists s, add_u64 checked (match l_seed l with Some s => s | None => 0%Z end) ep = Ok s).
    { unfold add_u64. destruct H as [->|[H1 _]]; [rewrite andb_false_r; eexists; reflexivity|]. destruct HE as [->| ->]; [rewrite andb_false_r; eexists; reflexivity|].
      destruct (2 ^ 64 <=? _)%Z eqn:Q; [exfalso; cbn in Q; lia|eexists; reflexivity]. }
    destruct Y as [s ->]. cbn [bind]. destruct (shuffle_perm nat R draw (seed_rng s) (l_indices l) F) as [x [-> _]].
    cbn [bind]. eexists. split; reflexivity.
Qed.
Print Assumptions C48_starts.

(** With overflow checks, the largest seed makes the second epoch panic. *)
Theorem C48_seed_overflow : forall I R (d : dataset I) (draw : R -> nat -> nat * R) (seed_rng : Z -> R) bs drop l,
  loader_new d draw seed_rng true bs true drop (Some (2 ^ 64 - 1)%Z) = Ok l -> reset draw seed_rng true l = Panic.
Proof.
  intros I R d draw seed_rng bs drop l H. unfold loader_new, shuffle_indices in H. cbn in H.
  destruct (shuffle_loop _ _ _ _) as [x| |]; try discriminate. cbn in H. injection H as <-. reflexivity.
Qed.
Print Assumptions C48_seed_overflow.

(** A batch whose sample cannot be read does not advance the loader: every further call
    fails in the same way, the iteration never reaches its end. *)
Theorem C48_failing_sample : forall I B (d : dataset I) (collate : list I -> outcome B) l idx e,
  has_next d l = true -> slice_range (l_indices l) (l_cur l) (Nat.min (l_cur l + l_bs l) (dlen d)) = Ok idx ->
  get_items d idx = Err e -> forall k, run d collate k l = (repeat (Err e) k, l).
Proof.
  intros I B d collate l idx e H S G. induction k as [|k IH]; auto. cbn [run].
  unfold next_batch. rewrite H. cbn [negb]. rewrite S, G, IH. reflexivity.
Qed.
Print Assumptions C48_failing_sample.

Example C48_example :
  let d := mkD 5 (fun i => Ok (i * i)) in
  let coll := fun l : list nat => Ok l in
  let dr := fun (r : nat) i => (r mod (i + 1), S r) in
  match loader_new d dr (fun s => Z.to_nat s) true 2 true false (Some 1%Z) with
  | Ok l => num_batches d l = Ok 3 /\
            fst (run d coll 5 l) = [Ok (Some [16; 9]); Ok (Some [0; 4]); Ok (Some [1]); Ok None; Ok None]
  | _ => False
  end.
Proof. split; reflexivity. Qed.

(* ---------- C49 ---------- *)

(** A dataset of rows 0..5 (one number each): the batch of the indices 0, 1, 2 holds the
    rows 0, 2, 4. *)
Theorem C49_batch_rows_refuted :
  exists (data : tensor Z) items c, packed_tensor Z data 6 [1] /\
    get_items (tensor_dataset 0%Z data None) [0; 1; 2] = Ok items /\ default_collate 0%Z items = Ok (Single c) /\
    elem data [1; 0] = Some 10%Z /\ elem c [1; 0] = Some 20%Z.
Proof.
  exists (mkT [0; 10; 20; 30; 40; 50]%Z (from_shape [6; 1])). eexists. eexists.
  split; [split; reflexivity|]. split; [vm_compute; reflexivity|]. split; [vm_compute; reflexivity|]. split; reflexivity.
Qed.
Print Assumptions C49_batch_rows_refuted.

(** What the batch holds: row [j] is the dataset row of index [i_j + j] modulo the number
    of rows.  It is the row asked for in position 0 (batches of one sample) and when the
    dataset has one row. *)
Theorem C49_batch_rows_partial : forall A (z : A) (data : tensor A) n s idx,
  packed_tensor A data n s -> length s < 16 -> idx <> [] -> (forall i, In i idx -> i < n) ->
  exists items c, get_items (tensor_dataset z data None) idx = Ok items /\ default_collate z items = Ok (Single c) /\
    tshape c = length idx :: s /\
    (forall j k i, nth_error idx j = Some k -> valid s i ->
       elem c (j :: i) = elem data ((k + j) mod n :: i) /\ elem c (j :: i) <> None) /\
    (forall k i, nth_error idx 0 = Some k -> valid s i -> elem c (0 :: i) = elem data (k :: i)).
Proof.
  intros A z data n s idx P HR HN HI. destruct (batch_single A z data n s idx P HR HN HI) as [items [c (E & C & S & V)]].
  exists items, c. split; auto. split; auto. split; auto. split; auto. intros k i Hk Hi.
  destruct (V 0 k i Hk Hi) as [X _]. rewrite X, Nat.add_0_r, Nat.mod_small; auto. apply HI. destruct idx; [discriminate|]. injection Hk as ->. now left.
Qed.
Print Assumptions C49_batch_rows_partial.

(** With labels: data and labels are shifted in the same way, so the pairs stay together. *)
Theorem C49_batch_pairs_partial : forall A (z : A) (data labels : tensor A) n s ls idx,
  packed_tensor A data n s -> packed_tensor A labels n ls -> length s < 16 -> length ls < 16 ->
  idx <> [] -> (forall i, In i idx -> i < n) ->
  exists items c y, get_items (tensor_dataset z data (Some labels)) idx = Ok items /\
    default_collate z items = Ok (Pair c y) /\ tshape c = length idx :: s /\ tshape y = length idx :: ls /\
    forall j k, nth_error idx j = Some k ->
      (forall i, valid s i -> elem c (j :: i) = elem data ((k + j) mod n :: i)) /\
      (forall i, valid ls i -> elem y (j :: i) = elem labels ((k + j) mod n :: i)).
Proof.
  intros A z data labels n s ls idx P PL HR HRL HN HI.
  destruct (batch_pair A z data n s labels ls idx P PL HR HRL HN HI) as [items [c [y (E & C & S & SL & V & VL)]]].
  exists items, c, y. repeat (split; auto). - intros i Hi. now apply V. - intros i Hi. now apply VL.
Qed.
Print Assumptions C49_batch_pairs_partial.

(** The collate function itself is right on samples that own their storage. *)
Theorem C49_collate_owned_partial : forall A (z : A) (ts : list (tensor A)) s, ts <> [] -> length s < 16 ->
  (forall t, In t ts -> tlay t = from_shape s /\ length (tstore t) = nelem s) ->
  exists c, default_collate z (map Single ts) = Ok (Single c) /\ tshape c = length ts :: s /\
    forall j t i, nth_error ts j = Some t -> valid s i -> elem c (j :: i) = elem t i /\ elem t i <> None.
Proof.
  intros A z ts s HN HR HT. destruct (stack_packed A z ts s HN HR HT) as [c [E [S V]]]. exists c. split; auto.
  unfold default_collate. destruct ts as [|t r]; [congruence|]. cbn [map]. cbv iota.
  change (Single t :: map Single r) with (map (@Single A) (t :: r)). rewrite singles_map. cbn [bind]. now rewrite E.
Qed.
Print Assumptions C49_collate_owned_partial.

Example C49_example :
  let data := mkT [0; 1; 10; 11; 20; 21]%Z (from_shape [3; 2]) in
  packed_tensor Z data 3 [2] /\
  (do items <- get_items (tensor_dataset 0%Z data None) [2; 0; 1] ;
   do b <- default_collate 0%Z items ;
   match b with Single c => Ok (tshape c, map (elem c) [[0;0];[0;1];[1;0];[1;1];[2;0];[2;1]]) | _ => Panic end)
  = Ok ([3; 2], map Some [20; 21; 10; 11; 0; 1]%Z).
Proof. split; [split; reflexivity|vm_compute; reflexivity]. Qed.

(* ---------- C50 ---------- *)

(** Index [k] of a concatenation is the sample of the unique dataset owning it; indices
    past the end are refused. *)
Theorem C50_concat : forall I (ds : list (dataset I)) index,
  dlen (concat_dataset ds) = list_sum (map dlen ds) /\
  (list_sum (map dlen ds) <= index -> dget (concat_dataset ds) index = Err EInternal) /\
  (forall i d k, nth_error ds i = Some d -> k < dlen d -> index = list_sum (map dlen (firstn i ds)) + k ->
     dget (concat_dataset ds) index = dget d k) /\
  (index < list_sum (map dlen ds) -> exists i d k, nth_error ds i = Some d /\ k < dlen d /\
     index = list_sum (map dlen (firstn i ds)) + k).
Proof. exact concat_dataset_get. Qed.
Print Assumptions C50_concat.

(** A subset answers for the indices it holds and refuses the others. *)
Theorem C50_subset : forall I (d : dataset I) idx k,
  dlen (subset d idx) = length idx /\
  (forall i, nth_error idx k = Some i -> dget (subset d idx) k = dget d i) /\
  (length idx <= k -> dget (subset d idx) k = Err EInternal).
Proof.
  intros I d idx k. split; auto. split; intros.
  - unfold subset. cbn [dget]. assert (k < length idx) by (apply nth_error_Some; congruence).
    replace (length idx <=? k) with false by lia. now rewrite H.
  - unfold subset. cbn [dget]. now replace (length idx <=? k) with true by lia.
Qed.
Print Assumptions C50_subset.

(** random_split: two disjoint index lists covering the dataset, the first of the
    computed length, whenever that length is at most the length of the dataset. *)
Theorem C50_split_partial : forall I R (draw : R -> nat -> nat * R) r (d : dataset I) ratio, fair draw ->
  train_len (dlen d) ratio <= dlen d ->
  exists a b, random_split draw r d ratio = Ok ((a, subset d a), (b, subset d b)) /\
    length a = train_len (dlen d) ratio /\ NoDup a /\ NoDup b /\
    (forall i, In i a -> ~ In i b) /\ (forall i, In i a \/ In i b <-> i < dlen d).
Proof.
  intros I R draw r d ratio F H. destruct (split_at_spec I R draw r d (train_len (dlen d) ratio) F) as [S _].
  destruct (S H) as [a [b (E & L & P)]]. exists a, b. split; auto. split; auto.
  assert (ND : NoDup (a ++ b)) by (apply (Permutation_NoDup (Permutation_sym P)), seq_NoDup).
  split; [|split; [|split]].
  - clear - ND. induction a as [|x a IH]; [constructor|]. inversion ND; subst. constructor; [|auto]. intro X. apply H1, in_or_app. auto.
  - clear - ND. induction a as [|x a IH]; auto. inversion ND; subst. auto.
  - clear - ND. induction a as [|x a IH]; intros i Hi; [destruct Hi|]. inversion ND; subst. destruct Hi as [->|Hi]; auto.
    intro X. apply H1, in_or_app. auto.
  - intro i. split; intro X.
    + assert (Y : In i (a ++ b)) by (apply in_or_app; auto). apply (Permutation_in i P), in_seq in Y. lia.
    + apply in_app_or. apply (Permutation_in i (Permutation_sym P)), in_seq. lia.
Qed.
Print Assumptions C50_split_partial.

(** The ratio 1 on a dataset of 16777219 samples: the length rounds to the f32
    16777220, the slice is out of range, the call panics. *)
Theorem C50_split_refuted : forall I R (draw : R -> nat -> nat * R) r (get : nat -> outcome I), fair draw ->
  random_split draw r (mkD (Z.to_nat 16777219) get) (S754_finite false 8388608 (-23)) = Panic.
Proof.
  intros I R draw r get F. unfold random_split. cbn [dlen].
  assert (T : train_len (Z.to_nat 16777219) (S754_finite false 8388608 (-23)) = Z.to_nat 16777220).
  { unfold train_len, f32_of_nat. rewrite Z2Nat.id by lia.
    set (x := SFmul 24 128 (binary_normalize 24 128 16777219 0 false) (S754_finite false 8388608 (-23))).
    vm_compute in x. unfold x, usize_of_f32. apply (f_equal Z.to_nat). reflexivity. }
  rewrite T. apply (proj2 (split_at_spec I R draw r (mkD (Z.to_nat 16777219) get) (Z.to_nat 16777220) F)). cbn [dlen]. apply Z2Nat.inj_lt; lia.
Qed.
Print Assumptions C50_split_refuted.

(** Batch samplers: the batches concatenate to the sampled indices (or to the prefix of
    full batches), none is empty, all but the last are full. *)
Theorem C50_batch_sampler : forall A (idx : list A) bs drop, 0 < bs ->
  exists bl, sampler_batches idx bs drop = Ok bl /\
    concat bl = (if drop then firstn (bs * (length idx / bs)) idx else idx) /\
    (forall k b, nth_error bl k = Some b -> 0 < length b <= bs) /\
    (forall k b, nth_error bl k = Some b -> S k < length bl \/ drop = true -> length b = bs).
Proof.
  intros A idx bs drop Hb. eexists. split; [now apply sampler_batches_spec|].
  destruct (batches_spec A bs drop idx Hb) as (B1 & B2 & B3 & _). auto.
Qed.
Print Assumptions C50_batch_sampler.

Example C50_example :
  sampler_batches [3; 1; 4; 0; 2] 2 false = Ok [[3; 1]; [4; 0]; [2]] /\
  sampler_batches [3; 1; 4; 0; 2] 2 true = Ok [[3; 1]; [4; 0]] /\
  sampler_batches [3; 1] 0 true = Panic /\
  (let ds := [mkD 2 (fun i => Ok (100 + i)); mkD 0 (fun i => Ok i); mkD 3 (fun i => Ok (200 + i))] in
   map (dget (concat_dataset ds)) [0; 1; 2; 4; 5] = [Ok 100; Ok 101; Ok 200; Ok 202; Err EInternal]) /\
  train_len 10 (S754_finite false 13421773 (-24)) = 8.
Proof. repeat split. Qed.
