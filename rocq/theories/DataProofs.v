(** Proofs about the data pipeline. *)
From Coq Require Import List Arith ZArith Lia Bool ZifyBool Permutation SpecFloat.
From Verif Require Import Base IndexSpec PermFacts DataModel.
Import ListNotations.

(* ---------- shuffling ---------- *)

Lemma swap_ok : forall A (l : list A) i j, i < length l -> j < length l ->
  exists l', swap l i j = Ok l' /\ Permutation l l' /\
    exists a b, nth_error l i = Some a /\ nth_error l j = Some b /\ l' = upd (upd l i b) j a.
Proof.
  intros A l i j Hi Hj. unfold swap.
  destruct (nth_error l i) as [a|] eqn:Ea; [|apply nth_error_None in Ea; lia].
  destruct (nth_error l j) as [b|] eqn:Eb; [|apply nth_error_None in Eb; lia].
  eexists. split; [reflexivity|]. split; [now apply exchange_perm|]. exists a, b. auto.
Qed.

Lemma shuffle_loop_perm : forall A R (draw : R -> nat -> nat * R), fair draw -> forall i r (l : list A),
  i < length l \/ i = 0 -> exists l', shuffle_loop draw i r l = Ok l' /\ Permutation l l'.
Proof.
  intros A R draw F. induction i as [|i IH]; intros r l H; [exists l; split; auto|].
  cbn [shuffle_loop]. pose proof (F r (S i)) as Fj. destruct (draw r (S i)) as [j r'].
  destruct (swap_ok A l (S i) j) as [l1 [E [P _]]]; [lia|cbn in Fj; lia|]. rewrite E. cbn [bind].
  destruct (IH r' l1) as [l2 [E2 P2]]; [left; rewrite <- (Permutation_length P); lia|].
  exists l2. split; auto. now transitivity l1.
Qed.
Lemma shuffle_perm : forall A R (draw : R -> nat -> nat * R) r (l : list A), fair draw ->
  exists l', shuffle draw r l = Ok l' /\ Permutation l l'.
Proof.
  intros A R draw r l F. apply shuffle_loop_perm; auto. destruct l; cbn; [right|left]; lia.
Qed.

Definition choose (f : nat -> nat) : unit -> nat -> nat * unit := fun u i => (f i, u).

Lemma shuffle_loop_ext : forall A f g i (l : list A), (forall k, k <= i -> f k = g k) ->
  shuffle_loop (choose f) i tt l = shuffle_loop (choose g) i tt l.
Proof.
  intros A f g i. induction i as [|i IH]; intros l H; auto. cbn [shuffle_loop choose]. rewrite (H (S i)) by lia.
  destruct (swap l (S i) (g (S i))); auto. cbn [bind]. apply IH. intros; apply H; lia.
Qed.

Lemma shuffle_loop_reach : forall A i (l q : list A), length l = S i -> Permutation l q -> forall tail,
  exists f, (forall k, f k <= k) /\ shuffle_loop (choose f) i tt (l ++ tail) = Ok (q ++ tail).
Proof.
  intros A. induction i as [|i IH]; intros l q L P tail.
  - exists (fun _ => 0). split; [intros; lia|]. cbn. destruct l as [|x [|? ?]]; try discriminate.
    apply Permutation_length_1_inv in P. now subst.
  - assert (Lq : length q = S (S i)) by (rewrite <- (Permutation_length P); auto).
    destruct (exists_last (l := q)) as [q' [x Eq]]; [intro; subst; discriminate|]. subst q.
    assert (Hx : In x l) by (apply (Permutation_in x (Permutation_sym P)), in_or_app; right; left; auto).
    apply In_nth_error in Hx. destruct Hx as [j Hj].
    assert (Jl : j < length l) by (apply nth_error_Some; congruence).
    destruct (nth_error l (S i)) as [a|] eqn:Ea; [|apply nth_error_None in Ea; lia].
    set (l1 := upd (upd l (S i) x) j a).
    assert (P1 : Permutation l l1) by (now apply exchange_perm).
    assert (L1 : length l1 = S (S i)) by (rewrite <- (Permutation_length P1); auto).
    assert (E1 : nth_error l1 (S i) = Some x).
    { unfold l1. rewrite nth_error_upd. destruct (Nat.eq_dec j (S i)) as [->|N].
      - rewrite Nat.eqb_refl, upd_length. replace (S i <? length l) with true by lia. cbn. congruence.
      - replace (j =? S i) with false by lia. cbn [andb]. apply nth_error_upd_eq. lia. }
    destruct (exists_last (l := l1)) as [l2 [y El]]; [intro X; rewrite X in L1; discriminate|].
    rewrite El in E1, L1. rewrite app_length in L1. cbn in L1.
    rewrite nth_error_app2 in E1 by lia. replace (S i - length l2) with 0 in E1 by lia. injection E1 as ->.
    assert (P2 : Permutation l2 q').
    { apply (Permutation_app_inv_r [x]). rewrite <- El. now transitivity l. }
    destruct (IH l2 q' ltac:(lia) P2 (x :: tail)) as [f [Hf Ef]].
    exists (fun k => if k =? S i then j else f k). split.
    { intros k. destruct (Nat.eqb_spec k (S i)); [lia|apply Hf]. }
    cbn [shuffle_loop]. unfold choose at 1. rewrite Nat.eqb_refl.
    unfold swap. rewrite !nth_error_app1 by lia. rewrite Ea, Hj. cbn [bind].
    assert (U : forall k v (m : list A), k < length m -> upd (m ++ tail) k v = upd m k v ++ tail).
    { clear. intros k v m. revert k. induction m as [|h m IHm]; intros [|k] H; cbn in *; try lia; auto. f_equal. apply IHm. lia. }
    rewrite U by lia. rewrite U by (rewrite upd_length; lia). fold l1. rewrite El, <- app_assoc. cbn [app].
    rewrite (shuffle_loop_ext A _ f); [rewrite Ef, <- app_assoc; reflexivity|].
    intros k Hk. replace (k =? S i) with false by lia. auto.
Qed.
Lemma shuffle_reach : forall A (l q : list A), Permutation l q ->
  exists f, (forall k, f k <= k) /\ shuffle (choose f) tt l = Ok q.
Proof.
  intros A l q P. unfold shuffle. destruct l as [|x l].
  - apply Permutation_nil in P. subst. exists (fun _ => 0). split; [intros; lia|auto].
  - destruct (shuffle_loop_reach A (length l) (x :: l) q eq_refl P []) as [f [Hf E]]. rewrite !app_nil_r in E.
    exists f. split; auto. cbn [length]. now rewrite Nat.sub_succ, Nat.sub_0_r.
Qed.

(* ---------- batches of a list ---------- *)

Definition batch {A} (bs : nat) (l : list A) (k : nat) : list A := firstn bs (skipn (k * bs) l).
Definition batches {A} (bs m : nat) (l : list A) : list (list A) := map (batch bs l) (seq 0 m).

Lemma firstn_add : forall A (l : list A) a b, firstn a l ++ firstn b (skipn a l) = firstn (a + b) l.
Proof. intros A l a. revert l. induction a as [|a IH]; intros l b; auto. destruct l as [|x l]; cbn; [now rewrite firstn_nil|]. f_equal. apply IH. Qed.
Lemma concat_batches : forall A bs m (l : list A), concat (batches bs m l) = firstn (m * bs) l.
Proof.
  intros A bs m l. unfold batches. induction m as [|m IH]; auto.
  rewrite seq_S, map_app, concat_app, IH. cbn [map concat]. rewrite app_nil_r. cbn [plus]. unfold batch.
  rewrite firstn_add. f_equal. lia.
Qed.
Lemma batch_length : forall A bs (l : list A) k, length (batch bs l k) = Nat.min bs (length l - k * bs).
Proof. intros. unfold batch. now rewrite firstn_length, skipn_length. Qed.
Lemma batches_length : forall A bs m (l : list A), length (batches bs m l) = m.
Proof. intros. unfold batches. now rewrite map_length, seq_length. Qed.
Lemma nth_batches : forall A bs m (l : list A) k b, nth_error (batches bs m l) k = Some b -> k < m /\ b = batch bs l k.
Proof.
  intros A bs m l k b H. assert (K : k < m).
  { rewrite <- (batches_length A bs m l). apply nth_error_Some. congruence. }
  unfold batches in H. rewrite nth_error_map, nth_error_seq in H by auto. cbn in H. injection H as <-. auto.
Qed.

Definition nbatch (n bs : nat) (drop_last : bool) : nat :=
  if drop_last then n / bs else if n mod bs =? 0 then n / bs else S (n / bs).

Lemma nbatch_drop : forall n bs, 0 < bs -> nbatch n bs true * bs <= n < S (nbatch n bs true) * bs.
Proof.
  intros n bs H. unfold nbatch. pose proof (Nat.div_mod n bs ltac:(lia)). pose proof (Nat.mod_upper_bound n bs ltac:(lia)). nia.
Qed.
Lemma nbatch_keep : forall n bs, 0 < bs -> n <= nbatch n bs false * bs /\ (forall k, k < nbatch n bs false -> k * bs < n).
Proof.
  intros n bs H. unfold nbatch. pose proof (Nat.div_mod n bs ltac:(lia)). pose proof (Nat.mod_upper_bound n bs ltac:(lia)).
  destruct (Nat.eqb_spec (n mod bs) 0) as [E|E]; split; intros; nia.
Qed.

(* ---------- batch sampler ---------- *)
Lemma skipn_skipn' : forall A a b (l : list A), skipn a (skipn b l) = skipn (b + a) l.
Proof. intros A a b. induction b as [|b IH]; intros l; auto. destruct l; cbn; [now rewrite skipn_nil|apply IH]. Qed.

Lemma chunks_of_spec : forall A bs, 0 < bs -> forall fuel (l : list A), length l <= fuel ->
  chunks_of fuel bs l = batches bs (nbatch (length l) bs false) l.
Proof.
  intros A bs Hb. induction fuel as [|f IH]; intros l H.
  - destruct l; [|cbn in H; lia]. unfold nbatch. cbn [length]. rewrite Nat.mod_0_l, Nat.div_0_l by lia. reflexivity.
  - destruct l as [|x l0].
    + unfold nbatch. cbn [length]. rewrite Nat.mod_0_l, Nat.div_0_l by lia. reflexivity.
    + set (l := x :: l0) in *. cbn [chunks_of]. unfold l at 1. fold l.
      assert (LL : length (skipn bs l) = length l - bs) by apply skipn_length.
      assert (N : nbatch (length l) bs false = S (nbatch (length l - bs) bs false)).
      { destruct (nbatch_keep (length l) bs Hb) as [A1 A2]. destruct (nbatch_keep (length l - bs) bs Hb) as [B1 B2].
        set (p := nbatch (length l) bs false) in *. set (q := nbatch (length l - bs) bs false) in *.
        assert (P0 : 0 < p) by (destruct p; [unfold l in A1; cbn in A1; lia|lia]).
        assert (p - 1 <= q). { destruct (Nat.le_gt_cases (p - 1) q); auto. exfalso. assert (X := A2 (S q) ltac:(lia)). nia. }
        assert (q <= p - 1). { destruct q as [|q']; [lia|]. assert (X := B2 q' ltac:(lia)). nia. }
        lia. }
      rewrite N. unfold batches at 1. cbn [seq map]. rewrite IH by (rewrite LL; unfold l in *; cbn [length] in *; lia).
      f_equal. rewrite LL. unfold batches. rewrite <- seq_shift, map_map. apply map_ext. intro k. unfold batch.
      now rewrite skipn_skipn'.
Qed.

Lemma nbatch_exact : forall n bs (drop : bool) m, 0 < bs -> 
  (if drop then m * bs <= n < S m * bs else n <= m * bs /\ (forall k, k < m -> k * bs < n)) -> m = nbatch n bs drop.
Proof.
  intros n bs [] m Hb H.
  - pose proof (nbatch_drop n bs Hb). nia.
  - destruct H as [A1 A2]. destruct (nbatch_keep n bs Hb) as [B1 B2]. set (q := nbatch n bs false) in *.
    destruct (Nat.lt_trichotomy m q) as [L|[E|L]]; auto.
    + specialize (B2 m L). lia.
    + specialize (A2 q L). lia.
Qed.

Lemma take_batches_keep : forall A bs (cs : list (list A)), take_batches bs false cs = cs.
Proof. intros A bs cs. induction cs as [|c cs IH]; auto. cbn. now rewrite IH. Qed.

Lemma take_batches_spec : forall A bs (l : list A) m s, 0 < bs ->
  take_batches bs true (map (batch bs l) (seq s m)) =
  map (batch bs l) (seq s (Nat.min m (nbatch (length l) bs true - s))).
Proof.
  intros A bs l m. induction m as [|m IH]; intros s Hb; auto.
  cbn [seq map take_batches andb]. rewrite batch_length. pose proof (nbatch_drop (length l) bs Hb) as N.
  destruct (Nat.min bs (length l - s * bs) <? bs) eqn:E.
  - assert (H : nbatch (length l) bs true <= s).
    { destruct (Nat.le_gt_cases (nbatch (length l) bs true) s); auto. exfalso. nia. }
    replace (Nat.min (S m) (nbatch (length l) bs true - s)) with 0 by lia. reflexivity.
  - assert (H : s < nbatch (length l) bs true) by nia.
    rewrite IH by auto.
    replace (Nat.min (S m) (nbatch (length l) bs true - s)) with (S (Nat.min m (nbatch (length l) bs true - S s))) by lia.
    reflexivity.
Qed.

Lemma nbatch_le : forall n bs, 0 < bs -> nbatch n bs true <= nbatch n bs false.
Proof. intros. unfold nbatch. destruct (n mod bs =? 0); lia. Qed.

Lemma sampler_batches_spec : forall A (l : list A) bs drop, 0 < bs ->
  sampler_batches l bs drop = Ok (batches bs (nbatch (length l) bs drop) l).
Proof.
  intros A l bs drop Hb. unfold sampler_batches. replace (bs =? 0) with false by lia.
  rewrite chunks_of_spec by auto. destruct drop.
  - unfold batches at 1. rewrite take_batches_spec by auto.
    pose proof (nbatch_le (length l) bs Hb). f_equal. unfold batches. do 2 f_equal. lia.
  - now rewrite take_batches_keep.
Qed.

(** what a sequence of batches of [l] must satisfy *)
Definition batches_ok {A} (bs : nat) (drop : bool) (l : list A) (bl : list (list A)) : Prop :=
  concat bl = (if drop then firstn (bs * (length l / bs)) l else l) /\
  (forall k b, nth_error bl k = Some b -> 0 < length b <= bs) /\
  (forall k b, nth_error bl k = Some b -> S k < length bl \/ drop = true -> length b = bs) /\
  length bl = nbatch (length l) bs drop.

Lemma batches_spec : forall A bs drop (l : list A), 0 < bs -> batches_ok bs drop l (batches bs (nbatch (length l) bs drop) l).
Proof.
  intros A bs drop l Hb. split; [|split; [|split]].
  - rewrite concat_batches. destruct drop.
    + unfold nbatch. now rewrite Nat.mul_comm.
    + apply firstn_all2. apply nbatch_keep; auto.
  - intros k b H. apply nth_batches in H. destruct H as [K ->]. rewrite batch_length. destruct drop.
    + pose proof (nbatch_drop (length l) bs Hb). nia.
    + destruct (nbatch_keep (length l) bs Hb) as [_ B]. specialize (B k K). lia.
  - intros k b H [K|D]; rewrite ?batches_length in *.
    + apply nth_batches in H. destruct H as [_ ->]. rewrite batch_length. destruct drop.
      * pose proof (nbatch_drop (length l) bs Hb). nia.
      * destruct (nbatch_keep (length l) bs Hb) as [_ B]. specialize (B (S k) K). lia.
    + subst. apply nth_batches in H. destruct H as [K ->]. rewrite batch_length.
      pose proof (nbatch_drop (length l) bs Hb). nia.
  - apply batches_length.
Qed.

(* ---------- concatenated and split datasets ---------- *)

Lemma cumulative_length : forall lens t, length (cumulative t lens) = length lens.
Proof. induction lens as [|n r IH]; intros; cbn; auto. Qed.
Lemma cumulative_last : forall lens t, last (cumulative t lens) t = t + list_sum lens.
Proof.
  induction lens as [|n r IH]; intros t; [cbn; lia|]. cbn [cumulative].
  destruct r as [|m r']; [cbn; lia|]. rewrite <- (Nat.add_0_r (t + list_sum (n :: m :: r'))).
  change (last ((t + n) :: cumulative (t + n) (m :: r')) t) with (last (cumulative (t + n) (m :: r')) t).
  assert (X : forall l (a b : nat), l <> [] -> last l a = last l b).
  { clear. induction l as [|x [|y l] IH]; intros a b H; [congruence|auto|]. cbn [last] in *. apply IH. discriminate. }
  rewrite (X _ t (t + n)) by (cbn; discriminate). rewrite IH. cbn [list_sum fold_right]. unfold list_sum. lia.
Qed.

Lemma concat_get_spec : forall I (ds : list (dataset I)) prev index i k d,
  nth_error ds i = Some d -> k < dlen d -> index = prev + list_sum (map dlen (firstn i ds)) + k ->
  concat_get prev index ds (cumulative prev (map dlen ds)) = dget d k.
Proof.
  intros I ds. induction ds as [|d0 ds IH]; intros prev index i k d Hi Hk E; [destruct i; discriminate|].
  cbn [map cumulative concat_get]. destruct i as [|i].
  - cbn in Hi. injection Hi as ->. cbn in E. replace (index <? prev + dlen d) with true by lia. f_equal. lia.
  - cbn [nth_error] in Hi. cbn [firstn map list_sum fold_right] in E. fold (list_sum (map dlen (firstn i ds))) in E.
    replace (index <? prev + dlen d0) with false by lia. apply (IH (prev + dlen d0) index i k d); auto. lia.
Qed.

Lemma owner_exists : forall lens index, index < list_sum lens -> exists i n k, nth_error lens i = Some n /\ k < n /\
  index = list_sum (firstn i lens) + k.
Proof.
  induction lens as [|n r IH]; intros index H; [cbn in H; lia|]. cbn [list_sum fold_right] in H. fold (list_sum r) in H.
  destruct (Nat.lt_ge_cases index n) as [L|L].
  - exists 0, n, index. cbn. auto.
  - destruct (IH (index - n)) as [i [m [k [E [K X]]]]]; [lia|]. exists (S i), m, k. split; auto. split; auto.
    cbn [firstn list_sum fold_right]. fold (list_sum (firstn i r)). lia.
Qed.

Lemma concat_dataset_get : forall I (ds : list (dataset I)) index,
  (dlen (concat_dataset ds) = list_sum (map dlen ds)) /\
  (list_sum (map dlen ds) <= index -> dget (concat_dataset ds) index = Err EInternal) /\
  (forall i d k, nth_error ds i = Some d -> k < dlen d -> index = list_sum (map dlen (firstn i ds)) + k ->
     dget (concat_dataset ds) index = dget d k) /\
  (index < list_sum (map dlen ds) -> exists i d k, nth_error ds i = Some d /\ k < dlen d /\
     index = list_sum (map dlen (firstn i ds)) + k).
Proof.
  intros I ds index. pose proof (cumulative_last (map dlen ds) 0) as CL. cbn [plus] in CL.
  split; [exact CL|]. split; [|split].
  - intros H. unfold concat_dataset. cbn [dget]. rewrite CL. now replace (list_sum (map dlen ds) <=? index) with true by lia.
  - intros i d k Hi Hk E. unfold concat_dataset. cbn [dget]. rewrite CL.
    assert (HL : index < list_sum (map dlen ds)).
    { clear CL. revert i index Hi E. induction ds as [|d0 ds IH]; intros [|i] index Hi E; try discriminate.
      - cbn in *. injection Hi as ->. fold (list_sum (map dlen ds)). lia.
      - cbn [nth_error] in Hi. cbn [firstn map list_sum fold_right] in *. fold (list_sum (map dlen ds)).
        fold (list_sum (map dlen (firstn i ds))) in E. specialize (IH i (index - dlen d0) Hi). lia. }
    replace (list_sum (map dlen ds) <=? index) with false by lia. now apply (concat_get_spec I ds 0 index i).
  - intros H. destruct (owner_exists _ _ H) as [i [n [k [E [K X]]]]]. rewrite nth_error_map in E.
    destruct (nth_error ds i) as [d|] eqn:Ed; [|discriminate]. cbn in E. injection E as <-.
    exists i, d, k. split; auto. split; auto. now rewrite <- firstn_map.
Qed.

Lemma split_at_spec : forall I R (draw : R -> nat -> nat * R) r (d : dataset I) k, fair draw ->
  (k <= dlen d -> exists a b, split_at draw r d k = Ok ((a, subset d a), (b, subset d b)) /\
     length a = k /\ Permutation (a ++ b) (seq 0 (dlen d))) /\
  (dlen d < k -> split_at draw r d k = Panic).
Proof.
  intros I R draw r d k F. unfold split_at.
  destruct (shuffle_perm nat R draw r (seq 0 (dlen d)) F) as [l [E P]]. rewrite E. cbn [bind].
  assert (L : length l = dlen d) by (rewrite <- (Permutation_length P), seq_length; auto).
  unfold slice_range. split; intro H.
  - replace ((k <? 0) || (length l <? k)) with false by lia. cbn [bind].
    replace ((length l <? k) || (length l <? length l)) with false by lia. cbn [bind].
    eexists. eexists. split; [reflexivity|]. rewrite Nat.sub_0_r. cbn [skipn]. split; [rewrite firstn_length; lia|].
    rewrite firstn_all2 with (n := length l - k) by (rewrite skipn_length; lia). rewrite firstn_skipn. now symmetry.
  - replace ((k <? 0) || (length l <? k)) with true by lia. reflexivity.
Qed.

(* ---------- the loader ---------- *)
Section Loader.
Context {I B R : Type}.
Variables (d : dataset I) (collate : list I -> outcome B).
Variables (draw : R -> nat -> nat * R) (seed_rng : Z -> R).
Variable checked : bool.
Hypothesis F : fair draw.
Notation n := (dlen d).

Definition inv (bs : nat) (sh drop : bool) (l : loader) : Prop :=
  l_bs l = bs /\ l_shuffle l = sh /\ l_drop l = drop /\ Permutation (seq 0 n) (l_indices l) /\
  (sh = false -> l_indices l = seq 0 n) /\ l_cur l <= n.

Lemma shuffle_indices_inv : forall bs drop l l', inv bs true drop l -> shuffle_indices draw seed_rng checked l = Ok l' ->
  inv bs true drop l' /\ l_cur l' = l_cur l.
Proof.
  intros bs drop l l' (A1 & A2 & A3 & A4 & A5 & A6) H. unfold shuffle_indices in H.
  destruct (add_u64 _ _ _) as [s| |]; try discriminate. cbn [bind] in H.
  destruct (shuffle_perm nat R draw (seed_rng s) (l_indices l) F) as [idx [E P]]. rewrite E in H. cbn [bind] in H.
  injection H as <-. split; auto. repeat split; cbn; auto; try discriminate. now transitivity (l_indices l).
Qed.

Lemma next_inv : forall bs sh drop l, inv bs sh drop l -> inv bs sh drop (fst (next_batch d collate l)).
Proof.
  intros bs sh drop l H. unfold next_batch. destruct (negb (has_next d l)); auto.
  destruct (slice_range _ _ _); auto. destruct (get_items d a); auto.
  destruct H as (A1 & A2 & A3 & A4 & A5 & A6). repeat split; cbn; auto. lia.
Qed.

Lemma reachable_inv : forall bs sh drop seed l,
  reachable d collate draw seed_rng checked bs sh drop seed l -> inv bs sh drop l.
Proof.
  intros bs sh drop seed l H. induction H as [l H|l H IH|l l' H IH E].
  - unfold loader_new in H. assert (I0 : inv bs sh drop (mkL bs sh drop (seq 0 n) 0 seed 0)).
    { repeat split; cbn; auto. lia. }
    destruct sh; [|injection H as <-; auto]. now apply (shuffle_indices_inv bs drop) in H.
  - now apply next_inv.
  - unfold reset in E. destruct (add_u64 _ _ _) as [ep| |]; try discriminate. cbn [bind] in E.
    assert (I1 : inv bs sh drop (mkL (l_bs l) (l_shuffle l) (l_drop l) (l_indices l) 0 (l_seed l) ep)).
    { destruct IH as (A1 & A2 & A3 & A4 & A5 & A6). repeat split; cbn; auto. lia. }
    cbn [l_shuffle] in E. destruct IH as (A1 & A2 & _). rewrite A2 in *. destruct sh; [|injection E as <-; auto].
    now apply (shuffle_indices_inv bs drop) in E.
Qed.

Lemma get_items_ok : forall g idx, (forall i, In i idx -> dget d i = Ok (g i)) -> get_items d idx = Ok (map g idx).
Proof.
  intros g idx. induction idx as [|i r IH]; intros H; auto. cbn [get_items]. rewrite H by (left; auto). cbn [bind].
  rewrite IH by (intros; apply H; right; auto). reflexivity.
Qed.

Variables (g : nat -> I) (c : list I -> B).
Hypothesis G : forall i, i < n -> dget d i = Ok (g i).
Hypothesis C : forall l, l <> [] -> collate l = Ok (c l).

Lemma next_step : forall bs sh drop l k, 0 < bs -> inv bs sh drop l -> k < nbatch n bs drop -> l_cur l = k * bs ->
  exists l', next_batch d collate l = (l', Ok (Some (c (map g (batch bs (l_indices l) k))))) /\
    inv bs sh drop l' /\ l_indices l' = l_indices l /\ l_cur l' = Nat.min (S k * bs) n.
Proof.
  intros bs sh drop l k Hb Hi Hk Hc. pose proof Hi as (A1 & A2 & A3 & A4 & A5 & A6).
  assert (Li : length (l_indices l) = n) by (rewrite <- (Permutation_length A4), seq_length; auto).
  assert (HN : k * bs < n /\ (drop = true -> k * bs + bs <= n)).
  { destruct drop.
    - pose proof (nbatch_drop n bs Hb). nia.
    - destruct (nbatch_keep n bs Hb) as [_ X]. specialize (X k Hk). split; [auto|discriminate]. }
  destruct HN as [HN1 HN2].
  assert (HX : has_next d l = true).
  { unfold has_next. rewrite Hc, A1, A3. replace (n <=? k * bs) with false by lia. destruct drop; auto. lia. }
  unfold next_batch. rewrite HX. cbn [negb]. rewrite Hc, A1.
  unfold slice_range. rewrite Li. set (e := Nat.min (k * bs + bs) n).
  replace ((e <? k * bs) || (n <? e)) with false by lia.
  assert (EB : firstn (e - k * bs) (skipn (k * bs) (l_indices l)) = batch bs (l_indices l) k).
  { unfold batch. destruct (Nat.le_gt_cases (k * bs + bs) n) as [L|L].
    - f_equal. lia.
    - rewrite !firstn_all2; auto; rewrite skipn_length; lia. }
  rewrite EB. rewrite (get_items_ok g).
  - eexists. split; [rewrite C; [reflexivity|]|].
    + assert (LB : length (batch bs (l_indices l) k) = Nat.min bs (n - k * bs)) by (rewrite batch_length, Li; auto).
      intro X. apply map_eq_nil in X. rewrite X in LB. cbn in LB. lia.
    + split; [|split; [reflexivity|cbn; lia]]. repeat split; cbn; auto. lia.
  - intros i Hin. apply G. unfold batch in Hin.
    assert (H : In i (l_indices l)).
    { rewrite <- (firstn_skipn (k * bs) (l_indices l)), <- (firstn_skipn bs (skipn (k * bs) (l_indices l))).
      apply in_or_app. right. apply in_or_app. auto. }
    apply (Permutation_in i (Permutation_sym A4)) in H. apply in_seq in H. lia.
Qed.

Lemma at_end : forall bs sh drop l, 0 < bs -> inv bs sh drop l ->
  l_cur l = Nat.min (nbatch n bs drop * bs) n -> next_batch d collate l = (l, Ok None).
Proof.
  intros bs sh drop l Hb (A1 & A2 & A3 & A4 & A5 & A6) Hc. unfold next_batch, has_next. rewrite A1, A3.
  destruct drop.
  - pose proof (nbatch_drop n bs Hb). destruct (n <=? l_cur l) eqn:E; [reflexivity|].
    replace (bs <=? n - l_cur l) with false by nia. reflexivity.
  - destruct (nbatch_keep n bs Hb) as [X _]. replace (n <=? l_cur l) with true by lia. reflexivity.
Qed.

Lemma run_end : forall bs sh drop l, 0 < bs -> inv bs sh drop l ->
  l_cur l = Nat.min (nbatch n bs drop * bs) n -> forall j, run d collate j l = (repeat (Ok None) j, l).
Proof.
  intros bs sh drop l Hb Hi Hc. induction j as [|j IH]; auto.
  cbn [run]. rewrite (at_end bs sh drop) by auto. now rewrite IH.
Qed.

Lemma run_from : forall bs sh drop, 0 < bs -> forall m k l, inv bs sh drop l -> k + m = nbatch n bs drop ->
  l_cur l = Nat.min (k * bs) n -> exists l', inv bs sh drop l' /\ l_cur l' = Nat.min (nbatch n bs drop * bs) n /\
  l_indices l' = l_indices l /\
  run d collate m l = (map (fun b => Ok (Some (c (map g b)))) (map (batch bs (l_indices l)) (seq k m)), l').
Proof.
  intros bs sh drop Hb. induction m as [|m IH]; intros k l Hi Hk Hc.
  - exists l. split; auto. split; [rewrite Hc; do 2 f_equal; lia|]. auto.
  - assert (KN : k * bs <= n).
    { destruct drop; [pose proof (nbatch_drop n bs Hb); nia|]. destruct (nbatch_keep n bs Hb) as [_ X]. specialize (X k ltac:(lia)). lia. }
    destruct (next_step bs sh drop l k Hb Hi) as [l1 [E [I1 [X1 C1]]]]; [lia|lia|].
    destruct (IH (S k) l1 I1) as [l2 [I2 [C2 [X2 E2]]]]; [lia|auto|].
    exists l2. split; auto. split; auto. split; [congruence|]. cbn [run]. rewrite E, E2, X1. reflexivity.
Qed.

Lemma epoch : forall bs sh drop seed l, 0 < bs -> reachable d collate draw seed_rng checked bs sh drop seed l -> l_cur l = 0 ->
  exists order bl, Permutation (seq 0 n) order /\ (sh = false -> order = seq 0 n) /\ batches_ok bs drop order bl /\
    num_batches d l = Ok (length bl) /\
    forall j, fst (run d collate (length bl + j) l) = map (fun b => Ok (Some (c (map g b)))) bl ++ repeat (Ok None) j.
Proof.
  intros bs sh drop seed l Hb HR Hc. apply reachable_inv in HR. pose proof HR as (A1 & A2 & A3 & A4 & A5 & A6).
  assert (Li : length (l_indices l) = n) by (rewrite <- (Permutation_length A4), seq_length; auto).
  exists (l_indices l), (batches bs (nbatch n bs drop) (l_indices l)).
  split; auto. split; auto. split; [rewrite <- Li; now apply batches_spec|].
  rewrite batches_length. split.
  - unfold num_batches. rewrite A1, A3. replace (bs =? 0) with false by lia. reflexivity.
  - intro j. destruct (run_from bs sh drop Hb (nbatch n bs drop) 0 l HR) as [l' [I' [C' [_ E]]]]; [lia|cbn; lia|].
    assert (RA : forall a b l, fst (run d collate (a + b) l) = fst (run d collate a l) ++ fst (run d collate b (snd (run d collate a l)))).
    { clear. induction a as [|a IH]; intros b l; auto. cbn [run plus]. destruct (next_batch d collate l) as [l1 x].
      specialize (IH b l1). destruct (run d collate (a + b) l1), (run d collate a l1). cbn in *. now rewrite IH. }
    rewrite RA, E. cbn [fst snd]. f_equal. rewrite (run_end bs sh drop) by auto. reflexivity.
Qed.
End Loader.
