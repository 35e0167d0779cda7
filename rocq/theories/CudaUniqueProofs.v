From Coq Require Import List Arith ZArith Bool Lia Permutation.
From Verif Require Import Base IndexSpec LayoutModel KernelModel KernelProofs TensorModel ScanModel SortModel CountModel CountProofs2.
From Verif Require Import TileModel TileSpec LaunchModel LaunchSpec LaunchProofs BitonicProofs CudaUniqueModel.
Import ListNotations.

Lemma map_seq_ext : forall X (f g : nat -> X) n, (forall i, i < n -> f i = g i) -> map f (seq 0 n) = map g (seq 0 n).
Proof. intros X f g n H. apply map_ext_in. intros i I. apply in_seq in I. apply H. lia. Qed.
Lemma nth_error_seq_map : forall X (f : nat -> X) n i, i < n -> nth_error (map f (seq 0 n)) i = Some (f i).
Proof. intros X f n i H. rewrite nth_error_map, (nth_error_nth' _ 0) by (rewrite seq_length; lia). now rewrite seq_nth by lia. Qed.
Lemma upd_seq_map : forall X (f : nat -> X) n i x, i < n -> upd (map f (seq 0 n)) i x = map (fun k => if k =? i then x else f k) (seq 0 n).
Proof.
  intros X f n i x H. apply list_ext. intros k.
  destruct (Nat.lt_ge_cases k n) as [K|K].
  - rewrite nth_error_seq_map by exact K. destruct (Nat.eqb_spec k i) as [-> | N].
    + now rewrite nth_error_upd_eq by (rewrite map_length, seq_length; lia).
    + rewrite nth_error_upd_neq by lia. now apply nth_error_seq_map.
  - rewrite !(proj2 (nth_error_None _ _)); [reflexivity| |]; rewrite ?upd_length, map_length, seq_length; lia.
Qed.
Lemma store_seq_map : forall X (f : nat -> X) n i x, i < n -> c_store (map f (seq 0 n)) i x = Some (map (fun k => if k =? i then x else f k) (seq 0 n)).
Proof. intros. rewrite c_store_some by (rewrite map_length, seq_length; lia). now rewrite upd_seq_map. Qed.

(** membership as a boolean *)
Definition mem (x : nat) (l : list nat) : bool := existsb (Nat.eqb x) l.
Lemma mem_In : forall x l, mem x l = true <-> In x l.
Proof.
  intros x l. unfold mem. rewrite existsb_exists. split.
  - intros (y & I & E). apply Nat.eqb_eq in E. now subst.
  - intro I. exists x. split; [exact I|apply Nat.eqb_refl].
Qed.
Lemma mem_app : forall x l y, mem x (l ++ [y]) = mem x l || (x =? y).
Proof. intros. unfold mem. rewrite existsb_app. cbn [existsb]. now rewrite orb_false_r. Qed.
Lemma mem_perm : forall ks n x, Permutation ks (seq 0 n) -> x < n -> mem x ks = true.
Proof. intros ks n x P L. apply mem_In. apply (Permutation_in _ (Permutation_sym P)). apply in_seq. lia. Qed.

(** a loop over a list read from its end *)
Lemma loopO_snoc : forall X S (f : X -> S -> option S) l x s, loopO f (l ++ [x]) s = obind (loopO f l s) (f x).
Proof. intros. rewrite loopO_app. destruct (loopO f l s); [|reflexivity]. cbn [obind loopO]. destruct (f x s0); reflexivity. Qed.

Section Network.
Context {A : Type}.
Variables (lt : A -> A -> bool) (top : A).
Variable sched : launch -> nat -> list nat.
Hypothesis asym : forall a b, lt a b = true -> lt b a = false.
Hypothesis neg : forall a b c, lt a b = false -> lt b c = false -> lt a c = false.

(** the pair of buffers with [w i] at [i] *)
Definition cells (n : nat) (w : nat -> A * nat) : list A * list nat :=
  (map (fun i => fst (w i)) (seq 0 n), map (fun i => snd (w i)) (seq 0 n)).
Definition plt (a b : A * nat) : bool := lt (fst a) (fst b).
Lemma cells_ext : forall n w w', (forall i, i < n -> w i = w' i) -> cells n w = cells n w'.
Proof. intros n w w' H. unfold cells. f_equal; apply map_seq_ext; intros i I; now rewrite H. Qed.

Section Copy.
Variables (input : list A) (n offset padded : nat) (f : nat -> A * nat) (z : A).
Hypothesis reads : forall i, i < padded -> (if i <? n then nth_error input (offset + i) else Some top) = Some (fst (f i)) /\ snd (f i) = i.
Lemma copy_turns : forall ks, (forall i, In i ks -> i < padded) ->
  loopO (fun tid (s : list A * list nat) =>
    let? x := if tid <? n then nth_error input (offset + tid) else Some top in
    let? vs := c_store (fst s) tid x in
    let? ps := c_store (snd s) tid tid in Some (vs, ps)) ks (repeat z padded, repeat 0 padded) =
  Some (cells padded (fun i => if mem i ks then f i else (z, 0))).
Proof.
  assert (R : forall X (x : X) k, repeat x k = map (fun _ => x) (seq 0 k)).
  { intros X x k. generalize 0. induction k as [|k IH]; intro a; [reflexivity|]. cbn. now rewrite <- IH. }
  induction ks as [|x ks IH] using rev_ind; intro B.
  - cbn [loopO mem existsb]. unfold cells. cbn [fst snd]. now rewrite <- !R.
  - rewrite loopO_snoc, IH by (intros i I; apply B; apply in_or_app; now left). cbn [obind].
    assert (X : x < padded) by (apply B; apply in_or_app; right; now left).
    destruct (reads x X) as [-> E]. cbn [obind]. unfold cells. cbn [fst snd]. rewrite !store_seq_map by exact X.
    cbn [obind]. do 2 f_equal; apply map_seq_ext; intros i I; rewrite mem_app; destruct (Nat.eqb_spec i x) as [-> | N];
      rewrite ?orb_true_r, ?orb_false_r; try reflexivity. now rewrite E.
Qed.
End Copy.

Section Step.
Variables (m s t : nat) (v : nat -> A * nat).
Hypothesis sm : s <= m.
Hypothesis ts : t < s.
Notation N := (2 ^ m).
Definition low (i : nat) : nat := if Nat.testbit i t then flip t i else i.
Definition half (done : list nat) (i : nat) : A * nat := if mem (low i) done then vstep plt s t v i else v i.
Lemma flip_lt : forall i, i < N -> flip t i < N.
Proof.
  intros i I. destruct (Nat.eq_dec (flip t i) 0) as [-> | NZ]; [exact (Nat.le_lt_trans _ _ _ (Nat.le_0_l i) I)|].
  apply Nat.log2_lt_pow2; [lia|]. unfold flip in *.
  apply (Nat.le_lt_trans _ (Nat.max (Nat.log2 i) (Nat.log2 (2 ^ t)))); [apply Nat.log2_lxor|].
  rewrite Nat.log2_pow2 by lia. apply Nat.max_lub_lt; [|lia].
  destruct (Nat.eq_dec i 0) as [-> | IZ]; [cbn; lia|]. apply Nat.log2_lt_pow2; lia.
Qed.
Lemma flip_bit : forall i, Nat.testbit (flip t i) t = negb (Nat.testbit i t).
Proof. intro i. unfold flip. rewrite Nat.lxor_spec, Nat.pow2_bits_true. apply xorb_true_r. Qed.
Lemma low_bit_clear : forall i, Nat.testbit (low i) t = false.
Proof. intro i. unfold low. destruct (Nat.testbit i t) eqn:E; [rewrite flip_bit, E; reflexivity|exact E]. Qed.

Lemma turn_half : forall done i, i < N -> mem i done = false ->
  bitonic_turn lt N (2 ^ s) (2 ^ t) i (cells N (half done)) = Some (cells N (half (done ++ [i]))).
Proof.
  intros done i I D. unfold bitonic_turn. fold (flip t i). rewrite flip_order.
  replace (flip t i <? N) with true by (symmetry; apply Nat.ltb_lt, flip_lt, I). rewrite andb_true_r.
  destruct (Nat.testbit i t) eqn:T; cbn [negb].
  - f_equal. apply cells_ext. intros k _. unfold half. rewrite mem_app.
    replace (low k =? i) with false; [now rewrite orb_false_r|]. symmetry. apply Nat.eqb_neq. intro E.
    pose proof (low_bit_clear k) as L. rewrite E in L. congruence.
  - pose proof (flip_lt i I) as P. set (p := flip t i) in *.
    assert (TP : Nat.testbit p t = true) by (unfold p; rewrite flip_bit, T; reflexivity).
    assert (FP : flip t p = i) by (unfold p; apply flip_flip).
    assert (LI : low i = i) by (unfold low; now rewrite T).
    assert (LP : low p = i) by (unfold low; now rewrite TP).
    assert (NE : i <> p) by (intro E; rewrite E in T; congruence).
    change (fst (cells N (half done))) with (map (fun i => fst (half done i)) (seq 0 N)).
    change (snd (cells N (half done))) with (map (fun i => snd (half done i)) (seq 0 N)).
    rewrite !nth_error_seq_map by assumption. cbn [obind].
    assert (HI : half done i = v i) by (unfold half; rewrite LI, D; reflexivity).
    assert (HP : half done p = v p) by (unfold half; rewrite LP, D; reflexivity).
    rewrite HI, HP. rewrite land_bit.
    assert (VI : vstep plt s t v i = if swaps plt s i (v i) (v p) then v p else v i).
    { unfold vstep. fold p. rewrite (proj2 (Nat.ltb_lt i p)); [reflexivity|]. pose proof (flip_order t i) as F. fold p in F. rewrite T in F. now apply Nat.ltb_lt. }
    assert (VP : vstep plt s t v p = if swaps plt s i (v i) (v p) then v i else v p).
    { unfold vstep. rewrite FP. pose proof (flip_order t p) as F. rewrite FP, TP in F. cbn [negb] in F. now rewrite F. }
    assert (SW : (if negb (Nat.testbit i s) then negb (lt (fst (v i)) (fst (v p))) else lt (fst (v i)) (fst (v p))) = swaps plt s i (v i) (v p))
      by (unfold swaps, plt; destruct (Nat.testbit i s); reflexivity).
    rewrite SW.
    assert (OTHER : forall k, k <> i -> k <> p -> half (done ++ [i]) k = half done k).
    { intros k K1 K2. unfold half. rewrite mem_app. replace (low k =? i) with false; [now rewrite orb_false_r|].
      symmetry. apply Nat.eqb_neq. intro E. unfold low in E. destruct (Nat.testbit k t); [|now apply K1].
      apply K2. unfold p. rewrite <- E. symmetry. apply flip_flip. }
    assert (NI : half (done ++ [i]) i = vstep plt s t v i) by (unfold half; rewrite mem_app, LI, Nat.eqb_refl, orb_true_r; reflexivity).
    assert (NP : half (done ++ [i]) p = vstep plt s t v p) by (unfold half; rewrite mem_app, LP, Nat.eqb_refl, orb_true_r; reflexivity).
    destruct (swaps plt s i (v i) (v p)).
    + rewrite !store_seq_map by assumption. cbn [obind]. rewrite !store_seq_map by assumption. cbn [obind].
      unfold cells. do 2 f_equal; apply map_seq_ext; intros k K; destruct (Nat.eqb_spec k p) as [-> | K2]; try (now rewrite NP, VP);
        destruct (Nat.eqb_spec k i) as [-> | K1]; try (now rewrite NI, VI); now rewrite OTHER.
    + f_equal. apply cells_ext. intros k K. destruct (Nat.eq_dec k p) as [-> | K2]; [now rewrite NP, VP, HP|].
      destruct (Nat.eq_dec k i) as [-> | K1]; [now rewrite NI, VI, HI|]. now rewrite OTHER.
Qed.
Lemma turns_half : forall ks, NoDup ks -> (forall i, In i ks -> i < N) ->
  loopO (bitonic_turn lt N (2 ^ s) (2 ^ t)) ks (cells N v) = Some (cells N (half ks)).
Proof.
  induction ks as [|x ks IH] using rev_ind; intros ND B; [cbn [loopO]; f_equal; now apply cells_ext|].
  rewrite loopO_snoc, IH; [| |intros i I; apply B; apply in_or_app; now left].
  - cbn [obind]. apply turn_half; [apply B; apply in_or_app; right; now left|].
    apply NoDup_remove_2 in ND. rewrite app_nil_r in ND. destruct (mem x ks) eqn:M; [|reflexivity]. apply mem_In in M. contradiction.
  - apply NoDup_remove_1 in ND. now rewrite app_nil_r in ND.
Qed.
Lemma low_lt : forall i, i < N -> low i < N.
Proof. intros i I. unfold low. destruct (Nat.testbit i t); [now apply flip_lt|exact I]. Qed.

(** One launch of the step kernel, under any schedule. *)
Lemma step_cells : (Z.of_nat N <= 2 ^ 31)%Z -> over (execute Long N (sched (ToStep (2 ^ s) (2 ^ t)) N)) ->
  bitonic_step lt sched N (2 ^ s) (2 ^ t) (cells N v) = Some (cells N (vstep plt s t v)).
Proof.
  intros C O. unfold bitonic_step.
  assert (U : (Z.of_nat (as_u32 N) <= 2 ^ 32 - 256)%Z).
  { apply (Z.le_trans _ (Z.of_nat N)); [|lia]. apply inj_le. unfold as_u32.
    pose proof (Z.mod_le (Z.of_nat N) (2 ^ 32) ltac:(lia) ltac:(lia)). lia. }
  pose proof (long_once _ _ U O) as P. unfold each_once in P.
  rewrite turns_half.
  - f_equal. apply cells_ext. intros i I. unfold half. now rewrite (mem_perm _ N _ P) by now apply low_lt.
  - apply (Permutation_NoDup (Permutation_sym P)), seq_NoDup.
  - intros i I. apply (Permutation_in _ P) in I. apply in_seq in I. lia.
Qed.
(** The step moves the cells around. *)
Lemma step_perm : Permutation (map (vstep plt s t v) (seq 0 N)) (map v (seq 0 N)).
Proof.
  set (b := fun i => if i <? flip t i then swaps plt s i (v i) (v (flip t i)) else swaps plt s (flip t i) (v (flip t i)) (v i)).
  set (g := fun i => if b i then flip t i else i).
  assert (BF : forall i, b (flip t i) = b i).
  { intro i. unfold b. rewrite flip_flip. pose proof (flip_order t i) as F1. pose proof (flip_order t (flip t i)) as F2.
    rewrite flip_flip, flip_bit in F2. rewrite F1, F2. destruct (Nat.testbit i t); reflexivity. }
  assert (GG : forall i, g (g i) = i).
  { intro i. unfold g. destruct (b i) eqn:E; [now rewrite BF, E, flip_flip|now rewrite E]. }
  replace (map (vstep plt s t v) (seq 0 N)) with (map v (map g (seq 0 N))).
  - apply Permutation_map. apply perm_of_inj.
    + intros j J. unfold g. destruct (b j); [now apply flip_lt|exact J].
    + intros i j _ _ E. rewrite <- (GG i), <- (GG j). now rewrite E.
  - rewrite map_map. apply map_ext. intro i. unfold g, vstep, b. destruct (i <? flip t i); [destruct (swaps plt s i _ _)|destruct (swaps plt s (flip t i) _ _)]; reflexivity.
Qed.
End Step.

Hypothesis ends : forall l n, (Z.of_nat n <= 2 ^ 31)%Z -> over (execute Long n (sched l n)).

Lemma inner_cells : forall m s, s <= m -> (Z.of_nat (2 ^ m) <= 2 ^ 31)%Z -> forall t v fuel, t <= s -> t < fuel ->
  bitonic_inner lt sched fuel (2 ^ m) (2 ^ s) (2 ^ t / 2) (cells (2 ^ m) v) = Some (cells (2 ^ m) (vsteps plt s t v)).
Proof.
  intros m s SM C. induction t as [|t IH]; intros v fuel L F; (destruct fuel as [|fuel]; [lia|]); [reflexivity|].
  cbn [bitonic_inner]. replace (2 ^ S t / 2) with (2 ^ t) by (rewrite Nat.pow_succ_r', Nat.mul_comm, Nat.div_mul; lia).
  pose proof (Nat.pow_nonzero 2 t ltac:(lia)) as NZ. replace (1 <=? 2 ^ t) with true by (symmetry; apply Nat.leb_le; lia).
  rewrite step_cells; [|exact SM|lia|exact C|apply ends; exact C]. cbn [obind]. cbn [vsteps]. apply IH; lia.
Qed.
Lemma outer_cells : forall m v, (Z.of_nat (2 ^ m) <= 2 ^ 31)%Z -> forall d s fuel, s + d = m -> d < fuel ->
  bitonic_outer lt sched fuel (2 ^ m) (2 ^ S s) (cells (2 ^ m) (vstages plt s v)) = Some (cells (2 ^ m) (vstages plt m v)).
Proof.
  intros m v C. induction d as [|d IH]; intros s fuel E F; (destruct fuel as [|fuel]; [lia|]); cbn [bitonic_outer].
  - replace s with m by lia. replace (2 ^ S m <=? 2 ^ m) with false; [reflexivity|]. symmetry. apply Nat.leb_gt. apply Nat.pow_lt_mono_r; lia.
  - replace (2 ^ S s <=? 2 ^ m) with true by (symmetry; apply Nat.leb_le, Nat.pow_le_mono_r; lia).
    rewrite inner_cells; [|lia|exact C|lia|pose proof (Nat.pow_gt_lin_r 2 (S s) ltac:(lia)); lia]. cbn [obind].
    change (vsteps plt (S s) (S s) (vstages plt s v)) with (vstages plt (S s) v).
    replace (2 ^ S s * 2) with (2 ^ S (S s)) by (rewrite (Nat.pow_succ_r' 2 (S s)); lia). apply IH; lia.
Qed.
(** The host's loops run the network. *)
Lemma bitonic_cells : forall m v, (Z.of_nat (2 ^ m) <= 2 ^ 31)%Z ->
  bitonic_outer lt sched (S (2 ^ m)) (2 ^ m) 2 (cells (2 ^ m) v) = Some (cells (2 ^ m) (vstages plt m v)).
Proof.
  intros m v C. apply (outer_cells m v C m 0); [lia|]. pose proof (Nat.pow_gt_lin_r 2 m ltac:(lia)). lia.
Qed.
Lemma stages_perm : forall m v s, s <= m -> Permutation (map (vstages plt s v) (seq 0 (2 ^ m))) (map v (seq 0 (2 ^ m))).
Proof.
  intros m v. induction s as [|s IH]; intro L; [reflexivity|]. transitivity (map (vstages plt s v) (seq 0 (2 ^ m))); [|apply IH; lia].
  cbn [vstages]. generalize (vstages plt s v). intro w.
  assert (G : forall t w, t <= S s -> Permutation (map (vsteps plt (S s) t w) (seq 0 (2 ^ m))) (map w (seq 0 (2 ^ m)))).
  { induction t as [|t IHt]; intros u T; [reflexivity|]. cbn [vsteps]. etransitivity; [apply IHt; lia|]. apply step_perm; lia. }
  apply G. lia.
Qed.
End Network.
