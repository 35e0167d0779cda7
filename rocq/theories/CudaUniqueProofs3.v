From Coq Require Import List Arith ZArith Bool Lia Permutation.
From Verif Require Import Base IndexSpec LayoutModel ViewSpec LayoutProofs KernelModel KernelProofs TensorModel TensorSpec TensorProofs.
From Verif Require Import ScanModel SortModel EinsumModel EinsumProofs2 CountModel CountProofs CountProofs2.
From Verif Require Import TileModel TileSpec TileProofs4 LaunchModel LaunchSpec LaunchProofs BitonicProofs CudaUniqueModel CudaUniqueProofs CudaUniqueProofs2.
Import ListNotations.

Lemma next_power_ge : forall n, n <= next_power n.
Proof.
  intro n. unfold next_power. destruct (Nat.eq_dec n 0) as [-> | N]; [cbn; lia|].
  apply Nat.log2_up_le_pow2; [lia|reflexivity].
Qed.
Lemma next_power_bound : forall b n, (Z.of_nat n <= 2 ^ Z.of_nat b)%Z -> (Z.of_nat (next_power n) <= 2 ^ Z.of_nat b)%Z.
Proof.
  intros b n H. unfold next_power. rewrite Nat2Z.inj_pow. apply Z.pow_le_mono_r; [lia|]. apply inj_le.
  destruct (Nat.eq_dec n 0) as [-> | N]; [cbn; lia|]. apply Nat.log2_up_le_pow2; [lia|].
  apply Nat2Z.inj_le. now rewrite Nat2Z.inj_pow.
Qed.
Lemma next_power_31 : forall n, (Z.of_nat n <= 2 ^ 31)%Z -> (Z.of_nat (next_power n) <= 2 ^ 31)%Z.
Proof. exact (next_power_bound 31). Qed.

Section Unique.
Context {A : Type}.
Variables (lt same : A -> A -> bool) (top z : A).
Variable sched : launch -> nat -> list nat.
Hypothesis asym : forall a b, lt a b = true -> lt b a = false.
Hypothesis neg : forall a b c, lt a b = false -> lt b c = false -> lt a c = false.
Hypothesis ends : forall l n, (Z.of_nat n <= 2 ^ 31)%Z -> over (execute Long n (sched l n)).

Section Sorted.
Variables (x : nat -> A) (n : nat).
Notation m := (Nat.log2_up n).
Notation P := (next_power n).
Definition before (i : nat) : A * nat := (if i <? n then x i else top, i).
Definition after : nat -> A * nat := vstages (plt lt) m before.
Definition v (i : nat) : A := fst (after i).
Definition o (i : nat) : nat := snd (after i).

Lemma after_from : forall i, i < P -> o i < P /\ v i = fst (before (o i)).
Proof.
  intros i I. assert (IN : In (after i) (map before (seq 0 P))).
  { apply (Permutation_in _ (stages_perm lt top sched asym neg ends m before m (le_n _))). apply in_map. apply in_seq. fold P. lia. }
  apply in_map_iff in IN as (k & E & K). apply in_seq in K. unfold o, v. rewrite <- E. cbn. split; [lia|reflexivity].
Qed.
Lemma o_perm : Permutation (map o (seq 0 P)) (seq 0 P).
Proof.
  pose proof (Permutation_map snd (stages_perm lt top sched asym neg ends m before m (le_n _))) as H. rewrite !map_map in H.
  cbn [before snd] in H. rewrite map_id in H. exact H.
Qed.
Lemma o_inj : forall i j, i < P -> j < P -> o i = o j -> i = j.
Proof.
  intros i j I J E. pose proof (Permutation_NoDup (Permutation_sym o_perm) (seq_NoDup P 0)) as ND.
  rewrite NoDup_nth_error in ND. apply ND; [rewrite map_length, seq_length; exact I|].
  now rewrite !nth_error_seq_map by assumption; rewrite E.
Qed.
Lemma v_sorted : forall i j, i < j -> j < P -> lt (v j) (v i) = false.
Proof.
  intros i j I J. apply (network_sorts (plt lt)); [| |exact I|exact J].
  - intros a b. apply asym.
  - intros a b c. apply neg.
Qed.
Lemma v_real : forall i, i < P -> o i < n -> v i = x (o i).
Proof. intros i I O. destruct (after_from i I) as [_ ->]. unfold before. cbn [fst]. now rewrite (proj2 (Nat.ltb_lt _ _) O). Qed.
Lemma v_pad : forall i, i < P -> n <= o i -> v i = top.
Proof. intros i I O. destruct (after_from i I) as [_ ->]. unfold before. cbn [fst]. now rewrite (proj2 (Nat.ltb_ge _ _) O). Qed.
(** Values below the padding come before it. *)
Lemma inside : (forall i, i < n -> lt (x i) top = true) \/ P = n -> forall i, i < n -> o i < n.
Proof.
  intros [B|E] i I; [|pose proof (next_power_ge n); destruct (after_from i) as [O _]; lia].
  pose proof (next_power_ge n) as NP. destruct (Nat.lt_ge_cases (o i) n) as [|O]; [assumption|]. exfalso.
  assert (LEN : length (filter (fun p => o p <? n) (seq 0 P)) = n).
  { rewrite <- (filter_map_len _ _ o (fun k => k <? n)). rewrite (Permutation_filter_len _ _ _ _ o_perm).
    replace P with (n + (P - n)) by lia. rewrite seq_app, filter_app, app_length. cbn [Nat.add].
    rewrite (filter_ext_in _ (fun _ => true) (seq 0 n)) by (intros k K; apply in_seq in K; apply Nat.ltb_lt; lia).
    rewrite (filter_ext_in _ (fun _ => false) (seq n (P - n))) by (intros k K; apply in_seq in K; apply Nat.ltb_ge; lia).
    assert (T : forall l : list nat, filter (fun _ => true) l = l) by (induction l as [|a l IH]; [reflexivity|cbn; now rewrite IH]).
    assert (F : forall l : list nat, filter (fun _ => false) l = []) by (induction l as [|a l IH]; [reflexivity|exact IH]).
    rewrite T, F, seq_length. cbn. lia. }
  assert (INC : incl (filter (fun p => o p <? n) (seq 0 P)) (seq 0 i)).
  { intros p PI. apply filter_In in PI as [PI PO]. apply in_seq in PI. apply Nat.ltb_lt in PO. apply in_seq. split; [lia|]. cbn.
    destruct (Nat.lt_ge_cases p i) as [|GE]; [assumption|]. exfalso.
    assert (p <> i) by (intros ->; lia).
    pose proof (v_sorted i p ltac:(lia) ltac:(lia)) as S1. rewrite (v_real p), (v_pad i) in S1 by lia. rewrite B in S1 by exact PO. discriminate. }
  pose proof (NoDup_incl_length (NoDup_filter _ (seq_NoDup P 0)) INC) as L. rewrite LEN, seq_length in L. lia.
Qed.
(** A value above the padding is pushed out by it. *)
Lemma outside : n < P -> (exists i, i < n /\ lt top (x i) = true) -> exists i, i < n /\ n <= o i.
Proof.
  intros L (i & I & B). destruct (forallb (fun k => o k <? n) (seq 0 n)) eqn:F.
  - exfalso. rewrite forallb_forall in F.
    assert (OL : forall k, k < n -> o k < n) by (intros k K; apply Nat.ltb_lt, F, in_seq; lia).
    assert (OS : forall k, k < n -> exists j, j < n /\ o j = k).
    { intros k K. assert (PM : Permutation (map o (seq 0 n)) (seq 0 n)) by (apply perm_of_inj; [exact OL|intros a b HA HB; apply o_inj; lia]).
      assert (IN : In k (map o (seq 0 n))) by (apply (Permutation_in _ (Permutation_sym PM)); apply in_seq; lia).
      apply in_map_iff in IN as (j & E & J). apply in_seq in J. exists j. split; [lia|exact E]. }
    assert (ON : n <= o n).
    { destruct (Nat.lt_ge_cases (o n) n) as [C|]; [|assumption]. destruct (OS _ C) as (j & J & E). apply o_inj in E; lia. }
    destruct (OS i I) as (j & J & E). pose proof (v_sorted j n J L) as S1. rewrite (v_pad n L ON), (v_real j) in S1 by lia.
    rewrite E, B in S1. discriminate.
  - assert (G : forall l, forallb (fun k => o k <? n) l = false -> exists k, In k l /\ n <= o k).
    { induction l as [|a l IH]; intro H; [discriminate|]. cbn [forallb] in H. destruct (Nat.ltb_spec (o a) n); [|exists a; split; [now left|assumption]].
      destruct (IH H) as (k & K & O). exists k. split; [now right|exact O]. }
    destruct (G _ F) as (k & K & O). apply in_seq in K. exists k. split; [lia|exact O].
Qed.
End Sorted.

(** The state after the sort, for every schedule. *)
Lemma sort_spec : forall (t : tensor A) x, let n := nelem (tshape t) in (Z.of_nat n <= 2 ^ 31)%Z ->
  (forall i, i < n -> nth_error (tstore t) (loffset (tlay t) + i) = Some (x i)) ->
  exists s, cuda_unique_copy top sched (tstore t) n (loffset (tlay t)) (next_power n) (repeat z (next_power n), repeat 0 (next_power n)) = Some s /\
    bitonic_outer lt sched (S (next_power n)) (next_power n) 2 s =
    Some (map (v x n) (seq 0 (next_power n)), map (o x n) (seq 0 (next_power n))).
Proof.
  intros t x n C X. pose proof (next_power_31 n C) as CP. exists (cells (next_power n) (before x n)). split.
  - unfold cuda_unique_copy. pose proof (long_perm _ _ CP (ends ToCopy _ CP)) as P.
    rewrite (copy_turns top (tstore t) n (loffset (tlay t)) (next_power n) (before x n) z).
    + f_equal. apply cells_ext. intros i I. now rewrite (mem_perm _ _ _ P I).
    + intros i I. unfold before. cbn [fst snd]. split; [|reflexivity]. destruct (Nat.ltb_spec i n); [now apply X|reflexivity].
    + intros i I. exact (perm_lt _ _ _ P I).
  - exact (bitonic_cells lt top sched asym neg ends (Nat.log2_up n) (before x n) CP).
Qed.

Lemma contiguous_reads : forall t : tensor A, good t -> is_contiguous (tlay t) = true -> forall i, i < nelem (tshape t) ->
  nth_error (tstore t) (loffset (tlay t) + i) = Some (nth (loffset (tlay t) + i) (tstore t) z) /\
  elem t (unravel (tshape t) i) = Some (nth (loffset (tlay t) + i) (tstore t) z).
Proof.
  intros t G C i I. pose proof (unravel_valid _ _ I) as V.
  assert (AD : addr (tlay t) (unravel (tshape t) i) = loffset (tlay t) + i).
  { rewrite addr_contiguous; [|exact (proj1 G)|exact C|exact (valid_length _ _ V)]. f_equal. now apply ravel_unravel. }
  pose proof (proj2 G _ V) as B. rewrite AD in B. unfold elem. rewrite AD. split; now apply nth_error_nth'.
Qed.

(** A place outside the input among the first: undefined behaviour, whatever the schedule. *)
Lemma cuda_t_unique_out : forall (t : tensor A) k, good t -> is_contiguous (tlay t) = true ->
  (Z.of_nat (nelem (tshape t)) <= 2 ^ 31)%Z -> k < nelem (tshape t) ->
  nelem (tshape t) <= o (fun i => nth (loffset (tlay t) + i) (tstore t) z) (nelem (tshape t)) k ->
  cuda_t_unique lt same top z sched t = Panic.
Proof.
  intros t k G C N31 K O. unfold cuda_t_unique. change (lshape (tlay t)) with (tshape t).
  set (n := nelem (tshape t)) in *. set (x := fun i => nth (loffset (tlay t) + i) (tstore t) z) in *.
  replace (n =? 0) with false by (symmetry; apply Nat.eqb_neq; lia).
  destruct (sort_spec t x N31) as (s & CP & S1); [intros j J; now apply contiguous_reads|]. fold n in CP, S1. rewrite CP. cbn [ub bind]. rewrite S1.
  cbn [ub bind fst snd].
  pose proof (next_power_ge n) as np. assert (n_pos : 0 < n) by lia.
  rewrite (count_spec same sched n (next_power n) (v x n) (o x n) np N31 n_pos ends). cbn [ub bind Nat.eqb].
  rewrite (mark_spec same sched n (next_power n) (v x n) (o x n) np N31 n_pos ends). cbn [ub bind].
  rewrite (prefix_spec same sched n (next_power n) (v x n) (o x n) np n_pos ends). cbn [ub bind].
  pose proof (long_perm n _ N31 (ends ToBuild n N31)) as P. unfold cuda_unique_build.
  rewrite (build_out same sched n (next_power n) (v x n) (o x n) np N31 n_pos ends _ k); [reflexivity| | |exact (perm_in _ _ _ P K)|exact O|apply repeat_length|apply repeat_length|apply repeat_length].
  - apply (Permutation_NoDup (Permutation_sym P)), seq_NoDup.
  - intros j J. exact (perm_lt _ _ _ P J).
Qed.
Lemma cuda_t_unique_large : forall (t : tensor A) i y, good t -> is_contiguous (tlay t) = true ->
  (Z.of_nat (nelem (tshape t)) <= 2 ^ 31)%Z -> nelem (tshape t) < next_power (nelem (tshape t)) ->
  valid (tshape t) i -> elem t i = Some y -> lt top y = true ->
  cuda_t_unique lt same top z sched t = Panic.
Proof.
  intros t i y G C N31 NP V E B. pose proof (ravel_lt _ _ V) as RV.
  destruct (outside (fun i => nth (loffset (tlay t) + i) (tstore t) z) (nelem (tshape t)) NP) as (k & K & O).
  { exists (ravel (tshape t) i). split; [exact RV|]. destruct (contiguous_reads t G C _ RV) as [_ X].
    rewrite unravel_ravel in X by exact V. rewrite E in X. injection X as EY. rewrite <- EY. exact B. }
  now apply (cuda_t_unique_out t k).
Qed.

(** The sort alone, on any buffers of a power of two cells. *)
Lemma bitonic_sorts : forall m (vs : list A) ps, (Z.of_nat (2 ^ m) <= 2 ^ 31)%Z -> length vs = 2 ^ m -> length ps = 2 ^ m ->
  exists vs' ps', bitonic_outer lt sched (S (2 ^ m)) (2 ^ m) 2 (vs, ps) = Some (vs', ps') /\
    length vs' = 2 ^ m /\ length ps' = 2 ^ m /\
    Permutation (combine vs' ps') (combine vs ps) /\
    forall i j x y, i < j -> nth_error vs' i = Some x -> nth_error vs' j = Some y -> lt y x = false.
Proof.
  intros m vs ps C LV LP. set (w := fun i => (nth i vs z, nth i ps 0)).
  assert (NS : forall X (d : X) l k, length l = k -> map (fun i => nth i l d) (seq 0 k) = l).
  { intros X d l k <-. apply list_ext. intro i. destruct (Nat.lt_ge_cases i (length l)) as [I|I].
    - rewrite nth_error_seq_map by exact I. symmetry. now apply nth_error_nth'.
    - rewrite !(proj2 (nth_error_None _ _)); [reflexivity|exact I|rewrite map_length, seq_length; exact I]. }
  assert (CB : forall X Y Z (f : X -> Y) (g : X -> Z) l, combine (map f l) (map g l) = map (fun i => (f i, g i)) l)
    by (intros X Y Z f g; induction l as [|a l IH]; [reflexivity|cbn; now rewrite IH]).
  assert (E : (vs, ps) = cells (2 ^ m) w) by (unfold cells, w; cbn [fst snd]; now rewrite !NS).
  rewrite E. pose proof (bitonic_cells lt top sched asym neg ends m w C) as B. set (u := vstages (plt lt) m w) in *.
  exists (map (fun i => fst (u i)) (seq 0 (2 ^ m))), (map (fun i => snd (u i)) (seq 0 (2 ^ m))).
  split; [exact B|]. split; [now rewrite map_length, seq_length|]. split; [now rewrite map_length, seq_length|]. split.
  - rewrite CB. replace (combine vs ps) with (map w (seq 0 (2 ^ m))).
    + pose proof (stages_perm lt top sched asym neg ends m w m (le_n _)) as P. fold u in P.
      replace (map (fun i => (fst (u i), snd (u i))) (seq 0 (2 ^ m))) with (map u (seq 0 (2 ^ m))); [exact P|]. apply map_ext. intro i. now destruct (u i).
    + unfold w. rewrite <- CB. now rewrite !NS.
  - intros i j x y L X Y. assert (J : j < 2 ^ m).
    { assert (Q : nth_error (map (fun i => fst (u i)) (seq 0 (2 ^ m))) j <> None) by (rewrite Y; discriminate). apply nth_error_Some in Q. now rewrite map_length, seq_length in Q. }
    rewrite nth_error_seq_map in X by lia. rewrite nth_error_seq_map in Y by exact J. injection X as <-. injection Y as <-.
    apply (network_sorts (plt lt)); [intros a b; apply asym|intros a b c; apply neg|exact L|exact J].
Qed.

Hypothesis same_lt : forall a b, same a b = negb (lt a b) && negb (lt b a).
Lemma cuda_t_unique_spec : forall t : tensor A, good t -> is_contiguous (tlay t) = true -> (Z.of_nat (nelem (tshape t)) <= 2 ^ 31)%Z ->
  (forall i y, valid (tshape t) i -> elem t i = Some y -> lt y top = true) \/ next_power (nelem (tshape t)) = nelem (tshape t) ->
  exists vs inv cs m, cuda_t_unique lt same top z sched t = Ok (vs, inv, cs) /\
    good vs /\ good inv /\ good cs /\
    tshape vs = [m] /\ tshape inv = [nelem (tshape t)] /\ tshape cs = [m] /\
    (forall r r' x y, r < r' -> r' < m -> elem vs [r] = Some x -> elem vs [r'] = Some y -> lt x y = true) /\
    (forall r, r < m -> exists i x, valid (tshape t) i /\ elem t i = Some x /\ elem vs [r] = Some x) /\
    (forall i x, valid (tshape t) i -> elem t i = Some x ->
       exists r y, r < m /\ elem inv [ravel (tshape t) i] = Some r /\ elem vs [r] = Some y /\ same x y = true) /\
    (forall r y, r < m -> elem vs [r] = Some y ->
       elem cs [r] = Some (length (filter (fun i => match elem t i with Some x => same x y | None => false end)
         (all_idx (tshape t))))).
Proof.
  intros t G C N31 B. unfold cuda_t_unique. change (lshape (tlay t)) with (tshape t).
  set (s := tshape t) in *. set (n := nelem s) in *.
  destruct (n =? 0) eqn:Z0.
  { apply Nat.eqb_eq in Z0. do 4 eexists. split; [reflexivity|].
    split; [apply from_shape_good; reflexivity|]. split; [apply from_shape_good; rewrite Z0; reflexivity|].
    split; [apply from_shape_good; reflexivity|]. split; [reflexivity|]. split; [reflexivity|].
    split; [reflexivity|]. split; [intros; lia|]. split; [intros; lia|]. split; [|intros; lia].
    intros i x V _. exfalso. pose proof (ravel_lt s i V). fold n in H. lia. }
  apply Nat.eqb_neq in Z0. assert (n_pos : 0 < n) by lia. pose proof (next_power_ge n) as np.
  set (x := fun i => nth (loffset (tlay t) + i) (tstore t) z).
  assert (EX : forall k, k < n -> elem t (unravel s k) = Some (x k)) by (intros k K; now apply contiguous_reads).
  destruct (sort_spec t x N31) as (st & CP & S1); [intros k K; now apply contiguous_reads|]. fold s in CP, S1. fold n in CP, S1.
  rewrite CP. cbn [ub bind]. rewrite S1. cbn [ub bind fst snd].
  rewrite (count_spec same sched n (next_power n) (v x n) (o x n) np N31 n_pos ends). cbn [ub bind Nat.eqb].
  rewrite (mark_spec same sched n (next_power n) (v x n) (o x n) np N31 n_pos ends). cbn [ub bind].
  rewrite (prefix_spec same sched n (next_power n) (v x n) (o x n) np n_pos ends). cbn [ub bind].
  assert (OL : forall j, j < n -> o x n j < n).
  { apply inside. destruct B as [B|B]; [left|right; exact B]. intros k K. apply (B (unravel s k)); [now apply unravel_valid|now apply EX]. }
  assert (OI : forall i j, i < n -> j < n -> o x n i = o x n j -> i = j) by (intros i j I J; apply o_inj; lia).
  assert (VX : forall j, j < n -> v x n j = x (o x n j)) by (intros j J; apply v_real; [lia|now apply OL]).
  assert (SO : forall i j, i < j -> j < n -> lt (v x n j) (v x n i) = false) by (intros i j I J; apply v_sorted; lia).
  destruct (build_spec same z sched n (next_power n) (v x n) (o x n) np N31 n_pos ends OL OI)
    as (values & inverse & counts & E & LV & LI & LC & VR & UI & UC).
  rewrite E. cbn [ub bind]. clear E S1 CP.
  set (w := v x n) in *. set (p := o x n) in *. set (last := rn same w (n - 1)) in *.
  exists (mkT values (from_shape [S last])), (mkT inverse (from_shape [n])), (mkT counts (from_shape [S last])), (S last).
  split; [reflexivity|].
  assert (N1 : forall k, nelem [k] = k) by (intro; unfold nelem; simpl; lia).
  split; [apply from_shape_good; now rewrite N1|]. split; [apply from_shape_good; now rewrite N1|].
  split; [apply from_shape_good; now rewrite N1|]. split; [reflexivity|]. split; [reflexivity|]. split; [reflexivity|].
  assert (EL : forall B (l : list B) k r, elem (mkT l (from_shape [k])) [r] = nth_error l r).
  { intros. unfold elem. cbn [tlay tstore]. rewrite addr_from_shape by reflexivity. cbn [ravel].
    f_equal. unfold nelem. simpl. lia. }
  rewrite ?EL.
  split.
  { intros r r' a b R R' HX HY. rewrite EL in HX, HY. destruct (VR r) as (j & J & RJ & V); [lia|]. destruct (VR r') as (j' & J' & RJ' & V'); [lia|].
    rewrite V in HX. rewrite V' in HY. injection HX as <-. injection HY as <-.
    apply (run_less (fun a => a) lt same asym neg same_lt n w SO); auto; [|lia].
    destruct (le_lt_dec j j') as [|D]; auto. pose proof (rn_mono same w j' j). lia. }
  split.
  { intros r R. destruct (VR r R) as (j & J & RJ & V). exists (unravel s (p j)), (w j).
    split; [apply unravel_valid; fold n; auto|]. split; [rewrite EX by auto; now rewrite VX|now rewrite EL]. }
  assert (OS : forall k, k < n -> exists j, j < n /\ p j = k).
  { intros k H. pose proof (perm_of_inj p n OL OI) as PM.
    assert (In k (map p (seq 0 n))) as I by (apply (Permutation_in _ (Permutation_sym PM)); apply in_seq; lia).
    apply in_map_iff in I as (j & E1 & I). apply in_seq in I. exists j. split; [lia|auto]. }
  assert (SR : forall i j, i < n -> j < n -> same (w i) (w j) = (rn same w i =? rn same w j)).
  { intros i j I J. destruct (Nat.eqb_spec (rn same w i) (rn same w j)) as [RE|RN].
    - destruct (le_lt_dec i j) as [D|D].
      + rewrite (same_sym (fun a => a) lt same same_lt).
        apply (run_same (fun a => a) lt same asym neg same_lt w); auto.
      + apply (run_same (fun a => a) lt same asym neg same_lt w); auto; lia.
    - assert (rn same w i < rn same w j \/ rn same w j < rn same w i) as [D|D] by lia.
      + rewrite same_lt. rewrite (run_less (fun a => a) lt same asym neg same_lt n w SO i j); auto.
        destruct (le_lt_dec i j) as [|F]; auto. pose proof (rn_mono same w j i). lia.
      + rewrite same_lt. rewrite (run_less (fun a => a) lt same asym neg same_lt n w SO j i); auto.
        * now rewrite andb_false_r.
        * destruct (le_lt_dec j i) as [|F]; auto. pose proof (rn_mono same w i j). lia. }
  split.
  { intros i a V X. pose proof (ravel_lt s i V) as RV. fold n in RV. destruct (OS _ RV) as (j & J & OJ).
    assert (RJ : rn same w j < S last) by (unfold last; pose proof (rn_mono same w j (n - 1)); lia).
    destruct (VR _ RJ) as (j' & J' & RE & VE). exists (rn same w j), (w j'). split; auto.
    split; [rewrite EL, <- OJ; now apply UI|]. split; [now rewrite EL|].
    assert (a = w j) as ->.
    { pose proof (EX _ RV) as H. rewrite unravel_ravel in H by auto. rewrite VX, OJ by exact J. congruence. }
    rewrite SR by auto. rewrite RE. apply Nat.eqb_refl. }
  intros r y R HY. rewrite EL in *. destruct (VR r R) as (j & J & RJ & V). rewrite V in HY. injection HY as <-.
  rewrite UC by exact R. f_equal. rewrite all_idx_map_unravel. fold n. rewrite filter_map_len.
  rewrite <- (Permutation_filter_len _ _ _ _ (perm_of_inj p n OL OI)). rewrite filter_map_len. unfold tally.
  f_equal. apply filter_ext_in. intros k I. apply in_seq in I.
  rewrite EX by (apply OL; lia). rewrite <- VX by lia. rewrite SR by lia. now rewrite RJ.
Qed.
End Unique.
