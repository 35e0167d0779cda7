(** Proofs about the matrix product kernels. *)
From Coq Require Import List Arith ZArith Lia Bool ZifyBool.
From Verif Require Import Base IndexSpec LayoutModel ViewSpec LayoutProofs BcastProofs.
From Verif Require Import KernelModel TensorModel TensorSpec KernelProofs TensorProofs.
From Verif Require Import ReduceModel ReduceProofs ScanModel MatrixModel GridProofs.
Import ListNotations.

Lemma row_chunks_cover : forall M N k, 0 < k -> covers (row_chunks M N k) (M * N).
Proof.
  intros M N k Hk. destruct (bw_chunks_cover M k Hk) as [H1 H2]. unfold row_chunks. split.
  - intros t x y H. rewrite nth_error_map in H. destruct (nth_error (bw_chunks M k) t) as [[a b]|] eqn:E; [|discriminate].
    cbn in H. injection H as <- <-. specialize (H1 _ _ _ E). nia.
  - intros p Hp. assert (N <> 0) by (intro; subst; lia).
    assert (p / N < M) by (apply Nat.div_lt_upper_bound; lia).
    destruct (H2 (p / N)) as [t [x [y [E1 E2]]]]; auto.
    exists t, (x * N), (y * N). split.
    + rewrite nth_error_map, E1. reflexivity.
    + pose proof (Nat.div_mod p N ltac:(lia)). pose proof (Nat.mod_upper_bound p N ltac:(lia)). nia.
Qed.

Lemma mat_threads_pos : forall e M, 0 < min_work e -> 0 < mat_threads e M.
Proof.
  intros e M H. unfold mat_threads, get_optimal_threads. destruct (M <? min_work e * 2) eqn:E; [cbn; lia|].
  assert (1 <= M / min_work e) by (apply Nat.div_le_lower_bound; lia). lia.
Qed.

Lemma seq_mat_env_ok : forall c m, 0 < m -> mat_env_ok (seq_env c m).
Proof.
  intros c m Hm. split; [exact Hm|]. intros M N t x y Hxy. cbn [sched seq_env].
  assert (Hk : mat_threads (seq_env c m) M <= Nat.max 1 c).
  { unfold mat_threads, get_optimal_threads. cbn [cores min_work seq_env]. destruct (_ <? _); lia. }
  set (k := mat_threads (seq_env c m) M) in *. clearbody k.
  destruct k as [|k]; [destruct t; discriminate|].
  destruct (row_chunks_cover M N (S k) ltac:(lia)) as [B _]. assert (B' := B _ _ _ Hxy).
  assert (Ht : t < S k).
  { assert (X : t < length (row_chunks M N (S k))) by (apply nth_error_Some; congruence).
    unfold row_chunks, bw_chunks in X. now rewrite !map_length, seq_length in X. }
  assert (HC : M * N <= count_occ Nat.eq_dec (flat_map (fun t => repeat t (M * N)) (seq 0 (Nat.max 1 c))) t).
  { assert (G : forall n l, In t l -> n <= count_occ Nat.eq_dec (flat_map (fun t => repeat t n) l) t).
    { intros n. induction l as [|x' l IH]; intro Hin; [destruct Hin|]. simpl. rewrite count_occ_app.
      destruct Hin as [->|Hin]; [|specialize (IH Hin); lia].
      assert (count_occ Nat.eq_dec (repeat t n) t = n).
      { clear. induction n; simpl; auto. destruct (Nat.eq_dec t t); congruence. }
      lia. }
    apply G. apply in_seq. lia. }
  lia.
Qed.

Section P.
Variables (A : Type) (zero : A) (add mul : A -> A -> A).
(** what a matrix product is: [a] and [b] are the operands' entries *)
Definition psum (a b : nat -> nat -> A) (i j n : nat) : A :=
  fold_left (fun acc k => add acc (mul (a i k) (b k j))) (seq 0 n) zero.
Lemma psum_S : forall a b i j n, psum a b i j (S n) = add (psum a b i j n) (mul (a i n) (b n j)).
Proof. intros. unfold psum. rewrite seq_S, fold_left_app. reflexivity. Qed.

Section Q.
Variables (lhs rhs : list A).

Lemma dot_cell_spec : forall K la rb (f g : nat -> A),
  (forall k, k < K -> nth_error lhs (la k) = Some (f k)) ->
  (forall k, k < K -> nth_error rhs (rb k) = Some (g k)) ->
  dot_cell zero add mul lhs rhs K la rb =
  Some (fold_left (fun acc k => add acc (mul (f k) (g k))) (seq 0 K) zero).
Proof.
  intros K la rb f g Hf Hg. unfold dot_cell.
  assert (G : forall n s acc, s + n <= K ->
    loopO (fun k acc => obind (nth_error lhs (la k)) (fun a => obind (nth_error rhs (rb k)) (fun b => Some (add acc (mul a b)))))
      (seq s n) acc = Some (fold_left (fun acc k => add acc (mul (f k) (g k))) (seq s n) acc)).
  { induction n as [|n IH]; intros s acc H; auto. cbn [seq loopO fold_left].
    rewrite Hf, Hg by lia. cbn [obind]. apply IH. lia. }
  apply G. lia.
Qed.

Section Dims.
Variables (M K N : nat) (a b : nat -> nat -> A) (la rb : nat -> nat -> nat).
Hypothesis Ha : forall i k, i < M -> k < K -> nth_error lhs (la i k) = Some (a i k).
Hypothesis Hb : forall k j, k < K -> j < N -> nth_error rhs (rb k j) = Some (b k j).

Definition prod_buf : list A := map (fun p => psum a b (p / N) (p mod N) K) (seq 0 (M * N)).

Lemma cell_in : forall p, p < M * N -> p / N < M /\ p mod N < N.
Proof.
  intros p Hp. assert (N <> 0) by (intro; subst; lia).
  split; [apply Nat.div_lt_upper_bound; lia|apply Nat.mod_upper_bound; auto].
Qed.

(** contiguous operands *)
Section Contig.
Hypothesis La : forall i k, i < M -> k < K -> la i k = i * K + k.
Hypothesis Rb : forall k j, k < K -> j < N -> rb k j = k * N + j.

Lemma plain_cell_spec : forall p, p < M * N ->
  plain_cell zero add mul lhs rhs K N p = Some (psum a b (p / N) (p mod N) K).
Proof.
  intros p Hp. destruct (cell_in p Hp) as [H1 H2]. unfold plain_cell.
  rewrite (dot_cell_spec K _ _ (fun k => a (p / N) k) (fun k => b k (p mod N))); auto.
  - intros k Hk. rewrite <- La by auto. auto.
  - intros k Hk. rewrite <- Rb by auto. auto.
Qed.

Lemma rows_threaded_spec : forall e out, mat_env_ok e -> length out = M * N ->
  rows_threaded zero add mul lhs rhs e M K N out = Some prod_buf.
Proof.
  intros e out [He Hj] Hl. unfold rows_threaded, prod_buf.
  apply threads_run; auto; [|intros; now apply plain_cell_spec].
  apply row_chunks_cover. now apply mat_threads_pos.
Qed.

(** one register block *)
Lemma reg_block_impl : forall kk ke i ie j je, kk <= ke <= K -> i <= ie -> ie <= M -> ie <= i + 4 -> j <= je -> je <= N -> je <= j + 4 ->
  impl A nat M N (fun i j n => psum a b i j n) (reg_block zero add mul lhs rhs K N kk ke i ie j je) (rect i ie j je) kk ke.
Proof.
  intros kk ke i ie j je Hk Hi1 Hi2 Hi3 Hj1 Hj2 Hj3 cnt Hc. unfold reg_block.
  set (v4 := fun ir jr (o : option nat) => match o with None => zero | Some n => psum a b (i + ir) (j + jr) n end).
  set (out := gst A nat M N (fun i j n => psum a b i j n) cnt).
  assert (Hget : forall ir jr, ir < ie - i -> jr < je - j ->
    nth_error out ((i + ir) * N + (j + jr)) = Some (psum a b (i + ir) (j + jr) kk)).
  { intros ir jr H1 H2. unfold out. rewrite gst_get by lia. rewrite Hc; auto; try lia.
    unfold rect, band, rowc, colc. lia. }
  assert (E0 : repeat zero 16 = gst A (option nat) 4 4 v4 (fun _ _ => None)) by reflexivity.
  rewrite E0.
  assert (L : impl A (option nat) 4 4 v4
    (fun acc => loopO (fun ir acc => loopO (fun jr acc =>
      obind (nth_error out ((i + ir) * N + (j + jr))) (fun v => c_store acc (ir * 4 + jr) v))
      (seq 0 (je - j)) acc) (seq 0 (ie - i)) acc) (rect 0 (ie - i) 0 (je - j)) None (Some kk)).
  { unfold rect. rewrite (seq_steps (ie - i)). apply impl_steps_band; [lia|]. intros ir Hir.
    eapply impl_eq; [rewrite (seq_steps (je - j)); apply (impl_steps_band _ _ 4 4 v4 _ colc
      (fun i' _ => i' =? ir) None (Some kk) 1 (je - j) ltac:(lia) 0)|].
    - intros jr Hjr. eapply impl_eq; [apply (impl_cell _ _ 4 4 v4 _ ir jr); [lia|lia|]|].
      + intros o Ho _. rewrite Hget by lia. cbn [obind]. unfold c_store.
        replace (ir * 4 + jr <? length o) with true by lia. reflexivity.
      + intros i' j' _ _. unfold band, colc. lia.
    - intros i' j' _ _. unfold band, rowc, colc. lia. }
  rewrite L by auto. cbn [obind].
  set (in4 := rect 0 (ie - i) 0 (je - j)) in *.
  assert (C : impl A (option nat) 4 4 v4
    (loopO (fun k acc => loopO (fun ir acc =>
      obind (nth_error lhs ((i + ir) * K + k)) (fun av => loopO (fun jr acc =>
        obind (nth_error rhs (k * N + (j + jr))) (fun bv =>
        obind (nth_error acc (ir * 4 + jr)) (fun o => c_store acc (ir * 4 + jr) (add o (mul av bv)))))
      (seq 0 (je - j)) acc)) (seq 0 (ie - i)) acc) (range kk ke)) in4 (Some kk) (Some ke)).
  { rewrite range_steps. apply (impl_steps_seq _ _ 4 4 v4 _ in4 (fun k => Some k) 1 ke); [lia|lia|].
    intros k Hkk. rewrite Nat.min_l by lia. unfold in4, rect. rewrite (seq_steps (ie - i)).
    apply impl_steps_band; [lia|]. intros ir Hir.
    assert (EA : nth_error lhs ((i + ir) * K + k) = Some (a (i + ir) k)) by (rewrite <- La by lia; apply Ha; lia).
    rewrite EA. cbn [obind].
    eapply impl_eq; [rewrite (seq_steps (je - j)); apply (impl_steps_band _ _ 4 4 v4 _ colc
      (fun i' _ => i' =? ir) (Some k) (Some (k + 1)) 1 (je - j) ltac:(lia) 0)|].
    - intros jr Hjr. eapply impl_eq; [apply (impl_cell _ _ 4 4 v4 _ ir jr); [lia|lia|]|].
      + intros o Ho Hv.
        assert (EB : nth_error rhs (k * N + (j + jr)) = Some (b k (j + jr))) by (rewrite <- Rb by lia; apply Hb; lia).
        rewrite EB. cbn [obind]. rewrite Hv. cbn [obind]. unfold c_store.
        replace (ir * 4 + jr <? length o) with true by lia. do 2 f_equal. unfold v4.
        replace (k + 1) with (S k) by lia. now rewrite psum_S.
      + intros i' j' _ _. unfold band, colc. lia.
    - intros i' j' _ _. unfold band, rowc, colc. lia. }
  rewrite C.
  2:{ intros i' j' _ _ X. now rewrite X. }
  cbn [obind].
  set (acc := gst A (option nat) 4 4 v4 _).
  assert (HA : forall ir jr, ir < ie - i -> jr < je - j ->
    nth_error acc (ir * 4 + jr) = Some (psum a b (i + ir) (j + jr) ke)).
  { intros ir jr H1 H2. unfold acc. rewrite gst_get by lia.
    replace (in4 ir jr) with true by (unfold in4, rect, band, rowc, colc; lia). reflexivity. }
  clearbody acc.
  assert (S : impl A nat M N (fun i j n => psum a b i j n)
    (loopO (fun ir out => loopO (fun jr out =>
      obind (nth_error acc (ir * 4 + jr)) (fun v => c_store out ((i + ir) * N + (j + jr)) v))
      (seq 0 (je - j)) out) (seq 0 (ie - i))) (rect i ie j je) kk ke).
  { eapply impl_eq; [rewrite (seq_steps (ie - i));
      apply (impl_steps_band _ _ M N _ _ (fun i' _ => i' - i) (fun i' j' => (i <=? i') && (j <=? j') && (j' <? je))
               kk ke 1 (ie - i) ltac:(lia) 0)|].
    - intros ir Hir. eapply impl_eq; [rewrite (seq_steps (je - j));
        apply (impl_steps_band _ _ M N _ _ (fun _ j' => j' - j) (fun i' j' => (i' =? i + ir) && (j <=? j'))
               kk ke 1 (je - j) ltac:(lia) 0)|].
      + intros jr Hjr. eapply impl_eq; [apply (impl_cell _ _ M N _ _ (i + ir) (j + jr)); [lia|lia|]|].
        * intros o Ho _. rewrite HA by lia. cbn [obind]. unfold c_store.
          assert (X := cell_lt M N (i + ir) (j + jr) ltac:(lia) ltac:(lia)).
          replace ((i + ir) * N + (j + jr) <? length o) with true by lia. reflexivity.
        * intros i' j' _ _. unfold band. lia.
      + intros i' j' _ _. unfold band. lia.
    - intros i' j' _ _. unfold rect, band, rowc, colc. lia. }
  apply S. exact Hc.
Qed.
End Contig.

(** a strided block *)
Lemma strided_block_impl : forall lo lsm lsk ro rsk rsn,
  (forall i k, i < M -> k < K -> la i k = lo + i * lsm + k * lsk) ->
  (forall k j, k < K -> j < N -> rb k j = ro + k * rsk + j * rsn) ->
  forall ii ie kk ke jj je, ii <= ie <= M -> kk <= ke <= K -> jj <= je <= N ->
  impl A nat M N (fun i j n => psum a b i j n)
    (strided_body add mul lhs rhs N lo lsm lsk ro rsk rsn ii ie kk ke jj je) (rect ii ie jj je) kk ke.
Proof.
  intros lo lsm lsk ro rsk rsn La Rb ii ie kk ke jj je Hi Hk Hj. unfold strided_body, rect.
  rewrite (range_steps ii). apply impl_steps_band; [lia|]. intros i Hii.
  rewrite (range_steps kk). apply (impl_steps_seq _ _ M N _ _ _ (fun k => k) 1 ke); [lia|lia|].
  intros k Hkk. rewrite !Nat.min_l by lia.
  assert (EA : nth_error lhs (lo + i * lsm + k * lsk) = Some (a i k)) by (rewrite <- La by lia; apply Ha; lia).
  rewrite EA. cbn [obind].
  eapply impl_eq; [rewrite range_steps; apply (impl_steps_band _ _ M N _ _ colc
      (fun i' _ => i' =? i) k (k + 1) 1 je ltac:(lia) jj)|].
  - intros j Hjj. eapply impl_eq; [apply (impl_cell _ _ M N _ _ i j); [lia|lia|]|].
    + intros o Ho Hv.
      assert (EB : nth_error rhs (ro + k * rsk + j * rsn) = Some (b k j)) by (rewrite <- Rb by lia; apply Hb; lia).
      rewrite EB. cbn [obind]. rewrite Hv. cbn [obind]. unfold c_store.
      assert (X := cell_lt M N i j ltac:(lia) ltac:(lia)).
      replace (i * N + j <? length o) with true by lia. do 2 f_equal.
      replace (k + 1) with (S k) by lia. now rewrite psum_S.
    + intros i' j' _ _. unfold band, colc. lia.
  - intros i' j' _ _. unfold band, rowc, colc. lia.
Qed.

(** the block loops *)
Lemma blocked_spec : forall body,
  (forall ii ie kk ke jj je, ii <= ie <= M -> kk <= ke <= K -> jj <= je <= N ->
     impl A nat M N (fun i j n => psum a b i j n) (body ii ie kk ke jj je) (rect ii ie jj je) kk ke) ->
  forall out, out = repeat zero (M * N) -> blocked M K N body out = Some prod_buf.
Proof.
  intros body Hbody out Hout.
  assert (G : impl A nat M N (fun i j n => psum a b i j n) (blocked M K N body) (rect 0 M 0 N) 0 K).
  { unfold blocked, rect. apply impl_steps_band; [lia|]. intros ii Hii.
    apply (impl_steps_seq _ _ M N _ _ _ (fun k => k) 256 K); [lia|lia|]. intros kk Hkk.
    eapply impl_eq; [apply (impl_steps_band _ _ M N _ _ colc (band rowc ii (Nat.min (ii + 32) M) (fun _ _ => true))
      kk (Nat.min (kk + 256) K) 32 N ltac:(lia) 0)|].
    - intros jj Hjj. eapply impl_eq; [apply Hbody; lia|]. intros i' j' _ _. unfold rect, band, rowc, colc. lia.
    - intros i' j' _ _. unfold band, rowc, colc. lia. }
  assert (E : out = gst A nat M N (fun i j n => psum a b i j n) (fun _ _ => 0)).
  { rewrite Hout. unfold gst. clear. generalize 0 at 2. induction (M * N) as [|n IH]; intros s; auto.
    cbn [repeat seq map]. f_equal. auto. }
  rewrite E, G by auto. f_equal. unfold prod_buf. unfold gst. apply map_ext_in. intros p Hp. apply in_seq in Hp.
  destruct (cell_in p ltac:(lia)) as [H1 H2].
  replace (rect 0 M 0 N (p / N) (p mod N)) with true; auto. unfold rect, band, rowc, colc. clear - H1 H2. revert H1 H2.
  generalize (p / N) (p mod N). intros. lia.
Qed.

Lemma reg_body_impl : (forall i k, i < M -> k < K -> la i k = i * K + k) ->
  (forall k j, k < K -> j < N -> rb k j = k * N + j) ->
  forall ii ie kk ke jj je, ii <= ie <= M -> kk <= ke <= K -> jj <= je <= N ->
  impl A nat M N (fun i j n => psum a b i j n) (reg_body zero add mul lhs rhs K N ii ie kk ke jj je) (rect ii ie jj je) kk ke.
Proof.
  intros La Rb ii ie kk ke jj je Hi Hk Hj. unfold reg_body, rect.
  apply impl_steps_band; [lia|]. intros i Hii.
  eapply impl_eq; [apply (impl_steps_band _ _ M N _ _ colc (band rowc i (Nat.min (i + 4) ie) (fun _ _ => true))
      kk ke 4 je ltac:(lia) jj)|].
  - intros j Hjj. eapply impl_eq; [apply reg_block_impl; auto; lia|].
    intros i' j' _ _. unfold rect, band, rowc, colc. lia.
  - intros i' j' _ _. unfold band, rowc, colc. lia.
Qed.
End Dims.

(** the whole dot kernel, every path *)
Lemma dot_kernel_spec : forall e M K N lsm lsk rsk rsn lo ro (a b : nat -> nat -> A) out, mat_env_ok e ->
  (forall i k, i < M -> k < K -> nth_error lhs (lo + i * lsm + k * lsk) = Some (a i k)) ->
  (forall k j, k < K -> j < N -> nth_error rhs (ro + k * rsk + j * rsn) = Some (b k j)) ->
  length out = M * N ->
  dot_kernel zero add mul lhs rhs e out [M; K; N; lsm; lsk; rsk; rsn; lo; ro] =
  Some (map (fun p => psum a b (p / N) (p mod N) K) (seq 0 (M * N))).
Proof.
  intros e M K N lsm lsk rsk rsn lo ro a b out He Ha Hb Hl. unfold dot_kernel. cbn [nth_error obind].
  rewrite (seq_for_total _ (fun _ => zero)) by auto. cbn [obind].
  assert (EZ : map (fun _ : nat => zero) (seq 0 (M * N)) = repeat zero (M * N)).
  { clear. generalize 0 at 1. induction (M * N) as [|n IH]; intros s; auto. cbn [repeat seq map]. f_equal. auto. }
  rewrite EZ.
  destruct ((lsk =? 1) && (rsn =? 1) && (lsm =? K) && (rsk =? N) && (lo =? 0) && (ro =? 0)) eqn:EC.
  - assert (lsk = 1 /\ rsn = 1 /\ lsm = K /\ rsk = N /\ lo = 0 /\ ro = 0) as (-> & -> & -> & -> & -> & ->) by lia.
    destruct (1 <? mat_threads e M) eqn:ET.
    + apply (rows_threaded_spec M K N a b _ _ Ha Hb); auto; try (intros; lia). apply repeat_length.
    + apply (blocked_spec M K N a b _ _ Ha Hb); auto. apply (reg_body_impl M K N a b _ _ Ha Hb); intros; lia.
  - apply (blocked_spec M K N a b _ _ Ha Hb); auto. apply (strided_block_impl M K N a b _ _ Ha Hb); auto.
Qed.
End Q.
End P.
