(** Proofs about batched products and the tensor-level operations. *)
From Coq Require Import List Arith ZArith Lia Bool ZifyBool.
From Verif Require Import Base IndexSpec LayoutModel ViewSpec LayoutProofs BcastProofs.
From Verif Require Import KernelModel TensorModel TensorSpec KernelProofs TensorProofs ElementwiseProofs.
From Verif Require Import ReduceModel ReduceSpec ReduceProofs ReduceProofs2 ScanModel MoveProofs MatrixModel GridProofs MatrixProofs.
Import ListNotations.

Lemma nth_error_skipn' : forall A (l : list A) n k, nth_error (skipn n l) k = nth_error l (n + k).
Proof. intros A l n. revert l. induction n as [|n IH]; intros [|x l] k; auto. - now destruct k. - apply IH. Qed.
Lemma nth_error_combine2 : forall A B (a : list A) (b : list B) k x y, nth_error a k = Some x -> nth_error b k = Some y ->
  nth_error (combine a b) k = Some (x, y).
Proof. induction a as [|p a IH]; intros [|q b] [|k] x y H1 H2; try discriminate; cbn in *; [congruence|eauto]. Qed.
Lemma bidx_length : forall s i, length s <= length i -> length (bidx s i) = length s.
Proof. intros s i H. unfold bidx. rewrite map_length, combine_length, skipn_length. lia. Qed.
Lemma nth_error_bidx : forall s i k, k < length s -> length s <= length i ->
  nth_error (bidx s i) k = Some (if nth k s 0 =? 1 then 0 else nth (length i - length s + k) i 0).
Proof.
  intros s i k Hk Hl. unfold bidx.
  rewrite nth_error_map, (nth_error_combine2 _ _ s (skipn (length i - length s) i) k (nth k s 0) (nth (length i - length s + k) i 0)); auto.
  - now apply nth_error_nth'.
  - rewrite nth_error_skipn'. apply nth_error_nth'. lia.
Qed.
Lemma bidx_app : forall s i s2 i2, length s <= length i -> length s2 = length i2 ->
  bidx (s ++ s2) (i ++ i2) = bidx s i ++ bidx s2 i2.
Proof.
  intros s i s2 i2 H1 H2. unfold bidx. rewrite !app_length.
  replace (length i + length i2 - (length s + length s2)) with (length i - length s) by lia.
  replace (length i2 - length s2) with 0 by lia. cbn [skipn].
  rewrite skipn_app. replace (length i - length s - length i) with 0 by lia. cbn [skipn].
  rewrite combine_app by (rewrite skipn_length; lia). now rewrite map_app.
Qed.

(** strides of a layout of shape [b ++ [m; n]] *)
Lemma split2 : forall (l : list nat) n, length l = n + 2 -> exists b x y, l = b ++ [x; y] /\ length b = n.
Proof.
  intros l n H. exists (firstn n l).
  assert (L : length (skipn n l) = 2) by (rewrite skipn_length; lia).
  assert (E := firstn_skipn n l). destruct (skipn n l) as [|x [|y [|z q]]]; try discriminate.
  exists x, y. split; auto. rewrite firstn_length. lia.
Qed.

Lemma kernel_batch : forall lb x y bi, length lb <= length bi ->
  map (fun d => if nth d (lb ++ [x; y]) 0 =? 1 then 0 else nth (length bi - (length (lb ++ [x; y]) - 2) + d) bi 0)
    (seq 0 (length (lb ++ [x; y]) - 2)) = bidx lb bi.
Proof.
  intros lb x y bi H. rewrite app_length. cbn [length]. replace (length lb + 2 - 2) with (length lb) by lia.
  apply list_ext. intros k. destruct (Nat.lt_ge_cases k (length lb)) as [Hk|Hk].
  - rewrite nth_error_map_seq by auto. rewrite nth_error_bidx by auto. now rewrite app_nth1 by auto.
  - rewrite !(proj2 (nth_error_None _ k)); auto; rewrite ?map_length, ?seq_length, ?bidx_length; lia.
Qed.
Lemma addr_batch : forall l lsb x y bi i k, lstrides l = lsb ++ [x; y] -> length bi = length lsb ->
  addr l (bi ++ [i; k]) = flat_index (loffset l) bi (lstrides l) + i * x + k * y.
Proof.
  intros l lsb x y bi i k E L. unfold addr. rewrite flat_index_dot, E, dot_app by auto.
  assert (D : dot bi (lsb ++ [x; y]) = dot bi lsb).
  { rewrite <- (app_nil_r bi) at 1. rewrite dot_app by auto. cbn. destruct lsb; cbn; lia. }
  rewrite D. cbn [dot]. lia.
Qed.
Lemma last2 : forall (b : list nat) x y, nth_error (b ++ [x; y]) (length (b ++ [x; y]) - 1) = Some y /\
  nth_error (b ++ [x; y]) (length (b ++ [x; y]) - 2) = Some x.
Proof.
  intros b x y. rewrite app_length. cbn [length]. split.
  - rewrite nth_error_app2 by lia. replace (length b + 2 - 1 - length b) with 1 by lia. reflexivity.
  - rewrite nth_error_app2 by lia. replace (length b + 2 - 2 - length b) with 0 by lia. reflexivity.
Qed.

Lemma matmul_md : forall l r bsh M K N, wf_layout l -> wf_layout r ->
  let md := matmul_metadata l r bsh M K N in
  let ln := length (lshape l) in let rn := length (lshape r) in let bn := length bsh in
  let b := 4 + ln + rn + bn + ln + rn in
  nth_error md 0 = Some (nelem (bsh ++ [M; N])) /\ nth_error md 1 = Some ln /\ nth_error md 2 = Some rn /\
  nth_error md 3 = Some bn /\ md_slice md 4 ln = Some (lshape l) /\ md_slice md (4 + ln) rn = Some (lshape r) /\
  md_slice md (4 + ln + rn) bn = Some bsh /\ md_slice md (4 + ln + rn + bn) ln = Some (lstrides l) /\
  md_slice md (4 + ln + rn + bn + ln) rn = Some (lstrides r) /\
  nth_error md b = Some (loffset l) /\ nth_error md (b + 1) = Some (loffset r) /\ nth_error md (b + 2) = Some M /\
  nth_error md (b + 3) = Some K /\ nth_error md (b + 4) = Some N.
Proof.
  intros l r bsh M K N Wl Wr md ln rn bn b. unfold wf_layout in Wl, Wr.
  assert (EM : md = [nelem (bsh ++ [M; N]); ln; rn; bn] ++ lshape l ++ lshape r ++ bsh ++ lstrides l ++ lstrides r
     ++ [loffset l; loffset r; M; K; N]) by reflexivity.
  clearbody md. set (tl := [loffset l; loffset r; M; K; N]) in *. set (hd := [_; ln; rn; bn]) in *.
  assert (LH : length hd = 4) by reflexivity.
  repeat split; try (rewrite EM; reflexivity); rewrite EM.
  - apply (md_at _ hd (lshape l) (lshape r ++ bsh ++ lstrides l ++ lstrides r ++ tl)); auto.
  - apply (md_at _ (hd ++ lshape l) (lshape r) (bsh ++ lstrides l ++ lstrides r ++ tl)); [assoc|rewrite app_length; lia|auto].
  - apply (md_at _ (hd ++ lshape l ++ lshape r) bsh (lstrides l ++ lstrides r ++ tl)); [assoc|rewrite !app_length; lia|auto].
  - apply (md_at _ (hd ++ lshape l ++ lshape r ++ bsh) (lstrides l) (lstrides r ++ tl)); [assoc|rewrite !app_length; lia|auto].
  - apply (md_at _ (hd ++ lshape l ++ lshape r ++ bsh ++ lstrides l) (lstrides r) tl); [assoc|rewrite !app_length; lia|auto].
  - apply (nth_at _ (hd ++ lshape l ++ lshape r ++ bsh ++ lstrides l ++ lstrides r) [loffset r; M; K; N]); [assoc|].
    rewrite !app_length. lia.
  - apply (nth_at _ (hd ++ lshape l ++ lshape r ++ bsh ++ lstrides l ++ lstrides r ++ [loffset l]) [M; K; N]); [assoc|].
    rewrite !app_length. cbn [length]. lia.
  - apply (nth_at _ (hd ++ lshape l ++ lshape r ++ bsh ++ lstrides l ++ lstrides r ++ [loffset l; loffset r]) [K; N]); [assoc|].
    rewrite !app_length. cbn [length]. lia.
  - apply (nth_at _ (hd ++ lshape l ++ lshape r ++ bsh ++ lstrides l ++ lstrides r ++ [loffset l; loffset r; M]) [N]); [assoc|].
    rewrite !app_length. cbn [length]. lia.
  - apply (nth_at _ (hd ++ lshape l ++ lshape r ++ bsh ++ lstrides l ++ lstrides r ++ [loffset l; loffset r; M; K]) []); [assoc|].
    rewrite !app_length. cbn [length]. lia.
Qed.

Section P.
Variables (A : Type) (zero : A) (add mul : A -> A -> A).
Variables (lhs rhs : list A).

Definition bprod (bsh : list nat) (M K N : nat) (a b : list nat -> nat -> nat -> A) : list A :=
  map (fun idx => psum A zero add mul (a (unravel bsh (idx / (M * N)))) (b (unravel bsh (idx / (M * N))))
         ((idx mod (M * N)) / N) ((idx mod (M * N)) mod N) K) (seq 0 (nelem (bsh ++ [M; N]))).

Lemma nelem_mn : forall bsh M N, nelem (bsh ++ [M; N]) = nelem bsh * (M * N).
Proof. intros. rewrite nelem_app, !nelem_cons. unfold nelem at 2. cbn. lia. Qed.

Lemma idx_split : forall bsh M N p, p < nelem (bsh ++ [M; N]) ->
  p / (M * N) < nelem bsh /\ p mod (M * N) < M * N /\ (p mod (M * N)) / N < M /\ (p mod (M * N)) mod N < N.
Proof.
  intros bsh M N p Hp. rewrite nelem_mn in Hp.
  assert (MN : M * N <> 0) by (intro X; rewrite X in Hp; lia).
  assert (N0 : N <> 0) by (intro X; subst; lia).
  assert (X := Nat.mod_upper_bound p (M * N) MN).
  split; [apply Nat.div_lt_upper_bound; lia|]. split; auto.
  split; [apply Nat.div_lt_upper_bound; lia|apply Nat.mod_upper_bound; auto].
Qed.

Lemma matmul_kernel_spec : forall e (l r : layout) lb rb bsh M K N (a b : list nat -> nat -> nat -> A) out,
  mat_env_ok e -> wf_layout l -> wf_layout r -> lshape l = lb ++ [M; K] -> lshape r = rb ++ [K; N] ->
  length lb <= length bsh -> length rb <= length bsh -> length bsh <= 16 ->
  (forall bi i k, valid bsh bi -> i < M -> k < K -> nth_error lhs (addr l (bidx lb bi ++ [i; k])) = Some (a bi i k)) ->
  (forall bi k j, valid bsh bi -> k < K -> j < N -> nth_error rhs (addr r (bidx rb bi ++ [k; j])) = Some (b bi k j)) ->
  length out = nelem (bsh ++ [M; N]) ->
  matmul_kernel zero add mul lhs rhs e out (matmul_metadata l r bsh M K N) = Some (bprod bsh M K N a b).
Proof.
  intros e l r lb rb bsh M K N a b out He Wl Wr El Er Ll Lr L16 Ha Hb Hout.
  destruct (matmul_md l r bsh M K N Wl Wr) as (M0 & M1 & M2 & M3 & M4 & M5 & M6 & M7 & M8 & M9 & M10 & M11 & M12 & M13).
  unfold matmul_kernel. set (md := matmul_metadata l r bsh M K N) in *. clearbody md.
  rewrite M0, M1, M2, M3. cbn [obind]. rewrite M4. cbn [obind]. rewrite M5. cbn [obind]. rewrite M6. cbn [obind].
  rewrite M7. cbn [obind]. rewrite M8. cbn [obind]. cbv zeta. rewrite M9. cbn [obind]. rewrite M10. cbn [obind].
  rewrite M11. cbn [obind]. rewrite M12. cbn [obind]. rewrite M13. cbn [obind].
  assert (LL : length (lstrides l) = length lb + 2) by (rewrite Wl, El, app_length; reflexivity).
  assert (LR : length (lstrides r) = length rb + 2) by (rewrite Wr, Er, app_length; reflexivity).
  destruct (split2 _ _ LL) as [lsb [l2 [l1 [EL LB]]]]. destruct (split2 _ _ LR) as [rsb [r2 [r1 [ER RB]]]].
  assert (ELN : length (lshape l) = length (lstrides l)) by (symmetry; exact Wl).
  assert (ERN : length (lshape r) = length (lstrides r)) by (symmetry; exact Wr).
  assert (X1 : nth_error (lstrides l) (length (lshape l) - 1) = Some l1) by (rewrite ELN, EL; apply last2).
  assert (X2 : nth_error (lstrides l) (length (lshape l) - 2) = Some l2) by (rewrite ELN, EL; apply last2).
  assert (Y1 : nth_error (lstrides r) (length (lshape r) - 1) = Some r1) by (rewrite ERN, ER; apply last2).
  assert (Y2 : nth_error (lstrides r) (length (lshape r) - 2) = Some r2) by (rewrite ERN, ER; apply last2).
  rewrite X1. cbn [obind]. rewrite Y1. cbn [obind]. rewrite X2. cbn [obind]. rewrite Y2. cbn [obind].
  set (fast := (l1 =? 1) && (r1 =? 1) && (l2 =? K) && (r2 =? N) && (loffset l =? 0) && (loffset r =? 0) && (length bsh =? 0)).
  assert (BI : forall bi, valid bsh bi -> length bi = length bsh) by (intros bi V; now apply valid_length in V).
  assert (AL : forall bi i k, valid bsh bi -> addr l (bidx lb bi ++ [i; k]) =
     flat_index (loffset l) (bidx lb bi) (lstrides l) + i * l2 + k * l1).
  { intros bi i k V. apply (addr_batch l lsb); auto. rewrite bidx_length; [lia|rewrite (BI bi V); lia]. }
  assert (AR : forall bi i k, valid bsh bi -> addr r (bidx rb bi ++ [i; k]) =
     flat_index (loffset r) (bidx rb bi) (lstrides r) + i * r2 + k * r1).
  { intros bi i k V. apply (addr_batch r rsb); auto. rewrite bidx_length; [lia|rewrite (BI bi V); lia]. }
  destruct fast eqn:EF.
  - unfold fast in EF. rewrite !andb_true_iff, !Nat.eqb_eq in EF. destruct EF as ((((((F1 & F2) & F3) & F4) & F5) & F6) & F7).
    apply length_zero_iff_nil in F7. subst bsh. cbn [length] in *.
    assert (lb = []) by (apply length_zero_iff_nil; lia). assert (rb = []) by (apply length_zero_iff_nil; lia). subst lb rb.
    assert (V0 : valid [] []) by exact I.
    assert (HA : forall i k, i < M -> k < K -> nth_error lhs (i * K + k) = Some (a [] i k)).
    { intros i k Hi Hk. rewrite <- (Ha [] i k V0 Hi Hk). rewrite (AL [] i k V0). cbn [bidx combine map flat_index].
      f_equal. rewrite F5, F3, F1. lia. }
    assert (HB : forall k j, k < K -> j < N -> nth_error rhs (k * N + j) = Some (b [] k j)).
    { intros k j Hk Hj. rewrite <- (Hb [] k j V0 Hk Hj). rewrite (AR [] k j V0). cbn [bidx combine map flat_index].
      f_equal. rewrite F6, F4, F2. lia. }
    assert (NE : nelem ([] ++ [M; N]) = M * N) by (rewrite nelem_mn; change (nelem []) with 1; lia).
    assert (EP : Some (bprod [] M K N a b) = Some (prod_buf A zero add mul M K N (a []) (b []))).
    { f_equal. unfold bprod, prod_buf. rewrite NE. apply map_ext_in. intros p Hp. apply in_seq in Hp.
      now rewrite Nat.mod_small by lia. }
    rewrite EP. rewrite NE in Hout. destruct (1 <? mat_threads e M) eqn:ET.
    + apply (rows_threaded_spec A zero add mul lhs rhs M K N (a []) (b []) (fun i k => i * K + k) (fun k j => k * N + j)); auto.
    + unfold prod_buf. apply seq_for_total; auto. intros p Hp.
      apply (plain_cell_spec A zero add mul lhs rhs M K N (a []) (b []) (fun i k => i * K + k) (fun k j => k * N + j)); auto.
  - unfold bprod. apply seq_for_total; auto. intros p Hp. cbv beta.
    destruct (idx_split bsh M N p Hp) as [H1 [H2 [H3 H4]]].
    replace (16 <? length bsh) with false by lia. rewrite c_unravel_spec by auto. cbn [obind].
    set (bi := unravel bsh (p / (M * N))). assert (V : valid bsh bi) by (apply unravel_valid; auto).
    rewrite <- (BI bi V), El, Er.
    rewrite !kernel_batch by (rewrite (BI bi V); auto).
    set (i := (p mod (M * N)) / N) in *. set (j := (p mod (M * N)) mod N) in *.
    rewrite (dot_cell_spec A zero add mul lhs rhs K _ _ (fun k => a bi i k) (fun k => b bi k j)); auto.
    + intros k Hk. rewrite <- AL by auto. auto.
    + intros k Hk. rewrite <- AR by auto. auto.
Qed.
End P.
