(** Proofs about the tensor-level products. *)
From Coq Require Import List Arith ZArith Lia Bool ZifyBool.
From Verif Require Import Base IndexSpec LayoutModel ViewSpec LayoutProofs BcastProofs.
From Verif Require Import KernelModel TensorModel TensorSpec KernelProofs TensorProofs ElementwiseProofs.
From Verif Require Import ReduceModel ReduceSpec ReduceProofs ReduceProofs2 ScanModel MoveProofs MatrixModel GridProofs MatrixProofs.
From Verif Require Import MatrixProofs2 MatrixProofs3.
Import ListNotations.

Lemma elem_fn1 : forall A (z : A) (t : tensor A) n (ix : nat -> list nat), good t -> (forall k, k < n -> valid (tshape t) (ix k)) ->
  forall k, k < n -> elem t (ix k) = Some (nth (addr (tlay t) (ix k)) (tstore t) z).
Proof.
  intros A z t n ix [_ Hb] V k Hk. unfold elem. apply nth_error_nth'. apply Hb. now apply V.
Qed.
Lemma elem_nth : forall A (z : A) (t : tensor A) i, good t -> valid (tshape t) i ->
  elem t i = Some (nth (addr (tlay t) i) (tstore t) z).
Proof. intros A z t i [_ Hb] V. unfold elem. apply nth_error_nth'. now apply Hb. Qed.

Lemma valid_app2 : forall s i x y a b, valid s i -> a < x -> b < y -> valid (s ++ [x; y]) (i ++ [a; b]).
Proof. intros. apply valid_app. - now apply valid_length. - split; auto. cbn. auto. Qed.

Lemma bidx2 : forall x y i j, i < x -> j < y -> bidx [x; y] [i; j] = [i; j].
Proof.
  intros x y i j Hi Hj. unfold bidx. cbn. destruct (Nat.eqb_spec x 1), (Nat.eqb_spec y 1); repeat f_equal; lia.
Qed.

Section P.
Variables (A : Type) (zero : A) (add mul : A -> A -> A) (z : A).
Notation DOT := (dot_at zero add mul).

Lemma good_pair : forall (a : tensor A) M K, good a -> tshape a = [M; K] ->
  exists s0 s1, lstrides (tlay a) = [s0; s1] /\ forall i k, addr (tlay a) [i; k] = loffset (tlay a) + i * s0 + k * s1.
Proof.
  intros a M K [W _] S. unfold wf_layout in W. unfold tshape in S. rewrite S in W.
  destruct (lstrides (tlay a)) as [|s0 [|s1 [|? ?]]] eqn:E; try discriminate. exists s0, s1. split; auto.
  intros i k. unfold addr. rewrite E. cbn. lia.
Qed.

(** rank 2 by rank 2, given a kernel that computes the product of the matrices *)
Lemma dot_2d_gen : forall (dotk : list A -> list A -> list A -> list nat -> option (list A)) (a b : tensor A) M K N,
  good a -> good b -> tshape a = [M; K] -> tshape b = [K; N] ->
  (forall lsm lsk rsk rsn lo ro (fa fb : nat -> nat -> A) out, lstrides (tlay a) = [lsm; lsk] -> lstrides (tlay b) = [rsk; rsn] ->
     (forall i k, i < M -> k < K -> nth_error (tstore a) (lo + i * lsm + k * lsk) = Some (fa i k)) ->
     (forall k j, k < K -> j < N -> nth_error (tstore b) (ro + k * rsk + j * rsn) = Some (fb k j)) ->
     length out = M * N ->
     dotk (tstore a) (tstore b) out [M; K; N; lsm; lsk; rsk; rsn; lo; ro] = Some (prod_buf A zero add mul M K N fa fb)) ->
  exists r, t_dot_2d z dotk a b = Ok r /\ good r /\ tshape r = [M; N] /\
    forall i j, i < M -> j < N -> DOT a b (fun k => [i; k]) (fun k => [k; j]) K (elem r [i; j]).
Proof.
  intros dotk a b M K N Ga Gb Sa Sb Hk.
  destruct (good_pair a M K Ga Sa) as [a0 [a1 [Ea Aa]]]. destruct (good_pair b K N Gb Sb) as [b0 [b1 [Eb Ab]]].
  set (fa := fun i k => nth (addr (tlay a) [i; k]) (tstore a) z). set (fb := fun i k => nth (addr (tlay b) [i; k]) (tstore b) z).
  assert (Ha : forall i k, i < M -> k < K -> elem a [i; k] = Some (fa i k)).
  { intros i k Hi Hj. apply elem_nth; auto. rewrite Sa. cbn. auto. }
  assert (Hb : forall i k, i < K -> k < N -> elem b [i; k] = Some (fb i k)).
  { intros i k Hi Hj. apply elem_nth; auto. rewrite Sb. cbn. auto. }
  unfold t_dot_2d. fold (tshape a) (tshape b). rewrite Sa, Sb. cbn [length Nat.eqb andb negb nth]. rewrite Nat.eqb_refl. cbn [negb].
  unfold dot_metadata. fold (tshape a) (tshape b). rewrite Sa, Sb, Ea, Eb. cbn [nth].
  assert (NE : nelem [M; N] = M * N) by (rewrite !nelem_cons; change (nelem []) with 1; lia).
  rewrite (Hk a0 a1 b0 b1 (loffset (tlay a)) (loffset (tlay b)) fa fb); auto.
  - cbn [ub bind]. eexists. split; [reflexivity|].
    assert (LP : length (prod_buf A zero add mul M K N fa fb) = nelem [M; N])
      by (unfold prod_buf; rewrite map_length, seq_length; auto).
    split; [apply from_shape_good; cbn [tstore tlay]; auto; lia|]. split; [reflexivity|].
    intros i j Hi Hj. exists (fa i), (fun k => fb k j). split; [auto|]. split; [auto|].
    unfold elem. cbn [tstore tlay]. rewrite addr_from_shape by reflexivity.
    assert (ER : ravel [M; N] [i; j] = i * N + j).
    { cbn [ravel]. rewrite !nelem_cons. change (nelem []) with 1. lia. }
    rewrite ER. unfold prod_buf. destruct (cell_div N i j Hj) as [D1 D2]. rewrite nth_error_map_seq by (apply cell_lt; auto).
    now rewrite D1, D2.
  - intros i k Hi Hj. rewrite <- (Ha i k Hi Hj). unfold elem. now rewrite Aa.
  - intros i k Hi Hj. rewrite <- (Hb i k Hi Hj). unfold elem. now rewrite Ab.
  - rewrite repeat_length. auto.
Qed.

Lemma dot_2d_spec : forall e (a b : tensor A) M K N, mat_env_ok e ->
  good a -> good b -> tshape a = [M; K] -> tshape b = [K; N] ->
  exists r, t_dot_2d z (fun l r => dot_kernel zero add mul l r e) a b = Ok r /\ good r /\ tshape r = [M; N] /\
    forall i j, i < M -> j < N -> DOT a b (fun k => [i; k]) (fun k => [k; j]) K (elem r [i; j]).
Proof.
  intros e a b M K N He Ga Gb Sa Sb. apply dot_2d_gen; auto. intros. now apply dot_kernel_spec.
Qed.

Lemma dot_2d_blas : forall e (a b : tensor A) M K N, mat_env_ok e -> 1 <= K ->
  good a -> good b -> tshape a = [M; K] -> tshape b = [K; N] ->
  blas_ok M K (nth 0 (lstrides (tlay a)) 0) (nth 1 (lstrides (tlay a)) 0) ->
  blas_ok K N (nth 0 (lstrides (tlay b)) 0) (nth 1 (lstrides (tlay b)) 0) ->
  exists r, t_dot_2d z (fun l r => dot_blas zero add mul l r e) a b = Ok r /\ good r /\ tshape r = [M; N] /\
    forall i j, i < M -> j < N -> DOT a b (fun k => [i; k]) (fun k => [k; j]) K (elem r [i; j]).
Proof.
  intros e a b M K N He HK Ga Gb Sa Sb Oa Ob. apply dot_2d_gen; auto. intros lsm lsk rsk rsn lo ro fa fb out E1 E2 H1 H2 HL.
  rewrite E1 in Oa. rewrite E2 in Ob. cbn in Oa, Ob. apply dot_blas_spec; auto.
Qed.

(** broadcasting a stack of matrices *)
Lemma matrix_broadcast : forall (a : tensor A) lb bsh M K, good a -> tshape a = lb ++ [M; K] ->
  shape_rel (VBroadcast bsh) lb bsh ->
  exists a', t_broadcast z a (bsh ++ [M; K]) = Ok a' /\ good a' /\ tshape a' = bsh ++ [M; K] /\
    (exists q, lstrides (tlay a') = q ++ [K; 1] /\ length q = length bsh) /\
    forall bi i k, valid bsh bi -> i < M -> k < K -> elem a' (bi ++ [i; k]) = elem a (bidx lb bi ++ [i; k]) /\
      valid (tshape a) (bidx lb bi ++ [i; k]).
Proof.
  intros a lb bsh M K Ga Sa [_ [ad [rest [Eb F]]]].
  destruct (t_broadcast_spec A z a (bsh ++ [M; K])) as [a' [E [G [S H]]]]; auto.
  { split; auto. exists ad, (rest ++ [M; K]). split; [rewrite Eb, app_assoc; auto|]. rewrite Sa. apply Forall2_app; auto. }
  exists a'. split; auto. split; auto. split; auto. split; [apply (broadcast_tail A z a lb bsh M K); auto|].
  intros bi i k V Hi Hk. destruct (H (bi ++ [i; k])) as [V' E']; [now apply valid_app2|].
  assert (LB : length lb <= length bi).
  { apply valid_length in V. rewrite V, Eb, app_length. apply Forall2_len in F. lia. }
  rewrite Sa in E', V' |- *. rewrite bidx_app, bidx2 in E', V' by auto. auto.
Qed.

Lemma batch_of_app : forall lb x y, batch_of (lb ++ [x; y]) = lb.
Proof.
  intros. unfold batch_of. rewrite app_length. cbn [length]. replace (length lb + 2 - 2) with (length lb) by lia.
  now rewrite firstn_app, Nat.sub_diag, firstn_all, app_nil_r.
Qed.

Lemma bidx_id : forall s i, valid s i -> bidx s i = i.
Proof. intros s i V. now apply bidx_self. Qed.

Lemma batched_gen : forall matk (a b : tensor A) lb rb bsh M K N,
  good a -> good b -> tshape a = lb ++ [M; K] -> tshape b = rb ++ [K; N] -> all_pos lb -> all_pos rb -> bcast lb rb bsh ->
  (forall lhs rhs (l r : layout) (fa fb : list nat -> nat -> nat -> A) out,
    wf_layout l -> wf_layout r -> lshape l = bsh ++ [M; K] -> lshape r = bsh ++ [K; N] ->
    (exists q, lstrides l = q ++ [K; 1] /\ length q = length bsh) -> (exists q, lstrides r = q ++ [N; 1] /\ length q = length bsh) ->
    (forall bi i k, valid bsh bi -> i < M -> k < K -> nth_error lhs (addr l (bidx bsh bi ++ [i; k])) = Some (fa bi i k)) ->
    (forall bi k j, valid bsh bi -> k < K -> j < N -> nth_error rhs (addr r (bidx bsh bi ++ [k; j])) = Some (fb bi k j)) ->
    length out = nelem (bsh ++ [M; N]) ->
    matk lhs rhs out (matmul_metadata l r bsh M K N) = Some (bprod A zero add mul bsh M K N fa fb)) ->
  exists r, t_matmul_batched z matk a b = Ok r /\ good r /\ tshape r = bsh ++ [M; N] /\
    forall bi i j, valid bsh bi -> i < M -> j < N ->
      DOT a b (fun k => bidx lb bi ++ [i; k]) (fun k => bidx rb bi ++ [k; j]) K (elem r (bi ++ [i; j])).
Proof.
  intros matk a b lb rb bsh M K N Ga Gb Sa Sb Pa Pb HB Hk.
  destruct (bcast_views _ _ _ HB) as [Va Vb].
  destruct (matrix_broadcast a lb bsh M K Ga Sa Va) as [a' [Ea [Ga' [Sa' [Ta Ha]]]]].
  destruct (matrix_broadcast b rb bsh K N Gb Sb Vb) as [b' [Eb [Gb' [Sb' [Tb Hb]]]]].
  unfold t_matmul_batched. fold (tshape a) (tshape b).
  assert (LA : length (tshape a) = length lb + 2) by (rewrite Sa, app_length; reflexivity).
  assert (LB : length (tshape b) = length rb + 2) by (rewrite Sb, app_length; reflexivity).
  replace (length (tshape a) <? 2) with false by lia. replace (length (tshape b) <? 2) with false by lia. cbn [orb].
  assert (A1 : nth (length (tshape a) - 2) (tshape a) 0 = M).
  { rewrite Sa. apply nth_error_nth, last2. }
  assert (A2 : nth (length (tshape a) - 1) (tshape a) 0 = K).
  { rewrite Sa. apply nth_error_nth, last2. }
  assert (B1 : nth (length (tshape b) - 2) (tshape b) 0 = K).
  { rewrite Sb. apply nth_error_nth, last2. }
  assert (B2 : nth (length (tshape b) - 1) (tshape b) 0 = N).
  { rewrite Sb. apply nth_error_nth, last2. }
  rewrite A1, A2, B1, B2, Nat.eqb_refl. cbn [negb]. unfold mat_batch at 1. rewrite Sa, Sb, !batch_of_app.
  assert (EB : bt2_dims lb rb = Some bsh) by (apply bt2_dims_spec; auto). rewrite EB, Ea. cbn [bind]. rewrite Eb. cbn [bind].
  unfold mat_batch. fold (tshape a') (tshape b'). rewrite Sa', Sb', !batch_of_app.
  assert (PB : all_pos bsh) by (eapply bcast_all_pos; eauto).
  assert (EB2 : bt2_dims bsh bsh = Some bsh) by (apply bt2_dims_spec; auto; apply bcast_idem). rewrite EB2.
  set (fa := fun bi i k => nth (addr (tlay a') (bi ++ [i; k])) (tstore a') z).
  set (fb := fun bi i k => nth (addr (tlay b') (bi ++ [i; k])) (tstore b') z).
  assert (RA : forall bi i k, valid bsh bi -> i < M -> k < K -> elem a' (bi ++ [i; k]) = Some (fa bi i k)).
  { intros bi i k V Hi Hj. apply elem_nth; auto. rewrite Sa'. now apply valid_app2. }
  assert (RB : forall bi i k, valid bsh bi -> i < K -> k < N -> elem b' (bi ++ [i; k]) = Some (fb bi i k)).
  { intros bi i k V Hi Hj. apply elem_nth; auto. rewrite Sb'. now apply valid_app2. }
  rewrite (Hk (tstore a') (tstore b') (tlay a') (tlay b') fa fb); auto.
  - cbn [ub bind]. eexists. split; [reflexivity|].
    assert (LP : length (bprod A zero add mul bsh M K N fa fb) = nelem (bsh ++ [M; N]))
      by (unfold bprod; rewrite map_length, seq_length; auto).
    split; [apply from_shape_good; cbn [tstore tlay]; auto; lia|]. split; [reflexivity|].
    intros bi i j V Hi Hj. exists (fa bi i), (fun k => fb bi k j).
    split; [intros k Hk'; destruct (Ha bi i k V Hi Hk') as [<- _]; auto|].
    split; [intros k Hk'; destruct (Hb bi k j V Hk' Hj) as [<- _]; auto|].
    unfold elem. cbn [tstore tlay].
    assert (LI : length (bi ++ [i; j]) = length (bsh ++ [M; N])) by (rewrite !app_length; apply valid_length in V; cbn [length]; lia).
    rewrite addr_from_shape by auto.
    assert (ER : ravel (bsh ++ [M; N]) (bi ++ [i; j]) = ravel bsh bi * (M * N) + (i * N + j)).
    { rewrite ravel_app by (now apply valid_length in V). cbn [ravel]. rewrite !nelem_cons. change (nelem []) with 1. lia. }
    assert (RL := ravel_lt _ _ V).
    assert (CL : i * N + j < M * N) by (apply cell_lt; auto).
    rewrite ER. unfold bprod. rewrite nth_error_map_seq.
    + assert (D1 : (ravel bsh bi * (M * N) + (i * N + j)) / (M * N) = ravel bsh bi) by (apply cell_div; auto).
      assert (D2 : (ravel bsh bi * (M * N) + (i * N + j)) mod (M * N) = i * N + j) by (apply cell_div; auto).
      rewrite D1, D2, unravel_ravel by auto. destruct (cell_div N i j Hj) as [-> ->]. reflexivity.
    + rewrite nelem_app, !nelem_cons. change (nelem []) with 1. rewrite Nat.mul_1_r. apply cell_lt; auto.
  - apply Ga'. - apply Gb'.
  - intros bi i k V Hi Hj. rewrite bidx_id by auto. now apply RA.
  - intros bi i k V Hi Hj. rewrite bidx_id by auto. now apply RB.
  - now rewrite repeat_length.
Qed.

Lemma batched_spec : forall e (a b : tensor A) lb rb bsh M K N, mat_env_ok e ->
  good a -> good b -> tshape a = lb ++ [M; K] -> tshape b = rb ++ [K; N] -> all_pos lb -> all_pos rb -> bcast lb rb bsh ->
  length bsh <= 16 ->
  exists r, t_matmul_batched z (fun l r => matmul_kernel zero add mul l r e) a b = Ok r /\ good r /\ tshape r = bsh ++ [M; N] /\
    forall bi i j, valid bsh bi -> i < M -> j < N ->
      DOT a b (fun k => bidx lb bi ++ [i; k]) (fun k => bidx rb bi ++ [k; j]) K (elem r (bi ++ [i; j])).
Proof.
  intros e a b lb rb bsh M K N He Ga Gb Sa Sb Pa Pb HB H16. apply batched_gen; auto.
  intros. eapply matmul_kernel_spec; eauto.
Qed.
Lemma batched_blas : forall e (a b : tensor A) lb rb bsh M K N, mat_env_ok e -> 1 <= K ->
  good a -> good b -> tshape a = lb ++ [M; K] -> tshape b = rb ++ [K; N] -> all_pos lb -> all_pos rb -> bcast lb rb bsh ->
  length bsh <= 1 ->
  exists r, t_matmul_batched z (fun l r => matmul_blas zero add mul l r e) a b = Ok r /\ good r /\ tshape r = bsh ++ [M; N] /\
    forall bi i j, valid bsh bi -> i < M -> j < N ->
      DOT a b (fun k => bidx lb bi ++ [i; k]) (fun k => bidx rb bi ++ [k; j]) K (elem r (bi ++ [i; j])).
Proof.
  intros e a b lb rb bsh M K N He HK Ga Gb Sa Sb Pa Pb HB H16. apply batched_gen; auto.
  intros. eapply matmul_blas_spec; eauto.
Qed.

(** matrix by vector, vector by matrix *)
Lemma ravel1 : forall K j k, valid [K] j -> ravel [K] j = k -> j = [k].
Proof.
  intros K [|x [|? ?]] k V E; cbn in V; try tauto; try lia. cbn in E. change (nelem []) with 1 in E. f_equal. lia.
Qed.

Lemma mat_vec_gen : forall e dotk matk (a b : tensor A) M K, good a -> good b -> tshape a = [M; K] -> tshape b = [K] ->
  (forall b', good b' -> tshape b' = [K; 1] -> (exists o, tlay b' = mkLayout [K; 1] [1; 1] o) -> 
   exists r, t_dot_2d z dotk a b' = Ok r /\ good r /\ tshape r = [M; 1] /\
    forall i j, i < M -> j < 1 -> DOT a b' (fun k => [i; k]) (fun k => [k; j]) K (elem r [i; j])) ->
  exists r, t_matmul zero add mul z dotk matk e a b = Ok r /\ good r /\ tshape r = [M] /\
    forall i, i < M -> DOT a b (fun k => [i; k]) (fun k => [k]) K (elem r [i]).
Proof.
  intros e dotk matk a b M K Ga Gb Sa Sb Hd.
  destruct (t_view_total A z (VReshape [K; 1]) b [K; 1]) as [b' [Eb Sb']]; auto; [exact I| |].
  { split; auto. rewrite Sb, !nelem_cons. change (nelem []) with 1. lia. }
  destruct (t_view_spec A z (VReshape [K; 1]) b b' Gb I Eb) as [Gb' [_ Hb]].
  destruct (Hd b' Gb' Sb') as [r [Er [Gr [Sr Hr]]]].
  { destruct (t_contiguous_spec A z b Gb) as [c [Hc [Gc [Sc [Cc _]]]]].
    rewrite (t_view_unfold A z _ b c Gb Hc) in Eb. unfold apply_view, reshape in Eb.
    destruct (negb _); [discriminate|]. rewrite Cc in Eb. cbn [negb bind] in Eb. inversion Eb. exists (loffset (tlay c)). reflexivity. }
  destruct (t_view_total A z (VSqueeze [(-1)%Z]) r [M]) as [r' [Er' Sr']]; auto.
  { rewrite Sr. cbn. constructor; [intros []|constructor]. }
  { rewrite Sr. split; [|reflexivity]. intros q [<-|[]]. split; [unfold axis_ok; cbn; lia|reflexivity]. }
  destruct (t_view_spec A z (VSqueeze [(-1)%Z]) r r' Gr) as [Gr' [_ Hr']]; auto.
  { rewrite Sr. cbn. constructor; [intros []|constructor]. }
  exists r'. unfold t_matmul. fold (tshape a) (tshape b). rewrite Sa, Sb, Nat.eqb_refl. cbn [negb]. rewrite Eb. cbn [bind].
  rewrite Er. cbn [bind]. split; auto. split; auto. split; auto. intros i Hi.
  destruct (Hr' [i]) as [j [Hj [Vj Ej]]]; [rewrite Sr'; cbn; auto|]. rewrite Ej. rewrite Sr in Vj, Hj. rewrite Sr' in Hj.
  destruct j as [|x [|y [|? ?]]]; cbn in Vj; try tauto.
  assert (y = 0) by lia. subst y.
  assert (x = i). { cbn in Hj. rewrite !nelem_cons in Hj. change (nelem []) with 1 in Hj. lia. } subst x.
  destruct (Hr i 0 Hi ltac:(lia)) as [fa [fb [Fa [Fb Fr]]]]. exists fa, fb. split; auto. split; auto.
  intros k Hk. rewrite <- (Fb k Hk). destruct (Hb [k; 0]) as [j [Ij [Wj Xj]]]; [rewrite Sb'; cbn; lia|].
  rewrite Xj. f_equal. symmetry. rewrite Sb in Ij, Wj. apply (ravel1 K); auto. unfold index_rel in Ij. rewrite Sb' in Ij. rewrite Ij. cbn.
  rewrite !nelem_cons. change (nelem []) with 1. lia.
Qed.

Lemma vec_mat_gen : forall e dotk matk (a b : tensor A) K N, good a -> good b -> tshape a = [K] -> tshape b = [K; N] ->
  (forall a', good a' -> tshape a' = [1; K] -> (exists o, tlay a' = mkLayout [1; K] [K; 1] o) -> 
   exists r, t_dot_2d z dotk a' b = Ok r /\ good r /\ tshape r = [1; N] /\
    forall i j, i < 1 -> j < N -> DOT a' b (fun k => [i; k]) (fun k => [k; j]) K (elem r [i; j])) ->
  exists r, t_matmul zero add mul z dotk matk e a b = Ok r /\ good r /\ tshape r = [N] /\
    forall j, j < N -> DOT a b (fun k => [k]) (fun k => [k; j]) K (elem r [j]).
Proof.
  intros e dotk matk a b K N Ga Gb Sa Sb Hd.
  destruct (t_view_total A z (VReshape [1; K]) a [1; K]) as [a' [Ea Sa']]; auto; [exact I| |].
  { split; auto. rewrite Sa, !nelem_cons. change (nelem []) with 1. lia. }
  destruct (t_view_spec A z (VReshape [1; K]) a a' Ga I Ea) as [Ga' [_ Ha]].
  destruct (Hd a' Ga' Sa') as [r [Er [Gr [Sr Hr]]]].
  { destruct (t_contiguous_spec A z a Ga) as [c [Hc [Gc [Sc [Cc _]]]]].
    rewrite (t_view_unfold A z _ a c Ga Hc) in Ea. unfold apply_view, reshape in Ea.
    destruct (negb _); [discriminate|]. rewrite Cc in Ea. cbn [negb bind] in Ea.
    assert (CS : compute_strides [1; K] = [K; 1]).
    { rewrite !compute_strides_cons, nelem_cons. change (nelem []) with 1. now rewrite Nat.mul_1_r. }
    rewrite CS in Ea. injection Ea as <-. exists (loffset (tlay c)). reflexivity. }
  destruct (t_view_total A z (VSqueeze [0%Z]) r [N]) as [r' [Er' Sr']]; auto.
  { rewrite Sr. cbn. constructor; [intros []|constructor]. }
  { rewrite Sr. split; [|reflexivity]. intros q [<-|[]]. split; [unfold axis_ok; cbn; lia|reflexivity]. }
  destruct (t_view_spec A z (VSqueeze [0%Z]) r r' Gr) as [Gr' [_ Hr']]; auto.
  { rewrite Sr. cbn. constructor; [intros []|constructor]. }
  exists r'. unfold t_matmul. fold (tshape a) (tshape b). rewrite Sa, Sb, Nat.eqb_refl. cbn [negb]. rewrite Ea. cbn [bind].
  rewrite Er. cbn [bind]. split; auto. split; auto. split; auto. intros i Hi.
  destruct (Hr' [i]) as [j [Hj [Vj Ej]]]; [rewrite Sr'; cbn; auto|]. rewrite Ej. rewrite Sr in Vj, Hj. rewrite Sr' in Hj.
  destruct j as [|x [|y [|? ?]]]; cbn in Vj; try tauto.
  assert (x = 0) by lia. subst x.
  assert (y = i). { cbn in Hj. rewrite ?nelem_cons in Hj. change (nelem []) with 1 in Hj. lia. } subst y.
  destruct (Hr 0 i ltac:(lia) Hi) as [fa [fb [Fa [Fb Fr]]]]. exists fa, fb. split; auto.
  intros k Hk. rewrite <- (Fa k Hk). destruct (Ha [0; k]) as [j [Ij [Wj Xj]]]; [rewrite Sa'; cbn; lia|].
  rewrite Xj. f_equal. symmetry. rewrite Sa in Ij, Wj. apply (ravel1 K); auto. unfold index_rel in Ij. rewrite Sa' in Ij. rewrite Ij. cbn.
  rewrite ?nelem_cons. change (nelem []) with 1. lia.
Qed.

(** vector by vector *)
Lemma fold_left_map_seq : forall (g : nat -> A) n, 
  fold_left add (map g (seq 0 n)) zero = fold_left (fun acc k => add acc (g k)) (seq 0 n) zero.
Proof. intros g n. generalize zero. generalize 0. induction n as [|n IH]; intros s c; cbn; auto. Qed.

Lemma vec_vec : forall e dotk matk (a b : tensor A) K, env_ok e -> good a -> good b -> tshape a = [K] -> tshape b = [K] -> 0 < K ->
  (loffset (tlay a) = 0 \/ is_contiguous (tlay a) = false) ->
  exists r, t_matmul zero add mul z dotk matk e a b = Ok r /\ tshape r = [] /\
    DOT a b (fun k => [k]) (fun k => [k]) K (elem r []).
Proof.
  intros e dotk matk a b K He Ga Gb Sa Sb HK Ho.
  assert (PK : all_pos [K]) by (constructor; auto).
  assert (HB : bcast (tshape a) (tshape b) (tshape a)) by (rewrite Sa, Sb; apply bcast_idem).
  assert (Pa : all_pos (tshape a)) by now rewrite Sa. assert (Pb : all_pos (tshape b)) by now rewrite Sb.
  destruct (t_binary_storage A A A e z z z mul a b (tshape a) He Ga Gb Pa Pb HB) as [m [a' [Em [Sm [Ta [Lm _]]]]]].
  destruct (t_binary_partial A A A e z z z mul a b He Ga Gb Pa Pb HB Ho) as [m' [Em' [Sm' Hm]]].
  rewrite Em in Em'. inversion Em'; subst m'. clear Em'. rewrite Sa in *. rewrite Sb in Hm.
  assert (Gm : good m).
  { split.
    - rewrite Lm. destruct (t_broadcast_spec A z a [K]) as [a2 [E2 [G2 _]]]; auto.
      + rewrite Sa. apply (bcast_views [K] [K] [K]). apply bcast_idem.
      + rewrite Ta in E2. inversion E2; subst. apply G2.
    - intros i V. fold (tshape m) in V. rewrite Sm in V. destruct (Hm i V) as [x [y [_ [_ E]]]]. unfold elem in E.
      apply nth_error_Some. congruence. }
  destruct (reduce_one_axis A A A zero add (fun _ b => b) z z m [] 0 K false) as [r [Er [Lr Hr]]]; auto.
  { rewrite Sm. reflexivity. }
  { rewrite Sm. cbn. lia. }
  { rewrite Sm. unfold kept_pos. right. intros x q Hx Hn. destruct x as [|[|?]]; cbn in *; try discriminate; try tauto. }
  { rewrite Sm. reflexivity. }
  exists r. unfold t_matmul. fold (tshape a) (tshape b). rewrite Sa, Sb, Nat.eqb_refl. cbn [negb]. rewrite Em. cbn [bind].
  split; [exact Er|]. assert (Sr : tshape r = []) by (unfold tshape; rewrite Lr, Sm; reflexivity). split; auto.
  destruct (Hr []) as [base [vs [_ [Lb [Lv [Hvs Er2]]]]]]; [rewrite Sr; exact I|].
  rewrite Sm in Lb. destruct base as [|x0 [|? ?]]; try discriminate.
  exists (fun k => nth (addr (tlay a) [k]) (tstore a) z), (fun k => nth (addr (tlay b) [k]) (tstore b) z).
  assert (XA : forall k, k < K -> elem a [k] = Some (nth (addr (tlay a) [k]) (tstore a) z)).
  { intros k Hk. apply elem_nth; auto. rewrite Sa. cbn. auto. }
  assert (XB : forall k, k < K -> elem b [k] = Some (nth (addr (tlay b) [k]) (tstore b) z)).
  { intros k Hk. apply elem_nth; auto. rewrite Sb. cbn. auto. }
  split; auto. split; auto. rewrite Er2. f_equal.
  assert (EV : vs = map (fun k => mul (nth (addr (tlay a) [k]) (tstore a) z) (nth (addr (tlay b) [k]) (tstore b) z)) (seq 0 K)).
  { apply list_ext. intros k. destruct (Nat.lt_ge_cases k K) as [Hk|Hk].
    - rewrite nth_error_map_seq by auto. assert (V : valid [K] [k]) by (cbn; auto).
      destruct (nth_error vs k) as [v|] eqn:Ev; [|apply nth_error_None in Ev; lia].
      apply Hvs in Ev. cbn [upd] in Ev. destruct (Hm [k] V) as [x [y [E1 [E2 E3]]]].
      rewrite (bidx_self _ _ V) in E2. rewrite XA in E1 by auto. rewrite XB in E2 by auto. congruence.
    - rewrite !(proj2 (nth_error_None _ k)); auto; [rewrite map_length, seq_length|]; lia. }
  rewrite EV. apply fold_left_map_seq.
Qed.
End P.
