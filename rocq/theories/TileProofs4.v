From Coq Require Import List Arith ZArith Bool Lia.
From Verif Require Import Base IndexSpec LayoutModel ViewSpec LayoutProofs BcastProofs.
From Verif Require Import KernelModel TensorModel TensorSpec KernelProofs TensorProofs ElementwiseProofs.
From Verif Require Import ReduceModel ReduceProofs ScanModel MatrixModel MatrixProofs MatrixProofs2 MatrixProofs3 MatrixProofs4.
From Verif Require Import TileModel TileSpec TileProofs TileProofs2 TileProofs3.
Import ListNotations.

Lemma as_u32_id : forall n, (Z.of_nat n < 2 ^ 32)%Z -> as_u32 n = n.
Proof. intros n H. unfold as_u32. rewrite Z.mod_small by lia. lia. Qed.
Lemma grid_covers : forall n t, (Z.of_nat n < 2 ^ 32)%Z -> 0 < t -> n <= grid n t * t /\ 0 < grid n t.
Proof.
  intros n t H T. unfold grid. rewrite as_u32_id by auto. split; [|lia].
  assert (X := Nat.div_mod (n + (t - 1)) t ltac:(lia)). assert (Y := Nat.mod_upper_bound (n + (t - 1)) t ltac:(lia)).
  assert (n <= (n + (t - 1)) / t * t) by lia. nia.
Qed.
Lemma grid_max : forall n t m, (Z.of_nat n < 2 ^ 32)%Z -> 0 < t -> (0 < m)%Z -> (Z.of_nat n <= m * Z.of_nat t)%Z ->
  (Z.of_nat (grid n t) <= m)%Z.
Proof.
  intros n t m H T M N. unfold grid. rewrite as_u32_id by auto.
  assert (X : (Z.of_nat ((n + (t - 1)) / t) <= m)%Z).
  { rewrite Nat2Z.inj_div. assert (Z.of_nat (n + (t - 1)) < Z.of_nat t * (m + 1))%Z by nia.
    assert (Y := Z.div_lt_upper_bound (Z.of_nat (n + (t - 1))) (Z.of_nat t) (m + 1) ltac:(lia) H0). lia. }
  lia.
Qed.

Section P.
Context {A : Type}.
Variables (zero : A) (mac : A -> A -> A -> A).

(** with one thread for each element of the tile the sum is the whole sum *)
Lemma sums_full : forall l gl gr c i f g n, 0 < tile l -> side l = tile l ->
  i < side l * side l -> row l c i < rows l -> col l c i < cols l ->
  (forall k, k < inner l -> left l (block_z l c) (row l c i) k = Some (f k)) ->
  (forall k, k < inner l -> right l (block_z l c) k (col l c i) = Some (g k)) ->
  sums zero mac l gl gr c i n
  = Some (fold_left (fun s k => if k <? inner l then mac s (f k) (g k) else mac s zero zero) (seq 0 n) zero).
Proof.
  intros l gl gr c i f g n T E I R C F G. induction n as [|n IH]; [reflexivity|].
  rewrite sums_S, seq_S, fold_left_app, IH. cbn [fold_left plus].
  assert (M := Nat.mod_upper_bound n (tile l) ltac:(lia)). assert (D := Nat.div_mod n (tile l) ltac:(lia)).
  assert (SN : sane l) by (split; lia). destruct (thread_pos l i SN I) as (TY & TX & TI).
  unfold seen_left, seen_right. replace (n mod tile l <? side l) with true by (symmetry; apply Nat.ltb_lt; lia).
  set (k := n mod tile l) in *. set (t := n / tile l) in *.
  destruct (thread_of l (thread_y l i) k ltac:(lia)) as [Y1 X1]. destruct (thread_of l k (thread_x l i) TX) as [Y2 X2].
  unfold fetch_left, fetch_right, row, col in *. rewrite Y1, X1, Y2, X2.
  replace (t * tile l + k) with n by lia.
  replace (block_y l c * tile l + thread_y l i <? rows l) with true by (symmetry; now apply Nat.ltb_lt).
  replace (block_x l c * tile l + thread_x l i <? cols l) with true by (symmetry; now apply Nat.ltb_lt).
  rewrite andb_true_r. cbn [andb]. destruct (n <? inner l) eqn:L.
  - apply Nat.ltb_lt in L. rewrite F, G by auto. reflexivity.
  - reflexivity.
Qed.

Lemma padding : forall K f g n, (forall s, mac s zero zero = s) -> K <= n ->
  fold_left (fun s k => if k <? K then mac s (f k) (g k) else mac s zero zero) (seq 0 n) zero
  = fold_left (fun s k => mac s (f k) (g k)) (seq 0 K) zero.
Proof.
  intros K f g n L H. replace n with (K + (n - K)) by lia. rewrite seq_app, fold_left_app. cbn [plus].
  assert (X : fold_left (fun s k => if k <? K then mac s (f k) (g k) else mac s zero zero) (seq 0 K) zero
              = fold_left (fun s k => mac s (f k) (g k)) (seq 0 K) zero).
  { assert (Y : forall m s0, m <= K -> fold_left (fun s k => if k <? K then mac s (f k) (g k) else mac s zero zero) (seq 0 m) s0
                = fold_left (fun s k => mac s (f k) (g k)) (seq 0 m) s0).
    { induction m as [|m IH]; intros s0 M; [reflexivity|]. rewrite !seq_S, !fold_left_app, IH by lia. cbn [fold_left plus].
      replace (m <? K) with true by (symmetry; apply Nat.ltb_lt; lia). reflexivity. }
    apply Y. lia. }
  rewrite X. clear X. generalize (fold_left (fun s k => mac s (f k) (g k)) (seq 0 K) zero). intro a.
  assert (Z : forall d k0 s, K <= k0 -> fold_left (fun s k => if k <? K then mac s (f k) (g k) else mac s zero zero) (seq k0 d) s = s).
  { induction d as [|d IH]; intros k0 s M; [reflexivity|]. cbn [seq fold_left]. replace (k0 <? K) with false by (symmetry; apply Nat.ltb_ge; lia).
    rewrite L. apply IH. lia. }
  apply Z. lia.
Qed.

Lemma tiles_cover : forall (l : launch A), 0 < tile l -> inner l <= tiles l * tile l.
Proof.
  intros l T. unfold tiles.
  assert (X := Nat.div_mod (inner l + (tile l - 1)) (tile l) ltac:(lia)).
  assert (Y := Nat.mod_upper_bound (inner l + (tile l - 1)) (tile l) ltac:(lia)). lia.
Qed.

(** the block and the thread that compute an element *)
Lemma owner : forall (l : launch A) b i j, 0 < tile l -> side l = tile l -> 0 < wide l -> 0 < high l ->
  rows l <= high l * tile l -> cols l <= wide l * tile l -> b < deep l -> i < rows l -> j < cols l ->
  exists c th, c < count l /\ th < side l * side l /\ block_z l c = b /\ row l c th = i /\ col l c th = j.
Proof.
  intros l b i j T E W H RH CW B I J.
  assert (X1 : i / tile l < high l) by (apply Nat.div_lt_upper_bound; lia).
  assert (X2 : j / tile l < wide l) by (apply Nat.div_lt_upper_bound; lia).
  assert (M1 := Nat.mod_upper_bound i (tile l) ltac:(lia)). assert (M2 := Nat.mod_upper_bound j (tile l) ltac:(lia)).
  assert (D1 := Nat.div_mod i (tile l) ltac:(lia)). assert (D2 := Nat.div_mod j (tile l) ltac:(lia)).
  set (by_ := i / tile l) in *. set (bx := j / tile l) in *.
  exists ((b * high l + by_) * wide l + bx), ((i mod tile l) * side l + j mod tile l).
  assert (C1 : ((b * high l + by_) * wide l + bx) / wide l = b * high l + by_) by (apply GridProofs.cell_div; auto).
  assert (C2 : ((b * high l + by_) * wide l + bx) mod wide l = bx) by (apply GridProofs.cell_div; auto).
  assert (C3 : (b * high l + by_) / high l = b) by (apply GridProofs.cell_div; auto).
  assert (C4 : (b * high l + by_) mod high l = by_) by (apply GridProofs.cell_div; auto).
  destruct (thread_of l (i mod tile l) (j mod tile l) ltac:(lia)) as [Y X].
  assert (Q1 : b * high l + by_ < deep l * high l) by (clear - B X1; nia).
  assert (Q2 : (b * high l + by_) * wide l + bx < deep l * high l * wide l) by (clear - Q1 X2; nia).
  assert (Q3 : i mod tile l * side l + j mod tile l < side l * side l) by (rewrite E; clear - M1 M2; nia).
  split; [unfold count; replace (wide l * high l * deep l) with (deep l * high l * wide l) by lia; exact Q2|].
  split; [exact Q3|].
  split; [unfold block_z; rewrite <- Nat.div_div, C1 by lia; exact C3|].
  unfold row, col, block_y, block_x. rewrite Y, X, C1, C2, C4. split; lia.
Qed.

Lemma full_result : forall l lefts rights out sched (f : nat -> nat -> nat -> A) (g : nat -> nat -> nat -> A),
  0 < tile l -> side l = tile l -> 0 < wide l -> 0 < high l -> rows l <= high l * tile l -> cols l <= wide l * tile l ->
  (forall c, length (lefts c) = tile l * tile l) -> (forall c, length (rights c) = tile l * tile l) ->
  length out = deep l * (rows l * cols l) ->
  (forall b i k, b < deep l -> i < rows l -> k < inner l -> left l b i k = Some (f b i k)) ->
  (forall b k j, b < deep l -> k < inner l -> j < cols l -> right l b k j = Some (g b k j)) ->
  (forall s, mac s zero zero = s) ->
  let s := run zero mac l sched (start zero l lefts rights out) in finished s ->
  length (result s) = length out /\
  forall b i j, b < deep l -> i < rows l -> j < cols l ->
    nth_error (result s) (b * (rows l * cols l) + i * cols l + j)
    = Some (Some (fold_left (fun s k => mac s (f b i k) (g b k j)) (seq 0 (inner l)) zero)).
Proof.
  intros l lefts rights out sched f g T E W H RH CW LL LR LO F G Z s FIN.
  assert (SN : sane l) by (split; lia).
  destruct (tiles_result zero mac l lefts rights out sched SN W H LL LR FIN) as (R1 & R2 & _).
  split; [exact R1|]. intros b i j B I J.
  destruct (owner l b i j T E W H RH CW B I J) as (c & th & Hc & Ht & <- & <- & <-).
  assert (X := R2 c th Hc Ht (conj I J)). unfold slot in X. fold s in X. rewrite X.
  - f_equal. rewrite (sums_full l (lefts c) (rights c) c th (f (block_z l c) (row l c th)) (fun k => g (block_z l c) k (col l c th))); auto.
    f_equal. apply padding; auto. apply tiles_cover; auto.
  - rewrite LO.
    assert (Y : row l c th * cols l + col l c th < rows l * cols l) by nia. nia.
Qed.

Lemma all_some_map : forall B (l : list B), all_some (map Some l) = Some l.
Proof. induction l; cbn; auto. now rewrite IHl. Qed.
End P.

Lemma in_rounds_completes : forall A (zero : A) mac lefts rights,
  (forall c, length (lefts c) = 256) -> (forall c, length (rights c) = 256) ->
  completes zero mac lefts rights in_rounds.
Proof.
  intros A zero mac lefts rights LL LR l T S W H. unfold in_rounds. fold (count l).
  change (count l * (side l * side l * (tiles l * (tile l + 4) + 1))) with (bound l).
  assert (SN : sane l) by (split; lia).
  apply (rounds zero mac l lefts rights (repeat None (deep l * (rows l * cols l)))); auto; [|lia].
  apply gfine_start; auto; intro c; rewrite T; [apply LL|apply LR].
Qed.

Section Q.
Variables (A : Type) (zero : A) (add mul : A -> A -> A) (mac : A -> A -> A -> A) (z : A).
Hypothesis mac_is : forall s a b, mac s a b = add s (mul a b).
Hypothesis mac_zero : forall s, mac s zero zero = s.

Lemma fold_mac : forall (f g : nat -> A) ks s,
  fold_left (fun s k => mac s (f k) (g k)) ks s = fold_left (fun s k => add s (mul (f k) (g k))) ks s.
Proof. intros f g ks. induction ks as [|k r IH]; intros s; cbn; auto. now rewrite mac_is. Qed.

Lemma by_grid_spec : forall lefts rights sched lhs rhs (l r : layout) bsh M K N (a b : list nat -> nat -> nat -> A) out,
  (forall c, length (lefts c) = 256) -> (forall c, length (rights c) = 256) ->
  completes zero mac lefts rights sched ->
  wf_layout l -> wf_layout r -> lshape l = bsh ++ [M; K] -> lshape r = bsh ++ [K; N] ->
  length bsh <= 16 -> all_pos bsh -> (Z.of_nat (nelem bsh) <= 65535)%Z -> (Z.of_nat M <= 16 * 65535)%Z -> (Z.of_nat N < 2 ^ 32)%Z ->
  (forall bi i k, valid bsh bi -> i < M -> k < K -> nth_error lhs (addr l (bidx bsh bi ++ [i; k])) = Some (a bi i k)) ->
  (forall bi k j, valid bsh bi -> k < K -> j < N -> nth_error rhs (addr r (bidx bsh bi ++ [k; j])) = Some (b bi k j)) ->
  length out = nelem (bsh ++ [M; N]) ->
  by_grid zero mac lefts rights sched lhs rhs out (matmul_metadata l r bsh M K N) = Some (bprod A zero add mul bsh M K N a b).
Proof.
  intros lefts rights sched lhs rhs l r bsh M K N a b out LL LR FIN Wl Wr El Er L16 PB NB BM BN Ha Hb Hout.
  destruct (matmul_md l r bsh M K N Wl Wr) as (M0 & M1 & M2 & M3 & M4 & M5 & M6 & M7 & M8 & M9 & M10 & M11 & M12 & M13).
  unfold by_grid, matmul_launch. set (md := matmul_metadata l r bsh M K N) in *. clearbody md.
  rewrite M1, M2, M3. cbn [obind]. rewrite M4. cbn [obind]. rewrite M5. cbn [obind]. rewrite M6. cbn [obind].
  rewrite M7. cbn [obind]. rewrite M8. cbn [obind]. cbv zeta. rewrite M9. cbn [obind]. rewrite M10. cbn [obind].
  rewrite M11. cbn [obind]. rewrite M12. cbn [obind]. rewrite M13. cbn [obind].
  replace (16 <? length bsh) with false by (symmetry; apply Nat.ltb_ge; lia).
  set (L := mkLaunch 16 16 (grid N 16) (grid M 16) (shape_size bsh) M K N (batch_left lhs (loffset l) (lshape l) (lstrides l) bsh)
    (batch_left rhs (loffset r) (lshape r) (lstrides r) bsh)).
  assert (DP : 1 <= shape_size bsh).
  { exact (all_pos_nelem _ PB). }
  destruct (grid_covers M 16 ltac:(lia) ltac:(lia)) as [GM GM0]. destruct (grid_covers N 16 ltac:(lia) ltac:(lia)) as [GN GN0].
  assert (HM := grid_max M 16 65535 ltac:(lia) ltac:(lia) ltac:(lia) ltac:(lia)).
  assert (HN := grid_max N 16 (2 ^ 28) ltac:(lia) ltac:(lia) ltac:(lia) ltac:(lia)).
  assert (AC : accepted L = true).
  { unfold accepted. cbn [deep wide high L]. rewrite !andb_true_iff. repeat split.
    - now apply Nat.leb_le.
    - apply Z.ltb_lt. change (2 ^ 31)%Z with 2147483648%Z. change (2 ^ 28)%Z with 268435456%Z in HN. lia.
    - now apply Z.leb_le.
    - now apply Z.leb_le. }
  rewrite AC.
  assert (LLN : length (lstrides l) = length bsh + 2) by (rewrite Wl, El, app_length; reflexivity).
  assert (LRN : length (lstrides r) = length bsh + 2) by (rewrite Wr, Er, app_length; reflexivity).
  destruct (split2 _ _ LLN) as [lsb [l2 [l1 [EL LB]]]]. destruct (split2 _ _ LRN) as [rsb [r2 [r1 [ER RB]]]].
  assert (ADDR : forall (lay : layout) (buf : list A) x y sb s2 s1 q i k, lshape lay = bsh ++ [x; y] -> lstrides lay = sb ++ [s2; s1] ->
    length sb = length bsh -> q < nelem bsh ->
    batch_left buf (loffset lay) (lshape lay) (lstrides lay) bsh q i k
    = nth_error buf (addr lay (bidx bsh (unravel bsh q) ++ [i; k]))).
  { intros lay buf x y sb s2 s1 q i k S1 S2 S3 Q. unfold batch_left. rewrite c_unravel_spec by auto. cbn [obind].
    assert (V := unravel_valid bsh q Q). assert (VL := valid_length _ _ V).
    unfold batch_address. rewrite S1. rewrite kernel_batch by lia.
    rewrite (addr_batch lay sb s2 s1) by (auto; rewrite bidx_length; lia).
    assert (LE : length (bsh ++ [x; y]) = length (sb ++ [s2; s1])) by (rewrite !app_length; cbn; lia).
    rewrite LE, S2. destruct (last2 sb s2 s1) as [P1 P2].
    apply nth_error_nth with (d := 0) in P1. apply nth_error_nth with (d := 0) in P2. rewrite P1, P2. reflexivity. }
  destruct (full_result zero mac L lefts rights (repeat None (length out)) (sched L)
    (fun q => a (unravel bsh q)) (fun q => b (unravel bsh q))) as [R1 R2]; cbn [tile side wide high deep rows inner cols left right L]; auto; try lia.
  - rewrite repeat_length, Hout, (nelem_mn A zero add mul). reflexivity.
  - intros q i k Q I Hk. rewrite (ADDR l lhs M K lsb l2 l1) by auto. apply Ha; auto. now apply unravel_valid.
  - intros q k j Q Hk J. rewrite (ADDR r rhs K N rsb r2 r1) by auto. apply Hb; auto. now apply unravel_valid.
  - rewrite Hout, (nelem_mn A zero add mul). apply (FIN L); auto.
  - set (res := result _) in *. cbn [rows cols deep inner L] in R2.
    assert (ER2 : res = map Some (bprod A zero add mul bsh M K N a b)).
    { apply list_ext. intros p. unfold bprod. destruct (Nat.lt_ge_cases p (nelem (bsh ++ [M; N]))) as [Hp|Hp].
      - rewrite map_map. rewrite nth_error_map_seq by auto.
        destruct (idx_split A zero add mul bsh M N p Hp) as (P1 & P2 & P3 & P4).
        assert (N0 : N <> 0) by (intro X; subst; lia). assert (MN0 : M * N <> 0) by lia.
        assert (EP : p = p / (M * N) * (M * N) + p mod (M * N) / N * N + (p mod (M * N)) mod N).
        { assert (D1 := Nat.div_mod p (M * N) MN0). assert (D2 := Nat.div_mod (p mod (M * N)) N N0). lia. }
        rewrite EP at 1. rewrite R2 by auto. f_equal. f_equal. unfold psum.
        apply fold_mac.
      - rewrite !(proj2 (nth_error_None _ p)); auto.
        + rewrite !map_length, seq_length. auto.
        + rewrite R1, repeat_length, Hout. auto. }
    rewrite ER2. apply all_some_map.
Qed.
End Q.
