From Coq Require Import List Arith ZArith Bool Lia Permutation.
From Verif Require Import Base IndexSpec LayoutModel KernelModel TensorModel TensorSpec SortProofs TileSpec TileProofs4 EncodeModel EncodeProofs LinModel LinProofs4 LaunchModel LaunchSpec LaunchProofs CudaTopkModel CudaTopkProofs CudaLinModel.
Import ListNotations.
Local Open Scope nat_scope.

Lemma map_opt_inv : forall X Y (f : X -> option Y) l ys, map_opt f l = Some ys ->
  (forall x, In x l -> exists y, f x = Some y /\ In y ys) /\
  forall d, ys = map (fun x => match f x with Some y => y | None => d end) l.
Proof.
  intros X Y f. induction l as [|x l IH]; intros ys H; [injection H as <-; split; [contradiction|reflexivity]|].
  cbn [map_opt] in H. destruct (f x) as [y|] eqn:F; [|discriminate]. cbn [obind] in H.
  destruct (map_opt f l) as [zs|]; [|discriminate]. cbn [obind] in H. injection H as <-.
  destruct (IH zs eq_refl) as [I1 I2]. split.
  - intros a [<-|I]; [exists y; split; [exact F|now left]|]. destruct (I1 a I) as (w & W & J). exists w. split; [exact W|now right].
  - intro d. cbn [map]. rewrite F. f_equal. apply I2.
Qed.

Section Same.
Context {A T : Type} (sched : nat -> list nat) (conv : A -> T) (down : T -> A) (zero : T).
Hypothesis EN : forall n, over (execute Once n (sched n)).

Lemma in_blocks : forall B (cells : nat -> list B) k w ids q u, (forall t, In t ids -> length (cells t) = w) ->
  In (q, u) (flat_map (fun t => combine (seq (t * k) w) (cells t)) ids) <->
  exists t i, In t ids /\ i < w /\ q = t * k + i /\ nth_error (cells t) i = Some u.
Proof.
  intros B cells k w ids q u L. rewrite in_flat_map. split.
  - intros (t & It & I). apply In_nth_error in I. destruct I as [i I]. rewrite nth_error_combine' in I.
    destruct (nth_error (seq (t * k) w) i) as [a|] eqn:Ea; [|discriminate].
    destruct (nth_error (cells t) i) as [b|] eqn:Eb; [|discriminate]. injection I as <- <-.
    assert (Li : i < w) by (rewrite <- (L t It); apply nth_error_Some; congruence).
    rewrite nth_error_seq in Ea by exact Li. injection Ea as <-. exists t, i. auto.
  - intros (t & i & It & Li & -> & C). exists t. split; [exact It|]. apply nth_error_In with i.
    rewrite nth_error_combine', nth_error_seq, C by exact Li. reflexivity.
Qed.
(** [k] threads, each writing its [size] values at its place *)
Lemma blocks_same : forall k size (g : nat -> list T) ids, Permutation ids (seq 0 k) -> (forall b, b < k -> length (g b) = size) ->
  all_some (stored (concat (map (fun b => combine (seq (b * size) size) (map (fun x => Some (down x)) (g b))) ids)) (repeat None (k * size)))
  = Some (map down (concat (map g (seq 0 k)))).
Proof.
  intros k size g ids P L. set (ws := concat _).
  assert (IN : forall b, In b ids <-> b < k).
  { intro b. split; intro H; [apply (Permutation_in _ P) in H; apply in_seq in H; lia|apply (Permutation_in _ (Permutation_sym P)); apply in_seq; lia]. }
  assert (W : forall q u, In (q, u) ws <-> exists b i, b < k /\ i < size /\ q = b * size + i /\ nth_error (map (fun x => Some (down x)) (g b)) i = Some u).
  { intros q u. unfold ws. rewrite <- flat_map_concat_map.
    rewrite (in_blocks _ (fun b => map (fun x => Some (down x)) (g b)) size size ids).
    - split; intros (b & i & I & R); exists b, i; (split; [now apply IN|exact R]).
    - intros b I. rewrite map_length. apply L. now apply IN. }
  assert (FL : Forall (fun r => length r = size) (map g (seq 0 k))).
  { apply Forall_forall. intros r I. apply in_map_iff in I. destruct I as (b & <- & B). apply in_seq in B. apply L. lia. }
  assert (LC : length (concat (map g (seq 0 k))) = k * size).
  { assert (X : forall l, Forall (fun r => length r = size) (map g l) -> length (concat (map g l)) = length l * size).
    { clear. induction l as [|b l IH]; intro F; [reflexivity|]. cbn [map] in F. inversion F; subst.
      cbn [map concat length]. rewrite app_length, IH by assumption. lia. }
    rewrite (X _ FL). now rewrite seq_length. }
  rewrite <- (all_some_map _ (map down (concat (map g (seq 0 k))))). f_equal. apply list_ext. intro q.
  destruct (Nat.lt_ge_cases q (k * size)) as [Q|Q].
  - assert (S0 : 0 < size) by nia. pose proof (Nat.div_mod q size ltac:(lia)) as DM. pose proof (Nat.mod_upper_bound q size ltac:(lia)) as MB.
    assert (DO : q / size < k) by (apply Nat.div_lt_upper_bound; lia).
    set (b := q / size) in *. set (i := q mod size) in *. assert (E : q = b * size + i) by lia. clearbody b i. clear DM. subst q.
    rewrite !nth_error_map, (EncodeProofs.nth_error_concat _ _ size) by assumption.
    rewrite nth_error_map, nth_error_seq by exact DO. cbn [option_map Nat.add].
    destruct (nth_error (g b) i) as [x|] eqn:X; [|apply nth_error_None in X; rewrite L in X; lia]. cbn [option_map].
    apply stored_in.
    + now rewrite repeat_length.
    + apply W. exists b, i. repeat split; auto. now rewrite nth_error_map, X.
    + intros u I. apply W in I. destruct I as (b' & i' & B & I & Eq & U). assert (b' = b) by nia. subst b'. assert (i' = i) by lia. subst i'.
      rewrite nth_error_map, X in U. cbn in U. now injection U as <-.
  - rewrite (proj2 (nth_error_None _ q)) by (rewrite stored_length, repeat_length; exact Q). symmetry. apply nth_error_None. now rewrite !map_length, LC.
Qed.

Lemma linalg_same : forall (om om' : nat -> (nat -> nat -> T) -> option (list T)) size input l room r,
  (forall a xs, om (nth (length (lshape l) - 1) (lshape l) 0) a = Some xs ->
     length xs = size /\ om' (nth (length (lshape l) - 1) (lshape l) 0) a = Some xs) ->
  room = batch_count (firstn (length (lshape l) - 2) (lshape l)) * size ->
  (Z.of_nat (batch_count (firstn (length (lshape l) - 2) (lshape l))) < 2 ^ 32)%Z ->
  linalg_kernel zero om size (map conv input) l room = Some r ->
  cuda_linalg sched conv down zero given_args om' size input l room = Some (map down r).
Proof.
  intros om om' size input l room r H R N K. unfold linalg_kernel in K. unfold cuda_linalg. rewrite Nat.eqb_refl. cbn [negb].
  set (n := nth _ (lshape l) 0) in *. set (count := batch_count _) in *.
  match type of K with obind (map_opt ?h _) _ = _ => set (F := h) in K; destruct (map_opt F (seq 0 count)) as [rs|] eqn:M; [|discriminate] end.
  cbn [obind] in K. rewrite R, Nat.ltb_irrefl in *. injection K as <-.
  destruct (map_opt_inv _ _ _ _ _ M) as [M1 M2].
  pose proof (once_once count (sched count) N (EN count)) as P. unfold each_once in P. set (ids := log _) in *. clearbody ids.
  set (g := fun b => match F b with Some y => y | None => [] end).
  assert (G : forall b, b < count -> F b = Some (g b) /\ length (g b) = size).
  { intros b B. destruct (M1 b) as (y & Y & _); [apply in_seq; lia|]. unfold g. rewrite Y. split; [reflexivity|].
    unfold F in Y. destruct (batch_start _ _ _ b) as [st|]; [|discriminate]. cbn [obind] in Y.
    destruct (get_matrix _ _ _ _ _ st) as [a|]; [|discriminate]. cbn [obind] in Y. now apply (H a). }
  rewrite (map_opt_ok _ _ _ (fun b => combine (seq (b * size) size) (map (fun x => Some (down x)) (g b)))).
  - cbn [obind]. rewrite (M2 []). apply blocks_same; [exact P|]. intros b B. now apply G.
  - intros b B. apply (Permutation_in _ P) in B. apply in_seq in B. destruct (G b ltac:(lia)) as [Y _].
    unfold F in Y. destruct (batch_start _ _ _ b) as [st|]; [|discriminate]. cbn [obind] in *.
    destruct (get_matrix _ _ _ _ _ st) as [a|]; [|discriminate]. cbn [obind] in *.
    destruct (H a _ Y) as [_ Y']. rewrite Y'. reflexivity.
Qed.
Lemma linalg_none : forall params (om : nat -> (nat -> nat -> T) -> option (list T)) size input l room,
  (Z.of_nat (batch_count (firstn (length (lshape l) - 2) (lshape l))) < 2 ^ 32)%Z ->
  (forall a, om (nth (length (lshape l) - 1) (lshape l) 0) a = None) ->
  cuda_linalg sched conv down zero params om size input l room = None.
Proof.
  intros params om size input l room N H. unfold cuda_linalg. destruct (negb _); [reflexivity|].
  set (count := batch_count _) in *. assert (C : 0 < count) by (unfold count, batch_count; destruct (Nat.eqb_spec (fold_right Nat.mul 1 (firstn (length (lshape l) - 2) (lshape l))) 0); lia).
  pose proof (once_once count (sched count) N (EN count)) as P. unfold each_once in P. destruct (log _) as [|b ids].
  - apply Permutation_length in P. rewrite seq_length in P. cbn in P. lia.
  - cbn [map_opt]. destruct (batch_start _ _ _ b); [|reflexivity]. cbn [obind]. destruct (get_matrix _ _ _ _ _ _); [|reflexivity]. cbn [obind]. now rewrite H.
Qed.
End Same.

Section Ops.
Context {A T : Type} (sched : nat -> list nat) (conv : A -> T) (down : T -> A).
Variables (zero one : T) (add sub mul : T -> T -> T) (div : T -> T -> option T) (neg : T -> T) (lt : T -> T -> bool) (tiny : T -> bool).
Hypothesis EN : forall n, over (execute Once n (sched n)).

Lemma lu_same : neg zero = zero -> forall n ks lu swaps d,
  cuda_lu_loop zero sub mul div neg lt tiny n ks lu swaps d = lu_loop zero sub mul div neg lt tiny n ks lu swaps d.
Proof.
  intros NZ n. induction ks as [|k ks IH]; intros lu swaps d; [reflexivity|]. cbn [cuda_lu_loop lu_loop].
  destruct (tiny _); [rewrite NZ; now destruct (Nat.odd _)|]. destruct (eliminate _ _ _ _ _ _ _); [|reflexivity]. cbn [obind]. apply IH.
Qed.
Lemma det_matrix_same : forall n a, n <= 16 -> (n <= 3 /\ n <> 0 \/ neg zero = zero) ->
  cuda_det_matrix zero one add sub mul div neg lt tiny n a = det_matrix zero one add sub mul div neg lt tiny n a.
Proof.
  intros n a N C. destruct n as [|[|[|[|n]]]]; try reflexivity.
  unfold cuda_det_matrix, det_matrix. destruct (Nat.ltb_spec 16 (S (S (S (S n))))) as [B|_]; [lia|]. apply lu_same. destruct C as [[C _]|C]; [lia|exact C].
Qed.

(** the room of the result is what the matrices need, unless there are none *)
Lemma batch_room : forall s, square s = true -> nelem (batch_shape s) <> 0 ->
  shape_size (batch_shape s) = batch_count (firstn (length s - 2) s).
Proof.
  intros s Q Z0. unfold batch_shape in *. unfold square in Q. apply andb_prop in Q. destruct Q as [Q _]. apply Nat.leb_le in Q.
  change shape_size with nelem. unfold batch_count. destruct (length s =? 2) eqn:E.
  - apply Nat.eqb_eq in E. rewrite E. reflexivity.
  - change (fold_right Nat.mul 1) with nelem. now rewrite (proj2 (Nat.eqb_neq _ _) Z0).
Qed.
Lemma t_det_same : forall dt (t : tensor A) r, cuda_linalgs dt = true -> nth (length (tshape t) - 1) (tshape t) 0 <= 16 ->
  (nth (length (tshape t) - 1) (tshape t) 0 <= 3 /\ nth (length (tshape t) - 1) (tshape t) 0 <> 0 \/ neg zero = zero) ->
  nelem (tshape r) <> 0 -> (Z.of_nat (nelem (tshape r)) < 2 ^ 32)%Z ->
  t_det zero one add sub mul div neg lt tiny (mkT (map conv (tstore t)) (tlay t)) = Ok r ->
  cuda_t_det sched conv down zero one add sub mul div neg lt tiny dt t = Ok (mkT (map down (tstore r)) (tlay r)).
Proof.
  intros dt t r D N C Z0 CAP H. unfold t_det in H. cbn [tlay tstore] in H. unfold cuda_t_det. rewrite D. cbn [negb].
  change (lshape (tlay t)) with (tshape t) in *. destruct (square (tshape t)) eqn:Q; [|discriminate]. cbn [negb] in *.
  destruct (linalg_kernel _ _ _ _ _ _) as [st|] eqn:K; [|discriminate]. cbn [ub bind] in H. injection H as <-. cbn [tstore tlay].
  change (nelem (tshape _)) with (nelem (batch_shape (tshape t))) in Z0, CAP. pose proof (batch_room _ Q Z0) as BR.
  erewrite (linalg_same sched conv down zero EN); [reflexivity| | | |exact K].
  - intros a xs X. cbv beta in X |- *. change (lshape (tlay t)) with (tshape t) in *. rewrite det_matrix_same by assumption.
    split; [|exact X]. destruct (det_matrix _ _ _ _ _ _ _ _ _ _ _); [|discriminate]. cbn [obind] in X. now injection X as <-.
  - now rewrite BR, Nat.mul_1_r.
  - change (nelem (batch_shape (tshape t))) with (shape_size (batch_shape (tshape t))) in CAP. now rewrite BR in CAP.
Qed.
Lemma fold_mul_app : forall a b, nelem (a ++ b) = nelem a * nelem b.
Proof. induction a as [|x a IH]; intro b; [symmetry; apply Nat.mul_1_l|]. change (x * nelem (a ++ b) = x * nelem a * nelem b). rewrite IH. apply Nat.mul_assoc. Qed.
Lemma square_split : forall s, square s = true -> s = firstn (length s - 2) s ++ [nth (length s - 1) s 0; nth (length s - 1) s 0].
Proof.
  intros s Q. unfold square in Q. apply andb_prop in Q. destruct Q as [Q E]. apply Nat.leb_le in Q. apply Nat.eqb_eq in E.
  assert (L : length (skipn (length s - 2) s) = 2) by (rewrite skipn_length; lia).
  assert (X : forall i, nth i (skipn (length s - 2) s) 0 = nth (length s - 2 + i) s 0).
  { intro i. rewrite <- (firstn_skipn (length s - 2) s) at 4. rewrite app_nth2 by (rewrite firstn_length; lia). f_equal. rewrite firstn_length. lia. }
  rewrite <- (firstn_skipn (length s - 2) s) at 1. f_equal.
  destruct (skipn (length s - 2) s) as [|a [|b [|c l]]]; try discriminate.
  pose proof (X 0) as X0. pose proof (X 1) as X1. cbn [nth] in X0, X1. rewrite Nat.add_0_r in X0. replace (length s - 2 + 1) with (length s - 1) in X1 by lia.
  now rewrite X0, X1, E.
Qed.
Lemma t_inv_same : forall dt (t : tensor A) r, cuda_linalgs dt = true -> nth (length (tshape t) - 1) (tshape t) 0 <= 16 ->
  nelem (tshape r) <> 0 -> (Z.of_nat (nelem (tshape r)) < 2 ^ 32)%Z ->
  t_inv zero one add sub mul div neg lt (mkT (map conv (tstore t)) (tlay t)) = Ok r ->
  cuda_t_inv sched conv down zero one add sub mul div neg lt dt t = Ok (mkT (map down (tstore r)) (tlay r)).
Proof.
  intros dt t r D N Z0 CAP H. unfold t_inv in H. cbn [tlay tstore] in H. unfold cuda_t_inv. rewrite D. cbn [negb].
  change (lshape (tlay t)) with (tshape t) in *. destruct (square (tshape t)) eqn:Q; [|discriminate]. cbn [negb] in *. cbv zeta in H |- *.
  destruct (linalg_kernel _ _ _ _ _ _) as [st|] eqn:K; [|discriminate]. cbn [ub bind] in H. injection H as <-. cbn [tstore tlay].
  change (nelem (tshape _)) with (nelem (tshape t)) in Z0, CAP.
  set (n := nth (length (tshape t) - 1) (tshape t) 0) in *. pose proof (square_split _ Q) as SP. fold n in SP.
  assert (NE : nelem (tshape t) = nelem (firstn (length (tshape t) - 2) (tshape t)) * (n * n)).
  { rewrite SP at 1. rewrite fold_mul_app. change (nelem [n; n]) with (n * (n * 1)). now rewrite Nat.mul_1_r. }
  assert (BC : batch_count (firstn (length (tshape t) - 2) (tshape t)) = nelem (firstn (length (tshape t) - 2) (tshape t))).
  { unfold batch_count. change (fold_right Nat.mul 1) with nelem. destruct (Nat.eqb_spec (nelem (firstn (length (tshape t) - 2) (tshape t))) 0) as [E|E]; [rewrite E in NE; lia|reflexivity]. }
  erewrite (linalg_same sched conv down zero EN); [reflexivity| | | |exact K].
  - intros a xs X. cbv beta in X |- *. change (lshape (tlay t)) with (tshape t) in *. fold n in X |- *. unfold cuda_inv_matrix.
    destruct (Nat.ltb_spec 16 n) as [B|_]; [lia|]. split; [|exact X]. destruct (inv_matrix _ _ _ _ _ _ _ _ _ _) as [m|]; [|discriminate]. cbn [obind] in X. injection X as <-.
    now rewrite map_length, prod_length, seq_length.
  - change (lshape (tlay t)) with (tshape t). change shape_size with nelem. now rewrite BC.
  - change (lshape (tlay t)) with (tshape t). rewrite BC. assert (0 < n * n) by nia. nia.
Qed.
End Ops.
