(** Proofs about the BLAS-backed kernels and the tensor-level products. *)
From Coq Require Import List Arith ZArith Lia Bool ZifyBool.
From Verif Require Import Base IndexSpec LayoutModel ViewSpec LayoutProofs BcastProofs.
From Verif Require Import KernelModel TensorModel TensorSpec KernelProofs TensorProofs ElementwiseProofs.
From Verif Require Import ReduceModel ReduceSpec ReduceProofs ReduceProofs2 ScanModel MoveProofs MatrixModel GridProofs MatrixProofs MatrixProofs2.
Import ListNotations.

(** [r] is the sum, in increasing order of [k], of the products of the elements
    of [a] at [ia k] and of [b] at [ib k] *)
Definition dot_at {A} (zero : A) (add mul : A -> A -> A) (a b : tensor A) (ia ib : nat -> list nat) (K : nat)
    (r : option A) : Prop :=
  exists fa fb, (forall k, k < K -> elem a (ia k) = Some (fa k)) /\ (forall k, k < K -> elem b (ib k) = Some (fb k)) /\
    r = Some (fold_left (fun acc k => add acc (mul (fa k) (fb k))) (seq 0 K) zero).

(** strides for which the leading dimension passed to BLAS describes the matrix *)
Definition blas_ok (rows cols srow scol : nat) : Prop :=
  if scol =? 1 then cols <= srow \/ rows <= 1
  else if srow =? 1 then rows <= scol \/ cols <= 1
  else True.

Lemma nth_error_firstn' : forall A (l : list A) n k, k < n -> nth_error (firstn n l) k = nth_error l k.
Proof. intros A l n. revert l. induction n as [|n IH]; intros [|x l] [|k] H; try lia; auto. cbn. apply IH. lia. Qed.

Lemma loop_store : forall A co n s (f : nat -> option A) g out, (forall p, s <= p < s + n -> f p = Some (g p)) ->
  co + s + n <= length out ->
  loopO (fun p out => let? v := f p in c_store out (co + p) v) (seq s n) out =
  Some (firstn (co + s) out ++ map g (seq s n) ++ skipn (co + s + n) out).
Proof.
  intros A co n. induction n as [|n IH]; intros s f g out Hf Hl.
  - cbn. rewrite Nat.add_0_r, firstn_skipn. reflexivity.
  - cbn [seq loopO]. rewrite Hf by lia. cbn [obind]. unfold c_store. replace (co + s <? length out) with true by lia.
    cbn [obind]. rewrite (IH (S s) f g); [|intros; apply Hf; lia|rewrite upd_length; lia]. f_equal.
    assert (E1 : firstn (co + S s) (upd out (co + s) (g s)) = firstn (co + s) out ++ [g s]).
    { apply list_ext. intros q. destruct (Nat.lt_ge_cases q (co + S s)) as [Hq|Hq].
      - rewrite nth_error_firstn' by auto. rewrite nth_error_upd.
        destruct (Nat.eq_dec q (co + s)) as [->|Hne].
        + rewrite Nat.eqb_refl. replace (co + s <? length out) with true by lia.
          rewrite nth_error_app2 by (rewrite firstn_length; lia). rewrite firstn_length.
          replace (co + s - Nat.min (co + s) (length out)) with 0 by lia. reflexivity.
        + replace (co + s =? q) with false by lia. cbn [andb].
          rewrite nth_error_app1 by (rewrite firstn_length; lia). now rewrite nth_error_firstn' by lia.
      - rewrite !(proj2 (nth_error_None _ q)); auto; rewrite ?app_length, ?firstn_length, ?upd_length; cbn [length]; lia. }
    assert (E2 : skipn (co + S s + n) (upd out (co + s) (g s)) = skipn (co + s + S n) out).
    { replace (co + S s + n) with (co + s + S n) by lia. apply list_ext. intros q. rewrite !nth_error_skipn', nth_error_upd.
      replace (co + s =? co + s + S n + q) with false by lia. reflexivity. }
    rewrite E1, E2. cbn [map]. now rewrite <- !app_assoc.
Qed.

Lemma bstr_tail : forall p t s rd x y u v r, broadcast_strides rd (p ++ [x; y]) (t ++ [x; y]) (s ++ [u; v]) = Ok r ->
  rd + length s = length p -> length p = length t -> exists q, r = q ++ [u; v] /\ length q = length t.
Proof.
  induction p as [|a p IH]; intros [|c t] s rd x y u v r H L1 L2; try discriminate.
  - assert (rd = 0 /\ s = []) as [-> ->] by (cbn in L1; split; [lia|destruct s; auto; cbn in L1; lia]).
    cbn in H. rewrite !Nat.eqb_refl in H. cbn in H. inversion H. exists []. auto.
  - cbn [app broadcast_strides] in H. cbn [length] in L1, L2. destruct rd as [|rd].
    + destruct s as [|w s]; [cbn in L1; lia|]. cbn [app] in H. cbn [length] in L1.
      destruct (a =? c).
      * destruct (broadcast_strides 0 (p ++ [x; y]) (t ++ [x; y]) (s ++ [u; v])) as [q| |] eqn:E; try discriminate.
        apply IH in E; [|lia|lia]. destruct E as [q' [-> Lq]]. inversion H. exists (w :: q'). cbn. auto.
      * destruct (a =? 1); [|discriminate].
        destruct (broadcast_strides 0 (p ++ [x; y]) (t ++ [x; y]) (s ++ [u; v])) as [q| |] eqn:E; try discriminate.
        apply IH in E; [|lia|lia]. destruct E as [q' [-> Lq]]. inversion H. exists (0 :: q'). cbn. auto.
    + destruct ((a =? c) || (a =? 1)); [|discriminate].
      destruct (broadcast_strides rd (p ++ [x; y]) (t ++ [x; y]) (s ++ [u; v])) as [q| |] eqn:E; try discriminate.
      apply IH in E; [|lia|lia]. destruct E as [q' [-> Lq]]. inversion H. exists (0 :: q'). cbn. auto.
Qed.

Lemma compute_strides_tail : forall s x y, exists q, compute_strides (s ++ [x; y]) = q ++ [y; 1] /\ length q = length s.
Proof.
  induction s as [|d s IH]; intros x y.
  - exists []. split; auto. cbn [app]. rewrite !compute_strides_cons, nelem_cons. change (nelem []) with 1.
    change (compute_strides []) with (@nil nat). now rewrite Nat.mul_1_r.
  - destruct (IH x y) as [q [E L]]. exists (nelem (s ++ [x; y]) :: q). cbn [app]. rewrite compute_strides_cons, E. cbn. auto.
Qed.

(** matrices broadcast along batch axes keep their last two strides *)
Lemma broadcast_tail : forall A (z : A) t lb bsh x y t', good t -> tshape t = lb ++ [x; y] ->
  t_broadcast z t (bsh ++ [x; y]) = Ok t' -> exists q, lstrides (tlay t') = q ++ [y; 1] /\ length q = length bsh.
Proof.
  intros A z t lb bsh x y t' Hg Hs H.
  destruct (t_contiguous_spec A z t Hg) as [c [Hc [Hgc [Hsh [Hcc _]]]]].
  unfold t_broadcast in H. rewrite (t_view_unfold A z _ t c Hg Hc) in H.
  destruct (apply_view (tlay c) (VBroadcast (bsh ++ [x; y]))) as [l| |] eqn:Ev; try discriminate.
  cbn [bind] in H. inversion H; subst t'. clear H. cbn [tlay].
  unfold apply_view, broadcast_to in Ev. change (lshape (tlay c)) with (tshape c) in Ev. rewrite Hsh, Hs in Ev.
  destruct (length (bsh ++ [x; y]) <? length (lb ++ [x; y])) eqn:EL; [discriminate|].
  rewrite !app_length in *. cbn [length] in *.
  apply is_contiguous_iff in Hcc; [|apply Hgc]. rewrite Hcc in Ev. change (lshape (tlay c)) with (tshape c) in Ev.
  rewrite Hsh, Hs in Ev. destruct (compute_strides_tail lb x y) as [q [E L]]. rewrite E in Ev.
  rewrite app_assoc in Ev.
  destruct (broadcast_strides _ _ _ _) as [st| |] eqn:EB in Ev; try discriminate. inversion Ev. cbn [lstrides].
  apply bstr_tail in EB; [exact EB| |]; rewrite app_length, repeat_length; lia.
Qed.

Section P.
Variables (A : Type) (zero : A) (add mul : A -> A -> A).
Section B.
Variables (lhs rhs : list A).

Lemma gemm_spec : forall (ta tb : bool) M N K ao lda bo ldb co (a b : nat -> nat -> A) out,
  1 <= K -> co + M * N <= length out ->
  (if ta then M else K) <= lda -> (if tb then K else N) <= ldb ->
  (forall i k, i < M -> k < K -> nth_error lhs (ao + (if ta then k * lda + i else i * lda + k)) = Some (a i k)) ->
  (forall k j, k < K -> j < N -> nth_error rhs (bo + (if tb then j * ldb + k else k * ldb + j)) = Some (b k j)) ->
  gemm zero add mul lhs rhs ta tb M N K ao lda bo ldb co out =
  Some (firstn co out ++ prod_buf A zero add mul M K N a b ++ skipn (co + M * N) out).
Proof.
  intros ta tb M N K ao lda bo ldb co a b out HK Hl H1 H2 Ha Hb. unfold gemm.
  destruct (Nat.eqb_spec (M * N) 0) as [E|E].
  - unfold prod_buf. rewrite E. cbn. now rewrite Nat.add_0_r, firstn_skipn.
  - assert (M <> 0 /\ N <> 0) as [M0 N0] by (split; intro; subst; lia).
    replace (lda <? Nat.max 1 (if ta then M else K)) with false by (destruct ta; lia).
    replace (ldb <? Nat.max 1 (if tb then K else N)) with false by (destruct tb; lia). cbn [orb].
    set (F := fun p => dot_cell zero add mul lhs rhs K (fun k => ao + (if ta then k * lda + p / N else p / N * lda + k))
                              (fun k => bo + (if tb then p mod N * ldb + k else k * ldb + p mod N))).
    assert (R := loop_store A co (M * N) 0 F (fun p => psum A zero add mul a b (p / N) (p mod N) K) out).
    unfold F in R. cbv zeta in R |- *. rewrite R; [rewrite !Nat.add_0_r; reflexivity| |lia].
    intros p Hp. assert (P1 : p / N < M) by (apply Nat.div_lt_upper_bound; lia).
    assert (P2 : p mod N < N) by (apply Nat.mod_upper_bound; auto).
    apply (dot_cell_spec A zero add mul lhs rhs K _ _ (fun k => a (p / N) k) (fun k => b k (p mod N))); auto.
Qed.

Lemma blas_form_reads : forall rows cols srow scol (t : bool) ld off (buf : list A) (f : nat -> nat -> A), 
  blas_ok rows cols srow scol -> blas_form rows cols srow scol = Some (t, ld) ->
  (forall i k, i < rows -> k < cols -> nth_error buf (off + i * srow + k * scol) = Some (f i k)) ->
  (if t then rows else cols) <= ld /\
  forall i k, i < rows -> k < cols -> nth_error buf (off + (if t then k * ld + i else i * ld + k)) = Some (f i k).
Proof.
  intros rows cols srow scol t ld off buf f Hok Hf H. unfold blas_ok in Hok. unfold blas_form in Hf.
  destruct (Nat.eqb_spec scol 1) as [E|E].
  - inversion Hf; subst t ld. split; [destruct (srow <? cols) eqn:X; lia|]. intros i k Hi Hk. rewrite <- (H i k Hi Hk).
    f_equal. destruct (srow <? cols) eqn:X; [|subst; lia]. assert (i = 0) by lia. subst. lia.
  - destruct (Nat.eqb_spec srow 1) as [E'|E']; [|discriminate].
    inversion Hf; subst t ld. split; [destruct (scol <? rows) eqn:X; lia|]. intros i k Hi Hk. rewrite <- (H i k Hi Hk).
    f_equal. destruct (scol <? rows) eqn:X; [|subst; lia]. assert (k = 0) by lia. subst. lia.
Qed.

Lemma dot_blas_spec : forall e M K N lsm lsk rsk rsn lo ro (a b : nat -> nat -> A) out, mat_env_ok e -> 1 <= K ->
  blas_ok M K lsm lsk -> blas_ok K N rsk rsn ->
  (forall i k, i < M -> k < K -> nth_error lhs (lo + i * lsm + k * lsk) = Some (a i k)) ->
  (forall k j, k < K -> j < N -> nth_error rhs (ro + k * rsk + j * rsn) = Some (b k j)) ->
  length out = M * N ->
  dot_blas zero add mul lhs rhs e out [M; K; N; lsm; lsk; rsk; rsn; lo; ro] = Some (prod_buf A zero add mul M K N a b).
Proof.
  intros e M K N lsm lsk rsk rsn lo ro a b out He HK O1 O2 Ha Hb Hl. unfold dot_blas. cbn [nth_error obind].
  destruct (blas_form M K lsm lsk) as [[ta lda]|] eqn:F1; [destruct (blas_form K N rsk rsn) as [[tb ldb]|] eqn:F2|].
  - destruct (blas_form_reads M K lsm lsk ta lda lo lhs a O1 F1 Ha) as [L1 R1].
    destruct (blas_form_reads K N rsk rsn tb ldb ro rhs b O2 F2 Hb) as [L2 R2].
    rewrite (gemm_spec ta tb M N K lo lda ro ldb 0 a b); auto; [|lia].
    rewrite Nat.add_0_l, skipn_all2 by lia. cbn [firstn app]. now rewrite app_nil_r.
  - now apply dot_kernel_spec.
  - now apply dot_kernel_spec.
Qed.

Lemma map_seq_shift : forall B (f : nat -> B) n s, map f (seq s n) = map (fun p => f (s + p)) (seq 0 n).
Proof.
  intros B f n s. apply list_ext. intro k. destruct (Nat.lt_ge_cases k n) as [H|H].
  - rewrite !nth_error_map, !nth_error_seq by auto. reflexivity.
  - rewrite !(proj2 (nth_error_None _ k)); auto; rewrite map_length, seq_length; lia.
Qed.

(** the BLAS-backed batched kernel, with at most one batch axis *)
Lemma matmul_blas_spec : forall e (l r : layout) bsh M K N (a b : list nat -> nat -> nat -> A) out,
  mat_env_ok e -> wf_layout l -> wf_layout r -> lshape l = bsh ++ [M; K] -> lshape r = bsh ++ [K; N] ->
  length bsh <= 1 -> 1 <= K ->
  (exists q, lstrides l = q ++ [K; 1] /\ length q = length bsh) -> (exists q, lstrides r = q ++ [N; 1] /\ length q = length bsh) ->
  (forall bi i k, valid bsh bi -> i < M -> k < K -> nth_error lhs (addr l (bidx bsh bi ++ [i; k])) = Some (a bi i k)) ->
  (forall bi k j, valid bsh bi -> k < K -> j < N -> nth_error rhs (addr r (bidx bsh bi ++ [k; j])) = Some (b bi k j)) ->
  length out = nelem (bsh ++ [M; N]) ->
  matmul_blas zero add mul lhs rhs e out (matmul_metadata l r bsh M K N) = Some (bprod A zero add mul bsh M K N a b).
Proof.
  intros e l r bsh M K N a b out He Wl Wr El Er L1 HK [ql [EL LL]] [qr [ER LR]] Ha Hb Hout.
  destruct (matmul_md l r bsh M K N Wl Wr) as (M0 & M1 & M2 & M3 & M4 & M5 & M6 & M7 & M8 & M9 & M10 & M11 & M12 & M13).
  unfold matmul_blas. set (md := matmul_metadata l r bsh M K N) in *. clearbody md.
  rewrite M1, M2, M3. cbn [obind]. rewrite M4. cbn [obind]. rewrite M5. cbn [obind]. rewrite M6. cbn [obind].
  rewrite M7. cbn [obind]. rewrite M8. cbn [obind]. cbv zeta. rewrite M9. cbn [obind]. rewrite M10. cbn [obind].
  rewrite M11. cbn [obind]. rewrite M12. cbn [obind]. rewrite M13. cbn [obind].
  assert (ELN : length (lshape l) = length (lstrides l)) by (symmetry; exact Wl).
  assert (ERN : length (lshape r) = length (lstrides r)) by (symmetry; exact Wr).
  assert (X1 : nth_error (lstrides l) (length (lshape l) - 1) = Some 1) by (rewrite ELN, EL; apply last2).
  assert (X2 : nth_error (lstrides l) (length (lshape l) - 2) = Some K) by (rewrite ELN, EL; apply last2).
  assert (Y1 : nth_error (lstrides r) (length (lshape r) - 1) = Some 1) by (rewrite ERN, ER; apply last2).
  assert (Y2 : nth_error (lstrides r) (length (lshape r) - 2) = Some N) by (rewrite ERN, ER; apply last2).
  rewrite X1. cbn [obind]. rewrite Y1. cbn [obind]. rewrite X2. cbn [obind]. rewrite Y2. cbn [obind].
  unfold blas_form. cbn [Nat.eqb]. rewrite !Nat.ltb_irrefl.
  destruct bsh as [|B [|? ?]]; [| |cbn in L1; lia]; cbn [length Nat.eqb].
  - assert (V0 : valid [] []) by exact I.
    assert (NE : nelem ([] ++ [M; N]) = M * N) by (rewrite nelem_app, !nelem_cons; change (nelem []) with 1; lia).
    rewrite (gemm_spec false false M N K (loffset l) K (loffset r) N 0 (a []) (b [])); auto; [|lia| |].
    + rewrite Nat.add_0_l, skipn_all2 by lia. cbn [firstn app]. rewrite app_nil_r. f_equal.
      unfold bprod, prod_buf. rewrite NE. apply map_ext_in. intros p Hp. apply in_seq in Hp. rewrite (Nat.mod_small p (M * N)) by lia. reflexivity.
    + intros i k Hi Hk. rewrite <- (Ha [] i k V0 Hi Hk). f_equal. rewrite (addr_batch l ql K 1); auto.
      cbn [bidx combine map flat_index]. lia.
    + intros k j Hk Hj. rewrite <- (Hb [] k j V0 Hk Hj). f_equal. rewrite (addr_batch r qr N 1); auto.
      cbn [bidx combine map flat_index]. lia.
  - cbn [length] in LL, LR. destruct ql as [|sl [|? ?]]; try discriminate. destruct qr as [|sr [|? ?]]; try discriminate.
    assert (NE : nelem ([B] ++ [M; N]) = B * (M * N)) by (rewrite nelem_app, !nelem_cons; change (nelem []) with 1; lia).
    rewrite NE in Hout. change (shape_size [B]) with (nelem [B]). rewrite nelem_cons. change (nelem []) with 1. rewrite Nat.mul_1_r.
    set (F := fun idx => psum A zero add mul (a (unravel [B] (idx / (M * N)))) (b (unravel [B] (idx / (M * N))))
         ((idx mod (M * N)) / N) ((idx mod (M * N)) mod N) K).
    assert (BL : forall s, s < B -> blas_batch [B] (lshape l) (lstrides l) (length (lshape l)) 1 s = Some ((if B =? 1 then 0 else s) * sl)).
    { intros s Hs. rewrite El, EL. cbn. replace (B =? 0) with false by lia. cbn. destruct B; [lia|]. 
      rewrite Nat.mod_small by lia. now rewrite Nat.add_0_r. }
    assert (BR : forall s, s < B -> blas_batch [B] (lshape r) (lstrides r) (length (lshape r)) 1 s = Some ((if B =? 1 then 0 else s) * sr)).
    { intros s Hs. rewrite Er, ER. cbn. replace (B =? 0) with false by lia. cbn. destruct B; [lia|]. 
      rewrite Nat.mod_small by lia. now rewrite Nat.add_0_r. }
    assert (G : forall n s out0, s + n <= B -> length out0 = B * (M * N) -> firstn (s * (M * N)) out0 = map F (seq 0 (s * (M * N))) ->
      exists out1, loopO (fun batch out =>
           let? bl := blas_batch [B] (lshape l) (lstrides l) (length (lshape l)) 1 batch in
           let? br := blas_batch [B] (lshape r) (lstrides r) (length (lshape r)) 1 batch in
           gemm zero add mul lhs rhs false false M N K (loffset l + bl) K (loffset r + br) N (batch * (M * N)) out) (seq s n) out0
        = Some out1 /\ length out1 = B * (M * N) /\ firstn ((s + n) * (M * N)) out1 = map F (seq 0 ((s + n) * (M * N)))).
    { induction n as [|n IH]; intros s out0 Hs Ho Hf.
      - exists out0. rewrite Nat.add_0_r. cbn. auto.
      - cbn [seq loopO]. rewrite BL, BR by lia. cbn [obind].
        assert (V : valid [B] [s]) by (cbn; lia).
        assert (BI : bidx [B] [s] = [if B =? 1 then 0 else s]) by reflexivity.
        rewrite (gemm_spec false false M N K _ K _ N (s * (M * N)) (a [s]) (b [s])); auto; [|nia| |].
        + cbn [obind].
          assert (FN : length (firstn (s * (M * N)) out0) = s * (M * N)) by (rewrite firstn_length; nia).
          assert (PN : length (prod_buf A zero add mul M K N (a [s]) (b [s])) = M * N)
            by (unfold prod_buf; now rewrite map_length, seq_length).
          assert (SN : length (skipn (s * (M * N) + M * N) out0) = B * (M * N) - (s * (M * N) + M * N)) by (rewrite skipn_length, Ho; auto).
          replace (s + S n) with (S s + n) by lia.
          apply IH.
          * lia.
          * rewrite !app_length, FN, PN, SN. nia.
          * replace (S s * (M * N)) with (s * (M * N) + M * N) by lia. rewrite app_assoc.
            replace (s * (M * N) + M * N) with (length (firstn (s * (M * N)) out0 ++ prod_buf A zero add mul M K N (a [s]) (b [s]))) at 1
              by (rewrite app_length, FN, PN; auto).
            rewrite firstn_app, Nat.sub_diag, firstn_all. cbn [firstn]. rewrite app_nil_r, Hf, seq_app, map_app. f_equal.
            cbn [Nat.add]. rewrite (map_seq_shift _ F). unfold prod_buf. apply map_ext_in. intros p Hp. apply in_seq in Hp.
            assert (N0 : M * N <> 0) by lia. unfold F.
            assert (E1 : (s * (M * N) + p) / (M * N) = s).
            { rewrite Nat.add_comm, Nat.div_add by auto. rewrite Nat.div_small by lia. lia. }
            assert (E2 : (s * (M * N) + p) mod (M * N) = p).
            { rewrite Nat.add_comm, Nat.mod_add by auto. apply Nat.mod_small. lia. }
            rewrite E1, E2. assert (EU : unravel [B] s = [s]).
            { cbn. change (nelem []) with 1. rewrite Nat.div_1_r. f_equal. } now rewrite EU.
        + intros i k Hi Hk. rewrite <- (Ha [s] i k V Hi Hk), BI. f_equal. rewrite (addr_batch l [sl] K 1); auto.
          rewrite EL. cbn [app flat_index]. destruct (B =? 1); lia.
        + intros k j Hk Hj. rewrite <- (Hb [s] k j V Hk Hj), BI. f_equal. rewrite (addr_batch r [sr] N 1); auto.
          rewrite ER. cbn [app flat_index]. destruct (B =? 1); lia. }
    destruct (G B 0 out) as [o1 [E1 [E2 E3]]]; auto.
    rewrite E1. f_equal. unfold bprod. rewrite NE. cbn [Nat.add] in E3. rewrite firstn_all2 in E3 by lia. exact E3.
Qed.
End B.
End P.
