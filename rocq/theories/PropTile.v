(** Property C132: matrix products on CUDA.  [dot_at zero add mul a b ia ib K r]
    is as in C36: [r] is the sum over [k < K], in increasing order, of the
    products of the elements. *)
From Coq Require Import List Arith ZArith Bool Lia Floats.SpecFloat.
From Verif Require Import Base IndexSpec LayoutModel ViewSpec LayoutProofs BcastProofs.
From Verif Require Import KernelModel TensorModel TensorSpec KernelProofs TensorProofs ElementwiseProofs.
From Verif Require Import ReduceModel ScanModel MatrixModel MatrixProofs MatrixProofs2 MatrixProofs3 MatrixProofs4.
From Verif Require Import TileModel TileSpec TileProofs TileProofs2 TileProofs3 TileProofs4.
Import ListNotations.

(** The batched product, under every schedule of the threads that comes to its
    end, whatever lay in the tiles and in the output buffer. *)
Theorem C132_batched_partial : forall A (zero : A) add mul mac z lefts rights sched (a b : tensor A) lb rb bsh M K N,
  (forall s x y, mac s x y = add s (mul x y)) -> (forall s, mac s zero zero = s) ->
  (forall c, length (lefts c) = 256) -> (forall c, length (rights c) = 256) ->
  completes zero mac lefts rights sched ->
  good a -> good b -> tshape a = lb ++ [M; K] -> tshape b = rb ++ [K; N] -> all_pos lb -> all_pos rb -> bcast lb rb bsh ->
  length bsh <= 16 -> (Z.of_nat (nelem bsh) <= 65535)%Z -> (Z.of_nat M <= 16 * 65535)%Z -> (Z.of_nat N < 2 ^ 32)%Z ->
  exists r, t_matmul_batched z (by_grid zero mac lefts rights sched) a b = Ok r /\ good r /\ tshape r = bsh ++ [M; N] /\
    forall bi i j, valid bsh bi -> i < M -> j < N ->
      dot_at zero add mul a b (fun k => bidx lb bi ++ [i; k]) (fun k => bidx rb bi ++ [k; j]) K (elem r (bi ++ [i; j])).
Proof.
  intros A zero add mul mac z lefts rights sched a b lb rb bsh M K N MI MZ LL LR C Ga Gb Sa Sb Pa Pb HB H16 NB BM BN.
  assert (PB : all_pos bsh) by (exact (bcast_all_pos _ _ _ HB Pa Pb)).
  apply batched_gen; auto. intros. eapply by_grid_spec; eauto.
Qed.
Print Assumptions C132_batched_partial.

(** Moving all threads in turn comes to the end. *)
Theorem C132_rounds : forall A (zero : A) mac lefts rights,
  (forall c, length (lefts c) = 256) -> (forall c, length (rights c) = 256) -> completes zero mac lefts rights in_rounds.
Proof. exact @in_rounds_completes. Qed.
Print Assumptions C132_rounds.

(** The threads never block each other for ever: whatever has happened, they can
    go on to the end, and only so many moves change anything. *)
Theorem C132_ends : forall A (zero : A) mac (l : launch A) lefts rights out,
  0 < side l <= tile l -> 0 < wide l -> 0 < high l ->
  (forall c, length (lefts c) = tile l * tile l) -> (forall c, length (rights c) = tile l * tile l) ->
  (forall sched, exists more, finished (run zero mac l (sched ++ more) (start zero l lefts rights out))) /\
  exists n, forall sched, changing zero mac l sched (start zero l lefts rights out) -> length sched <= n.
Proof.
  intros A zero mac l lefts rights out SN W H L R. split.
  - intro sched. exact (proj1 (tiles_finish zero mac l lefts rights out sched SN W H L R)).
  - exists (bound l). intros sched CH. apply (proj2 (tiles_finish zero mac l lefts rights out sched SN W H L R)).
    revert CH. generalize (start zero l lefts rights out). induction sched as [|w r IH]; intros s CH; [exact I|].
    destruct CH as [C1 C2]. split; [exact C1|exact (IH _ C2)].
Qed.
Print Assumptions C132_ends.

(** C132 is false for the product of two matrices [Tensor::matmul] computes with
    the kernel dot: its blocks have 8 by 8 threads for tiles of 32 by 32.  No
    thread ever writes the elements in the other rows and columns, ... *)
Theorem C132_dot_unwritten_refuted : forall A (zero : A) mac lhs rhs M K N ls0 ls1 rs0 rs1 lo ro lefts rights out sched i j,
  let l := dot_launch lhs rhs [M; K; N; ls0; ls1; rs0; rs1; lo; ro] in
  (forall c, length (lefts c) = 1024) -> (forall c, length (rights c) = 1024) ->
  let s := run zero mac l sched (start zero l lefts rights out) in finished s ->
  i < M -> j < N -> 8 <= i mod 32 \/ 8 <= j mod 32 ->
  nth_error (result s) (i * N + j) = nth_error out (i * N + j).
Proof.
  intros A zero mac lhs rhs M K N ls0 ls1 rs0 rs1 lo ro lefts rights out sched i j l LL LR s FIN I J B.
  assert (SN : sane l) by (split; cbn; lia).
  assert (G : forall n t, 0 < grid n t) by (intros; unfold grid; lia).
  destruct (tiles_result zero mac l lefts rights out sched SN (G _ _) (G _ _) LL LR FIN) as (_ & _ & R).
  apply R. intros c th Hc Ht [S1 S2] E. unfold slot in E.
  assert (Z : block_z l c = 0).
  { unfold block_z. apply Nat.div_small. unfold count in Hc. change (deep l) with 1 in Hc. lia. }
  rewrite Z in E. cbn [Nat.mul Nat.add] in E. change (cols l) with N in *. change (rows l) with M in *.
  apply pair_inj in E; auto. destruct E as [ER EC].
  destruct (thread_pos l th SN Ht) as (TY & TX & _). change (side l) with 8 in TY, TX.
  unfold row, col in *. change (tile l) with 32 in *. rewrite Nat.add_comm in ER, EC.
  assert (X := Nat.mod_add (thread_y l th) (block_y l c) 32 ltac:(lia)). rewrite ER in X. rewrite Nat.mod_small in X by lia.
  assert (Y := Nat.mod_add (thread_x l th) (block_x l c) 32 ltac:(lia)). rewrite EC in Y. rewrite (Nat.mod_small (thread_x l th)) in Y by lia.
  lia.
Qed.
Print Assumptions C132_dot_unwritten_refuted.

(** ... and the others are summed up with what lay in the tiles: here 2 times 3
    is 7. *)
Definition litter (p : nat) : list (option Z) := map (fun q => if q =? p then Some 1%Z else Some 0%Z) (seq 0 1024).
Theorem C132_dot_litter_refuted :
  let l := dot_launch [2%Z] [3%Z] [1; 1; 1; 1; 1; 1; 1; 0; 0] in
  let s sched := run 0%Z (fun s a b => s + a * b)%Z l sched (start 0%Z l (fun _ => litter 8) (fun _ => litter 256) [None]) in
  (exists sched, finished (s sched)) /\ forall sched, finished (s sched) -> nth_error (result (s sched)) 0 = Some (Some 7%Z).
Proof.
  intros l s.
  assert (SN : sane l) by (split; cbn; lia).
  assert (G : forall n t, 0 < grid n t) by (intros; unfold grid; lia).
  assert (L : forall p, length (litter p) = 1024) by (intro p; unfold litter; now rewrite map_length, seq_length).
  split.
  - destruct (tiles_finish 0%Z (fun s a b => s + a * b)%Z l (fun _ => litter 8) (fun _ => litter 256) [None] [] SN (G _ _) (G _ _)
      (fun _ => L 8) (fun _ => L 256)) as [[more F] _]. exists more. exact F.
  - intros sched F. destruct (tiles_result 0%Z (fun s a b => s + a * b)%Z l (fun _ => litter 8) (fun _ => litter 256) [None] sched SN
      (G _ _) (G _ _) (fun _ => L 8) (fun _ => L 256) F) as (_ & R & _).
    assert (X := R 0 0). assert (E : slot l 0 0 = 0) by reflexivity. rewrite E in X. fold (s sched) in X. rewrite X.
    + vm_compute. reflexivity.
    + vm_compute. lia.
    + cbn. lia.
    + split; vm_compute; lia.
    + cbn. lia.
Qed.
Print Assumptions C132_dot_litter_refuted.

(** Both kernels multiply and add in f32, whatever the type of the elements:
    sum = (double)((float)sum + (float)a * (float)b).  In f64 one element is lost. *)
Definition narrow (x : spec_float) : spec_float :=
  match x with S754_finite s m e => binary_round 24 128 s m e | _ => x end.
Definition widen (x : spec_float) : spec_float :=
  match x with S754_finite s m e => binary_round 53 1024 s m e | _ => x end.
Definition mac_f64 (s a b : spec_float) : spec_float :=
  widen (SFadd 24 128 (narrow s) (SFmul 24 128 (narrow a) (narrow b))).
Definition f64_of (n : Z) : spec_float := binary_normalize 53 1024 n 0 false.
Theorem C132_f64_refuted :
  SFadd 53 1024 (f64_of 0) (SFmul 53 1024 (f64_of 16777217) (f64_of 1)) = f64_of 16777217 /\
  mac_f64 (f64_of 0) (f64_of 16777217) (f64_of 1) = f64_of 16777216.
Proof. split; vm_compute; reflexivity. Qed.
Print Assumptions C132_f64_refuted.

(** More than 65535 batches, or more than 1048560 rows, are an error. *)
Theorem C132_large_refuted : forall A (lhs rhs : list A) (l r : layout) bsh M K N, wf_layout l -> wf_layout r -> length bsh <= 16 ->
  (65535 < Z.of_nat (nelem bsh) \/ 16 * 65535 < Z.of_nat M < 2 ^ 32)%Z ->
  exists L, matmul_launch lhs rhs (matmul_metadata l r bsh M K N) = Some L /\ accepted L = false.
Proof.
  intros A lhs rhs l r bsh M K N Wl Wr H16 B.
  destruct (matmul_md l r bsh M K N Wl Wr) as (M0 & M1 & M2 & M3 & M4 & M5 & M6 & M7 & M8 & M9 & M10 & M11 & M12 & M13).
  unfold matmul_launch. set (md := matmul_metadata l r bsh M K N) in *. clearbody md.
  rewrite M1, M2, M3. cbn [obind]. rewrite M4. cbn [obind]. rewrite M5. cbn [obind]. rewrite M6. cbn [obind].
  rewrite M7. cbn [obind]. rewrite M8. cbn [obind]. cbv zeta. rewrite M9. cbn [obind]. rewrite M10. cbn [obind].
  rewrite M11. cbn [obind]. rewrite M12. cbn [obind]. rewrite M13. cbn [obind].
  replace (16 <? length bsh) with false by (symmetry; apply Nat.ltb_ge; lia).
  eexists. split; [reflexivity|]. unfold accepted. cbn [deep wide high].
  destruct B as [B|B].
  - change (shape_size bsh) with (nelem bsh). replace (Z.of_nat (nelem bsh) <=? 65535)%Z with false by (symmetry; apply Z.leb_gt; lia).
    apply andb_false_r.
  - destruct (grid_covers M 16 ltac:(lia) ltac:(lia)) as [GM _].
    replace (Z.of_nat (grid M 16) <=? 65535)%Z with false by (symmetry; apply Z.leb_gt; lia).
    rewrite andb_false_r. reflexivity.
Qed.
Print Assumptions C132_large_refuted.

(** ** Examples *)
(** a product of 3 by 3 matrices in tiles of 2 by 2, all threads moving in
    turn, and the threads of the last block first *)
Definition tiny : launch Z := mkLaunch 2 2 2 2 1 3 3 3
  (fun _ i k => Some (Z.of_nat (3 * i + k + 1))) (fun _ k j => Some (if (k =? j)%nat then 2 else 1)%Z).
Definition full_sched (order : list nat) : list (nat * nat) :=
  concat (repeat (flat_map (fun c => map (fun i => (c, i)) (seq 0 4)) order) 20).
Definition tiny_run order := run 0%Z (fun s a b => s + a * b)%Z tiny (full_sched order)
  (start 0%Z tiny (fun _ => repeat (Some 9%Z) 4) (fun _ => repeat None 4) (repeat None 9)).
Example C132_ex_run : forall order, In order [[0; 1; 2; 3]; [3; 2; 1; 0]] ->
  finished (tiny_run order) /\
  all_some (result (tiny_run order)) = Some [7; 8; 9; 19; 20; 21; 31; 32; 33]%Z.
Proof.
  intros order [<-|[<-|[]]]; (split; [unfold finished; vm_compute; repeat constructor|vm_compute; reflexivity]).
Qed.

(** a batch of one 2 by 1 by 1 by 2 product through [C132_batched_partial] *)
Example C132_ex_batched :
  let a := mkT [2; 3]%Z (from_shape [1; 2; 1]) in
  let b := mkT [5; 7]%Z (from_shape [1; 1; 2]) in
  exists r, t_matmul_batched 0%Z (by_grid 0%Z (fun s x y => s + x * y)%Z (fun _ => repeat None 256) (fun _ => repeat None 256) in_rounds) a b = Ok r /\
    elem r [0; 1; 1] = Some 21%Z.
Proof.
  intros a b.
  destruct (C132_batched_partial Z 0%Z Z.add Z.mul (fun s x y => s + x * y)%Z 0%Z (fun _ => repeat None 256) (fun _ => repeat None 256)
    in_rounds a b [1] [1] [1] 2 1 2) as (r & E & _ & _ & D).
  - reflexivity.
  - intro s. lia.
  - intro c. apply repeat_length.
  - intro c. apply repeat_length.
  - apply C132_rounds; intro c; apply repeat_length.
  - apply from_shape_good; reflexivity.
  - apply from_shape_good; reflexivity.
  - reflexivity.
  - reflexivity.
  - repeat constructor.
  - repeat constructor.
  - repeat constructor.
  - cbn. lia.
  - vm_compute. discriminate.
  - lia.
  - lia.
  - exists r. split; [exact E|]. destruct (D [0] 1 1) as (fa & fb & FA & FB & R); [cbn; lia|lia|lia|].
    cbn [app] in R. rewrite R. cbn [seq fold_left].
    specialize (FA 0 ltac:(lia)). specialize (FB 0 ltac:(lia)). vm_compute in FA, FB. injection FA as <-. injection FB as <-. reflexivity.
Qed.
