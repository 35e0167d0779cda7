(** C147, continued: the gradient of the weight of a transposed convolution on CUDA. *)
From Coq Require Import List Arith ZArith Bool Lia Permutation.
From Verif Require Import Base IndexSpec LayoutModel KernelModel TensorModel TensorSpec TensorProofs ConvModel ConvSpec ConvProofs TileSpec.
From Verif Require Import CudaConvModel CudaConvModel2 CudaConvProofs3 PropCudaConv.
Import ListNotations.
Local Open Scope nat_scope.

(** On a buffer of zeros, in every order of the indices, if the order of additions does not
    matter, it is what the loops of the CPU give, although they go forward from the input and
    the kernel goes back from the output. *)
Theorem C147_gradw_transpose_partial : forall A T (up : A -> T) (down : T -> A) mul (za : A) plus log nd (t g r : tensor A) ws s p d B C Co isp osp X G,
  (forall x y z, plus (plus x y) z = plus (plus x z) y) -> 0 < s -> dense t -> good t -> good g ->
  tshape t = B :: C :: isp -> tshape g = B :: Co :: osp -> length isp = nd -> length osp = nd -> length ws = nd + 2 ->
  (forall i, valid (tshape t) i -> elem t i = Some (X i)) -> (forall i, valid (tshape g) i -> elem g i = Some (G i)) ->
  Permutation log (seq 0 (nelem (tshape g))) ->
  t_gradw_t za plus (fun x y => down (mul (up x) (up y))) nd t g ws s p d = Ok r ->
  cuda_gradw_t up down mul plus log (tstore t) (tstore g) (repeat (Some za) (nelem ws))
    (gradw_metadata (tlay t) (tlay g) ws (repeat s nd) (repeat p nd) (repeat d nd) nd) = Some (tstore r).
Proof.
  intros A T up down mul za plus log nd t g r ws s p d B C Co isp osp X G PC S0 Dt Gt Gg St Sg Li Lo Lw HX HG P H.
  rewrite Sg in P. exact (gradw_t_same up down mul za plus PC log t g B C Co isp osp _ ws s p d nd r X G S0 Dt Gt Gg St Sg eq_refl Li Lo Lw HX HG P H).
Qed.
Print Assumptions C147_gradw_transpose_partial.
(** two elements into five with stride 2: the indices backwards *)
Example C147_gradw_transpose_ex :
  let t := cz [3; 5]%Z [1;1;2] in let g := cz [1; 10; 100; 1000; 10000]%Z [1;1;5] in
  t_gradw_t 0%Z Z.add Z.mul 1 t g [1;1;3] 2 0 1 = Ok (cz [503; 5030; 50300]%Z [1;1;3]) /\
  cuda_gradw_t (fun z : Z => z) (fun z => z) Z.mul Z.add [4; 3; 2; 1; 0] (tstore t) (tstore g) (repeat (Some 0%Z) 3)
    (gradw_metadata (tlay t) (tlay g) [1;1;3] [2] [0] [1] 1) = Some [503; 5030; 50300]%Z.
Proof.
  intros t g. assert (E : t_gradw_t 0%Z Z.add Z.mul 1 t g [1;1;3] 2 0 1 = Ok (cz [503; 5030; 50300]%Z [1;1;3])) by (vm_compute; reflexivity).
  split; [exact E|].
  apply (C147_gradw_transpose_partial Z Z (fun z => z) (fun z => z) Z.mul 0%Z Z.add [4; 3; 2; 1; 0] 1 t g (cz [503; 5030; 50300]%Z [1;1;3]) [1;1;3] 2 0 1 1 1 1 [2] [5]
    (fun i => nth (ravel [1;1;2] i) [3; 5]%Z 0%Z) (fun i => nth (ravel [1;1;5] i) [1; 10; 100; 1000; 10000]%Z 0%Z)); auto; try lia.
  - apply cz_dense.
  - now apply from_shape_good.
  - now apply from_shape_good.
  - intros i V. apply in_all_idx in V. vm_compute in V. repeat (destruct V as [<-|V]; [reflexivity|]). destruct V.
  - intros i V. apply in_all_idx in V. vm_compute in V. repeat (destruct V as [<-|V]; [reflexivity|]). destruct V.
  - apply Permutation_sym. apply (Permutation_rev [0; 1; 2; 3; 4]).
Qed.
(** The additions of a launch, of either kind, may be interleaved in any way. *)
Theorem C147_interleaved_partial : forall A T (up : A -> T) (down : T -> A) mul (za : A) plus log (input grad : list A) n md m r,
  (forall x y z, plus (plus x y) z = plus (plus x z) y) -> read_gradw md = Some m ->
  (forall adds l, cuda_gradw up down mul plus log input grad (repeat (Some za) n) md = Some r ->
    mapO (gradw_adds up down mul m input grad) log = Some adds -> Permutation (concat adds) l ->
    all_some (fold_left (add_at plus) l (repeat (Some za) n)) = Some r) /\
  (forall adds l, cuda_gradw_t up down mul plus log input grad (repeat (Some za) n) md = Some r ->
    mapO (gradw_t_adds up down mul m input grad) log = Some adds -> Permutation (concat adds) l ->
    all_some (fold_left (add_at plus) l (repeat (Some za) n)) = Some r).
Proof.
  intros A T up down mul za plus log input grad n md m r PC M.
  assert (F : forall adds : list (nat * A), forallb (fun p => fst p <? length (repeat (Some za) n)) adds = true -> Forall (fun p => fst p < n) adds).
  { intros adds H. apply Forall_forall. intros p I. rewrite forallb_forall in H. specialize (H p I). rewrite repeat_length in H. now apply Nat.ltb_lt. }
  split; intros adds l H E P; [unfold cuda_gradw in H|unfold cuda_gradw_t in H]; rewrite M in H; cbn [obind] in H; rewrite E in H; cbn [obind] in H;
    destruct (forallb _ (concat adds)) eqn:B in H; try discriminate H; cbn [negb] in H; apply (any_order za plus PC n (concat adds)); auto.
Qed.
Print Assumptions C147_interleaved_partial.
Example C147_interleaved_ex :
  exists m adds, read_gradw (gradw_metadata (from_shape [1;1;3]) (from_shape [1;1;2]) [1;1;2] [1] [0] [1] 1) = Some m /\
    mapO (gradw_adds (fun z : Z => z) (fun z => z) Z.mul m [1; 2; 3]%Z [1; 10]%Z) [1; 0] = Some adds /\
    Permutation (concat adds) [(0, 1%Z); (0, 20%Z); (1, 2%Z); (1, 30%Z)] /\
    all_some (fold_left (add_at Z.add) [(0, 1%Z); (0, 20%Z); (1, 2%Z); (1, 30%Z)] (repeat (Some 0%Z) 2)) = Some [21; 32]%Z.
Proof.
  eexists. eexists. split; [reflexivity|]. split; [vm_compute; reflexivity|]. cbn [concat app].
  assert (P : Permutation [(0, 20%Z); (1, 30%Z); (0, 1%Z); (1, 2%Z)] [(0, 1%Z); (0, 20%Z); (1, 2%Z); (1, 30%Z)]).
  { apply Permutation_trans with ([(0, 20%Z); (0, 1%Z); (1, 30%Z); (1, 2%Z)]); [apply perm_skip; apply perm_swap|].
    apply Permutation_trans with ([(0, 1%Z); (0, 20%Z); (1, 30%Z); (1, 2%Z)]); [apply perm_swap|]. do 2 apply perm_skip. apply perm_swap. }
  split; [exact P|].
  refine (proj1 (C147_interleaved_partial Z Z (fun z => z) (fun z => z) Z.mul 0%Z Z.add [1; 0] [1; 2; 3]%Z [1; 10]%Z 2
    (gradw_metadata (from_shape [1;1;3]) (from_shape [1;1;2]) [1;1;2] [1] [0] [1] 1) (mkGw 2 [1;1;3] [1;1;2] [1;1;2] [2;2;1] 0 0 [1] [0] [1]) [21; 32]%Z ltac:(intros; lia) eq_refl)
    [[(0, 20%Z); (1, 30%Z)]; [(0, 1%Z); (1, 2%Z)]] _ (proj1 C147_gradw_ex) eq_refl P).
Qed.
(** The buffer is not of zeros: no gradient of a weight with elements has a determined value. *)
Theorem C147_gradw_transpose_refuted : forall A T (up : A -> T) (down : T -> A) mul plus log nd (t g : tensor A) ws s p d r,
  0 < nelem ws -> cuda_t_gradw_t up down mul plus log nd t g ws s p d <> Ok r.
Proof. intros. now apply t_gradw_t_none. Qed.
Print Assumptions C147_gradw_transpose_refuted.
Example C147_gradw_transpose_refuted_ex :
  cuda_t_gradw_t (fun z : Z => z) (fun z => z) Z.mul Z.add [0; 1; 2; 3; 4] 1 (cz [3; 5]%Z [1;1;2]) (cz [1; 10; 100; 1000; 10000]%Z [1;1;5]) [1;1;3] 2 0 1 = Panic.
Proof. vm_compute. reflexivity. Qed.
