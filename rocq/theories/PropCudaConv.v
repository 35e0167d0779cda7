(** C147: convolutions on CUDA. *)
From Coq Require Import List Arith ZArith Bool Lia Permutation SpecFloat.
From Verif Require Import Base IndexSpec LayoutModel ViewSpec LayoutProofs KernelModel TensorModel TensorSpec TensorProofs.
From Verif Require Import ConvModel ConvSpec ConvProofs ConvProofs2 ConvProofs3 LaunchModel LaunchSpec CudaIndexProofs2 CudaReduceModel CudaWindowProofs CudaConvModel CudaConvProofs CudaConvProofs2.
From Verif Require ScalarModel.
Import ListNotations.
Local Open Scope nat_scope.

(** Under every schedule that ends, a convolution gives what the loops of the CPU give on the
    elements converted to float, converted back; ... *)
Theorem C147_same_partial : forall A T sched (up : A -> T) (down : T -> A) zero add mul nd (t w : tensor A) s p d r,
  ending sched -> (Z.of_nat (nelem (tshape r)) <= 2 ^ 32 - 256)%Z ->
  t_conv zero add mul nd (mkT (map up (tstore t)) (tlay t)) (mkT (map up (tstore w)) (tlay w)) s p d = Ok r ->
  cuda_t_conv sched up down zero add mul nd t w s p d = Ok (mkT (map down (tstore r)) (tlay r)).
Proof. intros A T sched up down zero add mul nd t w s p d r EN. exact (t_conv_same sched up down zero add mul EN nd t w s p d r). Qed.
Print Assumptions C147_same_partial.
Theorem C147_errors : forall A T sched (up : A -> T) (down : T -> A) zero add mul nd (t w : tensor A) s p d e,
  t_conv zero add mul nd (mkT (map up (tstore t)) (tlay t)) (mkT (map up (tstore w)) (tlay w)) s p d = Err e <->
  cuda_t_conv sched up down zero add mul nd t w s p d = Err e.
Proof. intros A T sched up down zero add mul nd t w s p d e. exact (t_conv_err sched up down zero add mul nd t w s p d e). Qed.
Print Assumptions C147_errors.
(** ... for operands in row-major order that is the sum of the products of the elements that
    meet, taken in float and converted once. *)
Theorem C147_conv_partial : forall A T sched (up : A -> T) (down : T -> A) zero add mul nd (t w : tensor A) s p d B C Co isp ker X W,
  ending sched -> good t -> good w -> dense t -> dense w ->
  tshape t = B :: C :: isp -> tshape w = Co :: C :: ker -> length isp = nd -> length ker = nd ->
  0 < s -> Forall2 (fun n k => 0 < k /\ d * (k - 1) < n + 2 * p) isp ker ->
  (forall osp, out_lens isp ker s p d osp -> (Z.of_nat (nelem (B :: Co :: osp)) <= 2 ^ 32 - 256)%Z) ->
  (forall i, valid (tshape t) i -> elem t i = Some (X i)) ->
  (forall i, valid (tshape w) i -> elem w i = Some (W i)) ->
  exists r osp, cuda_t_conv sched up down zero add mul nd t w s p d = Ok r /\ good r /\ tshape r = B :: Co :: osp /\
    out_lens isp ker s p d osp /\
    forall b oc o, valid (B :: Co :: osp) (b :: oc :: o) ->
      elem r (b :: oc :: o) = Some (down (fold_left add (conv_terms mul s p d (fun i => up (X i)) (fun i => up (W i)) C ker isp b oc o) zero)).
Proof.
  intros A T sched up down zero add mul nd t w s p d B C Co isp ker X W EN Gt Gw Dt Dw St Sw Li Lk Hs F N HX HW.
  destruct (t_conv_spec zero add mul nd (converted up t) (converted up w) s p d B C Co isp ker (fun i => up (X i)) (fun i => up (W i)))
    as (r & osp & E & Gr & Sr & O & V); auto using converted_good.
  - intros i V. rewrite converted_elem, (HX i V). reflexivity.
  - intros i V. rewrite converted_elem, (HW i V). reflexivity.
  - exists (converted down r), osp. split.
    { apply (C147_same_partial A T sched up down zero add mul nd t w s p d r EN); [rewrite Sr; now apply N|exact E]. }
    split; [now apply converted_good|]. split; [exact Sr|]. split; [exact O|].
    intros b oc o Vo. now rewrite converted_elem, V.
Qed.
Print Assumptions C147_conv_partial.

Definition cz (l : list Z) (s : list nat) : tensor Z := mkT l (from_shape s).
Definition cuda_conv_z := cuda_t_conv swift (fun z : Z => z) (fun z => z) 0%Z Z.add Z.mul.
(** 2d, with padding, stride, dilation and two channels *)
Example C147_ex : cuda_conv_z 2 (cz [1;2;3;4;5;6; 7;8;9;10;11;12]%Z [1;2;2;3]) (cz [1;2; 3;4]%Z [1;2;1;2]) 2 1 2
  = Ok (cz [0; 0; 54; 38]%Z [1;1;2;2]).
Proof.
  exact (C147_same_partial Z Z swift (fun z => z) (fun z => z) 0%Z Z.add Z.mul 2 (cz [1;2;3;4;5;6; 7;8;9;10;11;12]%Z [1;2;2;3]) (cz [1;2; 3;4]%Z [1;2;1;2]) 2 1 2
    (cz [0; 0; 54; 38]%Z [1;1;2;2]) swift_ending ltac:(now vm_compute) ltac:(vm_compute; reflexivity)).
Qed.
Example C147_errors_ex : cuda_conv_z 1 (cz [1; 2]%Z [1; 2; 1]) (cz [1]%Z [1; 1; 1]) 1 0 1 = Err EShape.
Proof. reflexivity. Qed.

(** C147 is false of f64: the convolution of 2^24 + 1 by 1 is 2^24. *)
Theorem C147_f64_refuted : forall sched, ending sched ->
  let x := ScalarModel.of_z ScalarModel.F64 16777217 in let one := ScalarModel.of_z ScalarModel.F64 1 in
  cuda_conv_f64 sched 1 (mkT [x] (from_shape [1;1;1])) (mkT [one] (from_shape [1;1;1])) 1 0 1
    = Ok (mkT [ScalarModel.of_z ScalarModel.F64 16777216] (from_shape [1;1;1])) /\
  t_conv (S754_zero false) (SFadd 53 1024) (SFmul 53 1024) 1 (mkT [x] (from_shape [1;1;1])) (mkT [one] (from_shape [1;1;1])) 1 0 1
    = Ok (mkT [x] (from_shape [1;1;1])).
Proof.
  intros sched EN x one. split; [|now vm_compute].
  pose proof (C147_same_partial _ _ sched (resized 24 128) (resized 53 1024) (S754_zero false) (SFadd 24 128) (SFmul 24 128) 1
    (mkT [x] (from_shape [1;1;1])) (mkT [one] (from_shape [1;1;1])) 1 0 1 (mkT [ScalarModel.of_z ScalarModel.F32 16777216] (from_shape [1;1;1]))
    EN ltac:(now vm_compute) ltac:(now vm_compute)) as H.
  unfold cuda_conv_f64. rewrite H. now vm_compute.
Qed.
Print Assumptions C147_f64_refuted.

(** ** Transposed *)
(** If the number of positions of the convolution is that of the transposed convolution and
    there is one input or one output channel, element [b, oc, o] is the sum over the input and
    weight elements that meet there; ... *)
Theorem C147_transpose_partial : forall A T sched (up : A -> T) (down : T -> A) zero add mul nd (t w : tensor A) s p d B C Co isp ker osp X W,
  C = 1 \/ Co = 1 ->
  ending sched -> dense t -> dense w ->
  tshape t = B :: C :: isp -> tshape w = Co :: C :: ker -> length isp = nd -> length ker = nd -> 0 < s ->
  conv_t_sizes isp ker s p d 0 = Ok osp -> conv_sizes isp ker s p d = Ok osp ->
  (Z.of_nat (nelem (B :: Co :: osp)) <= 2 ^ 32 - 256)%Z ->
  (forall i, valid (tshape t) i -> elem t i = Some (X i)) ->
  (forall i, valid (tshape w) i -> elem w i = Some (W i)) ->
  exists r, cuda_t_conv_transpose sched up down zero add mul nd t w s p 0 d = Ok r /\ good r /\ tshape r = B :: Co :: osp /\
    forall b oc o, valid (B :: Co :: osp) (b :: oc :: o) ->
      elem r (b :: oc :: o) = Some (down (fold_left add
        (flat_map (fun ic => flat_map (fun k => flat_map (fun i =>
          if meets s p d i k o then [mul (up (X (b :: ic :: i))) (up (W (oc :: ic :: k)))] else [])
          (all_idx isp)) (all_idx ker)) (seq 0 C)) zero)).
Proof.
  intros A T sched up down zero add mul nd t w s p d B C Co isp ker osp X W One EN Dt Dw St Sw Li Lk Hs E' E N HX HW.
  apply (t_transpose_spec sched up down zero add mul EN nd t w s p d 0 B C Co isp ker osp (fun i => up (X i)) (fun i => up (W i)) (fun ic oc k => oc :: ic :: k)); auto.
  - intros i V. exists (X i). split; [now apply HX|reflexivity].
  - intros ic oc k Ic Io Vk. exists (W (oc :: ic :: k)). split; [|reflexivity].
    assert (V : valid (tshape w) (oc :: ic :: k)) by (rewrite Sw; cbn; auto).
    rewrite <- (HW _ V), <- (dense_read _ _ _ Dw V), Sw, ravel2. f_equal.
    destruct One as [-> | ->]; [assert (ic = 0) as -> by lia|assert (oc = 0) as -> by lia]; lia.
Qed.
Print Assumptions C147_transpose_partial.
(** ... with as many input channels as output channels, the weight is read with the two exchanged. *)
Theorem C147_square_partial : forall A T sched (up : A -> T) (down : T -> A) zero add mul nd (t w : tensor A) s p d B C isp ker osp X W,
  ending sched -> dense t -> dense w ->
  tshape t = B :: C :: isp -> tshape w = C :: C :: ker -> length isp = nd -> length ker = nd -> 0 < s ->
  conv_t_sizes isp ker s p d 0 = Ok osp -> conv_sizes isp ker s p d = Ok osp ->
  (Z.of_nat (nelem (B :: C :: osp)) <= 2 ^ 32 - 256)%Z ->
  (forall i, valid (tshape t) i -> elem t i = Some (X i)) ->
  (forall i, valid (tshape w) i -> elem w i = Some (W i)) ->
  exists r, cuda_t_conv_transpose sched up down zero add mul nd t w s p 0 d = Ok r /\ good r /\ tshape r = B :: C :: osp /\
    forall b oc o, valid (B :: C :: osp) (b :: oc :: o) ->
      elem r (b :: oc :: o) = Some (down (fold_left add
        (flat_map (fun ic => flat_map (fun k => flat_map (fun i =>
          if meets s p d i k o then [mul (up (X (b :: ic :: i))) (up (W (ic :: oc :: k)))] else [])
          (all_idx isp)) (all_idx ker)) (seq 0 C)) zero)).
Proof.
  intros A T sched up down zero add mul nd t w s p d B C isp ker osp X W EN Dt Dw St Sw Li Lk Hs E' E N HX HW.
  apply (t_transpose_spec sched up down zero add mul EN nd t w s p d 0 B C C isp ker osp (fun i => up (X i)) (fun i => up (W i)) (fun ic oc k => ic :: oc :: k)); auto.
  - intros i V. exists (X i). split; [now apply HX|reflexivity].
  - intros ic oc k Ic Io Vk. exists (W (ic :: oc :: k)). split; [|reflexivity].
    assert (V : valid (tshape w) (ic :: oc :: k)) by (rewrite Sw; cbn; auto).
    rewrite <- (HW _ V), <- (dense_read _ _ _ Dw V), Sw, ravel2. f_equal; lia.
Qed.
Print Assumptions C147_square_partial.
Lemma cz_dense : forall l s, dense (cz l s).
Proof. intros l s i V. cbn. apply addr_from_shape. now apply valid_length. Qed.
(** three elements, a kernel of three, padding 1: three elements either way *)
Example C147_transpose_ex : conv_t_sizes [3] [3] 1 1 1 0 = Ok [3] /\ conv_sizes [3] [3] 1 1 1 = Ok [3] /\
  exists r, cuda_t_conv_transpose swift (fun z : Z => z) (fun z => z) 0%Z Z.add Z.mul 1 (cz [1; 2; 3]%Z [1;1;3]) (cz [1; 10; 100]%Z [1;1;3]) 1 1 0 1 = Ok r /\
    tstore r = [12; 123; 230]%Z.
Proof.
  split; [reflexivity|]. split; [reflexivity|].
  destruct (C147_transpose_partial Z Z swift (fun z => z) (fun z => z) 0%Z Z.add Z.mul 1 (cz [1; 2; 3]%Z [1;1;3]) (cz [1; 10; 100]%Z [1;1;3]) 1 1 1 1 1 1 [3] [3] [3]
    (fun i => nth (ravel [1;1;3] i) [1; 2; 3]%Z 0%Z) (fun i => nth (ravel [1;1;3] i) [1; 10; 100]%Z 0%Z)) as (r & E & G & S & V); auto using cz_dense.
  - exact swift_ending.
  - now vm_compute.
  - intros i V. apply in_all_idx in V. vm_compute in V. repeat (destruct V as [<-|V]; [reflexivity|]). destruct V.
  - intros i V. apply in_all_idx in V. vm_compute in V. repeat (destruct V as [<-|V]; [reflexivity|]). destruct V.
  - exists r. split; [exact E|].
    pose proof (transpose_length swift _ _ _ _ _ 1 (cz [1; 2; 3]%Z [1;1;3]) (cz [1; 10; 100]%Z [1;1;3]) 1 1 1 0 [3] r eq_refl E) as L.
    pose proof (V 0 0 [0] ltac:(cbn; lia)) as V0. pose proof (V 0 0 [1] ltac:(cbn; lia)) as V1. pose proof (V 0 0 [2] ltac:(cbn; lia)) as V2.
    destruct r as [st ly]. pose proof (transpose_fresh swift _ _ _ _ _ 1 _ _ 1 1 1 0 _ E) as F. cbn [tlay tstore] in *. change (tshape (mkT st ly)) with (lshape ly) in *. rewrite S in F. subst ly.
    destruct st as [|x [|y [|z [|]]]]; try discriminate L. vm_compute in V0, V1, V2. now injection V0 as ->; injection V1 as ->; injection V2 as ->.
Qed.

(** It is false of every transposed convolution that is longer than the convolution: the
    storage is that of the convolution, and the tensor reaches beyond it. *)
Theorem C147_transpose_refuted : forall A T sched (up : A -> T) (down : T -> A) zero add mul nd (t w : tensor A) s p extra d o r,
  conv_sizes (skipn 2 (tshape t)) (skipn 2 (tshape w)) s p d = Ok o ->
  nelem (nth 0 (tshape t) 0 :: nth 0 (tshape w) 0 :: o) < nelem (tshape r) ->
  cuda_t_conv_transpose sched up down zero add mul nd t w s p extra d = Ok r -> ~ good r.
Proof.
  intros A T sched up down zero add mul nd t w s p extra d o r E L H G.
  pose proof (transpose_length sched up down zero add mul nd t w s p d extra o r E H) as LE.
  assert (F : tlay r = from_shape (tshape r)) by (exact (transpose_fresh sched up down zero add mul nd t w s p d extra r H)).
  set (n := nelem (tshape r)) in *. assert (V : valid (tshape r) (unravel (tshape r) (n - 1))) by (apply unravel_valid; lia).
  destruct G as [_ G]. specialize (G _ V). rewrite F in G. rewrite addr_from_shape, ravel_unravel in G by (lia || now apply valid_length). lia.
Qed.
Print Assumptions C147_transpose_refuted.
Example C147_transpose_witness : forall sched, ending sched -> exists r,
  cuda_t_conv_transpose sched (fun z : Z => z) (fun z => z) 0%Z Z.add Z.mul 1 (cz [1; 2]%Z [1;1;2]) (cz [1; 10]%Z [1;1;2]) 1 0 0 1 = Ok r /\
  tshape r = [1;1;3] /\ tstore r = [1%Z].
Proof.
  intros sched EN.
  destruct (t_transpose_gen sched (fun z : Z => z) (fun z => z) 0%Z Z.add Z.mul EN 1 (cz [1; 2]%Z [1;1;2]) (cz [1; 10]%Z [1;1;2]) 1 0 1 0 1 1 1 [2] [2] [3] [1]
    (fun i => nth (ravel [1;1;2] i) [1; 2]%Z 0%Z) (fun i => nth (ravel [1;1;2] i) [1; 10]%Z 0%Z) (fun ic oc k => oc :: ic :: k)) as (r & E & S & L & V); auto.
  - apply cz_dense.
  - now vm_compute.
  - intros i V. eexists. split; [|reflexivity]. apply in_all_idx in V. vm_compute in V. repeat (destruct V as [<-|V]; [reflexivity|]). destruct V.
  - intros ic oc k Ic Io V. assert (ic = 0) as -> by lia. assert (oc = 0) as -> by lia. apply in_all_idx in V. vm_compute in V.
    repeat (destruct V as [<-|V]; [eexists; split; reflexivity|]). destruct V.
  - exists r. split; [exact E|]. pose proof (V 0 0 [0] ltac:(cbn; lia)) as V0. destruct r as [st ly]. cbn [tlay tstore] in *. subst ly.
    split; [reflexivity|]. destruct st as [|x [|]]; try discriminate L. vm_compute in V0. now injection V0 as ->.
Qed.

(** ** Gradient of the weight *)
(** On a buffer of zeros, whatever the order of the indices, the kernel adds up what the CPU
    does, if the order of additions does not matter. *)
Theorem C147_gradw_partial : forall A T (up : A -> T) (down : T -> A) mul (za : A) plus log nd (t g r : tensor A) ws s p d,
  (forall x y z, plus (plus x y) z = plus (plus x z) y) -> good t -> good g ->
  Permutation log (seq 0 (nelem (nth 0 (tshape t) 0 :: tl (tshape g)))) ->
  t_gradw za plus (fun x y => down (mul (up x) (up y))) nd t g ws s p d = Ok r ->
  cuda_gradw up down mul plus log (tstore t) (tstore g) (repeat (Some za) (nelem ws))
    (gradw_metadata (tlay t) (tlay g) ws (repeat s nd) (repeat p nd) (repeat d nd) nd) = Some (tstore r).
Proof.
  intros A T up down mul za plus log nd t g r ws s p d PC [Wt _] [Wg _] P H. unfold t_gradw, t_gradw_with in H. fold (tshape t) in H. fold (tshape g) in H.
  destruct (Nat.eqb_spec (length (tshape t)) (nd + 2)) as [Lt|]; [|discriminate].
  destruct (Nat.eqb_spec (length (tshape g)) (nd + 2)) as [Lg|]; [|discriminate].
  destruct (Nat.eqb_spec (length ws) (nd + 2)) as [Lw|]; [|discriminate]. cbn [negb] in H.
  destruct (gradw_kernel _ _ _ _ _ _ _) as [st|] eqn:K; [|discriminate]. cbn [ub bind] in H. injection H as <-. cbn [tstore].
  pose proof (read_gradw_eq (tlay t) (tlay g) ws (repeat s nd) (repeat p nd) (repeat d nd) nd Wt Wg (eq_trans Lg (eq_sym Lt)) (eq_trans Lw (eq_sym Lt))
    (repeat_length _ _) (repeat_length _ _) (repeat_length _ _)) as R.
  pose proof (gradw_same up down mul za plus PC log (tstore t) (tstore g) (repeat za (nelem ws)) _ st _ R) as S. cbn [gw_els gw_ishape gw_gshape] in S. apply S; auto.
  - apply repeat_length.
  - fold (tshape g). lia.
Qed.
Print Assumptions C147_gradw_partial.
Example C147_gradw_ex : cuda_gradw (fun z : Z => z) (fun z => z) Z.mul Z.add [1; 0] [1; 2; 3]%Z [1; 10]%Z (repeat (Some 0%Z) 2)
    (gradw_metadata (from_shape [1;1;3]) (from_shape [1;1;2]) [1;1;2] [1] [0] [1] 1) = Some [21; 32]%Z /\
  t_gradw 0%Z Z.add Z.mul 1 (cz [1; 2; 3]%Z [1;1;3]) (cz [1; 10]%Z [1;1;2]) [1;1;2] 1 0 1 = Ok (cz [21; 32]%Z [1;1;2]).
Proof. split; vm_compute; reflexivity. Qed.
(** The buffer is not of zeros: no gradient of a weight with elements has a determined value. *)
Theorem C147_gradw_refuted : forall A T (up : A -> T) (down : T -> A) mul plus log nd (t g : tensor A) ws s p d r,
  0 < nelem ws -> cuda_t_gradw up down mul plus log nd t g ws s p d <> Ok r.
Proof. intros. now apply t_gradw_none. Qed.
Print Assumptions C147_gradw_refuted.
