(** C86-C88: convolutions, transposed convolutions and their gradients. *)
From Coq Require Import List Arith ZArith Bool Lia Reals.
From Verif Require Import Base IndexSpec LayoutModel ViewSpec KernelModel TensorModel TensorSpec TensorProofs
  LayoutProofs ShapeGradModel ConvModel ConvSpec ConvProofs ConvProofs2 ConvProofs4 ConvProofs5 ConvReal.
Import ListNotations.
Open Scope nat_scope.

Definition mz (l : list Z) (s : list nat) : tensor Z := mkT l (from_shape s).
Definition conv_z := t_conv 0%Z Z.add Z.mul.
Definition conv2d_f32_z := t_conv2d_blas 0%Z Z.add Z.mul.
Definition conv_transpose_z := t_conv_transpose 0%Z Z.add Z.mul.

(** ** C86 *)
(** Any number of spatial axes; operands in row-major order from any offset.  Element
    [b, oc, o] is the sum of the products of the input and weight elements that meet. *)
Theorem C86_conv_partial : forall A (zero : A) add mul nd (t w : tensor A) s p d B C Co isp ker X W,
  good t -> good w -> dense t -> dense w ->
  tshape t = B :: C :: isp -> tshape w = Co :: C :: ker -> length isp = nd -> length ker = nd ->
  0 < s -> Forall2 (fun n k => 0 < k /\ d * (k - 1) < n + 2 * p) isp ker ->
  (forall i, valid (tshape t) i -> elem t i = Some (X i)) ->
  (forall i, valid (tshape w) i -> elem w i = Some (W i)) ->
  exists r osp, t_conv zero add mul nd t w s p d = Ok r /\ good r /\ tshape r = B :: Co :: osp /\
    out_lens isp ker s p d osp /\
    forall b oc o, valid (B :: Co :: osp) (b :: oc :: o) ->
      elem r (b :: oc :: o) = Some (fold_left add (conv_terms mul s p d X W C ker isp b oc o) zero).
Proof. exact @t_conv_spec. Qed.
Print Assumptions C86_conv_partial.

(** Operands of the wrong rank or with different channel counts are answered with an error. *)
Theorem C86_rejected : forall A (zero : A) add mul nd (t w : tensor A) s p d,
  length (tshape t) <> nd + 2 \/ length (tshape w) <> nd + 2 \/ nth 1 (tshape t) 0 <> nth 1 (tshape w) 0 ->
  t_conv zero add mul nd t w s p d = Err EShape.
Proof.
  intros A zero add mul nd t w s p d H. unfold t_conv, t_conv_with. fold (tshape t). fold (tshape w).
  destruct (Nat.eqb_spec (length (tshape t)) (nd + 2)); [|reflexivity].
  destruct (Nat.eqb_spec (length (tshape w)) (nd + 2)); [|reflexivity].
  destruct (Nat.eqb_spec (nth 1 (tshape t) 0) (nth 1 (tshape w) 0)); [|reflexivity]. exfalso; tauto.
Qed.
Print Assumptions C86_rejected.

(** A strided view as input: the strides are not used. *)
Theorem C86_view_refuted : exists (t w r : tensor Z) (X W : list nat -> Z),
  good t /\ good w /\ tshape t = [1;2;2] /\ tshape w = [1;2;1] /\
  (forall i, valid (tshape t) i -> elem t i = Some (X i)) /\ (forall i, valid (tshape w) i -> elem w i = Some (W i)) /\
  conv_z 1 t w 1 0 1 = Ok r /\ valid (tshape r) [0;0;0] /\
  elem r [0;0;0] <> Some (fold_left Z.add (conv_terms Z.mul 1 0 1 X W 2 [1] [2] 0 0 [0]) 0%Z).
Proof.
  exists (mkT [1;2;3;4]%Z (mkLayout [1;2;2] [4;1;2] 0)), (mz [1;10]%Z [1;2;1]), (mz [31;42]%Z [1;1;2]),
    (fun i => nth (ravel [1;2;2] i) [1;3;2;4]%Z 0%Z), (fun i => nth (ravel [1;2;1] i) [1;10]%Z 0%Z).
  split.
  { split; [reflexivity|]. intros i V. destruct i as [|a [|b [|c [|]]]]; cbn in V; try tauto. unfold addr. cbn. lia. }
  split; [now apply from_shape_good|]. split; [reflexivity|]. split; [reflexivity|].
  split; [|split].
  1,2: intros i V; apply in_all_idx in V; vm_compute in V; repeat (destruct V as [<-|V]; [reflexivity|]); destruct V.
  split; [vm_compute; reflexivity|]. split; [cbn; lia|]. vm_compute. discriminate.
Qed.
Print Assumptions C86_view_refuted.

(** A kernel that does not fit in the padded input, or a stride of zero, panics. *)
Theorem C86_size_refuted :
  ~ (forall (t w : tensor Z) s p d, good t -> good w -> conv_z 1 t w s p d <> Panic).
Proof.
  intros H. apply (H (mz [1;2]%Z [1;1;2]) (mz [1;2;3]%Z [1;1;3]) 1 0 1).
  - apply from_shape_good. reflexivity.
  - apply from_shape_good. reflexivity.
  - vm_compute. reflexivity.
Qed.
Print Assumptions C86_size_refuted.
Example C86_stride_zero : conv_z 1 (mz [1;2]%Z [1;1;2]) (mz [1]%Z [1;1;1]) 0 0 1 = Panic.
Proof. reflexivity. Qed.

(** conv2d of f32 and f64 (im2col and gemm): what it computes, for all operands, ... *)
Theorem C86_blas_computes : forall A (zero : A) add mul (t w : tensor A) s p d B C Co isp ker X W,
  good t -> good w -> dense t -> dense w ->
  tshape t = B :: C :: isp -> tshape w = Co :: C :: ker -> length isp = 2 -> length ker = 2 ->
  0 < s -> Forall2 (fun n k => 0 < k /\ d * (k - 1) < n + 2 * p) isp ker ->
  (forall i, valid (tshape t) i -> elem t i = Some (X i)) ->
  (forall i, valid (tshape w) i -> elem w i = Some (W i)) ->
  exists r osp, t_conv2d_blas zero add mul t w s p d = Ok r /\ good r /\ tshape r = B :: Co :: osp /\
    out_lens isp ker s p d osp /\
    forall b oc o, valid (B :: Co :: osp) (b :: oc :: o) ->
      elem r (b :: oc :: o) = Some (fold_left add (blas_terms zero mul s p d X W C ker isp osp b oc o) zero).
Proof. exact @t_conv2d_blas_spec. Qed.
Print Assumptions C86_blas_computes.
(** ... which is the convolution if there is one output position or one weight per output
    channel (products commute, and adding a product by zero changes nothing) ... *)
Theorem C86_blas_partial : forall A (zero : A) add mul (t w : tensor A) s p d B C Co isp ker X W,
  (forall x y, mul x y = mul y x) -> (forall x y, add x (mul y zero) = x) ->
  good t -> good w -> dense t -> dense w ->
  tshape t = B :: C :: isp -> tshape w = Co :: C :: ker -> length isp = 2 -> length ker = 2 ->
  0 < s -> Forall2 (fun n k => 0 < k /\ d * (k - 1) < n + 2 * p) isp ker ->
  (forall i, valid (tshape t) i -> elem t i = Some (X i)) ->
  (forall i, valid (tshape w) i -> elem w i = Some (W i)) ->
  exists r osp, t_conv2d_blas zero add mul t w s p d = Ok r /\ tshape r = B :: Co :: osp /\ out_lens isp ker s p d osp /\
    (nelem osp = 1 \/ nelem (C :: ker) = 1 ->
     forall b oc o, valid (B :: Co :: osp) (b :: oc :: o) ->
       elem r (b :: oc :: o) = Some (fold_left add (conv_terms mul s p d X W C ker isp b oc o) zero)).
Proof.
  intros A zero add mul t w s p d B C Co isp ker X W MC PA Gt Gw Dt Dw St Sw Li Lk Hs F HX HW.
  destruct (t_conv2d_blas_spec zero add mul t w s p d B C Co isp ker X W) as (r & osp & E & _ & S & O & N); auto.
  exists r, osp. split; [auto|]. split; [auto|]. split; [auto|]. intros H b oc o V. rewrite N by auto. f_equal.
  pose proof (out_lens_length _ _ _ _ _ _ O) as [L _].
  apply blas_terms_ok; auto; try lia. cbn in V. tauto.
Qed.
Print Assumptions C86_blas_partial.
(** ... and is not in general. *)
Theorem C86_blas_refuted :
  ~ (forall (t w : tensor Z), good t -> good w -> loffset (tlay t) = 0 -> loffset (tlay w) = 0 -> conv2d_f32_z t w 1 0 1 = conv_z 2 t w 1 0 1).
Proof.
  intros H. specialize (H (mz [1;2;3;4]%Z [1;1;1;4]) (mz [1;10]%Z [1;1;1;2])).
  assert (E : conv2d_f32_z (mz [1;2;3;4]%Z [1;1;1;4]) (mz [1;10]%Z [1;1;1;2]) 1 0 1 = Ok (mz [31;32;42]%Z [1;1;1;3]))
    by (vm_compute; reflexivity).
  rewrite E in H. assert (E2 : conv_z 2 (mz [1;2;3;4]%Z [1;1;1;4]) (mz [1;10]%Z [1;1;1;2]) 1 0 1 = Ok (mz [21;32;43]%Z [1;1;1;3]))
    by (vm_compute; reflexivity).
  rewrite E2 in H. discriminate H; try reflexivity; apply from_shape_good; reflexivity.
Qed.
Print Assumptions C86_blas_refuted.

(** a 2d example with padding, stride, dilation and two channels *)
Example C86_example :
  let t := mz [1;2;3;4;5;6; 7;8;9;10;11;12]%Z [1;2;2;3] in
  let w := mz [1;2; 3;4]%Z [1;2;1;2] in
  exists r, conv_z 2 t w 2 1 2 = Ok r /\ tshape r = [1;1;2;2] /\
    elem r [0;0;1;0] = Some (fold_left Z.add (conv_terms Z.mul 2 1 2
       (fun i => nth (ravel [1;2;2;3] i) [1;2;3;4;5;6;7;8;9;10;11;12]%Z 0%Z) (fun i => nth (ravel [1;2;1;2] i) [1;2;3;4]%Z 0%Z)
       2 [1;2] [2;3] 0 0 [1;0]) 0%Z).
Proof. eexists. split; [vm_compute; reflexivity|]. split; vm_compute; reflexivity. Qed.

(** ** C87 *)
(** The weight is documented as [out, in, kernel].  With one input or one output channel
    and no output padding, element [b, oc, o] is the sum over the input and weight elements
    that meet.  Missing: several channels on both sides and output padding (refuted below). *)
Theorem C87_transpose_partial : forall A (zero : A) add mul nd (t w : tensor A) s p d B C Co isp ker X W,
  C = 1 \/ Co = 1 ->
  good t -> good w -> dense t -> dense w -> tshape t = B :: C :: isp -> tshape w = Co :: C :: ker ->
  length isp = nd -> length ker = nd ->
  Forall2 (fun n k => 0 < n /\ 0 < k /\ 2 * p <= (n - 1) * s) isp ker ->
  (forall i, valid (tshape t) i -> elem t i = Some (X i)) ->
  (forall i, valid (tshape w) i -> elem w i = Some (W i)) ->
  exists r osp, t_conv_transpose zero add mul nd t w s p 0 d = Ok r /\ good r /\ tshape r = B :: Co :: osp /\
    t_out_lens isp ker s p d 0 osp /\
    forall b oc o, valid (B :: Co :: osp) (b :: oc :: o) ->
      elem r (b :: oc :: o) =
      Some (fold_left add (conv_t_terms mul s p d X W (fun ic oc k => oc :: ic :: k) C ker isp b oc o) zero).
Proof.
  intros A zero add mul nd t w s p d B C Co isp ker X W H1 Gt Gw Dt Dw St Sw Li Lk F HX HW.
  destruct (t_conv_transpose_spec zero add mul nd t w s p d B C Co isp ker X
     (fun i => match i with ic :: oc :: k => W (oc :: ic :: k) | _ => zero end))
    as (r & osp & E & Gr & _ & S & O & N); auto.
  - intros i V. destruct i as [|ic [|oc k]]; [destruct V|destruct V as [_ []]|]. destruct V as (V1 & V2 & V3).
    assert (V : valid (tshape w) (oc :: ic :: k)) by (rewrite Sw; cbn; auto).
    rewrite <- (HW _ V). rewrite <- (dense_read _ w _ Dw V). f_equal. f_equal. rewrite Sw. rewrite !ravel2.
    destruct H1; subst; [assert (ic = 0) as -> by lia|assert (oc = 0) as -> by lia]; lia.
  - exists r, osp. repeat (split; [assumption|]). exact N.
Qed.
Print Assumptions C87_transpose_partial.
(** What is computed with as many output as input channels: the weight read as [in, out, kernel]. *)
Theorem C87_square_computes : forall A (zero : A) add mul nd (t w : tensor A) s p d B C isp ker X W,
  good t -> good w -> dense t -> dense w -> tshape t = B :: C :: isp -> tshape w = C :: C :: ker ->
  length isp = nd -> length ker = nd ->
  Forall2 (fun n k => 0 < n /\ 0 < k /\ 2 * p <= (n - 1) * s) isp ker ->
  (forall i, valid (tshape t) i -> elem t i = Some (X i)) ->
  (forall i, valid (tshape w) i -> elem w i = Some (W i)) ->
  exists r osp, t_conv_transpose zero add mul nd t w s p 0 d = Ok r /\ good r /\ tshape r = B :: C :: osp /\
    t_out_lens isp ker s p d 0 osp /\
    forall b oc o, valid (B :: C :: osp) (b :: oc :: o) ->
      elem r (b :: oc :: o) =
      Some (fold_left add (conv_t_terms mul s p d X W (fun ic oc k => ic :: oc :: k) C ker isp b oc o) zero).
Proof.
  intros A zero add mul nd t w s p d B C isp ker X W Gt Gw Dt Dw St Sw Li Lk F HX HW.
  destruct (t_conv_transpose_spec zero add mul nd t w s p d B C C isp ker X W)
    as (r & osp & E & Gr & _ & S & O & N); auto.
  - intros i V. rewrite <- Sw in V |- *. rewrite dense_read by auto. auto.
  - exists r, osp. repeat (split; [assumption|]). exact N.
Qed.
Print Assumptions C87_square_computes.
Theorem C87_rejected : forall A (zero : A) add mul nd (t w : tensor A) s p e d,
  length (tshape t) <> nd + 2 \/ length (tshape w) <> nd + 2 \/ nth 1 (tshape t) 0 <> nth 1 (tshape w) 0 ->
  t_conv_transpose zero add mul nd t w s p e d = Err EShape.
Proof.
  intros A zero add mul nd t w s p e d H. unfold t_conv_transpose. fold (tshape t). fold (tshape w).
  destruct (Nat.eqb_spec (length (tshape t)) (nd + 2)); [|reflexivity].
  destruct (Nat.eqb_spec (length (tshape w)) (nd + 2)); [|reflexivity].
  destruct (Nat.eqb_spec (nth 1 (tshape t) 0) (nth 1 (tshape w) 0)); [|reflexivity]. exfalso; tauto.
Qed.
Print Assumptions C87_rejected.

(** Two channels on both sides: the documented layout is not the one that is read. *)
Theorem C87_layout_refuted : exists (t w r : tensor Z),
  good t /\ good w /\ conv_transpose_z 1 t w 1 0 0 1 = Ok r /\ tshape t = [1;2;1] /\ tshape w = [2;2;1] /\
  elem r [0;0;0] <> Some (fold_left Z.add (conv_t_terms Z.mul 1 0 1
     (fun i => nth (ravel [1;2;1] i) [1;10]%Z 0%Z) (fun i => nth (ravel [2;2;1] i) [1;2;3;4]%Z 0%Z)
     (fun ic oc k => oc :: ic :: k) 2 [1] [1] 0 0 [0]) 0%Z) /\
  (forall i, valid [1;2;1] i -> elem t i = Some (nth (ravel [1;2;1] i) [1;10]%Z 0%Z)) /\
  (forall i, valid [2;2;1] i -> elem w i = Some (nth (ravel [2;2;1] i) [1;2;3;4]%Z 0%Z)).
Proof.
  exists (mz [1;10]%Z [1;2;1]), (mz [1;2;3;4]%Z [2;2;1]), (mz [31;42]%Z [1;2;1]).
  split; [now apply from_shape_good|]. split; [now apply from_shape_good|].
  split; [vm_compute; reflexivity|]. split; [reflexivity|]. split; [reflexivity|].
  split; [vm_compute; discriminate|]. split; intros i V; apply in_all_idx in V; vm_compute in V;
    repeat (destruct V as [<-|V]; [reflexivity|]); destruct V.
Qed.
Print Assumptions C87_layout_refuted.
(** Output padding: the result's layout is larger than its storage. *)
Theorem C87_output_padding_refuted : exists (t w r : tensor Z) i,
  good t /\ good w /\ conv_transpose_z 1 t w 2 0 1 1 = Ok r /\ tshape r = [1;1;4] /\
  t_out_lens [2] [1] 2 0 1 1 [4] /\ valid (tshape r) i /\ elem r i = None.
Proof.
  exists (mz [1;2]%Z [1;1;2]), (mz [5]%Z [1;1;1]), (mkT [5;0;10]%Z (from_shape [1;1;4])), [0;0;3].
  split; [now apply from_shape_good|]. split; [now apply from_shape_good|].
  repeat split; cbn; lia.
Qed.
Print Assumptions C87_output_padding_refuted.
(** A padding of more than half the stretched input panics although the output has a size. *)
Theorem C87_size_refuted : exists (t w : tensor Z),
  good t /\ good w /\ tshape t = [1;1;1] /\ tshape w = [1;1;3] /\ t_out_lens [1] [3] 1 1 1 0 [1] /\
  conv_transpose_z 1 t w 1 1 0 1 = Panic.
Proof.
  exists (mz [7]%Z [1;1;1]), (mz [1;2;3]%Z [1;1;3]).
  split; [now apply from_shape_good|]. split; [now apply from_shape_good|]. repeat split.
Qed.
Print Assumptions C87_size_refuted.
Example C87_example :
  conv_transpose_z 1 (mz [1;10]%Z [1;1;2]) (mz [1;2;3; 4;5;6]%Z [2;1;3]) 2 1 0 1 =
  Ok (mz [2; 13; 20; 5; 46; 50]%Z [1;2;3]).
Proof. vm_compute. reflexivity. Qed.
Example C87_example_hyps : Forall2 (fun n k => 0 < n /\ 0 < k /\ 2 * 1 <= (n - 1) * 2) [2] [3].
Proof. repeat constructor; lia. Qed.

(** ** C88 *)
(** The backward rule of a convolution gives the gradients: for every [g] and every input
    (weight) of that shape, pairing [g] with the output equals pairing the gradient with
    the input (weight).  Reals; windows that use the whole padded input; the gradient of
    the output stored densely.  Missing: the refuted cases below. *)
Theorem C88_conv_partial : forall nd (x w g : tensor R) s p d B C Co isp ker osp,
  good x -> good w -> good g -> dense x -> dense w -> dense g ->
  tshape x = B :: C :: isp -> tshape w = Co :: C :: ker -> tshape g = B :: Co :: osp ->
  length isp = nd -> length ker = nd -> length osp = nd -> 0 < s ->
  Forall2 (fun o k => 0 < o /\ 0 < k /\ 2 * p <= (o - 1) * s) osp ker ->
  t_out_lens osp ker s p d 0 isp ->
  exists gx gw, vjp_conv 0%R Rplus Rmult nd x w g s p d = Ok (gx, gw) /\ tshape gx = tshape x /\ tshape gw = tshape w /\
    (forall x', good x' -> dense x' -> tshape x' = tshape x -> exists y,
       t_conv 0%R Rplus Rmult nd x' w s p d = Ok y /\ tshape y = tshape g /\ pairing g y = pairing gx x') /\
    (forall w', good w' -> dense w' -> tshape w' = tshape w -> exists y,
       t_conv 0%R Rplus Rmult nd x w' s p d = Ok y /\ tshape y = tshape g /\ pairing g y = pairing gw w').
Proof. exact vjp_conv_adjoint. Qed.
Print Assumptions C88_conv_partial.
(** The same for a transposed convolution with as many output as input channels. *)
Theorem C88_conv_transpose_partial : forall nd (x w g : tensor R) s p d B C isp ker osp,
  good x -> good w -> good g -> dense x -> dense w -> dense g ->
  tshape x = B :: C :: isp -> tshape w = C :: C :: ker -> tshape g = B :: C :: osp ->
  length isp = nd -> length ker = nd -> length osp = nd -> 0 < s ->
  Forall2 (fun i k => 0 < i /\ 0 < k /\ 2 * p <= (i - 1) * s) isp ker ->
  t_out_lens isp ker s p d 0 osp ->
  exists gx gw, vjp_conv_transpose 0%R Rplus Rmult nd x w g s p d = Ok (gx, gw) /\ tshape gx = tshape x /\ tshape gw = tshape w /\
    (forall x', good x' -> dense x' -> tshape x' = tshape x -> exists y,
       t_conv_transpose 0%R Rplus Rmult nd x' w s p 0 d = Ok y /\ tshape y = tshape g /\ pairing g y = pairing gx x') /\
    (forall w', good w' -> dense w' -> tshape w' = tshape w -> exists y,
       t_conv_transpose 0%R Rplus Rmult nd x w' s p 0 d = Ok y /\ tshape y = tshape g /\ pairing g y = pairing gw w').
Proof. exact vjp_conv_t_adjoint. Qed.
Print Assumptions C88_conv_transpose_partial.

Definition vjp_conv_z := vjp_conv 0%Z Z.add Z.mul.
Definition vjp_conv_transpose_z := vjp_conv_transpose 0%Z Z.add Z.mul.
(** The loss [sum (conv x w)]: the sum's rule hands over a broadcast view of one element,
    and the transposed convolution reads it as if it were stored densely. *)
Theorem C88_sum_refuted : exists (x w y g : tensor Z),
  good x /\ good w /\ conv_z 1 x w 1 0 1 = Ok y /\ v_sum 0%Z (tshape y) (mz [1]%Z []) = Ok g /\
  good g /\ tshape g = tshape y /\ (forall i, valid (tshape y) i -> elem g i = Some 1%Z) /\
  vjp_conv_z 1 x w g 1 0 1 = Panic.
Proof.
  exists (mz [1;2;3]%Z [1;1;3]), (mz [1;10]%Z [1;1;2]), (mz [21;32]%Z [1;1;2]), (mkT [1]%Z (mkLayout [1;1;2] [0;0;0] 0)).
  split; [now apply from_shape_good|]. split; [now apply from_shape_good|].
  split; [vm_compute; reflexivity|]. split; [vm_compute; reflexivity|]. split.
  { split; [reflexivity|]. intros i V. destruct i as [|a [|b [|c [|]]]]; cbn in V; try tauto. unfold addr. cbn. lia. }
  split; [reflexivity|]. split; [|vm_compute; reflexivity].
  intros i V. apply in_all_idx in V. vm_compute in V. repeat (destruct V as [<-|V]; [reflexivity|]); destruct V.
Qed.
Print Assumptions C88_sum_refuted.
(** Stride 2 over four elements with a kernel of one: the last element is not under any
    window, and the gradient has three elements. *)
Theorem C88_remainder_refuted : exists (x w y gx gw : tensor Z),
  good x /\ good w /\ conv_z 1 x w 2 0 1 = Ok y /\ vjp_conv_z 1 x w (mz [1;1]%Z (tshape y)) 2 0 1 = Ok (gx, gw) /\
  tshape gx <> tshape x.
Proof.
  exists (mz [1;2;3;4]%Z [1;1;4]), (mz [5]%Z [1;1;1]), (mz [5;15]%Z [1;1;2]), (mz [5;0;5]%Z [1;1;3]), (mz [4]%Z [1;1;1]).
  split; [now apply from_shape_good|]. split; [now apply from_shape_good|].
  split; [vm_compute; reflexivity|]. split; [vm_compute; reflexivity|]. discriminate.
Qed.
Print Assumptions C88_remainder_refuted.
(** A transposed convolution from one channel to two runs forward and not backward. *)
Theorem C88_channels_refuted : exists (x w y : tensor Z),
  good x /\ good w /\ good y /\ conv_transpose_z 1 x w 1 0 0 1 = Ok y /\ vjp_conv_transpose_z 1 x w y 1 0 1 = Err EShape.
Proof.
  exists (mz [7]%Z [1;1;1]), (mz [1;2]%Z [2;1;1]), (mz [7;14]%Z [1;2;1]).
  split; [now apply from_shape_good|]. split; [now apply from_shape_good|]. split; [now apply from_shape_good|].
  split; vm_compute; reflexivity.
Qed.
Print Assumptions C88_channels_refuted.
(** The f32 / f64 weight gradient of conv2d (im2col and gemm). *)
Theorem C88_blas_refuted : exists (x g a b : tensor Z),
  good x /\ good g /\ t_gradw_with 0%Z (gradw_blas 0%Z Z.add Z.mul) 2 x g [1;1;1;2] 1 0 1 = Ok a /\
  t_gradw 0%Z Z.add Z.mul 2 x g [1;1;1;2] 1 0 1 = Ok b /\ a <> b.
Proof.
  exists (mz [1;2;3;4]%Z [1;1;1;4]), (mz [1;10;100]%Z [1;1;1;3]), (mz [221;433]%Z [1;1;1;2]), (mz [321;432]%Z [1;1;1;2]).
  split; [now apply from_shape_good|]. split; [now apply from_shape_good|].
  split; [vm_compute; reflexivity|]. split; [vm_compute; reflexivity|]. discriminate.
Qed.
Print Assumptions C88_blas_refuted.
(** strided, padded, two channels: a case covered by [C88_conv_partial] *)
Example C88_example_hyps :
  t_out_lens [2] [3] 2 1 1 0 [3] /\ Forall2 (fun o k => 0 < o /\ 0 < k /\ 2 * 1 <= (o - 1) * 2) [2] [3].
Proof. split; [repeat split|]. repeat constructor; lia. Qed.
Example C88_example :
  vjp_conv_z 1 (mz [1;2;3; 4;5;6]%Z [1;2;3]) (mz [1;2;3; 4;5;6]%Z [1;2;3]) (mz [1;10]%Z [1;1;2]) 2 1 1 =
  Ok (mz [2;13;20; 5;46;50]%Z [1;2;3], mz [20;31;2; 50;64;5]%Z [1;2;3]).
Proof. vm_compute. reflexivity. Qed.
