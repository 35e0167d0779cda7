(** C147, continued: convolutions on CUDA with [sum += x * w] contracted, as compiled. *)
From Coq Require Import List Arith ZArith Bool Lia SpecFloat.
From Verif Require Import Base IndexSpec LayoutModel KernelModel TensorModel TensorSpec TensorProofs ConvModel ConvSpec ConvProofs LaunchModel LaunchSpec.
From Verif Require Import CudaIndexProofs2 CudaResizeModel CudaConvModel CudaConvModel3 CudaConvProofs4 PropCudaConv.
Import ListNotations.
Local Open Scope nat_scope.

(** Whatever the compiler makes of [sum += x * w], under every schedule that ends, element
    [b, oc, o] takes that step once for each pair of elements that meet, in the order of the
    channels and of the positions in the kernel. *)
Theorem C147_contracted_partial : forall A T sched (up : A -> T) (down : T -> A) zero step nd (t w : tensor A) s p d B C Co isp ker X W,
  ending sched -> good t -> good w -> dense t -> dense w ->
  tshape t = B :: C :: isp -> tshape w = Co :: C :: ker -> length isp = nd -> length ker = nd ->
  0 < s -> Forall2 (fun n k => 0 < k /\ d * (k - 1) < n + 2 * p) isp ker ->
  (forall osp, out_lens isp ker s p d osp -> (Z.of_nat (nelem (B :: Co :: osp)) <= 2 ^ 32 - 256)%Z) ->
  (forall i, valid (tshape t) i -> elem t i = Some (X i)) ->
  (forall i, valid (tshape w) i -> elem w i = Some (W i)) ->
  exists r osp, cuda_t_conv_step sched up down zero step nd t w s p d = Ok r /\ good r /\ tshape r = B :: Co :: osp /\
    out_lens isp ker s p d osp /\
    forall b oc o, valid (B :: Co :: osp) (b :: oc :: o) ->
      elem r (b :: oc :: o) = Some (down (fold_left (fun sum xw => step sum (fst xw) (snd xw))
        (flat_map (fun ic => flat_map (fun k => flat_map (fun i =>
          if meets s p d o k i then [(up (X (b :: ic :: i)), up (W (oc :: ic :: k)))] else [])
          (all_idx isp)) (all_idx ker)) (seq 0 C)) zero)).
Proof.
  intros A T sched up down zero step nd t w s p d B C Co isp ker X W EN Gt Gw Dt Dw St Sw Li Lk Hs F N HX HW.
  destruct (C147_conv_partial A _ sched (fun x => inl (up x)) (fun a => down (value zero step a)) (inr []) fadd fmul nd t w s p d B C Co isp ker X W)
    as (r & osp & E & Gr & Sr & O & V); auto.
  exists r, osp. split; [now rewrite step_free|]. do 3 (split; [assumption|]). intros b oc o Vo. rewrite (V b oc o Vo). unfold value.
  match goal with |- context [pairs (fold_left _ ?l ?z)] => pose proof (fold_pairs l z) as FP end. unfold free in FP. rewrite FP. cbn [pairs app].
  do 3 f_equal. exact (terms_pairs s p d (fun i => up (X i)) (fun i => up (W i)) C ker isp b oc o).
Qed.
Print Assumptions C147_contracted_partial.
(** a step that is no sum of products: Horner's, over two channels *)
Example C147_contracted_ex :
  exists r osp, cuda_t_conv_step swift (fun z : Z => z) (fun z => z) 0%Z (fun s x w => 100 * s + x * w)%Z 1 (cz [1; 2; 3; 4]%Z [1;2;2]) (cz [5; 6]%Z [1;2;1]) 1 0 1 = Ok r /\
    tshape r = 1 :: 1 :: osp /\ out_lens [2] [1] 1 0 1 osp.
Proof.
  destruct (C147_contracted_partial Z Z swift (fun z => z) (fun z => z) 0%Z (fun s x w => 100 * s + x * w)%Z 1 (cz [1; 2; 3; 4]%Z [1;2;2]) (cz [5; 6]%Z [1;2;1]) 1 0 1
    1 2 1 [2] [1] (fun i => nth (ravel [1;2;2] i) [1; 2; 3; 4]%Z 0%Z) (fun i => nth (ravel [1;2;1] i) [5; 6]%Z 0%Z)) as (r & osp & E & _ & S & O & _); auto using swift_ending.
  - now apply from_shape_good.
  - now apply from_shape_good.
  - apply cz_dense.
  - apply cz_dense.
  - repeat constructor; lia.
  - intros osp O. destruct (out_lens_length _ _ _ _ _ _ O) as [L _]. destruct osp as [|o [|? ?]]; try discriminate L.
    destruct O as [O _]. assert (o = 2) as -> by (eapply out_len_inj; [exact O|]; intro q; lia). now vm_compute.
  - intros i V. apply in_all_idx in V. vm_compute in V. repeat (destruct V as [<-|V]; [reflexivity|]). destruct V.
  - intros i V. apply in_all_idx in V. vm_compute in V. repeat (destruct V as [<-|V]; [reflexivity|]). destruct V.
  - exists r, osp. auto.
Qed.
Example C147_contracted_value : cuda_t_conv_step swift (fun z : Z => z) (fun z => z) 0%Z (fun s x w => 100 * s + x * w)%Z 1 (cz [1; 2; 3; 4]%Z [1;2;2]) (cz [5; 6]%Z [1;2;1]) 1 0 1
  = Ok (cz [518; 1024]%Z [1;1;2]).
Proof. vm_compute. reflexivity. Qed.

(** Kept apart, the two operations are those of C147_same_partial. *)
Theorem C147_apart : forall A T sched (up : A -> T) (down : T -> A) zero add mul nd (t w : tensor A) s p e d,
  cuda_t_conv_step sched up down zero (fun sum x w => add sum (mul x w)) nd t w s p d = cuda_t_conv sched up down zero add mul nd t w s p d /\
  cuda_t_conv_transpose_step sched up down zero (fun sum x w => add sum (mul x w)) nd t w s p e d = cuda_t_conv_transpose sched up down zero add mul nd t w s p e d.
Proof. intros. split; reflexivity. Qed.
Print Assumptions C147_apart.
(** Transposed convolutions of the size of the convolution, with one input or one output channel ... *)
Theorem C147_contracted_transpose_partial : forall A T sched (up : A -> T) (down : T -> A) zero step nd (t w : tensor A) s p d B C Co isp ker osp X W,
  C = 1 \/ Co = 1 ->
  ending sched -> dense t -> dense w ->
  tshape t = B :: C :: isp -> tshape w = Co :: C :: ker -> length isp = nd -> length ker = nd -> 0 < s ->
  conv_t_sizes isp ker s p d 0 = Ok osp -> conv_sizes isp ker s p d = Ok osp ->
  (Z.of_nat (nelem (B :: Co :: osp)) <= 2 ^ 32 - 256)%Z ->
  (forall i, valid (tshape t) i -> elem t i = Some (X i)) ->
  (forall i, valid (tshape w) i -> elem w i = Some (W i)) ->
  exists r, cuda_t_conv_transpose_step sched up down zero step nd t w s p 0 d = Ok r /\ good r /\ tshape r = B :: Co :: osp /\
    forall b oc o, valid (B :: Co :: osp) (b :: oc :: o) ->
      elem r (b :: oc :: o) = Some (down (fold_left (fun sum xw => step sum (fst xw) (snd xw))
        (flat_map (fun ic => flat_map (fun k => flat_map (fun i =>
          if meets s p d i k o then [(up (X (b :: ic :: i)), up (W (oc :: ic :: k)))] else [])
          (all_idx isp)) (all_idx ker)) (seq 0 C)) zero)).
Proof.
  intros A T sched up down zero step nd t w s p d B C Co isp ker osp X W One EN Dt Dw St Sw Li Lk Hs E' E N HX HW.
  destruct (C147_transpose_partial A _ sched (fun x => inl (up x)) (fun a => down (value zero step a)) (inr []) fadd fmul nd t w s p d B C Co isp ker osp X W)
    as (r & Er & Gr & Sr & V); auto.
  exists r. split; [now rewrite step_t_free|]. do 2 (split; [assumption|]). intros b oc o Vo. rewrite (V b oc o Vo). unfold value.
  match goal with |- context [pairs (fold_left _ ?l ?z)] => pose proof (fold_pairs l z) as FP end. unfold free in FP. rewrite FP. cbn [pairs app].
  do 3 f_equal. exact (terms_t_pairs s p d (fun i => up (X i)) (fun i => up (W i)) (fun ic k => oc :: ic :: k) C ker isp b o).
Qed.
Print Assumptions C147_contracted_transpose_partial.
(** ... and with as many of each, the weight read with the two exchanged *)
Theorem C147_contracted_square_partial : forall A T sched (up : A -> T) (down : T -> A) zero step nd (t w : tensor A) s p d B C isp ker osp X W,
  ending sched -> dense t -> dense w ->
  tshape t = B :: C :: isp -> tshape w = C :: C :: ker -> length isp = nd -> length ker = nd -> 0 < s ->
  conv_t_sizes isp ker s p d 0 = Ok osp -> conv_sizes isp ker s p d = Ok osp ->
  (Z.of_nat (nelem (B :: C :: osp)) <= 2 ^ 32 - 256)%Z ->
  (forall i, valid (tshape t) i -> elem t i = Some (X i)) ->
  (forall i, valid (tshape w) i -> elem w i = Some (W i)) ->
  exists r, cuda_t_conv_transpose_step sched up down zero step nd t w s p 0 d = Ok r /\ good r /\ tshape r = B :: C :: osp /\
    forall b oc o, valid (B :: C :: osp) (b :: oc :: o) ->
      elem r (b :: oc :: o) = Some (down (fold_left (fun sum xw => step sum (fst xw) (snd xw))
        (flat_map (fun ic => flat_map (fun k => flat_map (fun i =>
          if meets s p d i k o then [(up (X (b :: ic :: i)), up (W (ic :: oc :: k)))] else [])
          (all_idx isp)) (all_idx ker)) (seq 0 C)) zero)).
Proof.
  intros A T sched up down zero step nd t w s p d B C isp ker osp X W EN Dt Dw St Sw Li Lk Hs E' E N HX HW.
  destruct (C147_square_partial A _ sched (fun x => inl (up x)) (fun a => down (value zero step a)) (inr []) fadd fmul nd t w s p d B C isp ker osp X W)
    as (r & Er & Gr & Sr & V); auto.
  exists r. split; [now rewrite step_t_free|]. do 2 (split; [assumption|]). intros b oc o Vo. rewrite (V b oc o Vo). unfold value.
  match goal with |- context [pairs (fold_left _ ?l ?z)] => pose proof (fold_pairs l z) as FP end. unfold free in FP. rewrite FP. cbn [pairs app].
  do 3 f_equal. exact (terms_t_pairs s p d (fun i => up (X i)) (fun i => up (W i)) (fun ic k => ic :: oc :: k) C ker isp b o).
Qed.
Print Assumptions C147_contracted_square_partial.
Example C147_contracted_transpose_ex : conv_t_sizes [3] [3] 1 1 1 0 = Ok [3] /\ conv_sizes [3] [3] 1 1 1 = Ok [3] /\
  cuda_t_conv_transpose_step swift (fun z : Z => z) (fun z => z) 0%Z (fun s x w => 1000 * s + x * w)%Z 1 (cz [1; 2; 3]%Z [1;1;3]) (cz [4; 5; 6]%Z [1;1;3]) 1 1 0 1
  = Ok (cz [8005; 12010006; 15012]%Z [1;1;3]).
Proof. repeat split; vm_compute; reflexivity. Qed.
Example C147_contracted_square_ex : conv_t_sizes [1] [1] 1 0 1 0 = Ok [1] /\ conv_sizes [1] [1] 1 0 1 = Ok [1] /\
  cuda_t_conv_transpose_step swift (fun z : Z => z) (fun z => z) 0%Z (fun s x w => 1000 * s + x * w)%Z 1 (cz [1; 10]%Z [1;2;1]) (cz [1; 2; 3; 4]%Z [2;2;1]) 1 0 0 1
  = Ok (cz [1030; 2040]%Z [1;2;1]).
Proof. repeat split; vm_compute; reflexivity. Qed.

(** C147 is false of f32 as contracted: [a, a] by [a, -a] with a = 1 + 2^-12 is 0 on the CPU
    and the -2^-24 that the first product was rounded by on CUDA. *)
Theorem C147_contracted_refuted : forall sched, ending sched ->
  let a := S754_finite false 8390656 (-23) in let a' := S754_finite true 8390656 (-23) in
  let t := mkT [a; a] (from_shape [1;1;2]) in let w := mkT [a; a'] (from_shape [1;1;2]) in
  cuda_conv_fused sched 1 t w 1 0 1 = Ok (mkT [S754_finite true 8388608 (-47)] (from_shape [1;1;1])) /\
  t_conv (S754_zero false) (SFadd 24 128) (SFmul 24 128) 1 t w 1 0 1 = Ok (mkT [S754_zero false] (from_shape [1;1;1])).
Proof.
  intros sched EN a a' t w. split; [|now vm_compute]. unfold cuda_conv_fused. rewrite step_free.
  rewrite (C147_same_partial _ _ sched (fun x => inl x) (fun a => value (S754_zero false) sf_step a) (inr []) fadd fmul 1 t w 1 0 1 (mkT [inr [(a, a); (a, a')]] (from_shape [1;1;1])) EN ltac:(now vm_compute) ltac:(now vm_compute)).
  now vm_compute.
Qed.
Print Assumptions C147_contracted_refuted.
(** The fused operation of the witness rounds sum + x * w once: [n] and [e] are its exact value. *)
Theorem C147_rounded_once : forall ss ms es sx mx ex sw mw ew, let sgn (s : bool) m := (if s then Z.neg m else Z.pos m) in
  exists n e, sf_step (S754_finite ss ms es) (S754_finite sx mx ex) (S754_finite sw mw ew) = binary_normalize 24 128 n e false /\
    forall k, (k <= e -> k <= ex + ew -> k <= es ->
      n * 2 ^ (e - k) = sgn ss ms * 2 ^ (es - k) + sgn sx mx * sgn sw mw * 2 ^ (ex + ew - k))%Z.
Proof.
  intros ss ms es sx mx ex sw mw ew sgn. eexists _, _. split; [reflexivity|]. intros k H1 H2 H3. cbv zeta in *.
  rewrite Z.mul_sub_distr_r, <- !Z.mul_assoc, <- !Z.pow_add_r by lia. unfold sf_signed, sgn.
  replace (ex + ew - Z.min (ex + ew) es + (Z.min (ex + ew) es - k))%Z with (ex + ew - k)%Z by lia.
  replace (es - Z.min (ex + ew) es + (Z.min (ex + ew) es - k))%Z with (es - k)%Z by lia. destruct ss; cbn [negb]; lia.
Qed.
Print Assumptions C147_rounded_once.
Example C147_rounded_once_ex : let a := S754_finite false 8390656 (-23) in
  sf_step (S754_finite true 8388608 (-23)) a a = S754_finite false 8389632 (-34).
Proof. vm_compute. reflexivity. Qed.
