(** C148: resize on CUDA. *)
From Coq Require Import List Arith ZArith Bool Lia QArith Qcanon SpecFloat.
From Verif Require Import Base IndexSpec LayoutModel ViewSpec LayoutProofs KernelModel TensorModel TensorSpec TensorProofs.
From Verif Require Import ResizeModel ResizeSpec ResizeProofs ResizeProofs2 LaunchModel LaunchSpec CudaIndexProofs2 CudaResizeModel CudaResizeProofs PropResize.
Import ListNotations.
Local Open Scope nat_scope.

(** Whatever the arithmetic, whatever is contracted and under every schedule that ends, no
    read or write is out of bounds, and every element is determined. *)
Theorem C148_in_bounds_partial : forall F A sched (ar : arith F) kc (to_f : A -> F) from_f (t : tensor A) size mode tr near B C isp,
  ending sched -> good t -> tshape t = B :: C :: isp -> length isp = 2 \/ length isp = 3 -> length size = length isp ->
  Forall (fun n => 0 < n) isp -> (Z.of_nat (nelem (B :: C :: size)) <= 2 ^ 32 - 256)%Z ->
  exists r, cuda_t_resize sched ar kc to_f from_f t size mode tr near = Ok r /\ good r /\ tshape r = B :: C :: size.
Proof. intros F A sched ar kc to_f from_f t size mode tr near B C isp EN G St R L P N. exact (t_resize_total sched ar kc to_f from_f EN t size mode tr near B C isp G St R L P N). Qed.
Print Assumptions C148_in_bounds_partial.
Theorem C148_errors : forall F A sched (ar : arith F) kc (to_f : A -> F) from_f dflt (t : tensor A) size mode tr near e,
  t_resize ar to_f from_f dflt t size mode tr near = Err e <-> cuda_t_resize sched ar kc to_f from_f t size mode tr near = Err e.
Proof. intros. apply t_resize_err. Qed.
Print Assumptions C148_errors.
(** The result is that of the CPU, bit for bit, if nothing is contracted; ... *)
Theorem C148_same_partial : forall F A sched (ar : arith F) (to_f : A -> F) from_f dflt (t : tensor A) size mode tr near r,
  ending sched -> good t -> (Z.of_nat (nelem (tshape r)) <= 2 ^ 32 - 256)%Z ->
  t_resize ar to_f from_f dflt t size mode tr near = Ok r ->
  cuda_t_resize sched ar (separate ar) to_f from_f t size mode tr near = Ok r.
Proof.
  intros F A sched ar to_f from_f dflt t size mode tr near r EN G. apply (t_resize_same sched); auto.
  - right. right. reflexivity.
  - destruct mode; [left; reflexivity|right; left; auto|right; right; auto].
Qed.
Print Assumptions C148_same_partial.
(** ... and, whatever is contracted, for the nearest element if coordinates are asymmetric or
    the corners aligned. *)
Theorem C148_nearest_same_partial : forall F A sched (ar : arith F) kc (to_f : A -> F) from_f dflt (t : tensor A) size tr near r,
  tr = Asymmetric \/ tr = AlignCorners ->
  ending sched -> good t -> (Z.of_nat (nelem (tshape r)) <= 2 ^ 32 - 256)%Z ->
  t_resize ar to_f from_f dflt t size RNearest tr near = Ok r ->
  cuda_t_resize sched ar kc to_f from_f t size RNearest tr near = Ok r.
Proof.
  intros F A sched ar kc to_f from_f dflt t size tr near r T EN G. apply t_resize_same; auto.
  - destruct T; [left|right; left]; assumption.
  - now left.
Qed.
Print Assumptions C148_nearest_same_partial.

(** ** Exactly computed coordinates *)
Definition cuda_rsq sched := cuda_t_resize sched exact (separate exact) (fun x : Qc => x) (fun x => x).
Theorem C148_nearest_partial : forall sched B C isp size, ending sched ->
  length isp = 2 \/ length isp = 3 -> length size = length isp ->
  Forall (fun n => 0 < n) isp -> (Z.of_nat (nelem (B :: C :: size)) <= 2 ^ 32 - 256)%Z ->
  forall A (to_f : A -> Qc) from_f (t : tensor A) tr near, good t -> tshape t = B :: C :: isp ->
  exists r, cuda_t_resize sched exact (separate exact) to_f from_f t size RNearest tr near = Ok r /\ good r /\ tshape r = B :: C :: size /\
    forall b c o, valid (B :: C :: size) (b :: c :: o) ->
      elem r (b :: c :: o) = elem t (b :: c :: near_idx near isp (src_coords tr isp size o)).
Proof.
  intros sched B C isp size EN R L P N A to_f from_f t tr near G St.
  destruct (tstore t) as [|d st] eqn:Et.
  { destruct (C148_in_bounds_partial _ _ sched exact (separate exact) to_f from_f t size RNearest tr near B C isp EN G St R L P N) as (r & E & Gr & Sr).
    exists r. split; [exact E|]. split; [exact Gr|]. split; [exact Sr|]. intros b c o (V1 & V2 & _). exfalso.
    assert (V : valid (tshape t) (b :: c :: map (fun _ => 0) isp)).
    { rewrite St. cbn [valid]. split; [exact V1|]. split; [exact V2|]. clear - P. induction P; cbn; auto. }
    pose proof (proj2 G _ V) as LT. rewrite Et in LT. cbn in LT. lia. }
  destruct (C89_nearest_partial B C isp size R L P A to_f from_f d t tr near G St) as (r & E & Gr & Sr & V).
  exists r. split; [|auto]. apply (C148_same_partial Qc A sched exact to_f from_f d); auto. now rewrite Sr.
Qed.
Print Assumptions C148_nearest_partial.
Theorem C148_linear_partial : forall sched B C isp size, ending sched ->
  length isp = 2 \/ length isp = 3 -> length size = length isp ->
  Forall (fun n => 0 < n) isp -> (Z.of_nat (nelem (B :: C :: size)) <= 2 ^ 32 - 256)%Z ->
  forall (t : tensor Qc) tr near X, good t -> tshape t = B :: C :: isp ->
  (forall i, valid (tshape t) i -> elem t i = Some (X i)) ->
  exists r, cuda_rsq sched t size RLinear tr near = Ok r /\ good r /\ tshape r = B :: C :: size /\
    forall b c o, valid (B :: C :: size) (b :: c :: o) ->
      elem r (b :: c :: o) = Some (interp lin1 isp (src_coords tr isp size o) (fun p => X (b :: c :: p))).
Proof.
  intros sched B C isp size EN R L P N t tr near X G St HX.
  destruct (C90_linear_partial B C isp size R L P t tr near X G St HX) as (r & E & Gr & Sr & V).
  exists r. split; [|auto]. apply (C148_same_partial _ _ sched exact _ _ 0%Qc); auto. now rewrite Sr.
Qed.
Print Assumptions C148_linear_partial.
Theorem C148_cubic_partial : forall sched B C isp size, ending sched ->
  length isp = 2 -> length size = length isp ->
  Forall (fun n => 0 < n) isp -> (Z.of_nat (nelem (B :: C :: size)) <= 2 ^ 32 - 256)%Z ->
  forall (t : tensor Qc) tr near X, good t -> tshape t = B :: C :: isp ->
  (forall i, valid (tshape t) i -> elem t i = Some (X i)) ->
  exists r, cuda_rsq sched t size RCubic tr near = Ok r /\ good r /\ tshape r = B :: C :: size /\
    forall b c o, valid (B :: C :: size) (b :: c :: o) ->
      elem r (b :: c :: o) = Some (interp cub1 isp (src_coords tr isp size o) (fun p => X (b :: c :: p))).
Proof.
  intros sched B C isp size EN R L P N t tr near X G St HX.
  destruct (C90_cubic_partial B C isp size (or_introl R) L P t tr near X R G St HX) as (r & E & Gr & Sr & V).
  exists r. split; [|auto]. apply (C148_same_partial _ _ sched exact _ _ 0%Qc); auto. now rewrite Sr.
Qed.
Print Assumptions C148_cubic_partial.
(** 1 2 3 4 to six elements; 0 1 to three, linearly *)
Example C148_ex :
  (exists r, cuda_rsq swift (qt [1;2;3;4]%Z [1;1;1;4]) [1;6] RNearest HalfPixel NRoundFloor = Ok r /\
    map this (tstore r) = map inject_Z [1;1;2;3;3;4]%Z) /\
  (exists r, cuda_rsq swift (qt [0;1]%Z [1;1;1;2]) [1;3] RLinear AlignCorners NFloor = Ok r /\
    map this (tstore r) = [0; 1 # 2; 1]%Q).
Proof.
  split.
  - eexists. split.
    + apply (C148_same_partial _ _ swift exact _ _ 0%Qc); [exact swift_ending|now apply qt_good| |vm_compute; reflexivity]. now vm_compute.
    + reflexivity.
  - eexists. split.
    + apply (C148_same_partial _ _ swift exact _ _ 0%Qc); [exact swift_ending|now apply qt_good| |vm_compute; reflexivity]. now vm_compute.
    + reflexivity.
Qed.
Example C148_errors_ex : cuda_rsq swift (qt [0;1]%Z [1;1;2]) [3] RLinear AlignCorners NFloor = Err ELayout.
Proof. reflexivity. Qed.

(** ** False of f32 *)
(** The kernels are compiled with --fmad=true.  If the one expression of the coordinates that
    can be contracted is, three elements resized to nineteen differ from the CPU, which here
    has the element of the exact coordinate: element 9 is element 0, not element 1. *)
Definition three : tensor Z := mkT [0;1;2]%Z (from_shape [1;1;3;1]).
Theorem C148_contracted_refuted : forall sched, ending sched ->
  exists r r', cuda_t_resize sched binary32 fused32 sf_int (a_floor binary32) three [19;1] RNearest HalfPixel NFloor = Ok r /\
    t_resize binary32 sf_int (a_floor binary32) 0%Z three [19;1] RNearest HalfPixel NFloor = Ok r' /\
    near_idx NFloor [3;1] (src_coords HalfPixel [3;1] [19;1] [9;0]) = [1;0] /\
    elem r' [0;0;9;0] = Some 1%Z /\ elem r [0;0;9;0] = Some 0%Z.
Proof.
  intros sched EN. eexists. eexists. split.
  - apply (t_resize_turns sched binary32 fused32 sf_int (a_floor binary32) EN 0%Z three [19;1]).
    + now apply from_shape_good.
    + now left.
    + reflexivity.
    + now vm_compute.
    + vm_compute. reflexivity.
  - split; [vm_compute; reflexivity|]. split; [vm_compute; reflexivity|]. split; vm_compute; reflexivity.
Qed.
Print Assumptions C148_contracted_refuted.
(** Asymmetric coordinates round, whatever is contracted, as they do on the CPU: element 11 of 26
    elements resized to 22 is element 12, and the exact coordinate is that of element 13. *)
Theorem C148_f32_refuted : forall sched kc, ending sched ->
  let t := mkT (map Z.of_nat (seq 0 26)) (from_shape [1;1;26;1]) in
  exists r, cuda_t_resize sched binary32 kc sf_int (a_floor binary32) t [22;1] RNearest Asymmetric NFloor = Ok r /\
    near_idx NFloor [26;1] (src_coords Asymmetric [26;1] [22;1] [11;0]) = [13;0] /\
    elem t [0;0;13;0] = Some 13%Z /\ elem r [0;0;11;0] = Some 12%Z.
Proof.
  intros sched kc EN t. eexists. split.
  - apply (C148_nearest_same_partial _ _ sched binary32 kc sf_int (a_floor binary32) 0%Z t [22;1] Asymmetric NFloor); auto.
    + now apply from_shape_good.
    + instantiate (1 := mkT _ (from_shape [1;1;22;1])). now vm_compute.
    + vm_compute. reflexivity.
  - split; [vm_compute; reflexivity|]. split; vm_compute; reflexivity.
Qed.
Print Assumptions C148_f32_refuted.
(** An empty spatial axis is read from, not rejected: every mode, every contraction, every
    schedule, every number of output elements. *)
Theorem C148_empty_refuted : forall F A sched (ar : arith F) kc (to_f : A -> F) from_f (t : tensor A) size mode tr near,
  ending sched -> tstore t = [] -> good t -> length (tshape t) = 4 \/ length (tshape t) = 5 -> length size = length (tshape t) - 2 ->
  0 < nelem (nth 0 (tshape t) 0 :: nth 1 (tshape t) 0 :: size) ->
  (Z.of_nat (nelem (nth 0 (tshape t) 0%nat :: nth 1 (tshape t) 0%nat :: size)) <= 2 ^ 32 - 256)%Z ->
  cuda_t_resize sched ar kc to_f from_f t size mode tr near = Panic.
Proof. intros F A sched ar kc to_f from_f t size mode tr near EN. now apply t_resize_none. Qed.
Print Assumptions C148_empty_refuted.
Example C148_empty_ex : cuda_rsq swift (qt [] [1;1;0;1]) [2;1] RCubic HalfPixel NFloor = Panic.
Proof.
  unfold cuda_rsq. apply C148_empty_refuted; [exact swift_ending|reflexivity|now apply qt_good|now left|reflexivity| |now vm_compute].
  apply Nat.ltb_lt. reflexivity.
Qed.

(** The fused operation of the witness rounds x * y - z once: [n] and [e] are its exact value. *)
Theorem C148_rounded_once : forall sx mx ex sy my ey sz mz ez, let sgn (s : bool) m := (if s then Z.neg m else Z.pos m) in
  exists n e, sf_mulsub (S754_finite sx mx ex) (S754_finite sy my ey) (S754_finite sz mz ez) = binary_normalize 24 128 n e false /\
    forall k, (k <= e -> k <= ex + ey -> k <= ez ->
      n * 2 ^ (e - k) = sgn sx mx * sgn sy my * 2 ^ (ex + ey - k) - sgn sz mz * 2 ^ (ez - k))%Z.
Proof.
  intros sx mx ex sy my ey sz mz ez sgn. eexists _, _. split; [reflexivity|]. intros k H1 H2 H3. cbv zeta in *.
  rewrite Z.mul_sub_distr_r, <- !Z.mul_assoc, <- !Z.pow_add_r by lia. unfold sf_signed, sgn.
  replace (ex + ey - Z.min (ex + ey) ez + (Z.min (ex + ey) ez - k))%Z with (ex + ey - k)%Z by lia.
  now replace (ez - Z.min (ex + ey) ez + (Z.min (ex + ey) ez - k))%Z with (ez - k)%Z by lia.
Qed.
Print Assumptions C148_rounded_once.
(** (1 + 2^-12)^2 - 1 = 2^-11 + 2^-24, which twice rounded is 2^-11 *)
Example C148_rounded_once_ex : let a := S754_finite false 8390656 (-23) in let one := S754_finite false 8388608 (-23) in
  sf_mulsub a a one = S754_finite false 8389632 (-34) /\ SFsub 24 128 (SFmul 24 128 a a) one = S754_finite false 8388608 (-34).
Proof. split; vm_compute; reflexivity. Qed.
