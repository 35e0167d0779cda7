(** C89-C91: resizing. *)
From Coq Require Import List Arith ZArith Bool Lia QArith Qcanon Qround Floats.SpecFloat.
From Verif Require Import Base IndexSpec LayoutModel ViewSpec TensorModel TensorSpec TensorProofs
  ResizeModel ResizeSpec ResizeProofs ResizeProofs2 ResizeProofs3.
Import ListNotations.
Open Scope nat_scope.

Definition rs32 := t_resize binary32 (fun x => x) (fun x => x) (S754_zero false).
Definition rsq := t_resize exact (fun x => x) (fun x => x) 0%Qc.
Definition qt (l : list Z) (s : list nat) : tensor Qc := mkT (map (fun z => Q2Qc (inject_Z z)) l) (from_shape s).
Lemma qt_good : forall l s, length l = nelem s -> good (qt l s).
Proof. intros. apply from_shape_good. now rewrite map_length. Qed.

(** ** C89 *)
(** In whatever arithmetic the coordinates are computed, no read is out of bounds when the
    spatial axes are not empty, in every mode and for every view. *)
Theorem C89_in_bounds : forall F A (ar : arith F) (to_f : A -> F) from_f dflt (t : tensor A) size mode tr near B C isp,
  good t -> tshape t = B :: C :: isp -> length isp = 2 \/ length isp = 3 -> length size = length isp ->
  Forall (fun n => 0 < n) isp ->
  exists r, t_resize ar to_f from_f dflt t size mode tr near = Ok r /\ good r /\ tshape r = B :: C :: size.
Proof.
  intros F A ar to_f from_f dflt t size mode tr near B C isp G St R L P.
  destruct (t_resize_gen ar to_f from_f dflt t size mode tr near
    (fun i => match elem t i with Some v => v | None => dflt end) B C isp) as (r & E & Gr & S & _); auto.
  - intros i V. unfold elem. destruct (nth_error (tstore t) (addr (tlay t) i)) eqn:E; auto.
    apply nth_error_None in E. destruct G as [_ G]. specialize (G i V). lia.
  - exists r. auto.
Qed.
Print Assumptions C89_in_bounds.
(** Nearest: the element of the rounded source coordinate, moved to the edge if outside;
    every view, coordinates computed exactly.  Missing: coordinates rounded to binary32
    (refuted below). *)
Theorem C89_nearest_partial : forall B C isp size, length isp = 2 \/ length isp = 3 -> length size = length isp ->
  Forall (fun n => 0 < n) isp ->
  forall A (to_f : A -> Qc) from_f dflt (t : tensor A) tr near, good t -> tshape t = B :: C :: isp ->
  exists r, t_resize exact to_f from_f dflt t size RNearest tr near = Ok r /\ good r /\ tshape r = B :: C :: size /\
    forall b c o, valid (B :: C :: size) (b :: c :: o) ->
      elem r (b :: c :: o) = elem t (b :: c :: near_idx near isp (src_coords tr isp size o)).
Proof. exact t_resize_nearest_spec. Qed.
Print Assumptions C89_nearest_partial.
Theorem C89_rejected : forall F A (ar : arith F) (to_f : A -> F) from_f dflt (t : tensor A) size mode tr near,
  (length (tshape t) <> 4 /\ length (tshape t) <> 5) \/ length size <> length (tshape t) - 2 ->
  t_resize ar to_f from_f dflt t size mode tr near = Err ELayout.
Proof.
  intros F A ar to_f from_f dflt t size mode tr near H. unfold t_resize. fold (tshape t).
  destruct (Nat.eqb_spec (length (tshape t)) 4); destruct (Nat.eqb_spec (length (tshape t)) 5); cbn [negb andb]; auto;
    destruct (Nat.eqb_spec (length size) (length (tshape t) - 2)); auto; exfalso; tauto.
Qed.
Print Assumptions C89_rejected.
Example C89_example :
  match rsq (qt [1;2;3;4]%Z [1;1;1;4]) [1;6] RNearest HalfPixel NRoundFloor with
  | Ok r => map this (tstore r) = map (fun z => inject_Z z) [1;1;2;3;3;4]%Z
  | _ => False
  end.
Proof. vm_compute. reflexivity. Qed.

(** resize_nearest of f32 from 26 to 22 rows: row 11 is exactly row 13 of the input, and
    binary32 takes row 12. *)
Theorem C89_f32_refuted : exists (t : tensor Z) r,
  good t /\ tshape t = [1;1;26;1] /\
  t_resize_nearest binary32 sf_int (a_floor binary32) 0%Z t [22;1] = Ok r /\
  near_idx NFloor [26;1] (src_coords Asymmetric [26;1] [22;1] [11;0]) = [13;0] /\
  elem t [0;0;13;0] = Some 13%Z /\ elem r [0;0;11;0] = Some 12%Z.
Proof.
  exists (mkT (map Z.of_nat (seq 0 26)) (from_shape [1;1;26;1])). eexists.
  split; [now apply from_shape_good|]. split; [reflexivity|]. split; [vm_compute; reflexivity|].
  split; [vm_compute; reflexivity|]. split; vm_compute; reflexivity.
Qed.
Print Assumptions C89_f32_refuted.
(** An empty spatial axis is read from, not rejected. *)
Theorem C89_empty_refuted : exists t : tensor spec_float,
  good t /\ tshape t = [1;1;0;1] /\ forall mode tr near, rs32 t [1;1] mode tr near = Panic.
Proof.
  exists (mkT [] (from_shape [1;1;0;1])). split; [now apply from_shape_good|]. split; [reflexivity|].
  intros mode tr near. destruct mode, tr, near; vm_compute; reflexivity.
Qed.
Print Assumptions C89_empty_refuted.

(** ** C90 *)
Theorem C90_linear_partial : forall B C isp size, length isp = 2 \/ length isp = 3 -> length size = length isp ->
  Forall (fun n => 0 < n) isp ->
  forall (t : tensor Qc) tr near X, good t -> tshape t = B :: C :: isp ->
  (forall i, valid (tshape t) i -> elem t i = Some (X i)) ->
  exists r, rsq t size RLinear tr near = Ok r /\ good r /\ tshape r = B :: C :: size /\
    forall b c o, valid (B :: C :: size) (b :: c :: o) ->
      elem r (b :: c :: o) = Some (interp lin1 isp (src_coords tr isp size o) (fun p => X (b :: c :: p))).
Proof. exact t_resize_linear_spec. Qed.
Print Assumptions C90_linear_partial.
Theorem C90_cubic_partial : forall B C isp size, length isp = 2 \/ length isp = 3 -> length size = length isp ->
  Forall (fun n => 0 < n) isp ->
  forall (t : tensor Qc) tr near X, length isp = 2 -> good t -> tshape t = B :: C :: isp ->
  (forall i, valid (tshape t) i -> elem t i = Some (X i)) ->
  exists r, rsq t size RCubic tr near = Ok r /\ good r /\ tshape r = B :: C :: size /\
    forall b c o, valid (B :: C :: size) (b :: c :: o) ->
      elem r (b :: c :: o) = Some (interp cub1 isp (src_coords tr isp size o) (fun p => X (b :: c :: p))).
Proof. exact t_resize_cubic_spec. Qed.
Print Assumptions C90_cubic_partial.
(** Resizing to the same size changes nothing, in any mode. *)
Theorem C90_same_size_partial : forall (t : tensor Qc) mode tr near B C s,
  good t -> tshape t = B :: C :: s -> length s = 2 \/ length s = 3 -> Forall (fun n => 0 < n) s ->
  exists r, rsq t s mode tr near = Ok r /\ good r /\ tshape r = tshape t /\
    forall i, valid (tshape t) i -> elem r i = elem t i.
Proof. exact resize_same. Qed.
Print Assumptions C90_same_size_partial.
(** Linear interpolation leaves no value outside the range of the input. *)
Theorem C90_range_partial : forall (t : tensor Qc) size tr near B C isp lo hi X,
  good t -> tshape t = B :: C :: isp -> length isp = 2 \/ length isp = 3 -> length size = length isp ->
  Forall (fun n => 0 < n) isp -> (forall i, valid (tshape t) i -> elem t i = Some (X i)) ->
  (forall i, valid (tshape t) i -> (lo <= X i)%Qc /\ (X i <= hi)%Qc) ->
  exists r, rsq t size RLinear tr near = Ok r /\
    forall i v, valid (tshape r) i -> elem r i = Some v -> (lo <= v)%Qc /\ (v <= hi)%Qc.
Proof.
  intros t size tr near B C isp lo hi X G St R L P HX H.
  destruct (t_resize_linear_spec B C isp size R L P t tr near X G St HX) as (r & E & _ & S & N).
  exists r. split; [auto|]. intros i v V Ev. rewrite S in V.
  destruct i as [|b [|c o]]; [destruct V|destruct V as [_ []]|]. rewrite N in Ev by auto. injection Ev as <-.
  destruct V as (V1 & V2 & V3). apply lin_range; auto.
  - rewrite src_coords_length; auto. apply valid_length in V3. lia.
  - intros p Vp. apply H. rewrite St. cbn. auto.
Qed.
Print Assumptions C90_range_partial.
Example C90_example :
  match rsq (qt [0;4;8;12]%Z [1;1;2;2]) [2;4] RLinear HalfPixel NFloor with
  | Ok r => map this (tstore r) = map (fun z => inject_Z z) [0;1;3;4; 8;9;11;12]%Z
  | _ => False
  end.
Proof. vm_compute. reflexivity. Qed.
Example C90_cubic_example :
  match rsq (qt [0;8;16;24]%Z [1;1;1;4]) [1;8] RCubic Asymmetric NFloor with
  | Ok r => map this (tstore r) = [0#1; 7#2; 8#1; 12#1; 16#1; 41#2; 24#1; 49#2]%Q
  | _ => False
  end.
Proof. vm_compute. reflexivity. Qed.

(** Cubic with three spatial axes silently takes the nearest element. *)
Theorem C90_cubic3d_refuted : exists (t : tensor Qc) r v,
  good t /\ tshape t = [1;1;1;1;2] /\ rsq t [1;1;3] RCubic HalfPixel NFloor = Ok r /\
  elem r [0;0;0;0;1] = Some v /\
  v <> interp cub1 [1;1;2] (src_coords HalfPixel [1;1;2] [1;1;3] [0;0;1]) (fun p => value_or0 t (0 :: 0 :: p)).
Proof.
  exists (qt [0;1]%Z [1;1;1;1;2]). eexists. eexists. split; [now apply qt_good|]. split; [reflexivity|].
  split; [vm_compute; reflexivity|]. split; [vm_compute; reflexivity|].
  intros E. apply (f_equal this) in E. vm_compute in E. discriminate.
Qed.
Print Assumptions C90_cubic3d_refuted.
(** f32: resizing to the same size next to an infinity gives NaN. *)
Theorem C90_infinity_refuted : exists (t r : tensor spec_float),
  good t /\ tshape t = [1;1;1;2] /\ rs32 t [1;2] RLinear HalfPixel NFloor = Ok r /\
  elem t [0;0;0;0] = Some (sf_int 1) /\ elem r [0;0;0;0] = Some S754_nan.
Proof.
  exists (mkT [sf_int 1; S754_infinity false] (from_shape [1;1;1;2])). eexists.
  split; [now apply from_shape_good|]. split; [reflexivity|]. split; [vm_compute; reflexivity|].
  split; vm_compute; reflexivity.
Qed.
Print Assumptions C90_infinity_refuted.
(** f64 goes through [float]: resizing to the same size changes 2^24 + 1. *)
Definition f64_to_f32 (x : spec_float) : spec_float :=
  match x with
  | S754_finite s m e => binary_normalize 24 128 (if s then Zneg m else Zpos m) e false
  | _ => x
  end.
Theorem C90_f64_refuted : exists (t r : tensor spec_float),
  good t /\ tshape t = [1;1;1;1] /\
  t_resize binary32 f64_to_f32 (fun x => x) (S754_zero false) t [1;1] RLinear HalfPixel NFloor = Ok r /\
  option_map (a_floor binary32) (elem t [0;0;0;0]) = Some 16777217%Z /\
  option_map (a_floor binary32) (elem r [0;0;0;0]) = Some 16777216%Z.
Proof.
  exists (mkT [binary_normalize 53 1024 16777217 0 false] (from_shape [1;1;1;1])). eexists.
  split; [now apply from_shape_good|]. split; [reflexivity|]. split; [vm_compute; reflexivity|].
  split; vm_compute; reflexivity.
Qed.
Print Assumptions C90_f64_refuted.

(** ** C91 *)
(** The rule is the adjoint when the size does not change. *)
Theorem C91_same_size_partial : forall (x g : tensor Qc) mode tr near B C s,
  good g -> tshape x = B :: C :: s -> tshape g = B :: C :: s -> length s = 2 \/ length s = 3 -> Forall (fun n => 0 < n) s ->
  exists gx, vjp_resize exact (fun x => x) (fun x => x) 0%Qc x g mode tr near = Ok gx /\ tshape gx = tshape x /\
    forall x', good x' -> tshape x' = tshape x -> exists y, rsq x' s mode tr near = Ok y /\ qpair g y = qpair gx x'.
Proof. exact vjp_same. Qed.
Print Assumptions C91_same_size_partial.
(** It is not when it does: one element spread over two positions, in every mode. *)
Theorem C91_upscale_refuted : forall mode, exists (x g y gx : tensor Qc),
  good x /\ good g /\ rsq x [1;2] mode Asymmetric NFloor = Ok y /\ tshape y = tshape g /\
  vjp_resize exact (fun x => x) (fun x => x) 0%Qc x g mode Asymmetric NFloor = Ok gx /\
  qpair g y <> qpair gx x.
Proof.
  intros mode. exists (qt [1]%Z [1;1;1;1]), (qt [0;1]%Z [1;1;1;2]). eexists. eexists.
  split; [now apply qt_good|]. split; [now apply qt_good|].
  destruct mode; (split; [vm_compute; reflexivity|]); (split; [reflexivity|]); (split; [vm_compute; reflexivity|]);
    intros E; apply (f_equal this) in E; vm_compute in E; discriminate.
Qed.
Print Assumptions C91_upscale_refuted.
Example C91_example :
  match vjp_resize exact (fun x => x) (fun x => x) 0%Qc (qt [1;2;3;4]%Z [1;1;2;2]) (qt [5;6;7;8]%Z [1;1;2;2]) RNearest AlignCorners NCeil with
  | Ok r => map this (tstore r) = map (fun z => inject_Z z) [5;6;7;8]%Z
  | _ => False
  end.
Proof. vm_compute. reflexivity. Qed.

(** the arithmetic of the refutations is that of binary32 in every operation:
    4097 * 4097, 16777216 + 1, 16777216 - (-1) and 1 / 3 are rounded to 24 bits *)
Example C89_binary32 :
  a_floor binary32 (a_mul binary32 (sf_int 4097) (sf_int 4097)) = 16785408%Z /\
  a_floor binary32 (a_add binary32 (sf_int 16777216) (sf_int 1)) = 16777216%Z /\
  a_floor binary32 (a_sub binary32 (sf_int 16777216) (sf_int (-1))) = 16777216%Z /\
  a_div binary32 (sf_int 1) (sf_int 3) = S754_finite false 11184811 (-25).
Proof. vm_compute. auto. Qed.
