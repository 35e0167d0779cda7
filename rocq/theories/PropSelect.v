(** Properties C21 - C23: where3, clamp, masked_fill. *)
From Coq Require Import List Arith ZArith Lia Bool.
From Coq Require Import Floats.SpecFloat.
From Verif Require Import Base IndexSpec LayoutModel ViewSpec LayoutProofs BcastProofs.
From Verif Require Import KernelModel KernelProofs TensorModel TensorSpec TensorProofs ElementwiseProofs.
From Verif Require Import SelectModel SelectProofs.
Import ListNotations.

(** ** C21: where3 selects by the condition *)

(** For any arithmetic in which the masking formula selects ([mask_laws]), on
    any three broadcastable operands without empty axes.  Excluded: a rank-0
    condition that is a view with a non-zero offset. *)
Theorem C21_where3_partial : forall C A e (o : arith A) (zc : C) (truth : C -> bool)
    (fin : A -> Prop) (eqv : A -> A -> Prop),
  env_ok e -> mask_laws o fin eqv ->
  forall (cond : tensor C) x y cx r,
  good cond -> good x -> good y ->
  all_pos (tshape cond) -> all_pos (tshape x) -> all_pos (tshape y) ->
  bcast (tshape cond) (tshape x) cx -> bcast cx (tshape y) r ->
  (r <> [] \/ loffset (tlay cond) = 0) ->
  (forall i v, elem x i = Some v -> fin v) -> (forall i v, elem y i = Some v -> fin v) ->
  exists t, t_where3 e o zc (fun c => bconv o (truth c)) x cond y = Ok t /\
    good t /\ tlay t = from_shape r /\
    forall i, valid r i -> exists c vx vy w,
      elem cond (bidx (tshape cond) i) = Some c /\
      elem x (bidx (tshape x) i) = Some vx /\ elem y (bidx (tshape y) i) = Some vy /\
      elem t i = Some w /\ eqv w (if truth c then vx else vy).
Proof. intros. eapply where3_spec; eauto. Qed.
Print Assumptions C21_where3_partial.

(** The integers and the finite binary32 and binary64 numbers are such
    arithmetics, the latter up to the sign of zero. *)
Theorem C21_integers : mask_laws Zarith (fun _ => True) eq.
Proof. exact Zmask_laws. Qed.
Print Assumptions C21_integers.
Theorem C21_binary32 : mask_laws F32 (finite_float 24 128) same_number.
Proof. exact F32_laws. Qed.
Print Assumptions C21_binary32.
Theorem C21_binary64 : mask_laws F64 (finite_float 53 1024) same_number.
Proof. exact F64_laws. Qed.
Print Assumptions C21_binary64.

Example C21_ex :
  t_where3 e1 Zarith false (bconv Zarith) (mkT [1;2;3;4;5;6]%Z (mkLayout [2;3] [1;2] 0))
    (mkT [true;false;true] (from_shape [3])) (mkT [7;8]%Z (from_shape [2;1]))
  = Ok (mkT [1;7;5;2;8;6]%Z (from_shape [2;3])).
Proof. reflexivity. Qed.
Example C21_ex32 : finite_float 24 128 (S754_finite true 12582912 (-20)).
Proof. split; reflexivity. Qed.

(** The conversion of the condition ignores the offset of a rank-0 view. *)
Theorem C21_rank0_refuted :
  exists cond : tensor bool, good cond /\ elem cond [] = Some true /\
  t_where3 e1 Zarith false (bconv Zarith) (mkT [1]%Z (from_shape [])) cond (mkT [2]%Z (from_shape []))
  = Ok (mkT [2]%Z (from_shape [])).
Proof.
  exists (mkT [false; true] (mkLayout [] [] 1)). split; [|split; reflexivity].
  split; [reflexivity|]. intros i Hi. apply valid_length in Hi. destruct i; [cbn; lia|discriminate].
Qed.
Print Assumptions C21_rank0_refuted.

(** Why the statement is limited to finite values: an infinity on the side that
    is not selected makes the result NaN. *)
Theorem C21_infinite_unselected :
  t_where3 e1 F32 false (bconv F32) (mkT [S754_infinity false] (from_shape [1]))
    (mkT [false] (from_shape [1])) (mkT [aone F32] (from_shape [1]))
  = Ok (mkT [S754_nan] (from_shape [1])).
Proof. vm_compute. reflexivity. Qed.
Print Assumptions C21_infinite_unselected.

(** ** C22: clamp keeps values in range *)

Theorem C22_clamp_refuted :
  ~ (forall (x : tensor Z) lo hi t, good x -> (lo <= hi)%Z ->
       t_clamp e1 Zarith Z.ltb x lo hi = Ok t ->
       forall i v, elem x i = Some v -> elem t i = Some (Z.max lo (Z.min v hi))).
Proof.
  intros H.
  specialize (H (mkT [5]%Z (from_shape [1])) 0%Z 10%Z (mkT [10]%Z (from_shape [1]))).
  specialize (H (from_shape_good _ [5]%Z [1] eq_refl) ltac:(lia) eq_refl [0] 5%Z eq_refl).
  discriminate H.
Qed.
Print Assumptions C22_clamp_refuted.

Theorem C22_clamp_min_refuted :
  ~ (forall (x : tensor Z) lo t, good x -> t_clamp_min e1 Zarith Z.ltb x lo = Ok t ->
       forall i v, elem x i = Some v -> elem t i = Some (Z.max v lo)).
Proof.
  intros H.
  specialize (H (mkT [5]%Z (from_shape [1])) 0%Z (mkT [0]%Z (from_shape [1]))).
  specialize (H (from_shape_good _ [5]%Z [1] eq_refl) eq_refl [0] 5%Z eq_refl).
  discriminate H.
Qed.
Print Assumptions C22_clamp_min_refuted.

Theorem C22_clamp_max_refuted :
  ~ (forall (x : tensor Z) hi t, good x -> t_clamp_max e1 Zarith Z.ltb x hi = Ok t ->
       forall i v, elem x i = Some v -> elem t i = Some (Z.min v hi)).
Proof.
  intros H.
  specialize (H (mkT [5]%Z (from_shape [1])) 10%Z (mkT [10]%Z (from_shape [1]))).
  specialize (H (from_shape_good _ [5]%Z [1] eq_refl) eq_refl [0] 5%Z eq_refl).
  discriminate H.
Qed.
Print Assumptions C22_clamp_max_refuted.

(** What the code computes instead: clamp_min takes the minimum, clamp_max the
    maximum, and clamp returns its upper bound everywhere. *)
Theorem C22_clamp_min_actual_partial : forall e (x : tensor Z) lo, env_ok e -> good x ->
  all_pos (tshape x) -> offset_read (tlay x) ->
  exists t, t_clamp_min e Zarith Z.ltb x lo = Ok t /\ good t /\ tlay t = from_shape (tshape x) /\
    forall i, valid (tshape x) i -> exists v, elem x i = Some v /\ elem t i = Some (Z.min v lo).
Proof. exact clamp_min_actual. Qed.
Print Assumptions C22_clamp_min_actual_partial.

Theorem C22_clamp_max_actual_partial : forall e (x : tensor Z) hi, env_ok e -> good x ->
  all_pos (tshape x) -> offset_read (tlay x) ->
  exists t, t_clamp_max e Zarith Z.ltb x hi = Ok t /\ good t /\ tlay t = from_shape (tshape x) /\
    forall i, valid (tshape x) i -> exists v, elem x i = Some v /\ elem t i = Some (Z.max v hi).
Proof. exact clamp_max_actual. Qed.
Print Assumptions C22_clamp_max_actual_partial.

Theorem C22_clamp_actual_partial : forall e (x : tensor Z) lo hi, env_ok e -> good x ->
  all_pos (tshape x) -> offset_read (tlay x) -> (lo <= hi)%Z ->
  exists t, t_clamp e Zarith Z.ltb x lo hi = Ok t /\ tshape t = tshape x /\
    forall i, valid (tshape x) i -> elem t i = Some hi.
Proof. exact clamp_actual. Qed.
Print Assumptions C22_clamp_actual_partial.

Example C22_ex :
  t_clamp e1 Zarith Z.ltb (mkT [-3;4;20]%Z (from_shape [3])) 0%Z 10%Z
  = Ok (mkT [10;10;10]%Z (from_shape [3])).
Proof. reflexivity. Qed.

(** ** C23: masked_fill fills exactly the masked positions *)

Theorem C23_masked_fill_refuted :
  ~ (forall (x : tensor Z) m v t, good x -> good m -> tshape m = tshape x ->
       t_masked_fill e1 Zarith x m v = Ok t ->
       forall i b w, elem m i = Some b -> elem x i = Some w ->
         elem t i = Some (if b then v else w)).
Proof.
  intros H.
  specialize (H (mkT [5;6]%Z (from_shape [2])) (mkT [true;false] (from_shape [2])) 9%Z
                (mkT [5;9]%Z (from_shape [2]))).
  specialize (H (from_shape_good _ [5;6]%Z [2] eq_refl) (from_shape_good _ [true;false] [2] eq_refl)
                eq_refl eq_refl [0] true 5%Z eq_refl eq_refl).
  discriminate H.
Qed.
Print Assumptions C23_masked_fill_refuted.

(** What it does: it fills where the mask is false. *)
Theorem C23_masked_fill_actual_partial : forall e (x : tensor Z) (m : tensor bool) v, env_ok e ->
  good x -> good m -> all_pos (tshape x) -> tshape m = tshape x ->
  (tshape x <> [] \/ loffset (tlay m) = 0) ->
  exists t, t_masked_fill e Zarith x m v = Ok t /\ tshape t = tshape x /\
    forall i, valid (tshape x) i -> exists c w, elem m i = Some c /\ elem x i = Some w /\
      elem t i = Some (if c then w else v).
Proof. exact masked_fill_actual. Qed.
Print Assumptions C23_masked_fill_actual_partial.

Example C23_ex :
  t_masked_fill e1 Zarith (mkT [5;6;7;8]%Z (from_shape [2;2]))
    (mkT [true;false;false;true] (from_shape [2;2])) 0%Z
  = Ok (mkT [5;0;0;8]%Z (from_shape [2;2])).
Proof. reflexivity. Qed.
