(** C111: the gradient rule of padding is the adjoint of padding. *)
From Coq Require Import List Arith ZArith Bool Lia Reals Lra.
From Verif Require Import Base IndexSpec LayoutModel ViewSpec LayoutProofs BcastProofs KernelModel TensorModel TensorSpec TensorProofs ElementwiseProofs.
From Verif Require Import DenSpec MoveModel MoveProofs3 CountProofs ConvReal PadGradModel PadGradSpec PadGradProofs.
Import ListNotations.
Open Scope nat_scope.

(** Constant padding, any rank and any view as incoming gradient: the rule reads the gradient where the
    operand was placed.  [K] is the share of the constant, which does not depend on the operand. *)
Theorem C111_constant : forall e z padding s (g : tensor R), length padding = length s -> all_pos s -> good g -> tshape g = padded_shape s padding ->
  exists gx, vjp_pad e z Rplus PadConstant padding s g = Ok gx /\ good gx /\ tshape gx = s /\
    (forall j, valid s j -> elem gx j = elem g (shifted padding j)) /\
    forall z' pv, exists K, forall t, good t -> plain_layout t -> tshape t = s ->
      exists y, t_pad z' PadConstant pv t padding = Ok y /\ tshape y = tshape g /\ pairing g y = (pairing gx t + K)%R.
Proof. exact vjp_pad_constant. Qed.
Print Assumptions C111_constant.

(** Circular padding after a single axis of size [n], by at most [n].
    Missing: padding before an axis, more than one padded axis, more than one turn (all refuted below). *)
Theorem C111_circular_partial : forall e pre l n (g : tensor R), env_ok e -> all_pos pre -> 0 < n -> all_pos l -> good g -> usable g -> length (pre ++ n :: l) <= 16 ->
  forall k, 0 < k <= n -> tshape g = pre ++ (n + k) :: l ->
  exists gx, vjp_pad e 0%R Rplus PadCircular (only pre (0, k) l) (pre ++ n :: l) g = Ok gx /\ good gx /\ tshape gx = pre ++ n :: l /\
    forall z pv t, good t -> plain_layout t -> tshape t = pre ++ n :: l ->
      exists y, t_pad z PadCircular pv t (only pre (0, k) l) = Ok y /\ tshape y = tshape g /\ pairing g y = pairing gx t.
Proof. exact vjp_circular_after. Qed.
Print Assumptions C111_circular_partial.

(** Replicate padding before a single axis that is not the first.
    Missing: the first axis, padding after an axis, more than one padded axis (all refuted below). *)
Theorem C111_replicate_partial : forall e pre l n (g : tensor R), env_ok e -> all_pos pre -> 0 < n -> all_pos l -> good g -> usable g -> length (pre ++ n :: l) <= 16 ->
  forall b, pre <> [] -> 0 < b -> tshape g = pre ++ (n + b) :: l ->
  exists gx, vjp_pad e 0%R Rplus PadReplicate (only pre (b, 0) l) (pre ++ n :: l) g = Ok gx /\ good gx /\ tshape gx = pre ++ n :: l /\
    forall z pv t, good t -> plain_layout t -> tshape t = pre ++ n :: l ->
      exists y, t_pad z PadReplicate pv t (only pre (b, 0) l) = Ok y /\ tshape y = tshape g /\ pairing g y = pairing gx t.
Proof. exact vjp_replicate_before. Qed.
Print Assumptions C111_replicate_partial.

(* ---------- refuted ---------- *)
Definition zval (t : tensor Z) (i : list nat) : Z := match elem t i with Some v => v | None => 0%Z end.
Definition inner (a b : tensor Z) : Z := fold_right Z.add 0%Z (map (fun i => (zval a i * zval b i)%Z) (all_idx (tshape a))).
Definition zt (s : list nat) (v : list Z) : tensor Z := mkT v (from_shape s).
(** the rule returns something else than the adjoint *)
Definition not_adjoint (m : pad_mode) (padding : list (nat * nat)) (s : list nat) (g : tensor Z) : Prop :=
  exists gx t y, vjp_pad e1 0%Z Z.add m padding s g = Ok gx /\ tshape gx = s /\ t = zt s (tstore t) /\ length (tstore t) = nelem s /\
    t_pad 0%Z m 0%Z t padding = Ok y /\ tshape y = tshape g /\ inner g y <> inner gx t.
(** padding succeeds but its rule does not *)
Definition rule_panics (m : pad_mode) (padding : list (nat * nat)) (s : list nat) (g : tensor Z) : Prop :=
  vjp_pad e1 0%Z Z.add m padding s g = Panic /\ exists t y, t_pad 0%Z m 0%Z t padding = Ok y /\ tshape t = s /\ tshape y = tshape g.

Ltac wrong t := eexists; exists t; eexists; split; [(vm_compute; reflexivity)|]; split; [(vm_compute; reflexivity)|]; split; [(vm_compute; reflexivity)|]; split; [(vm_compute; reflexivity)|]; split; [(vm_compute; reflexivity)|]; split; [(vm_compute; reflexivity)|]; vm_compute; discriminate.

(** Replicate padding along the first axis and after an axis: the added part is read at the wrong place. *)
Theorem C111_replicate_refuted :
  not_adjoint PadReplicate [(2, 0)] [3] (zt [5] [10;20;30;40;50]%Z) /\
  not_adjoint PadReplicate [(0, 2)] [3] (zt [5] [10;20;30;40;50]%Z) /\
  not_adjoint PadReplicate [(0, 0); (0, 1)] [2; 2] (zt [2; 3] [1;2;3;4;5;6]%Z) /\
  rule_panics PadReplicate [(1, 1)] [3] (zt [5] [10;20;30;40;50]%Z).
Proof.
  split; [wrong (zt [3] [1;0;0]%Z)|]. split; [wrong (zt [3] [0;0;1]%Z)|]. split; [wrong (zt [2; 2] [0;1;0;0]%Z)|]. split; [(vm_compute; reflexivity)|].
  exists (zt [3] [1;2;3]%Z). eexists. split; [(vm_compute; reflexivity)|]. split; (vm_compute; reflexivity).
Qed.
Print Assumptions C111_replicate_refuted.

(** Reflect padding: before or after the first axis, before and after a later axis, and an axis of size 1. *)
Theorem C111_reflect_refuted :
  not_adjoint PadReflect [(1, 0)] [3] (zt [4] [10;20;30;40]%Z) /\
  not_adjoint PadReflect [(0, 1)] [3] (zt [4] [10;20;30;40]%Z) /\
  not_adjoint PadReflect [(0, 0); (1, 0)] [2; 3] (zt [2; 4] [1;2;3;4;5;6;7;8]%Z) /\
  not_adjoint PadReflect [(0, 0); (0, 2)] [2; 3] (zt [2; 5] [1;2;3;4;5;6;7;8;9;10]%Z) /\
  not_adjoint PadReflect [(1, 1)] [1] (zt [3] [10;20;30]%Z).
Proof.
  split; [wrong (zt [3] [0;0;1]%Z)|]. split; [wrong (zt [3] [0;1;0]%Z)|]. split; [wrong (zt [2; 3] [0;0;0;0;1;0]%Z)|].
  split; [wrong (zt [2; 3] [1;0;0;0;0;0]%Z)|wrong (zt [1] [1]%Z)].
Qed.
Print Assumptions C111_reflect_refuted.

(** Circular padding before an axis, and by more than the size of the axis: the first fails, the
    second returns a gradient of another shape than the operand. *)
Theorem C111_circular_refuted :
  not_adjoint PadCircular [(2, 0)] [3] (zt [5] [10;20;30;40;50]%Z) /\
  not_adjoint PadCircular [(0, 0); (1, 0)] [2; 2] (zt [2; 3] [1;2;3;4;5;6]%Z) /\
  rule_panics PadCircular [(2, 0)] [1] (zt [3] [10;20;30]%Z) /\
  exists gx, vjp_pad e1 0%Z Z.add PadCircular [(0, 2)] [1] (zt [3] [10;20;30]%Z) = Ok gx /\ tshape gx = [2].
Proof.
  split; [wrong (zt [3] [0;0;1]%Z)|]. split; [wrong (zt [2; 2] [0;1;0;0]%Z)|]. split; [split; [(vm_compute; reflexivity)|]|].
  - exists (zt [1] [7]%Z). eexists. split; [(vm_compute; reflexivity)|]. split; (vm_compute; reflexivity).
  - eexists. split; (vm_compute; reflexivity).
Qed.
Print Assumptions C111_circular_refuted.

(** Two padded axes: the corners are left out, even where each axis alone is right. *)
Theorem C111_corners_refuted :
  not_adjoint PadCircular [(0, 1); (0, 1)] [2; 2] (zt [3; 3] [1;2;3;4;5;6;7;8;9]%Z) /\
  not_adjoint PadReplicate [(0, 0); (1, 0); (1, 0)] [1; 2; 2] (zt [1; 3; 3] [1;2;3;4;5;6;7;8;9]%Z).
Proof. split; [wrong (zt [2; 2] [1;0;0;0]%Z)|wrong (zt [1; 2; 2] [1;0;0;0]%Z)]. Qed.
Print Assumptions C111_corners_refuted.

(* ---------- examples ---------- *)
Example C111_constant_ex : (* 2x2 inside 4x3 *)
  exists gx, vjp_pad e1 0%Z Z.add PadConstant [(1, 1); (1, 0)] [2; 2] (zt [4; 3] [1;2;3;4;5;6;7;8;9;10;11;12]%Z) = Ok gx /\
    map (elem gx) [[0;0];[0;1];[1;0];[1;1]] = [Some 5; Some 6; Some 8; Some 9]%Z.
Proof. eexists. split; (vm_compute; reflexivity). Qed.
Example C111_constant_hyps : length [(1, 1); (1, 0)] = length [2; 2] /\ all_pos [2; 2] /\ good (mkT (map INR (seq 1 12)) (from_shape [4; 3])) /\ [4; 3] = padded_shape [2; 2] [(1, 1); (1, 0)].
Proof. split; [(vm_compute; reflexivity)|]. split; [repeat constructor|]. split; [apply from_shape_good; reflexivity|(vm_compute; reflexivity)]. Qed.
Example C111_circular_ex :
  vjp_pad e1 0%Z Z.add PadCircular (only [] (0, 2) []) [3] (zt [5] [10;20;30;40;50]%Z) = Ok (zt [3] [50;70;30]%Z) /\
  vjp_pad e1 0%Z Z.add PadCircular (only [2] (0, 1) []) [2; 2] (zt [2; 3] [1;2;3;4;5;6]%Z) = Ok (zt [2; 2] [4;2;10;5]%Z).
Proof. split; (vm_compute; reflexivity). Qed.
Example C111_circular_hyps : let g := mkT (map INR (seq 1 6)) (from_shape [2; 3]) in
  env_ok e1 /\ all_pos [2] /\ all_pos [] /\ good g /\ usable g /\ tshape g = [2] ++ (2 + 1) :: [] /\ (0 < 1 <= 2).
Proof. split; [apply e1_ok|]. split; [repeat constructor|]. split; [constructor|]. split; [apply from_shape_good; reflexivity|]. split; [now left|]. split; [(vm_compute; reflexivity)|lia]. Qed.
Example C111_replicate_ex :
  vjp_pad e1 0%Z Z.add PadReplicate (only [2] (2, 0) []) [2; 2] (zt [2; 4] [1;2;3;4;5;6;7;8]%Z) = Ok (zt [2; 2] [6;4;18;8]%Z).
Proof. (vm_compute; reflexivity). Qed.
(** reflect padding after an axis: the flip ignores that the part starts inside its storage; [60; 60; 30] is right *)
Example C111_reflect_ex : vjp_pad e1 0%Z Z.add PadReflect [(0, 2)] [3] (zt [5] [10; 20; 30; 40; 50]%Z) = Ok (zt [3] [30; 30; 30]%Z).
Proof. vm_compute. reflexivity. Qed.
