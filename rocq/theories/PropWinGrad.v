(** C112: the gradient rules of the window reductions. *)
From Coq Require Import List Arith ZArith Bool Lia Reals Lra.
From Verif Require Import Base IndexSpec LayoutModel ViewSpec LayoutProofs BcastProofs KernelModel TensorModel TensorSpec TensorProofs ElementwiseProofs.
From Verif Require Import DenSpec DenProofs CountProofs WindowModel WindowProofs PropWindow ConvReal MatGradSpec RedSpec WinGradModel WinGradSpec WinGradProofs.
Import ListNotations.
Open Scope nat_scope.

(** Windows that tile the operand: no padding, the stride equal to the window, no remainder (or one window
    with stride 1).  Sum and mean: the rule is the adjoint of the operation, for any view as incoming
    gradient of the sum.  The rest is missing: see the refuted cases. *)
Theorem C112_sum_partial : forall s window strides padding out (x g : tensor R), tiling s window strides padding out -> length s <= 16 ->
  good x -> tshape x = s -> good g -> tshape g = out ->
  exists y gx, t_reduce_window 0%R Rplus (Some 0%R) (fun _ b => b) 0%R x window strides padding = Ok y /\
    vjp_window_sum 0%R s strides g = Ok gx /\ good gx /\ tshape gx = s /\ pairing g y = pairing gx x.
Proof. intros s window strides padding out x g T H. exact (vjp_window_sum_ok s window strides out padding T H x g). Qed.
Print Assumptions C112_sum_partial.
Theorem C112_mean_partial : forall e s window strides padding out (x g : tensor R), env_ok e -> tiling s window strides padding out -> length s <= 16 ->
  good x -> tshape x = s -> good g -> usable g -> tshape g = out ->
  exists y gx, t_reduce_window 0%R Rplus None (fun n b => b / INR n)%R 0%R x window strides padding = Ok y /\
    vjp_window_mean e 0%R Rmult (1 / INR (nelem window))%R s strides g = Ok gx /\ good gx /\ tshape gx = s /\ pairing g y = pairing gx x.
Proof. intros e s window strides padding out x g He T H. exact (vjp_window_mean_ok s window strides out padding T H e x g He). Qed.
Print Assumptions C112_mean_partial.

(** Max and min of such windows, when no window attains its result twice: the rule gives the derivative of
    the outputs weighted by the incoming gradient in each entry of the operand. *)
Theorem C112_max_partial : forall e s window strides padding out lo (x g : tensor R) r w, env_ok e -> tiling s window strides padding out -> length s <= 16 ->
  den x s r -> den g out w -> (forall i, valid s i -> lo <= r i)%R ->
  (forall i k, valid s i -> valid s k -> cell window k = cell window i -> let m := Rtop (map r (members window s (cell window i))) in r i = m -> r k = m -> k = i) ->
  exists y gx p, t_reduce_window lo (fun acc v => if Rlt_dec v acc then acc else v) (Some lo) (fun _ b => b) 0%R x window strides padding = Ok y /\
    vjp_window_max e 0%R 1%R Rmult Reqb x y strides g = Ok gx /\ den gx s p /\
    forall i, valid s i -> derivable_pt_lim (fun t => wloss Rtop window s out w (nudge r i t)) 0 (p i).
Proof.
  intros e s window strides padding out lo x g r w He T H Dx Dg B N. destruct (window_max_den s window strides out padding T H lo x r Dx B) as (y & E & Dy).
  destruct (vjp_window_max_ok s window strides out padding T e x y g r w He Dx Dy Dg N) as (gx & p & X). now exists y, gx, p.
Qed.
Print Assumptions C112_max_partial.
Theorem C112_min_partial : forall e s window strides padding out hi (x g : tensor R) r w, env_ok e -> tiling s window strides padding out -> length s <= 16 ->
  den x s r -> den g out w -> (forall i, valid s i -> r i <= hi)%R ->
  (forall i k, valid s i -> valid s k -> cell window k = cell window i -> let m := Rbot (map r (members window s (cell window i))) in r i = m -> r k = m -> k = i) ->
  exists y gx p, t_reduce_window hi (fun acc v => if Rlt_dec acc v then acc else v) (Some hi) (fun _ b => b) 0%R x window strides padding = Ok y /\
    vjp_window_max e 0%R 1%R Rmult Reqb x y strides g = Ok gx /\ den gx s p /\
    forall i, valid s i -> derivable_pt_lim (fun t => wloss Rbot window s out w (nudge r i t)) 0 (p i).
Proof.
  intros e s window strides padding out lo x g r w He T H Dx Dg B N. destruct (window_min_den s window strides out padding T H lo x r Dx B) as (y & E & Dy).
  destruct (vjp_window_min_ok s window strides out padding T e x y g r w He Dx Dy Dg N) as (gx & p & X). now exists y, gx, p.
Qed.
Print Assumptions C112_min_partial.

(** Overlapping windows: with no padding, a stride smaller than the window on an axis with more than one
    window, the operation succeeds and its gradient rule never does. *)
Theorem C112_overlap_refuted : forall z s window strides (x g : tensor Z) k, good x -> tshape x = s -> all_pos s -> window_ok s window strides (repeat (0, 0) (length s)) ->
  k < length s -> nth k strides 0 < nth k window 0 -> nth k strides 0 <= nth k s 0 - nth k window 0 ->
  exists y, window_sum z x window strides (repeat (0, 0) (length s)) = Ok y /\
    (good g -> tshape g = tshape y -> forall gx, vjp_window_sum 0%Z s strides g <> Ok gx).
Proof.
  intros z s window strides x g k Gx Sx Ps Hok Hk H1 H2. subst s.
  destruct (C34_window_partial Z Z Z 0%Z 0%Z Z.add (Some 0%Z) (fun _ b => b) (fun _ => True) I
    (fun _ _ _ => I) ltac:(intros v b H _; injection H as <-; lia) z x window strides _ Gx Hok) as (y & E1 & Gy & Ly & Sy & _).
  exists y. split; [exact E1|]. intros Gg Sg. destruct Hok as (L1 & L2 & L3 & _ & Hfit).
  assert (PAD : forall j, nth j (repeat (0, 0) (length (tshape x))) (0, 0) = (0, 0)) by (intros; apply nth_repeat).
  assert (PY : all_pos (tshape y)).
  { apply Forall_forall. intros d Hd. apply (In_nth _ _ 0) in Hd. destruct Hd as (j & Hj & <-). rewrite Ly in Hj. specialize (Sy j Hj). rewrite Sy. apply Nat.add_pos_r, Nat.lt_0_1. }
  assert (PS : all_pos strides).
  { apply Forall_forall. intros d Hd. apply (In_nth _ _ 0) in Hd. destruct Hd as (j & Hj & <-). apply Hfit. lia. }
  destruct (Hfit k Hk) as [F1 F2]. rewrite PAD in F1. cbn [fst snd] in F1.
  specialize (Sy k Hk). rewrite PAD in Sy. cbn [fst snd] in Sy. rewrite !Nat.add_0_r in Sy.
  set (n := nth k (tshape x) 0) in *. set (w := nth k window 0) in *. set (st := nth k strides 0) in *.
  assert (D1 : 1 <= (n - w) / st) by (apply Nat.div_le_lower_bound; lia). assert (D2 := Nat.mul_div_le (n - w) st).
  apply (spread_fails Z 0%Z (tshape x) strides g k); auto; rewrite Sg, ?Sy; auto; try lia; try nia.
Qed.
Print Assumptions C112_overlap_refuted.

Definition zval (t : tensor Z) (i : list nat) : Z := match elem t i with Some v => v | None => 0%Z end.
Definition inner (a b : tensor Z) : Z := fold_right Z.add 0%Z (map (fun i => (zval a i * zval b i)%Z) (all_idx (tshape a))).
Definition zt (s : list nat) (v : list Z) : tensor Z := mkT v (from_shape s).
(** the rule succeeds, and its result is not the adjoint at [x] *)
Definition wrong_sum (s window strides : list nat) (padding : list (nat * nat)) (g x : tensor Z) : Prop :=
  exists y gx, window_sum 0%Z x window strides padding = Ok y /\ tshape g = tshape y /\ vjp_window_sum 0%Z s strides g = Ok gx /\
    tshape x = s /\ tshape gx = s /\ inner g y <> inner gx x.
(** Strides larger than the window give gradients to entries of no window; with padding the windows are shifted;
    the entries after the last window make the rule fail. *)
Theorem C112_windows_refuted :
  wrong_sum [4] [1] [2] [(0, 0)] (zt [2] [10; 20]%Z) (zt [4] [0; 1; 0; 0]%Z) /\
  wrong_sum [4] [3] [1] [(1, 1)] (zt [4] [10; 20; 30; 40]%Z) (zt [4] [1; 0; 0; 0]%Z) /\
  wrong_sum [4] [3] [2] [(1, 0)] (zt [2] [10; 20]%Z) (zt [4] [0; 1; 0; 0]%Z) /\
  (exists y, window_sum 0%Z (zt [5] [1; 2; 3; 4; 5]%Z) [2] [2] [(0, 0)] = Ok y /\ tshape y = [2] /\
    vjp_window_sum 0%Z [5] [2] (zt [2] [10; 20]%Z) = Err EShape).
Proof.
  split; [|split; [|split]]; [do 2 eexists; repeat (split; [vm_compute; reflexivity|]); vm_compute; discriminate ..|].
  eexists. split; [vm_compute; reflexivity|]. split; vm_compute; reflexivity.
Qed.
Print Assumptions C112_windows_refuted.
(** Ties: both entries of the window [5, 5] get the whole gradient; raising both by one raises the maximum by
    one, so the entries of the gradient should add up to 10. *)
Theorem C112_ties_refuted : exists y y1 gx,
  window_max (-128)%Z 0%Z (zt [2] [5; 5]%Z) [2] [2] [(0, 0)] = Ok y /\ zval y [0] = 5%Z /\
  window_max (-128)%Z 0%Z (zt [2] [6; 6]%Z) [2] [2] [(0, 0)] = Ok y1 /\ zval y1 [0] = 6%Z /\
  vjp_window_max e1 0%Z 1%Z Z.mul Z.eqb (zt [2] [5; 5]%Z) y [2] (zt [1] [10]%Z) = Ok gx /\
  inner gx (zt [2] [1; 1]%Z) = 20%Z /\ (20 <> 10 * (6 - 5))%Z.
Proof. do 3 eexists. repeat (split; [vm_compute; reflexivity|]). lia. Qed.
Print Assumptions C112_ties_refuted.
(** An operand that starts inside its storage: max works, its gradient rule panics. *)
Theorem C112_offset_refuted : exists y, let x := mkT [9; 1; 4; 2; 3]%Z (mkLayout [4] [1] 1) in
  good x /\ window_max (-128)%Z 0%Z x [2] [2] [(0, 0)] = Ok y /\ tstore y = [4; 3]%Z /\ good y /\
  vjp_window_max e1 0%Z 1%Z Z.mul Z.eqb x y [2] (zt [2] [10; 20]%Z) = Panic.
Proof.
  eexists. cbv zeta. split.
  { split; [reflexivity|]. intros i V. apply in_all_idx in V. cbn in V. unfold addr. destruct V as [<-|[<-|[<-|[<-|[]]]]]; cbn; lia. }
  split; [vm_compute; reflexivity|]. split; [reflexivity|]. split; [|vm_compute; reflexivity].
  split; [reflexivity|]. intros i V. apply in_all_idx in V. cbn in V. unfold addr. destruct V as [<-|[<-|[]]]; cbn; lia.
Qed.
Print Assumptions C112_offset_refuted.

(** a tiling of a 4x6 matrix: windows of 2x3, and one window over the third axis with stride 1 *)
Example C112_tiling_ex : tiling [4; 6; 5] [2; 3; 5] [2; 3; 1] [(0, 0); (0, 0); (0, 0)] [2; 2; 1].
Proof. do 3 (apply tiling_cons; [unfold tiled; split; [reflexivity|]; lia|]). constructor. Qed.
Example C112_sum_ex : vjp_window_sum 0%Z [2; 4] [1; 2] (zt [2; 2] [1; 2; 3; 4]%Z) = Ok (mkT [1; 1; 2; 2; 3; 3; 4; 4]%Z (from_shape [2; 4])).
Proof. vm_compute. reflexivity. Qed.
Example C112_max_ex : vjp_window_max e1 0%Z 1%Z Z.mul Z.eqb (zt [4] [1; 4; 3; 2]%Z) (zt [2] [4; 3]%Z) [2] (zt [2] [10; 20]%Z) = Ok (mkT [0; 10; 20; 0]%Z (from_shape [4])).
Proof. vm_compute. reflexivity. Qed.
(** the hypotheses of the maximum hold of [1; 4; 3; 2] and windows of 2 *)
Example C112_no_tie_ex : let r := fun i : list nat => match i with [0] => 1 | [1] => 4 | [2] => 3 | _ => 2 end%R in
  forall i k, valid [4] i -> valid [4] k -> cell [2] k = cell [2] i -> let m := Rtop (map r (members [2] [4] (cell [2] i))) in r i = m -> r k = m -> k = i.
Proof.
  cbv zeta. intros i k Vi Vk C H1 H2. apply in_all_idx in Vi, Vk. cbn in Vi, Vk.
  assert (E : forall j j' : list nat, j = j' \/ j <> j') by (intros; destruct (list_eq_dec Nat.eq_dec j j'); auto).
  destruct Vi as [<-|[<-|[<-|[<-|[]]]]]; destruct Vk as [<-|[<-|[<-|[<-|[]]]]]; try reflexivity; try discriminate C; exfalso; rewrite <- H1 in H2; lra.
Qed.
Example C112_overlap_ex : window_ok [5] [3] [1] (repeat (0, 0) 1) /\ nth 0 [1] 0 < nth 0 [3] 0 /\ nth 0 [1] 0 <= nth 0 [5] 0 - nth 0 [3] 0.
Proof. split; [|cbn; lia]. repeat (split; [cbn; lia|]). intros [|k] Hk; cbn in *; lia. Qed.
