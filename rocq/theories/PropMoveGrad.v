(** C106: the gradient rules of concat, split, flip and cumsum, on the real numbers.  The operations are linear, so a
    rule is right if the inner product of the incoming gradient with the result is that of the computed gradient
    with the input, whatever the input. *)
From Coq Require Import List Arith ZArith Bool Lia Reals Lra.
From Verif Require Import Base IndexSpec LayoutModel ViewSpec LayoutProofs KernelModel TensorModel TensorSpec TensorProofs MoveModel MoveProofs MoveProofs3 ScanModel SelectModel.
From Verif Require Import ConvReal MoveGradModel MoveGradSpec MoveGradProofs.
Import ListNotations.
Open Scope nat_scope.

(** Excluded: negative axes, empty operands, rank above 16, operands that share more storage than they need (C27). *)
Theorem C106_concat_partial : forall z (t0 : tensor R) r a g,
  let ts := t0 :: r in let s0 := tshape t0 in let d := axis_of (length s0) a in
  axis_ok (length s0) a -> (0 <= a)%Z -> length s0 <= 16 ->
  (forall t, In t ts -> compatible d s0 (tshape t) /\ 0 < nth d (tshape t) 0) ->
  good g -> tshape g = upd s0 d (list_sum (axis_sizes d ts)) ->
  exists gs, vjp_concat z (map tshape ts) a g = Ok gs /\ map tshape gs = map tshape ts /\
    forall ts', map tshape ts' = map tshape ts -> Forall good ts' -> packed ts' ->
      exists c, t_concat z ts' a = Ok c /\ tshape c = tshape g /\ pairing g c = pairings gs ts'.
Proof. exact vjp_concat_adjoint. Qed.
Print Assumptions C106_concat_partial.

(** Excluded: negative axes, empty pieces, pieces that leave a rest, rank above 16, and a gradient with other
    storage than its elements for any piece but the last. *)
Theorem C106_split_partial : forall z s a sizes idx size n (g : tensor R), let d := axis_of (length s) a in
  axis_ok (length s) a -> (0 <= a)%Z -> length s <= 16 -> nth_error s d = Some n ->
  Forall (fun m => 0 < m) sizes -> list_sum sizes = n -> nth_error sizes idx = Some size ->
  good g -> tshape g = upd s d size -> (S idx < length sizes -> length (tstore g) = nelem (tshape g)) ->
  exists gx, vjp_split z 0%R s a sizes idx g = Ok gx /\ tshape gx = s /\
    forall t, good t -> tshape t = s ->
      exists ps p, t_split z t sizes a = Ok ps /\ nth_error ps idx = Some p /\ tshape p = tshape g /\ pairing g p = pairing gx t.
Proof. exact vjp_split_adjoint. Qed.
Print Assumptions C106_split_partial.

(** Excluded: gradients and inputs whose layout is not the plain one (C30). *)
Theorem C106_flip_partial : forall z axes (g : tensor R), good g -> plain_layout g -> Forall (axis_ok (length (tshape g))) axes ->
  let dims := map (axis_of (length (tshape g))) axes in
  exists gx, vjp_flip z dims g = Ok gx /\ tshape gx = tshape g /\
    forall t, good t -> plain_layout t -> tshape t = tshape g ->
      exists y, t_flip z t axes = Ok y /\ tshape y = tshape g /\ pairing g y = pairing gx t.
Proof. exact vjp_flip_adjoint. Qed.
Print Assumptions C106_flip_partial.

(** Excluded: gradients whose layout is not the plain one, and rank above 16. *)
Theorem C106_cumsum_partial : forall z a (g : tensor R), good g -> plain_layout g -> length (tshape g) <= 16 -> axis_ok (length (tshape g)) a ->
  let d := axis_of (length (tshape g)) a in
  exists gx, vjp_cumsum z 0%R Rplus d g = Ok gx /\ tshape gx = tshape g /\
    forall t, good t -> tshape t = tshape g ->
      exists y, t_cumsum 0%R Rplus (fun x => x) (fun x => x) z t a = Ok y /\ tshape y = tshape g /\ pairing g y = pairing gx t.
Proof. exact vjp_cumsum_adjoint. Qed.
Print Assumptions C106_cumsum_partial.

(** The axis -1 is resolved by the operation and read as 0 by the rule: two rows of two elements joined to one
    row of four get gradients of one element; a row cut into two elements gets an error. *)
Theorem C106_negative_axis_refuted :
  let row a b := mkT [a; b]%Z (from_shape [1; 2]) in
  (exists c, t_concat 0%Z [row 1 2; row 3 4]%Z (-1)%Z = Ok c /\ tshape c = [1; 4]) /\
  vjp_concat 0%Z [[1; 2]; [1; 2]] (-1)%Z (mkT [5; 6; 7; 8]%Z (from_shape [1; 4]))
    = Ok [mkT [5]%Z (from_shape [1; 1]); mkT [6]%Z (from_shape [1; 1])] /\
  (exists ps, t_split 0%Z (row 1 2)%Z [1; 1] (-1)%Z = Ok ps /\ map tshape ps = [[1; 1]; [1; 1]]) /\
  vjp_split 0%Z 0%Z [1; 2] (-1)%Z [1; 1] 0 (mkT [5]%Z (from_shape [1; 1])) = Err EInternal.
Proof. cbn zeta. split; [eexists; split; reflexivity|]. split; [reflexivity|]. split; [eexists; split; reflexivity|reflexivity]. Qed.
Print Assumptions C106_negative_axis_refuted.

(** The gradient of a sum is one element broadcast.  The rules of flip, cumsum and (but for the last piece) split
    read it behind its storage. *)
Theorem C106_broadcast_refuted : exists g,
  t_broadcast 0%Z (mkT [5]%Z (from_shape [])) [2] = Ok g /\ good g /\
  vjp_flip 0%Z [0] g = Panic /\ vjp_cumsum 0%Z 0%Z Z.add 0 g = Panic /\ vjp_split 0%Z 0%Z [3] 0%Z [2; 1] 0 g = Panic.
Proof.
  eexists. split; [reflexivity|]. split; [|repeat split; reflexivity].
  split; [reflexivity|]. intros [|x [|]] V; cbn in V; try lia. unfold addr. cbn. lia.
Qed.
Print Assumptions C106_broadcast_refuted.

(** Pieces that leave a rest are accepted, and the gradient has not the shape of the input. *)
Theorem C106_rest_refuted :
  (exists ps, t_split 0%Z (mkT [1; 2; 3]%Z (from_shape [3])) [1; 1] 0%Z = Ok ps /\ map tshape ps = [[1]; [1]]) /\
  vjp_split 0%Z 0%Z [3] 0%Z [1; 1] 0 (mkT [5]%Z (from_shape [1])) = Ok (mkT [5; 0]%Z (from_shape [2])).
Proof. split; [eexists; split; reflexivity|reflexivity]. Qed.
Print Assumptions C106_rest_refuted.

(** An empty last tensor can be joined, but the rule returns an error. *)
Theorem C106_empty_refuted :
  t_concat 0%Z [mkT [1; 2]%Z (from_shape [2]); mkT [] (from_shape [0])] 0%Z = Ok (mkT [1; 2]%Z (from_shape [2])) /\
  vjp_concat 0%Z [[2]; [0]] 0%Z (mkT [5; 6]%Z (from_shape [2])) = Err EInternal.
Proof. split; reflexivity. Qed.
Print Assumptions C106_empty_refuted.

Example C106_concat_ex :
  vjp_concat 0%Z [[2; 1]; [2; 2]] 1%Z (mkT [1; 2; 3; 4; 5; 6]%Z (from_shape [2; 3]))
  = Ok [mkT [1; 4]%Z (from_shape [2; 1]); mkT [2; 3; 5; 6]%Z (from_shape [2; 2])].
Proof. reflexivity. Qed.
Example C106_split_ex :
  vjp_split 0%Z 0%Z [2; 3] 1%Z [1; 2] 1 (mkT [1; 2; 3; 4]%Z (from_shape [2; 2])) = Ok (mkT [0; 1; 2; 0; 3; 4]%Z (from_shape [2; 3])).
Proof. reflexivity. Qed.
Example C106_cumsum_ex :
  vjp_cumsum 0%Z 0%Z Z.add 1 (mkT [1; 2; 3; 4; 5; 6]%Z (from_shape [2; 3])) = Ok (mkT [6; 5; 3; 15; 11; 6]%Z (from_shape [2; 3])).
Proof. reflexivity. Qed.
(** the hypotheses of the theorems on a 2 x 3 gradient *)
Example C106_hyp_ex : forall g : tensor R, g = mkT [1; 2; 3; 4; 5; 6]%R (from_shape [2; 3]) ->
  (exists gx, vjp_cumsum 0%R 0%R Rplus 1 g = Ok gx /\ tshape gx = [2; 3]) /\
  (exists gx, vjp_flip 0%R [1] g = Ok gx /\ tshape gx = [2; 3]) /\
  (exists gx, vjp_split 0%R 0%R [2; 4] 1%Z [3; 1] 0 g = Ok gx /\ tshape gx = [2; 4]) /\
  (exists gs, vjp_concat 0%R [[2; 1]; [2; 2]] 1%Z g = Ok gs /\ map tshape gs = [[2; 1]; [2; 2]]).
Proof.
  intros g ->. assert (Gg : good (mkT [1; 2; 3; 4; 5; 6]%R (from_shape [2; 3]))) by (apply from_shape_good; reflexivity).
  assert (PLg : plain_layout (mkT [1; 2; 3; 4; 5; 6]%R (from_shape [2; 3]))) by (exact (fresh_plain R (mkT [1; 2; 3; 4; 5; 6]%R (from_shape [2; 3])) [2; 3] eq_refl)).
  split; [|split; [|split]].
  - destruct (C106_cumsum_partial 0%R (-1)%Z _ Gg PLg) as (gx & E & Sx & _); [cbn; lia|unfold axis_ok; cbn; lia|]. exists gx. split; [exact E|exact Sx].
  - destruct (C106_flip_partial 0%R [(-1)%Z] _ Gg PLg) as (gx & E & Sx & _); [constructor; [unfold axis_ok; cbn; lia|constructor]|]. exists gx. split; [exact E|exact Sx].
  - destruct (C106_split_partial 0%R [2; 4] 1%Z [3; 1] 0 3 4 _ ltac:(unfold axis_ok; cbn; lia) ltac:(lia) ltac:(cbn; lia) eq_refl ltac:(repeat constructor) eq_refl eq_refl Gg eq_refl ltac:(reflexivity)) as (gx & E & Sx & _).
    exists gx. split; [exact E|exact Sx].
  - destruct (C106_concat_partial 0%R (mkT [1; 2]%R (from_shape [2; 1])) [mkT [1; 2; 3; 4]%R (from_shape [2; 2])] 1%Z (mkT [1; 2; 3; 4; 5; 6]%R (from_shape [2; 3]))
      ltac:(unfold axis_ok; cbn; lia) ltac:(lia) ltac:(cbn; lia)) as (gs & E & Sx & _).
    + intros t [<-|[<-|[]]]; (split; [split; [reflexivity|]|vm_compute; lia]); intros [|[|k]] N; vm_compute in N |- *; first [reflexivity|destruct N; reflexivity].
    + exact Gg.
    + reflexivity.
    + exists gs. split; [exact E|exact Sx].
Qed.
