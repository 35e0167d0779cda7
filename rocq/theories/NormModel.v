(** Normalisation layers: crates/hodu_nn/src/modules/norm.rs.

    Simplifications: as in [NnModel] (exact arithmetic, eager, no gradient); [eps] and
    [momentum] are real numbers, converted to the dtype at hand.  [training] is the global
    state (state.rs). *)
From Coq Require Import List Arith ZArith Bool Reals.
From Verif Require Import Base IndexSpec LayoutModel KernelModel TensorModel EncodeModel.
From Verif Require Import NumModel NnModel LayerModel.
Import ListNotations.
Open Scope nat_scope.

Section Norm.
Variable e : env.

(** the mean over the axes, the deviations from it and the mean of their squares:
    norm.rs L531-535 (and L59-82, L245-250, L387-392 for batches), by [mul]; L667-669,
    L763-766, L851-854, L939-942, by [square] *)
Definition moments (by_square : bool) (x : xtensor) (axes : list Z) : outcome (xtensor * xtensor * xtensor) :=
  do mean <- x_mean x axes true ;
  do centered <- x_sub e x mean ;
  do squared <- (if by_square then x_square e centered else x_mul e centered centered) ;
  do var <- x_mean squared axes true ;
  Ok (mean, centered, var).
(** L537-540, L141-145, L671-674: [centered / sqrt(var + eps)]; [d] is the dtype of the input *)
Definition divide (d : dtype) (eps : R) (centered var : xtensor) : outcome xtensor :=
  do v <- x_add_scalar e var (d, Fin eps) ;
  do std <- x_sqrt e v ;
  x_div e centered std.
(** L542-552 *)
Definition scale_shift (y : xtensor) (gb : option (xtensor * xtensor)) : outcome xtensor :=
  match gb with
  | Some (gamma, beta) => do scaled <- x_mul e y gamma ; x_add e scaled beta
  | None => Ok y
  end.
(** L148-169, L298-308, L440-450, L680-694, L772-781: the parameters, of size [c], along axis 1 of
    rank [n] *)
Definition channel_shape (c n : nat) : shape := 1 :: c :: repeat 1 (n - 2).
Definition scale_shift_channels (c n : nat) (y : xtensor) (gb : option (xtensor * xtensor)) : outcome xtensor :=
  match gb with
  | Some (gamma, beta) =>
    do g <- x_view (VReshape (channel_shape c n)) gamma ;
    do b <- x_view (VReshape (channel_shape c n)) beta ;
    do scaled <- x_mul e y g ; x_add e scaled b
  | None => Ok y
  end.

(** L512-529, L1017-1037: the trailing axes must have the given shape; these axes *)
Definition trailing_axes (s ns : shape) : outcome (list Z) :=
  let m := length s - length ns in
  if length s <? length ns then Err EInternal
  else if list_eq_dec Nat.eq_dec (skipn m s) ns then Ok (map Z.of_nat (seq m (length ns)))
  else Err EInternal.

(** L507-553 [LayerNorm::forward] *)
Definition layer_norm (ns : shape) (eps : R) (gb : option (xtensor * xtensor)) (x : xtensor) : outcome xtensor :=
  do axes <- trailing_axes (xshape x) ns ;
  do m <- moments false x axes ;
  let '(_, centered, var) := m in
  do normalized <- divide (xdtype x) eps centered var ;
  scale_shift normalized gb.

(** L1012-1048 [RMSNorm::forward] *)
Definition rms_norm (ns : shape) (eps : R) (gamma x : xtensor) : outcome xtensor :=
  do axes <- trailing_axes (xshape x) ns ;
  do squared <- x_square e x ;
  do mean_squared <- x_mean squared axes true ;
  do v <- x_add_scalar e mean_squared (xdtype x, Fin eps) ;
  do rms <- x_sqrt e v ;
  do normalized <- x_div e x rms ;
  x_mul e normalized gamma.

(** L634-695 [GroupNorm::forward]; division by [groups] = 0 panics *)
Definition group_norm (groups channels : nat) (eps : R) (gb : option (xtensor * xtensor)) (x : xtensor)
    : outcome xtensor :=
  match xshape x with
  | n :: c :: rest =>
    if negb (c =? channels) then Err EInternal
    else if groups =? 0 then Panic
    else
      let new_shape := n :: groups :: (c / groups) :: rest in
      do reshaped <- x_view (VReshape new_shape) x ;
      do m <- moments true reshaped (map Z.of_nat (seq 2 (length new_shape - 2))) ;
      let '(_, centered, var) := m in
      do normalized <- divide (xdtype x) eps centered var ;
      do normalized <- x_view (VReshape (xshape x)) normalized ;
      scale_shift_channels channels (length (xshape x)) normalized gb
  | _ => Err EInternal
  end.

(** L753-785, L841-873, L929-961 [InstanceNorm1D/2D/3D::forward]: [k] spatial axes *)
Definition instance_norm (k features : nat) (eps : R) (gb : option (xtensor * xtensor)) (x : xtensor)
    : outcome xtensor :=
  if negb (length (xshape x) =? k + 2) then Err EInternal
  else
    do m <- moments true x (map Z.of_nat (seq 2 k)) ;
    let '(_, centered, var) := m in
    do normalized <- divide (xdtype x) eps centered var ;
    scale_shift_channels features (k + 2) normalized gb.

(** L6-16: the running statistics, which training updates *)
Record running := mkRunning { r_mean : xtensor; r_var : xtensor }.

(** L137-171, L290-310, L432-452 [normalize]: BatchNorm1D uses rank 3 for every rank but 2 *)
Definition bn_normalize (features n : nat) (eps : R) (gb : option (xtensor * xtensor)) (x mean var : xtensor)
    : outcome xtensor :=
  do centered <- x_sub e x mean ;
  do normalized <- divide (xdtype x) eps centered var ;
  scale_shift_channels features n normalized gb.
(** L84-106, L252-272, L394-414: [momentum * old + (1 - momentum) * new] *)
Definition bn_update (features : nat) (momentum : R) (old new : xtensor) : outcome xtensor :=
  do sq <- x_view (VReshape [features]) new ;
  do a <- x_mul_scalar e old (xdtype old, Fin momentum) ;
  do b <- x_mul_scalar e sq (xdtype old, Fin (1 - momentum)) ;
  x_add e a b.
(** L56-135 (k = 1, of rank 2 or 3), L234-288 (k = 2), L376-430 (k = 3)
    [BatchNorm1D/2D/3D::forward]: the running statistics afterwards, and the result *)
Definition batch_norm (k features : nat) (momentum eps : R) (training : bool) (gb : option (xtensor * xtensor))
    (st : running) (x : xtensor) : running * outcome xtensor :=
  let rank := length (xshape x) in
  let n := if (k =? 1) && (rank =? 2) then 2 else k + 2 in
  if training then
    if negb (rank =? n) then (st, Err EInternal)
    else
      match
        (do m <- moments false x (map Z.of_nat (0 :: seq 2 (n - 2))) ;
         let '(mean, _, var) := m in
         do nm <- bn_update features momentum (r_mean st) mean ;
         do nv <- bn_update features momentum (r_var st) var ;
         Ok (mkRunning nm nv, mean, var))
      with
      | Ok (st', mean, var) => (st', bn_normalize features n eps gb x mean var)
      | Err er => (st, Err er)
      | Panic => (st, Panic)
      end
  else
    if (1 <? k) && negb (rank =? n) then (st, Err EInternal)
    else
      (st, do mean <- x_view (VReshape (channel_shape features n)) (r_mean st) ;
           do var <- x_view (VReshape (channel_shape features n)) (r_var st) ;
           bn_normalize features n eps gb x mean var).
End Norm.
