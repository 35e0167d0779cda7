(** The pooling layers: hodu_nn/src/modules/pooling.rs.

    Simplifications: floats are [xr] (NumModel.v), so for the mean the dtype is F32 or F64 (the
    16-bit and 8-bit kernels average bit patterns, C34); sizes are below 2^52, where the f64
    division followed by [floor] is the integer division; the f64 product and rounding of
    [generate_fractional_sequence] are the parameter [cut].  The 1D, 2D and 3D layers differ only in
    the number [k] of spatial axes.  Devices, capture and gradients are left out. *)
From Coq Require Import List Arith ZArith Reals Bool.
From Verif Require Import Base LayoutModel ViewSpec KernelModel TensorModel EncodeModel WindowModel NumModel NnModel LayerModel.
Import ListNotations.
Open Scope nat_scope.

(** tensor/ops/windowing.rs:10-134, "mean" and "max"; the checks of the lengths come first, those of
    the dtypes second; ops_windowing.c L205-218 *)
Definition x_window_mean (a : xtensor) (window strides : list nat) (padding : list (nat * nat)) : outcome xtensor :=
  if negb (length window =? length (xshape a)) then Err ELayout
  else if negb (length strides =? length (xshape a)) then Err ELayout
  else if negb (length padding =? length (xshape a)) then Err ELayout
  else if negb (allowed Floats (xdtype a)) then Err EDType
  else do t <- t_reduce_window (Fin 0) xadd None (fun n b => xdiv b (nat_x n)) (Fin 0) (xdata a) window strides padding ;
       Ok (mkX (xdtype a) t).
Definition x_window_max (a : xtensor) (window strides : list nat) (padding : list (nat * nat)) : outcome xtensor :=
  if negb (length window =? length (xshape a)) then Err ELayout
  else if negb (length strides =? length (xshape a)) then Err ELayout
  else if negb (length padding =? length (xshape a)) then Err ELayout
  else if negb (allowed NoBool (xdtype a)) then Err EDType
  else do t <- t_reduce_window NInf xmax (Some NInf) (fun _ b => b) (Fin 0) (xdata a) window strides padding ;
       Ok (mkX (xdtype a) t).

(** L258-388 [AvgPool1D], [AvgPool2D], [AvgPool3D] *)
Definition avg_pool (k kernel_size stride padding : nat) (input : xtensor) : outcome xtensor :=
  if negb (length (xshape input) =? 2 + k) then Err EInternal
  else x_window_mean input (1 :: 1 :: repeat kernel_size k) (1 :: 1 :: repeat stride k)
         ((0, 0) :: (0, 0) :: repeat (padding, padding) k).
(** L389-525 [MaxPool1D], [MaxPool2D], [MaxPool3D] *)
Definition max_pool (k kernel_size stride padding : nat) (input : xtensor) : outcome xtensor :=
  if negb (length (xshape input) =? 2 + k) then Err EInternal
  else x_window_max input (1 :: 1 :: repeat kernel_size k) (1 :: 1 :: repeat stride k)
         ((0, 0) :: (0, 0) :: repeat (padding, padding) k).

(** L26-27 and the like: stride and window of one axis; [output_size - 1] underflows for 0 *)
Definition adaptive_axis (input_length output_size : nat) : outcome (nat * nat) :=
  match output_size with
  | 0 => Panic
  | S o => let stride := input_length / output_size in Ok (stride, input_length - o * stride)
  end.
(** L5-130 [AdaptiveAvgPool1D], [AdaptiveAvgPool2D], [AdaptiveAvgPool3D] and
    L131-257 [AdaptiveMaxPool1D], [AdaptiveMaxPool2D], [AdaptiveMaxPool3D] *)
Definition adaptive_pool (maximum : bool) (output_size : list nat) (input : xtensor) : outcome xtensor :=
  if negb (length (xshape input) =? 2 + length output_size) then Err EInternal
  else
    do ax <- seq_all (map (fun p => adaptive_axis (fst p) (snd p)) (combine (skipn 2 (xshape input)) output_size)) ;
    (if maximum then x_window_max else x_window_mean) input (1 :: 1 :: map snd ax) (1 :: 1 :: map fst ax)
      (repeat (0, 0) (2 + length output_size)).

(** L528-629 [GlobalAvgPool1D], [GlobalAvgPool2D], [GlobalAvgPool3D] *)
Definition global_avg_pool (k : nat) (input : xtensor) : outcome xtensor :=
  if negb (length (xshape input) =? 2 + k) then Err EInternal else x_mean input (map Z.of_nat (seq 2 k)) true.
(** L634-732 [GlobalMaxPool1D], [GlobalMaxPool2D], [GlobalMaxPool3D] *)
Definition global_max_pool (k : nat) (input : xtensor) : outcome xtensor :=
  if negb (length (xshape input) =? 2 + k) then Err EInternal else x_max input (map Z.of_nat (seq 2 k)) true.

(** L931-951 [generate_fractional_sequence]; [cut i] is [(alpha * i as f64).round() as usize] *)
Definition fractional_sequence (cut : nat -> nat) (input_size output_size : nat) : list nat :=
  removelast (map (fun i => Nat.min (cut i) input_size) (seq 0 (S output_size))) ++ [input_size].
(** L802-806: the chain of slices *)
Fixpoint slices (axis : nat) (bounds : list (nat * nat)) (x : xtensor) : outcome xtensor :=
  match bounds with
  | [] => Ok x
  | (start, stop) :: r => do y <- x_view (VSlice (Z.of_nat axis) (Z.of_nat start) (Some (Z.of_nat stop)) 1) x ; slices (S axis) r y
  end.
(** the indices of nested loops, the innermost fastest *)
Fixpoint nest (dims : list nat) : list (list nat) :=
  match dims with [] => [[]] | d :: r => flat_map (fun x => map (cons x) (nest r)) (seq 0 d) end.
(** L743-831 [FractionalMaxPool2D::forward], L835-929 [FractionalMaxPool3D::forward], with the
    output sizes given *)
Definition fractional_max_pool (cut : nat -> nat -> nat -> nat) (output_size : list nat) (input : xtensor) : outcome xtensor :=
  if negb (length (xshape input) =? 2 + length output_size) then Err EInternal
  else
    match xshape input with
    | n :: c :: l =>
      let sequences := map (fun p => fractional_sequence (cut (fst p) (snd p)) (fst p) (snd p)) (combine l output_size) in
      let region o := match o with
        | batch :: channel :: p =>
          (batch, batch + 1) :: (channel, channel + 1) ::
          map (fun q => (nth (snd q) (fst q) 0, nth (snd q + 1) (fst q) 0)) (combine sequences p)
        | _ => [] end in
      do results <- seq_all (map (fun o => do r <- slices 0 (region o) input ;
                                           x_max r (map Z.of_nat (seq 0 (length (xshape input)))) false)
                                 (nest (n :: c :: output_size))) ;
      do stacked <- x_stack results ;
      x_view (VReshape (n :: c :: output_size)) stacked
    | _ => Panic
    end.
