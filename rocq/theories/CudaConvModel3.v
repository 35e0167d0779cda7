(** Convolutions on CUDA as compiled: build.rs:50 of hodu_cuda_kernels passes --fmad=true, so
    [sum += x * w] (ops_conv.cu:37 and the same line of the two kernels after it) may be one operation, rounded once.
    [step sum x w] is what the compiler makes of it; the rest is that of CudaConvModel.v. *)
From Coq Require Import List Arith ZArith Bool SpecFloat.
From Verif Require Import Base IndexSpec LayoutModel KernelModel TensorModel ScanModel ConvModel CudaConvModel CudaResizeModel.
Import ListNotations.
Local Open Scope nat_scope.

Section Kernels.
  Context {A T : Type}.
  Variable sched : nat -> list nat.
  Variables (up : A -> T) (down : T -> A) (zero : T) (step : T -> T -> T -> T).

  (** ops_conv.cu:8-160 *)
  Definition cuda_conv_step (m : conv_md) (input weight : list A) (b oc : nat) (o : list nat)
      (ic : nat) (k : list nat) (sum : T) : option T :=
    match c_pos o k (cv_stride m) (cv_pad m) (cv_dil m) (cv_in m) with
    | Some i =>
        let? x := nth_error input (cv_ioff m + b * cv_cin m * nelem (cv_in m) + ic * nelem (cv_in m) + ravel (cv_in m) i) in
        let? w := nth_error weight (cv_woff m + oc * cv_cin m * nelem (cv_ker m) + ic * nelem (cv_ker m) + ravel (cv_ker m) k) in
        Some (step sum (up x) (up w))
    | None => Some sum
    end.
  (** tensor/ops/conv.rs:17-393 with be_cuda/storage/ops_conv.rs:11-136 *)
  Definition cuda_t_conv_step (nd : nat) (t w : tensor A) (stride pad dil : nat) : outcome (tensor A) :=
    let si := lshape (tlay t) in let sw := lshape (tlay w) in
    if negb (length si =? nd + 2) then Err EShape
    else if negb (length sw =? nd + 2) then Err EShape
    else if negb (nth 1 si 0 =? nth 1 sw 0) then Err EShape
    else
      do o <- conv_sizes (skipn 2 si) (skipn 2 sw) stride pad dil ;
      let out := nth 0 si 0 :: nth 0 sw 0 :: o in
      do st <- ub (cuda_conv_with sched down zero cuda_conv_step nd (tstore t) (tstore w) (repeat None (nelem out))
                     (conv_metadata (tlay t) (tlay w) (repeat stride nd) (repeat pad nd) (repeat dil nd) out)) ;
      Ok (mkT st (from_shape out)).

  (** ops_conv.cu:162-325 *)
  Definition cuda_conv_t_step (m : conv_md) (input weight : list A) (b oc : nat) (o : list nat)
      (ic : nat) (k : list nat) (sum : T) : option T :=
    match c_back o k (cv_stride m) (cv_pad m) (cv_dil m) (cv_in m) with
    | Some i =>
        let? x := nth_error input (cv_ioff m + b * cv_cin m * nelem (cv_in m) + ic * nelem (cv_in m) + ravel (cv_in m) i) in
        let? w := nth_error weight (cv_woff m + ic * cv_cout m * nelem (cv_ker m) + oc * nelem (cv_ker m) + ravel (cv_ker m) k) in
        Some (step sum (up x) (up w))
    | None => Some sum
    end.
  (** tensor/ops/conv.rs:395-804 with be_cuda/storage/ops_conv.rs:11-136 *)
  Definition cuda_t_conv_transpose_step (nd : nat) (t w : tensor A) (stride pad extra dil : nat) : outcome (tensor A) :=
    let si := lshape (tlay t) in let sw := lshape (tlay w) in
    if negb (length si =? nd + 2) then Err EShape
    else if negb (length sw =? nd + 2) then Err EShape
    else if negb (nth 1 si 0 =? nth 1 sw 0) then Err EShape
    else
      do o <- conv_t_sizes (skipn 2 si) (skipn 2 sw) stride pad dil extra ;
      do o' <- conv_sizes (skipn 2 si) (skipn 2 sw) stride pad dil ;
      let out := nth 0 si 0 :: nth 0 sw 0 :: o' in
      do st <- ub (cuda_conv_with sched down zero cuda_conv_t_step nd (tstore t) (tstore w) (repeat None (nelem out))
                     (conv_metadata (tlay t) (tlay w) (repeat stride nd) (repeat pad nd) (repeat dil nd) out)) ;
      Ok (mkT st (from_shape (nth 0 si 0 :: nth 0 sw 0 :: o))).
End Kernels.

(** [sum + x * w] rounded once to binary32 *)
Definition sf_step (sum x w : spec_float) : spec_float :=
  match sum with
  | S754_finite s m e => sf_mulsub x w (S754_finite (negb s) m e)
  | _ => SFadd 24 128 sum (SFmul 24 128 x w)
  end.
Definition cuda_conv_fused sched : nat -> tensor spec_float -> _ :=
  cuda_t_conv_step sched (fun x => x) (fun x => x) (S754_zero false) sf_step.
