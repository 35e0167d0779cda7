(** The gradient of the weight of a transposed convolution on CUDA: ops_conv.cu:540-763,
    launched as in CudaConvModel.v.  Every index is an element of the gradient of the output;
    the kernel goes back from it to the input elements that reach it. *)
From Coq Require Import List Arith ZArith Bool.
From Verif Require Import Base IndexSpec LayoutModel KernelModel TensorModel ScanModel CountModel EinsumModel ConvModel TileSpec CudaConvModel.
Import ListNotations.
Local Open Scope nat_scope.

Section Kernels.
  Context {A T : Type}.
  Variables (up : A -> T) (down : T -> A) (mul : T -> T -> T) (plus : A -> A -> A).

  (** ops_conv.cu:568-596 and the same in two and three axes: the additions of one index *)
  Definition gradw_t_adds (m : gradw_md) (input grad : list A) (idx : nat) : option (list (nat * A)) :=
    let cin := nth 1 (gw_ishape m) 0 in let isp := skipn 2 (gw_ishape m) in
    let ker := skipn 2 (gw_wshape m) in
    let cout := nth 1 (gw_gshape m) 0 in let osp := skipn 2 (gw_gshape m) in
    let? c := c_coords (rev (cout :: osp)) idx [] in
    let b := idx / nelem (cout :: osp) in
    let oc := hd 0 c in let o := tl c in
    let? g := nth_error grad (gw_goff m + dot (b :: oc :: o) (gw_gstrides m)) in
    loopO (fun ic adds =>
      loopO (fun k adds =>
        match c_back o k (gw_stride m) (gw_pad m) (gw_dil m) isp with
        | Some i =>
            let? x := nth_error input (gw_ioff m + b * cin * nelem isp + ic * nelem isp + ravel isp i) in
            Some (adds ++ [(ic * cout * nelem ker + oc * nelem ker + ravel ker k, down (mul (up x) (up g)))])
        | None => Some adds
        end) (all_idx ker) adds)
      (seq 0 cin) [].
  Definition cuda_gradw_t (log : list nat) (input grad : list A) (out : list (option A)) (md : list nat) : option (list A) :=
    let? m := read_gradw md in
    let? adds := mapO (gradw_t_adds m input grad) log in
    if negb (forallb (fun p => fst p <? length out) (concat adds)) then None
    else all_some (fold_left (add_at plus) (concat adds) out).
  (** tensor/ops/conv.rs:1068-1327 with be_cuda/storage/ops_conv.rs:139-259; the buffer is not
      initialised, as in [cuda_t_gradw] *)
  Definition cuda_t_gradw_t (log : list nat) (nd : nat) (t g : tensor A) (ws : shape) (stride pad dil : nat) : outcome (tensor A) :=
    if negb (length (lshape (tlay t)) =? nd + 2) then Err EShape
    else if negb (length (lshape (tlay g)) =? nd + 2) then Err EShape
    else if negb (length ws =? nd + 2) then Err EInternal
    else
      do st <- ub (cuda_gradw_t log (tstore t) (tstore g) (repeat None (nelem ws))
                     (gradw_metadata (tlay t) (tlay g) ws (repeat stride nd) (repeat pad nd) (repeat dil nd) nd)) ;
      Ok (mkT st (from_shape ws)).
End Kernels.
