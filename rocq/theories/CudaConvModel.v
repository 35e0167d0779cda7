(** Convolutions on CUDA.  crates/hodu_cuda_kernels/kernels/ops_conv.cu, launched by
    src/kernels/ops_conv.rs and be_cuda/storage/ops_conv.rs.  The tensor operations in front
    and the metadata are those of ConvModel.v.

    Simplifications: as in LaunchModel.v and ConvModel.v.  The six element types that pass
    utils/valid.rs:330-334 are those of the kernels (ops_conv.cu:769-868), so no type is
    mentioned.  Line numbers without a file are those of ops_conv.cu. *)
From Coq Require Import List Arith ZArith Bool SpecFloat.
From Verif Require Import Base IndexSpec LayoutModel KernelModel TensorModel ScanModel CountModel EinsumModel ConvModel TileSpec LaunchModel CudaReduceModel.
Import ListNotations.
Local Open Scope nat_scope.

(** The input position that kernel position [k] brings to output position [o]:
    [tmp = ow + padding - kw * dilation], its remainder and quotient as in C, on every axis;
    L184-187, L232-237 *)
Fixpoint c_back (o k stride pad dil n : list nat) : option (list nat) :=
  match o, k, stride, pad, dil, n with
  | o1 :: o', k1 :: k', s1 :: s', p1 :: p', d1 :: d', n1 :: n' =>
      let tmp := (Z.of_nat o1 + Z.of_nat p1 - Z.of_nat (k1 * d1))%Z in
      if (Z.rem tmp (Z.of_nat s1) =? 0)%Z then
        let i := Z.quot tmp (Z.of_nat s1) in
        if ((0 <=? i) && (i <? Z.of_nat n1))%Z
        then let? r := c_back o' k' s' p' d' n' in Some (Z.to_nat i :: r)
        else None
      else None
  | _, _, _, _, _, _ => Some []
  end.

Section Kernels.
  Context {A T : Type}.
  Variable sched : nat -> list nat.
  (** [up]: to_float; [down]: from_float; the arithmetic of float *)
  Variables (up : A -> T) (down : T -> A) (zero : T) (add mul : T -> T -> T).

  Definition sum_product (input weight : list A) (x w : nat) (sum : T) : option T :=
    let? x := nth_error input x in
    let? w := nth_error weight w in
    Some (add sum (mul (up x) (up w))).
  (** L8-43 [CONV1D_OP], L45-93 [CONV2D_OP], L95-160 [CONV3D_OP] *)
  Definition cuda_conv_term (m : conv_md) (input weight : list A) (b oc : nat) (o : list nat)
      (ic : nat) (k : list nat) (sum : T) : option T :=
    match c_pos o k (cv_stride m) (cv_pad m) (cv_dil m) (cv_in m) with
    | Some i =>
        sum_product input weight
          (cv_ioff m + b * cv_cin m * nelem (cv_in m) + ic * nelem (cv_in m) + ravel (cv_in m) i)
          (cv_woff m + oc * cv_cin m * nelem (cv_ker m) + ic * nelem (cv_ker m) + ravel (cv_ker m) k) sum
    | None => Some sum
    end.
  (** L162-200 [CONV_TRANSPOSE1D_OP] and the two after it *)
  Definition cuda_conv_t_term (m : conv_md) (input weight : list A) (b oc : nat) (o : list nat)
      (ic : nat) (k : list nat) (sum : T) : option T :=
    match c_back o k (cv_stride m) (cv_pad m) (cv_dil m) (cv_in m) with
    | Some i =>
        sum_product input weight
          (cv_ioff m + b * cv_cin m * nelem (cv_in m) + ic * nelem (cv_in m) + ravel (cv_in m) i)
          (cv_woff m + ic * cv_cout m * nelem (cv_ker m) + oc * nelem (cv_ker m) + ravel (cv_ker m) k) sum
    | None => Some sum
    end.
  Definition cuda_conv_with (term : conv_md -> list A -> list A -> nat -> nat -> list nat -> nat -> list nat -> T -> option T)
      (nd : nat) (input weight : list A) (out : list (option A)) (md : list nat) : option (list A) :=
    let? m := read_conv nd md in
    elementwise sched (cv_els m) (fun idx =>
      let? c := c_coords (rev (cv_cout m :: cv_out m)) idx [] in
      let b := idx / nelem (cv_cout m :: cv_out m) in
      let? sum := loopO (fun ic sum =>
        loopO (fun k sum => term m input weight b (hd 0 c) (tl c) ic k sum) (all_idx (cv_ker m)) sum)
        (seq 0 (cv_cin m)) zero in
      Some (down sum)) out.

  (** tensor/ops/conv.rs:17-393 with be_cuda/storage/ops_conv.rs:11-136 *)
  Definition cuda_t_conv (nd : nat) (t w : tensor A) (stride pad dil : nat) : outcome (tensor A) :=
    let si := lshape (tlay t) in let sw := lshape (tlay w) in
    if negb (length si =? nd + 2) then Err EShape
    else if negb (length sw =? nd + 2) then Err EShape
    else if negb (nth 1 si 0 =? nth 1 sw 0) then Err EShape
    else
      do o <- conv_sizes (skipn 2 si) (skipn 2 sw) stride pad dil ;
      let out := nth 0 si 0 :: nth 0 sw 0 :: o in
      do st <- ub (cuda_conv_with cuda_conv_term nd (tstore t) (tstore w) (repeat None (nelem out))
                     (conv_metadata (tlay t) (tlay w) (repeat stride nd) (repeat pad nd) (repeat dil nd) out)) ;
      Ok (mkT st (from_shape out)).

  (** tensor/ops/conv.rs:395-804 with the same be_cuda/storage/ops_conv.rs:11-136: the size of
      the storage is computed as for a convolution (L37-42 of it) whichever operation it is *)
  Definition cuda_t_conv_transpose (nd : nat) (t w : tensor A) (stride pad extra dil : nat) : outcome (tensor A) :=
    let si := lshape (tlay t) in let sw := lshape (tlay w) in
    if negb (length si =? nd + 2) then Err EShape
    else if negb (length sw =? nd + 2) then Err EShape
    else if negb (nth 1 si 0 =? nth 1 sw 0) then Err EShape
    else
      do o <- conv_t_sizes (skipn 2 si) (skipn 2 sw) stride pad dil extra ;
      do o' <- conv_sizes (skipn 2 si) (skipn 2 sw) stride pad dil ;
      let out := nth 0 si 0 :: nth 0 sw 0 :: o' in
      do st <- ub (cuda_conv_with cuda_conv_t_term nd (tstore t) (tstore w) (repeat None (nelem out))
                     (conv_metadata (tlay t) (tlay w) (repeat stride nd) (repeat pad nd) (repeat dil nd) out)) ;
      Ok (mkT st (from_shape (nth 0 si 0 :: nth 0 sw 0 :: o))).

  (** ** Gradient of the weight: L327-379 and the two after it.  The sum at an address is
      updated by atomic additions; [plus] is one of them.  An update of a value that is
      undetermined leaves it so.  [log]: the indices in the order in which they are worked on;
      the additions of one index are not interleaved with those of another. *)
  Variable plus : A -> A -> A.
  Definition add_at (out : list (option A)) (p : nat * A) : list (option A) :=
    upd out (fst p) (match nth_error out (fst p) with Some (Some old) => Some (plus old (snd p)) | _ => None end).
  Definition gradw_adds (m : gradw_md) (input grad : list A) (idx : nat) : option (list (nat * A)) :=
    let cin := nth 1 (gw_ishape m) 0 in let isp := skipn 2 (gw_ishape m) in
    let ker := skipn 2 (gw_wshape m) in
    let cout := nth 1 (gw_gshape m) 0 in let osp := skipn 2 (gw_gshape m) in
    let? c := c_coords (rev (cout :: osp)) idx [] in
    let b := idx / nelem (cout :: osp) in
    let oc := hd 0 c in let o := tl c in
    let? g := nth_error grad (gw_goff m + dot (b :: oc :: o) (gw_gstrides m)) in
    loopO (fun ic adds =>
      loopO (fun k adds =>
        match c_pos o k (gw_stride m) (gw_pad m) (gw_dil m) isp with
        | Some i =>
            let? x := nth_error input (gw_ioff m + b * cin * nelem isp + ic * nelem isp + ravel isp i) in
            Some (adds ++ [(oc * cin * nelem ker + ic * nelem ker + ravel ker k, down (mul (up x) (up g)))])
        | None => Some adds
        end) (all_idx ker) adds)
      (seq 0 cin) [].
  Definition cuda_gradw (log : list nat) (input grad : list A) (out : list (option A)) (md : list nat) : option (list A) :=
    let? m := read_gradw md in
    let? adds := mapO (gradw_adds m input grad) log in
    if negb (forallb (fun p => fst p <? length out) (concat adds)) then None
    else all_some (fold_left add_at (concat adds) out).
  (** tensor/ops/conv.rs:807-1065 with be_cuda/storage/ops_conv.rs:139-259; the buffer comes
      from [new_buffer] (L185 of it), which does not initialise it (be_cuda/device.rs:91-101) *)
  Definition cuda_t_gradw (log : list nat) (nd : nat) (t g : tensor A) (ws : shape) (stride pad dil : nat) : outcome (tensor A) :=
    if negb (length (lshape (tlay t)) =? nd + 2) then Err EShape
    else if negb (length (lshape (tlay g)) =? nd + 2) then Err EShape
    else if negb (length ws =? nd + 2) then Err EInternal
    else
      do st <- ub (cuda_gradw log (tstore t) (tstore g) (repeat None (nelem ws))
                     (gradw_metadata (tlay t) (tlay g) ws (repeat stride nd) (repeat pad nd) (repeat dil nd) nd)) ;
      Ok (mkT st (from_shape ws)).
End Kernels.

(** L773-774: conv1d_f32, conv1d_f64, whose accumulator is a float *)
Definition cuda_conv_f32 sched : nat -> tensor spec_float -> _ :=
  cuda_t_conv sched (fun x => x) (fun x => x) (S754_zero false) (SFadd 24 128) (SFmul 24 128).
Definition cuda_conv_f64 sched : nat -> tensor spec_float -> _ :=
  cuda_t_conv sched (resized 24 128) (resized 53 1024) (S754_zero false) (SFadd 24 128) (SFmul 24 128).
