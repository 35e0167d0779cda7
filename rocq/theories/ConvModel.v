(** Convolutions: crates/hodu_cpu_kernels/kernels/ops_conv.c, ops_conv_openblas.c,
    op_metadatas.rs L1036-1245, be_cpu/storage/ops_conv.rs, tensor/ops/conv.rs (eager
    branches) and tensor/gradient/vjp_conv.rs.

    Simplifications: element type, zero, addition and multiplication are parameters (the
    EXOTIC macros have the same loops with ADD_FN/MUL_FN); the macros for one, two and
    three spatial axes are the same loops unrolled, here one definition over the list of
    axes, a nest of [for] loops over the axes being one loop over [all_idx]; positions
    computed as [int] are below 2^31, [size_t] arithmetic does not wrap, a subtraction of
    usize below zero is a panic (debug builds); a [double] atomic add is an addition;
    [malloc] succeeds; the BLAS library as in MatrixModel; checks of type and device are
    left out. *)
From Coq Require Import List Arith ZArith Bool.
From Verif Require Import Base IndexSpec LayoutModel KernelModel TensorModel ScanModel EinsumModel CountModel.
Import ListNotations.

(** ** Metadata *)
(** op_metadatas.rs L1036-1180: conv1d_metadata, conv2d_metadata, conv3d_metadata *)
Definition conv_metadata (li lw : layout) (stride pad dil : list nat) (out : shape) : list nat :=
  [nelem out; nth 0 out 0; nth 1 (lshape li) 0; nth 1 out 0]
  ++ skipn 2 (lshape li) ++ skipn 2 (lshape lw) ++ skipn 2 out
  ++ stride ++ pad ++ dil ++ [loffset li; loffset lw].
Record conv_md := mkCv {
  cv_els : nat; cv_batch : nat; cv_cin : nat; cv_cout : nat;
  cv_in : list nat; cv_ker : list nat; cv_out : list nat;
  cv_stride : list nat; cv_pad : list nat; cv_dil : list nat; cv_ioff : nat; cv_woff : nat }.
(** ops_conv.c L41-52, L179-198, L344-369 *)
Definition read_conv (nd : nat) (md : list nat) : option conv_md :=
  obind (read_n 4 md) (fun '(h, md) =>
  obind (read_n nd md) (fun '(i, md) =>
  obind (read_n nd md) (fun '(k, md) =>
  obind (read_n nd md) (fun '(o, md) =>
  obind (read_n nd md) (fun '(s, md) =>
  obind (read_n nd md) (fun '(p, md) =>
  obind (read_n nd md) (fun '(d, md) =>
  obind (read_n 2 md) (fun '(f, _) =>
  Some (mkCv (nth 0 h 0) (nth 1 h 0) (nth 2 h 0) (nth 3 h 0) i k o s p d (nth 0 f 0) (nth 1 f 0)))))))))).

(** [iw = (int)(ow * stride) - (int)padding + (int)(kw * dilation)], on every axis, and
    the test that each is in range; L64-65 *)
Fixpoint c_pos (o k stride pad dil n : list nat) : option (list nat) :=
  match o, k, stride, pad, dil, n with
  | o1 :: o', k1 :: k', s1 :: s', p1 :: p', d1 :: d', n1 :: n' =>
      let i := (Z.of_nat (o1 * s1) - Z.of_nat p1 + Z.of_nat (k1 * d1))%Z in
      if ((0 <=? i) && (i <? Z.of_nat n1))%Z
      then let? r := c_pos o' k' s' p' d' n' in Some (Z.to_nat i :: r)
      else None
  | _, _, _, _, _, _ => Some []
  end.

Section Conv.
  Context {A : Type}.
  Variables (zero : A) (add mul : A -> A -> A).

  (** ** Forward: ops_conv.c L34-80, L172-230, L337-410 *)
  Definition conv_term (m : conv_md) (input weight : list A) (b oc : nat) (o : list nat)
      (ic : nat) (k : list nat) (sum : A) : option A :=
    match c_pos o k (cv_stride m) (cv_pad m) (cv_dil m) (cv_in m) with
    | Some i =>
        let? x := nth_error input (cv_ioff m + b * cv_cin m * nelem (cv_in m) + ic * nelem (cv_in m) + ravel (cv_in m) i) in
        let? w := nth_error weight (cv_woff m + oc * cv_cin m * nelem (cv_ker m) + ic * nelem (cv_ker m) + ravel (cv_ker m) k) in
        Some (add sum (mul x w))
    | None => Some sum
    end.
  Definition conv_kernel (nd : nat) (input weight output : list A) (md : list nat) : option (list A) :=
    let? m := read_conv nd md in
    seq_for (cv_els m) (fun idx =>
      let? c := c_coords (rev (cv_cout m :: cv_out m)) idx [] in
      let b := idx / nelem (cv_cout m :: cv_out m) in
      loopO (fun ic sum =>
        loopO (fun k sum => conv_term m input weight b (hd 0 c) (tl c) ic k sum) (all_idx (cv_ker m)) sum)
        (seq 0 (cv_cin m)) zero) output.

  (** tensor/ops/conv.rs L57, L172-173, L295-297 and be_cpu/storage/ops_conv.rs L113, L151-152, L200-202 *)
  Definition conv_size (n k stride pad dil : nat) : outcome nat :=
    if k =? 0 then Panic
    else if n + 2 * pad <? dil * (k - 1) then Panic
    else if n + 2 * pad - dil * (k - 1) <? 1 then Panic
    else if stride =? 0 then Panic
    else Ok ((n + 2 * pad - dil * (k - 1) - 1) / stride + 1).
  Fixpoint conv_sizes (n k : list nat) (stride pad dil : nat) : outcome (list nat) :=
    match n, k with
    | n1 :: n', k1 :: k' =>
        do o <- conv_size n1 k1 stride pad dil ;
        do r <- conv_sizes n' k' stride pad dil ; Ok (o :: r)
    | _, _ => Ok []
    end.
  (** tensor/ops/conv.rs L17-393: conv1d, conv2d, conv3d for [nd] = 1, 2, 3 *)
  Definition t_conv_with (kernel : list A -> list A -> list A -> list nat -> option (list A))
      (nd : nat) (t w : tensor A) (stride pad dil : nat) : outcome (tensor A) :=
    let si := lshape (tlay t) in let sw := lshape (tlay w) in
    if negb (length si =? nd + 2) then Err EShape
    else if negb (length sw =? nd + 2) then Err EShape
    else if negb (nth 1 si 0 =? nth 1 sw 0) then Err EShape
    else
      do o <- conv_sizes (skipn 2 si) (skipn 2 sw) stride pad dil ;
      let out := nth 0 si 0 :: nth 0 sw 0 :: o in
      do st <- ub (kernel (tstore t) (tstore w) (repeat zero (nelem out))
                     (conv_metadata (tlay t) (tlay w) (repeat stride nd) (repeat pad nd) (repeat dil nd) out)) ;
      Ok (mkT st (from_shape out)).
  Definition t_conv (nd : nat) := t_conv_with (conv_kernel nd) nd.

  (** ** conv2d of f32 and f64: ops_conv_openblas.c L22-139 (and the macOS file).  The plain
      loops are compiled as [..._fallback] only (ops_conv.c L295-296). *)
  (** L22-51 *)
  Definition im2col (m : conv_md) (input : list A) (b : nat) : option (list A) :=
    mapO (fun c : list nat * (nat * list nat) =>
      let '(o, (ic, k)) := c in
      match c_pos o k (cv_stride m) (cv_pad m) (cv_dil m) (cv_in m) with
      | Some i => nth_error input (cv_ioff m + b * cv_cin m * nelem (cv_in m) + (ic * nelem (cv_in m) + ravel (cv_in m) i))
      | None => Some zero
      end)
      (flat_map (fun o => map (pair o) (flat_map (fun ic => map (pair ic) (all_idx (cv_ker m))) (seq 0 (cv_cin m))))
         (all_idx (cv_out m))).
  (** cblas_?gemm(RowMajor, NoTrans, NoTrans or Trans, M, N, K, 1, a, lda, b, ldb, beta, c, ldc = N)
      with [ca], [cb] the address of an element; [beta] is 0 or 1; the inner sum is
      taken in increasing order *)
  Definition gemm_into (beta : bool) (M N K : nat) (a bm : list A) (ca cb : nat -> nat -> nat) (co : nat) (out : list A)
      : option (list A) :=
    loopO (fun p out =>
      let i := p / N in let j := p mod N in
      let? v := loopO (fun k sum =>
        let? x := nth_error a (ca i k) in
        let? y := nth_error bm (cb k j) in
        Some (add sum (mul x y))) (seq 0 K) zero in
      if beta then let? old := nth_error out (co + p) in c_store out (co + p) (add v old)
      else c_store out (co + p) v) (seq 0 (M * N)) out.
  (** L84-139 *)
  Definition conv_blas (nd : nat) (input weight output : list A) (md : list nat) : option (list A) :=
    let? m := read_conv nd md in
    let K := cv_cin m * nelem (cv_ker m) in
    let N := nelem (cv_out m) in
    loopO (fun b out =>
      let? col := im2col m input b in
      gemm_into false (cv_cout m) N K weight col
        (fun i k => cv_woff m + (i * K + k)) (fun k j => k * N + j) (b * cv_cout m * N) out)
      (seq 0 (cv_batch m)) output.
  Definition t_conv2d_blas := t_conv_with (conv_blas 2) 2.

  (** ** Transposed: ops_conv.c L516-560, L639-699, L797-873 *)
  Definition conv_t_kernel (nd : nat) (input weight output : list A) (md : list nat) : option (list A) :=
    let? m := read_conv nd md in
    let? out := seq_for (cv_els m) (fun _ => Some zero) output in
    loopO (fun b out =>
      loopO (fun ic out =>
        loopO (fun i out =>
          loopO (fun k out =>
            match c_pos i k (cv_stride m) (cv_pad m) (cv_dil m) (cv_out m) with
            | Some o =>
                loopO (fun oc out =>
                  let? x := nth_error input (cv_ioff m + b * cv_cin m * nelem (cv_in m) + ic * nelem (cv_in m) + ravel (cv_in m) i) in
                  let? w := nth_error weight (cv_woff m + ic * cv_cout m * nelem (cv_ker m) + oc * nelem (cv_ker m) + ravel (cv_ker m) k) in
                  let a := b * cv_cout m * nelem (cv_out m) + oc * nelem (cv_out m) + ravel (cv_out m) o in
                  let? old := nth_error out a in
                  c_store out a (add old (mul x w))) (seq 0 (cv_cout m)) out
            | None => Some out
            end) (all_idx (cv_ker m)) out)
          (all_idx (cv_in m)) out)
        (seq 0 (cv_cin m)) out)
      (seq 0 (cv_batch m)) out.

  (** tensor/ops/conv.rs L446-447 with [extra] = output_padding, be_cpu L110 with
      [extra] = 0; the subtraction comes before the additions *)
  Definition conv_t_size (n k stride pad dil extra : nat) : outcome nat :=
    if n =? 0 then Panic
    else if (n - 1) * stride <? 2 * pad then Panic
    else if k =? 0 then Panic
    else Ok ((n - 1) * stride - 2 * pad + dil * (k - 1) + extra + 1).
  Fixpoint conv_t_sizes (n k : list nat) (stride pad dil extra : nat) : outcome (list nat) :=
    match n, k with
    | n1 :: n', k1 :: k' =>
        do o <- conv_t_size n1 k1 stride pad dil extra ;
        do r <- conv_t_sizes n' k' stride pad dil extra ; Ok (o :: r)
    | _, _ => Ok []
    end.
  (** tensor/ops/conv.rs L395-804: conv_transpose1d, 2d, 3d.  The layout has the size with
      output_padding, the storage (be_cpu L100-230) the size without. *)
  Definition t_conv_transpose (nd : nat) (t w : tensor A) (stride pad extra dil : nat) : outcome (tensor A) :=
    let si := lshape (tlay t) in let sw := lshape (tlay w) in
    if negb (length si =? nd + 2) then Err EShape
    else if negb (length sw =? nd + 2) then Err EShape
    else if negb (nth 1 si 0 =? nth 1 sw 0) then Err EShape
    else
      do o <- conv_t_sizes (skipn 2 si) (skipn 2 sw) stride pad dil extra ;
      do o' <- conv_t_sizes (skipn 2 si) (skipn 2 sw) stride pad dil 0 ;
      let out := nth 0 si 0 :: nth 0 sw 0 :: o' in
      do st <- ub (conv_t_kernel nd (tstore t) (tstore w) (repeat zero (nelem out))
                     (conv_metadata (tlay t) (tlay w) (repeat stride nd) (repeat pad nd) (repeat dil nd) out)) ;
      Ok (mkT st (from_shape (nth 0 si 0 :: nth 0 sw 0 :: o))).

  (** ** Gradients of the weight *)
  (** op_metadatas.rs L1187-1245 *)
  Definition gradw_metadata (li lg : layout) (ws : shape) (stride pad dil : list nat) (nd : nat) : list nat :=
    [nelem ws; length (lshape li); nd] ++ lshape li ++ lshape lg ++ ws
    ++ lstrides li ++ lstrides lg ++ [loffset li; loffset lg] ++ stride ++ pad ++ dil.
  Record gradw_md := mkGw {
    gw_els : nat; gw_ishape : list nat; gw_gshape : list nat; gw_wshape : list nat;
    gw_gstrides : list nat; gw_ioff : nat; gw_goff : nat;
    gw_stride : list nat; gw_pad : list nat; gw_dil : list nat }.
  (** ops_conv.c L1022-1046 *)
  Definition read_gradw (md : list nat) : option gradw_md :=
    obind (read_n 3 md) (fun '(h, md) =>
    let n := nth 1 h 0 in let nd := nth 2 h 0 in
    obind (read_n n md) (fun '(si, md) =>
    obind (read_n n md) (fun '(sg, md) =>
    obind (read_n n md) (fun '(sw, md) =>
    obind (read_n n md) (fun '(_, md) =>
    obind (read_n n md) (fun '(tg, md) =>
    obind (read_n 2 md) (fun '(f, md) =>
    obind (read_n nd md) (fun '(s, md) =>
    obind (read_n nd md) (fun '(p, md) =>
    obind (read_n nd md) (fun '(d, _) =>
    Some (mkGw (nth 0 h 0) si sg sw tg (nth 0 f 0) (nth 1 f 0) s p d))))))))))).

  (** ops_conv.c L1015-1073, L1183-1255, L1395-1480 *)
  Definition gradw_kernel (input grad output : list A) (md : list nat) : option (list A) :=
    let? m := read_gradw md in
    let cin := nth 1 (gw_ishape m) 0 in let isp := skipn 2 (gw_ishape m) in
    let ker := skipn 2 (gw_wshape m) in
    let? out := seq_for (gw_els m) (fun _ => Some zero) output in
    loopO (fun b out =>
      loopO (fun oc out =>
        loopO (fun o out =>
          let? g := nth_error grad (gw_goff m + dot (b :: oc :: o) (gw_gstrides m)) in
          loopO (fun ic out =>
            loopO (fun k out =>
              match c_pos o k (gw_stride m) (gw_pad m) (gw_dil m) isp with
              | Some i =>
                  let? x := nth_error input (gw_ioff m + b * cin * nelem isp + ic * nelem isp + ravel isp i) in
                  let a := oc * cin * nelem ker + ic * nelem ker + ravel ker k in
                  let? old := nth_error out a in
                  c_store out a (add old (mul x g))
              | None => Some out
              end) (all_idx ker) out)
            (seq 0 cin) out)
          (all_idx (skipn 2 (gw_gshape m))) out)
        (seq 0 (nth 1 (gw_gshape m) 0)) out)
      (seq 0 (nth 0 (gw_ishape m) 0)) out.

  (** ops_conv_openblas.c L197-282: conv2d of f32 and f64 when the strides of grad_output
      are the contiguous ones, the loops above otherwise *)
  Definition gradw_blas (input grad output : list A) (md : list nat) : option (list A) :=
    let? m := read_gradw md in
    let osp := skipn 2 (gw_gshape m) in let ker := skipn 2 (gw_wshape m) in
    let cin := nth 1 (gw_ishape m) 0 in let cout := nth 1 (gw_gshape m) 0 in
    if list_eq_dec Nat.eq_dec (gw_gstrides m) [cout * nelem osp; nelem osp; nth 1 osp 0; 1] then
      let? out := seq_for (gw_els m) (fun _ => Some zero) output in
      let K := cin * nelem ker in
      let N := nelem osp in
      let cm := mkCv 0 0 cin cout (skipn 2 (gw_ishape m)) ker osp (gw_stride m) (gw_pad m) (gw_dil m) (gw_ioff m) 0 in
      loopO (fun b out =>
        let? col := im2col cm input b in
        gemm_into true cout K N grad col
          (fun i n => gw_goff m + b * cout * N + (i * N + n)) (fun n j => j * N + n) 0 out)
        (seq 0 (nth 0 (gw_ishape m) 0)) out
    else gradw_kernel input grad output md.

  (** tensor/ops/conv.rs L807-1065: conv1d_grad_weight, 2d, 3d, with be_cpu L277-400 *)
  Definition t_gradw_with (kernel : list A -> list A -> list A -> list nat -> option (list A))
      (nd : nat) (t g : tensor A) (ws : shape) (stride pad dil : nat) : outcome (tensor A) :=
    if negb (length (lshape (tlay t)) =? nd + 2) then Err EShape
    else if negb (length (lshape (tlay g)) =? nd + 2) then Err EShape
    else if negb (length ws =? nd + 2) then Err EInternal
    else
      do st <- ub (kernel (tstore t) (tstore g) (repeat zero (nelem ws))
                     (gradw_metadata (tlay t) (tlay g) ws (repeat stride nd) (repeat pad nd) (repeat dil nd) nd)) ;
      Ok (mkT st (from_shape ws)).
  Definition t_gradw (nd : nat) := t_gradw_with gradw_kernel nd.

  (** ops_conv.c L1625-1683, L1775-1850, L1961-2050: the transposed convolution's *)
  Definition gradw_t_kernel (input grad output : list A) (md : list nat) : option (list A) :=
    let? m := read_gradw md in
    let cin := nth 1 (gw_ishape m) 0 in let isp := skipn 2 (gw_ishape m) in
    let cout := nth 1 (gw_gshape m) 0 in let osp := skipn 2 (gw_gshape m) in
    let ker := skipn 2 (gw_wshape m) in
    let? out := seq_for (gw_els m) (fun _ => Some zero) output in
    loopO (fun b out =>
      loopO (fun ic out =>
        loopO (fun i out =>
          let? x := nth_error input (gw_ioff m + b * cin * nelem isp + ic * nelem isp + ravel isp i) in
          loopO (fun oc out =>
            loopO (fun k out =>
              match c_pos i k (gw_stride m) (gw_pad m) (gw_dil m) osp with
              | Some o =>
                  let? g := nth_error grad (gw_goff m + dot (b :: oc :: o) (gw_gstrides m)) in
                  let a := ic * cout * nelem ker + oc * nelem ker + ravel ker k in
                  let? old := nth_error out a in
                  c_store out a (add old (mul x g))
              | None => Some out
              end) (all_idx ker) out)
            (seq 0 cout) out)
          (all_idx isp) out)
        (seq 0 cin) out)
      (seq 0 (nth 0 (gw_ishape m) 0)) out.
  Definition t_gradw_t (nd : nat) := t_gradw_with gradw_t_kernel nd.

  (** ** Gradient rules: tensor/gradient/vjp_conv.rs *)
  (** L17-136; the shape of the weight comes from the recorded parameters *)
  Definition vjp_conv (nd : nat) (x w g : tensor A) (stride pad dil : nat) : outcome (tensor A * tensor A) :=
    do wt <- t_view zero (VTranspose 0 1) w ;
    do gx <- t_conv_transpose nd g wt stride pad 0 dil ;
    do gw <- t_gradw nd x g (lshape (tlay w)) stride pad dil ;
    Ok (gx, gw).
  (** L137-270; channels_output is the first axis of the weight (conv.rs L430) *)
  Definition vjp_conv_transpose (nd : nat) (x w g : tensor A) (stride pad dil : nat) : outcome (tensor A * tensor A) :=
    let sw := lshape (tlay w) in
    do gx <- t_conv nd g w stride pad dil ;
    do gw <- t_gradw_t nd x g (nth 1 (lshape (tlay x)) 0 :: nth 0 sw 0 :: skipn 2 sw) stride pad dil ;
    Ok (gx, gw).
End Conv.
