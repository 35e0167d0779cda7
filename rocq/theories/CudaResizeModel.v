(** Resize on CUDA.  crates/hodu_cuda_kernels/kernels/ops_resize.cu, launched by
    src/kernels/ops_resize.rs and be_cuda/storage/ops_resize.rs.  The tensor operation in
    front and the metadata are those of ResizeModel.v.

    The kernels are compiled with --fmad=true (build.rs:50): a product and the sum or
    difference it goes into may be rounded once instead of twice.  [contraction] is what the
    compiler makes of the three expressions of the file in which that can happen.

    Simplifications: as in LaunchModel.v and ResizeModel.v.  The six element types that pass
    utils/valid.rs:376-377 are those of the kernels (L260-265), so no type is mentioned.
    Line numbers without a file are those of ops_resize.cu. *)
From Coq Require Import List Arith ZArith Bool SpecFloat.
From Verif Require Import Base IndexSpec LayoutModel KernelModel TensorModel EinsumModel CountModel ResizeModel TileSpec LaunchModel.
Import ListNotations.
Local Open Scope nat_scope.

Record contraction (F : Type) := mkK {
  (** [x * y - z] *)
  k_mulsub : F -> F -> F -> F;
  (** [(1.0f - f) * x + f * y] *)
  k_mix : F -> F -> F -> F;
  (** [cubic_interp], L81-87 *)
  k_cubic : F -> F -> F -> F -> F -> F }.
Arguments k_mulsub {F}. Arguments k_mix {F}. Arguments k_cubic {F}.

Section Kernel.
  Context {F A : Type}.
  Variable sched : nat -> list nat.
  Variables (ar : arith F) (kc : contraction F) (to_f : A -> F) (from_f : F -> A).
  Let nat_ (n : nat) : F := a_int ar (Z.of_nat n).

  (** L24-46 *)
  Definition cuda_transform (o n m : nat) (tr : nat) : F :=
    if n =? m then nat_ o
    else
      let scale := a_div ar (nat_ n) (nat_ m) in
      match tr with
      | 0 => k_mulsub kc (a_add ar (nat_ o) (a_lit ar 1)) scale (a_lit ar 1)
      | 1 => a_mul ar (nat_ o) scale
      | 2 => if m =? 1 then a_lit ar 0
             else a_div ar (a_mul ar (nat_ o) (nat_ (n - 1))) (nat_ (m - 1))
      | 3 => if m =? 1 then a_lit ar 0
             else k_mulsub kc (a_add ar (nat_ o) (a_lit ar 1)) scale (a_lit ar 1)
      | _ => a_mul ar (nat_ o) scale
      end.
  (** L73-79 *)
  Definition cuda_clamp (i : Z) (n : nat) : nat :=
    if (i <? 0)%Z then 0
    else if negb (n =? 0) && (Z.of_nat (n - 1) <? i)%Z then n - 1
    else Z.to_nat i.
  (** L48-71 *)
  Definition cuda_round (c : F) (n near : nat) : nat :=
    cuda_clamp
      (match near with
       | 1 => a_ceil ar c
       | 2 => if a_eqb ar c (a_add ar (a_int ar (a_floor ar c)) (a_lit ar 1)) then a_floor ar c else a_round ar c
       | 3 => a_round ar c
       | _ => a_floor ar c
       end) n.

  Definition cuda_coord (m : resize_md) (c : list nat) (d : nat) : F :=
    cuda_transform (nth d c 0) (nth d (rz_in m) 0) (nth d (rz_out m) 0) (rz_tr m).
  (** [input[base_in_idx + ...]]; L125-126 *)
  Definition cuda_read (m : resize_md) (input : list A) (c p : list nat) : option A :=
    let base := rz_off m + nth 0 c 0 * nth 0 (rz_strides m) 0 + nth 1 c 0 * nth 1 (rz_strides m) 0 in
    nth_error input (base + dot p (skipn 2 (rz_strides m))).
  Definition cuda_readf (m : resize_md) (input : list A) (c p : list nat) : option F :=
    let? v := cuda_read m input c p in Some (to_f v).

  (** L128-137, L246-255 *)
  Definition cuda_nearest (m : resize_md) (input : list A) (c : list nat) : option A :=
    cuda_read m input c
      (map (fun s => cuda_round (cuda_coord m c (2 + s)) (nth (2 + s) (rz_in m) 0) (rz_near m))
           (seq 0 (length (rz_in m) - 2))).
  (** L138-168 *)
  Definition cuda_bilinear (m : resize_md) (input : list A) (c : list nat) : option A :=
    let y := cuda_coord m c 2 in let x := cuda_coord m c 3 in
    let y0 := a_floor ar y in let x0 := a_floor ar x in
    let fy := a_sub ar y (a_int ar y0) in let fx := a_sub ar x (a_int ar x0) in
    let at_ := fun i j => cuda_readf m input c [cuda_clamp i (nth 2 (rz_in m) 0); cuda_clamp j (nth 3 (rz_in m) 0)] in
    let? v00 := at_ y0 x0 in
    let? v01 := at_ y0 (x0 + 1)%Z in
    let? v10 := at_ (y0 + 1)%Z x0 in
    let? v11 := at_ (y0 + 1)%Z (x0 + 1)%Z in
    Some (from_f (k_mix kc fy (k_mix kc fx v00 v01) (k_mix kc fx v10 v11))).
  (** L169-216 *)
  Definition cuda_trilinear (m : resize_md) (input : list A) (c : list nat) : option A :=
    let d := cuda_coord m c 2 in let h := cuda_coord m c 3 in let w := cuda_coord m c 4 in
    let d0 := a_floor ar d in let h0 := a_floor ar h in let w0 := a_floor ar w in
    let fd := a_sub ar d (a_int ar d0) in let fh := a_sub ar h (a_int ar h0) in let fw := a_sub ar w (a_int ar w0) in
    let at_ := fun i j k => cuda_readf m input c
      [cuda_clamp i (nth 2 (rz_in m) 0); cuda_clamp j (nth 3 (rz_in m) 0); cuda_clamp k (nth 4 (rz_in m) 0)] in
    let? v000 := at_ d0 h0 w0 in
    let? v001 := at_ d0 h0 (w0 + 1)%Z in
    let? v010 := at_ d0 (h0 + 1)%Z w0 in
    let? v011 := at_ d0 (h0 + 1)%Z (w0 + 1)%Z in
    let? v100 := at_ (d0 + 1)%Z h0 w0 in
    let? v101 := at_ (d0 + 1)%Z h0 (w0 + 1)%Z in
    let? v110 := at_ (d0 + 1)%Z (h0 + 1)%Z w0 in
    let? v111 := at_ (d0 + 1)%Z (h0 + 1)%Z (w0 + 1)%Z in
    Some (from_f (k_mix kc fd (k_mix kc fh (k_mix kc fw v000 v001) (k_mix kc fw v010 v011))
                              (k_mix kc fh (k_mix kc fw v100 v101) (k_mix kc fw v110 v111)))).
  (** L217-245 *)
  Definition cuda_bicubic (m : resize_md) (input : list A) (c : list nat) : option A :=
    let y := cuda_coord m c 2 in let x := cuda_coord m c 3 in
    let y0 := a_floor ar y in let x0 := a_floor ar x in
    let fy := a_sub ar y (a_int ar y0) in let fx := a_sub ar x (a_int ar x0) in
    let nx := nth 3 (rz_in m) 0 in
    let col := fun j =>
      let yc := cuda_clamp (y0 + j)%Z (nth 2 (rz_in m) 0) in
      let? p0 := cuda_readf m input c [yc; cuda_clamp (x0 - 1)%Z nx] in
      let? p1 := cuda_readf m input c [yc; cuda_clamp x0 nx] in
      let? p2 := cuda_readf m input c [yc; cuda_clamp (x0 + 1)%Z nx] in
      let? p3 := cuda_readf m input c [yc; cuda_clamp (x0 + 2)%Z nx] in
      Some (k_cubic kc p0 p1 p2 p3 fx) in
    let? q0 := col (-1)%Z in
    let? q1 := col 0%Z in
    let? q2 := col 1%Z in
    let? q3 := col 2%Z in
    Some (from_f (k_cubic kc q0 q1 q2 q3 fy)).

  (** L128-255: one output element *)
  Definition cuda_resize_at (m : resize_md) (input : list A) (c : list nat) : option A :=
    let ns := length (rz_in m) - 2 in
    if rz_mode m =? 0 then cuda_nearest m input c
    else if (rz_mode m =? 1) && (ns =? 2) then cuda_bilinear m input c
    else if (rz_mode m =? 1) && (ns =? 3) then cuda_trilinear m input c
    else if (rz_mode m =? 2) && (ns =? 2) then cuda_bicubic m input c
    else cuda_nearest m input c.
  (** L100-258; [out_coords] has room for eight axes (L118) *)
  Definition cuda_resize (input : list A) (out : list (option A)) (md : list nat) : option (list A) :=
    let? m := read_resize md in
    if 8 <? length (rz_out m) then None
    else
      elementwise sched (rz_els m) (fun idx =>
        let? c := c_coords (rev (rz_out m)) idx [] in
        cuda_resize_at m input c) out.

  (** tensor/ops/resize.rs:33-160 and be_cuda/storage/ops_resize.rs:10-94 *)
  Definition cuda_t_resize (t : tensor A) (size : list nat) (mode : rmode) (tr : rcoord) (near : rnear) : outcome (tensor A) :=
    let s := lshape (tlay t) in
    if negb (length s =? 4) && negb (length s =? 5) then Err ELayout
    else if negb (length size =? length s - 2) then Err ELayout
    else
      let out := nth 0 s 0 :: nth 1 s 0 :: size in
      do st <- ub (cuda_resize (tstore t) (repeat None (nelem out))
                     (resize_metadata (tlay t) out (mode_val mode) (coord_val tr) (near_val near))) ;
      Ok (mkT st (from_shape out)).
End Kernel.

(** No contraction *)
Definition separate {F} (ar : arith F) : contraction F :=
  mkK F (fun x y z => a_sub ar (a_mul ar x y) z) (mix ar) (cubic_interp ar).

(** [x * y - z] rounded once to binary32; x, y, z finite and not zero, as in [k_mulsub] here *)
Definition sf_signed (s : bool) (m : positive) : Z := if s then Zneg m else Zpos m.
Definition sf_mulsub (x y z : spec_float) : spec_float :=
  match x, y, z with
  | S754_finite sx mx ex, S754_finite sy my ey, S754_finite sz mz ez =>
      let e := Z.min (ex + ey) ez in
      binary_normalize 24 128
        (sf_signed sx mx * sf_signed sy my * 2 ^ (ex + ey - e) - sf_signed sz mz * 2 ^ (ez - e))%Z e false
  | _, _, _ => SFsub 24 128 (SFmul 24 128 x y) z
  end.
(** coordinates contracted, values not *)
Definition fused32 : contraction spec_float := mkK spec_float sf_mulsub (mix binary32) (cubic_interp binary32).
