(** Resize (interpolation): crates/hodu_cpu_kernels/kernels/ops_resize.c, op_metadatas.rs
    L1319-1360, be_cpu/storage/ops_resize.rs, tensor/ops/resize.rs (eager branch) and
    tensor/gradient/vjp_resize.rs.

    Simplifications: the C [float] arithmetic is a record of operations ([arith]), given
    below in IEEE binary32 and in exact rationals; the conversions between the element
    type and [float] are parameters (the identity for f32, a rounding for f64, the
    TO_FLOAT / FROM_FLOAT of the half types); a rounded coordinate is an integer of any
    size ([int] does not overflow; [rounded > (float)max_idx] compares integers);
    [in_size - 1] of a size of zero, which wraps, is no upper bound at all, and is taken
    as 0 where it is a factor; the option strings are parsed already (any other string is
    an error). *)
From Coq Require Import List Arith ZArith Bool QArith Qcanon Qround.
From Coq Require Import Floats.SpecFloat.
From Verif Require Import Base IndexSpec LayoutModel KernelModel TensorModel EinsumModel CountModel.
Import ListNotations.
Open Scope nat_scope.

(** op_params.rs: ResizeMode, ResizeCoordTransform, ResizeNearestMode *)
Inductive rmode := RNearest | RLinear | RCubic.
Inductive rcoord := HalfPixel | Asymmetric | AlignCorners | PytorchHalfPixel.
Inductive rnear := NFloor | NCeil | NRoundFloor | NRoundCeil.

(** [float]: [a_lit k] is the literal k/2; [a_round] is roundf (halves away from zero) *)
Record arith (F : Type) := mkArith {
  a_int : Z -> F; a_lit : Z -> F;
  a_add : F -> F -> F; a_sub : F -> F -> F; a_mul : F -> F -> F; a_div : F -> F -> F;
  a_floor : F -> Z; a_ceil : F -> Z; a_round : F -> Z; a_eqb : F -> F -> bool }.
Arguments a_int {F}. Arguments a_lit {F}. Arguments a_add {F}. Arguments a_sub {F}.
Arguments a_mul {F}. Arguments a_div {F}. Arguments a_floor {F}. Arguments a_ceil {F}.
Arguments a_round {F}. Arguments a_eqb {F}.

Section Coord.
  Context {F : Type}.
  Variable ar : arith F.
  Let nat_ (n : nat) : F := a_int ar (Z.of_nat n).

  (** ops_resize.c L17-41 *)
  Definition transform_coord (o n m : nat) (tr : nat) : F :=
    if n =? m then nat_ o
    else
      let scale := a_div ar (nat_ n) (nat_ m) in
      match tr with
      | 0 => a_sub ar (a_mul ar (a_add ar (nat_ o) (a_lit ar 1)) scale) (a_lit ar 1)
      | 1 => a_mul ar (nat_ o) scale
      | 2 => if m =? 1 then a_lit ar 0
             else a_div ar (a_mul ar (nat_ o) (nat_ (n - 1))) (nat_ (m - 1))
      | 3 => if m =? 1 then a_lit ar 0
             else a_sub ar (a_mul ar (a_add ar (nat_ o) (a_lit ar 1)) scale) (a_lit ar 1)
      | _ => a_mul ar (nat_ o) scale
      end.

  (** L78-84; [n] is the size, [max_idx] is [n - 1] *)
  Definition clamp_idx (i : Z) (n : nat) : nat :=
    if (i <? 0)%Z then 0
    else if negb (n =? 0) && (Z.of_nat (n - 1) <? i)%Z then n - 1
    else Z.to_nat i.
  (** L43-67 *)
  Definition round_nearest (c : F) (n near : nat) : nat :=
    let rounded :=
      match near with
      | 0 => a_floor ar c
      | 1 => a_ceil ar c
      | 2 => if a_eqb ar c (a_add ar (a_int ar (a_floor ar c)) (a_lit ar 1)) then a_floor ar c else a_round ar c
      | 3 => a_round ar c
      | _ => a_floor ar c
      end in
    clamp_idx rounded n.

  (** L69-76; [-0.5f * p0] is [a_mul (a_lit (-1)) p0] *)
  Definition cubic_interp (p0 p1 p2 p3 t : F) : F :=
    let lit := a_lit ar in let mul := a_mul ar in let add := a_add ar in let sub := a_sub ar in
    let a := add (sub (add (mul (lit (-1)%Z) p0) (mul (lit 3%Z) p1)) (mul (lit 3%Z) p2)) (mul (lit 1%Z) p3) in
    let b := sub (add (sub p0 (mul (lit 5%Z) p1)) (mul (lit 4%Z) p2)) (mul (lit 1%Z) p3) in
    let c := add (mul (lit (-1)%Z) p0) (mul (lit 1%Z) p2) in
    add (add (add (mul (mul (mul a t) t) t) (mul (mul b t) t)) (mul c t)) p1.
  (** [(1.0f - f) * x + f * y] *)
  Definition mix (f x y : F) : F := a_add ar (a_mul ar (a_sub ar (a_lit ar 2) f) x) (a_mul ar f y).
End Coord.

(** op_metadatas.rs L1319-1360 *)
Definition resize_metadata (l : layout) (out : shape) (mode tr near : nat) : list nat :=
  [nelem out; length (lshape l)] ++ lshape l ++ lstrides l ++ [loffset l] ++ out ++ [mode; tr; near].
Record resize_md := mkRz {
  rz_els : nat; rz_in : list nat; rz_strides : list nat; rz_off : nat; rz_out : list nat;
  rz_mode : nat; rz_tr : nat; rz_near : nat }.
(** ops_resize.c L87-95 *)
Definition read_resize (md : list nat) : option resize_md :=
  obind (read_n 2 md) (fun '(h, md) =>
  let n := nth 1 h 0 in
  obind (read_n n md) (fun '(i, md) =>
  obind (read_n n md) (fun '(s, md) =>
  obind (read_n 1 md) (fun '(f, md) =>
  obind (read_n n md) (fun '(o, md) =>
  obind (read_n 3 md) (fun '(k, _) =>
  Some (mkRz (nth 0 h 0) i s (nth 0 f 0) o (nth 0 k 0) (nth 1 k 0) (nth 2 k 0)))))))).

Section Resize.
  Context {F A : Type}.
  Variables (ar : arith F) (to_f : A -> F) (from_f : F -> A) (dflt : A).

  (** source coordinate of spatial axis [d] *)
  Definition rz_coord (m : resize_md) (c : list nat) (d : nat) : F :=
    transform_coord ar (nth d c 0) (nth d (rz_in m) 0) (nth d (rz_out m) 0) (rz_tr m).
  (** [in[base_in_idx + ...]]: batch, channel and the spatial positions [p] *)
  Definition rz_read (m : resize_md) (input : list A) (c p : list nat) : option A :=
    nth_error input (rz_off m + (nth 0 c 0 * nth 0 (rz_strides m) 0 + nth 1 c 0 * nth 1 (rz_strides m) 0
                                 + dot p (skipn 2 (rz_strides m)))).
  Definition rz_readf (m : resize_md) (input : list A) (c p : list nat) : option F :=
    let? v := rz_read m input c p in Some (to_f v).

  (** L124-133, L237-246 *)
  Definition rz_nearest (m : resize_md) (input : list A) (c : list nat) : option A :=
    rz_read m input c
      (map (fun s => round_nearest ar (rz_coord m c (2 + s)) (nth (2 + s) (rz_in m) 0) (rz_near m))
           (seq 0 (length (rz_in m) - 2))).
  (** L134-161 *)
  Definition rz_bilinear (m : resize_md) (input : list A) (c : list nat) : option A :=
    let y := rz_coord m c 2 in let x := rz_coord m c 3 in
    let y0 := a_floor ar y in let x0 := a_floor ar x in
    let fy := a_sub ar y (a_int ar y0) in let fx := a_sub ar x (a_int ar x0) in
    let ny := nth 2 (rz_in m) 0 in let nx := nth 3 (rz_in m) 0 in
    let at_ := fun i j => rz_readf m input c [clamp_idx i ny; clamp_idx j nx] in
    let? v00 := at_ y0 x0 in
    let? v01 := at_ y0 (x0 + 1)%Z in
    let? v10 := at_ (y0 + 1)%Z x0 in
    let? v11 := at_ (y0 + 1)%Z (x0 + 1)%Z in
    Some (from_f (mix ar fy (mix ar fx v00 v01) (mix ar fx v10 v11))).
  (** L162-210 *)
  Definition rz_trilinear (m : resize_md) (input : list A) (c : list nat) : option A :=
    let d := rz_coord m c 2 in let h := rz_coord m c 3 in let w := rz_coord m c 4 in
    let d0 := a_floor ar d in let h0 := a_floor ar h in let w0 := a_floor ar w in
    let fd := a_sub ar d (a_int ar d0) in let fh := a_sub ar h (a_int ar h0) in let fw := a_sub ar w (a_int ar w0) in
    let at_ := fun i j k => rz_readf m input c
      [clamp_idx i (nth 2 (rz_in m) 0); clamp_idx j (nth 3 (rz_in m) 0); clamp_idx k (nth 4 (rz_in m) 0)] in
    let? v000 := at_ d0 h0 w0 in
    let? v001 := at_ d0 h0 (w0 + 1)%Z in
    let? v010 := at_ d0 (h0 + 1)%Z w0 in
    let? v011 := at_ d0 (h0 + 1)%Z (w0 + 1)%Z in
    let? v100 := at_ (d0 + 1)%Z h0 w0 in
    let? v101 := at_ (d0 + 1)%Z h0 (w0 + 1)%Z in
    let? v110 := at_ (d0 + 1)%Z (h0 + 1)%Z w0 in
    let? v111 := at_ (d0 + 1)%Z (h0 + 1)%Z (w0 + 1)%Z in
    let c00 := mix ar fw v000 v001 in
    let c01 := mix ar fw v010 v011 in
    let c10 := mix ar fw v100 v101 in
    let c11 := mix ar fw v110 v111 in
    Some (from_f (mix ar fd (mix ar fh c00 c01) (mix ar fh c10 c11))).
  (** L211-236 *)
  Definition rz_bicubic (m : resize_md) (input : list A) (c : list nat) : option A :=
    let y := rz_coord m c 2 in let x := rz_coord m c 3 in
    let y0 := a_floor ar y in let x0 := a_floor ar x in
    let fy := a_sub ar y (a_int ar y0) in let fx := a_sub ar x (a_int ar x0) in
    let nx := nth 3 (rz_in m) 0 in
    let col := fun j =>
      let yc := clamp_idx (y0 + j)%Z (nth 2 (rz_in m) 0) in
      let? p0 := rz_readf m input c [yc; clamp_idx (x0 - 1)%Z nx] in
      let? p1 := rz_readf m input c [yc; clamp_idx x0 nx] in
      let? p2 := rz_readf m input c [yc; clamp_idx (x0 + 1)%Z nx] in
      let? p3 := rz_readf m input c [yc; clamp_idx (x0 + 2)%Z nx] in
      Some (cubic_interp ar p0 p1 p2 p3 fx) in
    let? q0 := col (-1)%Z in
    let? q1 := col 0%Z in
    let? q2 := col 1%Z in
    let? q3 := col 2%Z in
    Some (from_f (cubic_interp ar q0 q1 q2 q3 fy)).

  (** L86-250; L252-412 for the half types *)
  Definition resize_kernel (input output : list A) (md : list nat) : option (list A) :=
    let? m := read_resize md in
    let ns := length (rz_in m) - 2 in
    seq_for (rz_els m) (fun idx =>
      let? c := c_coords (rev (rz_out m)) idx [] in
      if rz_mode m =? 0 then rz_nearest m input c
      else if (rz_mode m =? 1) && (ns =? 2) then rz_bilinear m input c
      else if (rz_mode m =? 1) && (ns =? 3) then rz_trilinear m input c
      else if (rz_mode m =? 2) && (ns =? 2) then rz_bicubic m input c
      else rz_nearest m input c) output.

  (** be_cpu/storage/ops_resize.rs L18-36 *)
  Definition mode_val (m : rmode) : nat := match m with RNearest => 0 | RLinear => 1 | RCubic => 2 end.
  Definition coord_val (c : rcoord) : nat :=
    match c with HalfPixel => 0 | Asymmetric => 1 | AlignCorners => 2 | PytorchHalfPixel => 3 end.
  Definition near_val (n : rnear) : nat :=
    match n with NFloor => 0 | NCeil => 1 | NRoundFloor => 2 | NRoundCeil => 3 end.

  (** tensor/ops/resize.rs L33-160 and be_cpu/storage/ops_resize.rs L10-75 *)
  Definition t_resize (t : tensor A) (size : list nat) (mode : rmode) (tr : rcoord) (near : rnear) : outcome (tensor A) :=
    let s := lshape (tlay t) in
    if negb (length s =? 4) && negb (length s =? 5) then Err ELayout
    else if negb (length size =? length s - 2) then Err ELayout
    else
      let out := nth 0 s 0 :: nth 1 s 0 :: size in
      do st <- ub (resize_kernel (tstore t) (repeat dflt (nelem out))
                     (resize_metadata (tlay t) out (mode_val mode) (coord_val tr) (near_val near))) ;
      Ok (mkT st (from_shape out)).
  (** L163-165 *)
  Definition t_resize_nearest (t : tensor A) (size : list nat) := t_resize t size RNearest Asymmetric NFloor.

  (** vjp_resize.rs L9-73 *)
  Definition vjp_resize (x g : tensor A) (mode : rmode) (tr : rcoord) (near : rnear) : outcome (tensor A) :=
    t_resize g (skipn 2 (lshape (tlay x)))
      (match mode with RNearest => RLinear | RLinear => RLinear | RCubic => RCubic end) tr near.
End Resize.

(** ** Exact arithmetic *)
Definition q_round (x : Q) : Z :=
  if Qle_bool 0 x then Qfloor (x + (1 # 2)) else Qceiling (x - (1 # 2)).
Definition exact : arith Qc :=
  mkArith Qc (fun z => Q2Qc (inject_Z z)) (fun k => Q2Qc (k # 2)) Qcplus Qcminus Qcmult Qcdiv
    (fun x => Qfloor x) (fun x => Qceiling x) (fun x => q_round x) (fun x y => Qeq_bool x y).

(** ** IEEE binary32 *)
Definition sf_int (z : Z) : spec_float := binary_normalize 24 128 z 0 false.
Definition sf_half (k : Z) : spec_float := binary_normalize 24 128 k (-1) false.
(** floorf, ceilf and roundf of a finite number, as integers (other numbers do not occur) *)
Definition sf_scaled (f : Z -> Z -> Z) (x : spec_float) : Z :=
  match x with
  | S754_finite s m e =>
      let v := if s then Zneg m else Zpos m in
      match e with
      | Zneg p => f v (2 ^ Zpos p)%Z
      | _ => (v * 2 ^ e)%Z
      end
  | _ => 0%Z
  end.
Definition binary32 : arith spec_float :=
  mkArith spec_float sf_int sf_half (SFadd 24 128) (SFsub 24 128) (SFmul 24 128) (SFdiv 24 128)
    (sf_scaled (fun v d => v / d)%Z) (sf_scaled (fun v d => - (- v / d))%Z)
    (sf_scaled (fun v d => if (0 <=? v)%Z then (2 * v + d) / (2 * d) else - ((- 2 * v + d) / (2 * d)))%Z)
    SFeqb.
