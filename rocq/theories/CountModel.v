(** onehot, nonzero, unique and compress: crates/hodu_cpu_kernels/kernels/ops_indexing.c
    L895-1426, op_metadatas.rs L880-1030, be_cpu/storage/ops_indexing.rs L550-860 and
    tensor/ops/indexing.rs L566-995 (eager branches).

    Simplifications: positions written as int32 are below 2^31; [malloc] succeeds; checks
    of type and device are left out. *)
From Coq Require Import List Arith ZArith Bool.
From Verif Require Import Base IndexSpec LayoutModel KernelModel TensorModel ScanModel SortModel EinsumModel.
Import ListNotations.

(** ** Reading a view *)
(** op_metadatas.rs L920-966: nonzero_metadata, unique_metadata *)
Definition view_metadata (l : layout) : list nat :=
  nelem (lshape l) :: length (lshape l) :: lshape l ++ lstrides l ++ [loffset l].
Record view_md := mkV { v_els : nat; v_shape : list nat; v_strides : list nat; v_offset : nat; v_rest : list nat }.
Definition read_view (md : list nat) : option view_md :=
  obind (read_n 2 md) (fun '(h, md) =>
  let nd := nth 1 h 0 in
  obind (read_n nd md) (fun '(sh, md) =>
  obind (read_n nd md) (fun '(st, md) =>
  obind (read_n 1 md) (fun '(o, md) => Some (mkV (nth 0 h 0) sh st (hd 0 o) md))))).
(** [input[flat_idx]] of element [id] *)
Definition view_at {A} (input : list A) (v : view_md) (id : nat) : option A :=
  let? a := c_strided id (v_shape v) (v_strides v) in nth_error input (v_offset v + a).

(** [multi_idx], from the last axis to the first *)
Fixpoint c_coords (rdims : list nat) (k : nat) (acc : list nat) : option (list nat) :=
  match rdims with
  | [] => Some acc
  | d :: r => if d =? 0 then None else c_coords r (k / d) (k mod d :: acc)
  end.

(** ** nonzero *)
Section Nonzero.
  Context {A : Type}.
  Variable nz : A -> bool.

  (** ops_indexing.c L1004-1030 *)
  Definition nonzero_count (input : list A) (md : list nat) : option nat :=
    let? v := read_view md in
    loopO (fun id count => let? x := view_at input v id in Some (if nz x then S count else count))
      (seq 0 (v_els v)) 0.
  (** L1038-1068; [multi_idx] has 32 entries *)
  Definition nonzero_fill (input : list A) (output : list nat) (md : list nat) : option (list nat) :=
    let? v := read_view md in
    if negb (length (v_shape v) <=? 32) && negb (v_els v =? 0) then None else
    let? s := loopO (fun id (s : nat * list nat) =>
      let? m := c_coords (rev (v_shape v)) id [] in
      let? x := view_at input v id in
      if nz x then
        let? out := store_from (snd s) (fst s * length (v_shape v)) m in Some (S (fst s), out)
      else Some s) (seq 0 (v_els v)) (0, output) in
    Some (snd s).
  (** be_cpu L644-685, tensor L680-740 *)
  Definition t_nonzero (t : tensor A) : outcome (tensor nat) :=
    let md := view_metadata (tlay t) in
    do count <- ub (nonzero_count (tstore t) md) ;
    if count =? 0 then Ok (mkT [] (from_shape [0; length (lshape (tlay t))]))
    else
      do out <- ub (nonzero_fill (tstore t) (repeat 0 (count * length (lshape (tlay t)))) md) ;
      Ok (mkT out (from_shape [count; length (lshape (tlay t))])).
End Nonzero.

(** ** unique *)
Section Unique.
  Context {A K : Type}.
  (** the sort key (size_t for integers, double for floats), its order, the C operator
      [==] on the element type and the library sort *)
  Variables (key : A -> K) (klt : K -> K -> bool) (same : A -> A -> bool).
  Variable qsort : (K * nat -> K * nat -> bool) -> list (K * nat) -> list (K * nat).

  (** state of the loop L1191-1213: values, inverse, counts, unique_count, current_count *)
  Record ustate := mkU { u_values : list A; u_inverse : list nat; u_counts : list nat; u_n : nat; u_cur : nat }.
  Definition unique_step (vals : list A) (pairs : list (K * nat)) (i : nat) (s : ustate) : option ustate :=
    let? e := nth_error pairs i in
    let? x := nth_error vals (snd e) in
    let? s' :=
      match i with
      | 0 => let? vs := c_store (u_values s) (u_n s) x in Some (mkU vs (u_inverse s) (u_counts s) (u_n s) 1)
      | S j =>
          let? e' := nth_error pairs j in
          let? y := nth_error vals (snd e') in
          if negb (same x y) then
            let? cs := c_store (u_counts s) (u_n s) (u_cur s) in
            let? vs := c_store (u_values s) (S (u_n s)) x in
            Some (mkU vs (u_inverse s) cs (S (u_n s)) 1)
          else Some (mkU (u_values s) (u_inverse s) (u_counts s) (u_n s) (S (u_cur s)))
      end in
    let? inv := c_store (u_inverse s') (snd e) (u_n s') in
    Some (mkU (u_values s') inv (u_counts s') (u_n s') (u_cur s')).
  (** L1157-1224 and L1227-1294: values, inverse, counts and the number of values *)
  Definition unique_kernel (input values : list A) (inverse counts : list nat) (md : list nat)
      : option (list A * list nat * list nat * nat) :=
    let? v := read_view md in
    let? vals := mapO (view_at input v) (seq 0 (v_els v)) in
    let pairs := qsort (fun a b => klt (fst a) (fst b)) (combine (map key vals) (seq 0 (v_els v))) in
    let? s := loopO (unique_step vals pairs) (seq 0 (v_els v)) (mkU values inverse counts 0 0) in
    let? cs := c_store (u_counts s) (u_n s) (u_cur s) in
    Some (u_values s, u_inverse s, cs, S (u_n s)).
  (** be_cpu L689-788, tensor L756-835 *)
  Definition t_unique (z : A) (t : tensor A) : outcome (tensor A * tensor nat * tensor nat) :=
    let n := nelem (lshape (tlay t)) in
    if n =? 0 then Ok (mkT [] (from_shape [0]), mkT [] (from_shape [0]), mkT [] (from_shape [0]))
    else
      do r <- ub (unique_kernel (tstore t) (repeat z n) (repeat 0 n) (repeat 0 n) (view_metadata (tlay t))) ;
      let '(vs, inv, cs, m) := r in
      Ok (mkT (firstn m vs) (from_shape [m]), mkT inv (from_shape [n]), mkT (firstn m cs) (from_shape [m])).
End Unique.

(** (size_t)x of a signed or unsigned integer *)
Definition size_t_of (x : Z) : Z := (x mod 2 ^ 64)%Z.

(** ** compress *)
Section Compress.
  Context {A : Type}.

  (** op_metadatas.rs L1005-1030 *)
  Definition compress_metadata (l : layout) (n : nat) (axis : option nat) : list nat :=
    view_metadata l ++ n :: match axis with Some a => [1; a] | None => [0; 0] end.
  (** output[out_idx++] = x *)
  Definition push_out (s : nat * list A) (x : A) : option (nat * list A) :=
    let? out := c_store (snd s) (fst s) x in Some (S (fst s), out).
  (** ops_indexing.c L1342-1426; [multi_idx] has 32 entries *)
  Definition compress_kernel (input : list A) (cond : list bool) (output : list A) (md : list nat) : option (list A) :=
    let? v := read_view md in
    obind (read_n 3 (v_rest v)) (fun '(h, _) =>
    let n := nth 0 h 0 in let axis := nth 2 h 0 in
    if nth 1 h 0 =? 0 then
      let? s := loopO (fun i s =>
        let? c := nth_error cond i in
        if c : bool then let? x := view_at input v i in push_out s x else Some s)
        (seq 0 (Nat.min n (v_els v))) (0, output) in
      Some (snd s)
    else if negb (length (v_shape v) <=? 32) then None
    else
      let? s := loopO (fun outer s =>
        loopO (fun ci s =>
          let? c := nth_error cond ci in
          if negb c then Some s
          else
            loopO (fun inner s =>
              let? mo := c_coords (rev (firstn axis (v_shape v))) outer [] in
              let? mi := c_coords (rev (skipn (S axis) (v_shape v))) inner [] in
              let? x := nth_error input (v_offset v + dot (mo ++ ci :: mi) (v_strides v)) in
              push_out s x) (seq 0 (nelem (skipn (S axis) (v_shape v)))) s)
          (seq 0 n) s) (seq 0 (nelem (firstn axis (v_shape v)))) (0, output) in
      Some (snd s)).
  (** be_cpu L797-946 and tensor L848-995.  The condition's storage is read from its
      start, without its layout, and counted as a whole. *)
  Definition t_compress (z : A) (t : tensor A) (cond : tensor bool) (axis : option Z) : outcome (tensor A) :=
    let s := lshape (tlay t) in
    if negb (length (lshape (tlay cond)) =? 1) then Err EInternal
    else
      let n := nelem (lshape (tlay cond)) in
      do ax <- match axis with
               | Some a =>
                   let a' := (if a <? 0 then Z.of_nat (length s) + a else a)%Z in
                   if ((a' <? 0) || (Z.of_nat (length s) <=? a'))%Z then Err EAxis
                   else if negb (n =? nth (Z.to_nat a') s 0) then Err EInternal
                   else Ok (Some (Z.to_nat a'))
               | None => if negb (n =? nelem s) then Err EInternal else Ok None
               end ;
      let trues := count_occ bool_dec (tstore cond) true in
      let dims := match ax with Some a => upd s a trues | None => [trues] end in
      if trues =? 0 then Ok (mkT [] (from_shape dims))
      else
        do out <- ub (compress_kernel (tstore t) (tstore cond) (repeat z (nelem dims)) (compress_metadata (tlay t) n ax)) ;
        Ok (mkT out (from_shape dims)).
End Compress.

(** ** onehot *)
(** x as i32, of a wider integer *)
Definition as_i32 (x : Z) : Z := ((x + 2 ^ 31) mod 2 ^ 32 - 2 ^ 31)%Z.

Section Onehot.
  Context {A : Type}.
  Variables zero one : A.

  (** op_metadatas.rs L888-918 and tensor L600-612: the class axis inserted *)
  Definition onehot_dims (s : shape) (classes axis : nat) : shape :=
    if axis <=? length s then insert_at s axis classes else s.
  Definition onehot_metadata (s : shape) (classes axis : nat) : list nat :=
    let o := onehot_dims s classes axis in
    [nelem o; nelem s; classes; axis; length o] ++ o.

  (** ops_indexing.c L895-963.  [input_indices[input_dim]] beyond the decoded axes is
      uninitialised. *)
  Definition onehot_kernel (indices : list Z) (output : list A) (md : list nat) : option (list A) :=
    obind (read_n 5 md) (fun '(h, md) =>
    let els := nth 0 h 0 in let nin := nth 1 h 0 in let classes := nth 2 h 0 in
    let axis := nth 3 h 0 in let nd := nth 4 h 0 in
    obind (read_n nd md) (fun '(osh, _) =>
    let? out := seq_for els (fun _ => Some zero) output in
    if (nd =? 0) || negb (nd <=? 32) then None
    else
      let st := compute_strides osh in
      let ish := firstn (nd - 1) (if axis <? nd then remove_at osh axis else osh) in
      loopO (fun i out =>
        let? ix := nth_error indices i in
        let c := (if ix <? 0 then ix + Z.of_nat classes else ix)%Z in
        if ((c <? 0) || (Z.of_nat classes <=? c))%Z then Some out
        else
          let? m := c_coords (rev ish) i [] in
          if axis <? nd
          then c_store out (dot (insert_at m axis (Z.to_nat c)) st) one
          else None) (seq 0 nin) out)).
  (** be_cpu L550-625, tensor L586-655: the storage of the indices, without its layout *)
  Definition t_onehot (t : tensor Z) (classes : nat) (a : Z) : outcome (tensor A) :=
    let s := lshape (tlay t) in
    let nd := Z.of_nat (S (length s)) in
    let axis := Z.to_nat (if a <? 0 then (if nd + a <? 0 then nd + a + 2 ^ 64 else nd + a) else a)%Z in
    let o := onehot_dims s classes axis in
    do out <- ub (onehot_kernel (map as_i32 (tstore t)) (repeat zero (nelem o)) (onehot_metadata s classes axis)) ;
    Ok (mkT out (from_shape o)).
End Onehot.
