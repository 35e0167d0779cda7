(** einsum.  Models crates/hodu_core/src/einsum.rs L14-162, op_metadatas.rs L1502-1560
    einsum_metadata, be_cpu/storage/ops_einsum.rs, tensor/ops/einsum.rs L42-140 (eager
    branch) and crates/hodu_cpu_kernels/kernels/ops_einsum.c.

    An equation is a list of character codes.  Element types: values of type [A] are
    converted to the accumulator type [B] and back ([up], [down]; the identity for most
    types).  Checks of type and device are left out. *)
From Coq Require Import List Arith Bool.
From Verif Require Import Base IndexSpec LayoutModel KernelModel TensorModel.
Import ListNotations.

(** ** The equation *)
Definition c_space := 32.
Definition c_comma := 44.
Definition c_minus := 45.
Definition c_greater := 62.

(** str::split(',') *)
Fixpoint split_on (sep : nat) (cur : list nat) (l : list nat) : list (list nat) :=
  match l with
  | [] => [rev cur]
  | c :: r => if c =? sep then rev cur :: split_on sep [] r else split_on sep (c :: cur) r
  end.
(** str::split("->") *)
Fixpoint split_arrow (cur : list nat) (l : list nat) : list (list nat) :=
  match l with
  | [] => [rev cur]
  | c :: r =>
      match r with
      | d :: r' => if (c =? c_minus) && (d =? c_greater) then rev cur :: split_arrow [] r'
                   else split_arrow (c :: cur) r
      | [] => split_arrow (c :: cur) r
      end
  end.

Definition sizes := list (nat * nat).   (* HashMap<char, usize> *)
Fixpoint size_of (m : sizes) (c : nat) : option nat :=
  match m with
  | [] => None
  | (k, n) :: r => if k =? c then Some n else size_of r c
  end.
Fixpoint add_sizes (subs dims : list nat) (m : sizes) : outcome sizes :=
  match subs, dims with
  | c :: subs', d :: dims' =>
      match size_of m c with
      | Some n => if n =? d then add_sizes subs' dims' m else Err EShape
      | None => add_sizes subs' dims' (m ++ [(c, d)])
      end
  | _, _ => Ok m
  end.
Fixpoint all_sizes (subs : list (list nat)) (shapes : list shape) (m : sizes) : outcome sizes :=
  match subs, shapes with
  | s :: subs', d :: shapes' => do m' <- add_sizes s d m ; all_sizes subs' shapes' m'
  | _, _ => Ok m
  end.

Fixpoint insert_sorted (c : nat) (l : list nat) : list nat :=
  match l with
  | [] => [c]
  | x :: r => if c <=? x then c :: l else x :: insert_sorted c r
  end.
Definition sort_labels (l : list nat) : list nat := fold_right insert_sorted [] l.
Definition has (c : nat) (l : list nat) : bool := existsb (Nat.eqb c) l.

Record parsed := mkP {
  p_subs : list (list nat); p_out : list nat; p_con : list nat; p_all : list nat; p_sizes : sizes }.

(** einsum.rs L14-108 *)
Definition parse (eq : list nat) (shapes : list shape) : outcome parsed :=
  let eq := filter (fun c => negb (c =? c_space)) eq in
  do io <- match split_arrow [] eq with
           | [i] => Ok (i, None)
           | [i; o] => Ok (i, Some o)
           | _ => Err EInternal
           end ;
  let subs := split_on c_comma [] (fst io) in
  if negb (length subs =? length shapes) then Err EInternal
  else if negb (forallb (fun p => length (fst p) =? length (snd p)) (combine subs shapes)) then Err EInternal
  else
    do m <- all_sizes subs shapes [] ;
    let all := sort_labels (map fst m) in
    let out := match snd io with
               | Some o => o
               | None => filter (fun c => count_occ Nat.eq_dec (concat subs) c =? 1) all
               end in
    if negb (forallb (fun c => match size_of m c with Some _ => true | None => false end) out) then Err EInternal
    else Ok (mkP subs out (filter (fun c => negb (has c out)) all) all m).

(** index_sizes[c], present for every label *)
Definition psize (p : parsed) (c : nat) : nat := match size_of (p_sizes p) c with Some n => n | None => 0 end.
(** position(|a| a == c).unwrap() *)
Fixpoint pos_of (l : list nat) (c : nat) : nat :=
  match l with [] => 0 | x :: r => if x =? c then 0 else S (pos_of r c) end.
Definition pid (p : parsed) (c : nat) : nat := pos_of (p_all p) c.
Definition out_shape (p : parsed) : shape := map (psize p) (p_out p).

(** ** Metadata (op_metadatas.rs L1502-1560) *)
Fixpoint input_sections (p : parsed) (i : nat) (ls : list layout) : list nat :=
  match ls with
  | [] => []
  | l :: r =>
      length (lshape l) :: lshape l ++ lstrides l ++ [loffset l] ++ map (pid p) (nth i (p_subs p) [])
      ++ input_sections p (S i) r
  end.
Definition einsum_metadata (p : parsed) (ls : list layout) : list nat :=
  [Nat.max (nelem (out_shape p)) 1; length ls; length (p_all p); length (p_con p); length (p_out p)]
  ++ out_shape p ++ input_sections p 0 ls
  ++ map (pid p) (p_con p) ++ map (psize p) (p_all p) ++ map (pid p) (p_out p).

(** ** The kernel (ops_einsum.c); [None] is undefined behaviour *)
Definition read_n (n : nat) (md : list nat) : option (list nat * list nat) :=
  if n <=? length md then Some (firstn n md, skipn n md) else None.
Record section := mkSec { sec_strides : list nat; sec_offset : nat; sec_ids : list nat }.
(** L42-59; arrays of 16 entries *)
Definition read_section (md : list nat) : option (section * list nat) :=
  obind (read_n 1 md) (fun '(h, md) =>
  let nd := hd 0 h in
  if negb (nd <=? 16) then None else
  obind (read_n nd md) (fun '(_, md) =>
  obind (read_n nd md) (fun '(st, md) =>
  obind (read_n 1 md) (fun '(o, md) =>
  obind (read_n nd md) (fun '(ids, md) => Some (mkSec st (hd 0 o) ids, md)))))).
Fixpoint read_sections (n : nat) (md : list nat) : option (list section * list nat) :=
  match n with
  | 0 => Some ([], md)
  | S n' => obind (read_section md) (fun '(s, md) =>
            obind (read_sections n' md) (fun '(r, md) => Some (s :: r, md)))
  end.

Definition ivset (iv : nat -> nat) (i v : nat) : nat -> nat := fun k => if k =? i then v else iv k.
(** L87-92 and L98-103: from the last axis to the first; division by zero and
    identifiers from 16 on are undefined behaviour *)
Fixpoint decode (rids : list (nat * nat)) (k : nat) (iv : nat -> nat) : option (nat -> nat) :=
  match rids with
  | [] => Some iv
  | (id, d) :: r =>
      if (d =? 0) || negb (id <? 16) then None else decode r (k / d) (ivset iv id (k mod d))
  end.

Section Kernel.
  Context {A B : Type}.
  Variables (up : A -> B) (down : B -> A) (zero one : B) (add mul : B -> B -> B).

  (** L105-115 *)
  Fixpoint product (secs : list section) (ins : list (list A)) (iv : nat -> nat) (acc : B) : option B :=
    match secs with
    | [] => Some acc
    | s :: r =>
        match ins with
        | [] => None
        | x :: ins' =>
            if negb (forallb (fun i => i <? 16) (sec_ids s)) then None else
            obind (nth_error x (sec_offset s + dot (map iv (sec_ids s)) (sec_strides s))) (fun a =>
            product r ins' iv (mul acc (up a)))
        end
    end.
  (** L96-117 *)
  Fixpoint contract (secs : list section) (ins : list (list A)) (rcon : list (nat * nat))
      (cs : list nat) (iv : nat -> nat) (sum : B) : option B :=
    match cs with
    | [] => Some sum
    | c :: r =>
        obind (decode rcon c iv) (fun iv =>
        obind (product secs ins iv one) (fun q => contract secs ins rcon r iv (add sum q)))
    end.

  Definition einsum_kernel (ins : list (list A)) (out : list A) (md : list nat) : option (list A) :=
    obind (read_n 5 md) (fun '(h, md) =>
    let els := nth 0 h 0 in let ni := nth 1 h 0 in let nt := nth 2 h 0 in
    let nc := nth 3 h 0 in let no := nth 4 h 0 in
    if negb ((ni <=? 4) && (nt <=? 16) && (nc <=? 16) && (no <=? 16)) then None else
    obind (read_n no md) (fun '(oshape, md) =>
    obind (read_sections ni md) (fun '(secs, md) =>
    obind (read_n nc md) (fun '(cids, md) =>
    obind (read_n nt md) (fun '(isz, md) =>
    obind (read_n no md) (fun '(oids, _) =>
    if negb (forallb (fun i => i <? nt) cids) then None else
    let csz := map (fun i => nth i isz 0) cids in
    seq_for els (fun o =>
      obind (decode (rev (combine oids oshape)) o (fun _ => 0)) (fun iv =>
      obind (contract secs ins (rev (combine cids csz)) (seq 0 (nelem csz)) iv zero) (fun s =>
      Some (down s)))) out)))))).

  (** tensor/ops/einsum.rs L42-140: the layouts of the operands after the first, the
      storages of all; be_cpu/storage/ops_einsum.rs.  [z] fills the new buffer. *)
  Definition t_einsum (z : A) (eq : list nat) (ts : list (tensor A)) : outcome (tensor A) :=
    if (length ts =? 0) || (4 <? length ts) then Err EInternal
    else
      do p <- parse eq (map (fun t => lshape (tlay t)) ts) ;
      do st <- ub (einsum_kernel (map tstore ts) (repeat z (nelem (out_shape p)))
                     (einsum_metadata p (map tlay (tl ts)))) ;
      Ok (mkT st (from_shape (out_shape p))).
End Kernel.
