(** Model of crates/hodu_core/src/types/dim.rs, symbolic_shape.rs,
    symbolic_layout.rs and dynamic_registry.rs.

    [usize] is [nat] without wrap-around; the id counter is a u32 and does wrap. *)
From Coq Require Import List Arith ZArith NArith Bool.
From Verif Require Import Base LayoutModel.
Import ListNotations.

(** dim.rs:45-51 *)
Inductive dim := Concrete (n : nat) | Dynamic (id : N) (max_bound : option nat).
(** dim.rs:77-79, 83-85 *)
Definition is_dynamic_dim (d : dim) : bool := match d with Dynamic _ _ => true | _ => false end.
Definition is_concrete_dim (d : dim) : bool := match d with Concrete _ => true | _ => false end.
(** dim.rs:89-94, 100-105, 109-114, 118-123 *)
Definition concrete_size (d : dim) : option nat := match d with Concrete n => Some n | Dynamic _ _ => None end.
Definition allocation_size (d : dim) : option nat := match d with Concrete n => Some n | Dynamic _ m => m end.
Definition dynamic_id (d : dim) : option N := match d with Concrete _ => None | Dynamic i _ => Some i end.
Definition max_bound (d : dim) : option nat := match d with Concrete _ => None | Dynamic _ m => m end.

(* ---------- symbolic_shape.rs ---------- *)
Definition sshape := list dim.
(** L25-29 *)
Definition ss_from_concrete (s : shape) : sshape := map Concrete s.
(** L53-55, 59-61 *)
Definition ss_fully_concrete (s : sshape) : bool := forallb is_concrete_dim s.
Definition ss_is_dynamic (s : sshape) : bool := existsb is_dynamic_dim s.
(** [filter_map] *)
Fixpoint filter_map {A B} (f : A -> option B) (l : list A) : list B :=
  match l with [] => [] | x :: r => match f x with Some y => y :: filter_map f r | None => filter_map f r end end.
(** L64-71, 74-80 *)
Definition ss_to_concrete (s : sshape) : option shape :=
  if ss_fully_concrete s then Some (filter_map concrete_size s) else None.
Definition ss_size (s : sshape) : option nat :=
  if ss_fully_concrete s then Some (fold_left Nat.mul (filter_map concrete_size s) 1) else None.
(** L84-89: [try_fold] *)
Fixpoint try_mul (acc : nat) (l : list (option nat)) : option nat :=
  match l with [] => Some acc | Some s :: r => try_mul (acc * s) r | None :: _ => None end.
Definition ss_max_size (s : sshape) : option nat := try_mul 1 (map allocation_size s).
(** L93-96: [collect] into an [Option<Vec>] *)
Fixpoint collect {A} (l : list (option A)) : option (list A) :=
  match l with
  | [] => Some []
  | Some x :: r => match collect r with Some y => Some (x :: y) | None => None end
  | None :: _ => None
  end.
Definition ss_to_max_shape (s : sshape) : option shape := collect (map allocation_size s).
(** L99-101 *)
Definition ss_dynamic_ids (s : sshape) : list N := filter_map dynamic_id s.
(** L109-116 *)
Definition ss_dim_size (s : sshape) (index : Z) : option nat :=
  let i := if (index <? 0)%Z then (Z.of_nat (length s) + index)%Z else index in
  match as_usize i with
  | Some k => match nth_error s k with Some d => concrete_size d | None => None end
  | None => None
  end.

(* ---------- symbolic_layout.rs ---------- *)
Record slayout := mkSL { sl_shape : sshape; sl_strides : list nat; sl_offset : nat }.
(** L126-138; the loop from the last axis to the first *)
Fixpoint ss_strides (s : sshape) : option (list nat) :=
  match s with
  | [] => Some []
  | d :: s' =>
    match s' with
    | [] => Some [1]
    | e :: _ =>
      match ss_strides s' with
      | Some (st :: sts) => match allocation_size e with Some a => Some (st * a :: st :: sts) | None => None end
      | _ => None
      end
    end
  end.
(** L34-45 *)
Definition sl_from_shape (s : sshape) : option slayout :=
  match ss_max_size s with
  | None => None
  | Some _ => match ss_strides s with Some st => Some (mkSL s st 0) | None => None end
  end.
(** L48-54 *)
Definition sl_from_concrete (l : layout) : slayout :=
  mkSL (ss_from_concrete (lshape l)) (lstrides l) (loffset l).
(** L103-105 *)
Definition sl_buffer_size (l : slayout) : option nat :=
  match ss_max_size (sl_shape l) with Some s => Some (sl_offset l + s) | None => None end.
(** L108-115: [Layout::new] sets the offset to 0 *)
Definition sl_to_concrete (l : slayout) : option layout :=
  if ss_fully_concrete (sl_shape l) then
    match ss_to_concrete (sl_shape l) with Some s => Some (layout_new s (sl_strides l)) | None => None end
  else None.
(** L119-122 *)
Definition sl_to_max_layout (l : slayout) : option layout :=
  match ss_to_max_shape (sl_shape l) with Some s => Some (layout_new s (sl_strides l)) | None => None end.
(** L146-163 *)
Definition sl_with_dim (l : slayout) (index : nat) (d : dim) : option slayout :=
  if length (sl_shape l) <=? index then None
  else
    let dims := upd (sl_shape l) index d in
    match ss_strides dims with Some st => Some (mkSL dims st (sl_offset l)) | None => None end.

(* ---------- ids and resolutions ---------- *)

(** dim.rs:14-16 *)
Definition id_wrap : N := (2 ^ 32)%N.
(** dynamic_registry.rs: a map per thread, and the process-wide counter *)
Definition dmap := list (N * nat).
Fixpoint dget (m : dmap) (i : N) : option nat :=
  match m with [] => None | (j, v) :: r => if (j =? i)%N then Some v else dget r i end.
Definition dinsert (m : dmap) (i : N) (v : nat) : dmap := (i, v) :: filter (fun p => negb (fst p =? i)%N) m.
Record dstate := mkD { d_next : N; d_maps : nat -> dmap }.
Inductive dop := DNew | DResolve (i : N) (v : nat) | DClear | DGet (i : N).
Inductive dres := RId (i : N) | RUnit | RVal (o : option nat).
(** dynamic_registry.rs:15-19, 24-26, 32-36; [t] is the thread *)
Definition dstep (s : dstate) (t : nat) (o : dop) : dstate * dres :=
  let set m := mkD (d_next s) (fun u => if u =? t then m else d_maps s u) in
  match o with
  | DNew => (mkD ((d_next s + 1) mod id_wrap)%N (d_maps s), RId (d_next s))
  | DResolve i v => (set (dinsert (d_maps s t) i v), RUnit)
  | DClear => (set [], RUnit)
  | DGet i => (s, RVal (dget (d_maps s t) i))
  end.
Fixpoint drun (s : dstate) (h : list (nat * dop)) : dstate :=
  match h with [] => s | (t, o) :: r => drun (fst (dstep s t o)) r end.
Definition dinit : dstate := mkD 0 (fun _ => []).
