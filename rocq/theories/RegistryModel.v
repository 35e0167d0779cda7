(** The plugin registry (crates/hodu_plugin_runtime/src/registry.rs), the way it
    is written to disk, and the kernel-name cache
    (crates/hodu_core/src/cache/kernel.rs).

    Simplifications: registry entries keep the fields the registry looks at, the
    rest is one opaque [rest] field; [str::to_lowercase] is a parameter; file
    contents are byte lists; system calls are atomic steps and `read` and `write`
    may move any positive number of bytes; lock calls block until granted. *)
From Coq Require Import String Ascii.
From Coq Require Import List Arith Bool.
From Verif Require Import Base CliModel.
Import ListNotations.
Local Open Scope string_scope.
Local Open Scope list_scope.

(* ---------- registry ---------- *)

(** types.rs:43-50 *)
Inductive plugin_type := Backend | ModelFormat | TensorFormat.
Definition ptype_eqb (a b : plugin_type) : bool :=
  match a, b with
  | Backend, Backend | ModelFormat, ModelFormat | TensorFormat, TensorFormat => true
  | _, _ => false
  end.
(** types.rs:6-37, 53-88 *)
Record entry := mkEntry {
  e_name : string; e_type : plugin_type; e_devices : list string;
  e_model_exts : list string; e_tensor_exts : list string;
  e_enabled : bool; e_deps : list string; e_rest : nat }.
Definition set_enabled (b : bool) (e : entry) : entry :=
  mkEntry (e_name e) (e_type e) (e_devices e) (e_model_exts e) (e_tensor_exts e) b (e_deps e) (e_rest e).

Definition registry := list entry.
(** registry.rs:22-28 *)
Definition reg_new : registry := [].
(** L90-93 *)
Definition reg_find (r : registry) (n : string) : option entry := find (fun p => e_name p =? n) r.
(** L95-98 [find_mut] followed by an assignment through it *)
Fixpoint reg_modify (r : registry) (n : string) (f : entry -> entry) : option registry :=
  match r with
  | [] => None
  | p :: r' => if e_name p =? n then Some (f p :: r') else option_map (cons p) (reg_modify r' n f)
  end.
(** L100-107 *)
Definition reg_upsert (r : registry) (e : entry) : registry :=
  match reg_modify r (e_name e) (fun _ => e) with Some r' => r' | None => r ++ [e] end.
(** L109-116: [position] and [Vec::remove] *)
Fixpoint reg_position (r : registry) (n : string) : option nat :=
  match r with
  | [] => None
  | p :: r' => if e_name p =? n then Some 0 else option_map S (reg_position r' n)
  end.
Definition reg_remove (r : registry) (n : string) : registry * option entry :=
  match reg_position r n with
  | Some i => (firstn i r ++ skipn (S i) r, nth_error r i)
  | None => (r, None)
  end.
(** L156-174 *)
Definition reg_enable (b : bool) (r : registry) (n : string) : registry * bool :=
  match reg_modify r n (set_enabled b) with Some r' => (r', true) | None => (r, false) end.
(** L176-198: the missing dependencies *)
Definition check_dependencies (r : registry) (n : string) : list string :=
  match reg_find r n with
  | None => []
  | Some p => filter (fun d => match reg_find r d with Some q => negb (e_enabled q) | None => true end) (e_deps p)
  end.

(** L118-154 *)
Definition of_type (t : plugin_type) (r : registry) : registry :=
  filter (fun p => ptype_eqb (e_type p) t && e_enabled p) r.

(** [trim_start_matches('.')] *)
Fixpoint trim_dots (s : string) : string :=
  match s with String "."%char r => trim_dots r | _ => s end.

Section Lookup.
Variable lower : string -> string.
(** L200-206 *)
Definition find_backend_by_device (r : registry) (device : string) : option entry :=
  find (fun p => existsb (fun d => lower d =? lower device) (e_devices p)) (of_type Backend r).
(** L208-230 *)
Definition norm_ext (e : string) : string := lower (trim_dots e).
Definition find_model_format_by_extension (r : registry) (ext : string) : option entry :=
  find (fun p => existsb (fun e => norm_ext e =? norm_ext ext) (e_model_exts p)) (of_type ModelFormat r).
Definition find_tensor_format_by_extension (r : registry) (ext : string) : option entry :=
  find (fun p => existsb (fun e => norm_ext e =? norm_ext ext) (e_tensor_exts p)) (of_type TensorFormat r).
End Lookup.

(** any history *)
Inductive reg_op := Upsert (e : entry) | Remove (n : string) | Enable (n : string) | Disable (n : string).
Definition reg_step (r : registry) (o : reg_op) : registry :=
  match o with
  | Upsert e => reg_upsert r e
  | Remove n => fst (reg_remove r n)
  | Enable n => fst (reg_enable true r n)
  | Disable n => fst (reg_enable false r n)
  end.
Definition reg_run (os : list reg_op) : registry := fold_left reg_step os reg_new.

(* ---------- the registry file ---------- *)

Section File.
Context {B : Type}.
Variable zero : B.
(** a process saving ([W…], L53-75) or loading ([R…], L31-50) *)
Inductive pc :=
| WOpen (new : list B)            (* before open(write, create, truncate) *)
| WLock (new : list B)            (* before lock_exclusive *)
| WTrunc (new : list B)           (* locked, before fs::write opens and truncates *)
| WWrite (new : list B) (k : nat) (* k bytes written *)
| WDone
| ROpen                           (* before exists/open *)
| RLock                           (* before lock_shared *)
| RRead (acc : list B)            (* locked, [acc] read so far *)
| RDone (c : option (list B)).    (* None: no file, the empty registry *)

Definition holds_exclusive (p : pc) : bool := match p with WTrunc _ | WWrite _ _ => true | _ => false end.
Definition holds_shared (p : pc) : bool := match p with RRead _ => true | _ => false end.

(** pwrite of [bs] at offset [k]: bytes between the end of the file and [k] read
    as zero *)
Definition write_at (f : list B) (k : nat) (bs : list B) : list B :=
  firstn k (f ++ repeat zero (k - length f)) ++ bs ++ skipn (k + length bs) f.

(** one system call of a process; [n] is how many bytes a read or write moves *)
Inductive pstep (others : list pc) : option (list B) -> pc -> option (list B) -> pc -> Prop :=
| St_open : forall f new, pstep others f (WOpen new) (Some []) (WLock new)
| St_lock : forall f new, forallb (fun p => negb (holds_exclusive p) && negb (holds_shared p)) others = true ->
    pstep others f (WLock new) f (WTrunc new)
| St_trunc : forall f new, pstep others f (WTrunc new) (Some []) (WWrite new 0)
| St_write : forall f new k n, 0 < n -> k + n <= length new ->
    pstep others (Some f) (WWrite new k) (Some (write_at f k (firstn n (skipn k new)))) (WWrite new (k + n))
| St_close : forall f new, pstep others f (WWrite new (length new)) f WDone
| St_absent : pstep others None ROpen None (RDone None)
| St_ropen : forall f, pstep others (Some f) ROpen (Some f) RLock
| St_rlock : forall f, forallb (fun p => negb (holds_exclusive p)) others = true ->
    pstep others f RLock f (RRead [])
| St_read : forall f acc n, 0 < n -> length acc + n <= length f ->
    pstep others (Some f) (RRead acc) (Some f) (RRead (acc ++ firstn n (skipn (length acc) f)))
| St_eof : forall f acc, length f <= length acc -> pstep others (Some f) (RRead acc) (Some f) (RDone (Some acc)).

(** any process may move *)
Inductive step : option (list B) * list pc -> option (list B) * list pc -> Prop :=
| Step : forall f f' pre p p' post, pstep (pre ++ post) f p f' p' ->
    step (f, pre ++ p :: post) (f', pre ++ p' :: post).
Inductive steps : option (list B) * list pc -> option (list B) * list pc -> Prop :=
| steps_refl : forall s, steps s s
| steps_step : forall s1 s2 s3, steps s1 s2 -> step s2 s3 -> steps s1 s3.
End File.

(* ---------- kernel names ---------- *)

(** cache/kernel.rs:25-57.  The heap of leaked strings grows only; a [&'static
    str] is an index into it.  The section under the read lock (L27-33) and the
    one under the write lock (L35-56) are atomic. *)
Inductive lookup_pc :=
| KStart (name : string)            (* before the read lock *)
| KMiss (name : string)             (* not cached: before the write lock *)
| KDone (name : string) (p : nat).
Record kcache := mkK { k_heap : list string; k_map : list (string * nat) }.
Definition kget (c : kcache) (n : string) : option nat :=
  option_map snd (find (fun e => fst e =? n) (k_map c)).
Definition kstep (c : kcache) (l : lookup_pc) : kcache * lookup_pc :=
  match l with
  | KStart n => (c, match kget c n with Some p => KDone n p | None => KMiss n end)
  | KMiss n =>
    match kget c n with
    | Some p => (c, KDone n p)
    | None => (mkK (k_heap c ++ [n]) ((n, length (k_heap c)) :: k_map c), KDone n (length (k_heap c)))
    end
  | KDone n p => (c, l)
  end.
(** a schedule: which lookup moves next (out of range: nobody) *)
Fixpoint krun (c : kcache) (ls : list lookup_pc) (sched : list nat) : kcache * list lookup_pc :=
  match sched with
  | [] => (c, ls)
  | i :: r =>
    match nth_error ls i with
    | None => krun c ls r
    | Some l => let (c', l') := kstep c l in krun c' (upd ls i l') r
    end
  end.
