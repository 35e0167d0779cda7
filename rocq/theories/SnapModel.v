(** Capture boards and snapshots.  Models crates/hodu_core/src/snapshot/capture/board.rs,
    capture/storage.rs, the capture branches of crates/hodu_core/src/tensor/ops, and
    snapshot.rs.

    Simplifications.  One board is followed; operations recorded on other boards appear as
    [EForeign].  An operation (kind, parameters other than tensor identifiers, layouts,
    names) is an abstract tag [O]; a tensor's contents (shape, type, bytes) an abstract
    value [V].  Tensor identifiers count up and do not wrap (tensor.rs).  Calls that
    return an error leave no trace and are not events.  The order of the constants is
    the order of a hash set; here it is the order of first use, and nothing proved
    depends on it. *)
From Coq Require Import List Arith Bool.
From Verif Require Import Base.
Import ListNotations.

(** board.rs L39-49 CapturedOp and snapshot.rs L46-58 SnapshotNode: [n_params] are the
    tensor identifiers inside the parameters (op_params.rs L184-185, L403) *)
Record node (O : Type) := mkNode { n_op : O; n_ins : list nat; n_out : nat; n_params : list nat }.
Arguments mkNode {O}. Arguments n_op {O}. Arguments n_ins {O}. Arguments n_out {O}. Arguments n_params {O}.

(** the board (board.rs L52-58), the thread's active flag (storage.rs L18-20), the
    identifier counter, and the contents of the tensors that have storage *)
Record sess (O V : Type) := mkS {
  active : bool; ids : nat; content : nat -> option V;
  b_inputs : list nat; b_targets : list nat; b_ops : list (node O) }.
Arguments mkS {O V}. Arguments active {O V}. Arguments ids {O V}. Arguments content {O V}.
Arguments b_inputs {O V}. Arguments b_targets {O V}. Arguments b_ops {O V}.

(** What a program does. *)
Inductive event (O V : Type) :=
| EOpen                                     (** board.rs L122-124 *)
| EClose                                    (** board.rs L126-128 *)
| EInput                                    (** creation_static.rs L9-35 *)
| ETensor (v : V)                           (** a tensor with data (creation.rs) *)
| EForeign                                  (** a tensor recorded on another board *)
| EApply (o : O) (ins : list nat)           (** an operation with one result *)
| ESplit (os : list O) (ins : list nat)     (** concat_split.rs L131-236: one tag per part *)
| ETopK (o : O) (ins : list nat)            (** sort.rs L75-118 *)
| EUnique (o : O) (ins : list nat)          (** ops/indexing.rs L783-811 *)
| ETarget (i : nat)                         (** board.rs L115-120 *)
| EForget (i : nat).                        (** the last handle of a tensor with data is dropped *)
Arguments EOpen {O V}. Arguments EClose {O V}. Arguments EInput {O V}. Arguments ETensor {O V}.
Arguments EForeign {O V}. Arguments EApply {O V}. Arguments ESplit {O V}. Arguments ETopK {O V}.
Arguments EUnique {O V}. Arguments ETarget {O V}. Arguments EForget {O V}.

Section Snap.
  Context {O V : Type}.
  (** result number [j] of an operation *)
  Variable f : O -> list V -> nat -> V.
  Variable dflt : V.

  Definition cset {A} (c : nat -> A) (i : nat) (x : A) : nat -> A := fun k => if k =? i then x else c k.

  (** builder tensors: identifiers without contents (internal.rs L77-93) *)
  Definition fresh (s : sess O V) (k : nat) : sess O V :=
    mkS (active s) (ids s + k) (content s) (b_inputs s) (b_targets s) (b_ops s).
  Definition store (s : sess O V) (v : V) : sess O V :=
    mkS (active s) (S (ids s)) (cset (content s) (ids s) (Some v)) (b_inputs s) (b_targets s) (b_ops s).
  (** storage.rs L84-120: only when a board is active *)
  Definition record (s : sess O V) (n : node O) : sess O V :=
    mkS (active s) (ids s) (content s) (b_inputs s) (b_targets s) (b_ops s ++ [n]).

  (** the values of the operands, for an operation that is executed at once *)
  Definition vals (s : sess O V) (ins : list nat) : list V :=
    map (fun i => match content s i with Some v => v | None => dflt end) ins.

  Definition split_nodes (n : nat) (os : list O) (ins : list nat) : list (node O) :=
    map (fun '(j, o) => mkNode o ins (n + j) []) (combine (seq 0 (length os)) os).

  Definition sstep (s : sess O V) (e : event O V) : sess O V :=
    let n := ids s in
    match e with
    | EOpen => mkS true n (content s) (b_inputs s) (b_targets s) (b_ops s)
    | EClose => mkS false n (content s) (b_inputs s) (b_targets s) (b_ops s)
    | EInput => let s1 := fresh s 1 in
                mkS (active s1) (ids s1) (content s1) (b_inputs s1 ++ [n]) (b_targets s1) (b_ops s1)
    | ETensor v => store s v
    | EForeign => fresh s 1
    | EApply o ins =>
        if active s then record (fresh s 1) (mkNode o ins n [])
        else store s (f o (vals s ins) 0)
    | ESplit os ins =>
        if active s then fold_left record (split_nodes n os ins) (fresh s (length os))
        else fold_left (fun s' o => store s' (f o (vals s ins) 0)) os s
    | ETopK o ins =>
        if active s then record (record (fresh s 2) (mkNode o ins n [S n])) (mkNode o ins (S n) [S n])
        else store (store s (f o (vals s ins) 0)) (f o (vals s ins) 1)
    | EUnique o ins =>
        if active s then record (fresh s 3) (mkNode o ins n [S n; S (S n)])
        else store (store (store s (f o (vals s ins) 0)) (f o (vals s ins) 1)) (f o (vals s ins) 2)
    | ETarget i => mkS (active s) n (content s) (b_inputs s) (b_targets s ++ [i]) (b_ops s)
    | EForget i => mkS (active s) n (cset (content s) i None) (b_inputs s) (b_targets s) (b_ops s)
    end.
  Definition srun (es : list (event O V)) (s : sess O V) : sess O V := fold_left sstep es s.
  (** a new board, before it is opened (board.rs L87-98) *)
  Definition sstart : sess O V := mkS false 0 (fun _ => None) [] [] [].

  Definition memb (i : nat) (l : list nat) : bool := existsb (Nat.eqb i) l.

  (** board.rs L202-226: the first operation with this output *)
  Fixpoint find_op (ops : list (node O)) (i : nat) : option (node O) :=
    match ops with
    | [] => None
    | n :: r => if n_out n =? i then Some n else find_op r i
    end.
  (** the loop; the stack's top is the head.  [None]: out of fuel *)
  Fixpoint visit (fuel : nat) (ops : list (node O)) (stack seen : list nat) : option (list nat) :=
    match stack with
    | [] => Some seen
    | i :: r =>
        match fuel with
        | 0 => None
        | S fuel' =>
            if memb i seen then visit fuel' ops r seen
            else match find_op ops i with
                 | Some n => visit fuel' ops (rev (n_ins n) ++ r) (i :: seen)
                 | None => visit fuel' ops r (i :: seen)
                 end
        end
    end.
  Definition visit_fuel (ops : list (node O)) (targets : list nat) : nat :=
    length targets + list_sum (map (fun n => length (n_ins n)) ops).
  Definition reachable (targets : list nat) (ops : list (node O)) : list nat :=
    match visit (visit_fuel ops targets) ops (rev targets) [] with Some r => r | None => [] end.

  (** board.rs L228-252 *)
  Definition min_list (l : list nat) : nat :=
    match l with [] => 0 | x :: r => fold_left Nat.min r x end.
  Definition mentioned (inputs targets : list nat) (ops : list (node O)) : list nat :=
    inputs ++ targets ++ flat_map (fun n => n_ins n ++ [n_out n]) ops.
  Definition id_offset (inputs targets : list nat) (ops : list (node O)) : nat :=
    min_list (mentioned inputs targets ops).

  (** board.rs L254-274 *)
  Definition find_constants (inputs : list nat) (ops : list (node O)) (reach : list nat) : list nat :=
    nodup Nat.eq_dec
      (filter (fun i => memb i reach && negb (memb i inputs) && negb (memb i (map n_out ops)))
        (flat_map n_ins ops)).

  Record snapshot := mkSnap {
    s_inputs : list nat; s_constants : list (nat * V); s_targets : list nat; s_nodes : list (node O) }.

  (** board.rs L276-330: a tensor without contents is left out *)
  Definition extract_constants (c : nat -> option V) (off : nat) (l : list nat) : list (nat * V) :=
    flat_map (fun i => match c i with Some v => [(i - off, v)] | None => [] end) l.

  (** the identifiers in the parameters are copied as they are *)
  Definition shift_node (off : nat) (n : node O) : node O :=
    mkNode (n_op n) (map (fun i => i - off) (n_ins n)) (n_out n - off) (n_params n).

  (** board.rs L134-200 *)
  Definition kept (s : sess O V) : list (node O) :=
    filter (fun n => memb (n_out n) (reachable (b_targets s) (b_ops s))) (b_ops s).
  Definition capture (s : sess O V) : snapshot :=
    let reach := reachable (b_targets s) (b_ops s) in
    let ops := kept s in
    let off := id_offset (b_inputs s) (b_targets s) ops in
    mkSnap (map (fun i => i - off) (b_inputs s))
           (extract_constants (content s) off (find_constants (b_inputs s) ops reach))
           (map (fun i => i - off) (b_targets s))
           (map (shift_node off) ops).
End Snap.
Arguments snapshot : clear implicits.
Arguments mkSnap {O V}. Arguments s_inputs {O V}. Arguments s_constants {O V}.
Arguments s_targets {O V}. Arguments s_nodes {O V}.
