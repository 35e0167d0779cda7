(** Model of the gradient tape and of backward():
    /repo/crates/hodu_core/src/tensor/gradient/{compute,tape,core,context}.rs,
    /repo/crates/hodu_core/src/tensor/core.rs L226-239 (backward) and
    /repo/crates/hodu_nn/macros/src/derive.rs L78-103 (optimizer wrappers).

    Simplifications:
    - A gradient tensor is represented by its value (type [V]); ids of
      gradient tensors and their reference counts are the subject of LifeModel.v.
    - The vector-Jacobian rule of an operation is a parameter [vjp]; besides its
      result it yields the operations it executes, each of which calls
      record_operation like any other operation.  The same holds of the addition
      [vadd] used to accumulate (vjp_utils.rs L9-13).
    - A tensor id that is not in the registry is one for which [alive] is false;
      which tensors disappear when is left open: action [AVanish].
    - One thread; a poisoned mutex is not modelled. *)
From Coq Require Import List Arith Bool.
From Verif Require Import Base.
Import ListNotations.

Section Grad.
Variables OP V : Type.

(** tape.rs L12-18, TapeEntry (the op and its params are one datum) *)
Record entry := mkE { e_out : nat; e_op : OP; e_ins : list nat }.

Variable vjp : entry -> V -> list entry * outcome (list V).
Variable vadd : V -> V -> list entry * outcome V.
(** Tensor::ones of the loss' shape and dtype, compute.rs L69 *)
Variable ones : nat -> outcome V.
(** DType::is_float of a tensor's dtype *)
Variable is_float : nat -> bool.

(** The globals: IS_COMPUTING_GRADIENTS, IS_IN_OPTIMIZER_STEP, CONTEXT_STACK
    (top first), the ContextId counter (core.rs L3-54), GRADIENT_TAPES
    (tape.rs L21-25), and of the tensor registry: presence, requires_grad and
    the value of the tensor grad_tensor_id refers to. *)
Record gstate := mkGS {
  computing : bool;
  in_step : bool;
  stack : list nat;
  next_ctx : nat;
  tapes : nat -> option (list entry);
  alive : nat -> bool;
  req : nat -> bool;
  grads : nat -> option V
}.

Definition set_computing (b : bool) (s : gstate) : gstate :=
  mkGS b (in_step s) (stack s) (next_ctx s) (tapes s) (alive s) (req s) (grads s).
Definition set_in_step (b : bool) (s : gstate) : gstate :=
  mkGS (computing s) b (stack s) (next_ctx s) (tapes s) (alive s) (req s) (grads s).
Definition set_stack (k : list nat) (s : gstate) : gstate :=
  mkGS (computing s) (in_step s) k (next_ctx s) (tapes s) (alive s) (req s) (grads s).
Definition set_next (n : nat) (s : gstate) : gstate :=
  mkGS (computing s) (in_step s) (stack s) n (tapes s) (alive s) (req s) (grads s).
Definition set_tapes (t : nat -> option (list entry)) (s : gstate) : gstate :=
  mkGS (computing s) (in_step s) (stack s) (next_ctx s) t (alive s) (req s) (grads s).
Definition set_alive (a : nat -> bool) (s : gstate) : gstate :=
  mkGS (computing s) (in_step s) (stack s) (next_ctx s) (tapes s) a (req s) (grads s).
Definition set_req (r : nat -> bool) (s : gstate) : gstate :=
  mkGS (computing s) (in_step s) (stack s) (next_ctx s) (tapes s) (alive s) r (grads s).
Definition set_grads (g : nat -> option V) (s : gstate) : gstate :=
  mkGS (computing s) (in_step s) (stack s) (next_ctx s) (tapes s) (alive s) (req s) g.

Definition fupd {A} (f : nat -> A) (k : nat) (x : A) : nat -> A :=
  fun j => if Nat.eqb j k then x else f j.

(** core.rs L21-23 *)
Definition active (s : gstate) : nat := hd 0 (stack s).

(** tensor/core.rs L217-219 and compute.rs L22-25: false if not in the registry *)
Definition requires (s : gstate) (i : nat) : bool := alive s i && req s i.

(** tape.rs push_entry L102-108: nothing happens if there is no such tape *)
Definition push_entry (c : nat) (e : entry) (s : gstate) : gstate :=
  match tapes s c with
  | Some t => set_tapes (fupd (tapes s) c (Some (t ++ [e]))) s
  | None => s
  end.

(** compute.rs record_operation L13-41 *)
Definition record (e : entry) (s : gstate) : gstate :=
  if computing s then s
  else if in_step s then s
  else if negb (existsb (requires s) (e_ins e)) then s
  else push_entry (active s) e s.

Definition record_all (es : list entry) (s : gstate) : gstate :=
  fold_left (fun s e => record e s) es s.

(** tape.rs get_tape_clone L111-114 *)
Definition get_tape (c : nat) (s : gstate) : list entry :=
  match tapes s c with Some t => t | None => [] end.

(** tape.rs clear_tape_for_context L117-123 *)
Definition clear_tape (c : nat) (s : gstate) : gstate :=
  match tapes s c with Some _ => set_tapes (fupd (tapes s) c (Some [])) s | None => s end.

(** internal.rs set_grad_tensor_id L102-139: an error if the tensor is gone *)
Definition set_grad (i : nat) (g : V) (s : gstate) : gstate * outcome unit :=
  if alive s i then (set_grads (fupd (grads s) i (Some g)) s, Ok tt) else (s, Err EInternal).

Definition gmap := nat -> option V.

(** compute.rs L112-135: hand the gradients to the inputs, in order *)
Fixpoint give_grads (ins : list nat) (gs : list V) (gr : gmap) (s : gstate)
  : gstate * gmap * outcome unit :=
  match ins, gs with
  | i :: ins', g :: gs' =>
      let '(s1, final) :=
        match gr i with
        | Some old => let '(es, r) := vadd old g in (record_all es s, r)
        | None => (s, Ok g)
        end in
      match final with
      | Ok f =>
          let gr1 := fupd gr i (Some f) in
          if requires s1 i then
            match set_grad i f s1 with
            | (s2, Ok _) => give_grads ins' gs' gr1 s2
            | (s2, Err x) => (s2, gr1, Err x)
            | (s2, Panic) => (s2, gr1, Panic)
            end
          else give_grads ins' gs' gr1 s1
      | Err x => (s1, gr, Err x)
      | Panic => (s1, gr, Panic)
      end
  | _, _ => (s, gr, Ok tt)
  end.

(** compute.rs L86-137: the loop; the tape comes in reversed *)
Fixpoint back_loop (rtape : list entry) (gr : gmap) (s : gstate) : gstate * gmap * outcome unit :=
  match rtape with
  | [] => (s, gr, Ok tt)
  | e :: rest =>
      match gr (e_out e) with
      | None => back_loop rest gr s
      | Some g =>
          if forallb (alive s) (e_ins e) then
            let '(es, r) := vjp e g in
            let s1 := record_all es s in
            match r with
            | Ok gs =>
                match give_grads (e_ins e) gs gr s1 with
                | (s2, gr2, Ok _) => back_loop rest gr2 s2
                | (s2, gr2, Err x) => (s2, gr2, Err x)
                | (s2, gr2, Panic) => (s2, gr2, Panic)
                end
            | Err x => (s1, gr, Err x)
            | Panic => (s1, gr, Panic)
            end
          else (s, gr, Err EInternal)
      end
  end.

(** compute.rs compute_gradients L65-155.  The guard's destructor (L59-63) runs
    on all ways out of the loop, unwinding included. *)
Definition compute_gradients (loss : nat) (s : gstate) : gstate * outcome unit :=
  match ones loss with
  | Ok g1 =>
      match set_grad loss g1 s with
      | (s0, Ok _) =>
          let c := active s0 in
          let tape := get_tape c s0 in
          let s1 := set_computing true s0 in
          let '(s2, _, r) := back_loop (rev tape) (fupd (fun _ => None) loss (Some g1)) s1 in
          let s3 := set_computing false s2 in
          match r with
          | Ok _ => (clear_tape c s3, Ok tt)
          | Err x => (s3, Err x)
          | Panic => (s3, Panic)
          end
      | (s0, Err x) => (s0, Err x)
      | (s0, Panic) => (s0, Panic)
      end
  | Err x => (s, Err x)
  | Panic => (s, Panic)
  end.

(** tensor/core.rs backward L226-239 *)
Definition backward (loss : nat) (s : gstate) : gstate * outcome unit :=
  if negb (is_float loss) then (s, Err EDType)
  else if negb (requires s loss) then (s, Err EInternal)
  else compute_gradients loss s.

(** context.rs GradientContext::new L8-16 (core.rs L11-14, tape.rs L28-30) *)
Definition new_ctx (s : gstate) : nat * gstate :=
  let c := next_ctx s in
  (c, set_tapes (fupd (tapes s) c (Some [])) (set_stack (c :: stack s) (set_next (S c) s))).

(** context.rs Drop L29-39: the top of the stack is popped, whatever it is *)
Definition drop_ctx (c : nat) (s : gstate) : gstate :=
  if Nat.eqb c 0 then s
  else set_tapes (fupd (tapes s) c None) (set_stack (tl (stack s)) s).

(** gradient.rs L45-48, tape.rs remove_entries_with_input L127-134 *)
Definition drop_leaf (i : nat) (s : gstate) : gstate :=
  match tapes s (active s) with
  | Some t => set_tapes (fupd (tapes s) (active s)
                (Some (filter (fun e => negb (existsb (Nat.eqb i) (e_ins e))) t))) s
  | None => s
  end.

(** derive.rs L79-87: a step runs operations and ends in success or error *)
Definition opt_step (ops : list entry) (r : outcome unit) (s : gstate) : gstate * outcome unit :=
  let s1 := record_all ops (set_in_step true s) in
  match r with
  | Panic => (s1, Panic)
  | _ => (set_in_step false s1, r)
  end.

(** derive.rs L88-101: [rs] are the results of the parameters' zero_grad() *)
Fixpoint zero_loop (rs : list (outcome unit)) : outcome unit :=
  match rs with
  | [] => Ok tt
  | Ok _ :: rs' => zero_loop rs'
  | r :: _ => r
  end.
Definition opt_zero_grad (rs : list (outcome unit)) (s : gstate) : gstate * outcome unit :=
  let s1 := set_in_step true s in
  match zero_loop rs with
  | Ok _ => (set_in_step false s1, Ok tt)
  | r => (s1, r)
  end.

(** Histories.  [ARecord] is any operation on tensors, [ASetReq]/[AVanish]/[AAppear]
    changes of the registry, [AWith] a block owning a GradientContext (left by
    success or error alike: the destructor runs). *)
Inductive act :=
  | ARecord (e : entry)
  | ASetReq (i : nat) (b : bool)
  | AVanish (i : nat)
  | AAppear (i : nat)
  | ADropLeaf (i : nat)
  | ABackward (loss : nat)
  | AStep (ops : list entry) (r : outcome unit)
  | AZero (rs : list (outcome unit))
  | AWith (body : list act).

Fixpoint run1 (a : act) (s : gstate) : gstate :=
  match a with
  | ARecord e => record e s
  | ASetReq i b => set_req (fupd (req s) i b) s
  | AVanish i => set_alive (fupd (alive s) i false) s
  | AAppear i => set_alive (fupd (alive s) i true) s
  | ADropLeaf i => drop_leaf i s
  | ABackward l => fst (backward l s)
  | AStep ops r => fst (opt_step ops r s)
  | AZero rs => fst (opt_zero_grad rs s)
  | AWith body =>
      let '(c, s1) := new_ctx s in
      drop_ctx c (fold_left (fun s a => run1 a s) body s1)
  end.
Definition run (p : list act) (s : gstate) : gstate := fold_left (fun s a => run1 a s) p s.

(** The state at program start: only the default context's tape exists. *)
Definition init : gstate :=
  mkGS false false [] 1 (fun c => if Nat.eqb c 0 then Some [] else None)
       (fun _ => false) (fun _ => false) (fun _ => None).
End Grad.

Arguments mkE {OP}. Arguments e_out {OP}. Arguments e_op {OP}. Arguments e_ins {OP}.
Arguments mkGS {OP V}. Arguments computing {OP V}. Arguments in_step {OP V}.
Arguments stack {OP V}. Arguments next_ctx {OP V}. Arguments tapes {OP V}.
Arguments alive {OP V}. Arguments req {OP V}. Arguments grads {OP V}.
Arguments set_computing {OP V}. Arguments set_in_step {OP V}. Arguments set_stack {OP V}.
Arguments set_next {OP V}. Arguments set_tapes {OP V}. Arguments set_alive {OP V}.
Arguments set_req {OP V}. Arguments set_grads {OP V}.
Arguments active {OP V}. Arguments requires {OP V}. Arguments push_entry {OP V}.
Arguments record {OP V}. Arguments record_all {OP V}. Arguments get_tape {OP V}.
Arguments clear_tape {OP V}. Arguments set_grad {OP V}. Arguments give_grads {OP V}.
Arguments back_loop {OP V}. Arguments compute_gradients {OP V}. Arguments backward {OP V}.
Arguments new_ctx {OP V}. Arguments drop_ctx {OP V}. Arguments drop_leaf {OP V}.
Arguments opt_step {OP V}. Arguments opt_zero_grad {OP V}.
Arguments ARecord {OP}. Arguments ASetReq {OP}. Arguments AVanish {OP}. Arguments AAppear {OP}.
Arguments ADropLeaf {OP}. Arguments ABackward {OP}. Arguments AStep {OP}. Arguments AZero {OP}.
Arguments AWith {OP}. Arguments run1 {OP V}. Arguments run {OP V}. Arguments init {OP V}.
