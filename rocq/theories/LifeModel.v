(** Model of tensor handles and the tensor registry:
    /repo/crates/hodu_core/src/tensor/core.rs L34-96 and L255-304, internal.rs,
    registry.rs, gradient/tape.rs L40-91.

    An entry is what the registry stores under a tensor id; storage and layout are
    left out, they live and die with the entry.  [handles] counts the [Tensor]
    values (and clones) a program holds for an id; the code does not know it.
    Simplifications: one thread; the id counter and upward counting do not wrap at
    2^64 (downward counting does, as [fetch_sub] does); removing tape entries of
    dropped tensors does not touch the registry and is left out; no capture is
    active ([zeros] is a runtime tensor). *)
From Coq Require Import List Arith ZArith Bool.
From Verif Require Import Base.
Import ListNotations.

Record entry := mkE {
  e_owner : option nat;      (* owner_context *)
  e_runtime : bool;          (* is_runtime *)
  e_isgrad : bool;           (* is_gradient *)
  e_reqgrad : bool;          (* requires_grad *)
  e_link : option nat;       (* grad_tensor_id *)
  e_rc : Z }.                (* ref_count *)

Record world := mkW {
  reg : nat -> option entry;
  next : nat;                (* TENSOR_COUNTER, core.rs L15-20 *)
  computing : bool;          (* gradient::is_computing_gradients *)
  handles : nat -> nat }.

Definition fset {A} (f : nat -> A) (k : nat) (v : A) : nat -> A := fun x => if x =? k then v else f x.
Definition set_reg (w : world) (r : nat -> option entry) : world := mkW r (next w) (computing w) (handles w).
Definition put (w : world) (k : nat) (e : entry) : world := set_reg w (fset (reg w) k (Some e)).
Definition with_rc (e : entry) (c : Z) : entry := mkE (e_owner e) (e_runtime e) (e_isgrad e) (e_reqgrad e) (e_link e) c.
Definition with_link (e : entry) (l : option nat) : entry :=
  mkE (e_owner e) (e_runtime e) (e_isgrad e) (e_reqgrad e) l (e_rc e).
Definition hold (w : world) (k : nat) : world :=
  mkW (reg w) (next w) (computing w) (fset (handles w) k (S (handles w k))).
Definition release (w : world) (k : nat) : world :=
  mkW (reg w) (next w) (computing w) (fset (handles w) k (pred (handles w k))).

(** AtomicUsize::fetch_sub(1) *)
Definition dec (c : Z) : Z := if (c =? 0)%Z then (2 ^ 64 - 1)%Z else (c - 1)%Z.
(** [if prev_count > 0 { fetch_sub(1) }] *)
Definition dec_pos (c : Z) : Z := if (0 <? c)%Z then (c - 1)%Z else c.
Definition few (c : Z) : bool := (c =? 1)%Z || (c =? 0)%Z.
Definition no_owner (e : entry) : bool := match e_owner e with None => true | Some _ => false end.

Definition change_rc (w : world) (k : nat) (f : Z -> Z) : world :=
  match reg w k with Some e => put w k (with_rc e (f (e_rc e))) | None => w end.
Definition incr : world -> nat -> world := fun w k => change_rc w k (fun c => (c + 1)%Z).

(** registry.rs L20-27 *)
Definition reg_remove (w : world) (k : nat) : world :=
  let w1 := match reg w k with
            | Some e => match e_link e with Some g => change_rc w g dec | None => w end
            | None => w
            end in
  set_reg w1 (fset (reg w1) k None).

(** internal.rs L13-35, L50-76 and L78-93, creation_static.rs L12-30 *)
Definition create (w : world) (owner : option nat) (runtime reqgrad : bool) : world :=
  let k := next w in
  mkW (fset (reg w) k (Some (mkE owner runtime false reqgrad None 1))) (S k) (computing w)
      (fset (handles w) k 1).

(** core.rs L34-44 *)
Definition clone (w : world) (k : nat) : world := hold (incr w k) k.

(** core.rs L47-96 *)
Definition drop_handle (w : world) (k : nat) : world :=
  match reg w k with
  | None => release w k
  | Some e =>
      let prev := e_rc e in
      let w1 := put w k (with_rc e (dec_pos prev)) in
      let remove := negb (computing w) && few prev && e_runtime e && no_owner e && negb (e_isgrad e) in
      if remove then
        let w2 := match e_link e with
                  | None => w1
                  | Some g =>
                      match reg w1 g with
                      | None => w1
                      | Some ge =>
                          let w' := put w1 g (with_rc ge (dec_pos (e_rc ge))) in
                          if few (e_rc ge) && e_runtime ge && no_owner ge then reg_remove w' g else w'
                      end
                  end in
        release (reg_remove w2 k) k
      else release w1 k
  end.

(** core.rs grad L241-253: [None] is an error *)
Definition grad (w : world) (k : nat) : option (nat * world) :=
  match reg w k with
  | Some e => match e_link e with
              | Some g => Some (g, hold (incr w g) g)   (* internal.rs L95-100 *)
              | None => None
              end
  | None => None
  end.

(** internal.rs L114-128 and core.rs L269-287: forget the link to [old] *)
Definition unlink (w : world) (old : nat) : world :=
  match reg w old with
  | None => w
  | Some e =>
      let w1 := put w old (with_rc e (dec (e_rc e))) in
      if (e_rc e =? 1)%Z && e_runtime e && no_owner e then reg_remove w1 old else w1
  end.

(** internal.rs L102-139; [false] is an error (some effects stay) *)
Definition set_grad (w : world) (k g : nat) : bool * world :=
  match reg w g with
  | None => (false, w)
  | Some _ =>
      let w1 := incr w g in
      let w2 := match reg w1 k with
                | Some e => match e_link e with Some old => unlink w1 old | None => w1 end
                | None => w1
                end in
      match reg w2 k with
      | Some e => (true, put w2 k (with_link e (Some g)))
      | None => (false, w2)
      end
  end.

(** core.rs L255-304 *)
Definition zero_grad (w : world) (k : nat) : bool * world :=
  match reg w k with
  | None => (true, w)
  | Some e =>
      if negb (e_reqgrad e) then (true, w)
      else
        let w1 := put w k (with_link e None) in
        match e_link e with
        | None => (true, w1)
        | Some old =>
            match reg w1 old with
            | None => (false, w1)
            | Some _ =>
                let w2 := unlink w1 old in
                let z := next w2 in
                let w3 := create w2 None true false in
                let w4 := put w3 z (mkE None true true false None 2) in
                let w5 := match reg w4 k with Some e' => put w4 k (with_link e' (Some z)) | None => w4 end in
                (true, drop_handle w5 z)
            end
        end
  end.

(** one step of the loop of tape.rs L49-90 *)
Definition clean_one (w : world) (ctx k : nat) : world :=
  match reg w k with
  | None => w
  | Some e =>
      let mine := match e_owner e with None => true | Some c => c =? ctx end in
      if mine && (e_rc e =? 0)%Z && e_runtime e && negb (e_isgrad e) then
        let w1 := match e_link e with
                  | None => w
                  | Some g =>
                      match reg w g with
                      | None => w
                      | Some ge =>
                          let w' := put w g (with_rc ge (dec_pos (e_rc ge))) in
                          if few (e_rc ge) && e_runtime ge && no_owner ge && negb (e_isgrad ge)
                          then reg_remove w' g else w'
                      end
                  end in
        reg_remove w1 k
      else w
  end.

(** What happens to the registry.  [Make] is every creation of a tensor (leaf,
    operation result, view, builder tensor); [Link] is the assignment of a gradient
    by backward(); [Clean] one tensor's turn in the clean-up after backward() or at
    the end of a context, which visits all tensors in an unspecified order;
    [Computing] the flag raised during backward(). *)
Inductive op :=
  | Make (owner : option nat) (runtime reqgrad : bool)
  | Clone (k : nat)
  | Drop (k : nat)
  | Grad (k : nat)
  | Link (k g : nat)
  | ZeroGrad (k : nat)
  | Clean (ctx k : nat)
  | Computing (b : bool)
  | ReqGrad (k : nat) (b : bool).   (* core.rs L190-212 *)

Definition step (w : world) (o : op) : world :=
  match o with
  | Make ow r q => create w ow r q
  | Clone k => clone w k
  | Drop k => drop_handle w k
  | Grad k => match grad w k with Some (_, w') => w' | None => w end
  | Link k g => snd (set_grad w k g)
  | ZeroGrad k => snd (zero_grad w k)
  | Clean c k => clean_one w c k
  | Computing b => mkW (reg w) (next w) b (handles w)
  | ReqGrad k b =>
      match reg w k with
      | Some e => put w k (mkE (e_owner e) (e_runtime e) (e_isgrad e) b (e_link e) (e_rc e))
      | None => w
      end
  end.

Definition run (os : list op) (w : world) : world := fold_left step os w.
Definition start : world := mkW (fun _ => None) 0 false (fun _ => 0).
