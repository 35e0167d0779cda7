(** What a snapshot should be. *)
From Coq Require Import List Arith Bool.
From Verif Require Import Base SnapModel.
Import ListNotations.

Section Spec.
  Context {O V : Type}.
  Variable f : O -> list V -> nat -> V.
  Variable dflt : V.

  (** Calls that succeed: operands and targets exist, inputs are made while a board is
      open, and operations outside use tensors with data. *)
  Definition operands_ok (s : sess O V) (ins : list nat) : Prop :=
    Forall (fun i => i < ids s) ins /\ (active s = false -> Forall (fun i => content s i <> None) ins).
  Definition slegal (s : sess O V) (e : event O V) : Prop :=
    match e with
    | EInput => active s = true
    | EApply _ ins | ESplit _ ins | ETopK _ ins | EUnique _ ins => operands_ok s ins
    | ETarget i => i < ids s
    | _ => True
    end.
  Fixpoint shistory (s : sess O V) (es : list (event O V)) : Prop :=
    match es with
    | [] => True
    | e :: r => slegal s e /\ shistory (sstep f dflt s e) r
    end.

  (** The value of every tensor when everything is computed at once, given the values of
      the inputs [sg] and of the tensors of other boards [rho]: the counter and the values. *)
  Definition put_all (n : nat) (vs : list V) (val : nat -> V) : nat -> V :=
    fun k => if k <? n then val k else nth (k - n) vs (val k).
  Definition eager_step (sg rho : nat -> V) (st : nat * (nat -> V)) (e : event O V) : nat * (nat -> V) :=
    let '(n, val) := st in
    let add vs := (n + length vs, put_all n vs val) in
    match e with
    | EInput => add [sg n]
    | ETensor v => add [v]
    | EForeign => add [rho n]
    | EApply o ins => add [f o (map val ins) 0]
    | ESplit os ins => add (map (fun o => f o (map val ins) 0) os)
    | ETopK o ins => add [f o (map val ins) 0; f o (map val ins) 1]
    | EUnique o ins => add [f o (map val ins) 0; f o (map val ins) 1; f o (map val ins) 2]
    | _ => (n, val)
    end.
  Definition eager (sg rho : nat -> V) (es : list (event O V)) : nat -> V :=
    snd (fold_left (eager_step sg rho) es (0, fun _ => dflt)).

  (** needed for some target, in the recorded program *)
  Inductive needed (targets : list nat) (ops : list (node O)) : nat -> Prop :=
  | Needed_target : forall i, In i targets -> needed targets ops i
  | Needed_operand : forall n i, In n ops -> needed targets ops (n_out n) -> In i (n_ins n) ->
      needed targets ops i.

  (** [i] is available after the nodes [before] *)
  Definition available (sn : snapshot O V) (before : list (node O)) (i : nat) : Prop :=
    In i (s_inputs sn) \/ In i (map fst (s_constants sn)) \/ In i (map n_out before).
  Definition operands_closed (sn : snapshot O V) : Prop :=
    forall before n after, s_nodes sn = before ++ n :: after ->
    forall i, In i (n_ins n) -> available sn before i.
  Definition targets_closed (sn : snapshot O V) : Prop :=
    forall i, In i (s_targets sn) -> available sn (s_nodes sn) i.

  (** Replaying a snapshot: inputs and constants, then node after node.  An operation with
      several results yields the one whose identifier its parameters name. *)
  Fixpoint position (i : nat) (l : list nat) : option nat :=
    match l with
    | [] => None
    | x :: r => if x =? i then Some 0 else option_map S (position i r)
    end.
  Definition which (n : node O) : nat :=
    match position (n_out n) (n_params n) with Some j => S j | None => 0 end.
  Fixpoint lookup (i : nat) (l : list (nat * V)) : option V :=
    match l with
    | [] => None
    | (k, v) :: r => if k =? i then Some v else lookup i r
    end.
  Definition replay_start (sg : nat -> V) (sn : snapshot O V) (i : nat) : option V :=
    if in_dec Nat.eq_dec i (s_inputs sn) then Some (sg i) else lookup i (s_constants sn).
  Fixpoint replay_nodes (nodes : list (node O)) (env : nat -> option V) : option (nat -> option V) :=
    match nodes with
    | [] => Some env
    | n :: r =>
        match mapO env (n_ins n) with
        | Some vs => replay_nodes r (fun k => if k =? n_out n then Some (f (n_op n) vs (which n)) else env k)
        | None => None
        end
    end.
  Definition replay (sg : nat -> V) (sn : snapshot O V) : option (nat -> option V) :=
    replay_nodes (s_nodes sn) (replay_start sg sn).
End Spec.
