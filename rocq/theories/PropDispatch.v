(** C125: from validation to kernels. *)
From Coq Require Import String List Bool.
From Verif Require Import Base EncodeModel DispatchModel DispatchSpec DispatchProofs.
Import ListNotations.

(** Validation accepts an operation exactly on the sorts of elements it is made for. *)
Theorem C125_accepted : forall o d, accepted o d = true <-> suits (need o) (sort_of d).
Proof. exact accepted_iff. Qed.
Print Assumptions C125_accepted.

(** Every accepted operation reaches its kernel.  Missing: the cases below. *)
Theorem C125_runs_partial : forall o d, suits (need o) (sort_of d) -> ~ unserved o d -> ~ refused_late o d -> run o d = Ok tt.
Proof. exact run_ok. Qed.
Print Assumptions C125_runs_partial.

(** Exactly these panic: the remainder on every type, leaky_relu, elu and prelu, relu on signed integers,
    and argmax, argmin, any and all on f64. *)
Theorem C125_panics_refuted : forall o d, run o d = Panic <-> unserved o d.
Proof. exact run_panics. Qed.
Print Assumptions C125_panics_refuted.

(** Errors: what validation rejects, and argmax, argmin, any and all of booleans. *)
Theorem C125_errors_refuted : forall o d, (exists e, run o d = Err e) <-> ~ suits (need o) (sort_of d) \/ refused_late o d.
Proof. exact run_refused. Qed.
Print Assumptions C125_errors_refuted.

Example C125_ex : run (Reduce Reduce_ArgMax) F32 = Ok tt /\ run (Reduce Reduce_ArgMax) F64 = Panic /\ run (Unary Unary_Relu) I32 = Panic /\
  run (Binary Binary_Rem) F32 = Panic /\ run (Reduce Reduce_Any) BOOL = Err EInternal /\ run (Indexing Indexing_Nonzero) BOOL = Ok tt /\
  run (Conv Conv_Conv2d) I32 = Err EInternal /\ run (Unary Unary_Neg) I8 = Ok tt /\
  op_names (Indexing Indexing_Nonzero) = ["nonzero_count"; "nonzero_fill"]%string /\
  suits (need (Unary Unary_Relu)) (sort_of F32) /\ ~ unserved (Unary Unary_Relu) F32 /\ ~ refused_late (Unary Unary_Relu) F32.
Proof. do 9 (split; [vm_compute; reflexivity|]). split; [exact I|]. split; [discriminate|intros []]. Qed.
