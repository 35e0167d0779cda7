(** C43, C44: snapshots. *)
From Coq Require Import List Arith Bool Lia.
From Verif Require Import Base SnapModel SnapSpec SnapProofs SnapProofs2 SnapProofs3.
Import ListNotations.

Section C43.
  Context {O V : Type}.
  Variable f : O -> list V -> nat -> V.
  Variable dflt : V.

  (** Pruning, for every program: the nodes are the recorded operations some target needs,
      in their order; the identifiers the board mentions stay distinct. *)
  Theorem C43_nodes : forall es, shistory f dflt sstart es ->
    let s := srun f dflt es sstart in
    exists off keep,
      s_nodes (capture s) = map (shift_node off) (filter keep (b_ops s)) /\
      s_inputs (capture s) = map (fun i => i - off) (b_inputs s) /\
      s_targets (capture s) = map (fun i => i - off) (b_targets s) /\
      (forall n, In n (b_ops s) -> (keep n = true <-> needed (b_targets s) (b_ops s) (n_out n))) /\
      (forall i j, In i (mentioned (b_inputs s) (b_targets s) (filter keep (b_ops s))) ->
        In j (mentioned (b_inputs s) (b_targets s) (filter keep (b_ops s))) ->
        (i - off = j - off <-> i = j)).
  Proof.
    intros es H s. pose proof (srun_ok f dflt (fun _ => dflt) (fun _ => dflt) es H) as Hok. fold s in Hok.
    exists (off s), (fun n => memb (n_out n) (reachable (b_targets s) (b_ops s))).
    split; [reflexivity|]. split; [reflexivity|]. split; [reflexivity|]. split.
    - intros n Hn. rewrite memb_In. eapply reach_wanted; eauto.
    - intros i j. apply shift_eq.
  Qed.

  (** Closedness, exactly: the operands of the needed operations are recorded inputs or
      results, or have data when capture() is called; the targets are recorded inputs or
      results, or such constants that a needed operation uses. *)
  Theorem C43_closed_partial : forall es, shistory f dflt sstart es ->
    let s := srun f dflt es sstart in
    let wanted := needed (b_targets s) (b_ops s) in
    (operands_closed (capture s) <->
      forall n i, In n (b_ops s) -> wanted (n_out n) -> In i (n_ins n) ->
        In i (b_inputs s) \/ In i (map n_out (b_ops s)) \/ content s i <> None) /\
    (targets_closed (capture s) <->
      forall t, In t (b_targets s) ->
        In t (b_inputs s) \/ In t (map n_out (b_ops s)) \/
        (content s t <> None /\ exists n, In n (b_ops s) /\ wanted (n_out n) /\ In t (n_ins n))).
  Proof.
    intros es H s wanted. pose proof (srun_ok f dflt (fun _ => dflt) (fun _ => dflt) es H) as Hok. fold s in Hok. split.
    - eapply closed_iff; eauto.
    - eapply targets_closed_iff; eauto.
  Qed.

  (** Replay.  Missing: targets that are bare constants, operands without data, and
      operations with several results (refuted below). *)
  Theorem C44_replay_partial : forall es, shistory f dflt sstart es ->
    let s := srun f dflt es sstart in
    let off := id_offset (b_inputs s) (b_targets s) (kept s) in
    operands_closed (capture s) -> targets_closed (capture s) ->
    (forall n, In n (b_ops s) -> n_params n = []) \/ off = 0 ->
    forall feed rho, exists env, replay f feed (capture s) = Some env /\
      forall t, In t (b_targets s) -> env (t - off) = Some (eager f dflt (fun i => feed (i - off)) rho es t).
  Proof.
    intros es H s off Ho Ht Hp feed rho.
    pose proof (srun_ok f dflt (fun i => feed (i - off)) rho es H) as Hok. fold s in Hok.
    destruct (replay_ok f (fun i => feed (i - off)) s _ Hok feed) as (env & E & He); auto.
    - destruct Hp as [Hp|Hp]; auto. left. intros n Hn. apply Hp.
      eapply kept_In in Hn; [|eauto]. tauto.
    - exists env. split; auto. intros t Hi. apply He; auto. eapply targets_closed_iff in Ht; eauto.
  Qed.
End C43.
Print Assumptions C43_nodes.
Print Assumptions C43_closed_partial.
Print Assumptions C44_replay_partial.

Local Ltac known_list H := match type of H with In _ ?l =>
  let l' := eval vm_compute in l in let E := fresh in assert (E : l = l') by (vm_compute; reflexivity); rewrite E in H; clear E end.
Local Ltac mem := vm_compute; let rec go := first [reflexivity | left; go | right; go | discriminate] in go.

(** Concrete operations on numbers: 0 is +, 1 is *, 2 has the results "largest" and
    "its position + 100". *)
Definition num (o : nat) (vs : list nat) (j : nat) : nat :=
  match o with
  | 0 => fold_right plus 0 vs
  | 1 => fold_right mult 1 vs
  | _ => match j with 0 => fold_right max 0 vs | _ => 100 + length vs end
  end.
Definition session : list (event nat nat) -> sess nat nat := fun es => srun num 0 es sstart.

(** A target that is a constant is missing. *)
Definition constant_target : list (event nat nat) := [EOpen; EInput; ETensor 7; ETarget 1; EClose].
Theorem C43_constant_refuted : shistory num 0 sstart constant_target /\
  ~ targets_closed (capture (session constant_target)).
Proof.
  split; [vm_compute; repeat constructor|]. intro H. assert (G : In 1 (s_targets (capture (session constant_target)))) by (vm_compute; auto).
  destruct (H 1 G) as [H'|[H'|H']]; vm_compute in H'; intuition discriminate.
Qed.
Print Assumptions C43_constant_refuted.

(** A constant whose handle is dropped before capture() is left out without an error. *)
Definition dropped_constant : list (event nat nat) :=
  [ETensor 7; EOpen; EInput; EApply 0 [1; 0]; ETarget 2; EClose; EForget 0].
Theorem C43_dropped_refuted : shistory num 0 sstart dropped_constant /\
  ~ operands_closed (capture (session dropped_constant)) /\
  forall feed, replay num feed (capture (session dropped_constant)) = None.
Proof.
  split; [vm_compute; repeat constructor; congruence|]. split; [|intro feed; vm_compute; reflexivity].
  intro H. specialize (H [] _ [] eq_refl 0 (or_intror (or_introl eq_refl))).
  destruct H as [H|[H|H]]; vm_compute in H; intuition discriminate.
Qed.
Print Assumptions C43_dropped_refuted.

(** unique() records one operation, for its first result; the other two come from nowhere,
    and the operation is even pruned if only they are used. *)
Definition unique_counts : list (event nat nat) :=
  [EOpen; EInput; EUnique 2 [0]; EApply 0 [2; 3]; ETarget 4; EClose].
Theorem C43_unique_refuted : shistory num 0 sstart unique_counts /\
  ~ operands_closed (capture (session unique_counts)) /\
  forall feed, replay num feed (capture (session unique_counts)) = None.
Proof.
  split; [vm_compute; repeat constructor; congruence|]. split; [|intro feed; vm_compute; reflexivity].
  intro H. specialize (H [] _ [] eq_refl 2 (or_introl eq_refl)).
  destruct H as [H|[H|H]]; vm_compute in H; intuition discriminate.
Qed.
Print Assumptions C43_unique_refuted.

(** topk() tells its two nodes apart by a tensor identifier in the parameters, which is
    not shifted: in the snapshot it names another tensor, and the target "positions"
    gets the values. *)
Definition topk_positions : list (event nat nat) :=
  [ETensor 7; ETensor 8; EOpen; EInput; ETopK 2 [2]; EApply 0 [3; 2]; EApply 1 [5; 5]; ETarget 6; ETarget 4; EClose].
Theorem C43_params_refuted : shistory num 0 sstart topk_positions /\
  let s := session topk_positions in
  let off := id_offset (b_inputs s) (b_targets s) (kept s) in
  exists n m, In n (b_ops s) /\ In m (s_nodes (capture s)) /\ m = shift_node off n /\
    n_params n = [n_out n] /\ n_params m <> [n_out m] /\
    exists other, In other (s_nodes (capture s)) /\ n_params m = [n_out other] /\ n_op other = 1.
Proof.
  split; [vm_compute; repeat constructor; congruence|]. cbv zeta.
  exists (mkNode 2 [2] 4 [4]), (mkNode 2 [0] 2 [4]).
  split; [mem|]. split; [mem|].
  split; [vm_compute; reflexivity|]. split; [vm_compute; reflexivity|]. split; [discriminate|].
  exists (mkNode 1 [3; 3] 4 []). split; [mem|]. split; reflexivity.
Qed.
Print Assumptions C43_params_refuted.

Theorem C44_topk_refuted : shistory num 0 sstart topk_positions /\
  let s := session topk_positions in
  let off := id_offset (b_inputs s) (b_targets s) (kept s) in
  operands_closed (capture s) /\ targets_closed (capture s) /\
  forall rho, exists env, replay num (fun _ => 9) (capture s) = Some env /\
    env (4 - off) = Some 9 /\ eager num 0 (fun _ => 9) rho topk_positions 4 = 101.
Proof.
  assert (H : shistory num 0 sstart topk_positions) by (vm_compute; repeat constructor; congruence).
  split; [exact H|]. pose proof (C43_closed_partial num 0 topk_positions H) as P. cbv zeta in P. destruct P as [A B].
  cbv zeta. unfold session. split; [|split].
  - apply A. intros n i Hn _ Hi. known_list Hn. repeat (destruct Hn as [<-|Hn]; [simpl in Hi|]); try destruct Hn;
      repeat (destruct Hi as [<-|Hi]; [mem|]); destruct Hi.
  - apply B. intros t Ht. known_list Ht. repeat (destruct Ht as [<-|Ht]; [mem|]). destruct Ht.
  - intro rho.
    match goal with |- exists env, ?r = Some env /\ env ?i = ?v /\ _ =>
      assert (G : match r with Some env => env i = v | None => False end) by (vm_compute; reflexivity);
      destruct r as [env|]; [|destruct G]; exists env end.
    split; [reflexivity|]. split; [exact G|]. vm_compute. reflexivity.
Qed.
Print Assumptions C44_topk_refuted.

Theorem C44_constant_refuted : shistory num 0 sstart constant_target /\
  operands_closed (capture (session constant_target)) /\
  forall feed, exists env, replay num feed (capture (session constant_target)) = Some env /\ env 1 = None.
Proof.
  split; [vm_compute; repeat constructor|]. split.
  - intros before n after E. vm_compute in E. destruct before; discriminate.
  - intro feed. eexists. split; reflexivity.
Qed.
Print Assumptions C44_constant_refuted.

(** A program of the good kind: eager work before, dead code, split, a constant, a used
    constant as target. *)
Definition program : list (event nat nat) :=
  [ETensor 7; ETensor 2; EApply 0 [0; 1]; EOpen; EInput; EInput; EApply 1 [3; 2]; EApply 0 [0; 4];
   ESplit [0; 1] [5; 4]; EApply 0 [8; 3]; ETarget 9; ETarget 2; EClose; EForget 1].
Lemma program_ok : shistory num 0 sstart program.
Proof. vm_compute; repeat constructor; congruence. Qed.
Lemma program_operands : operands_closed (capture (session program)).
Proof.
  apply (proj1 (C43_closed_partial num 0 program program_ok)). intros n i Hn _ Hi. known_list Hn.
  repeat (destruct Hn as [<-|Hn]; [simpl in Hi|]); try destruct Hn;
    repeat (destruct Hi as [<-|Hi]; [mem|]); destruct Hi.
Qed.
Lemma program_targets : targets_closed (capture (session program)).
Proof.
  apply (proj2 (C43_closed_partial num 0 program program_ok)). intros t Ht. known_list Ht.
  destruct Ht as [<-|[<-|[]]]; [mem|].
  right. right. split; [vm_compute; discriminate|]. exists (mkNode 1 [3; 2] 5 []). split; [mem|].
  split; [|mem].
  apply Needed_operand with (mkNode 1 [5; 4] 8 []); [mem| |mem].
  apply Needed_operand with (mkNode 0 [8; 3] 9 []); [mem| |mem].
  apply Needed_target. mem.
Qed.
Example C44_ex : shistory num 0 sstart program /\
  let s := session program in
  let off := id_offset (b_inputs s) (b_targets s) (kept s) in
  operands_closed (capture s) /\ targets_closed (capture s) /\ (forall n, In n (b_ops s) -> n_params n = []) /\
  off = 2 /\ length (s_nodes (capture s)) = 3 /\ length (b_ops s) = 5 /\
  match replay num (fun i => 10 + i) (capture s) with
  | Some env => env (9 - off) = Some (11 * 9 * 12 + 11) /\ env (2 - off) = Some 9
  | None => False
  end.
Proof.
  split; [exact program_ok|]. cbv zeta. split; [exact program_operands|]. split; [exact program_targets|].
  split; [intros n Hn; known_list Hn; repeat (destruct Hn as [<-|Hn]; [reflexivity|]); destruct Hn|].
  vm_compute. repeat split.
Qed.
