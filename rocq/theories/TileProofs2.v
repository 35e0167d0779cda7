From Coq Require Import List Arith ZArith Bool Lia.
From Verif Require Import Base IndexSpec LayoutModel KernelModel TensorModel ReduceModel ScanModel MatrixModel TileModel TileProofs.
Import ListNotations.

Section P.
Context {A : Type}.
Variables (zero : A) (mac : A -> A -> A -> A).

(** where the thread stores its sum *)
Definition slot (l : launch A) (c i : nat) : nat :=
  block_z l c * (rows l * cols l) + row l c i * cols l + col l c i.
Definition stores (l : launch A) (c i : nat) : Prop := row l c i < rows l /\ col l c i < cols l.
Definition count (l : launch A) : nat := wide l * high l * deep l.

Lemma stores_bool : forall l c i, (row l c i <? rows l) && (col l c i <? cols l) = true <-> stores l c i.
Proof. intros. unfold stores. rewrite andb_true_iff, !Nat.ltb_lt. reflexivity. Qed.

Lemma block_inj : forall (l : launch A) c d, 0 < wide l -> 0 < high l ->
  block_x l c = block_x l d -> block_y l c = block_y l d -> block_z l c = block_z l d -> c = d.
Proof.
  intros l c d W H X Y Z. unfold block_x, block_y, block_z in *.
  rewrite <- !Nat.div_div in Z by lia.
  assert (E : c / wide l = d / wide l).
  { rewrite (Nat.div_mod (c / wide l) (high l)), (Nat.div_mod (d / wide l) (high l)) by lia. congruence. }
  rewrite (Nat.div_mod c (wide l)), (Nat.div_mod d (wide l)) by lia. congruence.
Qed.

Lemma slot_inj : forall (l : launch A) c i d j, sane l -> 0 < wide l -> 0 < high l ->
  i < side l * side l -> j < side l * side l -> stores l c i -> stores l d j ->
  slot l c i = slot l d j -> c = d /\ i = j.
Proof.
  intros l c i d j SN W H I J [R1 C1] [R2 C2] E. unfold slot in E.
  rewrite <- !Nat.add_assoc in E. apply pair_inj in E; [|nia|nia]. destruct E as [Z E].
  apply pair_inj in E; [|lia|lia]. destruct E as [ER EC].
  destruct (thread_pos l i SN I) as (I1 & I2 & I3). destruct (thread_pos l j SN J) as (J1 & J2 & J3).
  destruct SN as [_ SN]. unfold row in ER. unfold col in EC.
  apply pair_inj in ER; [|lia|lia]. apply pair_inj in EC; [|lia|lia].
  destruct ER, EC. split; [apply (block_inj l); auto|]. rewrite I3, J3. congruence.
Qed.

Record gfine (l : launch A) (lefts rights : nat -> list (option A)) (out : list (option A)) (s : state A) : Prop := {
  g_count : length (blocks s) = count l;
  g_block : forall c b, nth_error (blocks s) c = Some b -> fine zero mac l (lefts c) (rights c) c b;
  g_length : length (result s) = length out;
  g_done : forall c b i v, nth_error (blocks s) c = Some b -> nth_error (threads b) i = Some (Done, v) ->
    stores l c i -> slot l c i < length out -> nth_error (result s) (slot l c i) = Some v;
  g_rest : forall q, (forall c b i v, nth_error (blocks s) c = Some b -> nth_error (threads b) i = Some (Done, v) ->
      stores l c i -> slot l c i <> q) -> nth_error (result s) q = nth_error out q }.

(** a move leaves the other threads of the block alone, and a thread that was
    done stays done *)
Lemma step_threads : forall l c i b out j p v,
  nth_error (threads (fst (step_block zero mac l c i b out))) j = Some (p, v) ->
  (j <> i /\ nth_error (threads b) j = Some (p, v)) \/
  (j = i /\ ((nth_error (threads b) j = Some (p, v) /\ snd (step_block zero mac l c i b out) = out) \/
             (p <> Done /\ snd (step_block zero mac l c i b out) = out) \/
             (p = Done /\ nth_error (threads b) i = Some (Store, v) /\
              snd (step_block zero mac l c i b out)
              = if (row l c i <? rows l) && (col l c i <? cols l) then upd out (slot l c i) v else out))).
Proof.
  intros l c i b out j p v H. unfold step_block, slot in *.
  destruct (nth_error (threads b) i) as [[q s]|] eqn:Hi.
  2:{ cbn in *. destruct (Nat.eq_dec j i); [subst; congruence|auto]. }
  assert (Same : nth_error (threads b) j = Some (p, v) -> (j <> i /\ nth_error (threads b) j = Some (p, v)) \/
    (j = i /\ nth_error (threads b) j = Some (p, v))) by (intro E; destruct (Nat.eq_dec j i); auto).
  destruct q as [t|t|t|t k|t| |]; cbn [fst snd move threads] in *.
  - apply upd_cases in H. destruct H as [[-> H]|[N H]]; [|auto]. injection H as -> ->. right. split; [reflexivity|]. right. left. split; [discriminate|auto].
  - apply upd_cases in H. destruct H as [[-> H]|[N H]]; [|auto]. injection H as -> ->. right. split; [reflexivity|]. right. left. split; [discriminate|auto].
  - destruct (all_arrived _ _ _); cbn [fst snd move threads] in *.
    + apply upd_cases in H. destruct H as [[-> H]|[N H]]; [|auto]. injection H as -> ->. right. split; [reflexivity|]. right. left. split; [discriminate|auto].
    + destruct (Same H) as [X|[X Y]]; auto. 
  - apply upd_cases in H. destruct H as [[-> H]|[N H]]; [|auto]. injection H as -> ->. right. split; [reflexivity|]. right. left.
    split; [destruct (S k <? tile l); discriminate|auto].
  - destruct (all_arrived _ _ _); cbn [fst snd move threads] in *.
    + apply upd_cases in H. destruct H as [[-> H]|[N H]]; [|auto]. injection H as -> ->. right. split; [reflexivity|]. right. left.
      split; [unfold enter; destruct (S t <? tiles l); discriminate|auto].
    + destruct (Same H) as [X|[X Y]]; auto. 
  - apply upd_cases in H. destruct H as [[-> H]|[N H]]; [|auto]. injection H as -> ->. right. split; [reflexivity|]. right. right. auto.
  - destruct (Same H) as [X|[X Y]]; auto.
Qed.

Lemma done_stays : forall l c i b out j v, nth_error (threads b) j = Some (Done, v) ->
  nth_error (threads (fst (step_block zero mac l c i b out))) j = Some (Done, v).
Proof.
  intros l c i b out j v H. unfold step_block.
  destruct (nth_error (threads b) i) as [[q s]|] eqn:Hi; [|exact H].
  destruct (Nat.eq_dec i j) as [->|N].
  - rewrite H in Hi. injection Hi as <- <-. exact H.
  - destruct q; cbn [fst move threads]; try (rewrite nth_error_upd_neq; auto);
      try (destruct (all_arrived _ _ _); cbn [fst move threads]; try (rewrite nth_error_upd_neq; auto)); auto.
Qed.

(** the thread that moved changed the output only if it stored *)
Lemma step_out : forall l c i b out, 
  (snd (step_block zero mac l c i b out) = out /\
   forall j v, nth_error (threads (fst (step_block zero mac l c i b out))) j = Some (Done, v) ->
     stores l c j -> nth_error (threads b) j = Some (Done, v)) \/
  (exists v, stores l c i /\ nth_error (threads b) i = Some (Store, v) /\
     snd (step_block zero mac l c i b out) = upd out (slot l c i) v /\
     nth_error (threads (fst (step_block zero mac l c i b out))) i = Some (Done, v)).
Proof.
  intros l c i b out.
  destruct (nth_error (threads b) i) as [[q s]|] eqn:Hi.
  - assert (LI : i < length (threads b)) by (apply nth_error_Some; congruence).
    destruct q as [t|t|t|t k|t| |].
    6:{ destruct ((row l c i <? rows l) && (col l c i <? cols l)) eqn:E.
        - right. exists s. split; [now apply stores_bool|]. split; auto. unfold step_block. rewrite Hi, E. cbn.
          split; auto. now apply nth_error_upd_eq.
        - left. unfold step_block. rewrite Hi, E. cbn. split; auto. intros j v H ST. apply upd_cases in H.
          destruct H as [[-> H]|[N H]]; auto. apply stores_bool in ST. congruence. }
    all: left; split; [unfold step_block; rewrite Hi; try destruct (all_arrived _ _ _); reflexivity|];
      intros j v H _; apply step_threads in H; destruct H as [[_ H]|[-> [[H _]|[[H _]|[_ [H _]]]]]]; auto; congruence.
  - left. unfold step_block. rewrite Hi. cbn. auto.
Qed.

Lemma gfine_step : forall l lefts rights out s who, sane l -> 0 < wide l -> 0 < high l ->
  gfine l lefts rights out s -> gfine l lefts rights out (step zero mac l s who).
Proof.
  intros l lefts rights out s [c i] SN W H G. unfold step. cbn [fst snd].
  destruct (nth_error (blocks s) c) as [b|] eqn:Hc; [|exact G].
  pose proof G as [G1 G2 G3 G4 G5].
  assert (FB := G2 c b Hc). assert (FB' := fine_step zero mac l (lefts c) (rights c) c b i (result s) SN FB).
  assert (LC : c < length (blocks s)) by (apply nth_error_Some; congruence).
  assert (SO := step_out l c i b (result s)). assert (DS := done_stays l c i b (result s)).
  set (r := step_block zero mac l c i b (result s)) in *.
  assert (LI : forall j v, nth_error (threads b) j = Some v -> j < side l * side l).
  { intros j v E. rewrite <- (f_threads _ _ _ _ _ _ _ FB). apply nth_error_Some. congruence. }
  assert (LO : forall d b' j v, nth_error (blocks s) d = Some b' -> nth_error (threads b') j = Some v -> j < side l * side l).
  { intros d b' j v Ed E. rewrite <- (f_threads _ _ _ _ _ _ _ (G2 d b' Ed)). apply nth_error_Some. congruence. }
  constructor; cbn [blocks result].
  - now rewrite upd_length.
  - intros d b' E. apply upd_cases in E. destruct E as [[-> ->]|[N E]]; auto.
  - destruct SO as [[-> _]|(v & _ & _ & -> & _)]; [auto|now rewrite upd_length].
  - intros d b' j v E Ej ST LS. destruct SO as [[-> SO]|(u & ST' & Hi & -> & Hi')].
    + apply upd_cases in E. destruct E as [[-> ->]|[N E]].
      * apply (G4 c b j v); auto.
      * apply (G4 d b' j v); auto.
    + apply upd_cases in E. destruct E as [[-> ->]|[N E]].
      * destruct (Nat.eq_dec j i) as [->|NJ].
        -- rewrite Ej in Hi'. injection Hi' as ->. apply nth_error_upd_eq. now rewrite G3.
        -- assert (Ej2 := Ej). apply step_threads in Ej2. destruct Ej2 as [[_ Ej2]|[X _]]; [|contradiction].
           rewrite nth_error_upd_neq; [apply (G4 c b j v); auto|]. intro X.
           apply (slot_inj l c i c j) in X; eauto. destruct X; congruence.
      * rewrite nth_error_upd_neq; [apply (G4 d b' j v); auto|]. intro X.
        apply (slot_inj l c i d j) in X; eauto. destruct X; congruence.
  - intros q Q. destruct SO as [[-> SO]|(u & ST' & Hi & -> & Hi')].
    + apply G5. intros d b' j v E Ej ST. destruct (Nat.eq_dec d c) as [->|N].
      * rewrite Hc in E. injection E as <-. apply (Q c (fst r) j v); auto. now apply nth_error_upd_eq.
      * apply (Q d b' j v); auto. rewrite nth_error_upd_neq; auto.
    + rewrite nth_error_upd_neq.
      * apply G5. intros d b' j v E Ej ST. destruct (Nat.eq_dec d c) as [->|N].
        -- rewrite Hc in E. injection E as <-. apply (Q c (fst r) j v); auto. now apply nth_error_upd_eq.
        -- apply (Q d b' j v); auto. rewrite nth_error_upd_neq; auto.
      * apply (Q c (fst r) i u); auto. now apply nth_error_upd_eq.
Qed.

Lemma gfine_run : forall l lefts rights out sched s, sane l -> 0 < wide l -> 0 < high l ->
  gfine l lefts rights out s -> gfine l lefts rights out (run zero mac l sched s).
Proof.
  intros l lefts rights out sched. induction sched as [|w r IH]; intros s SN W H G; [exact G|].
  cbn. apply IH; auto. now apply gfine_step.
Qed.

Lemma gfine_start : forall l lefts rights out, sane l ->
  (forall c, length (lefts c) = tile l * tile l) -> (forall c, length (rights c) = tile l * tile l) ->
  gfine l lefts rights out (start zero l lefts rights out).
Proof.
  intros l lefts rights out SN L R. unfold start.
  assert (NTH : forall c b, nth_error (blocks (start zero l lefts rights out)) c = Some b ->
    b = mkBlock (lefts c) (rights c) (repeat (enter l 0, Some zero) (side l * side l))).
  { intros c b H. unfold start in H. cbn [blocks] in H.
    assert (LC : c < count l) by (rewrite <- (seq_length (count l) 0), <- (map_length (fun c => mkBlock (lefts c) (rights c) (repeat (enter l 0, Some zero) (side l * side l)))); apply nth_error_Some; unfold count; congruence).
    rewrite nth_error_map in H. unfold count in LC.
    rewrite (nth_error_nth' _ 0) in H by (rewrite seq_length; auto). rewrite seq_nth in H by auto. cbn in H. congruence. }
  assert (ND : forall c b i v, nth_error (blocks (start zero l lefts rights out)) c = Some b ->
    nth_error (threads b) i = Some (Done, v) -> False).
  { intros c b i v H1 H2. apply NTH in H1. subst b. cbn in H2. apply nth_error_repeat' in H2.
    unfold enter in H2. destruct (0 <? tiles l); discriminate. }
  fold (start zero l lefts rights out). constructor; auto.
  - unfold start. cbn. rewrite map_length, seq_length. reflexivity.
  - intros c b H. apply NTH in H. subst b. apply fine_start; auto.
  - intros c b i v H1 H2. destruct (ND c b i v H1 H2).
Qed.

(** what is in the buffer when all threads are done *)
Lemma tiles_result : forall l lefts rights out sched, sane l -> 0 < wide l -> 0 < high l ->
  (forall c, length (lefts c) = tile l * tile l) -> (forall c, length (rights c) = tile l * tile l) ->
  let s := run zero mac l sched (start zero l lefts rights out) in
  finished s ->
  length (result s) = length out /\
  (forall c i, c < count l -> i < side l * side l -> stores l c i -> slot l c i < length out ->
     nth_error (result s) (slot l c i) = Some (sums zero mac l (lefts c) (rights c) c i (tiles l * tile l))) /\
  (forall q, (forall c i, c < count l -> i < side l * side l -> stores l c i -> slot l c i <> q) ->
     nth_error (result s) q = nth_error out q).
Proof.
  intros l lefts rights out sched SN W H L R s FIN.
  assert (G : gfine l lefts rights out s) by (apply gfine_run; auto; apply gfine_start; auto).
  destruct G as [G1 G2 G3 G4 G5]. unfold finished in FIN. rewrite Forall_forall in FIN.
  split; auto. split.
  - intros c i Hc Hi ST LS. destruct (nth_error (blocks s) c) as [b|] eqn:Eb; [|apply nth_error_None in Eb; lia].
    assert (FB := G2 c b Eb). specialize (FIN b (nth_error_In _ _ Eb)). rewrite Forall_forall in FIN.
    destruct (nth_error (threads b) i) as [[p v]|] eqn:Ei.
    2:{ apply nth_error_None in Ei. rewrite (f_threads _ _ _ _ _ _ _ FB) in Ei. lia. }
    assert (P := FIN _ (nth_error_In _ _ Ei)). cbn in P. subst p.
    destruct (f_each _ _ _ _ _ _ _ FB i Done v Ei) as (_ & -> & _). cbn [summed] in *.
    apply (G4 c b i); auto.
  - intros q Q. apply G5. intros c b i v Eb Ei ST. apply Q; auto.
    + rewrite <- G1. apply nth_error_Some. congruence.
    + rewrite <- (f_threads _ _ _ _ _ _ _ (G2 c b Eb)). apply nth_error_Some. congruence.
Qed.
End P.
