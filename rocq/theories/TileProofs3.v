From Coq Require Import List Arith ZArith Bool Lia.
From Verif Require Import Base IndexSpec LayoutModel KernelModel TensorModel ReduceModel ScanModel MatrixModel TileModel TileProofs TileProofs2.
Import ListNotations.

Section P.
Context {A : Type}.
Variables (zero : A) (mac : A -> A -> A -> A).

Definition rank (l : launch A) (p : place) : nat :=
  match p with
  | LoadLeft t => t * (tile l + 4)
  | LoadRight t => t * (tile l + 4) + 1
  | Loaded t => t * (tile l + 4) + 2
  | Multiply t k => t * (tile l + 4) + 3 + k
  | Used t => t * (tile l + 4) + 3 + tile l
  | Store => tiles l * (tile l + 4)
  | Done => tiles l * (tile l + 4) + 1
  end.
Definition brank (l : launch A) (b : block A) : nat := list_sum (map (fun th => rank l (fst th)) (threads b)).
Definition grank (l : launch A) (s : state A) : nat := list_sum (map (brank l) (blocks s)).

Lemma sum_upd : forall B (f : B -> nat) (l : list B) i x y, nth_error l i = Some x ->
  list_sum (map f (upd l i y)) + f x = list_sum (map f l) + f y.
Proof.
  unfold list_sum. induction l as [|h t IH]; intros i x y H; destruct i; cbn in *; try discriminate.
  - injection H as ->. lia.
  - specialize (IH i x y H). lia.
Qed.
Lemma upd_same : forall B (l : list B) i x, nth_error l i = Some x -> upd l i x = l.
Proof.
  induction l as [|h t IH]; intros i x H; destruct i; cbn in *; try discriminate; [congruence|].
  f_equal. auto.
Qed.
Lemma sum_bound : forall B (f : B -> nat) (l : list B) m, (forall x, In x l -> f x <= m) -> list_sum (map f l) <= length l * m.
Proof.
  unfold list_sum. induction l as [|h t IH]; intros m H; cbn; [lia|]. assert (X := H h (or_introl eq_refl)).
  assert (Y := IH m (fun x I => H x (or_intror I))). lia.
Qed.

Lemma enter_rank : forall (l : launch A) t, t <= tiles l -> rank l (enter l t) = t * (tile l + 4).
Proof.
  intros l t T. unfold enter. destruct (t <? tiles l) eqn:E; auto. apply Nat.ltb_ge in E. cbn. f_equal. lia.
Qed.
Lemma rank_max : forall (l : launch A) p, inside l p -> rank l p <= tiles l * (tile l + 4) + 1.
Proof. intros l p I. destruct p; cbn in *; nia. Qed.

(** a move does nothing, or takes the thread further *)
Lemma step_block_rank : forall l gl gr c b i out, fine zero mac l gl gr c b ->
  step_block zero mac l c i b out = (b, out) \/
  brank l b < brank l (fst (step_block zero mac l c i b out)).
Proof.
  intros l gl gr c b i out F. unfold step_block.
  destruct (nth_error (threads b) i) as [[p s]|] eqn:Hi; [|auto].
  destruct (f_each _ _ _ _ _ _ _ F i p s Hi) as (IN & _).
  assert (UP : forall q s', rank l p < rank l q -> brank l b < brank l (mkBlock (ltile b) (rtile b) (upd (threads b) i (q, s')))).
  { intros q s' R. unfold brank. cbn [threads].
    assert (X := sum_upd _ (fun th : place * option A => rank l (fst th)) (threads b) i (p, s) (q, s') Hi). cbn [fst] in X. lia. }
  destruct p as [t|t|t|t k|t| |]; cbn [fst move].
  - right. change (brank l b < brank l (mkBlock (ltile b) (rtile b) (upd (threads b) i (LoadRight t, s)))). apply UP. cbn. lia.
  - right. change (brank l b < brank l (mkBlock (ltile b) (rtile b) (upd (threads b) i (Loaded t, s)))). apply UP. cbn. lia.
  - destruct (all_arrived _ _ _); [|auto]. right. apply UP. cbn. lia.
  - right. apply UP. cbn in IN. destruct (S k <? tile l) eqn:E; cbn; [lia|]. lia.
  - destruct (all_arrived _ _ _); [|auto]. right. apply UP. cbn in IN. rewrite enter_rank by lia. cbn. lia.
  - right. apply UP. cbn. lia.
  - auto.
Qed.

Lemma step_rank : forall l lefts rights out s who, gfine zero mac l lefts rights out s ->
  step zero mac l s who = s \/ grank l s < grank l (step zero mac l s who).
Proof.
  intros l lefts rights out s [c i] G. unfold step. cbn [fst snd].
  destruct (nth_error (blocks s) c) as [b|] eqn:Hc; [|auto].
  destruct (step_block_rank l (lefts c) (rights c) c b i (result s) (g_block _ _ _ _ _ _ _ G c b Hc)) as [E|E].
  - left. rewrite E. cbn. rewrite upd_same by auto. destruct s; reflexivity.
  - right. unfold grank. cbn [blocks].
    assert (X := sum_upd _ (brank l) (blocks s) c b (fst (step_block zero mac l c i b (result s))) Hc). lia.
Qed.

Definition bound (l : launch A) : nat := count l * (side l * side l * (tiles l * (tile l + 4) + 1)).

Lemma grank_bound : forall l lefts rights out s, gfine zero mac l lefts rights out s -> grank l s <= bound l.
Proof.
  intros l lefts rights out s G. unfold bound, grank. rewrite <- (g_count _ _ _ _ _ _ _ G).
  apply sum_bound. intros b I. apply In_nth_error in I. destruct I as [c Hc].
  assert (F := g_block _ _ _ _ _ _ _ G c b Hc). unfold brank. rewrite <- (f_threads _ _ _ _ _ _ _ F).
  apply sum_bound. intros [p v] I. apply In_nth_error in I. destruct I as [i Hi].
  destruct (f_each _ _ _ _ _ _ _ F i p v Hi) as (IN & _). now apply rank_max.
Qed.

(** every move of [sched] changes something *)
Fixpoint busy (l : launch A) (sched : list (nat * nat)) (s : state A) : Prop :=
  match sched with
  | [] => True
  | w :: r => step zero mac l s w <> s /\ busy l r (step zero mac l s w)
  end.

Lemma busy_short : forall l lefts rights out sched s, sane l -> 0 < wide l -> 0 < high l ->
  gfine zero mac l lefts rights out s -> busy l sched s -> length sched + grank l s <= bound l.
Proof.
  intros l lefts rights out sched. induction sched as [|w r IH]; intros s SN W H G B.
  - cbn. eapply grank_bound; eauto.
  - destruct B as [B1 B2]. assert (G' := gfine_step zero mac l lefts rights out s w SN W H G).
    specialize (IH _ SN W H G' B2). destruct (step_rank l lefts rights out s w G) as [E|E]; [contradiction|].
    cbn [length]. lia.
Qed.

(** some thread can always go on *)
Lemma laggard : forall (l : launch A) (ths : list (place * option A)),
  Forall (fun th => fst th = Done) ths \/
  exists j p s, nth_error ths j = Some (p, s) /\ p <> Done /\
    forall k q u, nth_error ths k = Some (q, u) -> q <> Done -> arrivals l p <= arrivals l q.
Proof.
  intros l ths. induction ths as [|[p s] t IH]; [left; constructor|].
  destruct IH as [IH|(j & q & u & H1 & H2 & H3)].
  - destruct (match p with Done => true | _ => false end) eqn:E.
    + left. constructor; auto. destruct p; cbn; congruence.
    + right. exists 0, p, s. split; auto. split; [destruct p; congruence|].
      intros k q u H N. destruct k; cbn in H; [injection H as -> ->; lia|].
      rewrite Forall_forall in IH. apply nth_error_In in H. apply IH in H. cbn in H. contradiction.
  - right. destruct (match p with Done => true | _ => false end) eqn:E.
    + exists (S j), q, u. split; auto. split; auto. intros k r v H N. destruct k; cbn in H.
      * injection H as -> ->. destruct r; discriminate || contradiction.
      * eapply H3; eauto.
    + destruct (le_lt_dec (arrivals l p) (arrivals l q)) as [L|L].
      * exists 0, p, s. split; auto. split; [destruct p; congruence|]. intros k r v H N. destruct k; cbn in H.
        -- injection H as -> ->. lia.
        -- assert (X := H3 k r v H N). lia.
      * exists (S j), q, u. split; auto. split; auto. intros k r v H N. destruct k; cbn in H.
        -- injection H as -> ->. lia.
        -- exact (H3 k r v H N).
Qed.

Lemma arrivals_max : forall (l : launch A) p, inside l p -> arrivals l p <= 2 * tiles l.
Proof. intros l p I. destruct p; cbn in *; lia. Qed.

Lemma someone : forall l gl gr c b out, fine zero mac l gl gr c b ->
  Forall (fun th => fst th = Done) (threads b) \/
  exists i, brank l b < brank l (fst (step_block zero mac l c i b out)).
Proof.
  intros l gl gr c b out F. destruct (laggard l (threads b)) as [D|(j & p & s & Hj & ND & MIN)]; [auto|].
  right. exists j. destruct (step_block_rank l gl gr c b j out F) as [E|E]; [|exact E]. exfalso.
  destruct (f_each _ _ _ _ _ _ _ F j p s Hj) as (IN & _).
  assert (AA : forall n, n <= arrivals l p -> all_arrived l b n = true).
  { intros n N. apply all_arrived_spec. intros k q u Hk.
    destruct (f_each _ _ _ _ _ _ _ F k q u Hk) as (INq & _).
    destruct (match q with Done => true | _ => false end) eqn:Q.
    - destruct q; try discriminate. assert (X := arrivals_max l p IN). cbn. cbn in X. lia.
    - assert (q <> Done) by (destruct q; congruence). assert (X := MIN k q u Hk H). lia. }
  assert (LJ : j < length (threads b)) by (apply nth_error_Some; congruence).
  assert (NE : forall q v lt rt o, q <> p -> (mkBlock lt rt (upd (threads b) j (q, v)), o) = (b, out) -> False).
  { intros q v lt rt o N X. injection X as X _. apply (f_equal (fun b => nth_error (threads b) j)) in X.
    cbn in X. rewrite nth_error_upd_eq in X by auto. congruence. }
  unfold step_block in E. rewrite Hj in E. destruct p as [t|t|t|t k|t| |]; cbn [move] in E.
  - apply NE in E; [auto|discriminate].
  - apply NE in E; [auto|discriminate].
  - rewrite AA in E by (cbn; lia). apply NE in E; [auto|discriminate].
  - apply NE in E; [auto|]. destruct (S k <? tile l); [|discriminate]. intro X. injection X. lia.
  - rewrite AA in E by (cbn; lia). apply NE in E; [auto|]. unfold enter. destruct (S t <? tiles l); discriminate.
  - apply NE in E; [auto|discriminate].
  - contradiction.
Qed.

Lemma unfinished : forall l lefts rights out s, gfine zero mac l lefts rights out s ->
  finished s \/ exists who, grank l s < grank l (step zero mac l s who).
Proof.
  intros l lefts rights out s G. unfold finished.
  assert (X : forall bs, (forall b, In b bs -> exists c, nth_error (blocks s) c = Some b) ->
    Forall (fun b => Forall (fun th => fst th = Done) (threads b)) bs \/
    exists c i b, nth_error (blocks s) c = Some b /\ brank l b < brank l (fst (step_block zero mac l c i b (result s)))).
  { induction bs as [|b t IH]; intros H; [left; constructor|].
    destruct (IH (fun b I => H b (or_intror I))) as [Y|Y]; [|auto].
    destruct (H b (or_introl eq_refl)) as [c Hc].
    destruct (someone l (lefts c) (rights c) c b (result s) (g_block _ _ _ _ _ _ _ G c b Hc)) as [D|[i D]].
    - left. constructor; auto.
    - right. exists c, i, b. auto. }
  destruct (X (blocks s)) as [Y|(c & i & b & Hc & R)]; [intros b I; now apply In_nth_error in I|auto|].
  right. exists (c, i). unfold step. cbn [fst snd]. rewrite Hc. unfold grank. cbn [blocks].
  assert (Z := sum_upd _ (brank l) (blocks s) c b (fst (step_block zero mac l c i b (result s))) Hc). lia.
Qed.

Lemma run_app : forall l a b (s : state A), run zero mac l (a ++ b) s = run zero mac l b (run zero mac l a s).
Proof. intros. unfold run. apply fold_left_app. Qed.

Lemma finishes : forall l lefts rights out n s, sane l -> 0 < wide l -> 0 < high l ->
  gfine zero mac l lefts rights out s -> bound l - grank l s <= n ->
  exists more, finished (run zero mac l more s).
Proof.
  intros l lefts rights out n. induction n as [|n IH]; intros s SN W H G N;
    (destruct (unfinished l lefts rights out s G) as [F|[w R]]; [exists []; exact F|]).
  - assert (G' := gfine_step zero mac l lefts rights out s w SN W H G).
    assert (X := grank_bound l lefts rights out _ G'). lia.
  - assert (G' := gfine_step zero mac l lefts rights out s w SN W H G).
    assert (X := grank_bound l lefts rights out _ G').
    destruct (IH (step zero mac l s w) SN W H G' ltac:(lia)) as [more M].
    exists (w :: more). exact M.
Qed.

Lemma grank_run : forall l lefts rights out sched s, sane l -> 0 < wide l -> 0 < high l ->
  gfine zero mac l lefts rights out s -> grank l s <= grank l (run zero mac l sched s).
Proof.
  intros l lefts rights out sched. induction sched as [|w r IH]; intros s SN W H G; [cbn; lia|].
  assert (G' := gfine_step zero mac l lefts rights out s w SN W H G). assert (X := IH _ SN W H G'). cbn.
  fold (run zero mac l r (step zero mac l s w)).
  destruct (step_rank l lefts rights out s w G) as [E|E]; [rewrite E in *; exact X|lia].
Qed.
Lemma sweep : forall l lefts rights out sched s who, sane l -> 0 < wide l -> 0 < high l ->
  gfine zero mac l lefts rights out s -> grank l s < grank l (step zero mac l s who) -> In who sched ->
  grank l s < grank l (run zero mac l sched s).
Proof.
  intros l lefts rights out sched. induction sched as [|w r IH]; intros s who SN W H G R [].
  - subst w. cbn. fold (run zero mac l r (step zero mac l s who)).
    assert (G' := gfine_step zero mac l lefts rights out s who SN W H G).
    assert (X := grank_run l lefts rights out r _ SN W H G'). lia.
  - cbn. fold (run zero mac l r (step zero mac l s w)).
    assert (G' := gfine_step zero mac l lefts rights out s w SN W H G).
    destruct (step_rank l lefts rights out s w G) as [E|E].
    + rewrite E. apply (IH s who); auto.
    + assert (X := grank_run l lefts rights out r _ SN W H G'). lia.
Qed.
Lemma step_outside : forall l lefts rights out s c i, gfine zero mac l lefts rights out s ->
  grank l s < grank l (step zero mac l s (c, i)) -> c < count l /\ i < side l * side l.
Proof.
  intros l lefts rights out s c i G R. unfold step in R. cbn [fst snd] in R.
  destruct (nth_error (blocks s) c) as [b|] eqn:Hc; [|lia].
  assert (LC : c < count l) by (rewrite <- (g_count _ _ _ _ _ _ _ G); apply nth_error_Some; congruence).
  split; auto. assert (F := g_block _ _ _ _ _ _ _ G c b Hc).
  destruct (nth_error (threads b) i) as [th|] eqn:Hi.
  - rewrite <- (f_threads _ _ _ _ _ _ _ F). apply nth_error_Some. congruence.
  - exfalso. unfold step_block in R. rewrite Hi in R. cbn [fst snd] in R. rewrite upd_same in R by auto.
    destruct s; exact (Nat.lt_irrefl _ R).
Qed.
Lemma rounds : forall l lefts rights out n s, sane l -> 0 < wide l -> 0 < high l ->
  gfine zero mac l lefts rights out s -> bound l - grank l s <= n ->
  finished (run zero mac l (concat (repeat (list_prod (seq 0 (count l)) (seq 0 (side l * side l))) n)) s).
Proof.
  intros l lefts rights out n. induction n as [|n IH]; intros s SN W H G N.
  - destruct (unfinished l lefts rights out s G) as [F|[w R]]; [exact F|].
    assert (G' := gfine_step zero mac l lefts rights out s w SN W H G).
    assert (X := grank_bound l lefts rights out _ G'). lia.
  - cbn [repeat concat]. rewrite run_app. set (all := list_prod _ _).
    assert (G' := gfine_run zero mac l lefts rights out all s SN W H G).
    destruct (unfinished l lefts rights out s G) as [F|[[c i] R]].
    + assert (X : forall k, finished (run zero mac l (concat (repeat all k)) (run zero mac l all s))).
      { intro k. rewrite <- run_app. generalize (all ++ concat (repeat all k)). intro sched. clear - F G.
        assert (E : run zero mac l sched s = s); [|rewrite E; exact F].
        induction sched as [|w r IH]; [reflexivity|]. cbn. fold (run zero mac l r (step zero mac l s w)).
        assert (E : step zero mac l s w = s); [|rewrite E; exact IH].
        destruct w as [c i]. unfold step. cbn [fst snd]. destruct (nth_error (blocks s) c) as [b|] eqn:Hc; [|reflexivity].
        assert (E : step_block zero mac l c i b (result s) = (b, result s)).
        { unfold step_block. destruct (nth_error (threads b) i) as [[p v]|] eqn:Hi; [|reflexivity].
          unfold finished in F. rewrite Forall_forall in F. specialize (F b (nth_error_In _ _ Hc)).
          rewrite Forall_forall in F. specialize (F _ (nth_error_In _ _ Hi)). cbn in F. subst p. reflexivity. }
        rewrite E. cbn. rewrite upd_same by auto. destruct s; reflexivity. }
      apply X.
    + destruct (step_outside l lefts rights out s c i G R) as [C I].
      assert (Y : grank l s < grank l (run zero mac l all s)).
      { apply (sweep l lefts rights out all s (c, i)); auto. apply in_prod; apply in_seq; lia. }
      apply IH; auto. lia.
Qed.

Lemma tiles_finish : forall l lefts rights out sched, sane l -> 0 < wide l -> 0 < high l ->
  (forall c, length (lefts c) = tile l * tile l) -> (forall c, length (rights c) = tile l * tile l) ->
  (exists more, finished (run zero mac l (sched ++ more) (start zero l lefts rights out))) /\
  (busy l sched (start zero l lefts rights out) -> length sched <= bound l).
Proof.
  intros l lefts rights out sched SN W H L R.
  assert (G0 := gfine_start zero mac l lefts rights out SN L R).
  split.
  - destruct (finishes l lefts rights out (bound l) (run zero mac l sched (start zero l lefts rights out)) SN W H) as [m M].
    + now apply gfine_run.
    + lia.
    + exists m. now rewrite run_app.
  - intro B. assert (X := busy_short l lefts rights out sched _ SN W H G0 B). lia.
Qed.
End P.
