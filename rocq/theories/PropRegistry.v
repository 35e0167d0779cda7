(** C53, C54, C62: the plugin registry, its file, and the kernel-name cache. *)
From Coq Require Import String Ascii.
From Coq Require Import List Arith Bool Lia.
From Verif Require Import Base EncodeModel CliModel RegistryModel RegistryProofs RegistryProofs2.
Import ListNotations.
Local Open Scope string_scope.
Local Open Scope list_scope.

(** * C53: the registry is a map by name *)

Theorem C53_names : forall os, NoDup (map e_name (reg_run os)).
Proof. exact run_names. Qed.
Print Assumptions C53_names.

(** the name an operation is about *)
Definition subject (o : reg_op) : string :=
  match o with Upsert e => e_name e | Remove n | Enable n | Disable n => n end.

(** whatever happened before: one more operation changes what is found under its
    own name, in the obvious way, and nothing else *)
Theorem C53_step : forall os o n,
  reg_find (reg_run []) n = None
  /\ (n <> subject o -> reg_find (reg_run (os ++ [o])) n = reg_find (reg_run os) n)
  /\ match o with
     | Upsert e => reg_find (reg_run (os ++ [o])) (e_name e) = Some e
     | Remove m => reg_find (reg_run (os ++ [o])) m = None
     | Enable m => reg_find (reg_run (os ++ [o])) m = option_map (set_enabled true) (reg_find (reg_run os) m)
     | Disable m => reg_find (reg_run (os ++ [o])) m = option_map (set_enabled false) (reg_find (reg_run os) m)
     end.
Proof.
  intros os o n. split; [reflexivity|]. split.
  - intro H. rewrite run_app, step_find by apply run_names.
    apply String.eqb_neq in H. destruct o; cbn in *; now rewrite H.
  - destruct o; rewrite run_app, step_find by apply run_names; cbn; now rewrite String.eqb_refl.
Qed.
Print Assumptions C53_step.

Lemma find_run : forall os2 os1 n,
  reg_find (reg_run (os1 ++ os2)) n = fold_left (fun x o => effect n o x) os2 (reg_find (reg_run os1) n).
Proof.
  induction os2 as [|o os2 IH]; intros os1 n; [now rewrite app_nil_r|].
  replace (os1 ++ o :: os2) with ((os1 ++ [o]) ++ os2) by now rewrite <- app_assoc.
  rewrite IH, run_app, step_find by apply run_names. reflexivity.
Qed.

(** the flag of [n] after [os], starting from [b] *)
Definition last_flag (n : string) (os : list reg_op) (b : bool) : bool :=
  fold_left (fun b o => match o with
                        | Enable m => if n =? m then true else b
                        | Disable m => if n =? m then false else b
                        | _ => b end) os b.
(** [o] neither replaces nor removes [n] *)
Definition keeps (n : string) (o : reg_op) : Prop :=
  match o with Upsert e => e_name e <> n | Remove m => m <> n | _ => True end.

(** the last upserted entry, with the last flag *)
Theorem C53_last : forall os1 e os2, Forall (keeps (e_name e)) os2 ->
  reg_find (reg_run (os1 ++ Upsert e :: os2)) (e_name e)
  = Some (set_enabled (last_flag (e_name e) os2 (e_enabled e)) e).
Proof.
  intros os1 e os2 H.
  replace (os1 ++ Upsert e :: os2) with ((os1 ++ [Upsert e]) ++ os2) by now rewrite <- app_assoc.
  rewrite find_run, run_app, step_find by apply run_names. cbn [effect]. rewrite String.eqb_refl.
  unfold last_flag. generalize (reg_find (reg_run os1) (e_name e)); intros _.
  assert (K : Some e = Some (set_enabled (e_enabled e) e)) by (destruct e; reflexivity). rewrite K at 1. clear K.
  generalize (e_enabled e) as b. induction H as [|o os2 Ho H IH]; intro b; cbn [fold_left]; [reflexivity|].
  destruct o as [e'|m|m|m]; cbn [effect] in *; cbn [keeps] in Ho.
  - destruct (String.eqb_spec (e_name e) (e_name e')); [congruence|]. apply IH.
  - destruct (String.eqb_spec (e_name e) m); [congruence|]. apply IH.
  - destruct (e_name e =? m); [|apply IH]. exact (IH true).
  - destruct (e_name e =? m); [|apply IH]. exact (IH false).
Qed.
Print Assumptions C53_last.

(** removed and not upserted again: not found *)
Theorem C53_removed : forall os1 n os2, (forall e, In (Upsert e) os2 -> e_name e <> n) ->
  reg_find (reg_run (os1 ++ Remove n :: os2)) n = None.
Proof.
  intros os1 n os2 H.
  replace (os1 ++ Remove n :: os2) with ((os1 ++ [Remove n]) ++ os2) by now rewrite <- app_assoc.
  rewrite find_run, run_app, step_find by apply run_names. cbn [effect]. rewrite String.eqb_refl.
  induction os2 as [|o os2 IH]; cbn [fold_left]; [reflexivity|].
  assert (E : effect n o None = None).
  { destruct o as [e|m|m|m]; cbn; try (now destruct (n =? m)).
    destruct (String.eqb_spec n (e_name e)); [|reflexivity]. exfalso. apply (H e); [now left|auto]. }
  rewrite E. apply IH. intros e He. apply H. now right.
Qed.
Print Assumptions C53_removed.

(** [remove] hands back the entry, [enable]/[disable] say whether it was there *)
Theorem C53_results : forall os n b,
  snd (reg_remove (reg_run os) n) = reg_find (reg_run os) n
  /\ (snd (reg_enable b (reg_run os) n) = true <-> exists e, reg_find (reg_run os) n = Some e).
Proof.
  intros os n b. split.
  - apply remove_spec. apply run_names.
  - destruct (enable_spec b (reg_run os) n) as (-> & _). destruct (reg_find (reg_run os) n) as [e|]; split; try discriminate; eauto.
    intros [e H]. discriminate.
Qed.
Print Assumptions C53_results.

(** a lookup finds an enabled entry of the right type that declares what is asked
    for, and fails only when there is none *)
Definition found (r : registry) (x : option entry) (P : entry -> Prop) : Prop :=
  match x with
  | Some e => reg_find r (e_name e) = Some e /\ e_enabled e = true /\ P e
  | None => forall n e, reg_find r n = Some e -> e_enabled e = true -> ~ P e
  end.
Lemma found_lookup : forall os t (f : entry -> bool) (P : entry -> Prop),
  (forall e, P e <-> e_type e = t /\ f e = true) ->
  found (reg_run os) (find f (of_type t (reg_run os))) P.
Proof.
  intros os t f P HP. pose proof (lookup_spec t f (reg_run os)) as H. unfold found.
  destruct (find f (of_type t (reg_run os))) as [e|].
  - destruct H as (H1 & H2 & H3 & H4). repeat split; auto; [|apply HP; auto].
    apply reg_find_in; auto. apply run_names.
  - intros n e F En K. apply HP in K. destruct K as [K1 K2]. apply reg_find_some in F. destruct F as [F _].
    rewrite (H e F K1 En) in K2. discriminate.
Qed.
Theorem C53_lookups : forall lower os key,
  found (reg_run os) (find_backend_by_device lower (reg_run os) key)
    (fun e => e_type e = Backend /\ exists d, In d (e_devices e) /\ lower d = lower key)
  /\ found (reg_run os) (find_model_format_by_extension lower (reg_run os) key)
    (fun e => e_type e = ModelFormat /\ exists d, In d (e_model_exts e) /\ lower (trim_dots d) = lower (trim_dots key))
  /\ found (reg_run os) (find_tensor_format_by_extension lower (reg_run os) key)
    (fun e => e_type e = TensorFormat /\ exists d, In d (e_tensor_exts e) /\ lower (trim_dots d) = lower (trim_dots key)).
Proof.
  intros lower os key. split; [|split]; apply found_lookup; intro e.
  - now rewrite existsb_key.
  - unfold norm_ext. now rewrite (existsb_key (fun d => lower (trim_dots d))).
  - unfold norm_ext. now rewrite (existsb_key (fun d => lower (trim_dots d))).
Qed.
Print Assumptions C53_lookups.

(** no dependency is reported missing exactly when all are there and enabled *)
Theorem C53_dependencies : forall os n e, reg_find (reg_run os) n = Some e ->
  (forall d, In d (check_dependencies (reg_run os) n) <->
     In d (e_deps e) /\ ~ exists q, reg_find (reg_run os) d = Some q /\ e_enabled q = true)
  /\ (check_dependencies (reg_run os) n = [] <->
      forall d, In d (e_deps e) -> exists q, reg_find (reg_run os) d = Some q /\ e_enabled q = true).
Proof.
  intros os n e H. unfold check_dependencies. rewrite H.
  assert (K : forall d, (match reg_find (reg_run os) d with Some q => negb (e_enabled q) | None => true end) = true
                        <-> ~ exists q, reg_find (reg_run os) d = Some q /\ e_enabled q = true).
  { intro d. destruct (reg_find (reg_run os) d) as [q|]; [destruct (e_enabled q) eqn:E; cbn|].
    - split; [discriminate|]. intro N. exfalso. apply N. eauto.
    - split; auto. intros _ (q' & Q1 & Q2). injection Q1 as ->. congruence.
    - split; auto. intros _ (q' & Q1 & _). discriminate. }
  split.
  - intro d. rewrite filter_In, K. reflexivity.
  - split.
    + intros F d Hd. destruct (reg_find (reg_run os) d) as [q|] eqn:Q; [destruct (e_enabled q) eqn:E|].
      * eauto.
      * exfalso. assert (I : In d []) by (rewrite <- F; apply filter_In; split; [exact Hd|]; rewrite Q, E; reflexivity). destruct I.
      * exfalso. assert (I : In d []) by (rewrite <- F; apply filter_In; split; [exact Hd|]; rewrite Q; reflexivity). destruct I.
    + intro F. induction (e_deps e) as [|d ds IH]; cbn; [reflexivity|].
      destruct (F d (or_introl eq_refl)) as (q & Q1 & Q2). rewrite Q1, Q2. cbn. apply IH. intros d' Hd'. apply F. now right.
Qed.
Print Assumptions C53_dependencies.

Definition onnx := mkEntry "onnx" ModelFormat [] [".ONNX"; "pb"] [] true ["interp"] 1.
Definition interp := mkEntry "interp" Backend ["cpu"; "CUDA"] [] [] true [] 2.
Example C53_example :
  let os := [Upsert interp; Upsert onnx; Disable "onnx"; Upsert (mkEntry "x" TensorFormat [] [] ["npy"] true [] 3);
             Remove "x"; Enable "onnx"; Disable "interp"; Enable "zzz"] in
  reg_find (reg_run os) "onnx" = Some onnx /\ reg_find (reg_run os) "x" = None
  /\ reg_find (reg_run os) "interp" = Some (set_enabled false interp)
  /\ find_model_format_by_extension to_lowercase (reg_run os) "..onnx" = Some onnx
  /\ find_backend_by_device to_lowercase (reg_run os) "cuda" = None
  /\ find_backend_by_device to_lowercase (reg_run (os ++ [Enable "interp"])) "cuda" = Some interp
  /\ check_dependencies (reg_run os) "onnx" = ["interp"]
  /\ check_dependencies (reg_run (os ++ [Enable "interp"])) "onnx" = []
  /\ Forall (keeps "onnx") [Disable "onnx"; Remove "x"; Enable "onnx"].
Proof. cbv zeta. repeat split; try reflexivity. repeat constructor; discriminate. Qed.

(** * C54: saving the registry *)

(** A crash after the first system call of [save] leaves an empty file, whatever
    was there before and whatever is being saved; and later any part of the new
    contents. *)
Theorem C54_crash_refuted : forall B (zero : B) old new rs k,
  steps zero (old, WOpen new :: rs) (Some [], WLock new :: rs)
  /\ (Forall (fun p => holds_exclusive p = false /\ holds_shared p = false) rs -> k <= length new ->
      steps zero (old, WOpen new :: rs) (Some (firstn k new), WWrite new k :: rs)).
Proof.
  intros B zero old new rs k.
  assert (O : steps zero (old, WOpen new :: rs) (Some [], WLock new :: rs)) by (apply saver_first; constructor).
  split; [exact O|]. intros Hrs Hk.
  assert (T : steps zero (old, WOpen new :: rs) (Some [], WWrite new 0 :: rs)).
  { eapply steps_trans; [exact O|]. eapply steps_trans; [apply saver_first; constructor|apply saver_first; constructor].
    apply forallb_forall. intros p Hp. rewrite Forall_forall in Hrs. destruct (Hrs p Hp) as [-> ->]. reflexivity. }
  destruct k as [|k]; [exact T|]. eapply steps_trans; [exact T|].
  replace (WWrite new (S k)) with (WWrite new (0 + S k)) by reflexivity.
  replace (firstn (S k) new) with (write_at zero [] 0 (firstn (S k) (skipn 0 new))).
  - apply saver_first. apply St_write; lia.
  - exact (write_next zero new 0 (S k) ltac:(lia)).
Qed.
Print Assumptions C54_crash_refuted.

(** A loader that holds the shared lock can read the empty file of a save that has
    not yet got the lock. *)
Theorem C54_reader_refuted : forall B (zero : B) old new,
  steps zero (Some old, [WOpen new; ROpen]) (Some [], [WLock new; RDone (Some [])]).
Proof.
  intros B zero old new.
  eapply steps_trans; [apply (steps_one zero (Some old) (Some old) [WOpen new] ROpen RLock []); constructor|].
  eapply steps_trans; [apply saver_first; constructor|].
  eapply steps_trans; [apply (steps_one zero (Some []) (Some []) [WLock new] RLock (RRead []) []); constructor; reflexivity|].
  apply (steps_one zero (Some []) (Some []) [WLock new] (RRead []) (RDone (Some [])) []). constructor. cbn. lia.
Qed.
Print Assumptions C54_reader_refuted.

(** Two saves at once: the second truncates the file while the first writes, so
    that a loader holding the lock reads the tail of the first behind zeros. *)
Theorem C54_two_savers_refuted :
  steps 0 (Some [9], [WOpen [1; 2; 3]; WOpen [4; 5]; ROpen]) (Some [0; 0; 3], [WDone; WLock [4; 5]; RDone (Some [0; 0; 3])]).
Proof.
  eapply steps_trans; [apply saver_first; constructor|].
  eapply steps_trans; [apply saver_first; constructor; reflexivity|].
  eapply steps_trans; [apply saver_first; constructor|].
  eapply steps_trans; [apply saver_first; eapply (St_write 0 _ [] [1; 2; 3] 0 2); cbn; lia|].
  eapply steps_trans; [eapply (steps_one 0 _ (Some []) [WWrite [1; 2; 3] 2] (WOpen [4; 5]) (WLock [4; 5]) [ROpen]); constructor|].
  eapply steps_trans; [apply saver_first; eapply (St_write 0 _ [] [1; 2; 3] 2 1); cbn; lia|].
  eapply steps_trans; [apply saver_first; eapply (St_close 0 _ _ [1; 2; 3])|].
  eapply steps_trans; [eapply (steps_one 0 _ _ [WDone; WLock [4; 5]] ROpen RLock []); constructor|].
  eapply steps_trans; [eapply (steps_one 0 _ _ [WDone; WLock [4; 5]] RLock (RRead []) []); constructor; reflexivity|].
  eapply steps_trans; [eapply (steps_one 0 _ _ [WDone; WLock [4; 5]] (RRead []) _ []); eapply (St_read 0 _ [0; 0; 3] [] 3); cbn; lia|].
  eapply (steps_one 0 _ _ [WDone; WLock [4; 5]] (RRead [0; 0; 3]) _ []). apply St_eof. cbn. lia.
Qed.
Print Assumptions C54_two_savers_refuted.

(** One save at a time, any number of loaders, any interleaving: the file is the
    old one or the beginning of the new one, and the new one once the save is
    done; a loader gets nothing but the old one, the beginning of the old one or
    the new one, and the old one as long as the save has not started. *)
Theorem C54_single_saver_partial : forall B (zero : B) old new n f w rs,
  steps zero (old, WOpen new :: repeat ROpen n) (f, w :: rs) ->
  (f = old \/ exists k, f = Some (firstn k new))
  /\ (w = WDone -> f = Some new)
  /\ (w = WOpen new -> f = old)
  /\ forall c, In (RDone c) rs ->
       (c = old \/ c = Some new
        \/ exists a r, c = Some a /\ match old with Some l => l | None => [] end = a ++ r)
       /\ (w = WOpen new -> c = old).
Proof.
  intros B zero old new n f w rs H.
  pose proof (inv_steps zero old new _ _ (inv_start old new n) H) as I. cbn [inv fst snd] in I.
  assert (D : forall g c, before_ok old new g (RDone c) -> c = old \/ c = Some new
        \/ exists a r, c = Some a /\ match old with Some l => l | None => [] end = a ++ r).
  { intros g c [K|[K|(a & K & [r Kr])]]; [auto|auto|]. right. right. exists a, r. auto. }
  destruct w; try contradiction.
  - destruct I as (-> & -> & F). split; [auto|]. split; [discriminate|]. split; [auto|].
    intros c Hc. rewrite Forall_forall in F. specialize (F _ Hc). cbn in F. auto.
  - destruct I as (-> & -> & F). split; [right; exists 0; reflexivity|]. split; [discriminate|]. split; [discriminate|].
    intros c Hc. rewrite Forall_forall in F. specialize (F _ Hc). split; [exact (D (Some []) c F)|discriminate].
  - destruct I as (-> & -> & F). split; [right; exists 0; reflexivity|]. split; [discriminate|]. split; [discriminate|].
    intros c Hc. rewrite Forall_forall in F. specialize (F _ Hc). split; [exact (D (Some []) c F)|discriminate].
  - destruct I as (-> & Hk & -> & F). split; [right; exists k; reflexivity|]. split; [discriminate|]. split; [discriminate|].
    intros c Hc. rewrite Forall_forall in F. specialize (F _ Hc). split; [exact (D (Some []) c F)|discriminate].
  - destruct I as (-> & F). split; [right; exists (length new); now rewrite firstn_all|]. split; [auto|]. split; [discriminate|].
    intros c Hc. rewrite Forall_forall in F. specialize (F _ Hc). split; [exact (D (Some []) c F)|discriminate].
Qed.
Print Assumptions C54_single_saver_partial.
(** Any number of savers and loaders: when no save is under way, the file is what
    one of the saves wrote, or the old one if there was none. *)
Theorem C54_quiet : forall B (zero : B) old ps0 f ps,
  Forall (fun p => p = ROpen \/ exists n, p = WOpen n) ps0 ->
  steps zero (old, ps0) (f, ps) ->
  (forall n k, ~ In (WLock n) ps /\ ~ In (WTrunc n) ps /\ ~ In (WWrite n k) ps) ->
  (f = old /\ ~ In WDone ps) \/ exists n, In (WOpen n) ps0 /\ f = Some n.
Proof.
  intros B zero old ps0 f ps H0 H Hq.
  assert (I0 : minv old (fun n => In (WOpen n) ps0) (old, ps0)).
  { rewrite Forall_forall in H0.
    assert (Z : cntx ps0 = 0).
    { unfold cntx. apply length_zero_iff_nil. destruct (filter holds_exclusive ps0) as [|q l] eqn:E; [reflexivity|].
      assert (K : In q (filter holds_exclusive ps0)) by (rewrite E; now left). apply filter_In in K. destruct K as [K1 K2].
      destruct (H0 q K1) as [->|[n ->]]; discriminate. }
    split; [rewrite Z; lia|]. split.
    - apply Forall_forall. intros p Hp. destruct (H0 p Hp) as [->|[n ->]]; cbn; auto.
    - right. right. right. left. split; [exact Z|]. split; [reflexivity|]. intro K.
      destruct (H0 _ K) as [E|[n E]]; discriminate. }
  destruct (minv_steps zero old _ _ _ I0 H) as (_ & _ & [[n J]|[[n J]|[(n & k & J & _)|[(_ & J)|(_ & n & J)]]]]).
  - destruct (Hq n 0) as (K & _). contradiction.
  - destruct (Hq n 0) as (_ & K & _). contradiction.
  - destruct (Hq n k) as (_ & _ & K). contradiction.
  - left. exact J.
  - right. exists n. exact J.
Qed.
Print Assumptions C54_quiet.
Example C54_example :
  steps 0 (Some [7; 8], WOpen [1; 2] :: repeat ROpen 1) (Some [1; 2], [WDone; RDone (Some [1; 2])]).
Proof.
  cbn [repeat].
  eapply steps_trans; [apply saver_first; constructor|].
  eapply steps_trans; [apply saver_first; constructor; reflexivity|].
  eapply steps_trans; [apply saver_first; constructor|].
  eapply steps_trans; [apply saver_first; eapply (St_write 0 _ [] [1; 2] 0 2); cbn; lia|].
  eapply steps_trans; [apply saver_first; eapply (St_close 0 _ _ [1; 2])|].
  eapply steps_trans; [eapply (steps_one 0 _ _ [WDone] ROpen RLock []); constructor|].
  eapply steps_trans; [eapply (steps_one 0 _ _ [WDone] RLock (RRead []) []); constructor; reflexivity|].
  eapply steps_trans; [eapply (steps_one 0 _ _ [WDone] (RRead []) _ []); eapply (St_read 0 _ [1; 2] [] 2); cbn; lia|].
  eapply (steps_one 0 _ _ [WDone] (RRead [1; 2]) _ []). apply St_eof. cbn. lia.
Qed.

(** * C62: the kernel-name cache *)

(** [ns] are the names looked up, one lookup each, moving in the order [sched] *)
Theorem C62_transparent : forall ns sched c ls, krun (mkK [] []) (map KStart ns) sched = (c, ls) ->
  (forall i n p, nth_error ls i = Some (KDone n p) -> nth_error ns i = Some n /\ nth_error (k_heap c) p = Some n)
  /\ (forall i j n m p q, nth_error ls i = Some (KDone n p) -> nth_error ls j = Some (KDone m q) -> (n = m <-> p = q))
  /\ NoDup (k_heap c) /\ incl (k_heap c) ns.
Proof.
  intros ns sched c ls H.
  destruct (krun_inv sched _ _ (kinv_start ns)) as [(I1 & I2 & I3 & I4) _].
  pose proof (krun_asks sched (mkK [] []) (map KStart ns)) as A.
  pose proof (krun_heap sched (mkK [] []) (map KStart ns) (fun x (Hx : In x []) => match Hx with end)) as Hh.
  rewrite H in *. cbn [fst snd] in *.
  assert (E : map asks (map KStart ns) = ns) by (rewrite map_map; cbn; apply map_id). rewrite E in *.
  assert (D : forall i n p, nth_error ls i = Some (KDone n p) -> nth_error (k_heap c) p = Some n).
  { intros i n p Hi. rewrite Forall_forall in I4. apply nth_error_In in Hi. exact (I4 _ Hi). }
  split; [|split; [|split; auto]].
  - intros i n p Hi. split; [|eapply D; eauto]. rewrite <- A, nth_error_map, Hi. reflexivity.
  - intros i j n m p q Hi Hj. apply D in Hi, Hj. split; [intros ->|intros ->; congruence].
    apply I3 in Hi, Hj. congruence.
Qed.
Print Assumptions C62_transparent.

(** a lookup is over once it has moved twice, whatever the others do *)
Theorem C62_finishes : forall ns sched i n, nth_error ns i = Some n -> 2 <= count_occ Nat.eq_dec sched i ->
  exists p, nth_error (snd (krun (mkK [] []) (map KStart ns) sched)) i = Some (KDone n p).
Proof.
  intros ns sched i n Hi Hc.
  assert (E : nth_error (map KStart ns) i = Some (KStart n)) by (rewrite nth_error_map, Hi; reflexivity).
  destruct (krun_todo sched (mkK [] []) _ i _ E) as (l' & L1 & L2). cbn [todo] in L2.
  destruct l' as [m|m|m p]; cbn [todo] in L2; try lia.
  pose proof (krun_asks sched (mkK [] []) (map KStart ns)) as A.
  apply (f_equal (fun l => nth_error l i)) in A. rewrite !nth_error_map, L1, Hi in A. cbn in A. injection A as ->.
  exists p. exact L1.
Qed.
Print Assumptions C62_finishes.

(** a copy handed out stays valid and unchanged *)
Theorem C62_stays : forall ns sched1 sched2 i n p,
  nth_error (snd (krun (mkK [] []) (map KStart ns) sched1)) i = Some (KDone n p) ->
  let (c, ls) := krun (mkK [] []) (map KStart ns) sched1 in
  nth_error (k_heap (fst (krun c ls sched2))) p = Some n.
Proof.
  intros ns sched1 sched2 i n p H.
  destruct (krun_inv sched1 _ _ (kinv_start ns)) as [I _].
  destruct (krun (mkK [] []) (map KStart ns) sched1) as [c ls]. cbn [fst snd] in *.
  destruct (krun_inv sched2 c ls I) as [_ G]. apply G. destruct I as (_ & _ & _ & I).
  rewrite Forall_forall in I. apply nth_error_In in H. exact (I _ H).
Qed.
Print Assumptions C62_stays.

(** two threads miss the same name at the same time *)
Example C62_example :
  krun (mkK [] []) (map KStart ["add_f32"; "add_f32"; "mul_f32"]) [0; 1; 2; 1; 2; 0]
  = (mkK ["add_f32"; "mul_f32"] [("mul_f32", 1); ("add_f32", 0)],
     [KDone "add_f32" 0; KDone "add_f32" 0; KDone "mul_f32" 1])
  /\ count_occ Nat.eq_dec [0; 1; 2; 1; 2; 0] 0 = 2.
Proof. split; reflexivity. Qed.
