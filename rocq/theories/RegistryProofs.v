(** Facts about the plugin registry and the kernel-name cache. *)
From Coq Require Import String Ascii.
From Coq Require Import List Arith Bool Lia.
From Verif Require Import Base CliModel RegistryModel.
Import ListNotations.
Local Open Scope string_scope.
Local Open Scope list_scope.

Lemma NoDup_snoc : forall A (l : list A) x, NoDup l -> ~ In x l -> NoDup (l ++ [x]).
Proof.
  intros A l x H Hx. induction H as [|y l Hy H IH]; cbn; [repeat constructor; auto|].
  constructor.
  - rewrite in_app_iff. cbn. intros [K|[K|[]]]; [auto|]. apply Hx. now left.
  - apply IH. intro K. apply Hx. now right.
Qed.

(** * registry *)

Definition names (r : registry) : list string := map e_name r.

Lemma reg_find_some : forall r n e, reg_find r n = Some e -> In e r /\ e_name e = n.
Proof.
  intros r n e H. apply find_some in H. destruct H as [H1 H2]. split; [exact H1|]. now apply String.eqb_eq.
Qed.
Lemma reg_find_in : forall r n e, NoDup (names r) -> In e r -> e_name e = n -> reg_find r n = Some e.
Proof.
  induction r as [|p r IH]; intros n e Hn Hi E; [destruct Hi|]. cbn. inversion Hn as [|? ? H1 H2]; subst.
  destruct (String.eqb_spec (e_name p) (e_name e)) as [E|E].
  - destruct Hi as [->|Hi]; [reflexivity|]. exfalso. apply H1. rewrite E. now apply in_map.
  - destruct Hi as [->|Hi]; [congruence|]. apply IH; auto.
Qed.
Lemma reg_find_none : forall r n, reg_find r n = None <-> ~ In n (names r).
Proof.
  induction r as [|p r IH]; intro n; cbn; [tauto|].
  destruct (String.eqb_spec (e_name p) n) as [E|E].
  - split; [discriminate|]. intro H. exfalso. apply H. now left.
  - change (find _ r) with (reg_find r n). rewrite IH. split; [intros H [K|K]; auto|auto].
Qed.

Lemma reg_modify_none : forall r n f, reg_modify r n f = None <-> ~ In n (names r).
Proof.
  induction r as [|p r IH]; intros n f; cbn; [tauto|].
  destruct (String.eqb_spec (e_name p) n) as [E|E].
  - split; [discriminate|]. intro H. exfalso. apply H. now left.
  - specialize (IH n f). destruct (reg_modify r n f); cbn.
    + split; [discriminate|]. intro H. destruct IH as [_ IH].
      assert (K : Some r0 = None) by (apply IH; intro K; apply H; now right). discriminate.
    + split; [|reflexivity]. intros _ [K|K]; [auto|]. now apply IH in K.
Qed.
Lemma reg_modify_names : forall r n f r', (forall e, e_name e = n -> e_name (f e) = n) ->
  reg_modify r n f = Some r' -> names r' = names r.
Proof.
  induction r as [|p r IH]; intros n f r' Hf H; cbn in H; [discriminate|].
  destruct (String.eqb_spec (e_name p) n) as [E|E].
  - injection H as <-. cbn. now rewrite Hf, E.
  - destruct (reg_modify r n f) as [r0|] eqn:E0; cbn in H; [|discriminate]. injection H as <-.
    cbn. f_equal. eapply IH; eauto.
Qed.
Lemma reg_modify_find : forall r n f r' m, (forall e, e_name e = n -> e_name (f e) = n) ->
  reg_modify r n f = Some r' ->
  reg_find r' m = if m =? n then option_map f (reg_find r m) else reg_find r m.
Proof.
  induction r as [|p r IH]; intros n f r' m Hf H; cbn in H; [discriminate|].
  destruct (String.eqb_spec (e_name p) n) as [E|E].
  - injection H as <-. cbn. rewrite Hf by exact E. rewrite E. rewrite (String.eqb_sym n m).
    destruct (m =? n); reflexivity.
  - destruct (reg_modify r n f) as [r0|] eqn:E0; cbn in H; [|discriminate]. injection H as <-. cbn.
    change (find _ r0) with (reg_find r0 m). change (find _ r) with (reg_find r m).
    destruct (String.eqb_spec (e_name p) m) as [E1|E1].
    + destruct (String.eqb_spec m n); [congruence|reflexivity].
    + eapply IH; eauto.
Qed.

Lemma upsert_names : forall r e, NoDup (names r) -> NoDup (names (reg_upsert r e)).
Proof.
  intros r e H. unfold reg_upsert. destruct (reg_modify r (e_name e) (fun _ => e)) as [r'|] eqn:E.
  - apply reg_modify_names in E; [now rewrite E|auto].
  - apply reg_modify_none in E. unfold names. rewrite map_app. cbn.
    apply NoDup_snoc; auto.
Qed.
Lemma find_app : forall r1 r2 n, reg_find (r1 ++ r2) n = match reg_find r1 n with Some e => Some e | None => reg_find r2 n end.
Proof.
  unfold reg_find. induction r1 as [|p r1 IH]; intros r2 n; cbn; [reflexivity|]. destruct (e_name p =? n); auto.
Qed.
Lemma upsert_find : forall r e n, reg_find (reg_upsert r e) n = if n =? e_name e then Some e else reg_find r n.
Proof.
  intros r e n. unfold reg_upsert. destruct (reg_modify r (e_name e) (fun _ => e)) as [r'|] eqn:E.
  - rewrite (reg_modify_find r (e_name e) (fun _ => e) r' n) by auto.
    destruct (String.eqb_spec n (e_name e)) as [->|K]; [|reflexivity].
    destruct (reg_find r (e_name e)) eqn:F; [reflexivity|]. apply reg_find_none in F.
    apply (proj2 (reg_modify_none r (e_name e) (fun _ => e))) in F. congruence.
  - apply reg_modify_none in E. rewrite find_app. cbn.
    destruct (String.eqb_spec n (e_name e)) as [->|K].
    + apply reg_find_none in E. now rewrite E, String.eqb_refl.
    + destruct (reg_find r n); [reflexivity|]. destruct (String.eqb_spec (e_name e) n); congruence.
Qed.

Lemma enable_spec : forall b r n,
  snd (reg_enable b r n) = (match reg_find r n with Some _ => true | None => false end)
  /\ names (fst (reg_enable b r n)) = names r
  /\ forall m, reg_find (fst (reg_enable b r n)) m = if m =? n then option_map (set_enabled b) (reg_find r m) else reg_find r m.
Proof.
  intros b r n. unfold reg_enable. destruct (reg_modify r n (set_enabled b)) as [r'|] eqn:E; cbn [fst snd].
  - split; [|split].
    + destruct (reg_find r n) eqn:F; [reflexivity|]. apply reg_find_none in F.
      apply (proj2 (reg_modify_none r n (set_enabled b))) in F. congruence.
    + apply reg_modify_names in E; auto.
    + intro m. apply (reg_modify_find r n (set_enabled b)); auto.
  - apply reg_modify_none in E. apply reg_find_none in E. rewrite E. split; [reflexivity|]. split; [reflexivity|].
    intro m. destruct (String.eqb_spec m n) as [->|K]; [|reflexivity]. now rewrite E.
Qed.

Lemma remove_cons : forall p r n, e_name p <> n ->
  fst (reg_remove (p :: r) n) = p :: fst (reg_remove r n) /\ snd (reg_remove (p :: r) n) = snd (reg_remove r n).
Proof.
  intros p r n H. unfold reg_remove. cbn [reg_position]. apply String.eqb_neq in H. rewrite H.
  destruct (reg_position r n); cbn [option_map]; split; reflexivity.
Qed.
Lemma remove_spec : forall r n, NoDup (names r) ->
  snd (reg_remove r n) = reg_find r n
  /\ NoDup (names (fst (reg_remove r n)))
  /\ (forall m, reg_find (fst (reg_remove r n)) m = if m =? n then None else reg_find r m)
  /\ incl (names (fst (reg_remove r n))) (names r).
Proof.
  induction r as [|p r IH]; intros n Hn.
  - cbn. repeat split; auto. 2: apply incl_refl. intro m. destruct (m =? n); reflexivity.
  - inversion Hn as [|? ? H1 H2]; subst. destruct (String.eqb_spec (e_name p) n) as [E|E].
    + unfold reg_remove, reg_find. cbn [reg_position find]. rewrite E, String.eqb_refl.
      cbn [firstn skipn nth_error app fst snd].
      split; [reflexivity|]. split; [exact H2|]. split.
      * intro m. rewrite (String.eqb_sym n m). destruct (String.eqb_spec m n) as [->|K]; [|reflexivity].
        rewrite E in H1. now apply reg_find_none in H1.
      * intros x Hx. now right.
    + destruct (IH n H2) as (I1 & I2 & I3 & I4). destruct (remove_cons p r n E) as [-> ->].
      split; [|split; [|split]].
      * rewrite I1. unfold reg_find. cbn [find]. apply String.eqb_neq in E. now rewrite E.
      * cbn. constructor; [|exact I2]. intro K. apply I4 in K. contradiction.
      * intro m. unfold reg_find in *. cbn [find]. destruct (String.eqb_spec (e_name p) m) as [K|K]; [|apply I3].
        destruct (String.eqb_spec m n); [congruence|reflexivity].
      * cbn. intros x [->|Hx]; [now left|]. right. now apply I4.
Qed.

Lemma step_names : forall r o, NoDup (names r) -> NoDup (names (reg_step r o)).
Proof.
  intros r [e|n|n|n] H; cbn [reg_step].
  - now apply upsert_names.
  - apply (remove_spec r n H).
  - destruct (enable_spec true r n) as (_ & -> & _). exact H.
  - destruct (enable_spec false r n) as (_ & -> & _). exact H.
Qed.
Lemma run_names_from : forall os r, NoDup (names r) -> NoDup (names (fold_left reg_step os r)).
Proof. induction os; intros r H; cbn; auto. apply IHos. now apply step_names. Qed.
Lemma run_names : forall os, NoDup (names (reg_run os)).
Proof. intro os. apply run_names_from. constructor. Qed.

(** what one operation does to the entry called [n] *)
Definition effect (n : string) (o : reg_op) (x : option entry) : option entry :=
  match o with
  | Upsert e => if n =? e_name e then Some e else x
  | Remove m => if n =? m then None else x
  | Enable m => if n =? m then option_map (set_enabled true) x else x
  | Disable m => if n =? m then option_map (set_enabled false) x else x
  end.
Lemma step_find : forall r o n, NoDup (names r) -> reg_find (reg_step r o) n = effect n o (reg_find r n).
Proof.
  intros r [e|m|m|m] n H; cbn [reg_step effect].
  - apply upsert_find.
  - destruct (remove_spec r m H) as (_ & _ & K & _). apply K.
  - destruct (enable_spec true r m) as (_ & _ & K). apply K.
  - destruct (enable_spec false r m) as (_ & _ & K). apply K.
Qed.
Lemma run_app : forall os o, reg_run (os ++ [o]) = reg_step (reg_run os) o.
Proof. intros. unfold reg_run. now rewrite fold_left_app. Qed.

(** lookups *)
Lemma of_type_in : forall t r e, In e (of_type t r) <-> In e r /\ e_type e = t /\ e_enabled e = true.
Proof.
  intros t r e. unfold of_type. rewrite filter_In, andb_true_iff.
  assert (K : ptype_eqb (e_type e) t = true <-> e_type e = t)
    by (destruct (e_type e), t; cbn; split; congruence).
  tauto.
Qed.
Lemma lookup_spec : forall t (f : entry -> bool) r,
  match find f (of_type t r) with
  | Some e => In e r /\ e_type e = t /\ e_enabled e = true /\ f e = true
  | None => forall e, In e r -> e_type e = t -> e_enabled e = true -> f e = false
  end.
Proof.
  intros t f r. destruct (find f (of_type t r)) as [e|] eqn:E.
  - apply find_some in E. destruct E as [E1 E2]. apply of_type_in in E1. tauto.
  - intros e H1 H2 H3. apply (find_none _ _ E). apply of_type_in. auto.
Qed.
Lemma existsb_key : forall (key : string -> string) x l,
  existsb (fun d => key d =? key x) l = true <-> exists d, In d l /\ key d = key x.
Proof.
  intros key x l. rewrite existsb_exists. split; intros (d & H1 & H2); exists d; (split; [exact H1|]); now apply String.eqb_eq.
Qed.
Lemma existsb_key_false : forall (key : string -> string) x l,
  existsb (fun d => key d =? key x) l = false <-> forall d, In d l -> key d <> key x.
Proof.
  intros key x l. rewrite <- Bool.not_true_iff_false, existsb_key. firstorder.
Qed.

(** * kernel names *)

(** the state of the cache and of all lookups *)
Definition kinv (c : kcache) (ls : list lookup_pc) : Prop :=
  NoDup (k_heap c)
  /\ (forall n p, In (n, p) (k_map c) -> nth_error (k_heap c) p = Some n)
  /\ (forall p n, nth_error (k_heap c) p = Some n -> kget c n = Some p)
  /\ Forall (fun l => match l with KDone n p => nth_error (k_heap c) p = Some n | _ => True end) ls.

Lemma kget_in : forall c n p, kget c n = Some p -> In (n, p) (k_map c).
Proof.
  intros c n p H. unfold kget in H. destruct (find _ (k_map c)) as [[m q]|] eqn:E; cbn in H; [|discriminate].
  injection H as ->. apply find_some in E. destruct E as [E1 E2]. cbn in E2. apply String.eqb_eq in E2. now subst.
Qed.
Lemma kget_none : forall c n p, kget c n = None -> (forall p n, nth_error (k_heap c) p = Some n -> kget c n = Some p) ->
  nth_error (k_heap c) p <> Some n.
Proof. intros c n p H K E. apply K in E. congruence. Qed.

Definition grows (c c' : kcache) : Prop := forall p n, nth_error (k_heap c) p = Some n -> nth_error (k_heap c') p = Some n.

Lemma kstep_inv : forall c l c' l' ls, kinv c ls -> kstep c l = (c', l') ->
  (match l with KDone n p => nth_error (k_heap c) p = Some n | _ => True end) ->
  kinv c' ls /\ grows c c'
  /\ match l' with KDone n p => nth_error (k_heap c') p = Some n | _ => True end.
Proof.
  intros c l c' l' ls (H1 & H2 & H3 & H4) Hs Hl. destruct l as [n|n|n p]; cbn in Hs.
  - injection Hs as <- <-. split; [repeat split; auto|]. split; [intros p m Hp; exact Hp|].
    destruct (kget c n) as [p|] eqn:E; [|exact I]. apply H2. now apply kget_in.
  - destruct (kget c n) as [p|] eqn:E; injection Hs as <- <-.
    + split; [repeat split; auto|]. split; [intros q m Hp; exact Hp|]. apply H2. now apply kget_in.
    + assert (G : grows c (mkK (k_heap c ++ [n]) ((n, length (k_heap c)) :: k_map c))).
      { intros p m Hp. cbn. rewrite nth_error_app1; [exact Hp|]. apply nth_error_Some. congruence. }
      assert (Hlast : nth_error (k_heap c ++ [n]) (length (k_heap c)) = Some n).
      { rewrite nth_error_app2 by lia. now rewrite Nat.sub_diag. }
      split; [|split; [exact G|cbn; exact Hlast]]. repeat split; cbn [k_heap k_map].
      * apply NoDup_snoc; [exact H1|]. intro K. apply In_nth_error in K. destruct K as [p K].
        now apply (kget_none c n p E H3).
      * intros m p [K|K]; [injection K as <- <-; exact Hlast|]. apply G. now apply H2.
      * intros p m Hp. unfold kget. cbn [k_map find fst].
        destruct (String.eqb_spec n m) as [->|Hne].
        -- cbn. f_equal. destruct (Nat.lt_ge_cases p (length (k_heap c))) as [Hlt|Hge].
           ++ rewrite nth_error_app1 in Hp by exact Hlt. apply H3 in Hp. congruence.
           ++ assert (p < length (k_heap c ++ [m])) by (apply nth_error_Some; congruence).
              rewrite app_length in *; cbn in *; lia.
        -- apply H3. destruct (Nat.lt_ge_cases p (length (k_heap c))) as [Hlt|Hge].
           ++ now rewrite nth_error_app1 in Hp by exact Hlt.
           ++ rewrite nth_error_app2 in Hp by exact Hge. destruct (p - length (k_heap c)) as [|q]; cbn in Hp.
              ** congruence.
              ** destruct q; discriminate.
      * eapply Forall_impl; [|exact H4]. intros [a|a|a p]; auto.
  - injection Hs as <- <-. split; [repeat split; auto|]. split; [intros q m Hp; exact Hp|exact Hl].
Qed.

Lemma Forall_upd : forall A (P : A -> Prop) l i x, Forall P l -> P x -> Forall P (upd l i x).
Proof.
  induction l as [|h t IH]; intros i x H Hx; [destruct i; constructor|].
  inversion H; subst. destruct i; cbn; constructor; auto.
Qed.
Lemma krun_inv : forall sched c ls, kinv c ls ->
  kinv (fst (krun c ls sched)) (snd (krun c ls sched)) /\ grows c (fst (krun c ls sched)).
Proof.
  induction sched as [|i sched IH]; intros c ls H; cbn [krun].
  - split; [exact H|]. intros p n E; exact E.
  - destruct (nth_error ls i) as [l|] eqn:E; [|now apply IH].
    destruct (kstep c l) as [c' l'] eqn:Es.
    assert (Hl : match l with KDone n p => nth_error (k_heap c) p = Some n | _ => True end).
    { destruct H as (_ & _ & _ & H). rewrite Forall_forall in H. apply (H l). now apply nth_error_In in E. }
    destruct (kstep_inv c l c' l' ls H Es Hl) as (Hi & G & Hl').
    assert (Hi' : kinv c' (upd ls i l')).
    { destruct Hi as (A & B & C & D). repeat split; auto. apply Forall_upd; auto. }
    destruct (IH c' (upd ls i l') Hi') as [J1 J2]. split; [exact J1|].
    intros p n K. apply J2. now apply G.
Qed.
Lemma kinv_start : forall ns, kinv (mkK [] []) (map KStart ns).
Proof.
  intro ns. repeat split; cbn.
  - constructor.
  - intros n p [].
  - intros p n H. destruct p; discriminate.
  - apply Forall_forall. intros l Hl. apply in_map_iff in Hl. destruct Hl as (n & <- & _). exact I.
Qed.

(** the name a lookup asks for *)
Definition asks (l : lookup_pc) : string := match l with KStart n | KMiss n => n | KDone n _ => n end.
Lemma kstep_asks : forall c l, asks (snd (kstep c l)) = asks l.
Proof. intros c [n|n|n p]; cbn; try destruct (kget c n); reflexivity. Qed.
Lemma map_upd : forall A B (f : A -> B) l i x, map f (upd l i x) = upd (map f l) i (f x).
Proof. induction l as [|h t IH]; intros [|i] x; cbn; auto. now rewrite IH. Qed.
Lemma upd_same : forall A (l : list A) i x, nth_error l i = Some x -> upd l i x = l.
Proof. induction l as [|h t IH]; intros [|i] x H; cbn in *; try congruence. now rewrite IH. Qed.
Lemma krun_asks : forall sched c ls, map asks (snd (krun c ls sched)) = map asks ls.
Proof.
  induction sched as [|i sched IH]; intros c ls; cbn [krun]; [reflexivity|].
  destruct (nth_error ls i) as [l|] eqn:E; [|apply IH].
  pose proof (kstep_asks c l) as K. destruct (kstep c l) as [c' l']. rewrite IH, map_upd. cbn [snd] in K. rewrite K.
  apply upd_same. rewrite nth_error_map, E. reflexivity.
Qed.

(** every string leaked was asked for *)
Lemma krun_heap : forall sched c ls, incl (k_heap c) (map asks ls) ->
  incl (k_heap (fst (krun c ls sched))) (map asks ls).
Proof.
  induction sched as [|i sched IH]; intros c ls H; cbn [krun]; [exact H|].
  destruct (nth_error ls i) as [l|] eqn:E; [|now apply IH].
  pose proof (kstep_asks c l) as K. destruct (kstep c l) as [c' l'] eqn:Es. cbn [snd] in K.
  assert (M : map asks (upd ls i l') = map asks ls).
  { rewrite map_upd, K. apply upd_same. now rewrite nth_error_map, E. }
  rewrite <- M. apply IH. rewrite M.
  destruct l as [n|n|n p]; cbn in Es.
  - injection Es as <- _. exact H.
  - destruct (kget c n); injection Es as <- _; [exact H|]. cbn. intros x Hx. apply in_app_iff in Hx.
    destruct Hx as [Hx|[<-|[]]]; [now apply H|]. apply in_map_iff. exists (KMiss n). split; [reflexivity|].
    now apply nth_error_In in E.
  - injection Es as <- _. exact H.
Qed.

(** a lookup that has moved twice is done *)
Definition todo (l : lookup_pc) : nat := match l with KStart _ => 2 | KMiss _ => 1 | KDone _ _ => 0 end.
Lemma kstep_todo : forall c l, todo (snd (kstep c l)) <= todo l - 1.
Proof. intros c [n|n|n p]; cbn; try destruct (kget c n); cbn; lia. Qed.
Lemma krun_todo : forall sched c ls i l, nth_error ls i = Some l ->
  exists l', nth_error (snd (krun c ls sched)) i = Some l' /\ todo l' <= todo l - count_occ Nat.eq_dec sched i.
Proof.
  induction sched as [|j sched IH]; intros c ls i l E; cbn [krun count_occ].
  - exists l. cbn. split; [exact E|lia].
  - destruct (nth_error ls j) as [lj|] eqn:Ej.
    + pose proof (kstep_todo c lj) as T. destruct (kstep c lj) as [c' lj'] eqn:Es. cbn [snd] in T.
      destruct (Nat.eq_dec j i) as [->|Hne].
      * assert (lj = l) by congruence. subst lj.
        destruct (IH c' (upd ls i lj') i lj') as (l' & L1 & L2).
        { apply nth_error_upd_eq. apply nth_error_Some. congruence. }
        exists l'. split; [exact L1|]. lia.
      * destruct (IH c' (upd ls j lj') i l) as (l' & L1 & L2).
        { rewrite nth_error_upd_neq by exact Hne. exact E. }
        exists l'. split; [exact L1|exact L2].
    + destruct (Nat.eq_dec j i) as [->|Hne]; [congruence|]. apply IH. exact E.
Qed.
