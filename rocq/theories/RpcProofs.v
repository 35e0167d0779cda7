From Coq Require Import List ZArith String Bool Lia Sorting.Sorted.
From Coq Require Import ZifyBool Logic.FinFun.
From Verif Require Import Base RpcModel.
Import ListNotations.
Local Open Scope string_scope.
Local Open Scope list_scope.

Lemma id_eqb_eq : forall a b, id_eqb a b = true <-> a = b.
Proof.
  intros [x|x] [y|y]; cbn; split; intro H; try discriminate; try congruence.
  - apply Z.eqb_eq in H; congruence.
  - inversion H; apply Z.eqb_refl.
  - apply String.eqb_eq in H; congruence.
  - inversion H; apply String.eqb_refl.
Qed.

Lemma field_has_key : forall k kvs v, field k kvs = Some (Some v) -> has_key k (JObj kvs) = true.
Proof.
  intros k kvs v H. unfold field in H. cbn. apply existsb_exists.
  destruct (filter _ kvs) as [|[k' v'] [|? ?]] eqn:E; try discriminate.
  exists (k', v'). apply (filter_In (fun p => fst p =? k)). rewrite E. left; reflexivity.
Qed.

Lemma de_response_spec : forall j r, de_response j = Some r ->
  exists kvs i rv ev t, j = JObj kvs
    /\ field "jsonrpc" kvs = Some (Some (JStr t))
    /\ field "id" kvs = Some (Some i) /\ de_id i = Some (rs_id r)
    /\ field "result" kvs = Some rv /\ rs_result r = opt_value rv
    /\ field "error" kvs = Some ev
    /\ match rs_error r with
       | None => opt_value ev = None
       | Some e => exists ej, opt_value ev = Some ej /\ de_error ej = Some e
       end.
Proof.
  intros j r H. destruct j; try discriminate. cbn in H.
  destruct (field "jsonrpc" kvs) as [[[]|]|] eqn:E0; try discriminate.
  destruct (field "result" kvs) as [rv|] eqn:E1; try discriminate.
  destruct (field "error" kvs) as [ev|] eqn:E2; try discriminate.
  destruct (field "id" kvs) as [[i|]|] eqn:E3; try discriminate.
  destruct (de_id i) as [i'|] eqn:E4; try discriminate.
  exists kvs, i, rv, ev, s.
  destruct (opt_value ev) as [ej|] eqn:E5.
  - destruct (de_error ej) as [e|] eqn:E6; try discriminate. cbn in H. inversion H; subst; cbn.
    repeat split; auto. exists ej; auto.
  - inversion H; subst; cbn. repeat split; auto.
Qed.

Section C.
Variable parse : string -> option json.
Context {R : Type}.
Variable decode : json -> option R.

Lemma is_note_spec : forall l, is_note parse l = true <->
  l <> "" /\ exists j, parse l = Some j /\ has_key "id" j = false.
Proof.
  intro l. unfold is_note. destruct (String.eqb_spec l ""); cbn.
  - split; [discriminate|]. intros [H _]; congruence.
  - destruct (parse l) as [j|]; [destruct (has_key "id" j) eqn:E|]; cbn; split; intro H; try discriminate.
    + destruct H as [_ (j' & H1 & H2)]; inversion H1; subst; congruence.
    + split; auto; exists j; auto.
    + reflexivity.
    + destruct H as [_ (j' & H1 & H2)]; discriminate.
Qed.

Lemma call_loop_note : forall id l r, is_note parse l = true ->
  call_loop parse decode id (ELine l :: r) = call_loop parse decode id r.
Proof.
  intros id l r H. apply is_note_spec in H. destruct H as (Hl & j & Hp & Hj).
  cbn. apply String.eqb_neq in Hl. rewrite Hl, Hp, Hj. reflexivity.
Qed.

Lemma call_loop_notes : forall id ns r, Forall (fun l => is_note parse l = true) ns ->
  call_loop parse decode id (map ELine ns ++ r) = call_loop parse decode id r.
Proof.
  intros id ns r H. induction H; [reflexivity|].
  cbn [map app]. rewrite call_loop_note; auto.
Qed.

(** the line [l] is a response with the integer id [n], no error and result [v] *)
Definition good_response (l : string) (n : Z) (v : json) : Prop :=
  l <> "" /\ exists kvs t e, parse l = Some (JObj kvs)
    /\ field "jsonrpc" kvs = Some (Some (JStr t))
    /\ field "id" kvs = Some (Some (JInt n))
    /\ field "result" kvs = Some (Some v) /\ v <> JNull
    /\ field "error" kvs = Some e /\ (e = None \/ e = Some JNull).

Lemma call_loop_ok : forall n evs r b rest,
  call_loop parse decode (IdNum n) evs = (COk r, b, rest) <->
  b = true /\ exists ns l v, evs = map ELine ns ++ ELine l :: rest
    /\ Forall (fun x => is_note parse x = true) ns
    /\ good_response l n v /\ in_i64 n = true /\ decode v = Some r.
Proof.
  intros n evs r b rest. split.
  - induction evs as [|e evs IH]; intro H; [discriminate|].
    destruct e as [l| | |]; try discriminate.
    cbn in H. destruct (String.eqb_spec l "") as [E|E]; [discriminate|].
    destruct (parse l) as [j|] eqn:Ep; [|discriminate].
    destruct (has_key "id" j) eqn:Ek; cbn in H.
    + destruct (de_response j) as [rs|] eqn:Er; [|discriminate].
      destruct (id_eqb (rs_id rs) (IdNum n)) eqn:Ei; cbn in H; [|discriminate].
      apply id_eqb_eq in Ei.
      apply de_response_spec in Er. destruct Er as (kvs & i & rv & ev & t & -> & Hj & Hi & Hdi & Hrv & Hr & Hev & He).
      destruct (rs_error rs); [discriminate|].
      destruct (rs_result rs) as [v|]; [|discriminate].
      destruct (decode v) as [x|] eqn:Ed; [|discriminate].
      inversion H; subst; clear H. split; [reflexivity|].
      exists [], l, v. split; [reflexivity|]. split; [constructor|].
      rewrite Ei in Hdi. destruct i; cbn in Hdi; try discriminate.
      destruct (in_i64 n0) eqn:En; [|discriminate]. inversion Hdi; subst.
      split; [|auto]. split; [exact E|]. exists kvs, t, ev.
      repeat split; auto.
      * destruct rv as [[]|]; cbn in Hr; try discriminate; inversion Hr; subst; auto.
      * destruct rv as [[]|]; cbn in Hr; try discriminate; inversion Hr; discriminate.
      * destruct ev as [[]|]; cbn in He; try discriminate; auto.
    + specialize (IH H). destruct IH as (Hb & ns & l' & v & -> & Hn & Hg & Hin & Hd).
      split; [exact Hb|]. exists (l :: ns), l', v. split; [reflexivity|].
      split; [|auto]. constructor; [|exact Hn].
      apply is_note_spec. split; [exact E|]. exists j; auto.
  - intros (-> & ns & l & v & -> & Hn & Hg & Hin & Hd).
    rewrite call_loop_notes by exact Hn.
    destruct Hg as (Hl & kvs & t & e & Hp & Hj & Hi & Hr & Hv & He & He').
    apply String.eqb_neq in Hl. cbn [call_loop]. rewrite Hl, Hp.
    rewrite (field_has_key _ _ _ Hi). cbn [negb].
    assert (D : de_response (JObj kvs) = Some (mkResp (Some v) None (IdNum n))).
    { cbn [de_response]. rewrite Hj, Hr, He, Hi. cbn [de_id]. rewrite Hin.
      assert (opt_value e = None) as -> by (destruct He' as [->| ->]; reflexivity).
      f_equal. f_equal. destruct v; try reflexivity. congruence. }
    rewrite D. cbn [rs_id id_eqb rs_error rs_result]. rewrite Z.eqb_refl. cbn [negb].
    rewrite Hd. reflexivity.
Qed.
End C.

(* ---------- ids ---------- *)

Definition id_num (r : request) : Z := match rq_id r with IdNum n => n | IdStr _ => 0%Z end.

Lemma wrap64_id : forall n, (- 2 ^ 63 <= n < 2 ^ 63)%Z -> wrap64 n = n.
Proof.
  intros n H. unfold wrap64. rewrite Z.mod_small by lia. lia.
Qed.

Definition ids_inv (c : client) : Prop :=
  (1 <= next_id c)%Z
  /\ Forall (fun r => rq_id r = IdNum (id_num r) /\ 1 <= id_num r < next_id c)%Z (sent c)
  /\ StronglySorted Z.lt (map id_num (sent c)).

Lemma sorted_snoc : forall l x, StronglySorted Z.lt l -> Forall (fun y => (y < x)%Z) l ->
  StronglySorted Z.lt (l ++ [x]).
Proof.
  intros l x H. induction H; intro F; cbn; [repeat constructor|].
  inversion F; subst. constructor; auto. apply Forall_app; split; auto.
Qed.

Lemma ids_inv_send : forall c c' m p, ids_inv c -> (next_id c < 2 ^ 63 - 1)%Z ->
  next_id c' = wrap64 (next_id c + 1) -> sent c' = sent c ++ [mkReq m p (IdNum (next_id c))] ->
  ids_inv c'.
Proof.
  intros c c' m p (H1 & H2 & H3) Hb En Es. rewrite wrap64_id in En by lia.
  unfold ids_inv. rewrite En, Es. split; [lia|]. split.
  - apply Forall_app; split.
    + eapply Forall_impl; [|exact H2]. cbv beta. intros r [? ?]; split; [auto|lia].
    + constructor; [|constructor]. cbn. split; [reflexivity|lia].
  - rewrite map_app. apply sorted_snoc; [exact H3|]. apply Forall_map.
    eapply Forall_impl; [|exact H2]. cbn. intros; lia.
Qed.

Lemma c_step_ids : forall parse o c, ids_inv c -> (next_id c < 2 ^ 63 - 1)%Z ->
  ids_inv (c_step parse c o) /\ (next_id (c_step parse c o) <= next_id c + 1)%Z.
Proof.
  intros parse o c H Hb. pose proof H as [H1 _].
  destruct o as [m p evs| |]; cbn [c_step].
  - unfold call. destruct (call_loop parse _ _ evs) as [[x cl] rest]. cbn [fst snd].
    split; [|cbn; rewrite wrap64_id; lia].
    eapply ids_inv_send with (m := m) (p := p); eauto; reflexivity.
  - unfold cancel. destruct (current c =? 0)%Z; [split; [auto|lia]|].
    split; [|cbn; rewrite wrap64_id; lia].
    eapply ids_inv_send; [exact H|exact Hb|reflexivity|reflexivity].
  - split; [|cbn; rewrite wrap64_id; lia].
    eapply ids_inv_send; [exact H|exact Hb|reflexivity|reflexivity].
Qed.

Lemma c_run_ids : forall parse os c, ids_inv c ->
  (next_id c + Z.of_nat (List.length os) < 2 ^ 63)%Z -> ids_inv (c_run parse os c).
Proof.
  intros parse os. induction os as [|o os IH]; intros c H Hb; [exact H|].
  cbn [c_run fold_left]. cbn [List.length] in Hb.
  destruct (c_step_ids parse o c H ltac:(lia)) as [H' Hn].
  apply IH; [exact H'|lia].
Qed.

Lemma sorted_nodup : forall l, StronglySorted Z.lt l -> NoDup l.
Proof.
  intros l H. induction H; constructor; auto.
  intro HI. rewrite Forall_forall in H0. specialize (H0 _ HI). lia.
Qed.

Lemma ids_nodup : forall c, ids_inv c -> NoDup (map rq_id (sent c)).
Proof.
  intros c (_ & H2 & H3).
  assert (E : map rq_id (sent c) = map IdNum (map id_num (sent c))).
  { rewrite map_map. apply map_ext_in. intros r Hr. rewrite Forall_forall in H2. apply H2; auto. }
  rewrite E. apply FinFun.Injective_map_NoDup; [intros a b; congruence|].
  apply sorted_nodup; auto.
Qed.

(* ---------- staying in step ---------- *)

Section Sync.
Variable parse : string -> option json.
Context {R : Type}.
Variable decode : json -> option R.

(** the ids of the responses among some lines, in order *)
Definition ids_of (ls : list string) : list request_id :=
  flat_map (fun l => match parse l with
                     | Some j => match de_response j with Some r => [rs_id r] | None => [] end
                     | None => [] end) ls.
(** a line of a well-behaved plugin: a notification or a response *)
Definition well_formed (l : string) : Prop :=
  l <> "" /\ exists j, parse l = Some j /\ (has_key "id" j = false \/ exists r, de_response j = Some r).

Lemma de_response_has_id : forall j r, de_response j = Some r -> has_key "id" j = true.
Proof.
  intros j r H. apply de_response_spec in H. destruct H as (kvs & i & rv & ev & t & -> & _ & Hi & _).
  eapply field_has_key; eauto.
Qed.

Lemma ids_of_app : forall a b, ids_of (a ++ b) = ids_of a ++ ids_of b.
Proof. intros. apply flat_map_app. Qed.

Lemma wf_note : forall l, well_formed l -> ids_of [l] = [] -> is_note parse l = true.
Proof.
  intros l (Hl & j & Hp & H) Hi. apply is_note_spec. split; [exact Hl|]. exists j; split; [exact Hp|].
  destruct H as [H|[r Hr]]; [exact H|]. cbn in Hi. rewrite Hp, Hr in Hi. discriminate.
Qed.

Lemma wf_notes : forall ls, Forall well_formed ls -> ids_of ls = [] ->
  Forall (fun l => is_note parse l = true) ls.
Proof.
  intros ls H. induction H as [|l ls Hl H IH]; intro E; constructor.
  - apply wf_note; auto. change (l :: ls) with ([l] ++ ls) in E. rewrite ids_of_app in E.
    apply app_eq_nil in E. tauto.
  - apply IH. change (l :: ls) with ([l] ++ ls) in E. rewrite ids_of_app in E.
    apply app_eq_nil in E. tauto.
Qed.

(** the lines up to the first response *)
Lemma first_response : forall ls i is, Forall well_formed ls -> ids_of ls = i :: is ->
  exists ns l rest j r, ls = ns ++ l :: rest
    /\ Forall (fun x => is_note parse x = true) ns /\ well_formed l
    /\ parse l = Some j /\ de_response j = Some r /\ rs_id r = i /\ ids_of rest = is.
Proof.
  intros ls i is H. induction H as [|l ls Hl H IH]; intro E; [discriminate|].
  destruct (ids_of [l]) as [|i' [|? ?]] eqn:El.
  - change (l :: ls) with ([l] ++ ls) in E. rewrite ids_of_app, El in E. cbn [app] in E.
    destruct (IH E) as (ns & l' & rest & j & r & -> & Hn & Hrest).
    exists (l :: ns), l', rest, j, r. split; [reflexivity|]. split; [|exact Hrest].
    constructor; auto. apply wf_note; auto.
  - pose proof Hl as (Hne & j & Hp & Hj). cbn in El. rewrite Hp in El.
    destruct (de_response j) as [r|] eqn:Er; [|discriminate]. cbn in El. inversion El; subst i'.
    cbn in E. rewrite Hp, Er in E. cbn in E. inversion E; subst.
    exists [], l, ls, j, r. split; [reflexivity|]. split; [constructor|]. split; [exact Hl|]. auto.
  - cbn in El. destruct (parse l) as [j|]; [|discriminate].
    destruct (de_response j); discriminate.
Qed.

Lemma lines_of_map : forall ls e, lines_of (map ELine ls ++ [e]) = ls ++ lines_of [e].
Proof.
  intros ls e. unfold lines_of. rewrite flat_map_app. f_equal.
  induction ls; cbn; congruence.
Qed.

(** a call facing a response to another request first *)
Lemma call_loop_wrong : forall id ns l rest evs j r,
  Forall (fun x => is_note parse x = true) ns -> well_formed l ->
  parse l = Some j -> de_response j = Some r -> rs_id r <> id ->
  evs = map ELine (ns ++ l :: rest) ++ [ETimeout] ->
  call_loop parse decode id evs = (CErr CIdMismatch, true, map ELine rest ++ [ETimeout]).
Proof.
  intros id ns l rest evs j r Hn Hl Hp Hr Hid ->.
  rewrite map_app, <- app_assoc, call_loop_notes by exact Hn.
  cbn [map app call_loop].
  destruct Hl as [Hl _]. apply String.eqb_neq in Hl. rewrite Hl, Hp, (de_response_has_id _ _ Hr), Hr.
  cbn [negb]. destruct (id_eqb (rs_id r) id) eqn:E; [apply id_eqb_eq in E; contradiction|reflexivity].
Qed.

Lemma call_loop_timeout : forall id ns, Forall (fun x => is_note parse x = true) ns ->
  call_loop parse decode id (map ELine ns ++ [ETimeout]) = (CErr CTimeout, false, []).
Proof. intros id ns Hn. rewrite call_loop_notes by exact Hn. reflexivity. Qed.

(** what a call does to a channel of well-formed lines *)
Lemma sys_call_cases : forall c chan m p n new k x c' chan',
  Forall well_formed (chan ++ new) ->
  sys_call parse decode c chan m p n new k = (x, c', chan') ->
  next_id c' = next_id (Nat.iter n cancel (start_call c m p))
  /\ ((x = CErr CTimeout /\ chan' = skipn k (chan ++ new) /\ ids_of chan' = ids_of (chan ++ new))
      \/ (exists i is, ids_of (chan ++ new) = i :: is /\ ids_of chan' = is /\ Forall well_formed chan'
            /\ (i <> IdNum (next_id c) -> x = CErr CIdMismatch))).
Proof.
  intros c chan m p n new k x c' chan' Hwf H. unfold sys_call in H.
  set (w := chan ++ new) in *.
  assert (Hw : Forall well_formed (firstn k w) /\ Forall well_formed (skipn k w)).
  { rewrite <- (firstn_skipn k w) in Hwf. apply Forall_app in Hwf. exact Hwf. }
  destruct Hw as [Hw1 Hw2].
  assert (Es : ids_of w = ids_of (firstn k w) ++ ids_of (skipn k w)).
  { rewrite <- ids_of_app, firstn_skipn. reflexivity. }
  destruct (ids_of (firstn k w)) as [|i is] eqn:E.
  - rewrite call_loop_timeout in H by (apply wf_notes; auto).
    inversion H; subst; clear H. split; [reflexivity|]. left. cbn [lines_of flat_map app].
    cbn [app] in Es. auto.
  - destruct (first_response _ _ _ Hw1 E) as (ns & l & rest & j & r & Eq & Hn & Hl & Hp & Hr & Hi & His).
    destruct (id_eqb i (IdNum (next_id c))) eqn:Eid.
    + apply id_eqb_eq in Eid. rewrite Eq in H.
      rewrite map_app, <- app_assoc, call_loop_notes in H by exact Hn.
      cbn [map app call_loop] in H.
      pose proof Hl as [Hl' _]. apply String.eqb_neq in Hl'.
      rewrite Hl', Hp, (de_response_has_id _ _ Hr), Hr in H. cbn [negb] in H.
      assert (Eb : id_eqb (rs_id r) (IdNum (next_id c)) = true) by (apply id_eqb_eq; congruence).
      rewrite Eb in H. cbn [negb] in H.
      assert (Hx : exists y, (y, mkC (next_id (Nat.iter n cancel (start_call c m p))) 0 (sent (Nat.iter n cancel (start_call c m p))),
                  lines_of (map ELine rest ++ [ETimeout]) ++ skipn k w) = (x, c', chan')).
      { destruct (rs_error r); [eexists; exact H|].
        destruct (rs_result r); [|eexists; exact H].
        destruct (decode j0); eexists; exact H. }
      destruct Hx as [y Hx]. inversion Hx; subst; clear Hx H. split; [reflexivity|]. right.
      exists (rs_id r), (ids_of rest ++ ids_of (skipn k w)).
      rewrite lines_of_map. cbn [lines_of flat_map]. rewrite app_nil_r, ids_of_app.
      split; [exact Es|]. split; [reflexivity|]. split.
      * apply Forall_app; split; auto. rewrite Eq in Hw1. apply Forall_app in Hw1.
        destruct Hw1 as [_ Hw1]. inversion Hw1; auto.
      * intro C. congruence.
    + rewrite (call_loop_wrong _ ns l rest _ j r Hn Hl Hp Hr) in H.
      2:{ intro C. rewrite Hi in C. rewrite C in Eid. cbn in Eid. rewrite Z.eqb_refl in Eid. discriminate. }
      2:{ rewrite Eq. reflexivity. }
      inversion H; subst; clear H. split; [reflexivity|]. right.
      exists (rs_id r), (ids_of rest ++ ids_of (skipn k w)).
      rewrite lines_of_map. cbn [lines_of flat_map]. rewrite app_nil_r, ids_of_app.
      split; [exact Es|]. split; [reflexivity|]. split.
      * apply Forall_app; split; auto. rewrite Eq in Hw1. apply Forall_app in Hw1.
        destruct Hw1 as [_ Hw1]. inversion Hw1; auto.
      * reflexivity.
Qed.

Lemma iter_cancel : forall n c m p, (1 <= next_id c)%Z -> (next_id c + 1 + Z.of_nat n < 2 ^ 63)%Z ->
  let c1 := Nat.iter n cancel (start_call c m p) in
  next_id c1 = (next_id c + 1 + Z.of_nat n)%Z /\ current c1 = next_id c.
Proof.
  intros n c m p H0. induction n as [|n IH]; intro H.
  - cbn. rewrite wrap64_id by lia. split; [lia|reflexivity].
  - destruct (IH ltac:(lia)) as [E1 E2]. cbv zeta.
    change (Nat.iter (S n) cancel (start_call c m p)) with (cancel (Nat.iter n cancel (start_call c m p))).
    set (c1 := Nat.iter n cancel (start_call c m p)) in *. clearbody c1.
    unfold cancel. rewrite E2. destruct (Z.eqb_spec (next_id c) 0); [lia|].
    cbn [next_id current]. rewrite E1, wrap64_id by lia. split; [lia|reflexivity].
Qed.

(** the ids a call uses: its own and one per cancel *)
Definition call_ids (c : client) (n : nat) : list request_id :=
  map (fun i => IdNum (next_id c + Z.of_nat i)) (seq 0 (S n)).

(** an answer to an old request is waiting *)
Definition stale (c : client) (chan : list string) : Prop :=
  Forall well_formed chan /\ ids_of chan <> []
  /\ Forall (fun i => exists z, i = IdNum z /\ (z < next_id c)%Z) (ids_of chan).

Lemma call_ids_lt : forall c n, Forall (fun i => exists z, i = IdNum z /\ (z < next_id c + 1 + Z.of_nat n)%Z) (call_ids c n).
Proof.
  intros c n. apply Forall_map. apply Forall_forall. intros i Hi. apply in_seq in Hi.
  eexists; split; [reflexivity|lia].
Qed.

Lemma skipn_wf : forall k ls, Forall well_formed ls -> Forall well_formed (skipn k ls).
Proof.
  intros k ls H. rewrite <- (firstn_skipn k ls) in H. apply Forall_app in H. tauto.
Qed.

Lemma stale_call : forall c chan m p n new k x c' chan',
  (1 <= next_id c)%Z -> (next_id c + 1 + Z.of_nat n < 2 ^ 63)%Z ->
  stale c chan -> Forall well_formed new -> ids_of new = call_ids c n ->
  sys_call parse decode c chan m p n new k = (x, c', chan') ->
  (x = CErr CIdMismatch \/ x = CErr CTimeout) /\ stale c' chan'
  /\ next_id c' = (next_id c + 1 + Z.of_nat n)%Z.
Proof.
  intros c chan m p n new k x c' chan' H1 Hb (Hs1 & Hs2 & Hs3) Hwf Hids H.
  assert (Hw : Forall well_formed (chan ++ new)) by (apply Forall_app; auto).
  destruct (sys_call_cases _ _ _ _ _ _ _ _ _ _ Hw H) as [En Hc].
  destruct (iter_cancel n c m p H1 Hb) as [En' _]. cbv zeta in En'. rewrite En' in En.
  assert (Hlt : Forall (fun i => exists z, i = IdNum z /\ (z < next_id c + 1 + Z.of_nat n)%Z) (ids_of (chan ++ new))).
  { rewrite ids_of_app. apply Forall_app; split.
    - eapply Forall_impl; [|exact Hs3]. cbv beta. intros i (z & -> & Hz). exists z; split; [reflexivity|lia].
    - rewrite Hids. apply call_ids_lt. }
  rewrite ids_of_app in Hc, Hlt. destruct (ids_of chan) as [|i0 is0] eqn:E0; [congruence|].
  destruct Hc as [(-> & -> & Ei)|(i & is & Ei & Ei' & Hwf' & Hx)].
  - split; [auto|]. split; [|exact En]. unfold stale.
    split; [apply skipn_wf; auto|]. rewrite Ei. split; [discriminate|].
    rewrite En. exact Hlt.
  - cbn [app] in Ei. injection Ei as Ei1 Ei2. subst i. rewrite <- Ei2 in Ei'. split.
    + left. apply Hx. inversion Hs3 as [|? ? (z & -> & Hz) ?]; subst. intro C. inversion C. lia.
    + split; [|exact En]. unfold stale. split; [exact Hwf'|]. rewrite Ei'. split.
      * rewrite Hids. destruct is0; discriminate.
      * rewrite En. cbn [app] in Hlt. inversion Hlt; auto.
Qed.

(** [cancel] after a call has returned, answered by the plugin with [new] *)
Lemma stale_cancel : forall c chan new,
  (1 <= next_id c)%Z -> (next_id c + 1 < 2 ^ 63)%Z -> stale c chan -> Forall well_formed new ->
  ids_of new = (if (current c =? 0)%Z then [] else [IdNum (next_id c)]) ->
  stale (cancel c) (chan ++ new) /\ (next_id c <= next_id (cancel c) <= next_id c + 1)%Z.
Proof.
  intros c chan new H1 Hb (Hs1 & Hs2 & Hs3) Hwf Hids.
  assert (E : next_id (cancel c) = (if current c =? 0 then next_id c else next_id c + 1)%Z).
  { unfold cancel. destruct (current c =? 0)%Z; [reflexivity|]. cbn. apply wrap64_id. lia. }
  split; [|rewrite E; destruct (current c =? 0)%Z; lia].
  split; [apply Forall_app; auto|]. rewrite ids_of_app. split.
  - destruct (ids_of chan); [congruence|discriminate].
  - apply Forall_app; split.
    + eapply Forall_impl; [|exact Hs3]. cbv beta. intros i (z & -> & Hz). exists z; split; [reflexivity|].
      rewrite E. destruct (current c =? 0)%Z; lia.
    + rewrite Hids, E. destruct (current c =? 0)%Z; [constructor|]. constructor; [|constructor].
      eexists; split; [reflexivity|lia].
Qed.

(** a timeout, or a cancel, of a call made in step leaves a stale answer *)
Lemma becomes_stale : forall c chan m p n new k x c' chan',
  (1 <= next_id c)%Z -> (next_id c + 1 + Z.of_nat n < 2 ^ 63)%Z ->
  Forall well_formed chan -> ids_of chan = [] ->
  Forall well_formed new -> ids_of new = call_ids c n ->
  sys_call parse decode c chan m p n new k = (x, c', chan') ->
  (x = CErr CTimeout \/ n <> 0) ->
  stale c' chan' /\ next_id c' = (next_id c + 1 + Z.of_nat n)%Z.
Proof.
  intros c chan m p n new k x c' chan' H1 Hb Hwc Hic Hwf Hids H Hx.
  assert (Hw : Forall well_formed (chan ++ new)) by (apply Forall_app; auto).
  destruct (sys_call_cases _ _ _ _ _ _ _ _ _ _ Hw H) as [En Hc].
  destruct (iter_cancel n c m p H1 Hb) as [En' _]. cbv zeta in En'. rewrite En' in En.
  split; [|exact En].
  assert (Ei : ids_of (chan ++ new) = call_ids c n) by (rewrite ids_of_app, Hic; exact Hids).
  rewrite Ei in Hc. pose proof (call_ids_lt c n) as Hlt.
  unfold stale. rewrite En.
  destruct Hc as [(_ & -> & E)|(i & is & E & E' & Hwf' & Hx')].
  - split; [apply skipn_wf; auto|]. rewrite E. split; [discriminate|exact Hlt].
  - destruct Hx as [->|Hn].
    + exfalso. (* the first waiting answer was our own: no timeout *)
      unfold sys_call in H.
      destruct (call_loop parse decode (IdNum (next_id c)) (map ELine (firstn k (chan ++ new)) ++ [ETimeout]))
        as [[y cl] rest] eqn:El.
      inversion H; subst y.
      (* a timeout consumes everything: contradiction with the remaining ids *)
      assert (HT : forall evs cl rest, call_loop parse decode (IdNum (next_id c)) evs = (CErr CTimeout, cl, rest) ->
                Forall well_formed (lines_of evs) ->
                exists a, evs = a ++ ETimeout :: rest /\ ids_of (lines_of a) = []).
      { clear. induction evs as [|e evs IH]; intros cl rest Hc Hwf; [discriminate|].
        destruct e as [l| | |]; try discriminate.
        - cbn in Hc. inversion Hwf as [|? ? Hl Hr]; subst. pose proof Hl as (Hne & j & Hp & Hj).
          apply String.eqb_neq in Hne. rewrite Hne, Hp in Hc.
          destruct Hj as [Hj|[r Hj]].
          + rewrite Hj in Hc. cbn [negb] in Hc. destruct (IH _ _ Hc Hr) as (a & -> & Ha).
            exists (ELine l :: a). split; [reflexivity|]. cbn. rewrite Hp.
            destruct (de_response j) eqn:Er; [|exact Ha].
            apply de_response_has_id in Er. congruence.
          + rewrite (de_response_has_id _ _ Hj), Hj in Hc. cbn [negb] in Hc.
            destruct (negb (id_eqb (rs_id r) (IdNum (next_id c)))); [discriminate|].
            destruct (rs_error r); [discriminate|]. destruct (rs_result r); [|discriminate].
            destruct (decode j0); discriminate.
        - cbn in Hc. inversion Hc; subst. exists []. split; reflexivity. }
      assert (Hwl : Forall well_formed (lines_of (map ELine (firstn k (chan ++ new)) ++ [ETimeout]))).
      { rewrite lines_of_map. cbn. rewrite app_nil_r.
        rewrite <- (firstn_skipn k (chan ++ new)) in Hw. apply Forall_app in Hw. tauto. }
      destruct (HT _ _ _ El Hwl) as (a & Ha & Ha').
      assert (rest = []).
      { destruct (@exists_last _ (ETimeout :: rest) ltac:(discriminate)) as (r0 & e0 & Er0).
        assert (Hin : forall z, In z (map ELine (firstn k (chan ++ new))) -> z <> ETimeout).
        { intros z Hz. apply in_map_iff in Hz. destruct Hz as (? & <- & _). discriminate. }
        destruct rest as [|e1 rest]; [reflexivity|]. exfalso.
        rewrite Er0 in Ha. rewrite app_assoc in Ha. apply app_inj_tail in Ha. destruct Ha as [Ha _].
        destruct r0 as [|z0 r0]; [destruct rest; discriminate Er0|].
        cbn in Er0. inversion Er0; subst z0.
        apply (Hin ETimeout); [|reflexivity]. rewrite Ha. apply in_or_app. right. left. reflexivity. }
      subst rest. cbn [lines_of flat_map app] in *.
      assert (E2 : a = map ELine (firstn k (chan ++ new))).
      { apply app_inj_tail in Ha. destruct Ha as [Ha _]. auto. }
      rewrite E2 in Ha'. unfold lines_of in Ha'. rewrite flat_map_concat_map, map_map in Ha'.
      assert (E3 : List.concat (map (fun x : string => [x]) (firstn k (chan ++ new))) = firstn k (chan ++ new)).
      { clear. induction (firstn k (chan ++ new)); cbn; congruence. }
      rewrite E3 in Ha'.
      assert (E4 : ids_of (chan ++ new) = ids_of (skipn k (chan ++ new))).
      { rewrite <- (firstn_skipn k (chan ++ new)) at 1. rewrite ids_of_app, Ha'. reflexivity. }
      rewrite Ei in E4. rewrite <- H4 in E'.
      assert (List.length (call_ids c n) = List.length is) by (rewrite E4, E'; reflexivity).
      rewrite E in H0. cbn in H0. lia.
    + split; [exact Hwf'|]. rewrite E'. rewrite E in Hlt. inversion Hlt; subst. split; [|auto].
      unfold call_ids in E. destruct n; [congruence|]. cbn in E. inversion E. discriminate.
Qed.

(** in step and in time: the call returns what its answer says *)
Lemma in_step : forall c chan m p new k v y,
  (1 <= next_id c)%Z -> (next_id c + 1 < 2 ^ 63)%Z ->
  Forall well_formed chan -> ids_of chan = [] ->
  forall ns l post, new = ns ++ l :: post ->
  Forall (fun x => is_note parse x = true) ns -> Forall (fun x => is_note parse x = true) post ->
  good_response parse l (next_id c) v -> decode v = Some y ->
  (List.length (chan ++ ns) < k) ->
  exists c' chan', sys_call parse decode c chan m p 0 new k = (COk y, c', chan')
    /\ ids_of chan' = [] /\ Forall well_formed chan' /\ next_id c' = (next_id c + 1)%Z.
Proof.
  intros c chan m p new k v y H1 Hb Hwc Hic ns l post -> Hns Hpost Hg Hd Hk.
  set (wl := chan ++ ns ++ l :: post).
  assert (Efn : firstn k wl = (chan ++ ns) ++ l :: firstn (k - List.length (chan ++ ns) - 1) post).
  { unfold wl. rewrite app_assoc, firstn_app. rewrite firstn_all2 by lia. f_equal.
    destruct (k - List.length (chan ++ ns)) eqn:Ek; [lia|]. cbn. f_equal. f_equal. lia. }
  assert (Esk : skipn k wl = skipn (k - List.length (chan ++ ns) - 1) post).
  { unfold wl. rewrite app_assoc, skipn_app. rewrite skipn_all2 by lia. cbn [app].
    destruct (k - List.length (chan ++ ns)) eqn:Ek; [lia|]. cbn. f_equal. lia. }
  unfold sys_call. cbn [Nat.iter nat_rect]. fold wl. rewrite Efn, Esk.
  assert (HC : call_loop parse decode (IdNum (next_id c))
            (map ELine ((chan ++ ns) ++ l :: firstn (k - List.length (chan ++ ns) - 1) post) ++ [ETimeout])
          = (COk y, true, map ELine (firstn (k - List.length (chan ++ ns) - 1) post) ++ [ETimeout])).
  { apply call_loop_ok. split; [reflexivity|]. exists (chan ++ ns), l, v.
    split; [rewrite map_app; cbn [map]; rewrite <- app_assoc; reflexivity|].
    split; [apply Forall_app; split; [apply wf_notes; auto|auto]|].
    split; [exact Hg|]. split; [|exact Hd]. unfold in_i64. lia. }
  rewrite HC. eexists _, _. split; [reflexivity|].
  rewrite lines_of_map. cbn [lines_of flat_map]. rewrite app_nil_r, firstn_skipn.
  split; [|split].
  - clear - Hpost. induction Hpost as [|a b Ha Hb IH]; [reflexivity|].
    cbn. apply is_note_spec in Ha. destruct Ha as (_ & j & -> & Hj).
    destruct (de_response j) eqn:Er; [apply de_response_has_id in Er; congruence|exact IH].
  - eapply Forall_impl; [|exact Hpost]. intros a Ha. apply is_note_spec in Ha. destruct Ha as (Hne & j & Hp & Hj).
    split; [exact Hne|]. exists j. auto.
  - cbn. apply wrap64_id. lia.
Qed.
End Sync.
