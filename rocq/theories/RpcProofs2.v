From Coq Require Import List ZArith String Bool Lia.
From Coq Require Import ZifyBool.
From Verif Require Import Base RpcModel RpcProofs.
Import ListNotations.
Local Open Scope string_scope.
Local Open Scope list_scope.

Section Server.
Context {W : Type}.
Variable parse : string -> option json.
Variable handlers : string -> option (W -> option json -> W * list json * handler_result).
Variables (init_params_ok : json -> bool) (init_result : json).

(** the request a line holds *)
Definition request_of (l : string) : option request :=
  match parse l with Some j => de_request j | None => None end.
Definition is_shutdown (l : string) : bool :=
  match request_of l with Some r => rq_method r =? "shutdown" | None => false end.

(** the lines that want an answer: not empty, before the first shutdown *)
Fixpoint asked (lines : list (option string)) : list string :=
  match lines with
  | [] | None :: _ => []
  | Some l :: r => if l =? "" then asked r else if is_shutdown l then [] else l :: asked r
  end.
Definition responses (tr : list trace_event) : list response :=
  flat_map (fun e => match e with TResp r => [r] | _ => [] end) tr.
(** an answer to the line: the id of its request (0 if there is none), and
    either a result or an error *)
Definition answers (l : string) (r : response) : Prop :=
  rs_id r = match request_of l with Some q => rq_id q | None => IdNum 0 end
  /\ ((exists v, rs_result r = Some v /\ rs_error r = None)
      \/ (exists e, rs_result r = None /\ rs_error r = Some e)).

Notation handle := (handle_message parse handlers init_params_ok init_result).
Notation serve := (serve parse handlers init_params_ok init_result).

Lemma responses_app : forall a b, responses (a ++ b) = responses a ++ responses b.
Proof. intros. apply flat_map_app. Qed.
Lemma responses_notes : forall l, responses (map TNote l) = [].
Proof. induction l; auto. Qed.
Lemma answers_respond : forall l q x, request_of l = Some q -> answers l (respond (rq_id q) x).
Proof.
  intros l q x H. unfold answers. rewrite H. destruct x as [v|e]; cbn; split; auto.
  - left. exists v; auto.
  - right. exists e; auto.
Qed.

(** one line *)
Lemma handle_cases : forall s l n tr, handle s l = (n, tr) ->
  match n with
  | Go s' => is_shutdown l = false /\ exists r, responses tr = [r] /\ answers l r
  | Exit => is_shutdown l = true /\ tr = []
  | Crash => is_shutdown l = false /\ responses tr = []
  end.
Proof.
  intros s l n tr H. unfold handle_message in H. fold (request_of l) in H.
  unfold is_shutdown. destruct (request_of l) as [q|] eqn:Eq.
  - destruct (String.eqb_spec (rq_method q) "initialize") as [Ei|Ei].
    + destruct (handle_initialize init_params_ok init_result s (rq_params q)) as [s' x].
      injection H as <- <-. rewrite Ei. split; [reflexivity|].
      exists (respond (rq_id q) x). split; [|apply answers_respond; auto].
      rewrite responses_app. destruct x; reflexivity.
    + destruct (String.eqb_spec (rq_method q) "shutdown") as [Es|Es]; [injection H as <- <-; auto|].
      destruct (initialized s); cbn [negb] in H.
      2:{ injection H as <- <-. split; auto. eexists; split; [reflexivity|unfold answers; rewrite Eq; cbn; eauto]. }
      destruct (handlers (rq_method q)) as [h|].
      2:{ injection H as <- <-. split; auto. eexists; split; [reflexivity|unfold answers; rewrite Eq; cbn; eauto]. }
      assert (HR : forall notes x, responses (THandler (rq_method q) :: map TNote notes ++ x) = responses x).
      { intros notes x. change (responses (map TNote notes ++ x) = responses x).
        rewrite responses_app, responses_notes. reflexivity. }
      destruct (h (world s) (rq_params q)) as [[w notes] [v|e|]]; injection H as <- <-; (split; [reflexivity|]).
      * cbn [app]. rewrite HR. eexists; split; [reflexivity|]. unfold answers; rewrite Eq; cbn; eauto.
      * cbn [app]. rewrite HR. eexists; split; [reflexivity|]. unfold answers; rewrite Eq; cbn; eauto.
      * rewrite <- (app_nil_r (map TNote notes)), HR. reflexivity.
  - injection H as <- <-. split; [reflexivity|]. eexists; split; [reflexivity|].
    unfold answers. rewrite Eq. cbn. split; auto. right. eexists; eauto.
Qed.

Lemma serve_prefix : forall ls s, exists done left, asked ls = done ++ left
  /\ Forall2 answers done (responses (serve s ls)).
Proof.
  induction ls as [|[l|] ls IH]; intro s; cbn [asked RpcModel.serve].
  - exists [], []. split; [reflexivity|constructor].
  - destruct (String.eqb_spec l "") as [E|E]; [apply IH|].
    destruct (handle s l) as [n tr] eqn:Eh. pose proof (handle_cases _ _ _ _ Eh) as Hc.
    destruct n as [s'| |].
    + destruct Hc as (-> & r & Hr & Ha). destruct (IH s') as (d & lf & -> & Hd).
      exists (l :: d), lf. split; [reflexivity|]. rewrite responses_app, Hr. constructor; auto.
    + destruct Hc as [-> ->]. exists [], []. split; [reflexivity|constructor].
    + destruct Hc as [-> Hr]. exists [], (l :: asked ls). split; [reflexivity|].
      rewrite app_nil_r, Hr. constructor.
  - exists [], []. split; [reflexivity|constructor].
Qed.

Lemma handle_no_crash : (forall m h w p, handlers m = Some h -> snd (h w p) <> HPanic) ->
  forall s l, fst (handle s l) <> Crash.
Proof.
  intros Hp s l. unfold handle_message. destruct (match parse l with Some j => de_request j | None => None end) as [q|]; [|discriminate].
  destruct (_ =? _). { destruct (handle_initialize _ _ _ _); discriminate. }
  destruct (_ =? _); [discriminate|]. destruct (initialized s); [|discriminate].
  destruct (handlers (rq_method q)) as [h|] eqn:Eh; [|discriminate].
  specialize (Hp _ _ (world s) (rq_params q) Eh).
  destruct (h (world s) (rq_params q)) as [[w ns] []]; cbn in *; congruence.
Qed.

Lemma serve_all : (forall m h w p, handlers m = Some h -> snd (h w p) <> HPanic) ->
  forall ls s, Forall2 answers (asked ls) (responses (serve s ls)).
Proof.
  intro Hp. induction ls as [|[l|] ls IH]; intro s; cbn [asked RpcModel.serve]; try constructor.
  destruct (String.eqb_spec l "") as [E|E]; [apply IH|].
  pose proof (handle_no_crash Hp s l) as Hn.
  destruct (handle s l) as [n tr] eqn:Eh. pose proof (handle_cases _ _ _ _ Eh) as Hc.
  destruct n as [s'| |]; [| |cbn in Hn; congruence].
  - destruct Hc as (-> & r & Hr & Ha). rewrite responses_app, Hr. constructor; auto.
  - destruct Hc as [-> ->]. constructor.
Qed.

(** *** initialisation *)
Lemma handle_init : forall s l n tr, handle s l = (n, tr) ->
  (initialized s = true /\ ~ In TInit tr /\ forall s', n = Go s' -> initialized s' = true)
  \/ (initialized s = false /\ (forall m, ~ In (THandler m) tr) /\
      ((~ In TInit tr /\ forall s', n = Go s' -> initialized s' = false)
       \/ exists r, tr = [TInit; TResp r] /\ exists s', n = Go s' /\ initialized s' = true)).
Proof.
  intros s l n tr H. unfold handle_message in H. fold (request_of l) in H.
  destruct (request_of l) as [q|].
  2:{ inversion H; subst. destruct (initialized s) eqn:Ei; [left|right]; repeat split; auto.
      - intros [C|[]]; discriminate.
      - intros s' C; inversion C; subst; auto.
      - intros m [C|[]]; discriminate.
      - left. split; [intros [C|[]]; discriminate|]. intros s' C; inversion C; subst; auto. }
  destruct (rq_method q =? "initialize").
  { unfold handle_initialize in H. destruct (initialized s) eqn:Ei; cbn in H.
    - inversion H; subst. left. repeat split; auto.
      + intros [C|[]]; discriminate.
      + intros s' C; inversion C; subst; auto.
    - right. split; auto.
      destruct (rq_params q) as [p|]; [destruct (init_params_ok p)|]; cbn in H; inversion H; subst; split;
        try (intros m [C|C]; try discriminate; destruct C as [C|[]]; discriminate);
        try (intros m [C|[]]; discriminate).
      + right. eexists; split; [reflexivity|]. eexists; split; reflexivity.
      + left. split; [intros [C|[]]; discriminate|]. intros s' C; inversion C; subst; auto.
      + left. split; [intros [C|[]]; discriminate|]. intros s' C; inversion C; subst; auto. }
  destruct (rq_method q =? "shutdown").
  { inversion H; subst. destruct (initialized s) eqn:Ei; [left|right]; repeat split; auto.
    - discriminate.
    - left. split; [auto|discriminate]. }
  destruct (initialized s) eqn:Ei; cbn [negb] in H.
  - left. split; auto.
    destruct (handlers (rq_method q)) as [h|].
    2:{ inversion H; subst. split; [intros [C|[]]; discriminate|]. intros s' C; inversion C; subst; auto. }
    assert (HN : forall ns, ~ In TInit (map TNote ns)).
    { intros ns C. apply in_map_iff in C. destruct C as (? & C & _). discriminate. }
    destruct (h (world s) (rq_params q)) as [[w notes] [v|e|]]; inversion H; subst; clear H; split;
      try (intros [C|C]; [discriminate|]; try (apply in_app_or in C; destruct C as [C|[C|[]]]; [|discriminate]); eapply HN; eauto).
    + intros s' C; inversion C; auto.
    + intros s' C; inversion C; auto.
    + discriminate.
  - right. inversion H; subst. split; auto. split; [intros m [C|[]]; discriminate|].
    left. split; [intros [C|[]]; discriminate|]. intros s' C; inversion C; subst; auto.
Qed.

Lemma serve_inited_no_init : forall ls s, initialized s = true -> ~ In TInit (serve s ls).
Proof.
  induction ls as [|[l|] ls IH]; intros s Hs; cbn [RpcModel.serve]; try (intros []; fail).
  destruct (l =? ""); [auto|].
  destruct (handle s l) as [n tr] eqn:Eh. destruct (handle_init _ _ _ _ Eh) as [(_ & H1 & H2)|(C & _)]; [|congruence].
  intro C. apply in_app_or in C. destruct C as [C|C]; [exact (H1 C)|].
  destruct n as [s'| |]; [|destruct C|destruct C]. exact (IH s' (H2 _ eq_refl) C).
Qed.

(** before the first [TInit] no handler runs, and there is at most one [TInit] *)
Lemma serve_shape : forall ls s, initialized s = false ->
  (~ In TInit (serve s ls) /\ forall m, ~ In (THandler m) (serve s ls))
  \/ exists a b, serve s ls = a ++ TInit :: b /\ ~ In TInit a /\ ~ In TInit b /\ forall m, ~ In (THandler m) a.
Proof.
  induction ls as [|[l|] ls IH]; intros s Hs; cbn [RpcModel.serve]; auto.
  destruct (l =? ""); [auto|].
  destruct (handle s l) as [n tr] eqn:Eh. destruct (handle_init _ _ _ _ Eh) as [(C & _)|(_ & HH & [[H1 H2]|(r & -> & s' & -> & H2)])].
  - congruence.
  - destruct n as [s'| |].
    + destruct (IH s' (H2 _ eq_refl)) as [[I1 I2]|(a & b & -> & I1 & I2 & I3)].
      * left. split; [|intro m]; intro C; apply in_app_or in C; destruct C as [C|C]; eauto.
        -- exact (HH m C).
        -- exact (I2 m C).
      * right. exists (tr ++ a), b. rewrite <- app_assoc. split; [reflexivity|]. repeat split; auto.
        -- intro C; apply in_app_or in C; destruct C; auto.
        -- intros m C; apply in_app_or in C; destruct C as [C|C]; [exact (HH m C)|exact (I3 m C)].
    + left. rewrite app_nil_r. split; auto.
    + left. rewrite app_nil_r. split; auto.
  - right. exists [], (TResp r :: serve s' ls). split; [reflexivity|]. repeat split; auto.
    intros [C|C]; [discriminate|]. revert C. apply serve_inited_no_init. auto.
Qed.
End Server.

(* ---------- both ends together ---------- *)
Section EndToEnd.
Context {W R : Type}.
Variables (parse : string -> option json) (print : json -> string).
(** [j] is read back as written *)
Definition reads_back (j : json) : Prop := parse (print j) = Some j /\ print j <> "".
Variable handlers : string -> option (W -> option json -> W * list json * handler_result).
Variables (init_params_ok : json -> bool) (init_result : json).
Variable decode : json -> option R.

(** what the server writes *)
Definition written (tr : list trace_event) : list string :=
  flat_map (fun e => match e with TResp r => [print (ser_response r)] | TNote j => [print j] | _ => [] end) tr.

Lemma de_ser_request : forall m p n, in_i64 n = true ->
  de_request (ser_request (mkReq m p (IdNum n))) = Some (mkReq m (opt_value p) (IdNum n)).
Proof. intros m [p|] n H; cbn; rewrite H; reflexivity. Qed.

Lemma written_notes : forall ns, written (map TNote ns) = map print ns.
Proof.
  induction ns as [|a ns IH]; [reflexivity|]. cbn [map].
  change (written (TNote a :: map TNote ns)) with (print a :: written (map TNote ns)). now rewrite IH.
Qed.

(** one exchange *)
Lemma exchange : forall s m p n h w notes v, in_i64 n = true -> initialized s = true ->
  m <> "initialize" -> m <> "shutdown" ->
  handlers m = Some h -> h (world s) (opt_value p) = (w, notes, HOk v) ->
  (forall j, In j notes -> has_key "id" j = false) ->
  reads_back (ser_request (mkReq m p (IdNum n))) -> reads_back (ser_response (mkResp (Some v) None (IdNum n))) ->
  Forall reads_back notes ->
  fst (fst (call_loop parse decode (IdNum n)
        (map ELine (written (serve parse handlers init_params_ok init_result s
                              [Some (print (ser_request (mkReq m p (IdNum n))))])))))
  = match v with
    | JNull => CErr CNoResult
    | _ => match decode v with Some x => COk x | None => CErr CParse end
    end.
Proof.
  intros s m p n h w notes v Hn Hs Hm1 Hm2 Hh Hv Hnotes [Pq Nq] [Pr Nr] Pn.
  cbn [serve]. apply String.eqb_neq in Nq. rewrite Nq. unfold handle_message. rewrite Pq, de_ser_request by exact Hn.
  cbn [rq_method rq_params rq_id].
  apply String.eqb_neq in Hm1, Hm2. rewrite Hm1, Hm2, Hs. cbn [negb]. rewrite Hh, Hv. cbn [app]. rewrite app_nil_r.
  change (THandler m :: map TNote notes ++ ?x) with ([THandler m] ++ map TNote notes ++ x).
  unfold written. rewrite !flat_map_app. cbn [flat_map app respond].
  change (flat_map _ (map TNote notes)) with (written (map TNote notes)). rewrite written_notes.
  rewrite map_app, call_loop_notes.
  2:{ apply Forall_map. apply Forall_forall. intros j Hj. apply is_note_spec.
      rewrite Forall_forall in Pn. destruct (Pn j Hj) as [P N]. split; [exact N|]. exists j. auto. }
  cbn [map app call_loop].
  apply String.eqb_neq in Nr. rewrite Nr, Pr.
  assert (K : has_key "id" (ser_response (mkResp (Some v) None (IdNum n))) = true) by reflexivity.
  assert (D : de_response (ser_response (mkResp (Some v) None (IdNum n)))
              = Some (mkResp (opt_value (Some v)) None (IdNum n))) by (cbn; rewrite Hn; reflexivity).
  rewrite K, D. cbn [negb rs_id id_eqb]. rewrite Z.eqb_refl. cbn [negb rs_error rs_result].
  destruct v; cbn [opt_value]; reflexivity.
Qed.

(** the same when the handler returns an error *)
Lemma exchange_err : forall s m p n h w notes e, in_i64 n = true -> in_i32 (e_code e) = true -> initialized s = true ->
  m <> "initialize" -> m <> "shutdown" ->
  handlers m = Some h -> h (world s) (opt_value p) = (w, notes, HErr e) ->
  (forall j, In j notes -> has_key "id" j = false) ->
  reads_back (ser_request (mkReq m p (IdNum n))) -> reads_back (ser_response (mkResp None (Some e) (IdNum n))) ->
  Forall reads_back notes ->
  fst (fst (call_loop parse decode (IdNum n)
        (map ELine (written (serve parse handlers init_params_ok init_result s
                              [Some (print (ser_request (mkReq m p (IdNum n))))])))))
  = CErr (CRpc (mkErr (e_code e) (opt_value (e_data e)))).
Proof.
  intros s m p n h w notes e Hn He Hs Hm1 Hm2 Hh Hv Hnotes [Pq Nq] [Pr Nr] Pn.
  cbn [serve]. apply String.eqb_neq in Nq. rewrite Nq. unfold handle_message. rewrite Pq, de_ser_request by exact Hn.
  cbn [rq_method rq_params rq_id].
  apply String.eqb_neq in Hm1, Hm2. rewrite Hm1, Hm2, Hs. cbn [negb]. rewrite Hh, Hv. cbn [app]. rewrite app_nil_r.
  change (THandler m :: map TNote notes ++ ?x) with ([THandler m] ++ map TNote notes ++ x).
  unfold written. rewrite !flat_map_app. cbn [flat_map app respond].
  change (flat_map _ (map TNote notes)) with (written (map TNote notes)). rewrite written_notes.
  rewrite map_app, call_loop_notes.
  2:{ apply Forall_map. apply Forall_forall. intros j Hj. apply is_note_spec.
      rewrite Forall_forall in Pn. destruct (Pn j Hj) as [P N]. split; [exact N|]. exists j. auto. }
  cbn [map app call_loop].
  apply String.eqb_neq in Nr. rewrite Nr, Pr.
  assert (K : has_key "id" (ser_response (mkResp None (Some e) (IdNum n))) = true) by reflexivity.
  assert (D : de_response (ser_response (mkResp None (Some e) (IdNum n)))
              = Some (mkResp None (Some (mkErr (e_code e) (opt_value (e_data e)))) (IdNum n))).
  { destruct e as [c [d|]]; cbn in *; rewrite Hn, He; reflexivity. }
  rewrite K, D. cbn [negb rs_id id_eqb]. rewrite Z.eqb_refl. reflexivity.
Qed.
End EndToEnd.
