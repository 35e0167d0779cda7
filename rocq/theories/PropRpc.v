(** C55-C57, C73: calling plugins over JSON-RPC. *)
From Coq Require Import List ZArith String Bool Lia.
From Verif Require Import Base RpcModel RpcProofs RpcProofs2.
Import ListNotations.
Local Open Scope string_scope.
Local Open Scope list_scope.

(** * C55: a call returns the answer to its own request *)

(** [call] succeeds with [r] exactly when the lines received are notifications
    followed by a response carrying the id of the request just written, no error
    and a result that decodes to [r]. *)
Theorem C55_own_answer : forall parse R (decode : json -> option R) c m p evs r,
  (1 <= next_id c < 2 ^ 63)%Z ->
  (exists c' rest, call parse decode c m p evs = (COk r, c', rest)) <->
  exists notes l v rest, evs = map ELine notes ++ ELine l :: rest
    /\ Forall (fun x => is_note parse x = true) notes
    /\ good_response parse l (next_id c) v /\ decode v = Some r.
Proof.
  intros parse R decode c m p evs r Hb. unfold call.
  destruct (call_loop parse decode (IdNum (next_id c)) evs) as [[x b] rest] eqn:E. split.
  - intros (c' & rest' & H). inversion H; subst.
    apply call_loop_ok in E. destruct E as (_ & ns & l & v & -> & H1 & H2 & _ & H3).
    exists ns, l, v, rest'. auto.
  - intros (ns & l & v & rest' & -> & H1 & H2 & H3).
    assert (E' : call_loop parse decode (IdNum (next_id c)) (map ELine ns ++ ELine l :: rest') = (COk r, true, rest')).
    { apply call_loop_ok. split; [reflexivity|]. exists ns, l, v. repeat split; auto. 1: apply H2. 1: apply H2.
      unfold in_i64. lia. }
    rewrite E' in E. inversion E; subst. eauto.
Qed.
Print Assumptions C55_own_answer.

(** the request written is the one whose id is waited for *)
Theorem C55_request : forall parse R (decode : json -> option R) c m p evs,
  sent (snd (fst (call parse decode c m p evs))) = sent c ++ [mkReq m p (IdNum (next_id c))].
Proof. intros. unfold call. destruct (call_loop _ _ _ _) as [[? ?] ?]. reflexivity. Qed.
Print Assumptions C55_request.

(** no id is used twice, whatever the history of calls, cancels and shutdowns
    and whatever the plugin sends *)
Theorem C55_ids : forall parse os, (Z.of_nat (List.length os) < 2 ^ 63 - 1)%Z ->
  NoDup (map rq_id (sent (c_run parse os client_new))).
Proof.
  intros parse os H. apply ids_nodup. apply c_run_ids.
  - unfold ids_inv; cbn. split; [lia|]. split; constructor.
  - change (next_id client_new) with 1%Z. lia.
Qed.
Print Assumptions C55_ids.

(** notifications never end a call *)
Theorem C55_notifications : forall parse R (decode : json -> option R) c m p notes evs,
  Forall (fun x => is_note parse x = true) notes ->
  call parse decode c m p (map ELine notes ++ evs) = call parse decode c m p evs.
Proof. intros. unfold call. now rewrite call_loop_notes. Qed.
Print Assumptions C55_notifications.

(** A small dictionary of lines. *)
Definition resp (n : Z) (v : json) : json :=
  JObj [("jsonrpc", JStr "2.0"); ("result", v); ("id", JInt n)].
Definition dict (l : string) : option json :=
  if l =? "note" then Some (JObj [("jsonrpc", JStr "2.0"); ("method", JStr "$/progress")])
  else if l =? "r1" then Some (resp 1 (JInt 10))
  else if l =? "r2" then Some (resp 2 (JInt 20))
  else if l =? "r3" then Some (resp 3 (JInt 30))
  else if l =? "r4" then Some (resp 4 (JInt 40))
  else None.
Example C55_example :
  fst (fst (call dict Some client_new "backend.run" None [ELine "note"; ELine "note"; ELine "r1"; ELine "r2"])) = COk (JInt 10)
  /\ good_response dict "r1" 1 (JInt 10) /\ is_note dict "note" = true
  /\ map rq_id (sent (c_run dict [OCall "a" None [ETimeout]; OCancel; OCall "b" None [ELine "r3"]; OCancel; OShutdown] client_new))
     = [IdNum 1; IdNum 2; IdNum 3; IdNum 4].
Proof.
  repeat split; try reflexivity; try discriminate.
  eexists _, _, _. repeat split; try reflexivity; try discriminate. left; reflexivity.
Qed.

(** * C56: after a timeout or a cancel *)

(** Any run of later calls and cancels, with a plugin that answers every request
    in order.  [S_call … x] is a call returning [x]. *)
Inductive later {R} (parse : string -> option json) (decode : json -> option R) :
    client -> list string -> list (call_result R) -> Z -> Prop :=
| L_done : forall c chan, later parse decode c chan [] 0
| L_call : forall c chan m p n new k x c' chan' xs z,
    Forall (well_formed parse) new -> ids_of parse new = call_ids c n ->
    sys_call parse decode c chan m p n new k = (x, c', chan') ->
    later parse decode c' chan' xs z -> later parse decode c chan (x :: xs) (1 + Z.of_nat n + z)
| L_cancel : forall c chan new xs z,
    Forall (well_formed parse) new ->
    ids_of parse new = (if (current c =? 0)%Z then [] else [IdNum (next_id c)]) ->
    later parse decode (cancel c) (chan ++ new) xs z -> later parse decode c chan xs (1 + z).

Lemma later_nonneg : forall R parse (decode : json -> option R) c chan xs z,
  later parse decode c chan xs z -> (0 <= z)%Z.
Proof. intros R parse decode c chan xs z H. induction H; lia. Qed.

Lemma later_stale : forall R parse (decode : json -> option R) c chan xs z,
  later parse decode c chan xs z -> (1 <= next_id c)%Z -> (next_id c + z < 2 ^ 63)%Z -> stale parse c chan ->
  Forall (fun x => x = CErr CIdMismatch \/ x = CErr CTimeout) xs.
Proof.
  intros R parse decode c chan xs z H. induction H as [c chan|c chan m p n new k x c' chan' xs z Hwf Hids Hc HL IH|c chan new xs z Hwf Hids HL IH];
    intros H1 Hb Hs.
  - constructor.
  - pose proof (later_nonneg _ _ _ _ _ _ _ HL).
    destruct (stale_call parse decode c chan m p n new k x c' chan' H1 ltac:(lia) Hs Hwf Hids Hc) as (Hx & Hs' & En).
    constructor; [exact Hx|]. apply IH; [lia|lia|exact Hs'].
  - pose proof (later_nonneg _ _ _ _ _ _ _ HL).
    destruct (stale_cancel parse c chan new H1 ltac:(lia) Hs Hwf Hids) as [Hs' En].
    apply IH; [lia|lia|exact Hs'].
Qed.

(** Once a call has timed out or been cancelled, no later call to a plugin that
    answers every request in order ever succeeds: each one takes the answer to an
    earlier request and fails, leaving its own answer for the next. *)
Theorem C56_never_recovers_refuted : forall R parse (decode : json -> option R) c chan m p n new k x c' chan' xs z,
  (1 <= next_id c)%Z -> (next_id c + 1 + Z.of_nat n + z < 2 ^ 63)%Z ->
  Forall (well_formed parse) chan -> ids_of parse chan = [] ->
  Forall (well_formed parse) new -> ids_of parse new = call_ids c n ->
  sys_call parse decode c chan m p n new k = (x, c', chan') ->
  x = CErr CTimeout \/ n <> 0 ->
  later parse decode c' chan' xs z ->
  Forall (fun x => x = CErr CIdMismatch \/ x = CErr CTimeout) xs.
Proof.
  intros R parse decode c chan m p n new k x c' chan' xs z H1 Hb Hwc Hic Hwf Hids Hc Hx HL.
  pose proof (later_nonneg _ _ _ _ _ _ _ HL).
  destruct (becomes_stale parse decode c chan m p n new k x c' chan' H1 ltac:(lia) Hwc Hic Hwf Hids Hc Hx) as [Hs En].
  apply (later_stale R parse decode c' chan' xs z HL); [lia|lia|exact Hs].
Qed.
Print Assumptions C56_never_recovers_refuted.

(** concretely: the first call times out, the next two fail although the plugin
    has answered them *)
Example C56_example :
  let '(x1, c1, ch1) := sys_call dict Some client_new [] "backend.run" None 0 ["r1"] 0 in
  let '(x2, c2, ch2) := sys_call dict Some c1 ch1 "backend.run" None 0 ["note"; "r2"] 9 in
  let '(x3, c3, ch3) := sys_call dict Some c2 ch2 "backend.run" None 0 ["r3"] 9 in
  (x1, x2, x3, ch3) = (CErr CTimeout, CErr CIdMismatch, CErr CIdMismatch, ["r3"])
  /\ (let '(y1, d1, dh1) := sys_call dict Some client_new [] "backend.run" None 1 ["r1"; "r2"] 9 in
      let '(y2, d2, dh2) := sys_call dict Some d1 dh1 "backend.run" None 0 ["r3"] 9 in
      (y1, y2, dh2) = (COk (JInt 10), CErr CIdMismatch, ["r3"]))
  /\ ids_of dict ["r1"; "r2"] = call_ids client_new 1 /\ Forall (well_formed dict) ["r1"; "r2"].
Proof.
  cbv zeta. repeat split; try reflexivity.
  repeat constructor; try discriminate; eexists; (split; [reflexivity|]); right; eexists; reflexivity.
Qed.

(** Without timeouts and cancels: a call whose answer arrives in time returns its
    result and leaves the connection in step.  The same holds after a timeout
    whose answer never arrives ([c] is any client state). *)
Theorem C56_in_step_partial : forall R parse (decode : json -> option R) c chan m p new k v y notes l after,
  (1 <= next_id c)%Z -> (next_id c + 1 < 2 ^ 63)%Z ->
  Forall (well_formed parse) chan -> ids_of parse chan = [] ->
  new = notes ++ l :: after -> Forall (fun x => is_note parse x = true) notes ->
  Forall (fun x => is_note parse x = true) after ->
  good_response parse l (next_id c) v -> decode v = Some y ->
  List.length (chan ++ notes) < k ->
  exists c' chan', sys_call parse decode c chan m p 0 new k = (COk y, c', chan')
    /\ ids_of parse chan' = [] /\ Forall (well_formed parse) chan' /\ next_id c' = (next_id c + 1)%Z.
Proof. intros. eapply in_step; eauto. Qed.
Print Assumptions C56_in_step_partial.
Example C56_example_in_step :
  let '(x1, c1, ch1) := sys_call dict Some client_new [] "backend.run" None 0 ["note"; "r1"; "note"] 9 in
  let '(x2, c2, ch2) := sys_call dict Some c1 ch1 "backend.run" None 0 ["r2"] 9 in
  (x1, x2, ch1, ch2) = (COk (JInt 10), COk (JInt 20), ["note"], []).
Proof. reflexivity. Qed.

(** * C57: the server *)

(** one response per line, in order, each with the id of its request *)
Theorem C57_responses_partial : forall W parse handlers init_ok init_result,
  (forall m h (w : W) p, handlers m = Some h -> snd (h w p) <> HPanic) ->
  forall s lines, Forall2 (answers parse) (asked parse lines)
    (responses (serve parse handlers init_ok init_result s lines)).
Proof. intros. now apply serve_all. Qed.
Print Assumptions C57_responses_partial.

(** whatever the handlers do: the responses answer the first lines, in order *)
Theorem C57_prefix : forall W parse handlers init_ok init_result (s : @server W) lines,
  exists done left, asked parse lines = done ++ left
    /\ Forall2 (answers parse) done (responses (serve parse handlers init_ok init_result s lines)).
Proof. intros. apply serve_prefix. Qed.
Print Assumptions C57_prefix.

(** handlers run only after initialize has succeeded *)
Theorem C57_initialized : forall W parse handlers init_ok init_result (s : @server W) lines m before after,
  initialized s = false ->
  serve parse handlers init_ok init_result s lines = before ++ THandler m :: after -> In TInit before.
Proof.
  intros W parse handlers init_ok init_result s lines m before after Hs E.
  destruct (serve_shape parse handlers init_ok init_result lines s Hs) as [[_ H]|(a & b & Eab & Ha & Hb & Hh)].
  - exfalso. apply (H m). rewrite E. apply in_or_app. right. left. reflexivity.
  - rewrite E in Eab. clear E. revert a Eab Ha Hh. induction before as [|e before IH]; intros a Eab Ha Hh.
    + destruct a as [|e' a]; cbn in Eab; inversion Eab; subst. exfalso. apply (Hh m). left. reflexivity.
    + destruct a as [|e' a]; cbn in Eab; inversion Eab; subst.
      * left. reflexivity.
      * right. eapply IH; eauto; [|intros m' C; apply (Hh m'); right; exact C]. intro C. apply Ha. right. exact C.
Qed.
Print Assumptions C57_initialized.

(** initialize succeeds at most once *)
Theorem C57_once : forall W parse handlers init_ok init_result (s : @server W) lines before after,
  serve parse handlers init_ok init_result s lines = before ++ TInit :: after ->
  initialized s = false /\ ~ In TInit before /\ ~ In TInit after.
Proof.
  intros W parse handlers init_ok init_result s lines before after E.
  destruct (initialized s) eqn:Hs.
  - exfalso. apply (serve_inited_no_init parse handlers init_ok init_result lines s Hs).
    rewrite E. apply in_or_app. right. left. reflexivity.
  - split; [reflexivity|].
    destruct (serve_shape parse handlers init_ok init_result lines s Hs) as [[H _]|(a & b & Eab & Ha & Hb & _)].
    + exfalso. apply H. rewrite E. apply in_or_app. right. left. reflexivity.
    + rewrite E in Eab. clear E. assert (before = a /\ after = b).
      { revert a Eab Ha. induction before as [|e before IH]; intros a Eab Ha.
        - destruct a as [|e' a]; cbn in Eab; inversion Eab; subst; [auto|]. exfalso. apply Ha. left. reflexivity.
        - destruct a as [|e' a]; cbn in Eab; inversion Eab; subst.
          + exfalso. apply Hb. apply in_or_app. right. left. reflexivity.
          + destruct (IH a H1) as [-> ->]; auto. intro C. apply Ha. right. exact C. }
      destruct H as [-> ->]. auto.
Qed.
Print Assumptions C57_once.

(** a handler that panics takes the server down: its request and all later ones
    get no answer *)
Definition req (m : string) (n : Z) : json :=
  JObj [("jsonrpc", JStr "2.0"); ("method", JStr m); ("params", JObj []); ("id", JInt n)].
Definition dict2 (l : string) : option json :=
  if l =? "init" then Some (req "initialize" 1)
  else if l =? "run" then Some (req "backend.run" 2)
  else if l =? "stop" then Some (req "shutdown" 3)
  else if l =? "other" then Some (JObj [("jsonrpc", JStr "2.0"); ("method", JStr "x"); ("id", JStr "a")])
  else None.
Definition table (r : handler_result) (m : string) : option (nat -> option json -> nat * list json * handler_result) :=
  if m =? "backend.run" then Some (fun w _ => (S w, [JStr "log"], r)) else None.
Theorem C57_panic_refuted :
  asked dict2 [Some "init"; Some "run"; Some "other"] = ["init"; "run"; "other"]
  /\ map rs_id (responses (serve dict2 (table HPanic) (fun _ => true) JNull (mkS false 0) [Some "init"; Some "run"; Some "other"]))
     = [IdNum 1].
Proof. split; reflexivity. Qed.
Print Assumptions C57_panic_refuted.
Example C57_example :
  map rs_id (responses (serve dict2 (table (HOk (JInt 7))) (fun _ => true) JNull (mkS false 0)
     [Some "run"; Some "init"; Some ""; Some "{"; Some "run"; Some "init"; Some "other"; Some "stop"; Some "run"]))
  = [IdNum 2; IdNum 1; IdNum 0; IdNum 2; IdNum 1; IdStr "a"]
  /\ map (fun r => match rs_error r with Some e => e_code e | None => 0%Z end)
       (responses (serve dict2 (table (HOk (JInt 7))) (fun _ => true) JNull (mkS false 0)
       [Some "run"; Some "init"; Some ""; Some "{"; Some "run"; Some "init"; Some "other"; Some "stop"; Some "run"]))
  = [-32600; 0; -32700; 0; -32600; -32601]%Z
  /\ (forall m h w p, table (HOk (JInt 7)) m = Some h -> snd (h w p) <> HPanic).
Proof.
  split; [reflexivity|]. split; [reflexivity|]. intros m h w p H. unfold table in H.
  destruct (m =? "backend.run"); inversion H; subst. discriminate.
Qed.

(** * C73: a handler's result reaches the caller *)

(** [parse]/[print]: the JSON text layer, reading back the messages exchanged *)
Theorem C73_result_partial : forall W R parse print handlers init_ok init_result (decode : json -> option R)
    (s : @server W) m p n h w notes v x,
  in_i64 n = true -> initialized s = true -> m <> "initialize" -> m <> "shutdown" ->
  handlers m = Some h -> h (world s) (opt_value p) = (w, notes, HOk v) ->
  (forall j, In j notes -> has_key "id" j = false) -> Forall (reads_back parse print) notes ->
  reads_back parse print (ser_request (mkReq m p (IdNum n))) ->
  reads_back parse print (ser_response (mkResp (Some v) None (IdNum n))) ->
  v <> JNull -> decode v = Some x ->
  fst (fst (call_loop parse decode (IdNum n)
        (map ELine (written print (serve parse handlers init_ok init_result s
                              [Some (print (ser_request (mkReq m p (IdNum n))))]))))) = COk x.
Proof.
  intros W R parse print handlers init_ok init_result decode s m p n h w notes v x Hn Hs Hm1 Hm2 Hh Hv Hi Pn Pq Pr Hnull Hd.
  rewrite (exchange parse print handlers init_ok init_result decode s m p n h w notes v); auto. rewrite Hd. destruct v; congruence.
Qed.
Print Assumptions C73_result_partial.

(** a handler that returns unit (JSON null) succeeds, but the caller gets an error *)
Theorem C73_null_refuted : forall W R parse print handlers init_ok init_result (decode : json -> option R)
    (s : @server W) m p n h w notes,
  in_i64 n = true -> initialized s = true -> m <> "initialize" -> m <> "shutdown" ->
  handlers m = Some h -> h (world s) (opt_value p) = (w, notes, HOk JNull) ->
  (forall j, In j notes -> has_key "id" j = false) -> Forall (reads_back parse print) notes ->
  reads_back parse print (ser_request (mkReq m p (IdNum n))) ->
  reads_back parse print (ser_response (mkResp (Some JNull) None (IdNum n))) ->
  fst (fst (call_loop parse decode (IdNum n)
        (map ELine (written print (serve parse handlers init_ok init_result s
                              [Some (print (ser_request (mkReq m p (IdNum n))))]))))) = CErr CNoResult.
Proof.
  intros W R parse print handlers init_ok init_result decode s m p n h w notes Hn Hs Hm1 Hm2 Hh Hv Hi Pn Pq Pr.
  rewrite (exchange parse print handlers init_ok init_result decode s m p n h w notes JNull); auto.
Qed.
Print Assumptions C73_null_refuted.

(** a handler's error reaches the caller (its message text is not modelled) *)
Theorem C73_error : forall W R parse print handlers init_ok init_result (decode : json -> option R)
    (s : @server W) m p n h w notes e,
  in_i64 n = true -> in_i32 (e_code e) = true -> initialized s = true -> m <> "initialize" -> m <> "shutdown" ->
  handlers m = Some h -> h (world s) (opt_value p) = (w, notes, HErr e) ->
  (forall j, In j notes -> has_key "id" j = false) -> Forall (reads_back parse print) notes ->
  reads_back parse print (ser_request (mkReq m p (IdNum n))) ->
  reads_back parse print (ser_response (mkResp None (Some e) (IdNum n))) ->
  e_data e <> Some JNull ->
  fst (fst (call_loop parse decode (IdNum n)
        (map ELine (written print (serve parse handlers init_ok init_result s
                              [Some (print (ser_request (mkReq m p (IdNum n))))]))))) = CErr (CRpc e).
Proof.
  intros W R parse print handlers init_ok init_result decode s m p n h w notes e Hn He Hs Hm1 Hm2 Hh Hv Hi Pn Pq Pr Hd.
  rewrite (exchange_err parse print handlers init_ok init_result decode s m p n h w notes e); auto.
  destruct e as [c [[]|]]; cbn in *; congruence.
Qed.
Print Assumptions C73_error.

Definition demo_print (j : json) : string :=
  match j with JStr s => s | JObj [_; _; _] => "b" | _ => "c" end.
Definition demo_parse (v : json) (l : string) : option json :=
  if l =? "log" then Some (JStr "log")
  else if l =? "c" then Some (ser_request (mkReq "backend.run" (Some (JObj [])) (IdNum 5)))
  else if l =? "b" then Some (ser_response (mkResp (Some v) None (IdNum 5)))
  else None.
Example C73_example : forall v, v = JInt 7 \/ v = JNull ->
  table (HOk v) "backend.run" <> None
  /\ reads_back (demo_parse v) demo_print (ser_request (mkReq "backend.run" (Some (JObj [])) (IdNum 5)))
  /\ reads_back (demo_parse v) demo_print (ser_response (mkResp (Some v) None (IdNum 5)))
  /\ Forall (reads_back (demo_parse v) demo_print) [JStr "log"]
  /\ written demo_print (serve (demo_parse v) (table (HOk v)) (fun _ => true) JNull (mkS true 0) [Some "c"]) = ["log"; "b"]
  /\ fst (fst (call_loop (demo_parse v) Some (IdNum 5) [ELine "log"; ELine "b"]))
     = match v with JNull => CErr CNoResult | _ => COk v end.
Proof.
  intros v [-> | ->]; (repeat split; try reflexivity; try discriminate; repeat constructor; try discriminate).
Qed.
Example C73_error_example :
  let e := mkErr (-32001) (Some (JInt 4)) in
  let parse l := if l =? "b" then Some (ser_response (mkResp None (Some e) (IdNum 5))) else demo_parse JNull l in
  reads_back parse demo_print (ser_request (mkReq "backend.run" (Some (JObj [])) (IdNum 5)))
  /\ reads_back parse demo_print (ser_response (mkResp None (Some e) (IdNum 5))) /\ in_i32 (e_code e) = true
  /\ written demo_print (serve parse (table (HErr e)) (fun _ => true) JNull (mkS true 0) [Some "c"]) = ["log"; "b"]
  /\ fst (fst (call_loop parse (@Some json) (IdNum 5) [ELine "log"; ELine "b"])) = CErr (CRpc e).
Proof. cbv zeta. repeat split; try reflexivity; discriminate. Qed.
