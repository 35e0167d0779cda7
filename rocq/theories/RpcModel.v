(** JSON-RPC between the command line and its plugins:
    crates/hodu_plugin/src/rpc.rs, crates/hodu_plugin_runtime/src/client.rs,
    hodu-plugin-sdk/src/server.rs.

    Simplifications: strings are byte strings; the JSON text layer of serde_json
    is a parameter ([parse]/[print]); writing to the plugin's standard input
    succeeds; error messages are left out; params always serialise. *)
From Coq Require Import List ZArith String Bool SpecFloat.
From Verif Require Import Base.
Import ListNotations.
Local Open Scope string_scope.
Local Open Scope list_scope.

(** serde_json::Value, with objects as written (duplicate keys possible) *)
Inductive json :=
| JNull | JBool (b : bool) | JInt (n : Z) | JReal (x : spec_float)
| JStr (s : string) | JArr (l : list json) | JObj (kvs : list (string * json)).

(** [value.get(k).is_some()]: only objects have keys *)
Definition has_key (k : string) (j : json) : bool :=
  match j with JObj kvs => existsb (fun p => fst p =? k) kvs | _ => false end.

(** a field of a derived struct: [None] when the key occurs twice (serde's
    "duplicate field"), [Some None] when it is absent *)
Definition field (k : string) (kvs : list (string * json)) : option (option json) :=
  match filter (fun p => fst p =? k) kvs with
  | [] => Some None
  | [(_, v)] => Some (Some v)
  | _ => None
  end.
(** an [Option<Value>] field: absent and null are both [None] *)
Definition opt_value (v : option json) : option json :=
  match v with Some JNull | None => None | Some x => Some x end.

(** rpc.rs:47-53, [#[serde(untagged)]] *)
Inductive request_id := IdNum (n : Z) | IdStr (s : string).
Definition in_i64 (n : Z) : bool := ((- 2 ^ 63 <=? n) && (n <? 2 ^ 63))%Z.
Definition in_i32 (n : Z) : bool := ((- 2 ^ 31 <=? n) && (n <? 2 ^ 31))%Z.
Definition de_id (j : json) : option request_id :=
  match j with
  | JInt n => if in_i64 n then Some (IdNum n) else None
  | JStr s => Some (IdStr s)
  | _ => None
  end.
Definition ser_id (i : request_id) : json := match i with IdNum n => JInt n | IdStr s => JStr s end.
Definition id_eqb (a b : request_id) : bool :=
  match a, b with
  | IdNum x, IdNum y => (x =? y)%Z
  | IdStr x, IdStr y => x =? y
  | _, _ => false
  end.

(** rpc.rs:17-25 *)
Record request := mkReq { rq_method : string; rq_params : option json; rq_id : request_id }.
Definition as_str (j : json) : option string := match j with JStr s => Some s | _ => None end.
(** derived [Deserialize]: an object, or an array with the fields in order *)
Definition de_request (j : json) : option request :=
  match j with
  | JObj kvs =>
    match field "jsonrpc" kvs, field "method" kvs, field "params" kvs, field "id" kvs with
    | Some (Some (JStr _)), Some (Some (JStr m)), Some p, Some (Some i) =>
      option_map (mkReq m (opt_value p)) (de_id i)
    | _, _, _, _ => None
    end
  | JArr [JStr _; JStr m; p; i] => option_map (mkReq m (opt_value (Some p))) (de_id i)
  | _ => None
  end.
Definition ser_request (r : request) : json :=
  JObj ([("jsonrpc", JStr "2.0"); ("method", JStr (rq_method r))]
        ++ match rq_params r with Some p => [("params", p)] | None => [] end
        ++ [("id", ser_id (rq_id r))]).

(** rpc.rs:55-62; the message text is kept out of the model *)
Record rpc_error := mkErr { e_code : Z; e_data : option json }.
Definition de_error (j : json) : option rpc_error :=
  match j with
  | JObj kvs =>
    match field "code" kvs, field "message" kvs, field "data" kvs with
    | Some (Some (JInt c)), Some (Some (JStr _)), Some d =>
      if in_i32 c then Some (mkErr c (opt_value d)) else None
    | _, _, _ => None
    end
  | JArr [JInt c; JStr _; d] => if in_i32 c then Some (mkErr c (opt_value (Some d))) else None
  | _ => None
  end.
Definition ser_error (e : rpc_error) : json :=
  JObj ([("code", JInt (e_code e)); ("message", JStr "")]
        ++ match e_data e with Some d => [("data", d)] | None => [] end).

(** rpc.rs:27-36 *)
Record response := mkResp { rs_result : option json; rs_error : option rpc_error; rs_id : request_id }.
Definition de_response (j : json) : option response :=
  match j with
  | JObj kvs =>
    match field "jsonrpc" kvs, field "result" kvs, field "error" kvs, field "id" kvs with
    | Some (Some (JStr _)), Some r, Some e, Some (Some i) =>
      match de_id i with
      | None => None
      | Some i' =>
        match opt_value e with
        | None => Some (mkResp (opt_value r) None i')
        | Some ej => option_map (fun e' => mkResp (opt_value r) (Some e') i') (de_error ej)
        end
      end
    | _, _, _, _ => None
    end
  | _ => None
  end.
Definition ser_response (r : response) : json :=
  JObj ([("jsonrpc", JStr "2.0")]
        ++ match rs_result r with Some v => [("result", v)] | None => [] end
        ++ match rs_error r with Some e => [("error", ser_error e)] | None => [] end
        ++ [("id", ser_id (rs_id r))]).

(* ---------- client ---------- *)

(** what [recv_timeout] yields *)
Inductive event := ELine (l : string) | EIo | ETimeout | EClosed.

(** client.rs:362-377 (the kinds a call can produce) *)
Inductive client_error :=
| CIo | CTimeout | CClosed | CParse | CIdMismatch | CRpc (e : rpc_error) | CNoResult.
(** [CWait]: no more events, the call has not returned *)
Inductive call_result (R : Type) := COk (r : R) | CErr (e : client_error) | CWait.
Arguments COk {R}. Arguments CErr {R}. Arguments CWait {R}.

Section Client.
Variable parse : string -> option json.

(** client.rs:312: a message without an "id" is a notification *)
Definition is_note (l : string) : bool :=
  negb (l =? "") && match parse l with Some j => negb (has_key "id" j) | None => false end.

Section Call.
Context {R : Type}.
(** [serde_json::from_value::<R>] *)
Variable decode : json -> option R.

(** client.rs:294-338: the result, whether the current id was cleared, and the
    events left *)
Fixpoint call_loop (id : request_id) (evs : list event) : call_result R * bool * list event :=
  match evs with
  | [] => (CWait, false, [])
  | EIo :: r => (CErr CIo, false, r)
  | ETimeout :: r => (CErr CTimeout, false, r)
  | EClosed :: r => (CErr CClosed, false, r)
  | ELine l :: r =>
    if l =? "" then (CErr CClosed, false, r)
    else match parse l with
    | None => (CErr CParse, false, r)
    | Some j =>
      if negb (has_key "id" j) then call_loop id r
      else match de_response j with
      | None => (CErr CParse, true, r)
      | Some resp =>
        if negb (id_eqb (rs_id resp) id) then (CErr CIdMismatch, true, r)
        else match rs_error resp with
        | Some e => (CErr (CRpc e), true, r)
        | None =>
          match rs_result resp with
          | None => (CErr CNoResult, true, r)
          | Some v => (match decode v with Some x => COk x | None => CErr CParse end, true, r)
          end
        end
      end
    end
  end.
End Call.

(** client.rs:58-66: the counters, and the requests written so far *)
Record client := mkC { next_id : Z; current : Z; sent : list request }.
Definition client_new : client := mkC 1 0 [].
(** [AtomicI64::fetch_add(1)] wraps around *)
Definition wrap64 (n : Z) : Z := ((n + 2 ^ 63) mod 2 ^ 64 - 2 ^ 63)%Z.

(** client.rs:262-292 *)
Definition start_call (c : client) (method : string) (params : option json) : client :=
  mkC (wrap64 (next_id c + 1)) (next_id c) (sent c ++ [mkReq method params (IdNum (next_id c))]).
(** client.rs:262-339 *)
Definition call {R} (decode : json -> option R) (c : client) (method : string) (params : option json)
    (evs : list event) : call_result R * client * list event :=
  let c1 := start_call c method params in
  let '(x, cleared, rest) := call_loop decode (IdNum (next_id c)) evs in
  (x, mkC (next_id c1) (if cleared then 0%Z else current c1) (sent c1), rest).

(** client.rs:34-55 [CancellationHandle::cancel] *)
Definition cancel (c : client) : client :=
  if (current c =? 0)%Z then c
  else mkC (wrap64 (next_id c + 1)) (current c)
           (sent c ++ [mkReq "$/cancel" (Some (JObj [("id", JInt (current c))])) (IdNum (next_id c))]).

(** client.rs:155-167 [shutdown] *)
Definition shutdown (c : client) : client :=
  mkC (wrap64 (next_id c + 1)) (current c) (sent c ++ [mkReq "shutdown" None (IdNum (next_id c))]).

(** any history of a client *)
Inductive c_op := OCall (m : string) (p : option json) (evs : list event) | OCancel | OShutdown.
Definition c_step (c : client) (o : c_op) : client :=
  match o with
  | OCall m p evs => snd (fst (call (fun j => Some j) c m p evs))
  | OCancel => cancel c
  | OShutdown => shutdown c
  end.
Definition c_run (os : list c_op) (c : client) : client := fold_left c_step os c.
End Client.

(* ---------- server ---------- *)

Inductive handler_result := HOk (v : json) | HErr (e : rpc_error) | HPanic.

Section Server.
(** [W]: whatever the handlers act on *)
Context {W : Type}.
Variable parse : string -> option json.
(** server.rs:70: the registered methods; a handler may emit notifications
    (server.rs:18-42) *)
Variable handlers : string -> option (W -> option json -> W * list json * handler_result).
(** server.rs:225-228: the params of initialize have the expected fields, and
    L232-243: the answer *)
Variables (init_params_ok : json -> bool) (init_result : json).

Record server := mkS { initialized : bool; world : W }.

(** what happens while lines are served *)
Inductive trace_event :=
| TInit                        (* initialize succeeded *)
| THandler (m : string)        (* a handler was called *)
| TNote (j : json)             (* notification written *)
| TResp (r : response).        (* response written *)
Inductive next := Go (s : server) | Exit (* process::exit(0) *) | Crash (* panic *).

(** server.rs:220-244 *)
Definition handle_initialize (s : server) (params : option json) : server * (json + rpc_error) :=
  if initialized s then (s, inr (mkErr (-32600) None))
  else match params with
  | None => (s, inr (mkErr (-32602) None))
  | Some p => if init_params_ok p then (mkS true (world s), inl init_result)
              else (s, inr (mkErr (-32602) None))
  end.

Definition respond (id : request_id) (r : json + rpc_error) : response :=
  match r with inl v => mkResp (Some v) None id | inr e => mkResp None (Some e) id end.

(** server.rs:182-218 *)
Definition handle_message (s : server) (line : string) : next * list trace_event :=
  match match parse line with Some j => de_request j | None => None end with
  | None => (Go s, [TResp (respond (IdNum 0) (inr (mkErr (-32700) None)))])
  | Some rq =>
    if rq_method rq =? "initialize" then
      let (s', r) := handle_initialize s (rq_params rq) in
      (Go s', match r with inl _ => [TInit] | inr _ => [] end ++ [TResp (respond (rq_id rq) r)])
    else if rq_method rq =? "shutdown" then (Exit, [])
    else if negb (initialized s) then (Go s, [TResp (respond (rq_id rq) (inr (mkErr (-32600) None)))])
    else match handlers (rq_method rq) with
    | None => (Go s, [TResp (respond (rq_id rq) (inr (mkErr (-32601) None)))])
    | Some h =>
      let '(w, notes, r) := h (world s) (rq_params rq) in
      let pre := THandler (rq_method rq) :: map TNote notes in
      match r with
      | HPanic => (Crash, pre)
      | HOk v => (Go (mkS true w), pre ++ [TResp (respond (rq_id rq) (inl v))])
      | HErr e => (Go (mkS true w), pre ++ [TResp (respond (rq_id rq) (inr e))])
      end
    end
  end.

(** server.rs:159-180: [None] is a line that cannot be read (not UTF-8, I/O
    error): [run] returns the error *)
Fixpoint serve (s : server) (lines : list (option string)) : list trace_event :=
  match lines with
  | [] => []
  | None :: _ => []
  | Some l :: r =>
    if l =? "" then serve s r
    else let (n, tr) := handle_message s l in
         tr ++ match n with Go s' => serve s' r | Exit | Crash => [] end
  end.
End Server.
Arguments Go {W}. Arguments Exit {W}. Arguments Crash {W}.

(* ---------- a client together with a plugin that answers in order ---------- *)

(** The reader thread puts the plugin's lines into a channel in order
    (client.rs:69-103).  [chan] holds the lines not yet taken by the client;
    [new] what the plugin writes on account of this call, [k] how many of the
    waiting lines arrive before the timeout and [n] how often the call is
    cancelled (client.rs:34-55) before it returns. *)
Definition lines_of (evs : list event) : list string :=
  flat_map (fun e => match e with ELine l => [l] | _ => [] end) evs.
Definition sys_call {R} (parse : string -> option json) (decode : json -> option R)
    (c : client) (chan : list string) (m : string) (p : option json)
    (n : nat) (new : list string) (k : nat) : call_result R * client * list string :=
  let c1 := Nat.iter n cancel (start_call c m p) in
  let waiting := chan ++ new in
  let '(x, cleared, rest) :=
    call_loop parse decode (IdNum (next_id c)) (map ELine (firstn k waiting) ++ [ETimeout]) in
  (x, mkC (next_id c1) (if cleared then 0%Z else current c1) (sent c1), lines_of rest ++ skipn k waiting).
