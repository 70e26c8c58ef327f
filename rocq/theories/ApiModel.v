(** API calls of an application and their dispatch on the server (property C47).

    Source: /repo/crates/vertigo/src/driver_module/api/{api_import,api_dom_access}.rs (A/ below) and
    /repo/crates/vertigo-cli/src/serve/wasm/{js_value_match,decode_commands,wasm_instance}.rs (W/ below). *)

From Coq Require Import String List NArith ZArith Bool.
From Verif Require Import CodecModel FloatModel JsonModel DomWire FetchModel.
Import ListNotations.
Local Open Scope string_scope.
Local Open Scope list_scope.

(** ** Messages *)

(** A/api_dom_access.rs:27-31 *)
Definition d_api : jsval := VList [VString (str "api")].
(** A/api_dom_access.rs:44-51 *)
Definition d_root (name : string) : jsval := VList [VString (str "root"); VString (str name)].
(** A/api_dom_access.rs:54-59 *)
Definition d_get (name : string) : jsval := VList [VString (str "get"); VString (str name)].
(** A/api_dom_access.rs:73-80 *)
Definition d_call (name : string) (params : list jsval) : jsval := VList (VString (str "call") :: VString (str name) :: params).

(** The log levels: A/api_import.rs:17-35. *)
Inductive level := LDebug | LInfo | LLog | LWarn | LError.
(** A/api_import.rs:26-34: the name of the console function. *)
Definition level_str (l : level) : string :=
  match l with LDebug => "debug" | LInfo => "info" | LLog => "log" | LWarn => "warn" | LError => "error" end.

(** The calls, A/api_import.rs.  A callback id, a time, a port etc. is a number; [headers] is the HashMap in iteration order. *)
Inductive call :=
| CConsole (l : level) (a1 a2 a3 a4 : bytes)                       (* 73-107 *)
| CCookieGet (name : bytes)                                        (* 109-123 *)
| CCookieGetJson (name : bytes)                                    (* 125-142, in a browser only *)
| CCookieSet (name value : bytes) (expires : N)                    (* 144-161, in a browser only *)
| CCookieSetJson (name : bytes) (value : json) (expires : N)       (* 163-176 *)
| CIntervalSet (time cb : N)                                       (* 178-192 *)
| CIntervalClear (id : Z)                                          (* 203-211, 239-247 *)
| CTimeoutSet (time cb : N)                                        (* 214-228 *)
| CNow                                                             (* 270-276 *)
| CTimezone                                                        (* 289-294 *)
| CHistoryBack                                                     (* 308-314 *)
| CHashGet                                                         (* 320-326 *)
| CHashPush (hash : bytes)                                         (* 336-342 *)
| CHashAdd (cb : N)                                                (* 360-364 *)
| CHashRemove (cb : N)                                             (* 368-375 *)
| CHistoryGet                                                      (* 383-389 *)
| CHistoryPush (path : bytes)                                      (* 399-405 *)
| CHistoryReplace (path : bytes)                                   (* 407-413 *)
| CHistoryAdd (cb : N)                                             (* 431-435 *)
| CHistoryRemove (cb : N)                                          (* 439-444 *)
| CFetch (cb : N) (method url : bytes) (headers : list (bytes * bytes)) (body : option fbody) (* 511-541 *)
| CWsRegister (host : bytes) (cb : N)                              (* 592-601 *)
| CWsUnregister (cb : N)                                           (* 603-612 *)
| CWsSend (cb : N) (message : bytes)                               (* 614-626 *)
| CDomBulkUpdate (data : json)                                     (* 628-634 *)
| CRandom (min max : N)                                            (* 644-649 *)
| CIsBrowser                                                       (* 660-665 *)
| CEnv (name : bytes)                                              (* 679-684 *)
| CPlainResponse (body : bytes).                                   (* 699-707 *)

(** A/api_import.rs:511-521 with js_json_struct.rs:311-322. *)
Definition headers_json (h : list (bytes * bytes)) : json := JObject (hash_from (map (fun e => (fst e, JString (snd e))) h)).

(** A/api_import.rs:533-538 *)
Definition body_value (b : option fbody) : jsval :=
  match b with
  | Some (BText s) => VString s
  | Some (BJson j) => VJson j
  | Some (BBin b) => VVec b
  | None => VUndefined
  end.

(** A/api_import.rs (lines at [call]): the path built for [dom_access]. *)
Definition builder (c : call) : list jsval :=
  match c with
  | CConsole l a1 a2 a3 a4 => [d_root "window"; d_get "console"; d_call (level_str l) [VString a1; VString a2; VString a3; VString a4]]
  | CCookieGet n => [d_api; d_get "cookie"; d_call "get" [VString n]]
  | CCookieGetJson n => [d_api; d_get "cookie"; d_call "get_json" [VString n]]
  | CCookieSet n v e => [d_api; d_get "cookie"; d_call "set" [VString n; VString v; VU64 e]]
  | CCookieSetJson n v e => [d_api; d_get "cookie"; d_call "set_json" [VString n; VJson v; VU64 e]]
  | CIntervalSet t cb => [d_api; d_get "interval"; d_call "interval_set" [VU32 t; VU64 cb]]
  | CIntervalClear id => [d_api; d_get "interval"; d_call "interval_clear" [VI32 id]]
  | CTimeoutSet t cb => [d_api; d_get "interval"; d_call "timeout_set" [VU32 t; VU64 cb]]
  | CNow => [d_root "window"; d_get "Date"; d_call "now" []]
  | CTimezone => [d_api; d_call "getTimezoneOffset" []]
  | CHistoryBack => [d_root "window"; d_get "history"; d_call "back" []]
  | CHashGet => [d_api; d_get "hashRouter"; d_call "get" []]
  | CHashPush h => [d_api; d_get "hashRouter"; d_call "push" [VString h]]
  | CHashAdd cb => [d_api; d_get "hashRouter"; d_call "add" [VU64 cb]]
  | CHashRemove cb => [d_api; d_get "hashRouter"; d_call "remove" [VU64 cb]]
  | CHistoryGet => [d_api; d_get "historyLocation"; d_call "get" []]
  | CHistoryPush p => [d_api; d_get "historyLocation"; d_call "push" [VString p]]
  | CHistoryReplace p => [d_api; d_get "historyLocation"; d_call "replace" [VString p]]
  | CHistoryAdd cb => [d_api; d_get "historyLocation"; d_call "add" [VU64 cb]]
  | CHistoryRemove cb => [d_api; d_get "historyLocation"; d_call "remove" [VU64 cb]]
  | CFetch cb m u h b =>
      [d_api; d_get "fetch"; d_call "fetch_send_request" [VU64 cb; VString m; VString u; VJson (headers_json h); body_value b]]
  | CWsRegister h cb => [d_api; d_get "websocket"; d_call "websocket_register_callback" [VString h; VU64 cb]]
  | CWsUnregister cb => [d_api; d_get "websocket"; d_call "websocket_unregister_callback" [VU64 cb]]
  | CWsSend cb m => [d_api; d_get "websocket"; d_call "websocket_send_message" [VU64 cb; VString m]]
  | CDomBulkUpdate d => [d_api; d_get "dom"; d_call "dom_bulk_update" [VJson d]]
  | CRandom a b => [d_api; d_call "getRandom" [VU32 a; VU32 b]]
  | CIsBrowser => [d_api; d_call "isBrowser" []]
  | CEnv n => [d_api; d_call "get_env" [VString n]]
  | CPlainResponse b => [VList [VString (str "plain_response")]; VString b]  (* api_dom_access.rs:85-89 *)
  end.

(** A/api_dom_access.rs:115 *)
Definition message (c : call) : jsval := VList (builder c).

(** ** The matcher, W/js_value_match.rs:47-211.  A [Match] is the rest of the list; [None] is [Err(())]. *)

(** 52-60 *)
Definition m_new (v : jsval) : option (list jsval) := match v with VList l => Some l | _ => None end.
(** 66-78 *)
Definition m_str (pattern : string) (l : list jsval) : option (list jsval) :=
  match l with
  | VString s :: rest => if bytes_eqb (str pattern) s then Some rest else None
  | _ => None
  end.
(** 80-88 *)
Definition m_u32 (l : list jsval) : option (list jsval * N) := match l with VU32 n :: rest => Some (rest, n) | _ => None end.
(** 90-98 *)
Definition m_u64 (l : list jsval) : option (list jsval * N) := match l with VU64 n :: rest => Some (rest, n) | _ => None end.
(** 100-108 *)
Definition m_string (l : list jsval) : option (list jsval * bytes) := match l with VString s :: rest => Some (rest, s) | _ => None end.
(** 110-118 *)
Definition m_json (l : list jsval) : option (list jsval * json) := match l with VJson j :: rest => Some (rest, j) | _ => None end.
(** 120-128 *)
Definition m_any (l : list jsval) : option (list jsval * jsval) := match l with v :: rest => Some (rest, v) | [] => None end.
(** 149-174 (the comparison after the lengths agree) *)
Fixpoint same_strings (pattern : list string) (l : list jsval) : bool :=
  match pattern, l with
  | [], [] => true
  | p :: ps, VString s :: vs => bytes_eqb (str p) s && same_strings ps vs
  | _, _ => false
  end.
(** W/js_value_match.rs:149-175 ([test_list]). *)
Definition m_test_list (pattern : list string) (l : list jsval) : option (list jsval) :=
  match l with
  | VList inner :: rest => if same_strings pattern inner then Some rest else None
  | _ => None
  end.
(** 176-194 *)
Definition m_test_fn {K} (f : list jsval -> option K) (l : list jsval) : option (list jsval * K) :=
  match l with
  | VList inner :: rest => match f inner with Some k => Some (rest, k) | None => None end
  | _ => None
  end.
(** 196-204 *)
Definition m_end (l : list jsval) : option unit := match l with [] => Some tt | _ => None end.

(** The operator [?] of W/js_value_match.rs (a failing step fails the whole match). *)
Definition obind {A B} (m : option A) (f : A -> option B) : option B := match m with Some a => f a | None => None end.
Notation "'let?' x := m ; k" := (obind m (fun x => k)) (at level 200, x pattern, m at level 100, k at level 200).

(** ** The handlers, W/decode_commands.rs *)

(** 8-20 *)
Definition value_body (v : jsval) : option (option fbody) :=
  match v with
  | VJson j => Some (Some (BJson j))
  | VString s => Some (Some (BText s))
  | VVec b => Some (Some (BBin b))
  | VUndefined => Some None
  | _ => None
  end.
(** 30-36 *)
Definition match_is_browser (v : jsval) : option unit :=
  let? m := m_new v; let? m := m_test_list ["api"] m; let? _ := m_test_list ["call"; "isBrowser"] m; Some tt.
(** 38-44 *)
Definition match_cookie_command (v : jsval) : option unit :=
  let? m := m_new v; let? m := m_test_list ["api"] m; let? _ := m_test_list ["get"; "cookie"] m; Some tt.
(** 46-53 *)
Definition match_plain_response (v : jsval) : option bytes :=
  let? m := m_new v; let? m := m_test_list ["plain_response"] m; let? (m, body) := m_string m; let? _ := m_end m; Some body.
(** 55-63 *)
Definition match_history_router (v : jsval) : option unit :=
  let? m := m_new v; let? m := m_test_list ["api"] m; let? m := m_test_list ["get"; "historyLocation"] m;
  let? m := m_test_list ["call"; "get"] m; m_end m.
(** 65-79 *)
Definition match_get_env (v : jsval) : option bytes :=
  let? m := m_new v; let? m := m_test_list ["api"] m;
  let? (m, name) := m_test_fn (fun m =>
    let? m := m_str "call" m; let? m := m_str "get_env" m; let? (m, name) := m_string m; let? _ := m_end m; Some name) m;
  let? _ := m_end m; Some name.
(** 81-96 *)
Definition match_history_router_callback (v : jsval) : option unit :=
  let? m := m_new v; let? m := m_test_list ["api"] m; let? m := m_test_list ["get"; "historyLocation"] m;
  let? (m, _) := m_test_fn (fun m =>
    let? m := m_str "call" m; let? m := m_str "add" m; let? (m, cb) := m_u64 m; let? _ := m_end m; Some cb) m;
  m_end m.
(** 98-113 *)
Definition match_dom_bulk_update (v : jsval) : option json :=
  let? m := m_new v; let? m := m_test_list ["api"] m; let? m := m_test_list ["get"; "dom"] m;
  let? (m, data) := m_test_fn (fun m =>
    let? m := m_str "call" m; let? m := m_str "dom_bulk_update" m; let? (m, data) := m_json m; let? _ := m_end m; Some data) m;
  let? _ := m_end m; Some data.
(** 115-137 *)
Definition match_log (v : jsval) : option (bytes * bytes) :=
  let? m := m_new v; let? m := m_test_list ["root"; "window"] m; let? m := m_test_list ["get"; "console"] m;
  let? (m, r) := m_test_fn (fun m =>
    let? m := m_str "call" m; let? (m, ty) := m_string m; let? (m, msg) := m_string m; let? (m, _) := m_string m;
    let? (m, _) := m_string m; let? (m, _) := m_string m; let? _ := m_end m; Some (ty, msg)) m;
  let? _ := m_end m; Some r.
(** 139-149 (the time is read by the caller here) *)
Definition match_date_now (v : jsval) : option unit :=
  let? m := m_new v; let? m := m_test_list ["root"; "window"] m; let? m := m_test_list ["get"; "Date"] m;
  let? m := m_test_list ["call"; "now"] m; m_end m.
(** 151-158 *)
Definition match_websocket (v : jsval) : option unit :=
  let? m := m_new v; let? m := m_test_list ["api"] m; let? _ := m_test_list ["get"; "websocket"] m; Some tt.
(** 160-181; [None] inside is [NoResult] (message.rs:60-63) *)
Definition match_interval (v : jsval) : option (option (N * N)) :=
  let? m := m_new v; let? m := m_test_list ["api"] m; let? m := m_test_list ["get"; "interval"] m;
  let? (m, r) := m_test_fn (fun m =>
    let? m := m_str "call" m;
    match m_str "timeout_set" m with
    | Some m => let? (m, time) := m_u32 m; let? (_, cb) := m_u64 m; Some (Some (time, cb))
    | None => Some None
    end) m;
  let? _ := m_end m; Some r.

(** [from_json::<HashMap<String, String>>] *)
Definition headers_of (j : json) : option (list (bytes * bytes)) :=
  match from_json no_env 2 (TMap TString) [] j with
  | JOk (WMap m) => Some (map (fun e => (fst e, match snd e with WStr s => s | _ => [] end)) m)
  | _ => None
  end.

(** message.rs:25-31 *)
Record request := Request { q_method : bytes; q_url : bytes; q_headers : list (bytes * bytes); q_body : option fbody }.

(** 183-220 *)
Definition match_fetch (v : jsval) : option (N * request) :=
  let? m := m_new v; let? m := m_test_list ["api"] m; let? m := m_test_list ["get"; "fetch"] m;
  let? (m, r) := m_test_fn (fun m =>
    let? m := m_str "call" m; let? m := m_str "fetch_send_request" m; let? (m, cb) := m_u64 m; let? (m, method) := m_string m;
    let? (m, url) := m_string m; let? (m, headers) := m_json m; let? (m, body) := m_any m; let? _ := m_end m;
    let? headers := headers_of headers; let? body := value_body body; Some (cb, Request method url headers body)) m;
  let? _ := m_end m; Some r.

(** ** Dispatch: W/wasm_instance.rs:44-139 *)

(** Which branch is taken, with what it matched. *)
Inductive handled :=
| HCookie | HPlain (body : bytes) | HHistory | HEnv (name : bytes) | HHistoryCallback | HDom (data : json)
| HLog (ty msg : bytes) | HNow | HTimeout (time cb : N) | HInterval | HWebsocket | HFetch (cb : N) (r : request) | HIsBrowser
| HUnsupported.

(** The branches in order, each with its matcher. *)
Definition branches : list (jsval -> option handled) :=
  [ (fun v => option_map (fun _ => HCookie) (match_cookie_command v));
    (fun v => option_map HPlain (match_plain_response v));
    (fun v => option_map (fun _ => HHistory) (match_history_router v));
    (fun v => option_map HEnv (match_get_env v));
    (fun v => option_map (fun _ => HHistoryCallback) (match_history_router_callback v));
    (fun v => option_map HDom (match_dom_bulk_update v));
    (fun v => option_map (fun r => HLog (fst r) (snd r)) (match_log v));
    (fun v => option_map (fun _ => HNow) (match_date_now v));
    (fun v => option_map (fun r => match r with Some (t, cb) => HTimeout t cb | None => HInterval end) (match_interval v));
    (fun v => option_map (fun _ => HWebsocket) (match_websocket v));
    (fun v => option_map (fun r => HFetch (fst r) (snd r)) (match_fetch v));
    (fun v => option_map (fun _ => HIsBrowser) (match_is_browser v)) ].

(** W/wasm_instance.rs:51-138: the first branch that matches answers; else 137. *)
Fixpoint first_of (bs : list (jsval -> option handled)) (v : jsval) : handled :=
  match bs with
  | [] => HUnsupported
  | b :: t => match b v with Some h => h | None => first_of t v end
  end.
(** W/wasm_instance.rs:48-139: what one call of [dom_access] does. *)
Definition dispatch (v : jsval) : handled := first_of branches v.

(** What the branch sends to the message loop (the [amsg] of ServerModel.v, with data). *)
Inductive effect :=
| EPlain (body : bytes) | EDom (data : json) | ETimeoutZero (cb : N) | EFetch (cb : N) (r : request)
| EPanic. (* import_panic_message, wasm_instance.rs:29-40 *)

(** wasm_instance.rs:51-138: the effects and the value returned ([0] is read as [Undefined], arguments.rs).  [url],
    [env] and [now] come from the request and the clock. *)
Definition respond (url : bytes) (env : bytes -> option bytes) (now : Z) (h : handled) : list effect * jsval :=
  match h with
  | HCookie | HHistoryCallback | HInterval | HWebsocket | HUnsupported | HLog _ _ => ([], VUndefined)
  | HPlain body => ([EPlain body], VUndefined)
  | HHistory => ([], VString url)
  | HEnv name => ([], match env name with Some v => VString v | None => VNull end)
  | HDom data => ([EDom data], VUndefined)
  | HNow => ([], VI64 now)
  | HTimeout t cb => (if (t =? 0)%N then [ETimeoutZero cb] else [], VI32 0)
  | HFetch cb r => ([EFetch cb r], VUndefined)
  | HIsBrowser => ([], VFalse)
  end.

(** ** What the application gets, A/api_import.rs *)

(** A/api_import.rs: the Rust values the calls return. *)
Inductive answer :=
| AUnit | AString (s : bytes) | AInt (z : Z) | ABool (b : bool) | AOption (s : option bytes).

(** How a call uses the returned value: the answer, and whether [panic_message] is called. *)
Definition use (c : call) (r : jsval) : answer * bool :=
  let exec := (AUnit, match r with VUndefined => false | _ => true end) in  (* api_dom_access.rs:101-112 *)
  match c with
  | CCookieGet _ | CHashGet | CHistoryGet => (AString (match r with VString s => s | _ => [] end), false)
  | CCookieGetJson _ => (AUnit, false)      (* not called on a server; the value is left out *)
  | CIntervalSet _ _ | CTimeoutSet _ _ => (AInt (match r with VI32 z => z | _ => 0 end), false)
  | CNow => match r with VI64 z => (AInt z, false) | VF64 b => (AInt (f64_to_Z (- 9223372036854775808) 9223372036854775807 b), false) | _ => (AInt 0, true) end
  | CTimezone => match r with VI32 z => (AInt (z * -60), false) | _ => (AInt 0, true) end
  | CRandom min _ => match r with VI32 z => (AInt (Z.of_N (of_signed two32 z)), false) | _ => (AInt (Z.of_N min), true) end
  | CIsBrowser => (ABool (match r with VTrue => true | _ => false end), false)
  | CEnv _ => (AOption (match r with VString s => Some s | _ => None end), false)
  | _ => exec
  end.

(** A call during server rendering: what the message loop gets and what the application gets. *)
Definition server_call (url : bytes) (env : bytes -> option bytes) (now : Z) (c : call) : list effect * answer :=
  let '(es, r) := respond url env now (dispatch (message c)) in
  let '(a, panic) := use c r in
  (es ++ (if panic then [EPanic] else []), a).
