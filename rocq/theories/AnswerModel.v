(** How a request for a page is answered: the start of the application, texts instead of pages, panics.

    Source: MW = /repo/crates/vertigo-macro/src/main_wrap.rs, DR = /repo/crates/vertigo/src/driver_module/driver.rs,
    IE = /repo/crates/vertigo/src/driver_module/init_env.rs, PM = /repo/crates/vertigo/src/driver_module/api/panic_message.rs,
    WI = /repo/crates/vertigo-cli/src/serve/wasm/wasm_instance.rs, HP = /repo/crates/vertigo-cli/src/serve/html/html_response.rs,
    SS = /repo/crates/vertigo-cli/src/serve/server_state.rs, SR = /repo/crates/vertigo-cli/src/serve/serve_run.rs,
    RS = /repo/crates/vertigo-cli/src/serve/response_state.rs.
    The loop is that of ServerModel.v, with the contents of the messages and with traps: on wasm32-unknown-unknown a panic calls the hook and then
    aborts, which [call] (WI 160-162) gives as an error.  What is known about the fetches is a table from requests to callbacks or responses. *)
From Coq Require Import String List NArith Bool.
From Verif Require Import CodecModel DomWire SmallModel.
Import ListNotations.
Local Open Scope string_scope.
Local Open Scope list_scope.
Local Open Scope N_scope.

Section Answer.
  (** The state of the application, responses of other servers, requests to them (with decidable equality). *)
  Context {A R K : Type}.
  Variable keqb : K -> K -> bool.

  (** wasm/message.rs:6-24: what the program can send: updates of the document, messages of panics, timeouts of zero, requests, and the text
      that is the answer. *)
  Inductive amsg := DomUpdate (u : N) | Panic (m : bytes) | SetTimeoutZero (cb : N) | FetchRequest (cb : N) (k : K) | PlainResponse (b : bytes).
  (** ... and the other messages. *)
  Inductive msg := FromApp (m : amsg) | TimeoutAndSendResponse | FetchResponse (k : K) (r : R).

  (** What a call of the program does: it sends messages and returns, or it panics with a message. *)
  Inductive call := Returns (ms : list amsg) (a : A) | Panics (ms : list amsg) (m : bytes).
  (** IE 15-18, PM 11-16, WI 29-40: the messages sent by a call; the hook of panics sends the last one. *)
  Definition sent (c : call) : list amsg := match c with Returns ms _ => ms | Panics ms m => ms ++ [Panic m] end.
  (** WI 149-163: what [call] gives; [None] is an error. *)
  Definition after (c : call) : option A := match c with Returns _ a => Some a | Panics _ _ => None end.

  (** What the function given to [plains] does with a URL (DR 290-295): nothing, a text, a panic. *)
  Inductive handled := NoText | Text (b : bytes) | Fails (m : bytes).
  (** [start_app] with the function of the application, for a URL (MW 21). *)
  Variable start_app : bytes -> call.
  (** The function kept in [_plains_handler] (DR 54, 280-283), if there is one. *)
  Variable plains : A -> option (bytes -> handled).
  (** A call of a callback, with a response or without (WI 173-187). *)
  Variable app_call : A -> N -> option R -> call.
  (** HP 75-120: the page for the updates of the document: HTML, or what is missing. *)
  Variable build : list N -> bytes + bytes.

  (** DR 285-301: [try_get_plain] on the server (there [is_server] is true, C51). *)
  Definition try_get_plain (url : bytes) (a : A) : call :=
    match plains a with
    | None => Returns [] a
    | Some h => match h url with NoText => Returns [] a | Text b => Returns [PlainResponse b] a | Fails m => Panics [] m end
    end.
  (** MW 19-30: [vertigo_entry_function]; the comparison of the versions only logs and is left out. *)
  Definition entry (url : bytes) : call :=
    match start_app url with
    | Panics ms m => Panics ms m
    | Returns ms a =>
        match try_get_plain url a with
        | Returns ms2 a2 => Returns (ms ++ ms2) a2
        | Panics ms2 m => Panics (ms ++ ms2) m
        end
    end.
  (** HP 22-25: [FetchStatus] *)
  Inductive status := Requested (callbacks : list N) | Responded (r : R).
  (** HP 33-40, with the channel and the requests under way; the answer once there is one. *)
  Record server := Server {
    s_app : A; s_queue : list msg; s_flight : list K; s_fetch : list (K * status); s_dom : list N; s_answer : option response
  }.
  (** HP 156: [get_mut] *)
  Fixpoint kget (m : list (K * status)) (k : K) : option status :=
    match m with [] => None | (k', v) :: t => if keqb k k' then Some v else kget t k end.
  (** HP 190, 207: [remove], and the part of [insert] that replaces. *)
  Definition kdel (m : list (K * status)) (k : K) : list (K * status) := filter (fun e => negb (keqb k (fst e))) m.
  (** HP 63-73: [waiting_request] *)
  Definition waiting (s : server) : nat :=
    length (filter (fun e => match snd e with Requested _ => true | Responded _ => false end) (s_fetch s)).

  (** HP 75-120, RS 28-34, 44-50: [build_response] *)
  Definition build_response (s : server) : response :=
    match build (s_dom s) with inl html => Response 200 Html html | inr missing => Response 500 Plain missing end.
  (** SS 70-72, 97-98: the loop is over. *)
  Definition answered (s : server) (r : response) : server :=
    Server (s_app s) (s_queue s) (s_flight s) (s_fetch s) (s_dom s) (Some r).
  (** The program is called: what it sends comes to the end of the queue; [None]: [unwrap] of the error (WI 173-179). *)
  Definition call_app (s : server) (cb : N) (r : option R) : option server :=
    let c := app_call (s_app s) cb r in
    match after c with
    | Some a => Some (Server a (s_queue s ++ map FromApp (sent c)) (s_flight s) (s_fetch s) (s_dom s) (s_answer s))
    | None => None
    end.
  (** HP 195-197: all callbacks of a request. *)
  Fixpoint call_all (s : server) (cbs : list N) (r : R) : option server :=
    match cbs with [] => Some s | cb :: t => match call_app s cb (Some r) with Some s1 => call_all s1 t r | None => None end end.
  (** HP 179-184, 207: the table is replaced. *)
  Definition with_fetch (s : server) (t : list (K * status)) (flight : list K) : server :=
    Server (s_app s) (s_queue s) flight t (s_dom s) (s_answer s).

  (** HP 122-214: [process_message]; [None] is a panic of the server. *)
  Definition process_message (s : server) (m : msg) : option server :=
    match m with
    | TimeoutAndSendResponse => Some (answered s (build_response s))
    | FromApp (DomUpdate u) => Some (Server (s_app s) (s_queue s) (s_flight s) (s_fetch s) (s_dom s ++ [u]) (s_answer s))
    | FromApp (Panic m) => Some (answered s (Response 500 Plain m))
    | FromApp (SetTimeoutZero cb) => call_app s cb None
    | FromApp (FetchRequest cb k) =>
        match kget (s_fetch s) k with
        | Some (Requested cbs) =>
            Some (with_fetch s (map (fun e => if keqb k (fst e) then (fst e, Requested (cbs ++ [cb])) else e) (s_fetch s)) (s_flight s))
        | Some (Responded r) => call_app s cb (Some r)
        | None => Some (with_fetch s ((k, Requested [cb]) :: s_fetch s) (s_flight s ++ [k]))
        end
    | FetchResponse k r =>
        let put s := with_fetch s ((k, Responded r) :: kdel (s_fetch s) k) (s_flight s) in
        match kget (s_fetch s) k with
        | Some (Requested cbs) => option_map put (call_all (with_fetch s (kdel (s_fetch s) k) (s_flight s)) cbs r)
        | Some (Responded _) => None
        | None => Some (put s)
        end
    | FromApp (PlainResponse b) => Some (answered s (Response 200 Plain b))
    end.

  (** SS 66, HP 166-177: the queue and the requests under way are replaced. *)
  Definition push (s : server) (q : list msg) (flight : list K) : server :=
    Server (s_app s) q flight (s_fetch s) (s_dom s) (s_answer s).
  (** SS 41-63: the program is started; [None]: [unwrap] of the error (WI 165-171). *)
  Definition started (url : bytes) : option server :=
    match after (entry url) with
    | Some a => Some (Server a (map FromApp (sent (entry url))) [] [] [] None)
    | None => None
    end.
  (** SS 66-74, 88-93: a message is received. *)
  Inductive receives : server -> option server -> Prop :=
  | st_recv s m q : s_answer s = None -> s_queue s = m :: q -> receives s (process_message (push s q (s_flight s)) m).
  (** SS 75-87, 97-98: nothing is left to wait for; HP 166-177: another server has answered; SS 53-60: the time is over (at any time). *)
  Inductive moves : server -> option server -> Prop :=
  | st_idle s : s_answer s = None -> s_queue s = [] -> waiting s = 0%nat -> moves s (Some (answered s (build_response s)))
  | st_net s f1 k f2 r : s_flight s = f1 ++ k :: f2 -> moves s (Some (push s (s_queue s ++ [FetchResponse k r]) (f1 ++ f2)))
  | st_timer s : moves s (Some (push s (s_queue s ++ [TimeoutAndSendResponse]) (s_flight s))).
  (** SS 41-99: what can become of a request after a number of received messages: the states of its page, or [None] when the task of the request
      has panicked (hyper then closes the connection without an answer). *)
  Inductive reach (url : bytes) : nat -> option server -> Prop :=
  | re_start : reach url 0 (started url)
  | re_recv n s o : reach url n (Some s) -> receives s o -> reach url (S n) o
  | re_move n s o : reach url n (Some s) -> moves s o -> reach url n o.
End Answer.

(** RS 9-16: the content type. *)
Definition type_header (r : response) : bytes := match r_type r with Html => str "text/html; charset=utf-8" | Plain => str "text/plain" end.
(** SR 222-231, RS 82-96: what is sent for a response: status, content type and body; [watch] has the scripts of watch mode. *)
Definition sent_response (watch : option (bytes * bytes)) (r : response) : N * bytes * bytes :=
  let r := match watch with Some (w, s) => add_watch_script w s r | None => r end in
  (r_status r, type_header r, r_body r).
(** SR 202-209: the URL the application is asked for: the path, and the query after a question mark. *)
Definition page_url (path : bytes) (query : option bytes) : bytes := match query with Some q => path ++ [63] ++ q | None => path end.
