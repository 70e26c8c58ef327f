(** Model of the server rendering one page: the message loop and the fetches made meanwhile.

    Source: /repo/crates/vertigo-cli/src/serve/html/html_response.rs, server_state.rs:41-99, wasm/message.rs. *)

From Coq Require Import List NArith Bool.
Import ListNotations.

(** wasm/message.rs:26-31: [FetchRequest].  [k_content] stands for method, url, headers and body, i.e. for what
    [PartialEq] (message.rs:33-40) compares.  [k_order] is the order in which the [HashMap] of the headers is
    iterated, which [Hash] (message.rs:41-51) feeds to the hasher.  That order depends on the random seed of the map, so
    equal requests may have different orders. *)
Record key := Key { k_content : N; k_order : N }.

(** A lookup in the [HashMap] of the fetches: an entry is found if the hashes and the contents agree.  (Entries
    with different hashes in the same bucket and with the same 7 bit tag would be found as well; not modelled.) *)
Definition key_eqb (a b : key) : bool := (k_content a =? k_content b)%N && (k_order a =? k_order b)%N.

Section Server.
  (** The application inside of the wasm instance: its state, and what a call of one of its callbacks does:
      the messages it sends (in this order) and its next state.  [R] are the responses.  A trap inside of the
      instance is not modelled. *)
  Context {A R : Type}.

  (** wasm/message.rs:6-24: the messages the application can send (wasm_instance.rs:38-138) ... *)
  Inductive amsg :=
  | DomUpdate (u : N)
  | Panic
  | SetTimeoutZero (cb : N)
  | FetchRequest (cb : N) (k : key)
  | PlainResponse.
  (** ... and the others. *)
  Inductive msg :=
  | FromApp (m : amsg)
  | TimeoutAndSendResponse
  | FetchResponse (k : key) (r : R).

  (** Calling callback [cb] with a response, or without argument. *)
  Variable app_call : A -> N -> option R -> A * list amsg.

  (** html_response.rs:22-25: [FetchStatus]. *)
  Inductive status := Requested (callbacks : list N) | Response (r : R).

  (** How the page is finished: html_response.rs:75-120 because nothing is waited for, or because of the timeout;
      html_response.rs:140-144; html_response.rs:211. *)
  Inductive outcome := Built | TimedOut | Panicked | Plain.

  (** html_response.rs:33-40 with the channel, the spawned requests and logs:
      [s_sent] requests sent, [s_recv] fetch requests received from the application, [s_got] responses received,
      [s_ans] callbacks answered, [s_dom] updates fed. *)
  Record server := Server {
    s_app : A;
    s_queue : list msg;
    s_flight : list key;
    s_fetch : list (key * status);
    s_done : option outcome;
    s_sent : list key;
    s_recv : list (N * key);
    s_got : list (key * R);
    s_ans : list (N * key * R);
    s_dom : list N
  }.

  (** [HashMap::get] with the hash and equality of the key (html_response.rs:38). *)
  Fixpoint kget (m : list (key * status)) (k : key) : option status :=
    match m with
    | [] => None
    | (k', v) :: t => if key_eqb k k' then Some v else kget t k
    end.
  (** [HashMap::remove] and the replacing part of [insert]. *)
  Definition kdel (m : list (key * status)) (k : key) : list (key * status) :=
    filter (fun e => negb (key_eqb k (fst e))) m.

  (** html_response.rs:63-73: [waiting_request]. *)
  Definition waiting_request (s : server) : nat :=
    length (filter (fun e => match snd e with Requested _ => true | Response _ => false end) (s_fetch s)).

  (** wasm_instance.rs:177-186: [send_fetch_response]; [k] is only logged. *)
  Definition send_fetch_response (s : server) (k : key) (cb : N) (r : R) : server :=
    let '(a, ms) := app_call (s_app s) cb (Some r) in
    Server a (s_queue s ++ map FromApp ms) (s_flight s) (s_fetch s) (s_done s) (s_sent s) (s_recv s) (s_got s)
           (s_ans s ++ [(cb, k, r)]) (s_dom s).

  (** html_response.rs: the request is answered. *)
  Definition finish (s : server) (o : outcome) : server :=
    Server (s_app s) (s_queue s) (s_flight s) (s_fetch s) (Some o) (s_sent s) (s_recv s) (s_got s) (s_ans s) (s_dom s).

  (** Changing the map, the requests in flight and the logs of requests. *)
  Definition with_fetch (s : server) (fetch : list (key * status)) (flight sent : list key) (recv : list (N * key))
      (got : list (key * R)) : server :=
    Server (s_app s) (s_queue s) flight fetch (s_done s) sent recv got (s_ans s) (s_dom s).

  (** html_response.rs:122-214: [process_message]; [None] is a panic ([unreachable!]). *)
  Definition process_message (s : server) (m : msg) : option server :=
    match m with
    | TimeoutAndSendResponse => Some (finish s TimedOut)
    | FromApp (DomUpdate u) =>
        Some (Server (s_app s) (s_queue s) (s_flight s) (s_fetch s) (s_done s) (s_sent s) (s_recv s) (s_got s) (s_ans s) (s_dom s ++ [u]))
    | FromApp Panic => Some (finish s Panicked)
    | FromApp (SetTimeoutZero cb) =>
        let '(a, ms) := app_call (s_app s) cb None in
        Some (Server a (s_queue s ++ map FromApp ms) (s_flight s) (s_fetch s) (s_done s) (s_sent s) (s_recv s) (s_got s) (s_ans s) (s_dom s))
    | FromApp (FetchRequest cb k) =>
        let recv := s_recv s ++ [(cb, k)] in
        match kget (s_fetch s) k with
        | Some (Requested cbs) =>
            Some (with_fetch s (map (fun e => if key_eqb k (fst e) then (fst e, Requested (cbs ++ [cb])) else e) (s_fetch s))
                             (s_flight s) (s_sent s) recv (s_got s))
        | Some (Response r) => Some (send_fetch_response (with_fetch s (s_fetch s) (s_flight s) (s_sent s) recv (s_got s)) k cb r)
        | None => Some (with_fetch s ((k, Requested [cb]) :: s_fetch s) (s_flight s ++ [k]) (s_sent s ++ [k]) recv (s_got s))
        end
    | FetchResponse k r =>
        let s1 := with_fetch s (kdel (s_fetch s) k) (s_flight s) (s_sent s) (s_recv s) (s_got s ++ [(k, r)]) in
        let put s := with_fetch s ((k, Response r) :: s_fetch s) (s_flight s) (s_sent s) (s_recv s) (s_got s) in
        match kget (s_fetch s) k with
        | Some (Requested cbs) => Some (put (fold_left (fun s cb => send_fetch_response s k cb r) cbs s1))
        | Some (Response _) => None
        | None => Some (put s1)
        end
    | FromApp PlainResponse => Some (finish s Plain)
    end.

  (** The queue of messages and the fetches under way are replaced (plumbing of the model). *)
  Definition push (s : server) (q : list msg) (flight : list key) : server :=
    Server (s_app s) q flight (s_fetch s) (s_done s) (s_sent s) (s_recv s) (s_got s) (s_ans s) (s_dom s).

  (** server_state.rs:41-57: the state after starting the application. *)
  Definition started (a : A) (ms : list amsg) : server := Server a (map FromApp ms) [] [] None [] [] [] [] [].

  (** server_state.rs:69-96, interleaved with the network (html_response.rs:163-174) and the timer
      (server_state.rs:56-63).  A panic is [None]. *)
  Inductive step : server -> option server -> Prop :=
  | st_recv s m q : s_done s = None -> s_queue s = m :: q -> step s (process_message (push s q (s_flight s)) m)
  | st_idle s : s_done s = None -> s_queue s = [] -> waiting_request s = 0 -> step s (Some (finish s Built))
  | st_net s f1 k f2 r : s_flight s = f1 ++ k :: f2 ->
      step s (Some (push s (s_queue s ++ [FetchResponse k r]) (f1 ++ f2)))
  | st_timer s : step s (Some (push s (s_queue s ++ [TimeoutAndSendResponse]) (s_flight s))).

  (** The states of rendering a page. *)
  Inductive reach (a : A) (ms : list amsg) : server -> Prop :=
  | re_start : reach a ms (started a ms)
  | re_step s s1 : reach a ms s -> step s (Some s1) -> reach a ms s1.
End Server.
Arguments msg : clear implicits.
Arguments status : clear implicits.
Arguments server : clear implicits.
