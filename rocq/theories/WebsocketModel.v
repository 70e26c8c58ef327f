(** Websockets: the driver in the page, the browser's sockets, and the application's callbacks.

    Source: CN, WS, PR, EM = /repo/crates/vertigo/src/driver_module/src_js/api_browser/websocket/{connection,websocket,
    promise,event_emiter}.ts, API = /repo/crates/vertigo/src/driver_module/api/api_import.rs:546-626, CB = callbacks.rs in the
    same directory, RS = /repo/crates/vertigo/src/websocket.rs.
    The browser's part (sockets, the order of tasks and microtasks) follows the WebSockets and HTML standards.
    Simplified: texts pass the bridge unchanged (C57); ids of callbacks are numbered in order (they are unique, C39); a
    callback that panics is not modelled; logging is left out. *)
From Coq Require Import List Arith Bool.
From Verif Require Import CodecModel.
Import ListNotations.

(** RS 5-9: what the callback is handed. *)
Inductive message := Connection | Message (text : bytes) | Close.

(** WebSockets standard 3.1: [readyState]. *)
Inductive ready := Connecting | Open | Closing | Closed.

(** CN 58-135: one call of [connect]: the socket of the browser ([s_ready]), the variables and promises of the call, whether
    the loop has added its listener for messages (CN 165), and whether the timer of CN 94 is still running. *)
Record sock := Sock { s_owner : nat; s_ready : ready; s_isclose : bool; s_result : option bool; s_done : bool; s_on : bool;
                      s_timer : bool }.

(** CN 148-186: where the loop of a registration is: it waits for the promise [socket] (152) or [done] (172) of a call of
    [connect], for the delay (155, 183), it runs, or it has ended. *)
Inductive pc := PConnect (k : nat) | PDone (k : nat) | PDelay | PRun | PEnd.

(** CN 143-144: the variables of a registration, and its loop. *)
Record reg := Reg { r_host : bytes; r_isconnect : bool; r_conn : option nat; r_pc : pc }.

(** What happens, for the statements: the application asks for a websocket; a socket is created by the page; it opens; a
    text arrives; the other side begins to close it; it is closed (the browser's event); the page asks the browser to close
    it; the application drops its resource, is told something, sends; a text leaves on a socket; [socket.send] throws. *)
Inductive obs := OAsk (id : nat) (host : bytes) | OCreated (id k : nat) (host : bytes) | OOpen (k : nat)
               | OText (k : nat) (t : bytes) | OClosing (k : nat) | OClosed (k : nat) | OClose (k : nat) | ODrop (id : nat)
               | OTold (id : nat) (m : message) | OSend (id : nat) (t : bytes) | OSent (k : nat) (t : bytes) | OThrow.

(** WS 13-14: [controllerList] (only whether there is one: the controller is the registration's) and [socket]; CB 40: the
    registered callbacks; the microtasks waiting (loops to resume); what happened, newest first. *)
Record world := World { w_regs : list reg; w_socks : list sock; w_ctrl : nat -> bool; w_map : nat -> option nat;
                        w_store : nat -> bool; w_queue : list nat; w_log : list obs }.

(** The start of the page: WS 16-20, CB 44-48. *)
Definition start : world := World [] [] (fun _ => false) (fun _ => None) (fun _ => false) [] [].

(** Assignments to the state of the page; [setn], [setf]: an element of a list, an entry of a [Map] (ECMAScript 24.1.3.9). *)
Fixpoint setn {A} (n : nat) (f : A -> A) (l : list A) : list A :=
  match l, n with [], _ => [] | x :: t, O => f x :: t | x :: t, S n => x :: setn n f t end.
(** An entry of a [Map] is replaced (ECMAScript 24.1.3.9; HashMap::insert of CB). *)
Definition setf {A} (n : nat) (v : A) (f : nat -> A) : nat -> A := fun m => if m =? n then v else f m.
(** A variable of the registration [id] (CN 143-144). *)
Definition with_reg (id : nat) (f : reg -> reg) (w : world) : world :=
  World (setn id f (w_regs w)) (w_socks w) (w_ctrl w) (w_map w) (w_store w) (w_queue w) (w_log w).
(** A variable of the call [k] of [connect] (CN 58-70), or its socket. *)
Definition with_sock (k : nat) (f : sock -> sock) (w : world) : world :=
  World (w_regs w) (setn k f (w_socks w)) (w_ctrl w) (w_map w) (w_store w) (w_queue w) (w_log w).
(** WS 13: an entry of [controllerList]. *)
Definition with_ctrl (id : nat) (b : bool) (w : world) : world :=
  World (w_regs w) (w_socks w) (setf id b (w_ctrl w)) (w_map w) (w_store w) (w_queue w) (w_log w).
(** WS 14: an entry of [socket]. *)
Definition with_map (id : nat) (o : option nat) (w : world) : world :=
  World (w_regs w) (w_socks w) (w_ctrl w) (setf id o (w_map w)) (w_store w) (w_queue w) (w_log w).
(** CB 40: an entry of the registered callbacks. *)
Definition with_store (id : nat) (b : bool) (w : world) : world :=
  World (w_regs w) (w_socks w) (w_ctrl w) (w_map w) (setf id b (w_store w)) (w_queue w) (w_log w).
(** What happened is written down (for the statements). *)
Definition note (o : obs) (w : world) : world :=
  World (w_regs w) (w_socks w) (w_ctrl w) (w_map w) (w_store w) (w_queue w) (o :: w_log w).
(** HTML standard 8.1.4.3: a microtask is queued. *)
Definition push (id : nat) (w : world) : world :=
  World (w_regs w) (w_socks w) (w_ctrl w) (w_map w) (w_store w) (w_queue w ++ [id]) (w_log w).
(** Assignments to the variables of CN 58-205. *)
Definition set_pc (p : pc) (r : reg) : reg := Reg (r_host r) (r_isconnect r) (r_conn r) p.
(** CN 159: the connection of the registration. *)
Definition set_conn (k : nat) (r : reg) : reg := Reg (r_host r) (r_isconnect r) (Some k) (r_pc r).
(** CN 200: [isConnect = false]. *)
Definition set_disconnect (r : reg) : reg := Reg (r_host r) false (r_conn r) (r_pc r).
(** WebSockets standard 3.1: the state of the socket. *)
Definition set_ready (x : ready) (s : sock) : sock :=
  Sock (s_owner s) x (s_isclose s) (s_result s) (s_done s) (s_on s) (s_timer s).
(** CN 77: [isClose = true]. *)
Definition set_isclose (s : sock) : sock := Sock (s_owner s) (s_ready s) true (s_result s) (s_done s) (s_on s) (s_timer s).
(** CN 63: the promise [result] gets its value. *)
Definition set_result (b : bool) (s : sock) : sock :=
  Sock (s_owner s) (s_ready s) (s_isclose s) (Some b) (s_done s) (s_on s) (s_timer s).
(** CN 64: the promise [done] is resolved. *)
Definition set_done (s : sock) : sock := Sock (s_owner s) (s_ready s) (s_isclose s) (s_result s) true (s_on s) (s_timer s).
(** CN 165: the listener for messages is added. *)
Definition set_on (s : sock) : sock := Sock (s_owner s) (s_ready s) (s_isclose s) (s_result s) (s_done s) true (s_timer s).
(** CN 94: the timer has fired. *)
Definition set_fired (s : sock) : sock := Sock (s_owner s) (s_ready s) (s_isclose s) (s_result s) (s_done s) (s_on s) false.

(** ECMAScript 27.2: a promise that is resolved queues the loop that awaits it, if there is one. *)
Definition wake_connect (k : nat) (s : sock) (w : world) : world :=
  match nth_error (w_regs w) (s_owner s) with
  | Some (Reg _ _ _ (PConnect k')) => if k' =? k then push (s_owner s) w else w
  | _ => w
  end.
(** ECMAScript 27.2, for the promise [done] (CN 172). *)
Definition wake_done (k : nat) (s : sock) (w : world) : world :=
  match nth_error (w_regs w) (s_owner s) with
  | Some (Reg _ _ _ (PDone k')) => if k' =? k then push (s_owner s) w else w
  | _ => w
  end.

(** PR 45-54 for [result] (CN 63): the first call counts. *)
Definition resolve_result (k : nat) (b : bool) (w : world) : world :=
  match nth_error (w_socks w) k with
  | None => w
  | Some s => match s_result s with Some _ => w | None => wake_connect k s (with_sock k (set_result b) w) end
  end.
(** PR 45-54 for [done] (CN 64). *)
Definition resolve_done (k : nat) (w : world) : world :=
  match nth_error (w_socks w) k with
  | None => w
  | Some s => if s_done s then w else wake_done k s (with_sock k set_done w)
  end.
(** WebSockets standard 3.1: [close()]. *)
Definition browser_close (k : nat) (w : world) : world :=
  match nth_error (w_socks w) k with
  | None => w
  | Some s => match s_ready s with
              | Connecting | Open => note (OClose k) (with_sock k (set_ready Closing) w)
              | _ => w end
  end.
(** CN 70-81: [closeSocket]. *)
Definition close_socket (k : nat) (w : world) : world :=
  match nth_error (w_socks w) k with
  | None => w
  | Some s => if s_isclose s then w
              else browser_close k (resolve_done k (resolve_result k false (with_sock k set_isclose w)))
  end.

(** What the application does: it opens a websocket, drops the resource it got, sends through a connection it was handed. *)
Inductive action := AOpen (host : bytes) | ADrop (id : nat) | ASend (id : nat) (t : bytes).

(** Whether the application was ever handed a connection of this websocket (RS 29-36: only then it can send). *)
Definition has_handle (id : nat) (log : list obs) : bool :=
  existsb (fun o => match o with OTold i Connection => i =? id | _ => false end) log.

(** What the browser does, and other tasks: the next microtask runs; a socket opens; a text or something else arrives; the
    other side begins to close; a socket is closed, or fails; the timer of CN 94 fires; that of CN 6 fires; the application
    does something on its own. *)
Inductive event := EMicro | EOpen (k : nat) | EText (k : nat) (t : bytes) | EBinary (k : nat) | EClosing (k : nat)
                 | EClosed (k : nat) | ETimeout (k : nat) | ERetry (id : nat) | EAct (a : action).

Section Websocket.
  (** Whether [new WebSocket] accepts the address (CN 65; else it throws). *)
  Variable valid : bytes -> bool.
  (** What the application does in a callback, given all that happened (newest first). *)
  Variable app : list obs -> list action.

  (** CN 149-152: the top of the loop up to the first [await] (CN 58-135 is [connect]; an exception ends the loop, 187). *)
  Definition loop_top (id : nat) (w : world) : world :=
    match nth_error (w_regs w) id with
    | None => w
    | Some r =>
        if r_isconnect r && valid (r_host r)
        then let k := length (w_socks w) in
             with_reg id (set_pc (PConnect k))
               (note (OCreated id k (r_host r))
                  (World (w_regs w) (w_socks w ++ [Sock id Connecting false None false false true]) (w_ctrl w) (w_map w)
                         (w_store w) (w_queue w) (w_log w)))
        else with_reg id (set_pc PEnd) w
    end.

  (** CN 199-202: [dispose]. *)
  Definition dispose (id : nat) (w : world) : world :=
    let w := with_reg id set_disconnect w in
    match nth_error (w_regs w) id with
    | Some r => match r_conn r with Some k => close_socket k w | None => w end
    | None => w
    end.
  (** WS 62-72: [websocket_unregister_callback]. *)
  Definition unregister (id : nat) (w : world) : world :=
    if w_ctrl w id then with_ctrl id false (dispose id w) else w.
  (** WebSockets standard 3.1: [send()]. *)
  Definition browser_send (k : nat) (t : bytes) (w : world) : world :=
    match nth_error (w_socks w) k with
    | None => w
    | Some s => match s_ready s with Connecting => note OThrow w | Open => note (OSent k t) w | _ => w end
    end.
  (** WS 74-85 with CN 86-91: [websocket_send_message]. *)
  Definition send (id : nat) (t : bytes) (w : world) : world :=
    match w_map w id with
    | None => w
    | Some k => match nth_error (w_socks w) k with
                | Some s => if s_isclose s then w else browser_send k t w
                | None => w end
    end.

  (** API 546-590: opening (CB 69-87, WS 22-60, CN 137-189) and dropping a websocket; RS 29-36: sending.  A resource is
      dropped at most once. *)
  Definition act (a : action) (w : world) : world :=
    match a with
    | AOpen host =>
        let id := length (w_regs w) in
        let w := note (OAsk id host) (with_store id true w) in
        let w := World (w_regs w ++ [Reg host true None PRun]) (w_socks w) (w_ctrl w) (w_map w) (w_store w) (w_queue w) (w_log w) in
        with_ctrl id true (loop_top id w)
    | ADrop id =>
        if w_store w id then with_store id false (unregister id (note (ODrop id) w)) else w
    | ASend id t => if has_handle id (w_log w) then send id t (note (OSend id t) w) else w
    end.
  (** The application does several things. *)
  Definition acts (l : list action) (w : world) : world := fold_left (fun w a => act a w) l w.

  (** CB 89-99 with API 559-579: the callback is called, and the application acts. *)
  Definition wasm_callback (id : nat) (m : message) (w : world) : world :=
    if w_store w id then let w := note (OTold id m) w in acts (app (w_log w)) w else w.
  (** WS 32-56: the three kinds of messages of a registration ([k] is the socket of the first). *)
  Definition on_socket (id k : nat) (w : world) : world :=
    if w_ctrl w id then wasm_callback id Connection (with_map id (Some k) w) else w.
  (** WS 44-47: a message. *)
  Definition on_text (id : nat) (t : bytes) (w : world) : world :=
    if w_ctrl w id then wasm_callback id (Message t) w else w.
  (** WS 49-53: the connection is closed. *)
  Definition on_close (id : nat) (w : world) : world :=
    if w_ctrl w id then wasm_callback id Close (with_map id None w) else w.

  (** CN 172: [await openSocketResult.done]. *)
  Definition await_done (id k : nat) (w : world) : world :=
    let w := with_reg id (set_pc (PDone k)) w in
    match nth_error (w_socks w) k with Some s => if s_done s then push id w else w | None => w end.

  (** CN 152-186: the loop goes on after an [await]. *)
  Definition resume (id : nat) (w : world) : world :=
    match nth_error (w_regs w) id with
    | Some (Reg _ _ _ (PConnect k)) =>
        match nth_error (w_socks w) k with
        | Some s => match s_result s with
                    | Some true =>
                        await_done id k
                          (with_sock k set_on (on_socket id k (with_reg id (fun r => set_pc PRun (set_conn k r)) w)))
                    | _ => with_reg id (set_pc PDelay) w end
        | None => w end
    | Some (Reg _ _ _ (PDone k)) =>
        let w := on_close id (with_reg id (set_pc PRun) w) in
        match nth_error (w_regs w) id with
        | Some r => with_reg id (set_pc (if r_isconnect r then PDelay else PEnd)) w
        | None => w end
    | _ => w
    end.

  (** One task, or one microtask; a task begins when no microtask is waiting (HTML standard 8.1.7).  [None]: this cannot
      happen now.  The delay of CN 11-15 and the [await]s around it run through without other tasks in between. *)
  Definition step (e : event) (w : world) : option world :=
    match e, w_queue w with
    | EMicro, id :: q =>
        Some (resume id (World (w_regs w) (w_socks w) (w_ctrl w) (w_map w) (w_store w) q (w_log w)))
    | EMicro, [] => None
    | _, _ :: _ => None
    | EAct a, [] => Some (act a w)
    | ERetry id, [] =>                                                     (* CN 6, 13, 155-156, 183 *)
        match nth_error (w_regs w) id with
        | Some (Reg _ _ _ PDelay) => Some (loop_top id w)
        | _ => None end
    | EOpen k, [] =>                                                       (* CN 101-104 *)
        match nth_error (w_socks w) k with
        | Some s => match s_ready s with
                    | Connecting => Some (resolve_result k true (note (OOpen k) (with_sock k (set_ready Open) w)))
                    | _ => None end
        | None => None end
    | EText k t, [] =>                                                     (* CN 111-121, EM 25-35, CN 165-170 *)
        match nth_error (w_socks w) k with
        | Some s => match s_ready s with
                    | Open => let w := note (OText k t) w in
                              Some (if s_isclose s then w else if s_on s then on_text (s_owner s) t w else w)
                    | _ => None end
        | None => None end
    | EBinary k, [] =>                                                     (* CN 123: refused *)
        match nth_error (w_socks w) k with
        | Some s => match s_ready s with Open => Some w | _ => None end
        | None => None end
    | EClosing k, [] =>                                                    (* the closing handshake of the other side *)
        match nth_error (w_socks w) k with
        | Some s => match s_ready s with Open => Some (note (OClosing k) (with_sock k (set_ready Closing) w)) | _ => None end
        | None => None end
    | EClosed k, [] =>                                                     (* CN 106-109 (errors), 128 *)
        match nth_error (w_socks w) k with
        | Some s => match s_ready s with
                    | Closed => None
                    | _ => Some (close_socket k (note (OClosed k) (with_sock k (set_ready Closed) w))) end
        | None => None end
    | ETimeout k, [] =>                                                    (* CN 94-99 *)
        match nth_error (w_socks w) k with
        | Some s => if s_timer s
                    then let w := with_sock k set_fired w in
                         Some (match s_result s with None => close_socket k w | Some _ => w end)
                    else None
        | None => None end
    end.

  (** The tasks and microtasks of a page, one after the other. *)
  Fixpoint run (es : list event) (w : world) : option world :=
    match es with
    | [] => Some w
    | e :: es => match step e w with Some w => run es w | None => None end
    end.
End Websocket.
