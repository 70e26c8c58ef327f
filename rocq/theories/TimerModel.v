(** Timers and spawned futures, in the browser and while the server renders a page.

    AI = /repo/crates/vertigo/src/driver_module/api/api_import.rs, FS = /repo/crates/vertigo/src/driver_module/utils/futures_spawn.rs,
    IV = /repo/crates/vertigo/src/driver_module/src_js/api_browser/interval.ts, CB = /repo/crates/vertigo/src/driver_module/api/callbacks.rs,
    VM = /repo/crates/vertigo/src/computed/struct_mut/value_mut.rs, DC = /repo/crates/vertigo-cli/src/serve/wasm/decode_commands.rs,
    WI = /repo/crates/vertigo-cli/src/serve/wasm/wasm_instance.rs, HR = /repo/crates/vertigo-cli/src/serve/html/html_response.rs.
    The timers of the browser follow the HTML standard, 8.7; their ids count up, as in all browsers (the standard would allow an
    id to be used again after its timer is gone).  Time is in milliseconds and stands still while code runs; a timer fires at any
    time from when it is due on (this includes the delays of nested timers).  Numbers pass the bridge as in C57.  What the
    application does in a callback or in a poll is an arbitrary function of everything that happened. *)
From Coq Require Import List NArith Bool.
Import ListNotations.
Local Open Scope N_scope.

(** AI 178-212 (interval_set), 214-248 (timeout_set), 250-264 (set_timeout_and_detach). *)
Inductive kind := Interval | Timeout | Detached.
(** What happens: a timer [r] is set, its function is called, its resource is dropped; a future [k] is spawned, its waker is
    called, it is polled, and the poll ends (with [true]: it is done). *)
Inductive obs :=
| OSet (r : N) (kd : kind) (d : N) | OCall (r : N) | ODrop (r : N)
| OSpawn (k : N) | OWake (k : N) | OPoll (k : N) | OPolled (k : N) (ready : bool).

(** HTML 8.7: an entry of the map of timers, with the function it calls (IV 12-14, 24-26: a callback of wasm). *)
Record timer := Timer { t_id : N; t_repeat : bool; t_cb : N; t_ms : N; t_due : N }.
(** The functions registered (CB 50-67): of the application (AI 179, 215), or running a future (FS 45-47). *)
Inductive what := App | Run (k : N).
(** With the box of AI 253-260, or without. *)
Record entry := Entry { e_what : what; e_box : bool }.

(** The world. [w_next]: CB 12; [w_handles]: the resources alive with the timer ids they hold (AI 203, 239), [true]: held by
    AI 251; [w_tasks]: the futures that are not done (FS 24: [inner]). *)
Record world := World {
  w_now : N; w_ids : N; w_timers : list timer;
  w_next : N; w_store : N -> option entry; w_handles : N -> option (N * bool);
  w_spawned : N; w_tasks : N -> bool;
  w_log : list (N * obs) }.

(** A function changed at one place. *)
Definition setf {A} (x : N) (a : A) (f : N -> A) (y : N) : A := if y =? x then a else f y.

(** What happened is written down (for the statements). *)
Definition note (o : obs) (w : world) : world :=
  World (w_now w) (w_ids w) (w_timers w) (w_next w) (w_store w) (w_handles w) (w_spawned w) (w_tasks w) ((w_now w, o) :: w_log w).
(** The timers of the platform are replaced. *)
Definition with_timers (l : list timer) (w : world) : world :=
  World (w_now w) (w_ids w) l (w_next w) (w_store w) (w_handles w) (w_spawned w) (w_tasks w) (w_log w).
(** CB 57 and 60-62: an entry of the store of callbacks. *)
Definition with_store (r : N) (e : option entry) (w : world) : world :=
  World (w_now w) (w_ids w) (w_timers w) (w_next w) (setf r e (w_store w)) (w_handles w) (w_spawned w) (w_tasks w) (w_log w).
(** A resource begins or ends. *)
Definition with_handle (r : N) (h : option (N * bool)) (w : world) : world :=
  World (w_now w) (w_ids w) (w_timers w) (w_next w) (w_store w) (setf r h (w_handles w)) (w_spawned w) (w_tasks w) (w_log w).
(** FS 34, 89: [inner] of a task. *)
Definition with_task (k : N) (b : bool) (w : world) : world :=
  World (w_now w) (w_ids w) (w_timers w) (w_next w) (w_store w) (w_handles w) (w_spawned w) (setf k b (w_tasks w)) (w_log w).

(** HTML 8.7 with Web IDL 3.2.4.7 ([long timeout]): what [setTimeout] makes of the duration, a u32. *)
Definition js_ms (d : N) : N := if d <? 2147483648 then d else 0.
(** AI 194-199, 230-235 with jsvalue.ts:418: a timer id as it arrives in Rust. *)
Definition received (id : N) : N := if id <? 2147483648 then id else 0.

(** What the application does: AI 178, 214, 250 with a duration; it drops a resource it was given; it spawns a future (FS 11); it
    calls the waker of a future (FS 56-64). *)
Inductive action := ASet (kd : kind) (d : N) | ADrop (r : N) | ASpawn | AWake (k : N).

Section Platform.
  (** The server (true) or the browser. *)
  Variable server : bool.
  (** What the application does next, and whether the poll that ends now was the last, given what happened. *)
  Variable react : list (N * obs) -> list action.
  Variable ready : list (N * obs) -> bool.

  (** HTML 8.7: a new timer of the browser (IV 11-17, 23-29). *)
  Definition browser_set (repeat : bool) (d cb : N) (w : world) : N * world :=
    (received (w_ids w),
     World (w_now w) (w_ids w + 1) (w_timers w ++ [Timer (w_ids w) repeat cb (js_ms d) (w_now w + js_ms d)])
           (w_next w) (w_store w) (w_handles w) (w_spawned w) (w_tasks w) (w_log w)).
  (** DC 159-180 with WI 100-116: the server keeps timeouts of zero in its queue of messages, and gives the id 0; intervals get
      no answer, which AI 197-198 take for 0. *)
  Definition server_set (repeat : bool) (d cb : N) (w : world) : N * world :=
    (0, if negb repeat && (d =? 0) then with_timers (w_timers w ++ [Timer 0 false cb 0 (w_now w)]) w else w).
  (** AI 184-192, 220-228. *)
  Definition timer_set (repeat : bool) (d cb : N) (w : world) : N * world :=
    if server then server_set repeat d cb w else browser_set repeat d cb w.
  (** AI 204-208, 240-244 with IV 19-21: [clearInterval] also ends timeouts (HTML 8.7); the server ignores it (DC 174). *)
  Definition timer_clear (id : N) (w : world) : world :=
    if server then w else with_timers (filter (fun t => negb (t_id t =? id)) (w_timers w)) w.

  (** CB 54-57 and AI 184-203, 220-239, with the box (AI 262-263) or without. *)
  Definition set_timer (repeat : bool) (d : N) (e : entry) (w : world) : world :=
    let r := w_next w in
    let w := World (w_now w) (w_ids w) (w_timers w) (r + 1) (setf r (Some e) (w_store w)) (w_handles w) (w_spawned w) (w_tasks w) (w_log w) in
    let '(id, w) := timer_set repeat d r w in
    with_handle r (Some (id, e_box e)) w.

  (** AI 203-211, 239-247: the resource is dropped. *)
  Definition drop_timer (r : N) (w : world) : world :=
    match w_handles w r with
    | None => w
    | Some (id, _) => with_handle r None (with_store r None (timer_clear id w))
    end.

  (** FS 42-48: [wake_by_ref]. *)
  Definition wake (k : N) (w : world) : world := set_timer false 0 (Entry (Run k) true) w.

  (** One action.  The types of Rust allow to drop only what is there and was not given to the box. *)
  Definition act (a : action) (w : world) : world :=
    match a with
    | ASet kd d =>
        set_timer (match kd with Interval => true | _ => false end) d (Entry App (match kd with Detached => true | _ => false end))
                  (note (OSet (w_next w) kd d) w)
    | ADrop r => match w_store w r, w_handles w r with
                 | Some (Entry App _), Some (_, false) => drop_timer r (note (ODrop r) w)
                 | _, _ => w
                 end
    | ASpawn => (* FS 29-40 *)
        let k := w_spawned w in
        let w := note (OSpawn k) w in
        wake k (World (w_now w) (w_ids w) (w_timers w) (w_next w) (w_store w) (w_handles w) (k + 1) (setf k true (w_tasks w)) (w_log w))
    | AWake k => if k <? w_spawned w then wake k (note (OWake k) w) else w
    end.
  (** What the application does now. *)
  Definition acts (w : world) : world := fold_left (fun w a => act a w) (react (w_log w)) w.

  (** FS 76-92: [run]; a future that is done is dropped, and may act when it is. *)
  Definition run (k : N) (w : world) : world :=
    if w_tasks w k then
      let w := acts (note (OPoll k) w) in
      if ready (w_log w) then acts (with_task k false (note (OPolled k true) w)) else note (OPolled k false) w
    else w.

  (** CB 89-99: the callback [r] is called, if it is there; AI 256-259: afterwards the box is emptied. *)
  Definition call (r : N) (w : world) : world :=
    match w_store w r with
    | None => w
    | Some (Entry x box) =>
        let w := match x with App => acts (note (OCall r) w) | Run k => run k w end in
        if box then drop_timer r w else w
    end.

  (** HTML 8.7 (timer initialization steps): the timer fires; afterwards, unless it was cleared, it begins anew or ends. *)
  Definition fire (t : timer) (w : world) : world :=
    let w := call (t_cb t) w in
    with_timers (flat_map (fun x => if t_id x =? t_id t
                                    then if t_repeat t then [Timer (t_id t) true (t_cb t) (t_ms t) (w_now w + t_ms t)] else []
                                    else [x]) (w_timers w)) w.

  (** Time passes; callbacks of other kinds are registered (CB 50-57), and other timers set; a timer that is due fires; something else
      happens, upon which the application acts. *)
  Inductive step : world -> world -> Prop :=
  | st_time n w : step w (World (w_now w + n) (w_ids w) (w_timers w) (w_next w) (w_store w) (w_handles w) (w_spawned w) (w_tasks w) (w_log w))
  | st_others n m w : step w (World (w_now w) (w_ids w + n) (w_timers w) (w_next w + m) (w_store w) (w_handles w) (w_spawned w) (w_tasks w) (w_log w))
  | st_fire t w : server = false -> In t (w_timers w) -> t_due t <= w_now w -> step w (fire t w)
  | st_message t l w : server = true -> w_timers w = t :: l -> (* HR 145-149 *) step w (call (t_cb t) (with_timers l w))
  | st_act a w : step w (act a w).

  (** The beginning. *)
  Definition start : world := World 0 1 [] 1 (fun _ => None) (fun _ => None) 0 (fun _ => false) [].
  (** What can come of it. *)
  Inductive reachable : world -> Prop :=
  | r_start : reachable start
  | r_step w w' : reachable w -> step w w' -> reachable w'.
  (** Nothing is due (on the server: no message waits). *)
  Definition quiet (w : world) : Prop := forall t, In t (w_timers w) -> server = false /\ w_now w < t_due t.
End Platform.
