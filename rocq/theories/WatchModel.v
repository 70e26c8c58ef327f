(** [vertigo watch]: rebuilding, the status sent to pages, and the pages.

    Source: WR = /repo/crates/vertigo-cli/src/watch/watch_run.rs, SSE = /repo/crates/vertigo-cli/src/watch/sse.rs,
    SO = /repo/crates/vertigo-cli/src/commons/spawn.rs, SR = /repo/crates/vertigo-cli/src/serve/serve_run.rs,
    BR = /repo/crates/vertigo-cli/src/build/build_run.rs, JS = /repo/crates/vertigo-cli/src/serve/watch.js.
    The sources are numbered by the changes made to them.  Simplified: the watcher reports every change (of a file that is not
    excluded, WR 71-80) at once; a task that waits is dropped at once when it is aborted, one that computes goes on until it
    waits; a build reads the sources, and writes the destination, in one instant each. *)
From Coq Require Import List NArith Bool.
Import ListNotations.
Local Open Scope N_scope.

(** WR 20-26 *)
Inductive status := Building | Version (v : N) | Errors.
(** WR 20: the derived [PartialEq]. *)
Definition status_eqb (a b : status) : bool :=
  match a, b with
  | Building, Building | Errors, Errors => true
  | Version v, Version w => v =? w
  | _, _ => false
  end.

(** Where the task of [build_and_watch] is: waiting (WR 156), in [run_with_ws] (WR 158; what cargo has read), in the beginning of
    [serve::run] (WR 179 up to SR 66; whether the task that checks the server has sent the version), serving (SR 67-69). *)
Inductive phase := Sleeping | Compiling (snap : option N) | Starting (sent : bool) | Serving (sent : bool).
(** WR 147-194: the task of one version, and whether it has been aborted (SO 18-22). *)
Record task := Task { t_ver : N; t_aborted : bool; t_phase : phase }.

(** JS 39-50, 84-163: the message over the page: building, errors, errors closed by the user (JS 153-156). *)
Inductive overlay := OBuilding | OErrors | OClosed.
(** A page: whether it is one of the application (or the browser's page for a server that cannot be reached), the sources it was
    made from, whether [last_message] is set (JS 8), the message over it (JS 11); the connection of its [EventSource] (JS 52) and
    [last_emit_value] of the stream (SSE 31), and the messages sent but not yet processed. *)
Record page := Page { p_live : bool; p_shows : N; p_last : bool; p_over : option overlay;
                      p_conn : bool; p_emit : option status; p_inbox : list status }.

(** The sources; the permit of [notify_build] (WR 63, 82); [version] (WR 129); the tasks; the channel's value (WR 100); the
    destination directory (which sources, if it is complete); [STATE] (SR 23); the pages; what each build has read. *)
Record world := World { w_src : N; w_permit : bool; w_version : N; w_tasks : list task; w_status : status;
                        w_dest : option N; w_state : option N; w_pages : list page; w_log : list (N * N) }.

(** WR 129-141: the first build. *)
Definition start : world := World 0 false 1 [Task 1 false Sleeping] Building None None [] [].

(** A server is listening (SR 67). *)
Definition listening (w : world) : bool :=
  existsb (fun t => match t_phase t with Serving _ => true | _ => false end) (w_tasks w).

Section Watch.
  (** Which sources compile; [--port-watch]; whether the address of [--host] accepts connections to 127.0.0.1. *)
  Variable compiles : N -> bool.
  Variable port_watch : N.
  Variable loopback : bool.

  (** What may happen: a source file is changed; the loop goes on (WR 142); a task goes on; the task that checks the server of a
      version sends it; a page is opened; its events are connected; they are polled; a message is processed; the errors are closed. *)
  Inductive step := Change | Loop | Go (v : N) | Check (v : N)
                  | Load | Connect (i : nat) | Poll (i : nat) | Process (i : nat) | Close (i : nat).

  (** WR 143 with SO 18-22: what [off] makes of the task of the current version. *)
  Definition abort (cur : N) (t : task) : list task :=
    if t_ver t =? cur then
      match t_phase t with
      | Sleeping | Serving _ => []
      | Compiling _ | Starting _ => [Task (t_ver t) true (t_phase t)]
      end
    else [t].

  (** WR 131-144: one round of the loop, from [notified] on. *)
  Definition loop (w : world) : world :=
    if w_permit w then
      World (w_src w) false (w_version w + 1) (flat_map (abort (w_version w)) (w_tasks w) ++ [Task (w_version w + 1) false Sleeping])
            Building (w_dest w) (w_state w) (w_pages w) (w_log w)
    else w.

  (** Replaces the task of a version ([None]: it has ended). *)
  Definition put (v : N) (p : option phase) (ts : list task) : list task :=
    flat_map (fun t => if t_ver t =? v then match p with Some p => [Task v (t_aborted t) p] | None => [] end else [t]) ts.

  (** The task of a version goes on. *)
  Definition go (v : N) (w : world) : world :=
    match find (fun t => t_ver t =? v) (w_tasks w) with
    | None => w
    | Some t =>
        let set p st dest state log := World (w_src w) (w_permit w) (w_version w) (put v p (w_tasks w)) st dest state (w_pages w) log in
        match t_phase t with
        (* WR 156-158, BR 45-46: the destination is cleaned *)
        | Sleeping => set (Some (Compiling None)) (w_status w) None (w_state w) (w_log w)
        (* BR 54: cargo reads the sources *)
        | Compiling None => set (Some (Compiling (Some (w_src w)))) (w_status w) (w_dest w) (w_state w) ((v, w_src w) :: w_log w)
        | Compiling (Some s) =>
            if compiles s
            then set (Some (Starting false)) (w_status w) (Some s) (w_state w) (w_log w) (* WR 159-177, BR 63-124 *)
            else set None Errors (w_dest w) (w_state w) (w_log w)                        (* WR 185-191, BR 56 *)
        | Starting sent =>
            match w_dest w with
            (* SR 35, WR 179-180: there is no index: a panic *)
            | None => set None (w_status w) (w_dest w) (w_state w) (w_log w)
            | Some s =>
                (* SR 50, then SR 67: the state is replaced before the port is bound, which panics if it is taken; an aborted task ends here *)
                if listening w || t_aborted t then set None (w_status w) (w_dest w) (Some s) (w_log w)
                else set (Some (Serving sent)) (w_status w) (w_dest w) (Some s) (w_log w)
            end
        | Serving _ => w
        end
    end.

  (** WR 162-172 with is_http_server_listening.rs:1-42: the task that checks the server, while it exists, sends the version once. *)
  Definition check (v : N) (w : world) : world :=
    match find (fun t => t_ver t =? v) (w_tasks w) with
    | Some t =>
        if listening w && loopback then
          match t_phase t with
          | Starting false => World (w_src w) (w_permit w) (w_version w) (put v (Some (Starting true)) (w_tasks w)) (Version v)
                                    (w_dest w) (w_state w) (w_pages w) (w_log w)
          | Serving false => World (w_src w) (w_permit w) (w_version w) (put v (Some (Serving true)) (w_tasks w)) (Version v)
                                   (w_dest w) (w_state w) (w_pages w) (w_log w)
          | _ => w
          end
        else w
    | None => w
    end.

  (** A page as the server sends it, with the script of response_state.rs:56-79; SR 199-231: made from [STATE]. *)
  Definition fresh (w : world) : option page :=
    if listening w then match w_state w with Some s => Some (Page true s false None false None []) | None => None end else None.

  (** Replaces the pages. *)
  Definition with_pages (w : world) (ps : list page) : world :=
    World (w_src w) (w_permit w) (w_version w) (w_tasks w) (w_status w) (w_dest w) (w_state w) ps (w_log w).
  (** Changes one page. *)
  Fixpoint update {A} (i : nat) (f : A -> A) (l : list A) : list A :=
    match l, i with
    | [], _ => []
    | x :: t, O => f x :: t
    | x :: t, S i => x :: update i f t
    end.

  (** JS 52: the address is that of [--port-watch] (response_state.rs:60), the server of the events listens at 5555 (WR 114). *)
  Definition connect (p : page) : page :=
    if (port_watch =? 5555) && p_live p
    then Page true (p_shows p) (p_last p) (p_over p) true (p_emit p) (p_inbox p) else p.
  (** SSE 48-74: the current value is sent unless it is the last one sent. *)
  Definition poll (s : status) (p : page) : page :=
    if p_conn p && negb match p_emit p with Some e => status_eqb e s | None => false end
    then Page (p_live p) (p_shows p) (p_last p) (p_over p) true (Some s) (p_inbox p ++ [s]) else p.
  (** JS 14-37; a page that is loaded again is a new one; the browser shows one of its own if there is no server. *)
  Definition process (w : world) (p : page) : page :=
    match p_inbox p with
    | [] => p
    | Building :: t => Page (p_live p) (p_shows p) (p_last p) (Some OBuilding) (p_conn p) (p_emit p) t
    | Errors :: t => Page (p_live p) (p_shows p) (p_last p) (Some OErrors) (p_conn p) (p_emit p) t
    | Version _ :: t =>
        if p_last p then match fresh w with Some q => q | None => Page false (p_shows p) false None false None [] end
        else Page (p_live p) (p_shows p) true (p_over p) (p_conn p) (p_emit p) t
    end.
  (** JS 153-156 *)
  Definition close (p : page) : page :=
    match p_over p with
    | Some OErrors => Page (p_live p) (p_shows p) (p_last p) (Some OClosed) (p_conn p) (p_emit p) (p_inbox p)
    | _ => p
    end.

  (** One step; what cannot happen changes nothing. *)
  Definition do (w : world) (s : step) : world :=
    match s with
    | Change => World (w_src w + 1) true (w_version w) (w_tasks w) (w_status w) (w_dest w) (w_state w) (w_pages w) (w_log w)
    | Loop => loop w
    | Go v => go v w
    | Check v => check v w
    | Load => match fresh w with Some p => with_pages w (w_pages w ++ [p]) | None => w end
    | Connect i => with_pages w (update i connect (w_pages w))
    | Poll i => with_pages w (update i (poll (w_status w)) (w_pages w))
    | Process i => with_pages w (update i (process w) (w_pages w))
    | Close i => with_pages w (update i close (w_pages w))
    end.
  (** All steps so far. *)
  Definition run (l : list step) : world := fold_left do l start.
End Watch.
