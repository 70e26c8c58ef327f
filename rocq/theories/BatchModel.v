(** Transactions, the functions called after them, and when the commands for the document are sent.

    Sources below /repo/crates/vertigo/src: DM = computed/dependencies/mod.rs, TS = computed/dependencies/transaction_state.rs, HK = computed/dependencies/hook.rs,
    DO = driver_module/dom.rs, DR = driver_module/driver.rs, AI = driver_module/api/api_import.rs, LB = lib.rs.  What the values and the clients are is in ReactModel.v;
    here a client is what it does to the document.  Commands are numbers; their order within a batch (C23) is left out.  The level of a transaction and the counter of
    fetches do not overflow.  The functions called after transactions are the same during a run (C41 is about adding and removing). *)
From Coq Require Import List NArith Bool.
Import ListNotations.
Local Open Scope N_scope.

(** What can be seen: a command is issued (DO 86-92), a batch is sent (DO 107), the outermost transaction begins (TS 38-43) and is over (TS 94-96), a function given to
    on_after_transaction is called (HK 22-24). *)
Inductive ev := Issue (c : N) | Send (l : list N) | Enter | Leave | Hook (k : nat).
(** What is done: a command; a fetch is begun (AI 462); a transaction; by the host: the answer of a fetch, which can be decoded or not (AI 466-508); the application is
    started (LB 375-385). *)
Inductive act := Cmd (c : N) | Fetch | Tx (body : list act) | Answered (good : bool) | Start.

(** TS 6-14; the clients to refresh are left to [refresh] below. *)
Inductive mode := Idle | Modification (level : N) | Refreshing.
(** TS 22-24 and DO 55-62; [s_wait] is the counter of DO 15-19, [None] is [Ready]. *)
Record st := St { s_mode : mode; s_wait : option N; s_cmds : list N; s_trace : list ev }.
(** An event is noted (not in the code). *)
Definition note (e : ev) (s : st) : st := St (s_mode s) (s_wait s) (s_cmds s) (s_trace s ++ [e]).
(** Assignment to the state of the transaction (TS 36, 56, 85). *)
Definition set_mode (m : mode) (s : st) : st := St m (s_wait s) (s_cmds s) (s_trace s).

(** DO 86-92: [add_command]. *)
Definition add_command (c : N) (s : st) : st := note (Issue c) (St (s_mode s) (s_wait s) (s_cmds s ++ [c]) (s_trace s)).
(** DO 94-109: [flush_dom_changes_inner]. *)
Definition flush_inner (s : st) : st := match s_cmds s with [] => s | l => note (Send l) (St (s_mode s) (s_wait s) [] (s_trace s)) end.
(** DO 111-117: [flush_dom_changes]. *)
Definition flush (s : st) : st := match s_wait s with None => flush_inner s | Some _ => s end.
(** DO 30-34, 119-123: [fetch_up]. *)
Definition fetch_up (s : st) : st := St (s_mode s) (option_map (fun n => n + 1) (s_wait s)) (s_cmds s) (s_trace s).
(** DO 39-52, 125-131: [fetch_down]; at 0 a panic (with overflow checks). *)
Definition fetch_down (s : st) : option st :=
  match s_wait s with
  | None => Some s
  | Some n => if n =? 0 then None else if n - 1 =? 0 then Some (flush_inner (St (s_mode s) None (s_cmds s) (s_trace s))) else Some (St (s_mode s) (Some (n - 1)) (s_cmds s) (s_trace s))
  end.

(** TS 33-53: [up]. *)
Definition up (s : st) : option st :=
  match s_mode s with
  | Idle => Some (note Enter (set_mode (Modification 1) s))
  | Modification level => Some (set_mode (Modification (level + 1)) s)
  | Refreshing => None
  end.
(** TS 55-79: [down]; whether there are clients to refresh now. *)
Definition down (s : st) : st * bool :=
  match s_mode s with
  | Idle => (s, false)
  | Modification level => if level - 1 =? 0 then (set_mode Refreshing s, true) else (set_mode (Modification (level - 1)) s, false)
  | Refreshing => (s, false)
  end.
(** TS 81-99: [move_to_idle]. *)
Definition move_to_idle (s : st) : st := match s_mode s with Refreshing => note Leave (set_mode Idle s) | _ => s end.

Section Run.
  (** What the clients do that are refreshed (DM 56-58). *)
  Variable refresh : st -> list act.
  (** What the functions do that were given to on_after_transaction (DR 236-239). *)
  Variable hooks : list (st -> list act).

  (** HK 22-24 with trigger of driver_module/event_emitter.rs:37-48: one after the other. *)
  Fixpoint call_hooks (go : list act -> st -> option st) (k : nat) (hs : list (st -> list act)) (s : st) : option st :=
    match hs with
    | [] => Some s
    | h :: r => match go (h (note (Hook k) s)) (note (Hook k) s) with Some s1 => call_hooks go (S k) r s1 | None => None end
    end.
  (** HK 22-24, DR 79-81: the first one sends the commands. *)
  Definition fire_end (go : list act -> st -> option st) (s : st) : option st := call_hooks go 0 hooks (flush s).
  (** DM 43-64: [transaction]. *)
  Definition transaction (go : list act -> st -> option st) (body : st -> option st) (s : st) : option st :=
    match up s with
    | None => None
    | Some s1 =>
        match body s1 with
        | None => None
        | Some s2 =>
            let '(s3, now) := down s2 in
            if now then match go (refresh s3) s3 with None => None | Some s4 => fire_end go (move_to_idle s4) end else Some s3
        end
    end.
  (** One thing is done. *)
  Definition step (go : list act -> st -> option st) (a : act) (s : st) : option st :=
    match a with
    | Cmd c => Some (add_command c s)
    | Fetch => Some (fetch_up s)
    | Tx body => transaction go (go body) s
    (** AI 491-506: publishing the answer only wakes its task, which runs later (driver_module/utils/futures_spawn.rs:42-48). *)
    | Answered true => transaction go fetch_down s
    | Answered false => fetch_down s
    (** LB 375-385. *)
    | Start => match fetch_down (fetch_up s) with Some s1 => Some (flush s1) | None => None end
    end.
  (** One thing after the other; [None]: a panic, or not finished within the given number of steps (DM 43-64: calls within calls). *)
  Fixpoint run (fuel : nat) (l : list act) (s : st) : option st :=
    match fuel with
    | O => None
    | S f => match l with [] => Some s | a :: r => match step (run f) a s with Some s1 => run f r s1 | None => None end end
    end.
End Run.

(** DO 21-24, TS 26-31: before anything happens. *)
Definition initial : st := St Idle (Some 0) [] [].
