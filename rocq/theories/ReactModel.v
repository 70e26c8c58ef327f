(** Model of vertigo's reactive core: values, computeds, subscriptions, transactions.

    Source: /repo/crates/vertigo/src/computed/{graph_value,computed_box,value,context}.rs and
    /repo/crates/vertigo/src/computed/dependencies/{mod,graph,refresh,external_connections,
    transaction_state}.rs.

    What is simplified:
    - all Rust value types are encoded in one type [V] with one equality test [e_eqb];
    - the objects an application creates are given up front by an environment [env]: an id determines
      the function of a computed or the callback of a subscription.  Creating a computed has no effect
      but taking an id from the counter, so an application that creates computeds on the fly is a run
      in an environment that already contains them.  Computeds are never dropped;
    - the function of a computed is pure: it reads and returns.  Callbacks may do everything an
      application can do;
    - [Rc] counts: the only place where a drop is delayed is a subscription dropped while its own
      refresh is running ([s_dying]);
    - the function given to [Value::with_connect] is only logged; it does not set values
      synchronously. *)

From Coq Require Import List NArith Bool.
From Verif Require Import GraphModel.
Import ListNotations.

(** The outcome of running Rust code: a result, a panic, or the fuel of the model ran out. *)
Inductive out (A : Type) := Ok (a : A) | Panic | Fuel.
Arguments Ok {A}. Arguments Panic {A}. Arguments Fuel {A}.

(** Sequencing of outcomes. *)
Definition obind {A B} (m : out A) (k : A -> out B) : out B :=
  match m with Ok a => k a | Panic => Panic | Fuel => Fuel end.
Notation "'let!' x := m 'in' k" := (obind m (fun x => k))
  (at level 200, x pattern, m at level 100, k at level 200, right associativity).

(** Equality of ids is decidable ([derive(PartialEq)], graph_id.rs:10). *)
Definition gid_dec : forall a b : gid, {a = b} + {a <> b}.
Proof. decide equality; [apply N.eq_dec|decide equality]. Defined.

Section React.
  Context {V : Type}.

  (** The function of a computed (computed_box.rs:74-78, [get_value: Fn(&Context) -> T]): it may read
      values and computeds, depending on what it has read, and returns. *)
  Inductive prog :=
  | PRet (v : V)
  | PRead (id : gid) (k : V -> prog).

  (** What an application (or a callback) can do.
      [CSet]: value.rs:106-111.  [CSetCompare]: value.rs:161-168.  [CTrans]: dependencies/mod.rs:43-64.
      [CRead]: value.rs:113-116 or computed_box.rs:84-86 with the context of a transaction.
      [CSub]: computed_box.rs:101-146.  [CDrop]: dropping the [DropResource] of a subscription. *)
  Inductive cmd :=
  | CSet (id : gid) (v : V)
  | CSetCompare (id : gid) (v : V)
  | CTrans (body : list cmd)
  | CRead (id : gid) (k : V -> list cmd)
  | CSub (c : gid)
  | CDrop (c : gid).

  (** value.rs:118-124: [change]. *)
  Definition CChange (id : gid) (f : V -> V) : cmd :=
    CTrans [CRead id (fun v => [CSet id (f v)])].

  (** A subscription (computed_box.rs:101-146): the computed, [subscribe] or [subscribe_all], the
      callback, and the subscriptions owned by the resource [R] the callback returns. *)
  Record sub := Sub {
    s_src : gid;
    s_dedup : bool;
    s_call : V -> list cmd;
    s_res : V -> list gid
  }.

  (** The objects of an application.  [e_conn]: values made by [with_connect] (value.rs:82-104);
      the registration is never removed because the registered closure owns the value. *)
  Record env := Env {
    e_comp : gid -> prog;
    e_sub : gid -> sub;
    e_conn : gid -> bool;
    e_eqb : V -> V -> bool
  }.

  (** transaction_state.rs:6-14: [enum State]. *)
  Inductive txstate :=
  | Idle
  | Modification (level : N) (clients : list gid)
  | Refreshing.

  (** What is observed of a run.  Reads and deliveries carry a ghost copy of the values; [EDrop] marks
      the moment a subscription is gone (graph_value.rs:91-97). *)
  Inductive event :=
  | ERead (id : gid) (v : V) (vals : gid -> V)
  | EDeliver (c : gid) (v : V) (vals : gid -> V) (refreshing : bool)
  | ECompute (c : gid)
  | EConnect (id : gid)
  | EDisconnect (id : gid)
  | EDrop (c : gid)
  | EHook.

  (** The state of the driver and of the objects.
      [vals]: value.rs:16.  [cache]: [GraphValue::state] of computeds, graph_value.rs:8.
      [active]: [GraphValue::state] of subscriptions ([Some(())]).  [prev]: computed_box.rs:102.
      [res]: computed_box.rs:104, [resource_box].  [live]: refresh.rs:6, the token is registered.
      [conn]: external_connections.rs:8.  [frames]: the contexts (context.rs:5-8) of the evaluations
      in progress, innermost first.  [running]: subscriptions whose function is running.
      [dying]: subscriptions dropped while running.  [next]: graph_id.rs:38.
      [hazard] is a ghost: see [note_hazard]. [log] is newest first. *)
  Record state := State {
    vals : gid -> V;
    cache : gid -> option V;
    active : gid -> bool;
    prev : gid -> option V;
    res : gid -> list gid;
    live : gid -> bool;
    graph_of : graph;
    conn : gid -> bool;
    tx : txstate;
    frames : list (list gid);
    running : list gid;
    dying : list gid;
    next : N;
    hazard : bool;
    log : list event
  }.

  (** A function updated at one point. *)
  Definition upd {A} (f : gid -> A) (k : gid) (a : A) : gid -> A :=
    fun x => if gid_eqb x k then a else f x.

  (** Updates of single fields (plumbing of the model). *)
  Definition set_vals x s := State x (cache s) (active s) (prev s) (res s) (live s) (graph_of s) (conn s) (tx s) (frames s) (running s) (dying s) (next s) (hazard s) (log s).
  (** The field of [State] named [cache] (graph_value.rs:8). *)
  Definition set_cache x s := State (vals s) x (active s) (prev s) (res s) (live s) (graph_of s) (conn s) (tx s) (frames s) (running s) (dying s) (next s) (hazard s) (log s).
  (** The field [active] (plumbing). *)
  Definition set_active x s := State (vals s) (cache s) x (prev s) (res s) (live s) (graph_of s) (conn s) (tx s) (frames s) (running s) (dying s) (next s) (hazard s) (log s).
  (** The field [prev] (plumbing). *)
  Definition set_prev x s := State (vals s) (cache s) (active s) x (res s) (live s) (graph_of s) (conn s) (tx s) (frames s) (running s) (dying s) (next s) (hazard s) (log s).
  (** The field [res] (plumbing). *)
  Definition set_res x s := State (vals s) (cache s) (active s) (prev s) x (live s) (graph_of s) (conn s) (tx s) (frames s) (running s) (dying s) (next s) (hazard s) (log s).
  (** The field [live] (plumbing). *)
  Definition set_live x s := State (vals s) (cache s) (active s) (prev s) (res s) x (graph_of s) (conn s) (tx s) (frames s) (running s) (dying s) (next s) (hazard s) (log s).
  (** The field [graph_of] (graph_connections.rs). *)
  Definition set_graph x s := State (vals s) (cache s) (active s) (prev s) (res s) (live s) x (conn s) (tx s) (frames s) (running s) (dying s) (next s) (hazard s) (log s).
  (** The field [conn] (external_connections.rs:8). *)
  Definition set_conn x s := State (vals s) (cache s) (active s) (prev s) (res s) (live s) (graph_of s) x (tx s) (frames s) (running s) (dying s) (next s) (hazard s) (log s).
  (** The field [tx] (transaction_state.rs). *)
  Definition set_tx x s := State (vals s) (cache s) (active s) (prev s) (res s) (live s) (graph_of s) (conn s) x (frames s) (running s) (dying s) (next s) (hazard s) (log s).
  (** The field [frames] (plumbing). *)
  Definition set_frames x s := State (vals s) (cache s) (active s) (prev s) (res s) (live s) (graph_of s) (conn s) (tx s) x (running s) (dying s) (next s) (hazard s) (log s).
  (** The field [running] (plumbing). *)
  Definition set_running x s := State (vals s) (cache s) (active s) (prev s) (res s) (live s) (graph_of s) (conn s) (tx s) (frames s) x (dying s) (next s) (hazard s) (log s).
  (** The field [dying] (plumbing). *)
  Definition set_dying x s := State (vals s) (cache s) (active s) (prev s) (res s) (live s) (graph_of s) (conn s) (tx s) (frames s) (running s) x (next s) (hazard s) (log s).
  (** The field [next] (plumbing). *)
  Definition set_next x s := State (vals s) (cache s) (active s) (prev s) (res s) (live s) (graph_of s) (conn s) (tx s) (frames s) (running s) (dying s) x (hazard s) (log s).
  (** The field [hazard] (plumbing). *)
  Definition set_hazard x s := State (vals s) (cache s) (active s) (prev s) (res s) (live s) (graph_of s) (conn s) (tx s) (frames s) (running s) (dying s) (next s) x (log s).
  (** The log grows (plumbing of the statements). *)
  Definition add_log e s := State (vals s) (cache s) (active s) (prev s) (res s) (live s) (graph_of s) (conn s) (tx s) (frames s) (running s) (dying s) (next s) (hazard s) (e :: log s).

  Variable E : env.

  (** A fresh driver: dependencies/mod.rs:32-40; the values are those given to [Value::new]
      (value.rs:67-76). *)
  Definition init (vs : gid -> V) : state :=
    State vs (fun _ => None) (fun _ => false) (fun _ => None) (fun _ => []) (fun _ => false)
          graph_new (fun _ => false) Idle [] [] [] 1 false [].

  (** Ghost: the computed [n], which an evaluation in progress has already read (it is in one of the
      contexts) but whose edge to the reader is not recorded yet, has just lost its cache. *)
  Definition note_hazard (n : gid) (s : state) : state :=
    if existsb (set_mem n) (frames s) then set_hazard true s else s.

  (** external_connections.rs:27-40: [set_connection]. *)
  Definition set_connection (id : gid) (should_connect : bool) (s : state) : state :=
    if should_connect then
      if conn s id then s
      else if e_conn E id
           then add_log (EConnect id) (set_conn (upd (conn s) id true) s)
           else s
    else
      if conn s id
      then add_log (EDisconnect id) (set_conn (upd (conn s) id false) s)
      else s.

  (** refresh.rs:45-49 with graph_value.rs:35-40: [clear_cache] of a computed (whose token is always
      registered, see the head comment). *)
  Definition clear_computed (id : gid) (s : state) : state :=
    set_cache (upd (cache s) id None) s.

  (** The same for a subscription: only if its token is registered. *)
  Definition clear_client (id : gid) (s : state) : state :=
    if live s id then set_active (upd (active s) id false) s else s.

  (** graph.rs:44-62: the body of the loop of [set_parent_for_client]. [me] is the node whose parents
      are replaced; its own cache is overwritten right afterwards, so it is not a hazard. *)
  Definition apply_active (me : gid) (s : state) (e : gid * bool) : state :=
    let '(id, act) := e in
    match gkind id with
    | KValue => set_connection id act s
    | KComputed =>
        if act then s
        else let s' := clear_computed id s in
             if gid_eqb id me then s' else note_hazard id s'
    | KClient => if act then s else clear_client id s
    end.

  (** graph.rs:35-63: [set_parent_for_client]. *)
  Definition set_parents (client : gid) (parents : list gid) (s : state) : out state :=
    match set_parent_for_client (graph_of s) client parents with
    | None => Fuel
    | Some (g', info) => Ok (fold_left (apply_active client) info (set_graph g' s))
    end.

  (** graph.rs:30-33: [push_context]; context.rs:20-23: [get_parents]. *)
  Definition push_context (client : gid) (context : list gid) (s : state) : out state :=
    set_parents client (set_of_list context) s.

  (** context.rs:10-14: a new context for an evaluation. *)
  Definition frame_open (s : state) : state := set_frames ([] :: frames s) s.

  (** context.rs:16-18: [add_parent] on the innermost context (order is irrelevant: it is turned into
      a set). *)
  Definition add_parent (id : gid) (s : state) : state :=
    match frames s with
    | [] => s
    | f :: t => set_frames ((id :: f) :: t) s
    end.

  (** The innermost context is consumed. *)
  Definition frame_close (s : state) : list gid * state :=
    match frames s with
    | [] => ([], s)
    | f :: t => (f, set_frames t s)
    end.

  (** Running the function of a computed (graph_value.rs:54); the reads are value.rs:113-116 and
      graph_value.rs:66-76, where [rec] is the calculation of a computed without cache. *)
  Fixpoint run_prog (rec : gid -> state -> out (state * V)) (p : prog) (s : state)
    : out (state * V) :=
    match p with
    | PRet v => Ok (s, v)
    | PRead id k =>
        let s1 := add_parent id s in
        match gkind id with
        | KValue => run_prog rec (k (vals s1 id)) s1
        | KComputed =>
            match cache s1 id with
            | Some v => run_prog rec (k v) s1
            | None => let! (s2, v) := rec id s1 in run_prog rec (k v) s2
            end
        | KClient => Panic
        end
    end.

  (** graph_value.rs:52-64: [calculate_new_value] of a computed, with its function run in a fresh
      context. *)
  Fixpoint calc (fuel : nat) (c : gid) (s : state) : out (state * V) :=
    match fuel with
    | O => Fuel
    | S f =>
        let! (s1, v) :=
          run_prog (calc f) (e_comp E c) (add_log (ECompute c) (frame_open s)) in
        let (ctx, s2) := frame_close s1 in
        let! s3 := push_context c ctx s2 in
        Ok (set_cache (upd (cache s3) c (Some v)) s3, v)
    end.

  (** graph_value.rs:66-76: [get_value] of a computed (the reader's context is handled by the
      reader), or value.rs:113-116. *)
  Definition get (fuel : nat) (id : gid) (s : state) : out (state * V) :=
    match gkind id with
    | KValue => Ok (s, vals s id)
    | KComputed =>
        match cache s id with
        | Some v => Ok (s, v)
        | None => calc fuel id s
        end
    | KClient => Panic
    end.

  (** transaction_state.rs:33-53: [up].  The level is a [u16]; exceeding it panics in a debug build. *)
  Definition up (s : state) : out state :=
    match tx s with
    | Idle => Ok (set_tx (Modification 1 []) s)
    | Modification l cs => if (l <? 65535)%N then Ok (set_tx (Modification (l + 1) cs) s) else Panic
    | Refreshing => Panic
    end.

  (** transaction_state.rs:55-79: [down]. *)
  Definition down (s : state) : state * option (list gid) :=
    match tx s with
    | Idle => (s, None)
    | Modification l cs =>
        if (l - 1 =? 0)%N then (set_tx Refreshing s, Some cs)
        else (set_tx (Modification (l - 1) cs) s, None)
    | Refreshing => (s, None)
    end.

  (** transaction_state.rs:81-99: [move_to_idle]. *)
  Definition move_to_idle (s : state) : state :=
    match tx s with
    | Idle => s
    | Modification l cs => s
    | Refreshing => set_tx Idle s
    end.

  (** transaction_state.rs:101-110: [add_clients_to_refresh]. *)
  Definition add_clients_to_refresh (cs : list gid) (s : state) : state :=
    match tx s with
    | Modification l old => set_tx (Modification l (fold_left (fun a x => set_insert x a) cs old)) s
    | _ => s
    end.

  (** dependencies/mod.rs:66-84: [report_set].  The [unreachable!()] of line 72 is a panic. *)
  Definition report_set (id : gid) (s : state) : out state :=
    match get_all_deps (graph_of s) id with
    | None => Fuel
    | Some deps =>
        if existsb (fun d => match gkind d with KValue => true | _ => false end) deps then Panic
        else
          let comps := filter (fun d => match gkind d with KComputed => true | _ => false end) deps in
          let clients := filter (fun d => match gkind d with KClient => true | _ => false end) deps in
          let s1 := fold_left (fun s d => note_hazard d (clear_computed d s)) comps s in
          Ok (add_clients_to_refresh clients s1)
    end.

  (** Work items of the imperative part: run commands; run the function of a subscription; refresh a
      list of subscriptions; drop a list of subscriptions; end a transaction. *)
  Inductive task :=
  | TCmds (cs : list cmd)
  | TSub (c : gid)
  | TRefresh (cs : list gid)
  | TDrop (cs : list gid)
  | TEnd.

  (** graph_id.rs:30-32: [get_type]. *)
  Definition is_value (id : gid) : bool := match gkind id with KValue => true | _ => false end.

  (** transaction_state.rs:13. *)
  Definition is_refreshing (s : state) : bool :=
    match tx s with Refreshing => true | _ => false end.

  (** computed_box.rs:109: [prev_value.set_and_check(Some(value))], or always for [subscribe_all]. *)
  Definition should_update (c : gid) (v : V) (s : state) : bool :=
    if s_dedup (e_sub E c)
    then match prev s c with Some w => negb (e_eqb E w v) | None => true end
    else true.

  (** The interpreter: one arm per operation, with its source cited in the arm. *)
  Fixpoint exec (fuel : nat) (t : task) (s : state) : out state :=
    match fuel with
    | O => Fuel
    | S f =>
        match t with
        | TCmds [] => Ok s
        | TCmds (CSet id v :: rest) =>
            (* value.rs:106-111; only a [Value] has this method *)
            if negb (is_value id) then Panic else
            let! s1 := up s in
            let! s2 := report_set id (set_vals (upd (vals s1) id v) s1) in
            let! s3 := exec f TEnd s2 in
            exec f (TCmds rest) s3
        | TCmds (CSetCompare id v :: rest) =>
            (* value.rs:161-168; only a [Value] has this method *)
            if negb (is_value id) then Panic else
            let! s1 := up s in
            let! s2 := if e_eqb E (vals s1 id) v
                       then Ok (set_vals (upd (vals s1) id v) s1)
                       else report_set id (set_vals (upd (vals s1) id v) s1) in
            let! s3 := exec f TEnd s2 in
            exec f (TCmds rest) s3
        | TCmds (CTrans body :: rest) =>
            (* dependencies/mod.rs:43-64 *)
            let! s1 := up s in
            let! s2 := exec f (TCmds body) s1 in
            let! s3 := exec f TEnd s2 in
            exec f (TCmds rest) s3
        | TCmds (CRead id k :: rest) =>
            (* the context of the transaction is thrown away (dependencies/mod.rs:46-48) *)
            let! (s1, v) := get f id s in
            exec f (TCmds (k v ++ rest)) (add_log (ERead id v (vals s1)) s1)
        | TCmds (CSub c :: rest) =>
            (* computed_box.rs:101-146: a new id, GraphValue::new (graph_value.rs:12-50) registers the
               token, get_value finds no state and calculates *)
            if (next s <=? gnum c)%N && match gkind c with KClient => true | _ => false end
            then
              let s1 := set_next (gnum c + 1)%N s in
              let s2 := set_live (upd (live s1) c true) s1 in
              let! s3 := exec f (TSub c) s2 in
              exec f (TCmds rest) s3
            else Panic
        | TCmds (CDrop c :: rest) =>
            let! s1 := exec f (TDrop [c]) s in
            exec f (TCmds rest) s1
        | TSub c =>
            (* graph_value.rs:52-64 with the closures of computed_box.rs:106-117 and 131-138 *)
            let src := s_src (e_sub E c) in
            let s1 := set_running (c :: running s) (add_parent src (frame_open s)) in
            let! (s2, v) := get f src s1 in
            let upd_needed := should_update c v s2 in
            let s3 := if s_dedup (e_sub E c) then set_prev (upd (prev s2) c (Some v)) s2 else s2 in
            let! s4 :=
              if upd_needed then
                let s' := add_log (EDeliver c v (vals s3) (is_refreshing s3)) s3 in
                let! s'' := exec f (TCmds (s_call (e_sub E c) v)) s' in
                (* resource_box.change: the new resource is stored, then the old one dropped *)
                exec f (TDrop (res s'' c)) (set_res (upd (res s'') c (s_res (e_sub E c) v)) s'')
              else Ok s3 in
            let (ctx, s5) := frame_close s4 in
            let! s6 := push_context c ctx s5 in
            let s7 := set_active (upd (active s6) c true) s6 in
            let s8 := set_running (remove gid_dec c (running s7)) s7 in
            if set_mem c (dying s8)
            then exec f (TDrop [c]) (set_dying (remove gid_dec c (dying s8)) s8)
            else Ok s8
        | TRefresh [] => Ok s
        | TRefresh (c :: rest) =>
            (* dependencies/mod.rs:56-58, refresh.rs:39-43, graph_value.rs:78-84 *)
            let! s1 := if live s c && active s c then exec f (TSub c) s else Ok s in
            exec f (TRefresh rest) s1
        | TDrop [] => Ok s
        | TDrop (c :: rest) =>
            (* graph_value.rs:91-97, then the fields of the closure are dropped, among them the
               resource; a running subscription is kept alive by the upgraded weak reference
               (graph_value.rs:35) until its refresh is over *)
            let! s1 :=
              if negb (live s c) then Ok s
              else if set_mem c (running s)
                   then Ok (set_dying (c :: dying s) s)
                   else
                     let s1 := add_log (EDrop c) (set_live (upd (live s) c false) s) in
                     let! s2 := set_parents c [] s1 in
                     exec f (TDrop (res s2 c)) s2 in
            exec f (TDrop rest) s1
        | TEnd =>
            (* dependencies/mod.rs:50-63 *)
            let (s1, clients) := down s in
            match clients with
            | None => Ok s1
            | Some cs =>
                let! s2 := exec f (TRefresh cs) s1 in
                Ok (add_log EHook (move_to_idle s2))
            end
        end
    end.
End React.
