(** Model of fetching: from the arguments JavaScript passes to the callback of a request to the typed result,
    and the lazy cache.

    Source: /repo/crates/vertigo/src/fetch/{request_builder,lazy_cache,resource}.rs,
    /repo/crates/vertigo/src/driver_module/api/api_import.rs (fetch), /repo/crates/vertigo/src/instant.rs,
    /repo/crates/vertigo/src/driver_module/utils/futures_spawn.rs. *)

From Coq Require Import String List NArith ZArith Bool DecimalString.
From Verif Require Import CodecModel JsonModel DomWire.
Import ListNotations.
Local Open Scope string_scope.
Local Open Scope list_scope.

(** ** Responses *)

(** request_builder.rs:8-13 *)
Inductive fbody := BText (s : bytes) | BJson (j : json) | BBin (b : bytes).

(** Result<A, String> *)
Inductive result (A : Type) := Good (a : A) | Bad (message : bytes).
Arguments Good {A} a.
Arguments Bad {A} message.

(** api_import.rs:466-489 with js_value_list_decoder.rs:74-123,158-164 and js_value_struct.rs:251-262: success
    flag, status, body, nothing more; the error message is only logged. *)
Definition fetch_params (params : jsval) : option (bool * N * fbody) :=
  match params with
  | VList (s :: VU32 status :: r :: []) =>
      match s with
      | VTrue | VFalse =>
          let success := match s with VTrue => true | _ => false end in
          match r with
          | VJson j => Some (success, status, BJson j)
          | VString t => Some (success, status, BText t)
          | VVec b => Some (success, status, BBin b)
          | _ => None
          end
      | _ => None
      end
  | _ => None
  end.

(** Decimal rendering of a number ([format!("{status}")]). *)
Definition dec (n : N) : bytes := str (NilZero.string_of_uint (N.to_uint n)).

Section Fetch.
  (** The Debug rendering of a body ([{response:#?}], api_import.rs:496). *)
  Variable show : fbody -> bytes.

  (** api_import.rs:491-506: what is published to the future; [None] if nothing is. *)
  Definition fetch_answer (params : jsval) : option (result (N * fbody)) :=
    match fetch_params params with
    | Some (true, status, b) => Some (Good (status, b))
    | Some (false, _, b) => Some (Bad (show b))
    | None => None
    end.

  Context {T : Type}.

  (** request_builder.rs:176-198 ([RequestResponse::into]; logging left out) *)
  Definition rr_into (convert : N -> fbody -> option (result T)) (data : result (N * fbody)) : result T :=
    match data with
    | Good (status, b) =>
        match convert status b with
        | Some r => r
        | None => Bad (str "Unhandled response code " ++ dec status)
        end
    | Bad e => Bad e
    end.

  (** request_builder.rs:15-30 ([RequestBody::into]); [decode] is [from_json::<T>]. *)
  Definition body_into (decode : json -> result T) (b : fbody) : result T :=
    match b with
    | BJson j => match decode j with Good a => Good a | Bad e => Bad e end
    | BText _ => Bad (str "FetchBody.into() - expected json, received text")
    | BBin _ => Bad (str "FetchBody.into() - expected json, received binary")
    end.

  (** request_builder.rs:200-202 *)
  Definition into_data (decode : json -> result T) (data : result (N * fbody)) : result T :=
    rr_into (fun _ b => Some (body_into decode b)) data.

  (** ** The lazy cache (lazy_cache.rs) *)

  (** resource.rs:7-12 *)
  Inductive resource := Loading | RReady (a : T) | RError (message : bytes).

  (** lazy_cache.rs:21-27; an instant is a number of milliseconds. *)
  Inductive api := Uninitialized | Data (value : resource) (expiry : option N).

  (** lazy_cache.rs:41-46 *)
  Definition api_value (a : api) : resource := match a with Uninitialized => Loading | Data v _ => v end.

  (** lazy_cache.rs:48-59, instant.rs:47-49 *)
  Definition needs_update (now : N) (a : api) : bool :=
    match a with
    | Uninitialized => true
    | Data _ None => false
    | Data _ (Some e) => (e <? now)%N
    end.

  (** The future made by [update] (lazy_cache.rs:184-218): spawned and waiting for its first poll
      (futures_spawn.rs:42-48: by a timer), waiting for the response, response published, or waiting for a
      response whose callback has already been used up. *)
  Inductive task :=
  | Spawned (with_loading force : bool)
  | Waiting
  | Published (r : result (N * fbody))
  | Dead.

  (** lazy_cache.rs:110-116 (the value, whether an update is queued), with the tasks spawned (futures_spawn.rs) and the clock. *)
  Record lcache := LCache { lc_value : api; lc_queued : bool; lc_tasks : list task; lc_now : N }.
  (** lazy_cache.rs:138-150: [LazyCache::new]. *)
  Definition lcache_new (now : N) : lcache := LCache Uninitialized false [] now.

  (** What the application and the browser do: read, update, forget; a timer polls task [i] for the first time;
      JavaScript calls the callback of the request of task [i]; a timer polls task [i] again; time changes. *)
  Inductive lop :=
  | LGet
  | LUpdate (with_loading force : bool)
  | LForget
  | LRun (i : nat)
  | LAnswer (i : nat) (params : jsval)
  | LResume (i : nat)
  | LTime (now : N).

  (** What happens, in order. *)
  Inductive lev :=
  | VGot (r : resource)
  | VSpawn
  | VRequest
  | VLoading
  | VStored (r : resource) (expiry : option N)
  | VForgot
  | VEnd
  | VTime (now : N).

  (** A task of the list of tasks is replaced (plumbing of the model). *)
  Fixpoint set_nth (l : list task) (i : nat) (t : task) : list task :=
    match l, i with
    | [], _ => []
    | _ :: r, O => t :: r
    | x :: r, S k => x :: set_nth r k t
    end.
  (** A task of the list of tasks is removed (plumbing of the model). *)
  Fixpoint del_nth (l : list task) (i : nat) : list task :=
    match l, i with
    | [], _ => []
    | _ :: r, O => r
    | x :: r, S k => x :: del_nth r k
    end.

  (** [map_response] and the time to live of the request (request_builder.rs:33-40). *)
  Variable map_response : N -> fbody -> option (result T).
  Variable ttl : option N.

  (** lazy_cache.rs:174-184 *)
  Definition update (s : lcache) (with_loading force : bool) : lcache * list lev :=
    if lc_queued s then (s, [])
    else (LCache (lc_value s) true (lc_tasks s ++ [Spawned with_loading force]) (lc_now s), [VSpawn]).

  (** lazy_cache.rs:203-213 *)
  Definition to_resource (r : result T) : resource := match r with Good a => RReady a | Bad e => RError e end.

  (** lazy_cache.rs:152-221: what each operation does (lines at the cases). *)
  Definition l_step (s : lcache) (o : lop) : lcache * list lev :=
    match o with
    | LGet => (* lazy_cache.rs:153-161 *)
        let '(s1, ev) := if negb (lc_queued s) && needs_update (lc_now s) (lc_value s) then update s false false else (s, []) in
        (s1, VGot (api_value (lc_value s)) :: ev)
    | LUpdate w f => update s w f (* 168-171, 174 *)
    | LForget => (LCache Uninitialized (lc_queued s) (lc_tasks s) (lc_now s), [VForgot]) (* 164-166 *)
    | LRun i => (* 184-200, 216 *)
        match nth_error (lc_tasks s) i with
        | Some (Spawned w f) =>
            if negb (lc_queued s) then (LCache (lc_value s) (lc_queued s) (del_nth (lc_tasks s) i) (lc_now s), [])
            else if f || needs_update (lc_now s) (lc_value s)
            then if w then (LCache (Data Loading None) true (set_nth (lc_tasks s) i Waiting) (lc_now s), [VLoading; VRequest])
                 else (LCache (lc_value s) true (set_nth (lc_tasks s) i Waiting) (lc_now s), [VRequest])
            else (LCache (lc_value s) false (del_nth (lc_tasks s) i) (lc_now s), [VEnd])
        | _ => (s, [])
        end
    | LAnswer i params =>
        match nth_error (lc_tasks s) i with
        | Some Waiting =>
            let t := match fetch_answer params with Some r => Published r | None => Dead end in
            (LCache (lc_value s) (lc_queued s) (set_nth (lc_tasks s) i t) (lc_now s), [])
        | _ => (s, [])
        end
    | LResume i => (* 197-217 *)
        match nth_error (lc_tasks s) i with
        | Some (Published r) =>
            let v := to_resource (rr_into map_response r) in
            let expiry := option_map (fun t => (lc_now s + t)%N) ttl in
            (LCache (Data v expiry) false (del_nth (lc_tasks s) i) (lc_now s), [VStored v expiry; VEnd])
        | _ => (s, [])
        end
    | LTime n => (LCache (lc_value s) (lc_queued s) (lc_tasks s) n, [VTime n])
    end.

  (** The operations one after the other. *)
  Fixpoint l_run (s : lcache) (ops : list lop) : lcache * list lev :=
    match ops with
    | [] => (s, [])
    | o :: t => let '(s1, e1) := l_step s o in let '(s2, e2) := l_run s1 t in (s2, e1 ++ e2)
    end.
End Fetch.
Arguments resource : clear implicits.
Arguments api : clear implicits.
Arguments lcache : clear implicits.
Arguments lev : clear implicits.
