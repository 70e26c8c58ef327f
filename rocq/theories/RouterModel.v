(** Routers, the location of the page, and links.

    Source: RT = /repo/crates/vertigo/src/router.rs, HR, HL = /repo/crates/vertigo/src/driver_module/src_js/api_browser/
    {hashrouter,historyLocation}.ts, API = /repo/crates/vertigo/src/driver_module/api/api_import.rs:320-448,
    DOM = /repo/crates/vertigo/src/driver_module/src_js/api_browser/dom/dom.ts.
    Strings are UTF-8 bytes.  Simplified: texts pass the bridge unchanged (C57), the value of a router is connected exactly
    while something depends on it (C09), and what the application does when a route changes is a later operation. *)
From Coq Require Import String List NArith Bool.
From Verif Require Import CodecModel DomWire CookieModel.
Import ListNotations.
Local Open Scope string_scope.
Local Open Scope list_scope.
Local Open Scope N_scope.

(** The URL of the page without its origin: path and query ([pathname + search]), and the fragment without "#". *)
Record loc := Loc { l_rest : bytes; l_frag : bytes }.

(** HL 49-51: [get] ([location.hash] is empty for an empty fragment). *)
Definition get_history (l : loc) : bytes := l_rest l ++ match l_frag l with [] => [] | f => 35 :: f end.

(** HR 40-42: [get]; [None] is the exception of [decodeURIComponent]. *)
Definition get_hash (l : loc) : option bytes := decode_component (l_frag l).

(** URL standard, 1.3: the fragment percent-encode set, for bytes. *)
Definition fragment_escaped (b : N) : bool :=
  (b <? 32) || (126 <? b) || (b =? 32) || (b =? 34) || (b =? 60) || (b =? 62) || (b =? 96).
(** HTML standard 7.2.4 (Location, the setter of [hash]) and URL standard 4.4: one leading "#" and all tabs and line
    breaks are removed, the rest is percent-encoded where needed ('%' is not). *)
Definition fragment_of (x : bytes) : bytes :=
  let x1 := match x with 35 :: t => t | _ => x end in
  let x2 := filter (fun b => negb ((b =? 9) || (b =? 10) || (b =? 13))) x1 in
  flat_map (fun b => if fragment_escaped b then escape b else [b]) x2.

Section Routers.
  (** The type of routes, [From<String>], [ToString] and [PartialEq] (RT 67). *)
  Variable T : Type.
  Variable from : bytes -> T.
  Variable to : T -> bytes.
  Variable eqb : T -> T -> bool.
  (** [history.pushState]: the URL parser, applied in the page at a location; [None]: no URL, or one of another origin
      (an exception). *)
  Variable resolve : loc -> bytes -> option loc.

  (** RT 66-70: a router, with the callback its value is connected by, and the changes reported to the graph. *)
  Record router := Router { r_history : bool; r_value : T; r_cb : option N; r_told : list T }.

  (** The page and the application: the location, the callbacks of HR 6 and HL 5 (in order), the routers, the next id of a
      callback, and the [popstate] and [hashchange] events the browser will still fire. *)
  Record world := World { w_loc : loc; w_hash : list N; w_hist : list N; w_routers : list router; w_next : N;
                          w_pop : nat; w_change : nat }.

  (** value.rs:161-168 with value_mut.rs:54-59: [set_value_and_compare] *)
  Definition put (v : T) (r : router) : router :=
    Router (r_history r) v (r_cb r) (if eqb (r_value r) v then r_told r else r_told r ++ [v]).
  (** API 335, 407 (the closure registered under the id); ids are unique (C39). *)
  Definition is_cb (id : N) (r : router) : bool := match r_cb r with Some c => c =? id | None => false end.
  (** API 343-356, 415-428 with RT 95-97: the callback of a router. *)
  Definition callback (id : N) (url : bytes) (w : world) : world :=
    World (w_loc w) (w_hash w) (w_hist w) (map (fun r => if is_cb id r then put (from url) r else r) (w_routers w)) (w_next w)
          (w_pop w) (w_change w).

  (** HR 15-25, HL 14-24: [trigger], with the functions set by [add]; an exception of [get] ends it. *)
  Fixpoint trigger (get : loc -> option bytes) (ids : list N) (w : world) : world :=
    match ids with
    | [] => w
    | id :: t => match get (w_loc w) with None => w | Some s => trigger get t (callback id s w) end
    end.
  (** HR 15-19: the listeners of the hash are called. *)
  Definition trigger_hash (w : world) : world := trigger get_hash (w_hash w) w.
  (** HL 14-18: the listeners of the history are called. *)
  Definition trigger_history (w : world) : world := trigger (fun l => Some (get_history l)) (w_hist w) w.

  (** A new location; [pop], [change]: events that will be fired for it. *)
  Definition move (l : loc) (pop change : nat) (w : world) : world :=
    World l (w_hash w) (w_hist w) (w_routers w) (w_next w) (w_pop w + pop) (w_change w + change).

  (** [location.hash = x]: nothing for the same fragment, otherwise a navigation, with both events to come. *)
  Definition set_location_hash (x : bytes) (w : world) : world :=
    let f := fragment_of x in
    if bytes_eqb f (l_frag (w_loc w)) then w else move (Loc (l_rest (w_loc w)) f) 1 1 w.

  (** HR 31-38: [push] *)
  Definition push_hash (x : bytes) (w : world) : world :=
    match get_hash (w_loc w) with
    | None => w
    | Some g => if bytes_eqb g x then w else trigger_hash (set_location_hash x w)
    end.

  (** HL 30-37, 39-46: [push] and [replace]: [pushState] and [replaceState] fire no event. *)
  Definition push_history (url : bytes) (w : world) : world :=
    if bytes_eqb (get_history (w_loc w)) url then w
    else match resolve (w_loc w) url with None => w | Some l => trigger_history (move l 0 0 w) end.

  (** Replaces one element (helper of the model). *)
  Fixpoint set_nth {X} (n : nat) (x : X) (l : list X) : list X :=
    match l, n with
    | [], _ => []
    | _ :: t, O => x :: t
    | y :: t, S n => y :: set_nth n x t
    end.

  (** What happens: a router is made (RT 84-109), something starts or stops to depend on it (RT 93-102, API 350-364 and
      422-448), it is set (RT 111-117), the application replaces the path (driver.rs:143-145; clicks on links push, see
      below), the user goes somewhere, or the browser fires an event. *)
  Inductive op :=
  | New (history : bool)
  | Observe (i : nat)
  | Unobserve (i : nat)
  | SetRoute (i : nat) (route : T)
  | PushPath (url : bytes)
  | Go (l : loc)
  | FirePop
  | FireChange.

  (** RT, HR, HL, DOM: what each operation does (lines at the cases). *)
  Definition step (w : world) (o : op) : world :=
    match o with
    | New history =>
        let v := from (if history then get_history (w_loc w) else match get_hash (w_loc w) with Some s => s | None => [] end) in
        World (w_loc w) (w_hash w) (w_hist w) (w_routers w ++ [Router history v None []]) (w_next w) (w_pop w) (w_change w)
    | Observe i =>
        match nth_error (w_routers w) i with
        | Some (Router h v None told) =>
            World (w_loc w) (if h then w_hash w else w_hash w ++ [w_next w]) (if h then w_hist w ++ [w_next w] else w_hist w)
                  (set_nth i (Router h v (Some (w_next w)) told) (w_routers w)) (w_next w + 1) (w_pop w) (w_change w)
        | _ => w
        end
    | Unobserve i =>
        match nth_error (w_routers w) i with
        | Some (Router h v (Some id) told) =>
            let del := filter (fun x => negb (x =? id)) in
            World (w_loc w) (if h then w_hash w else del (w_hash w)) (if h then del (w_hist w) else w_hist w)
                  (set_nth i (Router h v None told) (w_routers w)) (w_next w) (w_pop w) (w_change w)
        | _ => w
        end
    | SetRoute i route =>
        match nth_error (w_routers w) i with
        | Some r => if r_history r then push_history (to route) w else push_hash (to route) w
        | None => w
        end
    | PushPath url => push_history url w
    | Go l => move l 1 (if bytes_eqb (l_frag l) (l_frag (w_loc w)) then 0 else 1) w
    | FirePop => match w_pop w with O => w | S n =>
        trigger_history (World (w_loc w) (w_hash w) (w_hist w) (w_routers w) (w_next w) n (w_change w)) end
    | FireChange => match w_change w with O => w | S n =>
        trigger_hash (World (w_loc w) (w_hash w) (w_hist w) (w_routers w) (w_next w) (w_pop w) n) end
    end.
  (** The operations one after the other. *)
  Definition run (w : world) (l : list op) : world := fold_left step l w.

  (** A page before any router. *)
  Definition start (l : loc) : world := World l [] [] [] 1 0 0.

  (** ** Links *)

  (** [startsWith] *)
  Fixpoint starts_with (p s : bytes) : bool :=
    match p, s with
    | [], _ => true
    | x :: p, y :: s => (x =? y) && starts_with p s
    | _, _ => false
    end.

  (** DOM 112-127: a click on a link with the attribute [href]: the page afterwards, and whether the browser does not
      follow the link itself. *)
  Definition click (href : option bytes) (w : world) : world * bool :=
    match href with
    | None => (w, false)
    | Some h =>
        if starts_with (str "#") h || starts_with (str "http://") h || starts_with (str "https://") h || starts_with (str "//") h
        then (w, false)
        else (push_history h w, true)
    end.
End Routers.
