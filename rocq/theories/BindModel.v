(** Model of the attributes, texts and handlers that follow reactive values.

    Source: /repo/crates/vertigo/src/dom/{attr_value,dom_element,dom_element_class,dom_text,callback}.rs,
    with the subscriptions of computed/computed_box.rs and the commands of driver_module/dom.rs (DomModel).

    The values of the application are one state of type [St]; what a [Computed] computes from them is a
    function of that state.  That a subscription is refreshed with the value computed from the current
    state, in the transaction that changed it, is the subject of C01-C08 and taken over here.  Strings are
    an abstract type [T]; handlers are an abstract type [H]. *)

From Coq Require Import List NArith Bool.
From Verif Require Import DomModel.
Import ListNotations.

Section Bind.
  Context {T St H : Type}.
  Variable teqb : T -> T -> bool.
  (** The name "class" (dom_element_class.rs:61-66, 137) and the empty string. *)
  Variable cls empty : T.

  (** attr_value.rs:3-9: [AttrValue]; a [Value] is turned into its computed at dom_element.rs:111, 118. *)
  Inductive source :=
  | Fixed (v : T)
  | Bound (f : St -> T)
  | BoundOpt (f : St -> option T).

  (** callback.rs:7-10, 57-61: [Callback], [Callback1]. *)
  Inductive hsource :=
  | HBasic (h : H)
  | HComputed (f : St -> H).

  (** What the closure given to [subscribe] does: dom_element.rs:97-99 and 104-106 (an attribute),
      dom_text.rs:36-39 (a text; the function yields [Some]), callback.rs:37-39 and 89-91 (the cell
      [current] of a handler). *)
  Inductive target :=
  | ToAttr (name : T) (f : St -> option T)
  | ToText (f : St -> T)
  | ToHandler (f : St -> H).

  (** A live subscription (computed_box.rs:101-124, 128-145): [sb_key] orders them, [sb_id] is the node whose
      [subscriptions] hold it, [sb_prev] is [prev_value] (computed_box.rs:102). *)
  Record sub := Sub { sb_key : N; sb_id : N; sb_to : target; sb_prev : option (option T) }.

  (** What the closure of a handler calls: the function itself (callback.rs:33, 84-85), or the contents of
      [current] (callback.rs:35, 87), a cell of its own. *)
  Inductive hcell := HFun (h : H) | HCell (key : N) (current : option H).

  (** DomElementClassMergeInner (dom_element_class.rs:7-15) without styles: [attr_name] and [command_last_sent]. *)
  Record clsm := Clsm { cm_attr : option T; cm_last : option T }.

  (** [w_s]: the values; [w_next]: the counter of dom_id.rs:8-12; [w_keys]: the counter of graph ids;
      [w_subs]: the live subscriptions, oldest first; [w_pend]: those the running transaction has still to
      refresh; [w_class]: the class managers; [w_hand]: the handlers of the nodes, each with its event;
      [w_q]: the queue of commands (dom.rs:55-62). *)
  Record world := World {
    w_s : St; w_next : N; w_keys : N; w_subs : list sub; w_pend : list N;
    w_class : N -> clsm; w_hand : list (N * T * hcell); w_q : queue T
  }.

  (** Changing one part of the world (plumbing of the model). *)
  Definition set_q (w : world) (q : queue T) : world :=
    World (w_s w) (w_next w) (w_keys w) (w_subs w) (w_pend w) (w_class w) (w_hand w) q.
  (** Changing one part of the world (plumbing of the model). *)
  Definition set_class (w : world) (id : N) (c : clsm) : world :=
    World (w_s w) (w_next w) (w_keys w) (w_subs w) (w_pend w) (nupd (w_class w) id c) (w_hand w) (w_q w).
  (** Changing one part of the world (plumbing of the model). *)
  Definition set_hand (w : world) (h : list (N * T * hcell)) : world :=
    World (w_s w) (w_next w) (w_keys w) (w_subs w) (w_pend w) (w_class w) h (w_q w).

  (** dom.rs:86-92 through dom.rs:169-221: a command is added. *)
  Definition emit (w : world) (c : dcmd T) : world := set_q w (q_add (w_q w) c).

  (** Equality of [Option<String>] (dom_element_class.rs:57). *)
  Definition oeqb (a b : option T) : bool :=
    match a, b with
    | Some x, Some y => teqb x y
    | None, None => true
    | _, _ => false
    end.

  (** dom_element_class.rs:54-70: [refresh_dom], with [get_new_command] (30-52) of an element without styles. *)
  Definition class_refresh (w : world) (id : N) (attr : option T) : world :=
    let last := cm_last (w_class w id) in
    let w1 := set_class w id (Clsm attr (if oeqb last attr then last else attr)) in
    if oeqb last attr then w1
    else emit w1 (SetAttr id cls (match attr with Some v => v | None => empty end)).

  (** dom_element_class.rs:136-161: [set_attr_value], with [set_attribute] (87-92) and [remove_attribute]
      (94-99). *)
  Definition set_attr_value (w : world) (id : N) (name : T) (value : option T) : world :=
    if teqb name cls then class_refresh w id value
    else match value with
         | Some v => emit w (SetAttr id name v)
         | None => emit w (RemoveAttr id name)
         end.

  (** callback.rs:38, 90: the cell of a handler is set. *)
  Definition put_handler (hs : list (N * T * hcell)) (key : N) (h : H) : list (N * T * hcell) :=
    map (fun e => match snd e with
                  | HCell k c => if (k =? key)%N then (fst e, HCell k (Some h)) else e
                  | HFun _ => e
                  end) hs.

  (** The closure of a subscription is called with the value computed from the current state; the second
      part is the new [prev_value].  computed_box.rs:106-117 ([subscribe]: only if it differs from the value
      before), 131-138 ([subscribe_all]: always). *)
  Definition deliver (w : world) (s : sub) : world * option (option T) :=
    match sb_to s with
    | ToAttr name f =>
        let v := f (w_s w) in
        if match sb_prev s with Some p => oeqb p v | None => false end then (w, Some v)
        else (set_attr_value w (sb_id s) name v, Some v)
    | ToText f =>
        let v := f (w_s w) in
        if match sb_prev s with Some p => oeqb p (Some v) | None => false end then (w, Some (Some v))
        else (emit w (UpdateText (sb_id s) v), Some (Some v))
    | ToHandler f => (set_hand w (put_handler (w_hand w) (sb_key s) (f (w_s w))), sb_prev s)
    end.

  (** computed_box.rs:101-124 and 128-145: [subscribe] and [subscribe_all] call the closure once at the
      beginning; the resource is put into the [subscriptions] of the node (dom_element.rs:59-60, 211-213,
      dom_text.rs:41). *)
  Definition subscribe (w : world) (id : N) (t : target) : world :=
    let '(w1, p) := deliver w (Sub (w_keys w) id t None) in
    World (w_s w1) (w_next w1) (w_keys w1 + 1) (w_subs w1 ++ [Sub (w_keys w) id t p]) (w_pend w1)
          (w_class w1) (w_hand w1) (w_q w1).

  (** dom_element.rs:86-123: [add_attr]. *)
  Definition add_attr (w : world) (id : N) (a : T * source) : world :=
    match snd a with
    | Fixed v => set_attr_value w id (fst a) (Some v)
    | Bound f => subscribe w id (ToAttr (fst a) (fun s => Some (f s)))
    | BoundOpt f => subscribe w id (ToAttr (fst a) f)
    end.

  (** dom_element.rs:205-227: [install_callback], [install_callback1] with callback.rs:31-54, 82-106, and
      182-203: [add_event_listener] (without its command and its place in the store of callbacks, for which
      see C39 and C61). *)
  Definition add_handler (w : world) (id : N) (h : T * hsource) : world :=
    match snd h with
    | HBasic f => set_hand w (w_hand w ++ [(id, fst h, HFun f)])
    | HComputed f => subscribe (set_hand w (w_hand w ++ [(id, fst h, HCell (w_keys w) None)])) id (ToHandler f)
    end.

  (** The counter of dom_id.rs:8-12 is advanced; the number it had is the new id. *)
  Definition next_id (w : world) : world :=
    World (w_s w) (w_next w + 1) (w_keys w) (w_subs w) (w_pend w) (w_class w) (w_hand w) (w_q w).

  (** dom_element.rs:31-48: [new] (of an element other than html, head and body), then its attributes
      (125-135) and its handlers. *)
  Definition new_element (w : world) (name : T) (attrs : list (T * source)) (hs : list (T * hsource)) : world :=
    let id := w_next w in
    let w1 := set_class (emit (next_id w) (CreateNode id name)) id (Clsm None None) in
    let w2 := fold_left (fun w a => add_attr w id a) attrs w1 in
    fold_left (fun w h => add_handler w id h) hs w2.

  (** dom_text.rs:14-26 ([new]) and 28-43 ([new_computed]; the conversion into a string is part of the
      function).  A text that may be absent does not exist. *)
  Definition new_text (w : world) (f : T + (St -> T)) : world :=
    let id := w_next w in
    match f with
    | inl v => emit (next_id w) (CreateText id v)
    | inr f => subscribe (emit (next_id w) (CreateText id empty)) id (ToText f)
    end.

  (** Dropping a node: dom_element.rs:395-399 or dom_text.rs:50-54, then the fields: the
      subscriptions end (C06). *)
  Definition drop_node (w : world) (id : N) (text : bool) : world :=
    let w1 := emit w (if text then RemoveText id else RemoveNode id) in
    World (w_s w1) (w_next w1) (w_keys w1) (filter (fun s => negb (sb_id s =? id)%N) (w_subs w1))
          (w_pend w1) (w_class w1) (filter (fun e => negb (fst (fst e) =? id)%N) (w_hand w1)) (w_q w1).

  (** The subscription [k] is refreshed, if it is still there (C06). *)
  Fixpoint refresh (w : world) (before after : list sub) (k : N) : world :=
    match after with
    | [] => w
    | s :: t =>
        if (sb_key s =? k)%N then
          let '(w1, p) := deliver w s in
          World (w_s w1) (w_next w1) (w_keys w1) (before ++ Sub (sb_key s) (sb_id s) (sb_to s) p :: t)
                (w_pend w1) (w_class w1) (w_hand w1) (w_q w1)
        else refresh w (before ++ [s]) t k
    end.

  (** What happens, one thing after the other; elements and texts may be made and dropped at any moment,
      also by callbacks while a transaction refreshes its subscriptions.
      [Change s]: values are set in a transaction; every subscription that depends on them is scheduled
      (C08) - here all of them, as those whose value does not change do nothing.
      [Refresh]: the scheduled subscription that is first in the order of ids is called (C03).
      [Flush]: the transaction is over when none is left, and the commands are flushed (driver.rs:79-81).
      [FetchUp], [FetchDown]: dom.rs:119-131. *)
  Inductive step :=
  | NewElement (name : T) (attrs : list (T * source)) (hs : list (T * hsource))
  | NewText (f : T + (St -> T))
  | DropElement (id : N)
  | DropText (id : N)
  | Change (s : St)
  | Refresh
  | Flush
  | FetchUp
  | FetchDown.

  (** One step; what cannot happen, as dropping a node that is not there, is left to the conditions of the
      theorems. *)
  Definition do_step (w : world) (a : step) : world :=
    match a with
    | NewElement name attrs hs => new_element w name attrs hs
    | NewText f => new_text w f
    | DropElement id => drop_node w id false
    | DropText id => drop_node w id true
    | Change s =>
        World s (w_next w) (w_keys w) (w_subs w) (map sb_key (w_subs w)) (w_class w) (w_hand w) (w_q w)
    | Refresh =>
        match w_pend w with
        | [] => w
        | k :: t =>
            refresh (World (w_s w) (w_next w) (w_keys w) (w_subs w) t (w_class w) (w_hand w) (w_q w))
                    [] (w_subs w) k
        end
    | Flush => match w_pend w with [] => set_q w (q_flush (w_q w)) | _ => w end
    | FetchUp => match q_up (w_q w) with Some q => set_q w q | None => w end
    | FetchDown => match q_down (w_q w) with Some q => set_q w q | None => w end
    end.

  (** A sequence of steps. *)
  Definition run (w : world) (l : list step) : world := fold_left do_step l w.

  (** dom_id.rs:6 and dom.rs:65-73: the beginning. *)
  Definition start (s : St) : world :=
    World s 4 0 [] [] (fun _ => Clsm None None) [] queue_new.

  (** callback.rs:41-49, 93-101: what an event calls: the function of each handler of the node for that
      event, in order ([None]: the cell is empty, [unreachable!()]). *)
  Definition fires (w : world) (id : N) (ev : T) : list (option H) :=
    map (fun e => match snd e with HFun h => Some h | HCell _ c => c end) (filter (fun e => (fst (fst e) =? id)%N && teqb (snd (fst e)) ev) (w_hand w)).
End Bind.
Arguments source : clear implicits.
Arguments hsource : clear implicits.
Arguments step : clear implicits.
Arguments world : clear implicits.
