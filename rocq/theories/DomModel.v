(** Model of the DOM commands, their ordering and sending, and their replay in the browser.

    Source: /repo/crates/vertigo/src/driver_module/dom_command.rs, dom.rs and
    src_js/api_browser/dom/{dom,map_nodes}.ts.  Strings are an abstract type [T] with an equality test. *)

From Coq Require Import List NArith Bool.
Import ListNotations.

Section Dom.
  Context {T : Type}.
  Variable teqb : T -> T -> bool.
  (** The event name "hook_keydown" (dom.ts:399, 416). *)
  Variable hook : T.

  (** dom_command.rs:6-61: [DriverDomCommand].  Ids are [DomId]s (u64), callback ids u64. *)
  Inductive dcmd :=
  | CreateNode (id : N) (name : T)
  | CreateText (id : N) (value : T)
  | UpdateText (id : N) (value : T)
  | SetAttr (id : N) (name value : T)
  | RemoveAttr (id : N) (name : T)
  | RemoveNode (id : N)
  | RemoveText (id : N)
  | InsertBefore (parent child : N) (ref : option N)
  | InsertCss (selector value : T)
  | CreateComment (id : N) (value : T)
  | RemoveComment (id : N)
  | CallbackAdd (id : N) (event : T) (callback : N)
  | CallbackRemove (id : N) (event : T) (callback : N).

  (** dom_command.rs:64-69: [is_event]. *)
  Definition is_event (c : dcmd) : bool :=
    match c with RemoveNode _ | RemoveText _ | RemoveComment _ => true | _ => false end.

  (** dom_command.rs:157-172: [sort_commands]; [dom] and [events] are the two vectors. *)
  Fixpoint sort_loop (l dom events : list dcmd) : list dcmd * list dcmd :=
    match l with
    | [] => (dom, events)
    | c :: t => if is_event c then sort_loop t dom (events ++ [c]) else sort_loop t (dom ++ [c]) events
    end.
  (** dom_command.rs:157-172 *)
  Definition sort_commands (l : list dcmd) : list dcmd :=
    let '(dom, events) := sort_loop l [] [] in dom ++ events.

  (** ** Sending: dom.rs *)

  (** dom.rs:15-19: [StateInitiation]; the counter is a u32. *)
  Inductive initiation := Waiting (counter : N) | Ready.

  (** dom.rs:55-62: [Commands]; [q_sent] is what was handed to [api.dom_bulk_update], oldest first. *)
  Record queue := Queue { q_state : initiation; q_cmds : list dcmd; q_sent : list (list dcmd) }.

  (** dom.rs:21-24, 65-73: [new]. *)
  Definition queue_new : queue := Queue (Waiting 0) [] [].

  (** dom.rs:86-92: [add_command]. *)
  Definition q_add (q : queue) (c : dcmd) : queue := Queue (q_state q) (q_cmds q ++ [c]) (q_sent q).

  (** dom.rs:94-109: [flush_dom_changes_inner]. *)
  Definition q_flush_inner (q : queue) : queue :=
    match q_cmds q with
    | [] => q
    | cs => Queue (q_state q) [] (q_sent q ++ [sort_commands cs])
    end.

  (** dom.rs:111-117: [flush_dom_changes]. *)
  Definition q_flush (q : queue) : queue :=
    match q_state q with Ready => q_flush_inner q | Waiting _ => q end.

  (** dom.rs:30-34, 119-123: [fetch_up]; exceeding u32 panics in a debug build ([None]). *)
  Definition q_up (q : queue) : option queue :=
    match q_state q with
    | Waiting n => if (n <? 4294967295)%N then Some (Queue (Waiting (n + 1)) (q_cmds q) (q_sent q)) else None
    | Ready => Some q
    end.

  (** dom.rs:36-52, 125-131: [fetch_down]; [*counter -= 1] at 0 panics in a debug build ([None]). *)
  Definition q_down (q : queue) : option queue :=
    match q_state q with
    | Waiting n =>
        if (n =? 0)%N then None
        else if (n - 1 =? 0)%N then Some (q_flush_inner (Queue Ready (q_cmds q) (q_sent q)))
             else Some (Queue (Waiting (n - 1)) (q_cmds q) (q_sent q))
    | Ready => Some q
    end.

  (** ** Replay: dom.ts, map_nodes.ts and the DOM standard *)

  (** A DOM node object without its place in the tree. *)
  Inductive bnode :=
  | BElement (name : T) (attr : list (T * T))
  | BText (t : T)
  | BComment (t : T).

  (** [b_node]: the objects created, found by the id they were created for (ids are never reused,
      dom_id.rs:8-12, so re-creating an id is not modelled: it is an error here).
      [b_reg]: map_nodes.ts:3, the ids the map knows.  [b_kids], [b_par]: the tree (DOM standard).
      [b_css]: the <style> elements appended by [insert_css] (dom.ts:198-204); kept apart from the
      other children of the head.  [b_cbs]: dom.ts:83, the ids in [callbacks].
      [b_listen]: the listeners of a node, or of the document ([None]). *)
  Record bdom := BDom {
    b_node : N -> option bnode;
    b_reg : N -> bool;
    b_kids : N -> list N;
    b_par : N -> option N;
    b_css : list (T * T);
    b_cbs : N -> bool;
    b_listen : option N -> list (T * N)
  }.

  (** A function updated at one point. *)
  Definition nupd {A} (f : N -> A) (k : N) (a : A) : N -> A := fun x => if (x =? k)%N then a else f x.
  (** A function on optional ids updated at one point (plumbing of the model). *)
  Definition oupd {A} (f : option N -> A) (k : option N) (a : A) : option N -> A :=
    fun x => match x, k with
             | None, None => a
             | Some i, Some j => if (i =? j)%N then a else f x
             | _, _ => f x
             end.

  (** [Element.setAttribute]: replaces the value in place or appends. *)
  Fixpoint battr_set (l : list (T * T)) (k v : T) : list (T * T) :=
    match l with
    | [] => [(k, v)]
    | (k', v') :: t => if teqb k k' then (k', v) :: t else (k', v') :: battr_set t k v
    end.

  (** [Element.removeAttribute]. *)
  Definition battr_del (l : list (T * T)) (k : T) : list (T * T) :=
    filter (fun e => negb (teqb k (fst e))) l.

  (** [Element.getAttribute]. *)
  Fixpoint battr_get (l : list (T * T)) (k : T) : option T :=
    match l with
    | [] => None
    | (k', v) :: t => if teqb k k' then Some v else battr_get t k
    end.

  (** Taking a node out of a list of children. *)
  Definition out_of (l : list N) (x : N) : list N := filter (fun y => negb (y =? x)%N) l.

  (** Putting a node before another, or last. *)
  Fixpoint put_before (l : list N) (r x : N) : list N :=
    match l with
    | [] => []
    | y :: t => if (y =? r)%N then x :: y :: t else y :: put_before t r x
    end.

  (** map_nodes.ts ([set]): the node of an id. *)
  Definition set_node (s : bdom) (id : N) (n : bnode) : bdom :=
    BDom (nupd (b_node s) id (Some n)) (b_reg s) (b_kids s) (b_par s) (b_css s) (b_cbs s) (b_listen s).

  (** [Node.remove()]: detached from its parent, its own children stay below it. *)
  Definition detach (s : bdom) (x : N) : bdom :=
    match b_par s x with
    | None => s
    | Some p =>
        BDom (b_node s) (b_reg s) (nupd (b_kids s) p (out_of (b_kids s p) x))
             (nupd (b_par s) x None) (b_css s) (b_cbs s) (b_listen s)
    end.

  (** The nodes the document has from the beginning (map_nodes.ts:21-41): [perm] tells which ids; they
      are always found and registering them is ignored. *)
  Variable perm : N -> bool.

  (** dom.ts:108-128 (without the click listener of links), 171-174, 526-530 with map_nodes.ts:21-27: creating a node. *)
  Definition b_create (s : bdom) (id : N) (n : bnode) : option bdom :=
    if perm id then Some s
    else match b_node s id with
         | Some _ => None
         | None => Some (BDom (nupd (b_node s) id (Some n)) (nupd (b_reg s) id true) (b_kids s) (b_par s)
                              (b_css s) (b_cbs s) (b_listen s))
         end.

  (** map_nodes.ts:29-62: [get_any_option], [get_any], [get]: [None] is a thrown error. *)
  Definition b_get (s : bdom) (id : N) : option bnode := if b_reg s id then b_node s id else None.

  (** dom.ts:166-169, 176-179, 532-536 with map_nodes.ts:100-109: removing a node. *)
  Definition b_remove (s : bdom) (id : N) : option bdom :=
    match b_get s id with
    | None => None
    | Some _ =>
        let s1 := BDom (b_node s) (if perm id then b_reg s else nupd (b_reg s) id false) (b_kids s) (b_par s)
                       (b_css s) (b_cbs s) (b_listen s) in
        Some (detach s1 id)
    end.

  (** DOM standard, "insert": the node leaves its old place and enters the children of [parent]. *)
  Definition place (s : bdom) (parent child : N) (f : list N -> list N) : bdom :=
    let s1 := detach s child in
    BDom (b_node s1) (b_reg s1) (nupd (b_kids s1) parent (f (b_kids s1 parent)))
         (nupd (b_par s1) child (Some parent)) (b_css s1) (b_cbs s1) (b_listen s1).

  (** dom.ts:186-196 with [Node.insertBefore] of the DOM standard: the parent must be an element, the
      reference a child of it (both else an exception); inserting a node before itself leaves it where it
      is.  The exception for inserting a node below itself is [legal] below. *)
  Definition b_insert (s : bdom) (parent child : N) (ref : option N) : option bdom :=
    match b_get s parent, b_get s child with
    | Some (BElement _ _), Some _ =>
        match ref with
        | None => Some (place s parent child (fun l => l ++ [child]))
        | Some r =>
            match b_get s r, b_par s r with
            | Some _, Some q =>
                if (q =? parent)%N then
                  if (r =? child)%N then Some s else Some (place s parent child (fun l => put_before l r child))
                else None
            | _, _ => None
            end
        end
    | _, _ => None
    end.

  (** dom.ts:339-405: [callback_add]. *)
  Definition b_callback_add (s : bdom) (id : N) (ev : T) (cb : N) : option bdom :=
    if b_cbs s cb then Some s
    else
      let target := if teqb ev hook then None else Some id in
      let s1 := BDom (b_node s) (b_reg s) (b_kids s) (b_par s) (b_css s) (nupd (b_cbs s) cb true)
                     (oupd (b_listen s) target (b_listen s target ++ [(ev, cb)])) in
      if teqb ev hook then Some s1
      else match b_get s id with None => None | Some _ => Some s1 end.

  (** dom.ts:407-422: [callback_remove]. *)
  Definition b_callback_remove (s : bdom) (id : N) (ev : T) (cb : N) : option bdom :=
    if b_cbs s cb then
      let target := if teqb ev hook then None else Some id in
      let s1 := BDom (b_node s) (b_reg s) (b_kids s) (b_par s) (b_css s) (nupd (b_cbs s) cb false)
                     (oupd (b_listen s) target
                        (filter (fun e => negb (teqb ev (fst e) && (snd e =? cb)%N)) (b_listen s target))) in
      if teqb ev hook then Some s1
      else match b_get s id with None => None | Some _ => Some s1 end
    else Some s.

  (** dom.ts:480-549: [bulk_update_command]; [None] is a thrown error.  The live [value] property of
      inputs (dom.ts:134-145, 152-163) is not modelled. *)
  Definition b_step (s : bdom) (c : dcmd) : option bdom :=
    match c with
    | RemoveNode id | RemoveText id | RemoveComment id => b_remove s id
    | InsertBefore p c r => b_insert s p c r
    | CreateNode id name => b_create s id (BElement name [])
    | CreateText id v => b_create s id (BText v)
    | CreateComment id v => b_create s id (BComment v)
    | UpdateText id v =>                                           (* dom.ts:181-184 *)
        match b_get s id with Some (BText _) => Some (set_node s id (BText v)) | _ => None end
    | SetAttr id n v =>                                            (* dom.ts:130-146 *)
        match b_get s id with
        | Some (BElement name a) => Some (set_node s id (BElement name (battr_set a n v)))
        | _ => None
        end
    | RemoveAttr id n =>                                           (* dom.ts:148-164 *)
        match b_get s id with
        | Some (BElement name a) => Some (set_node s id (BElement name (battr_del a n)))
        | _ => None
        end
    | InsertCss sel v =>
        Some (BDom (b_node s) (b_reg s) (b_kids s) (b_par s) (b_css s ++ [(sel, v)]) (b_cbs s) (b_listen s))
    | CallbackAdd id ev cb => b_callback_add s id ev cb
    | CallbackRemove id ev cb => b_callback_remove s id ev cb
    end.

  (** dom.ts:450-460: the loop of [dom_bulk_update] when no command throws. *)
  Fixpoint b_run (s : bdom) (cs : list dcmd) : option bdom :=
    match cs with
    | [] => Some s
    | c :: t => match b_step s c with None => None | Some s1 => b_run s1 t end
    end.

  (** What a throwing command leaves behind: dom.ts:397-402 and 408-419 change [callbacks] before looking
      the node up. *)
  Definition b_err (s : bdom) (c : dcmd) : bdom :=
    match c with
    | CallbackAdd _ _ cb =>
        BDom (b_node s) (b_reg s) (b_kids s) (b_par s) (b_css s) (nupd (b_cbs s) cb true) (b_listen s)
    | CallbackRemove _ _ cb =>
        BDom (b_node s) (b_reg s) (b_kids s) (b_par s) (b_css s) (nupd (b_cbs s) cb false) (b_listen s)
    | _ => s
    end.

  (** DOM standard, "pre-insert validity": a node cannot be inserted below itself. [under s x y]: [x] is
      [y] or below it. *)
  Inductive under (s : bdom) : N -> N -> Prop :=
  | under_refl x : under s x x
  | under_step x p y : b_par s x = Some p -> under s p y -> under s x y.

  (** DOM standard 4.2.3 (ensure pre-insertion validity): a node is not inserted below itself. *)
  Definition legal (s : bdom) (c : dcmd) : Prop :=
    match c with InsertBefore p ch _ => ~ under s p ch | _ => True end.

  (** dom.ts:450-460: the loop of [dom_bulk_update]: an error is logged and the next command executed;
      [breplay s cs errs s1]: replaying [cs] from [s] ends in [s1], [errs] are the commands that threw. *)
  Inductive breplay : bdom -> list dcmd -> list dcmd -> bdom -> Prop :=
  | br_nil s : breplay s [] [] s
  | br_ok s c t s1 errs s2 : legal s c -> b_step s c = Some s1 -> breplay s1 t errs s2 ->
      breplay s (c :: t) errs s2
  | br_err s c t errs s2 : ~ legal s c \/ b_step s c = None -> breplay (b_err s c) t errs s2 ->
      breplay s (c :: t) (c :: errs) s2.
End Dom.
Arguments dcmd : clear implicits.
Arguments bnode : clear implicits.
Arguments bdom : clear implicits.
Arguments queue : clear implicits.
