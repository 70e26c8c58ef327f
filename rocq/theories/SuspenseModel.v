(** Model of the suspense machinery
    (crates/vertigo/src/driver_module/dom_suspense, and its callers in
    driver_module/dom.rs and dom/dom_element_class.rs).

    Node ids (dom/dom_id.rs, u64) are values of [N].  A [BTreeMap] is an
    association list kept in key order, a [HashMap] is the same (its order is
    never observed here), a [BTreeSet] is the list of its members.  A panic is
    [None].  What a layer callback does with the value it receives (it sets the
    class of the layer's element, CssModel.v) does not call back into this
    code; the model keeps a log of the calls. *)
From Coq Require Import NArith List Bool.
Import ListNotations.
Local Open Scope N_scope.
Local Open Scope list_scope.

(** [BTreeMap::get] (used at dom_suspense_mod.rs 31, dom_connection.rs 41). *)
Fixpoint mget {A : Type} (k : N) (m : list (N * A)) : option A :=
  match m with
  | [] => None
  | (a, v) :: r => if k =? a then Some v else mget k r
  end.

(** [BTreeMap::insert] (used at dom_suspense_mod.rs 81, node_paths.rs 40-41,
    dom_connection.rs 35): replaces the value of a present key, otherwise adds
    the key at its place in the order. *)
Fixpoint mset {A : Type} (k : N) (v : A) (m : list (N * A)) : list (N * A) :=
  match m with
  | [] => [(k, v)]
  | (a, w) :: r =>
      if k =? a then (k, v) :: r
      else if k <? a then (k, v) :: (a, w) :: r
      else (a, w) :: mset k v r
  end.

(** [BTreeMap::remove] (used at dom_suspense_mod.rs 92, node_paths.rs 28,
    dom_connection.rs 27). *)
Definition mdel {A : Type} (k : N) (m : list (N * A)) : list (N * A) :=
  filter (fun e => negb (k =? fst e)) m.

(** dom_connection.rs 4-7.  Only the map from a node to its parent is kept:
    the field [child] is written (30, 37) but never read. *)
Definition conn := list (N * N).

(** dom_connection.rs 26-32, [node_remove]; also [remove], 22-24. *)
Definition conn_remove (c : conn) (x : N) : conn := mdel x c.

(** dom_connection.rs 17-20, [set_parent] = [node_remove], then [node_insert]
    (34-38). *)
Definition conn_set_parent (c : conn) (x p : N) : conn := mset x p (conn_remove c x).

(** dom_connection.rs 40-42. *)
Definition conn_parent (c : conn) (x : N) : option N := mget x c.

(** node_paths.rs 58-71: the loop of [calculate_path]; [n] is [max_level], the
    decrement and the test (59-63) are the match on [n]. *)
Fixpoint path_loop (n : nat) (c : conn) (current : N) (path : list N) : option (list N) :=
  match n with
  | O => None
  | S n =>
      match conn_parent c current with
      | Some parent => path_loop n c parent (parent :: path)
      | None => Some path
      end
  end.

(** node_paths.rs 50-56: [calculate_path], [max_level = 500]. *)
Definition calculate_path (c : conn) (x : N) : option (list N) :=
  path_loop 500 c x [x].

(** node_paths.rs 5-8. *)
Record npaths := NPaths { np_paths : list (N * list N); np_all : list N }.

(** node_paths.rs 11-16. *)
Definition np_new : npaths := NPaths [] [].

(** node_paths.rs 74-83. *)
Definition calculate_all_nodes (ps : list (N * list N)) : list N := flat_map snd ps.

(** node_paths.rs 19-21: every path is computed again. *)
Fixpoint refresh_each (c : conn) (ps : list (N * list N)) : option (list (N * list N)) :=
  match ps with
  | [] => Some []
  | (x, _) :: r =>
      match calculate_path c x with
      | None => None
      | Some p => match refresh_each c r with None => None | Some r => Some ((x, p) :: r) end
      end
  end.

(** node_paths.rs 18-24. *)
Definition np_refresh (c : conn) (np : npaths) : option npaths :=
  match refresh_each c (np_paths np) with
  | None => None
  | Some ps => Some (NPaths ps (calculate_all_nodes ps))
  end.

(** node_paths.rs 26-37. *)
Definition np_remove (np : npaths) (x : N) : npaths * bool :=
  match mget x (np_paths np) with
  | None => (NPaths (mdel x (np_paths np)) (np_all np), false)
  | Some _ =>
      let ps := mdel x (np_paths np) in (NPaths ps (calculate_all_nodes ps), true)
  end.

(** node_paths.rs 39-43. *)
Definition np_insert (c : conn) (np : npaths) (x : N) : option npaths :=
  match calculate_path c x with
  | None => None
  | Some p =>
      let ps := mset x p (np_paths np) in Some (NPaths ps (calculate_all_nodes ps))
  end.

(** node_paths.rs 45-47. *)
Definition np_contains (np : npaths) (x : N) : bool := existsb (N.eqb x) (np_all np).

(** dom_suspense_mod.rs 12-17; of a [LayerCallback] (7-10) the value
    [last_show_loading] is kept, and [s_log] records the calls of the callbacks,
    oldest first. *)
Record sstate := SState {
  s_conn : conn;
  s_susp : npaths;
  s_layer : npaths;
  s_cb : list (N * bool);
  s_log : list (N * bool)
}.

(** dom_suspense_mod.rs 20-27. *)
Definition s_new : sstate := SState [] np_new np_new [] [].

(** dom_suspense_mod.rs 30-39: the loop of [refresh_subscribers], returning the
    callbacks and the calls made. *)
Fixpoint refresh_subs (c : conn) (susp : npaths) (cbs : list (N * bool))
  : list (N * bool) * list (N * bool) :=
  match cbs with
  | [] => ([], [])
  | (l, last) :: r =>
      let (r', calls) := refresh_subs c susp r in
      match conn_parent c l with
      | None => ((l, last) :: r', calls)
      | Some p =>
          let show := np_contains susp p in
          if Bool.eqb last show then ((l, last) :: r', calls)
          else ((l, show) :: r', (l, show) :: calls)
      end
  end.

(** dom_suspense_mod.rs 42-47. *)
Definition s_refresh (s : sstate) : option sstate :=
  match np_refresh (s_conn s) (s_susp s) with
  | None => None
  | Some susp =>
      match np_refresh (s_conn s) (s_layer s) with
      | None => None
      | Some layer =>
          let (cbs, calls) := refresh_subs (s_conn s) susp (s_cb s) in
          Some (SState (s_conn s) susp layer cbs (s_log s ++ calls))
      end
  end.

(** dom_suspense_mod.rs 49-52. *)
Definition set_node_suspense (s : sstate) (x : N) : option sstate :=
  match np_insert (s_conn s) (s_susp s) x with
  | None => None
  | Some susp => s_refresh (SState (s_conn s) susp (s_layer s) (s_cb s) (s_log s))
  end.

(** dom_suspense_mod.rs 54-58. *)
Definition set_parent (s : sstate) (x p : N) : option sstate :=
  s_refresh (SState (conn_set_parent (s_conn s) x p) (s_susp s) (s_layer s) (s_cb s) (s_log s)).

(** dom_suspense_mod.rs 60-68. *)
Definition s_remove (s : sstate) (x : N) : option sstate :=
  let c := conn_remove (s_conn s) x in
  let (susp, was_susp) := np_remove (s_susp s) x in
  let (layer, was_layer) := np_remove (s_layer s) x in
  let s := SState c susp layer (s_cb s) (s_log s) in
  if was_susp || was_layer then s_refresh s else Some s.

(** dom_suspense_mod.rs 70-89; the error message at 83-85 is left out. *)
Definition set_layer_callback (s : sstate) (l : N) : option sstate :=
  let show := np_contains (s_susp s) l in
  let cbs := mset l show (s_cb s) in
  match np_insert (s_conn s) (s_layer s) l with
  | None => None
  | Some layer => s_refresh (SState (s_conn s) (s_susp s) layer cbs (s_log s ++ [(l, show)]))
  end.

(** dom_suspense_mod.rs 91-98. *)
Definition remove_layer_callback (s : sstate) (l : N) : option sstate :=
  let (layer, was_layer) := np_remove (s_layer s) l in
  let s := SState (s_conn s) (s_susp s) layer (mdel l (s_cb s)) (s_log s) in
  if was_layer then s_refresh s else Some s.

(** The calls [DomSuspense] receives (dom_suspense_mod.rs 112-139):
    [Loader x] a node <vertigo-suspense/> is created (driver_module/dom.rs
    172-174), [Attach x p] the node [x] is inserted into [p] (dom.rs 223-235),
    [Remove x] a node, text or comment is removed (dom.rs 211-221, 251-255),
    [Layer l] a layer callback is set, [Unlayer l] its DropResource is dropped
    (dom_suspense_mod.rs 136-138). *)
Inductive call := Loader (x : N) | Attach (x p : N) | Remove (x : N) | Layer (l : N) | Unlayer (l : N).

(** dom_suspense_mod.rs 112-139: the wrapper passes each call on. *)
Definition s_call (s : sstate) (o : call) : option sstate :=
  match o with
  | Loader x => set_node_suspense s x
  | Attach x p => set_parent s x p
  | Remove x => s_remove s x
  | Layer l => set_layer_callback s l
  | Unlayer l => remove_layer_callback s l
  end.

(** A sequence of calls, as made by a running program (dom_suspense_mod.rs
    112-139). *)
Fixpoint s_calls (s : sstate) (os : list call) : option sstate :=
  match os with
  | [] => Some s
  | o :: os => match s_call s o with None => None | Some s => s_calls s os end
  end.

(** The elements that set a suspense attribute.  dom/dom_element_class.rs 6-14
    and 73-76: of the shared state of an element's class, [e_refs] is the
    number of [Rc]s that point to it and [e_drop] says whether
    [_suspense_drop] holds a DropResource. *)
Record eclass := EClass { e_refs : nat; e_drop : bool }.

(** The whole: the suspense state and the class of each element. *)
Record estate := EState { e_susp : sstate; e_class : list (N * eclass) }.

(** driver_module/dom.rs 167, a driver with no elements. *)
Definition e_new : estate := EState s_new [].

(** Changes the [Rc] count of the class of an element; when it reaches zero
    the class is dropped, and with it the DropResource it holds
    (dom/dom_element_class.rs 11, computed/drop_resource.rs 20-34,
    dom_suspense_mod.rs 136-138).  The closure removed from the map by
    [remove_layer_callback] holds an [Rc] to the class being dropped, so at
    that point there is none. *)
Definition class_release (s : estate) (x : N) : option estate :=
  match mget x (e_class s) with
  | None => Some s
  | Some c =>
      match e_refs c with
      | O => Some s
      | S O =>
          match (if e_drop c then remove_layer_callback (e_susp s) x else Some (e_susp s)) with
          | None => None
          | Some ss => Some (EState ss (mdel x (e_class s)))
          end
      | S n => Some (EState (e_susp s) (mset x (EClass n (e_drop c)) (e_class s)))
      end
  end.

(** dropping a DropResource of a layer callback (dom_suspense_mod.rs 136-138):
    the callback is removed from the map, and the [Rc] its closure holds
    (dom/dom_element_class.rs 120) is released. *)
Definition drop_layer (s : estate) (x : N) : option estate :=
  let had := match mget x (s_cb (e_susp s)) with Some _ => true | None => false end in
  match remove_layer_callback (e_susp s) x with
  | None => None
  | Some ss => if had then class_release (EState ss (e_class s)) x else Some (EState ss (e_class s))
  end.

(** dom/dom_element_class.rs 108-134, [set_suspense_attr(Some(callback))]:
    the closure takes an [Rc] (120); [set_layer_callback] puts it into the map
    (115-130), which drops a closure that was there (dom_suspense_mod.rs 81);
    then [_suspense_drop] is assigned (132), which drops the DropResource it
    held. *)
Definition set_suspense_some (s : estate) (x : N) : option estate :=
  match mget x (e_class s) with
  | None => Some s
  | Some c =>
      let had := match mget x (s_cb (e_susp s)) with Some _ => true | None => false end in
      match set_layer_callback (e_susp s) x with
      | None => None
      | Some ss =>
          let refs := if had then e_refs c else S (e_refs c) in
          let s := EState ss (mset x (EClass refs true) (e_class s)) in
          if e_drop c then drop_layer s x else Some s
      end
  end.

(** dom/dom_element_class.rs 110-113, [set_suspense_attr(None)]: the assignment
    drops the DropResource. *)
Definition set_suspense_none (s : estate) (x : N) : option estate :=
  match mget x (e_class s) with
  | None => Some s
  | Some c =>
      let s' := EState (e_susp s) (mset x (EClass (e_refs c) false) (e_class s)) in
      if e_drop c then drop_layer s' x else Some s'
  end.

(** dom/dom_element.rs 31-48, [DomElement::new]: [create_node] (37, and
    driver_module/dom.rs 169-178), then a new class (39). *)
Definition element_new (s : estate) (x : N) (loader : bool) : option estate :=
  match (if loader then set_node_suspense (e_susp s) x else Some (e_susp s)) with
  | None => None
  | Some ss => Some (EState ss (mset x (EClass 1 false) (e_class s)))
  end.

(** dom/dom_element.rs 395-399, and the drop of the fields that follows it:
    [remove_node] (driver_module/dom.rs 217-221), then the [Rc] of the field
    [class_manager] (27) is released.  The closures kept in the field
    [subscriptions] hold further [Rc]s of the class, released at the same
    time; they are left out on both sides.  The children, dropped here too, are
    calls of their own. *)
Definition element_drop (s : estate) (x : N) : option estate :=
  match s_remove (e_susp s) x with
  | None => None
  | Some ss => class_release (EState ss (e_class s)) x
  end.

(** dom/dom_element.rs 31-48, 81-84, 395-399 and the insertion of a child
    (driver_module/dom.rs 223-235). *)
Inductive ecall :=
| ENew (x : N) (loader : bool)
| EAttach (x p : N)
| ESuspense (x : N) (on : bool)
| EDrop (x : N).

(** dom_element_class.rs: the calls of an element (lines at the functions used). *)
Definition e_call (s : estate) (o : ecall) : option estate :=
  match o with
  | ENew x b => element_new s x b
  | EAttach x p =>
      match set_parent (e_susp s) x p with
      | None => None
      | Some ss => Some (EState ss (e_class s))
      end
  | ESuspense x true => set_suspense_some s x
  | ESuspense x false => set_suspense_none s x
  | EDrop x => element_drop s x
  end.

(** A sequence of these calls (dom/dom_element.rs 31-48, 81-84, 395-399). *)
Fixpoint e_calls (s : estate) (os : list ecall) : option estate :=
  match os with
  | [] => Some s
  | o :: os => match e_call s o with None => None | Some s => e_calls s os end
  end.
