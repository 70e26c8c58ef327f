(** References to the contents of cells: which code runs while the library holds one.

    Source: SM = /repo/crates/vertigo/src/computed/struct_mut (InnerValue gives references out of an UnsafeCell, unchecked: SM/inner_value.rs:16-22),
    VA = /repo/crates/vertigo/src/computed/value.rs, GV = /repo/crates/vertigo/src/computed/graph_value.rs, CB = /repo/crates/vertigo/src/computed/computed_box.rs,
    AM = /repo/crates/vertigo/src/computed/auto_map.rs, DL = /repo/crates/vertigo/src/render/dom_list.rs,
    EC = /repo/crates/vertigo/src/dom/dom_element_class.rs, DS = /repo/crates/vertigo/src/driver_module/dom_suspense/dom_suspense_mod.rs.
    A piece of code is the tree of the accesses it makes: an access holds a reference to the contents of a cell while its body runs, and uses it again after the
    body or passes it to the body.  Bodies are code of the application (clone, eq and drop of its types, its closures) or of the library.  Only the cells
    named here are modelled; what the values are is left out. *)
From Coq Require Import List NArith Bool.
Import ListNotations.
Local Open Scope list_scope.

(** [&T] and [&mut T] (SM/inner_value.rs:16-22). *)
Inductive kind := Shared | Mut.
(** An access to a cell, with what runs meanwhile. *)
Inductive act := Acc (k : kind) (c : N) (body : list act).
Notation code := (list act).

(** SM/value_mut.rs:46-50: [get]; [clone] is [T::clone]. *)
Definition value_mut_get (c : N) (clone : code) : code := [Acc Shared c clone].
(** SM/value_mut.rs:15-17: [set]; the old value is dropped in place. *)
Definition value_mut_set (c : N) (drop : code) : code := [Acc Mut c drop].
(** SM/value_mut.rs:54-59: [set_and_check]; [T::eq], then as [set]. *)
Definition set_and_check (c : N) (eq drop : code) : code := [Acc Mut c (eq ++ drop)].
(** SM/value_mut.rs:19-21: [map] with a function. *)
Definition value_mut_map (c : N) (f : code) : code := [Acc Shared c f].
(** SM/value_mut.rs:23-25: [change] with a function. *)
Definition value_mut_change (c : N) (f : code) : code := [Acc Mut c f].

(** VA 113-116: [Value::get]. *)
Definition value_get (c : N) (clone : code) : code := value_mut_get c clone.
(** VA 106-111: [Value::set]; [refreshed] is what the end of the transaction runs. *)
Definition value_set (c : N) (drop refreshed : code) : code := value_mut_set c drop ++ refreshed.
(** VA 161-168: [set_value_and_compare]. *)
Definition value_compare (c : N) (eq drop refreshed : code) : code := set_and_check c eq drop ++ refreshed.
(** VA 118-124: [Value::change]: the function works on a clone. *)
Definition value_change (c : N) (clone f drop refreshed : code) : code := value_get c clone ++ f ++ value_set c drop refreshed.

(** GV 66-73: [get_value] with a value in the cache. *)
Definition computed_hit (c : N) (clone : code) : code := value_mut_map c clone.
(** GV 66-76, 52-64: [get_value] without a value in the cache. *)
Definition computed_miss (c : N) (compute clone drop : code) : code := value_mut_map c [] ++ compute ++ clone ++ value_mut_set c drop.
(** GV 37-40: the cache is cleared. *)
Definition computed_clear (c : N) (drop : code) : code := value_mut_set c drop.

(** CB 106-117: a run of a subscriber whose value has changed; [read] is [self.get]; [prev] and [box] are cells of this subscriber. *)
Definition subscriber (prev box : N) (read clone eq drop call dropped : code) : code :=
  read ++ clone ++ set_and_check prev eq drop ++ call ++ value_mut_change box dropped.
(** CB 128-138: a run of a subscriber of all values. *)
Definition subscriber_all (box : N) (read call dropped : code) : code := read ++ call ++ value_mut_change box dropped.
(** /repo/crates/vertigo/src/render/dom_value.rs:17-29: a run of the subscriber of a value that is rendered; [dropped] is the drop of the old node. *)
Definition value_run (cell : N) (render dropped : code) : code := render ++ value_mut_change cell dropped.
(** /repo/crates/vertigo/src/dom/dom_comment.rs:40-46: a marker is mounted; [dropped] is the drop of the old subscription. *)
Definition marker_mount (cell : N) (mount dropped : code) : code := mount ++ value_mut_change cell dropped.
(** /repo/crates/vertigo/src/driver_module/utils/futures_spawn.rs:76-92: a task runs: its future is polled, and dropped when it is ready.  To wake a task is to set a
    timer (42-48), no access. *)
Definition task_run (cell : N) (poll dropped : code) : code := value_mut_change cell (poll ++ dropped).
(** DL 54-75: a run of the subscriber of a list; [reorder] is [reorder_nodes] with [get_key], [render] and the drops of old nodes (DL 81-106). *)
Definition list_run (cell : N) (reorder : code) : code := value_mut_change cell reorder.

(** AM 53-58 with SM/hash_map_mut.rs:92-95: [AutoMap::get] with an item in the map; [eq] is [K::hash] and [K::eq]. *)
Definition map_hit (c : N) (eq clone : code) : code := [Acc Shared c (eq ++ clone)].
(** AM 53-68 with SM/hash_map_mut.rs:92-95, 22-25: [AutoMap::get] without one; the item that is replaced, if [create] has made one, is dropped when the reference
    is gone. *)
Definition map_miss (c : N) (eq create clone drop : code) : code := [Acc Shared c eq] ++ create ++ clone ++ [Acc Mut c eq] ++ drop.

(** /repo/crates/vertigo/src/driver_module/event_emitter.rs:37-48: [trigger]; the callbacks are called from a copy of the list. *)
Definition emitter_trigger (c : N) (callbacks : code) : code := Acc Shared c [] :: callbacks.
(** /repo/crates/vertigo/src/driver_module/event_emitter.rs:29-34, SM/btree_map_mut.rs:26-29: a listener is dropped; [remove] hands the callback out, so that
    it is dropped when the reference is gone. *)
Definition emitter_drop (c : N) (dropped : code) : code := Acc Mut c [] :: dropped.
(** /repo/crates/vertigo/src/computed/dependencies/external_connections.rs:27-36: a value gets connected; [connects] and [connected] are the two maps; the function is
    called before [insert] makes its reference. *)
Definition connect_value (connects connected : N) (connect dropped : code) : code :=
  [Acc Shared connected []] ++ [Acc Shared connects []] ++ connect ++ [Acc Mut connected []] ++ dropped.
(** /repo/crates/vertigo/src/computed/dependencies/external_connections.rs:37-39: a value gets disconnected. *)
Definition disconnect_value (connected : N) (dropped : code) : code := [Acc Mut connected []] ++ dropped.
(** /repo/crates/vertigo/src/driver_module/api/callbacks.rs:89-99: a callback is called, from a clone of its [Rc]. *)
Definition callback_call (store : N) (f : code) : code := [Acc Shared store []] ++ f.
(** /repo/crates/vertigo/src/driver_module/api/callbacks.rs:101-112, 59-64: a callback is called that is registered for one call; its registration is dropped under the
    reference to [own], the callback itself when the call is over. *)
Definition callback_once (store own : N) (f dropped : code) : code :=
  callback_call store (f ++ value_mut_set own [Acc Mut store []]) ++ dropped.

(** EC 87-106: [set_attribute], [remove_attribute] and [set_css]; [refresh_dom] calls the driver only. *)
Definition set_class (cls : N) : code := value_mut_change cls [].
(** EC 122-129: the callback of an element whose class depends on the suspense; [css] is the function of the application. *)
Definition suspense_callback (cls : N) (css : code) : code := css ++ value_mut_change cls [].
(** DS 29-47: [refresh_paths]; [called] lists the elements whose callback is called. *)
Definition refresh_paths (called : list (N * code)) : code := flat_map (fun e => suspense_callback (fst e) (snd e)) called.
(** DS 113-125: [set_node_suspense], [set_parent], [remove]. *)
Definition suspense_event (susp : N) (called : list (N * code)) : code := [Acc Mut susp (refresh_paths called)].
(** DS 70-89, 134: [set_layer_callback]: the new callback is called at once. *)
Definition set_layer_callback (susp : N) (callback : code) (called : list (N * code)) : code := [Acc Mut susp (callback ++ refresh_paths called)].
(** DS 136-138, 91-98: the resource of [set_layer_callback] is dropped. *)
Definition remove_layer_callback (susp : N) (called : list (N * code)) : code := [Acc Mut susp (refresh_paths called)].
(** EC 108-134: [set_suspense_attr] with a function; [previous] are the callbacks called when the previous resource, if there is one, is dropped. *)
Definition set_suspense_attr (cls susp : N) (css : code) (called : list (N * code)) (previous : option (list (N * code))) : code :=
  value_mut_change cls
    (set_layer_callback susp (suspense_callback cls css) called ++
     match previous with Some called => remove_layer_callback susp called | None => [] end).
(** EC 110-113: [set_suspense_attr] without a function. *)
Definition clear_suspense_attr (cls susp : N) (previous : option (list (N * code))) : code :=
  value_mut_change cls (match previous with Some called => remove_layer_callback susp called | None => [] end).
