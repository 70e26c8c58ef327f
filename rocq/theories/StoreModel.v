(** Models of small stateful components of the wasm side: the callback store, the argument blocks, the event
    emitter and the future box.

    Source: /repo/crates/vertigo/src/driver_module/api/{callbacks,arguments}.rs,
    /repo/crates/vertigo/src/driver_module/event_emitter.rs, /repo/crates/vertigo/src/future_box.rs,
    /repo/crates/vertigo/src/computed/drop_resource.rs.  Callbacks are programs over the component they are
    registered with, so that all re-entrant uses are covered; [None] is running out of fuel. *)

From Coq Require Import List NArith Bool.
From Verif Require Import CodecModel MapModel.
Import ListNotations.

(** ** The callback store (callbacks.rs) *)

(** A callback (with an identity [tag]) and what it does to the store; [once] for [register_once]
    (callbacks.rs:97-115), whose resource stays inside the callback.  [register_with_id] differs from
    [register] only in passing the id to the closure. *)
Inductive cb := Cb (once : bool) (tag : N) (body : list cact)
with cact :=
| Register (c : cb)
| Call (id : N)
| DropRes (id : N).

(** Whether the callback was registered with [register_once] (callbacks.rs:101-118). *)
Definition cb_once (c : cb) : bool := match c with Cb o _ _ => o end.

(** callbacks.rs:12, 38-40: the global counter and the map. *)
Record cstore := CStore { cs_next : N; cs_data : hmap cb }.

(** What happens, in order. *)
Inductive cev :=
| EReg (id : N) (c : cb)
| ERun (id : N) (c : cb)
| EEnd (id : N)
| EMiss (id : N)
| EDrop (id : N).

(** callbacks.rs:12-20: [COUNTER] starts at 1, [fetch_add] wraps around. *)
Definition cstore_new : cstore := CStore 1 [].
(** The number of values of a u64 (callbacks.rs:12: AtomicU64). *)
Definition two_64 : N := 18446744073709551616.

(** callbacks.rs:49-67 ([register]), 89-99 ([call]), 101-118 ([register_once]: after the callback the held
    resource is dropped); drop_resource.rs:24-35.  Dropping works for resources handed out, i.e. not for
    one-shot callbacks. *)
Fixpoint c_exec (fuel : nat) (s : cstore) (tr : list cev) (acts : list cact) : option (cstore * list cev) :=
  match fuel with
  | O => None
  | S f =>
      match acts with
      | [] => Some (s, tr)
      | Register c :: rest =>
          let id := cs_next s in
          c_exec f (CStore ((id + 1) mod two_64) (hset (cs_data s) id c)) (tr ++ [EReg id c]) rest
      | Call id :: rest =>
          match hget (cs_data s) id with
          | None => c_exec f s (tr ++ [EMiss id]) rest
          | Some (Cb once tag body) =>
              match c_exec f s (tr ++ [ERun id (Cb once tag body)]) body with
              | None => None
              | Some (s1, tr1) =>
                  let s2 := if once then CStore (cs_next s1) (hdel (cs_data s1) id) else s1 in
                  c_exec f s2 (tr1 ++ [EEnd id]) rest
              end
          end
      | DropRes id :: rest =>
          match hget (cs_data s) id with
          | Some (Cb false _ _) => c_exec f (CStore (cs_next s) (hdel (cs_data s) id)) (tr ++ [EDrop id]) rest
          | _ => c_exec f s tr rest
          end
      end
  end.

(** ** Argument blocks (arguments.rs) *)

(** Operations, in order: JavaScript allocates (at an address chosen by the allocator) and fills a block,
    Rust reads or frees it, [set] stores a finished block. *)
Inductive aop :=
| AAlloc (ptr : N) (content : bytes)
| AGet (ptr : N)
| AFree (ptr : N)
| ASet (ptr : N) (content : bytes).

(** arguments.rs:12-17, 19-25, 27-46, 48-51; the result is that of [get_by_ptr]. *)
Definition a_step (m : hmap bytes) (o : aop) : hmap bytes * option jsval :=
  match o with
  | AAlloc p c | ASet p c => (hset m p c, None)
  | AFree p => (hdel m p, None)
  | AGet p =>
      if (p =? 0)%N then (m, Some VUndefined)
      else match hget m p with
           | Some c => (hdel m p, Some (match from_block c with ROk v => v | _ => VUndefined end))
           | None => (m, Some VUndefined)
           end
  end.

(** The operations of arguments.rs one after the other. *)
Fixpoint a_run (m : hmap bytes) (ops : list aop) : hmap bytes * list (option jsval) :=
  match ops with
  | [] => (m, [])
  | o :: t => let '(m1, r) := a_step m o in let '(m2, rs) := a_run m1 t in (m2, r :: rs)
  end.

(** ** The event emitter (event_emitter.rs) *)

(** A listener is what it does to the emitter when called. *)
Inductive lis := Lis (tag : N) (body : list lact)
with lact :=
| LAdd (l : lis)
| LRemove (id : N)
| LTrigger.

(** event_emitter.rs:8-13; the list is a BTreeMap: sorted by key. *)
Record emitter := Emitter { em_next : N; em_list : list (N * lis) }.

(** event_emitter.rs:15-22 *)
Definition emitter_new : emitter := Emitter 1 [].
(** The number of values of a u32 (struct_mut/counter_mut.rs). *)
Definition two_32 : N := 4294967296.

(** BTreeMap::insert *)
Fixpoint bt_insert {A} (m : list (N * A)) (k : N) (a : A) : list (N * A) :=
  match m with
  | [] => [(k, a)]
  | (k', a') :: t =>
      if (k <? k')%N then (k, a) :: m
      else if (k =? k')%N then (k, a) :: t
      else (k', a') :: bt_insert t k a
  end.

(** What happens; a trigger carries the calls it makes with what happens during each. *)
Inductive tev :=
| TAdd (id : N) (l : lis)
| TRemove (id : N)
| TTrigger (calls : list (N * lis * list tev)).

(** event_emitter.rs:25-38 ([add]; the counter is a u32, counter_mut.rs:14-19), the closure of the resource,
    40-52 ([trigger]: the list is copied first). *)
Fixpoint e_exec (fuel : nat) (s : emitter) (acts : list lact) : option (emitter * list tev) :=
  match fuel with
  | O => None
  | S f =>
      match acts with
      | [] => Some (s, [])
      | LAdd l :: rest =>
          let id := em_next s in
          match e_exec f (Emitter ((id + 1) mod two_32) (bt_insert (em_list s) id l)) rest with
          | None => None
          | Some (s2, tr) => Some (s2, TAdd id l :: tr)
          end
      | LRemove id :: rest =>
          match e_exec f (Emitter (em_next s) (hdel (em_list s) id)) rest with
          | None => None
          | Some (s2, tr) => Some (s2, TRemove id :: tr)
          end
      | LTrigger :: rest =>
          let calls := fix calls (s : emitter) (l : list (N * lis)) : option (emitter * list (N * lis * list tev)) :=
            match l with
            | [] => Some (s, [])
            | (id, Lis tag body) :: t =>
                match e_exec f s body with
                | None => None
                | Some (s1, tr) =>
                    match calls s1 t with
                    | None => None
                    | Some (s2, r) => Some (s2, (id, Lis tag body, tr) :: r)
                    end
                end
            end in
          match calls s (em_list s) with
          | None => None
          | Some (s1, cs) =>
              match e_exec f s1 rest with
              | None => None
              | Some (s2, tr) => Some (s2, TTrigger cs :: tr)
              end
          end
      end
  end.

(** ** The future box (future_box.rs) *)

Section Future.
  Context {T : Type}.

  (** future_box.rs:14-17; a waker is the number of its task. *)
  Record fbox := FBox { fb_waker : option N; fb_result : option T }.
  (** future_box.rs:19-26 *)
  Definition fbox_new : fbox := FBox None None.

  (** What is done with a box: it is polled by a task (future_box.rs:62-72), a result is published (38-43). *)
  Inductive fop := FPoll (task : N) | FPublish (v : T).
  (** What is seen of it: pending, ready, a task is woken, no task waits. *)
  Inductive fres := Pending | Ready (v : T) | Woken (task : N) | NoWaker.

  (** future_box.rs:38-43 ([publish]) and 63-73 ([poll]). *)
  Definition f_step (s : fbox) (o : fop) : fbox * fres :=
    match o with
    | FPublish v =>
        match fb_waker s with
        | Some w => (FBox None (Some v), Woken w)
        | None => (FBox None (Some v), NoWaker)
        end
    | FPoll w =>
        match fb_result s with
        | Some v => (FBox (fb_waker s) None, Ready v)
        | None => (FBox (Some w) None, Pending)
        end
    end.

  (** The operations of a box one after the other. *)
  Fixpoint f_run (s : fbox) (ops : list fop) : list fres :=
    match ops with
    | [] => []
    | o :: t => let '(s1, r) := f_step s o in r :: f_run s1 t
    end.
End Future.
Arguments fbox : clear implicits.
Arguments fop : clear implicits.
Arguments fres : clear implicits.
