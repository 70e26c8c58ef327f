(** The memory of a spawned task and its wakers (unsafe code).

    Source: FS = /repo/crates/vertigo/src/driver_module/utils/futures_spawn.rs.  A task lives in an [Rc]; wakers own a strong count through a raw pointer, the closures
    of timers own one as a value, and the task owns a waker of itself while its future is not ready.  The model keeps the strong count and whether the future is
    there.  Simplified: what the future does is the list of what it does with wakers of this task; weak counts are not used by the code; timers are C77, which polls
    happen is C78. *)
From Coq Require Import List PeanoNat.
Import ListNotations.
Local Open Scope list_scope.

(** FS 18-26, and the strong count of its [Rc]: 0 when it has been freed. *)
Record task := Task { t_count : nat; t_inner : bool }.

(** What code may do with wakers: with one of its own, or with the one of the context it is polled with (FS 84); std::task::Waker. *)
Inductive use := Clone | CloneCx | Wake | WakeRef | WakeRefCx | Drop.
(** A use outside of polls; or a timer of the task fires, with what the future does when it is polled, what its drop does, and whether it is ready. *)
Inductive op := Do (u : use) | Fire (polled dropped : list use) (ready : bool).

(** [Rc::clone] and [Rc::drop] (std); [None] when freed memory is used.  The last drop drops the task, hence its waker if it is still there, which
    would drop the task again (FS 66-68). *)
Definition rc_clone (t : task) : option task := match t_count t with O => None | S n => Some (Task (S (S n)) (t_inner t)) end.
(** As above: std, FS 23-26, 66-68. *)
Definition rc_drop (t : task) : option task :=
  match t_count t with
  | O => None
  | S O => if t_inner t then None else Some (Task O false)
  | S n => Some (Task n (t_inner t))
  end.

(** One after the other; the rule of sequence of Rust (FS 42-48 and the like are sequences of statements). *)
Definition bind (o : option task) (f : task -> option task) : option task := match o with Some t => f t | None => None end.

(** FS 42-48: the closure of the timer owns a clone. *)
Definition wake_by_ref (t : task) : option task := rc_clone t.
(** FS 51-54: the pointer is not given up ([ManuallyDrop]); the clone goes into the new waker. *)
Definition raw_clone (t : task) : option task := rc_clone t.
(** FS 56-59: the pointer is given up at the end. *)
Definition raw_wake (t : task) : option task := bind (wake_by_ref t) rc_drop.
(** FS 61-64. *)
Definition raw_wake_by_ref (t : task) : option task := wake_by_ref t.
(** FS 66-68. *)
Definition raw_drop (t : task) : option task := rc_drop t.

(** std::task::Waker over the table of FS 70-73. *)
Definition use_waker (t : task) (u : use) : option task :=
  match u with
  | Clone | CloneCx => raw_clone t
  | Wake => raw_wake t
  | WakeRef | WakeRefCx => raw_wake_by_ref t
  | Drop => raw_drop t
  end.
(** Several uses, in order; FS 85 for those of a poll. *)
Fixpoint use_wakers (t : task) (us : list use) : option task :=
  match us with [] => Some t | u :: r => bind (use_waker t u) (fun t => use_wakers t r) end.

(** FS 88-90: [*borrow = None]: the future is dropped, then the waker (FS 18-21). *)
Definition finish (t : task) (dropped : list use) : option task :=
  bind (use_wakers t dropped) (fun t => bind (raw_drop t) (fun t => Some (Task (t_count t) false))).
(** FS 76-92. *)
Definition run_task (t : task) (polled dropped : list use) (ready : bool) : option task :=
  match t_count t with
  | O => None
  | S _ => if t_inner t then bind (use_wakers t polled) (fun t => if ready then finish t dropped else Some t) else Some t
  end.
(** FS 45-47: the closure runs the task, then it is dropped with its clone (it is called once, C77). *)
Definition fire (t : task) (polled dropped : list use) (ready : bool) : option task := bind (run_task t polled dropped ready) rc_drop.

(** FS 29-40: a new [Rc]; a clone for the waker; the future; the first timer; [this] is dropped. *)
Definition spawn_task : option task :=
  bind (rc_clone (Task 1 false)) (fun t => bind (wake_by_ref (Task (t_count t) true)) rc_drop).

(** A history after the spawn (FS 10-16); the driver is the program and the timers of the page. *)
Fixpoint execute (t : task) (ops : list op) : option task :=
  match ops with
  | [] => Some t
  | Do u :: r => bind (use_waker t u) (fun t => execute t r)
  | Fire p d b :: r => bind (fire t p d b) (fun t => execute t r)
  end.
