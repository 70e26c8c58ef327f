(** C107: the memory of a task is there as long as something can use it, and not longer.

    The specification is the book-keeping of ownership that Rust does: which wakers the program has and which timers are pending.  It knows nothing of counts. *)
From Coq Require Import List PeanoNat Lia.
From Verif Require Import WakerModel.
Import ListNotations.
Local Open Scope list_scope.

(** ** Specification *)

(** Who may reach a task: wakers in the hands of the program, timers, and whether the future is ready (and gone). *)
Record owners := Owners { o_wakers : nat; o_timers : nat; o_ready : bool }.
(** A use of a waker that the program has; [None] if it has none.  A waker of a context is there during a poll only. *)
Definition own_use (polled : bool) (o : owners) (u : use) : option owners :=
  match u, o_wakers o, polled with
  | Clone, S n, _ => Some (Owners (S (S n)) (o_timers o) (o_ready o))
  | CloneCx, n, true => Some (Owners (S n) (o_timers o) (o_ready o))
  | Wake, S n, _ => Some (Owners n (S (o_timers o)) (o_ready o))
  | WakeRef, S n, _ => Some (Owners (S n) (S (o_timers o)) (o_ready o))
  | WakeRefCx, n, true => Some (Owners n (S (o_timers o)) (o_ready o))
  | Drop, S n, _ => Some (Owners n (o_timers o) (o_ready o))
  | _, _, _ => None
  end.
Fixpoint own_uses (polled : bool) (o : owners) (us : list use) : option owners :=
  match us with [] => Some o | u :: r => match own_use polled o u with Some o => own_uses polled o r | None => None end end.
(** A timer that fires is gone afterwards; it polls the future unless that is ready. *)
Definition fired (o : owners) : option owners := match o_timers o with S n => Some (Owners (o_wakers o) n (o_ready o)) | O => None end.
Definition own_op (o : owners) (x : op) : option owners :=
  match x with
  | Do u => own_use false o u
  | Fire polled dropped ready =>
      match fired o with
      | None => None
      | Some o =>
          if o_ready o then Some o
          else match own_uses true o polled with
               | None => None
               | Some o => if ready then match own_uses false o dropped with
                                         | Some o => Some (Owners (o_wakers o) (o_timers o) true)
                                         | None => None
                                         end
                           else Some o
               end
      end
  end.
Fixpoint own (o : owners) (ops : list op) : option owners :=
  match ops with [] => Some o | x :: r => match own_op o x with Some o => own o r | None => None end end.
(** After the spawn there is one timer. *)
Definition lawful (ops : list op) (o : owners) : Prop := own (Owners 0 1 false) ops = Some o.
(** Nothing refers to the task any more. *)
Definition unreachable (o : owners) : Prop := o_wakers o = 0 /\ o_timers o = 0.
Definition history (ops : list op) : option task := bind spawn_task (fun t => execute t ops).
Definition freed (t : task) : Prop := t_count t = 0.

(** ** Proofs *)

(** The count, [extra] counts for the timer that is running. *)
Definition fits (extra : nat) (o : owners) (t : task) : Prop :=
  t_inner t = negb (o_ready o) /\ t_count t = extra + o_wakers o + o_timers o + (if o_ready o then 0 else 1).

Lemma clone_ok t : 0 < t_count t -> rc_clone t = Some (Task (S (t_count t)) (t_inner t)).
Proof. intros H. unfold rc_clone. destruct (t_count t); [lia|reflexivity]. Qed.
Lemma drop_ok t : 0 < t_count t -> (t_inner t = true -> 1 < t_count t) -> rc_drop t = Some (Task (t_count t - 1) (t_inner t)).
Proof.
  intros H H1. unfold rc_drop. destruct (t_count t) as [|[|n]]; [lia| |cbn [Nat.sub]; reflexivity].
  destruct (t_inner t); [specialize (H1 eq_refl); lia|reflexivity].
Qed.
Lemma use_ok extra polled o u o1 t : (polled = true -> o_ready o = false) -> own_use polled o u = Some o1 -> fits extra o t ->
  o_ready o1 = o_ready o /\ exists t1, use_waker t u = Some t1 /\ fits extra o1 t1.
Proof.
  intros P E (F1 & F2).
  assert (polled = true \/ 0 < o_wakers o -> 0 < t_count t) as L.
  { intros [->|H]; [rewrite (P eq_refl) in F2|]; lia. }
  assert (t_inner t = true -> o_ready o = false) as L2 by (rewrite F1; destruct (o_ready o); [discriminate|auto]).
  unfold own_use in E. destruct u, (o_wakers o) as [|n] eqn:Ew, polled; try discriminate E; injection E as <-; (split; [reflexivity|]); cbn [use_waker];
    unfold raw_clone, raw_wake, raw_wake_by_ref, raw_drop, wake_by_ref;
    rewrite ?clone_ok by (apply L; auto with arith); cbn [bind];
    try (rewrite drop_ok; cbn [t_count t_inner];
         [|try (apply Nat.lt_0_succ); apply L; auto with arith|intros H; specialize (L2 H); rewrite L2 in F2; lia]);
    eexists; (split; [reflexivity|]); (split; cbn [t_count t_inner o_wakers o_timers o_ready]; [assumption|destruct (o_ready o); lia]).
Qed.
Lemma uses_ok extra polled us : forall o o1 t, (polled = true -> o_ready o = false) -> own_uses polled o us = Some o1 -> fits extra o t ->
  o_ready o1 = o_ready o /\ exists t1, use_wakers t us = Some t1 /\ fits extra o1 t1.
Proof.
  induction us as [|u r IH]; intros o o1 t P E F; cbn in E.
  - injection E as <-. split; [reflexivity|]. exists t. split; auto.
  - destruct (own_use polled o u) as [o2|] eqn:E2; [|discriminate]. destruct (use_ok _ _ _ _ _ _ P E2 F) as (R & t2 & H2 & F2).
    destruct (IH o2 o1 t2) as (R1 & t1 & H1 & F1); auto. { intros H. rewrite R. auto. }
    split; [congruence|]. exists t1. split; auto. cbn [use_wakers]. rewrite H2. exact H1.
Qed.

Lemma op_ok o x o1 t : own_op o x = Some o1 -> fits 0 o t -> exists t1, execute t [x] = Some t1 /\ fits 0 o1 t1.
Proof.
  destruct x as [u|p d b]; cbn [own_op execute]; intros E F.
  - destruct (use_ok 0 false o u o1 t) as (_ & t1 & H & F1); auto; [discriminate|]. exists t1. rewrite H. split; auto.
  - unfold fired in E. destruct (o_timers o) as [|n] eqn:En; [discriminate|]. cbn [o_ready] in E. destruct F as (F1 & F2).
    assert (0 < t_count t) as L by (rewrite F2, En; lia).
    unfold fire, run_task. destruct (t_count t) as [|m] eqn:Em; [lia|].
    destruct (o_ready o) eqn:Er.
    + injection E as <-. rewrite F1. cbn [negb bind]. rewrite drop_ok; [|lia|intros H; rewrite F1 in H; discriminate H]. cbn [bind].
      eexists. split; [reflexivity|]. split; cbn [t_inner t_count o_ready o_wakers o_timers]; [exact F1|]. lia.
    + rewrite F1. cbn [negb].
      destruct (own_uses true _ p) as [o2|] eqn:E2; [|discriminate].
      destruct (uses_ok 1 true p (Owners (o_wakers o) n false) o2 t) as (R & t2 & H2 & (F3 & F4)); auto.
      { split; cbn [o_ready o_wakers o_timers]; [exact F1|rewrite Em; lia]. }
      rewrite H2. cbn [bind]. cbn [o_ready] in R. destruct b.
      * destruct (own_uses false o2 d) as [o3|] eqn:E3; [|discriminate]. injection E as <-.
        destruct (uses_ok 1 false d o2 o3 t2) as (R3 & t3 & H3 & (F5 & F6)); [intros H; discriminate H|exact E3|split; assumption|].
        rewrite R in R3. rewrite R3 in F5, F6. unfold finish, raw_drop. rewrite H3. cbn [bind]. rewrite drop_ok; [|lia|intros _; lia]. cbn [bind t_count].
        rewrite drop_ok; cbn [t_count t_inner]; [|lia|discriminate]. cbn [bind].
        eexists. split; [reflexivity|]. split; cbn [t_inner t_count o_ready o_wakers o_timers]; [reflexivity|lia].
      * injection E as <-. rewrite R in F3, F4. cbn [bind]. rewrite drop_ok; [|lia|intros _; lia]. cbn [bind].
        eexists. split; [reflexivity|]. split; cbn [t_inner t_count]; rewrite R; [exact F3|lia].
Qed.

Lemma own_ok ops : forall o o1 t, own o ops = Some o1 -> fits 0 o t -> exists t1, execute t ops = Some t1 /\ fits 0 o1 t1.
Proof.
  induction ops as [|x r IH]; intros o o1 t E F; cbn [own] in E.
  - injection E as <-. exists t. split; auto.
  - destruct (own_op o x) as [o2|] eqn:E2; [|discriminate]. destruct (op_ok _ _ _ _ E2 F) as (t2 & H2 & F2).
    destruct (IH _ _ _ E F2) as (t1 & H1 & F1). exists t1. split; auto.
    destruct x as [u|p d b]; cbn [execute] in *.
    + destruct (use_waker t u) as [t3|]; [|discriminate]. cbn [bind] in *. injection H2 as ->. exact H1.
    + destruct (fire t p d b) as [t3|]; [|discriminate]. cbn [bind] in *. injection H2 as ->. exact H1.
Qed.

Lemma own_app ops1 : forall ops2 o, own o (ops1 ++ ops2) = match own o ops1 with Some o => own o ops2 | None => None end.
Proof. induction ops1 as [|x r IH]; intros ops2 o; cbn; [reflexivity|]. destruct (own_op o x); auto. Qed.

(** *** C107, the part that holds.  Whatever the program does with wakers, freed memory is not used; the task is freed exactly when its future is ready and nothing refers to
    it.  Full statement: it is freed exactly when nothing refers to it; missing is the case of a pending future, refuted below. *)
Theorem C107_safe_partial ops o : lawful ops o ->
  exists t, history ops = Some t /\ t_inner t = negb (o_ready o) /\ (freed t <-> o_ready o = true /\ unreachable o).
Proof.
  intros L. destruct (own_ok ops _ o (Task 2 true) L) as (t & H & (F1 & F2)); [split; reflexivity|].
  exists t. split; [exact H|]. split; [exact F1|]. unfold freed, unreachable. rewrite F2. destruct (o_ready o); [lia|]. split; [lia|intros (A & _); discriminate].
Qed.
Lemma no_more o : unreachable o -> forall x, own_op o x = None.
Proof.
  intros (W & T) x. destruct x as [u|p d b]; cbn [own_op].
  - unfold own_use. rewrite W. destruct u; reflexivity.
  - unfold fired. rewrite T. reflexivity.
Qed.
Lemma no_more_lawful ops o : lawful ops o -> unreachable o -> forall more o1, lawful (ops ++ more) o1 -> more = [].
Proof.
  intros L U more o1 L1. unfold lawful in *. rewrite own_app, L in L1. destruct more as [|x r]; [reflexivity|]. cbn [own] in L1.
  rewrite (no_more o U) in L1. discriminate.
Qed.
(** A task that is freed is not too early gone: the program has nothing left with which it could reach it. *)
Theorem C107_freed_last ops o t : lawful ops o -> history ops = Some t -> freed t -> forall more o1, lawful (ops ++ more) o1 -> more = [].
Proof.
  intros L H F. destruct (C107_safe_partial ops o L) as (t1 & H1 & _ & F1). rewrite H in H1. injection H1 as <-. apply F1 in F as (_ & U).
  exact (no_more_lawful ops o L U).
Qed.
(** The full statement, that a task is freed when nothing refers to it, fails: a future that is pending while its last waker is dropped stays, with everything it owns,
    and nothing the program can do changes that. *)
Theorem C107_leak ops o : lawful ops o -> unreachable o -> o_ready o = false ->
  exists t, history ops = Some t /\ ~ freed t /\ t_inner t = true /\ forall more o1, lawful (ops ++ more) o1 -> more = [].
Proof.
  intros L U R. destruct (C107_safe_partial ops o L) as (t & H & F1 & F2). exists t. split; [exact H|]. split; [|split].
  - intros F. apply F2 in F as (A & _). congruence.
  - rewrite F1, R. reflexivity.
  - exact (no_more_lawful ops o L U).
Qed.
Theorem C107_leak_refuted : exists ops o t, lawful ops o /\ unreachable o /\ history ops = Some t /\ ~ freed t.
Proof.
  exists [Fire [CloneCx] [] false; Do Drop], (Owners 0 0 false), (Task 1 true). split; [reflexivity|]. split; [split; reflexivity|]. split; [reflexivity|]. discriminate.
Qed.

(** ** Examples *)

(** The future keeps a waker and is woken twice, once by value; the second of the two timers finds it ready, the third timer finds nothing to do. *)
Example C107_case :
  let ops := [Fire [CloneCx; WakeRefCx] [] false; Do Clone; Do Wake; Fire [WakeRefCx] [Drop] true; Fire [] [] false; Fire [] [] false] in
  lawful ops (Owners 0 0 true) /\ history ops = Some (Task 0 false) /\ history (removelast ops) = Some (Task 1 false).
Proof. repeat split. Qed.
