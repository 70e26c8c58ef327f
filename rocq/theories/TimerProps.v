(** Timers and spawned futures: C77, C78, C79. *)
From Coq Require Import List NArith Bool Lia Sorting.Sorted.
From Verif Require Import TimerModel.
Import ListNotations.
Local Open Scope N_scope.

(** ** Vocabulary: what is read off the log, newest first *)

Definition called (r : N) (l : list (N * obs)) : Prop := exists t, In (t, OCall r) l.
Definition dropped (r : N) (l : list (N * obs)) : Prop := exists t, In (t, ODrop r) l.
Definition done (k : N) (l : list (N * obs)) : Prop := exists t, In (t, OPolled k true) l.
(** The time at which a timer was set or called last. *)
Fixpoint last (r : N) (l : list (N * obs)) : N :=
  match l with
  | [] => 0
  | (t, OSet r' _ _) :: l | (t, OCall r') :: l => if r' =? r then t else last r l
  | _ :: l => last r l
  end.
(** The future whose poll has not ended. *)
Fixpoint polling (l : list (N * obs)) : option N :=
  match l with
  | [] => None
  | (_, OPoll k) :: _ => Some k
  | (_, OPolled _ _) :: _ => None
  | _ :: l => polling l
  end.
(** How often a future was polled, and how often it was spawned or woken. *)
Fixpoint polls (k : N) (l : list (N * obs)) : N :=
  match l with [] => 0 | (_, OPoll k') :: l => (if k' =? k then 1 else 0) + polls k l | _ :: l => polls k l end.
Fixpoint wakes (k : N) (l : list (N * obs)) : N :=
  match l with
  | [] => 0
  | (_, OSpawn k') :: l | (_, OWake k') :: l => (if k' =? k then 1 else 0) + wakes k l
  | _ :: l => wakes k l
  end.
(** Spawned or woken after the last poll began. *)
Fixpoint waiting (k : N) (l : list (N * obs)) : bool :=
  match l with
  | [] => false
  | (_, OPoll k') :: l => if k' =? k then false else waiting k l
  | (_, OSpawn k') :: l | (_, OWake k') :: l => if k' =? k then true else waiting k l
  | _ :: l => waiting k l
  end.

Definition repeats (kd : kind) : bool := match kd with Interval => true | _ => false end.
Definition boxed (kd : kind) : bool := match kd with Detached => true | _ => false end.

Lemma called_other r t o l : o <> OCall r -> (called r ((t, o) :: l) <-> called r l).
Proof. intro H. unfold called. cbn. split; intros (u & X); exists u; [destruct X as [X|X]; auto; congruence|auto]. Qed.
Lemma dropped_other r t o l : o <> ODrop r -> (dropped r ((t, o) :: l) <-> dropped r l).
Proof. intro H. unfold dropped. cbn. split; intros (u & X); exists u; [destruct X as [X|X]; auto; congruence|auto]. Qed.
Lemma done_other k t o l : o <> OPolled k true -> (done k ((t, o) :: l) <-> done k l).
Proof. intro H. unfold done. cbn. split; intros (u & X); exists u; [destruct X as [X|X]; auto; congruence|auto]. Qed.
Lemma called_cons r t o l : called r l -> called r ((t, o) :: l).
Proof. intros (u & X). exists u. right. auto. Qed.
Lemma dropped_cons r t o l : dropped r l -> dropped r ((t, o) :: l).
Proof. intros (u & X). exists u. right. auto. Qed.
Lemma setf_same {A} x (a : A) f : setf x a f x = a. Proof. unfold setf. rewrite N.eqb_refl. auto. Qed.
Lemma setf_other {A} x (a : A) f y : y <> x -> setf x a f y = f y.
Proof. unfold setf. intro H. destruct (N.eqb_spec y x); congruence. Qed.

Section Platform.
  Variable server : bool.
  Variable react : list (N * obs) -> list action.
  Variable ready : list (N * obs) -> bool.
  Notation set_timer := (set_timer server).
  Notation drop_timer := (drop_timer server).
  Notation act := (act server).
  Notation acts := (acts server react).
  Notation run := (run server react ready).
  Notation call := (call server react ready).
  Notation fire := (fire server react ready).
  Notation step := (step server react ready).
  Notation reachable := (reachable server react ready).
  Notation quiet := (quiet server).

  (** The timers that ever fire: on the server only timeouts of zero. *)
  Definition armed (kd : kind) (d : N) : Prop := server = false \/ kd <> Interval /\ d = 0.

  (** What may happen next. *)
  Definition ok (t : N) (o : obs) (l : list (N * obs)) : Prop :=
    match o with
    | OSet r _ _ => forall t' r' kd d, In (t', OSet r' kd d) l -> r' < r
    | OCall r => exists t0 kd d, In (t0, OSet r kd d) l /\ ~ dropped r l /\ (kd <> Interval -> ~ called r l) /\ armed kd d /\
        (server = false -> last r l + js_ms d <= t) /\
        (server = true -> forall r' t' kd', r' < r -> In (t', OSet r' kd' 0) l -> kd' <> Interval -> dropped r' l \/ called r' l)
    | ODrop r => exists t0 kd d, In (t0, OSet r kd d) l
    | OSpawn k => forall t', ~ In (t', OSpawn k) l
    | OWake k => exists t', In (t', OSpawn k) l
    | OPoll k => polling l = None /\ ~ done k l /\ polls k l < wakes k l
    | OPolled k _ => polling l = Some k
    end.
  Fixpoint good (l : list (N * obs)) : Prop := match l with [] => True | (t, o) :: l => ok t o l /\ good l end.
  (** Times do not go back. *)
  Fixpoint timed (now : N) (l : list (N * obs)) : Prop := match l with [] => True | (t, _) :: l => t <= now /\ timed t l end.

  (** ** The invariant; [cur] is the timer that is firing, [p] the future that is polled *)

  Definition is_cur (cur : option timer) (r : N) : bool := match cur with Some c => t_cb c =? r | None => false end.
  Definition runs (cur : option timer) (k : N) (w : world) : N :=
    N.of_nat (length (filter (fun t => negb (is_cur cur (t_cb t)) &&
      match w_store w (t_cb t) with Some (Entry (Run k') _) => k' =? k | _ => false end) (w_timers w))).

  Record Inv (cur : option timer) (p : option N) (w : world) : Prop := {
    v_good : good (w_log w);
    v_times : timed (w_now w) (w_log w);
    v_timer : forall t, In t (w_timers w) -> t_cb t < w_next w /\ (server = false -> 0 < t_id t < w_ids w);
    v_sorted : StronglySorted N.lt (map t_cb (w_timers w));
    v_ids : server = false -> NoDup (map t_id (w_timers w));
    v_cur : forall c, cur = Some c -> t_cb c < w_next w /\ (server = false -> t_id c < w_ids w) /\
      forall x, In x (w_timers w) -> (server = false -> t_id x = t_id c \/ t_cb x = t_cb c -> x = c) /\ (server = true -> t_cb x <> t_cb c);
    v_store : forall r e, w_store w r = Some e -> r < w_next w /\ (exists id, w_handles w r = Some (id, e_box e)) /\
      (forall k, e_what e = Run k -> e_box e = true /\ forall t kd d, ~ In (t, OSet r kd d) (w_log w));
    v_handle : forall r id b, w_handles w r = Some (id, b) -> w_store w r <> None /\
      (server = false -> id < w_ids w /\ forall t, In t (w_timers w) -> (t_id t = id -> t_cb t = r) /\ (t_cb t = r -> id = received (t_id t)));
    v_set : forall t r kd d, In (t, OSet r kd d) (w_log w) -> r < w_next w;
    v_app : forall r b, w_store w r = Some (Entry App b) ->
      exists t kd d, In (t, OSet r kd d) (w_log w) /\ b = boxed kd /\ ~ dropped r (w_log w);
    v_kept : forall t r kd d, In (t, OSet r kd d) (w_log w) -> ~ dropped r (w_log w) ->
      (kd = Detached -> called r (w_log w) -> is_cur cur r = true /\ w_store w r <> None) -> w_store w r = Some (Entry App (boxed kd));
    v_pending : forall t b t0 kd d, In t (w_timers w) -> w_store w (t_cb t) = Some (Entry App b) -> In (t0, OSet (t_cb t) kd d) (w_log w) ->
      armed kd d /\ t_repeat t = repeats kd /\ (server = false -> t_ms t = js_ms d) /\
      (is_cur cur (t_cb t) = false -> (server = false -> t_due t = last (t_cb t) (w_log w) + t_ms t) /\ (kd <> Interval -> ~ called (t_cb t) (w_log w)));
    v_armed : forall r b t0 kd d, w_store w r = Some (Entry App b) -> In (t0, OSet r kd d) (w_log w) -> armed kd d ->
      kd = Interval \/ ~ called r (w_log w) -> exists t, In t (w_timers w) /\ t_cb t = r;
    v_calling : forall c b, cur = Some c -> w_store w (t_cb c) = Some (Entry App b) ->
      called (t_cb c) (w_log w) /\ last (t_cb c) (w_log w) = w_now w;
    v_run : forall r k b, w_store w r = Some (Entry (Run k) b) -> is_cur cur r = true \/
      exists t, In t (w_timers w) /\ t_cb t = r /\ t_repeat t = false /\ t_due t <= w_now w;
    v_wait : forall k, waiting k (w_log w) = true -> w_tasks w k = true ->
      exists r b t, is_cur cur r = false /\ w_store w r = Some (Entry (Run k) b) /\ In t (w_timers w) /\ t_cb t = r;
    v_task : forall k, w_tasks w k = true <-> (exists t, In (t, OSpawn k) (w_log w)) /\ ~ done k (w_log w);
    v_spawned : forall k, k < w_spawned w <-> exists t, In (t, OSpawn k) (w_log w);
    v_count : forall k, polls k (w_log w) + runs cur k w <= wakes k (w_log w);
    v_polling : polling (w_log w) = p;
    v_pos : 0 < w_ids w;
    v_live : forall t, server = false -> In t (w_timers w) -> t_id t < 2147483648 -> w_store w (t_cb t) <> None;
    v_gone : forall t r d, In (t, OSet r Detached d) (w_log w) -> called r (w_log w) -> is_cur cur r = true \/ w_store w r = None
  }.

  Definition added (rep : bool) (d : N) (w : world) : list timer :=
    if server then if negb rep && (d =? 0) then [Timer 0 false (w_next w) 0 (w_now w)] else []
    else [Timer (w_ids w) rep (w_next w) (js_ms d) (w_now w + js_ms d)].
  Lemma set_timer_is rep d e w : set_timer rep d e w =
    World (w_now w) (if server then w_ids w else w_ids w + 1) (w_timers w ++ added rep d w) (w_next w + 1)
      (setf (w_next w) (Some e) (w_store w)) (setf (w_next w) (Some (if server then 0 else received (w_ids w), e_box e)) (w_handles w))
      (w_spawned w) (w_tasks w) (w_log w).
  Proof.
    unfold TimerModel.set_timer, timer_set, server_set, browser_set, added. destruct server; [|reflexivity]. cbn.
    destruct (negb rep && (d =? 0)); cbn; rewrite ?app_nil_r; reflexivity.
  Qed.

  Lemma good_split a x l : good (a ++ x :: l) -> ok (fst x) (snd x) l.
  Proof. induction a as [|[t o] a IH]; cbn; [destruct x; intros [G _]; exact G|intros [_ G]; exact (IH G)]. Qed.
  Lemma good_app a l : good (a ++ l) -> good l.
  Proof. induction a as [|[t o] a IH]; cbn; intro G; [exact G|exact (IH (proj2 G))]. Qed.
  Lemma set_unique l r t kd d t' kd' d' : good l -> In (t, OSet r kd d) l -> In (t', OSet r kd' d') l -> t = t' /\ kd = kd' /\ d = d'.
  Proof.
    induction l as [|[u o] l IH]; cbn; [tauto|]. intros [O G] A B. destruct A as [A|A], B as [B|B].
    - repeat split; congruence.
    - injection A as <- ->. apply O in B. lia.
    - injection B as <- ->. apply O in A. lia.
    - auto.
  Qed.
  Lemma called_set l r : good l -> called r l -> exists t kd d, In (t, OSet r kd d) l.
  Proof.
    induction l as [|[u o] l IH]; cbn; intros G (t & X); [destruct X|]. destruct G as [O G], X as [X|X].
    - injection X as <- ->. destruct O as (t0 & kd & d & O & _). eauto 6.
    - destruct (IH G) as (t0 & kd & d & Y); [exists t; auto|eauto 6].
  Qed.
  Lemma dropped_set l r : good l -> dropped r l -> exists t kd d, In (t, OSet r kd d) l.
  Proof.
    induction l as [|[u o] l IH]; cbn; intros G (t & X); [destruct X|]. destruct G as [O G], X as [X|X].
    - injection X as <- ->. destruct O as (t0 & kd & d & O). eauto 6.
    - destruct (IH G) as (t0 & kd & d & Y); [exists t; auto|eauto 6].
  Qed.
  Lemma wakes_spawned l k : good l -> 0 < wakes k l -> exists t, In (t, OSpawn k) l.
  Proof.
    induction l as [|[u o] l IH]; cbn; intros G X; [lia|]. destruct G as [O G].
    assert (K : 0 < wakes k l -> exists t, (u, o) = (t, OSpawn k) \/ In (t, OSpawn k) l) by (intro P; destruct (IH G P) as (t & Y); eauto).
    destruct o; auto.
    - destruct (N.eqb_spec k0 k) as [->|]; eauto.
    - destruct (N.eqb_spec k0 k) as [->|]; auto. destruct O as (t & O). eauto.
  Qed.
  Lemma polling_in l k : polling l = Some k -> exists t, In (t, OPoll k) l.
  Proof. induction l as [|[u o] l IH]; cbn; [discriminate|]. destruct o; try discriminate; try (intro X; destruct (IH X) as (t & Y); eauto). injection 1 as ->. eauto. Qed.
  Lemma polled_spawned l k t : good l -> In (t, OPoll k) l -> exists t, In (t, OSpawn k) l.
  Proof.
    intros G I. apply in_split in I as (a & b & ->). pose proof (good_split _ _ _ G) as (_ & _ & P). cbn in P.
    destruct (wakes_spawned b k) as (u & Y); [apply good_app in G; apply G|lia|]. exists u. apply in_app_iff. right. right. auto.
  Qed.
  Lemma done_spawned l k : good l -> done k l -> exists t, In (t, OSpawn k) l.
  Proof.
    intros G (t & I). apply in_split in I as (a & b & ->). pose proof (good_split _ _ _ G) as P. cbn in P.
    apply polling_in in P as (u & P). destruct (polled_spawned b k u) as (v & Y); [apply good_app in G; apply G|auto|].
    exists v. apply in_app_iff. right. right. auto.
  Qed.
  Lemma timed_weaken now now' l : now <= now' -> timed now l -> timed now' l.
  Proof. destruct l as [|[t o] l]; cbn; auto. intros H [A B]. split; auto. lia. Qed.

  Lemma added_in rep d w t : In t (added rep d w) -> t_cb t = w_next w /\ t_repeat t = rep /\ (server = true -> rep = false /\ d = 0) /\
    (server = false -> t_id t = w_ids w /\ t_ms t = js_ms d) /\ (d = 0 -> t_due t = w_now w) /\ (server = false -> t_due t = w_now w + t_ms t).
  Proof.
    unfold added. destruct server.
    - destruct rep; cbn; [tauto|]. destruct (N.eqb_spec d 0); cbn; [|tauto]. intros [<-|[]]. repeat split; auto; discriminate.
    - intros [<-|[]]. cbn. repeat split; auto; try discriminate. intros ->. unfold js_ms. cbn. lia.
  Qed.
  Lemma added_armed rep d w : (server = false \/ rep = false /\ d = 0) -> exists t, In t (added rep d w).
  Proof.
    unfold added. intros [->|[-> ->]]; [eexists; left; reflexivity|]. destruct server; eexists; left; reflexivity.
  Qed.
  Lemma sorted_snoc l x : StronglySorted N.lt l -> Forall (fun y => y < x) l -> StronglySorted N.lt (l ++ [x]).
  Proof.
    induction 1 as [|y l S IH F]; intro H; cbn; [repeat constructor|]. inversion_clear H. constructor; auto. apply Forall_app. auto.
  Qed.
  Lemma nodup_snoc {A} (l : list A) x : NoDup l -> ~ In x l -> NoDup (l ++ [x]).
  Proof.
    induction 1 as [|y l N H IH]; cbn; intro X; [repeat constructor; auto|]. constructor.
    - rewrite in_app_iff. cbn. intuition.
    - apply IH. intuition.
  Qed.
  Lemma added_shape rep d w : added rep d w = [] \/ exists t, added rep d w = [t].
  Proof. unfold added. destruct server; [destruct (negb rep && (d =? 0))|]; eauto. Qed.

  (** A timer or a future is begun, a future is woken. *)
  Inductive begins (w : world) : bool -> N -> entry -> obs -> N -> (N -> bool) -> Prop :=
  | b_set kd d : begins w (repeats kd) d (Entry App (boxed kd)) (OSet (w_next w) kd d) (w_spawned w) (w_tasks w)
  | b_wake k : k < w_spawned w -> begins w false 0 (Entry (Run k) true) (OWake k) (w_spawned w) (w_tasks w)
  | b_spawn : begins w false 0 (Entry (Run (w_spawned w)) true) (OSpawn (w_spawned w)) (w_spawned w + 1) (setf (w_spawned w) true (w_tasks w)).

  Lemma begins_inv cur p w rep d e o sp tasks : Inv cur p w -> begins w rep d e o sp tasks ->
    Inv cur p (World (w_now w) (if server then w_ids w else w_ids w + 1) (w_timers w ++ added rep d w) (w_next w + 1)
      (setf (w_next w) (Some e) (w_store w)) (setf (w_next w) (Some (if server then 0 else received (w_ids w), e_box e)) (w_handles w))
      sp tasks ((w_now w, o) :: w_log w)).
  Proof.
    intros V B.
    assert (OC : forall r, o <> OCall r) by (destruct B; discriminate).
    assert (OD : forall r, o <> ODrop r) by (destruct B; discriminate).
    assert (OP : forall r, o <> OPolled r true) by (destruct B; discriminate).
    assert (OLD : forall t, In t (w_timers w) -> t_cb t <> w_next w) by (intros t I; apply (v_timer _ _ _ V) in I; lia).
    assert (CUR : is_cur cur (w_next w) = false).
    { destruct cur as [c|]; auto. destruct (v_cur _ _ _ V c eq_refl) as [X _]. cbn. apply N.eqb_neq. lia. }
    assert (OS : forall t r kd d', In (t, OSet r kd d') ((w_now w, o) :: w_log w) -> r <> w_next w -> In (t, OSet r kd d') (w_log w)).
    { intros t r kd d' [X|X] NE; auto. exfalso. destruct B; try discriminate X. injection X. congruence. }
    assert (ON : forall t kd d', In (t, OSet (w_next w) kd d') (w_log w) -> False).
    { intros t kd d' I. apply (v_set _ _ _ V) in I. lia. }
    assert (NCALL : ~ called (w_next w) (w_log w)).
    { intro C. destruct (called_set _ _ (v_good _ _ _ V) C) as (t & kd & d' & I). eauto. }
    assert (NDROP : ~ dropped (w_next w) (w_log w)).
    { intro C. destruct (dropped_set _ _ (v_good _ _ _ V) C) as (t & kd & d' & I). eauto. }
    assert (LAST : forall r, r <> w_next w -> last r ((w_now w, o) :: w_log w) = last r (w_log w)).
    { intros r NE. destruct B; cbn; auto. destruct (N.eqb_spec (w_next w) r); congruence. }
    constructor; cbn [w_now w_ids w_timers w_next w_store w_handles w_spawned w_tasks w_log].
    - cbn. split; [|apply V]. destruct B; cbn.
      + intros t r kd' d'. apply (v_set _ _ _ V).
      + apply (v_spawned _ _ _ V). auto.
      + intros t I. assert (X : w_spawned w < w_spawned w) by (apply (v_spawned _ _ _ V); eauto). lia.
    - cbn. split; [lia|apply V].
    - intros t I. apply in_app_iff in I as [I|I].
      + destruct (v_timer _ _ _ V t I) as [A C]. split; [lia|]. intros S. rewrite S. specialize (C S). lia.
      + apply added_in in I as (A & _ & _ & C & _). split; [lia|]. intros S. rewrite S. destruct (C S) as [-> _]. pose proof (v_pos _ _ _ V). lia.
    - rewrite map_app. destruct (added_shape rep d w) as [E|(x & E)]; rewrite E.
      + cbn. rewrite app_nil_r. apply V.
      + cbn. apply sorted_snoc; [apply V|]. rewrite Forall_map, Forall_forall. intros y I. apply (v_timer _ _ _ V) in I.
        destruct (added_in rep d w x) as [-> _]; [rewrite E; left; auto|]. apply I.
    - intro S. rewrite map_app. destruct (added_shape rep d w) as [E|(x & E)]; rewrite E.
      + cbn. rewrite app_nil_r. apply V. auto.
      + cbn. apply nodup_snoc; [apply V; auto|]. rewrite in_map_iff. intros (y & X & I).
        destruct (added_in rep d w x) as (_ & _ & _ & C & _); [rewrite E; left; auto|]. destruct (C S) as [C1 _].
        apply (v_timer _ _ _ V) in I as [_ I]. specialize (I S). lia.
    - intros c ->. destruct (v_cur _ _ _ V c eq_refl) as (A & A2 & A3). split; [lia|]. split; [intro S; rewrite S; specialize (A2 S); lia|].
      intros x I. apply in_app_iff in I as [I|I]; [auto|]. apply added_in in I as (C & _ & _ & C2 & _). split.
      + intros S [X|X]; [destruct (C2 S); specialize (A2 S); lia|lia].
      + lia.
    - intros r e' X. destruct (N.eq_dec r (w_next w)) as [->|NE].
      + rewrite setf_same in X. injection X as <-. split; [lia|]. split; [rewrite setf_same; eauto|].
        intros k Y. destruct B; cbn in *; try discriminate; (split; [auto|]); intros t kd d' [Z|Z]; try discriminate; eauto.
      + rewrite setf_other in X by auto. destruct (v_store _ _ _ V r e' X) as (A & A2 & A3). split; [lia|].
        rewrite setf_other by auto. split; auto. intros k Y. destruct (A3 k Y) as [Z Z2]. split; auto. intros t kd d' I. apply OS in I; auto. eapply Z2; eauto.
    - intros r id b X. destruct (N.eq_dec r (w_next w)) as [->|NE].
      + rewrite setf_same in X. injection X as <- <-. split; [rewrite setf_same; discriminate|]. intro S. rewrite S.
        pose proof (v_pos _ _ _ V) as P. split; [unfold received; destruct (w_ids w <? _); lia|].
        intros t I. apply in_app_iff in I as [I|I].
        * split; [|intro Y; destruct (OLD _ I Y)]. intro Y. apply (v_timer _ _ _ V) in I as [_ I]. specialize (I S).
          unfold received in Y. destruct (w_ids w <? 2147483648); lia.
        * apply added_in in I as (C & _ & _ & C2 & _). destruct (C2 S) as [-> _]. auto.
      + rewrite setf_other in X by auto. rewrite setf_other by auto. destruct (v_handle _ _ _ V r id b X) as [A A2]. split; auto. intro S. rewrite S.
        destruct (A2 S) as [A3 A4]. split; [lia|]. intros t I. apply in_app_iff in I as [I|I]; [auto|].
        apply added_in in I as (C & _ & _ & C2 & _). destruct (C2 S) as [C3 _]. split; [lia|congruence].
    - intros t r kd d' I. destruct (N.eq_dec r (w_next w)) as [->|NE]; [lia|]. apply OS in I; auto. apply (v_set _ _ _ V) in I. lia.
    - intros r b X. destruct (N.eq_dec r (w_next w)) as [->|NE].
      + rewrite setf_same in X. injection X as X. destruct B; try discriminate X. injection X as <-. exists (w_now w), kd, d. split; [left; auto|].
        split; auto. rewrite dropped_other by auto. auto.
      + rewrite setf_other in X by auto. destruct (v_app _ _ _ V r b X) as (t & kd & d' & I & Y & Z). exists t, kd, d'. split; [right; auto|].
        split; auto. rewrite dropped_other by auto. auto.
    - intros t r kd d' I D K. destruct (N.eq_dec r (w_next w)) as [->|NE].
      + rewrite setf_same. destruct I as [I|I]; [|destruct (ON _ _ _ I)]. destruct B; try discriminate I. injection I as <- <- <-. auto.
      + rewrite setf_other in K by auto. rewrite setf_other by auto. apply OS in I; auto. rewrite dropped_other in D by auto. rewrite called_other in K by auto.
        eapply (v_kept _ _ _ V); eauto.
    - intros t b t0 kd d' I X Y. apply in_app_iff in I as [I|I].
      + pose proof (OLD _ I) as NE. rewrite setf_other in X by auto. apply OS in Y; auto. rewrite LAST by auto. rewrite called_other by auto.
        eapply (v_pending _ _ _ V); eauto.
      + apply added_in in I as (C & C2 & C3 & C4 & C5 & C6). rewrite C in *. rewrite setf_same in X. injection X as X.
        destruct Y as [Y|Y]; [|destruct (ON _ _ _ Y)]. destruct B; try discriminate Y. injection Y as <- <- <-.
        split; [unfold armed; destruct server; [right|auto]; destruct (C3 eq_refl); split; auto; destruct kd0; discriminate|].
        split; auto. split; [intro S; apply C4; auto|]. intros _. split.
        * intro S. rewrite (C6 S). cbn. rewrite N.eqb_refl. auto.
        * intros _. rewrite called_other by auto. auto.
    - intros r b t0 kd d' X Y A K. destruct (N.eq_dec r (w_next w)) as [->|NE].
      + rewrite setf_same in X. destruct Y as [Y|Y]; [|destruct (ON _ _ _ Y)]. destruct B; try discriminate Y. injection Y as <- <- <-.
        destruct (added_armed (repeats kd0) d w) as (x & I).
        { destruct A as [A|[A A2]]; auto. right. split; auto. destruct kd0; auto; congruence. }
        exists x. split; [apply in_app_iff; auto|]. apply added_in in I. apply I.
      + rewrite setf_other in X by auto. apply OS in Y; auto. rewrite called_other in K by auto.
        destruct (v_armed _ _ _ V r b t0 kd d' X Y A K) as (x & I & Z). exists x. split; auto. apply in_app_iff. auto.
    - intros c b E X. destruct (v_cur _ _ _ V c E) as [A _]. assert (NE : t_cb c <> w_next w) by lia.
      rewrite setf_other in X by auto. rewrite LAST by auto. destruct (v_calling _ _ _ V c b E X) as [Y Z]. split; auto. apply called_cons. auto.
    - intros r k b X. destruct (N.eq_dec r (w_next w)) as [->|NE].
      + rewrite setf_same in X. injection X as X. right. assert (Y : rep = false /\ d = 0) by (destruct B; try discriminate X; auto).
        destruct Y as [-> ->]. destruct (added_armed false 0 w) as (x & I); auto. exists x. split; [apply in_app_iff; auto|].
        apply added_in in I as (C & C2 & _ & _ & C5 & _). rewrite C5 by auto. split; auto. split; auto. lia.
      + rewrite setf_other in X by auto. destruct (v_run _ _ _ V r k b X) as [Y|(t & I & Y)]; auto. right. exists t. split; auto. apply in_app_iff; auto.
    - intros k X Y. assert (C : (exists b, e = Entry (Run k) b) /\ rep = false /\ d = 0 \/ waiting k (w_log w) = true /\ w_tasks w k = true).
      { destruct B; cbn in X; auto; try (destruct (N.eqb_spec k0 k) as [->|]; eauto).
        destruct (N.eqb_spec (w_spawned w) k) as [->|]; eauto. rewrite setf_other in Y by auto. auto. }
      destruct C as [((b & ->) & -> & ->)|[C C2]].
      + destruct (added_armed false 0 w) as (x & I); auto. exists (w_next w), b, x. split; auto. split; [apply setf_same|].
        split; [apply in_app_iff; auto|apply added_in in I; apply I].
      + destruct (v_wait _ _ _ V k C C2) as (r & b & t & Z & Z2 & Z3 & Z4). exists r, b, t. split; auto.
        rewrite setf_other by (rewrite <- Z4; auto). split; auto. split; auto. apply in_app_iff; auto.
    - intros k. rewrite done_other by auto. pose proof (v_task _ _ _ V k) as T. destruct B; try (rewrite T; split; intros [(u & X) Y]; (split; [exists u|]); cbn in *; auto; destruct X as [X|X]; auto; discriminate).
      destruct (N.eq_dec k (w_spawned w)) as [->|NE].
      + rewrite setf_same. split; auto. intros _. split; [eexists; left; reflexivity|]. intro D.
        destruct (done_spawned _ _ (v_good _ _ _ V) D) as (u & I). assert (X : w_spawned w < w_spawned w) by (apply (v_spawned _ _ _ V); eauto). lia.
      + rewrite setf_other by auto. rewrite T. split; intros [(u & X) Y]; (split; [exists u|]); cbn in *; auto. destruct X as [X|X]; auto. congruence.
    - intros k. pose proof (v_spawned _ _ _ V k) as T. destruct B; try (rewrite T; split; intros (u & X); exists u; cbn in *; auto; destruct X as [X|X]; auto; discriminate).
      split.
      + intro X. destruct (N.eq_dec k (w_spawned w)) as [->|NE]; [eexists; left; reflexivity|]. destruct (proj1 T) as (u & Y); [lia|]. exists u. right. auto.
      + intros (u & [X|X]); [injection X as _ <-; lia|]. assert (k < w_spawned w) by (apply T; eauto). lia.
    - intro k. pose proof (v_count _ _ _ V k) as T. unfold runs in *. cbn [w_timers w_store].
      rewrite filter_app, app_length, Nnat.Nat2N.inj_add.
      erewrite (filter_ext_in _ _ (w_timers w)).
      2: { intros t I. rewrite setf_other by (apply OLD; auto). reflexivity. }
      assert (M : wakes k ((w_now w, o) :: w_log w) = (match e_what e with Run k' => if k' =? k then 1 else 0 | App => 0 end) + wakes k (w_log w) /\
                  polls k ((w_now w, o) :: w_log w) = polls k (w_log w)).
      { destruct B; cbn; auto. }
      destruct M as [-> ->].
      assert (F : N.of_nat (length (filter (fun t => negb (is_cur cur (t_cb t)) &&
        match setf (w_next w) (Some e) (w_store w) (t_cb t) with Some (Entry (Run k') _) => k' =? k | _ => false end) (added rep d w))) <=
        match e_what e with Run k' => if k' =? k then 1 else 0 | App => 0 end).
      { destruct (added_shape rep d w) as [E|(x & E)]; rewrite E; [cbn; lia|]. cbn.
        destruct (added_in rep d w x) as [-> _]; [rewrite E; left; auto|]. rewrite setf_same, CUR. destruct e as [[|k'] b]; cbn; [lia|].
        destruct (k' =? k); cbn; lia. }
      lia.
    - destruct B; cbn; apply V.
    - pose proof (v_pos _ _ _ V). destruct server; lia.
    - intros t SV I L. apply in_app_iff in I as [I|I].
      + rewrite setf_other by auto. apply (v_live _ _ _ V); auto.
      + apply added_in in I as (-> & _). rewrite setf_same. discriminate.
    - intros t r d' I C. rewrite called_other in C by auto. destruct (N.eq_dec r (w_next w)) as [->|NE]; [tauto|].
      rewrite setf_other by auto. apply OS in I; auto. eapply (v_gone _ _ _ V); eauto.
  Qed.

  Lemma filter_true {A} (l : list A) : filter (fun _ => true) l = l.
  Proof. induction l; cbn; congruence. Qed.
  Lemma filter_le {A} (f f' g : A -> bool) l : (forall x, In x l -> f x = true -> g x = true -> f' x = true) ->
    N.of_nat (length (filter f (filter g l))) <= N.of_nat (length (filter f' l)).
  Proof.
    induction l as [|x l IH]; cbn -[N.of_nat]; intro H; [lia|].
    assert (K : N.of_nat (length (filter f (filter g l))) <= N.of_nat (length (filter f' l))) by (apply IH; intros; apply H; auto).
    destruct (g x) eqn:G; cbn -[N.of_nat].
    - destruct (f x) eqn:F; cbn -[N.of_nat]; [rewrite (H x) by auto; cbn -[N.of_nat]; lia|]. destruct (f' x); cbn -[N.of_nat]; lia.
    - destruct (f' x); cbn -[N.of_nat]; lia.
  Qed.
  Lemma filter_le' {A} (f f' : A -> bool) l : (forall x, In x l -> f x = true -> f' x = true) ->
    N.of_nat (length (filter f l)) <= N.of_nat (length (filter f' l)).
  Proof.
    intro H. pose proof (filter_le f f' (fun _ => true) l) as P. rewrite filter_true in P. auto.
  Qed.
  Lemma sorted_filter g l : StronglySorted N.lt (map t_cb l) -> StronglySorted N.lt (map t_cb (filter g l)).
  Proof.
    induction l as [|x l IH]; cbn; intro H; auto. inversion_clear H as [|? ? S F]. destruct (g x); cbn; auto. constructor; auto.
    rewrite Forall_map, Forall_forall in *. intros y I. apply filter_In in I as [I _]. auto.
  Qed.
  Lemma nodup_filter g l : NoDup (map t_id l) -> NoDup (map t_id (filter g l)).
  Proof.
    induction l as [|x l IH]; cbn; intro H; auto. inversion_clear H as [|? ? S F]. destruct (g x); cbn; auto. constructor; auto.
    rewrite in_map_iff in *. intros (y & E & I). apply S. exists y. apply filter_In in I as [I _]. auto.
  Qed.

  Lemma drop_inv cur p w r b id : Inv cur p w -> w_store w r = Some (Entry App b) -> w_handles w r = Some (id, false) ->
    Inv cur p (drop_timer r (note (ODrop r) w)).
  Proof.
    intros V X HX.
    assert (Q : exists g, (forall t, In t (w_timers w) -> (g t = false -> t_cb t = r) /\ (server = false -> t_cb t = r -> t_id t < 2147483648 -> g t = false)) /\ drop_timer r (note (ODrop r) w) =
      World (w_now w) (w_ids w) (filter g (w_timers w)) (w_next w) (setf r None (w_store w)) (setf r None (w_handles w)) (w_spawned w) (w_tasks w)
        ((w_now w, ODrop r) :: w_log w)).
    { unfold TimerModel.drop_timer. cbn [note w_handles]. rewrite HX. unfold timer_clear. case_eq server; intro SV.
      - exists (fun _ => true). split; [split; [discriminate|congruence]|]. rewrite filter_true. reflexivity.
      - exists (fun t => negb (t_id t =? id)). split; [|reflexivity].
        destruct (v_handle _ _ _ V r id false HX) as [_ Y]. destruct (Y SV) as [_ Z]. intros t I. destruct (Z t I) as [Z1 Z2]. split.
        + intro E. apply negb_false_iff, N.eqb_eq in E. auto.
        + intros _ E L. apply negb_false_iff, N.eqb_eq. rewrite (Z2 E). unfold received. apply N.ltb_lt in L. rewrite L. auto. }
    destruct Q as (g & G & ->). clear HX.
    assert (STAY : forall t, In t (w_timers w) -> t_cb t <> r -> In t (filter g (w_timers w))).
    { intros t I NE. apply filter_In. split; auto. destruct (g t) eqn:E; [auto|destruct (NE (proj1 (G t I) E))]. }
    assert (SUB : forall t, In t (filter g (w_timers w)) -> In t (w_timers w)) by (intros t I; apply filter_In in I; apply I).
    assert (OS : forall t r' kd d, In (t, OSet r' kd d) ((w_now w, ODrop r) :: w_log w) -> In (t, OSet r' kd d) (w_log w)).
    { intros t r' kd d [Y|Y]; auto; discriminate. }
    assert (SR : forall r' e, setf r None (w_store w) r' = Some e -> r' <> r /\ w_store w r' = Some e).
    { intros r' e Y. destruct (N.eq_dec r' r) as [->|NE]; [rewrite setf_same in Y; discriminate|]. rewrite setf_other in Y; auto. }
    assert (OC : forall r', ODrop r <> OCall r') by discriminate.
    assert (OP : forall r', ODrop r <> OPolled r' true) by discriminate.
    destruct (v_app _ _ _ V r b X) as (t0 & kd0 & d0 & I0 & _ & _).
    constructor; cbn [w_now w_ids w_timers w_next w_store w_handles w_spawned w_tasks w_log].
    - cbn. split; [eauto|apply V].
    - cbn. split; [lia|apply V].
    - intros t I. apply (v_timer _ _ _ V). auto.
    - apply sorted_filter, V.
    - intro SV. apply nodup_filter, V. auto.
    - intros c E. destruct (v_cur _ _ _ V c E) as (A & A2 & A3). split; auto.
    - intros r' e Y. apply SR in Y as [NE Y]. destruct (v_store _ _ _ V r' e Y) as (A & A2 & A3). split; auto. rewrite setf_other by auto.
      split; auto. intros k Z. destruct (A3 k Z) as [A4 A5]. split; auto. intros t kd d I. apply OS in I. eapply A5; eauto.
    - intros r' id' b' Y. destruct (N.eq_dec r' r) as [->|NE]; [rewrite setf_same in Y; discriminate|]. rewrite setf_other in Y by auto.
      rewrite setf_other by auto. destruct (v_handle _ _ _ V r' id' b' Y) as [A A2]. split; auto. intro SV. destruct (A2 SV) as [A3 A4]. auto.
    - intros t r' kd d I. apply OS in I. apply (v_set _ _ _ V) in I. auto.
    - intros r' b' Y. apply SR in Y as [NE Y]. destruct (v_app _ _ _ V r' b' Y) as (t & kd & d & I & A & A2). exists t, kd, d.
      split; [right; auto|]. split; auto. rewrite dropped_other by congruence. auto.
    - intros t r' kd d I D K. destruct (N.eq_dec r' r) as [->|NE]; [destruct D; exists (w_now w); left; auto|]. rewrite setf_other in K by auto. rewrite setf_other by auto.
      apply OS in I. rewrite dropped_other in D by congruence. rewrite called_other in K by auto. eapply (v_kept _ _ _ V); eauto.
    - intros t b' t' kd d I Y Z. apply SR in Y as [NE Y]. apply OS in Z. rewrite called_other by auto. cbn [last]. eapply (v_pending _ _ _ V); eauto.
    - intros r' b' t' kd d Y I A K. apply SR in Y as [NE Y]. apply OS in I. rewrite called_other in K by auto.
      destruct (v_armed _ _ _ V r' b' t' kd d Y I A K) as (x & Z & <-). exists x. auto.
    - intros c b' E Y. apply SR in Y as [NE Y]. destruct (v_calling _ _ _ V c b' E Y) as [A A2]. split; auto. apply called_cons. auto.
    - intros r' k b' Y. apply SR in Y as [NE Y]. destruct (v_run _ _ _ V r' k b' Y) as [A|(t & A & <- & A2)]; auto. right. exists t. auto.
    - intros k Y Z. destruct (v_wait _ _ _ V k Y Z) as (r' & b' & t & A & A2 & A3 & A4). exists r', b', t. split; auto.
      assert (NE : r' <> r) by congruence. rewrite setf_other by auto. split; auto. split; auto. apply STAY; auto. congruence.
    - intros k. rewrite done_other by auto. rewrite (v_task _ _ _ V k). split; intros [(u & A) A2]; (split; [exists u|]); cbn in *; auto. destruct A; auto; discriminate.
    - intros k. rewrite (v_spawned _ _ _ V k). split; intros (u & A); exists u; cbn in *; auto. destruct A; auto; discriminate.
    - intro k. pose proof (v_count _ _ _ V k) as T. cbn [polls wakes]. etransitivity; [|exact T]. apply N.add_le_mono_l. unfold runs. cbn [w_timers w_store].
      apply filter_le. intros x I Y _. apply andb_true_iff in Y as [Y Z]. rewrite Y. cbn. destruct (N.eq_dec (t_cb x) r) as [E|NE].
      + rewrite E, setf_same in Z. discriminate.
      + rewrite setf_other in Z by auto. auto.
    - apply V.
    - apply V.
    - intros t SV I L. pose proof (SUB _ I) as J. destruct (N.eq_dec (t_cb t) r) as [E|NE].
      + exfalso. apply filter_In in I as [_ I]. rewrite (proj2 (G t J) SV E L) in I. discriminate.
      + rewrite setf_other by auto. apply (v_live _ _ _ V); auto.
    - intros t r' d I C. rewrite called_other in C by auto. apply OS in I. destruct (N.eq_dec r' r) as [->|NE]; [rewrite setf_same; auto|].
      rewrite setf_other by auto. eapply (v_gone _ _ _ V); eauto.
  Qed.

  Lemma act_inv cur p w a : Inv cur p w -> Inv cur p (act a w).
  Proof.
    intro V. destruct a; cbn [TimerModel.act].
    - rewrite set_timer_is. exact (begins_inv _ _ _ _ _ _ _ _ _ V (b_set w kd d)).
    - destruct (w_store w r) as [[[|] b]|] eqn:E; auto. destruct (w_handles w r) as [[id [|]]|] eqn:H; auto. eapply drop_inv; eauto.
    - unfold wake. rewrite set_timer_is. exact (begins_inv _ _ _ _ _ _ _ _ _ V (b_spawn w)).
    - destruct (N.ltb_spec k (w_spawned w)) as [L|]; auto. unfold wake. rewrite set_timer_is. exact (begins_inv _ _ _ _ _ _ _ _ _ V (b_wake w k L)).
  Qed.
  Lemma fold_inv cur p l : forall w, Inv cur p w -> Inv cur p (fold_left (fun w a => act a w) l w).
  Proof. induction l as [|a l IH]; intros w V; cbn; auto. apply IH, act_inv, V. Qed.
  Lemma acts_inv cur p w : Inv cur p w -> Inv cur p (acts w).
  Proof. apply fold_inv. Qed.

  (** Entries do not change, except that they end. *)
  Definition stays (r : N) (w w' : world) : Prop := w_next w <= w_next w' /\ w_now w' = w_now w /\ (w_store w' r = w_store w r \/ w_store w' r = None).
  Lemma stays_trans r w w' w'' : stays r w w' -> stays r w' w'' -> stays r w w''.
  Proof. intros (A & B & C) (D & E & F). split; [lia|]. split; [congruence|]. destruct F as [->| ->]; auto. Qed.
  Lemma set_stays rep d e w r : r < w_next w -> stays r w (set_timer rep d e w).
  Proof. intro H. rewrite set_timer_is. split; [cbn; lia|]. split; [auto|]. left. cbn. apply setf_other. lia. Qed.
  Lemma drop_stays r' w r : stays r w (drop_timer r' w).
  Proof.
    unfold TimerModel.drop_timer. destruct (w_handles w r') as [[id b]|]; [|split; [lia|auto]].
    split; [unfold timer_clear; destruct server; cbn; lia|]. split; [unfold timer_clear; destruct server; auto|].
    cbn. unfold setf. destruct (r =? r'); auto. unfold timer_clear. destruct server; auto.
  Qed.
  Lemma act_stays a w r : r < w_next w -> stays r w (act a w).
  Proof.
    intro H. destruct a; cbn [TimerModel.act].
    - apply (set_stays _ _ _ (note _ w)). auto.
    - destruct (w_store w r0) as [[[|] b]|]; try (split; [lia|auto]). destruct (w_handles w r0) as [[id [|]]|]; try (split; [lia|auto]).
      apply (drop_stays _ (note (ODrop r0) w)).
    - unfold wake. apply (set_stays _ _ _ (World _ _ _ _ _ _ _ _ _)). auto.
    - destruct (k <? w_spawned w); [|split; [lia|auto]]. apply (set_stays _ _ _ (note _ w)). auto.
  Qed.
  Lemma acts_stays w r : r < w_next w -> stays r w (acts w).
  Proof.
    unfold TimerModel.acts. generalize (react (w_log w)). intro l. revert w. induction l as [|a l IH]; intros w H; cbn; [split; [lia|auto]|].
    pose proof (act_stays a w r H) as A. eapply stays_trans; [exact A|]. apply IH. destruct A. lia.
  Qed.

  (** A timer fires. *)
  Inductive opens (w : world) (r : N) : list (N * obs) -> option N -> Prop :=
  | op_app b : w_store w r = Some (Entry App b) -> opens w r [(w_now w, OCall r)] None
  | op_poll k b : w_store w r = Some (Entry (Run k) b) -> w_tasks w k = true -> opens w r [(w_now w, OPoll k)] (Some k)
  | op_dead k b : w_store w r = Some (Entry (Run k) b) -> w_tasks w k = false -> opens w r [] None
  | op_none : w_store w r = None -> opens w r [] None.

  Lemma dropped_dec r l : {dropped r l} + {~ dropped r l}.
  Proof.
    induction l as [|[t o] l IH]; [right; intros (t & [])|].
    assert (D : {o = ODrop r} + {o <> ODrop r}) by (destruct o; try (right; discriminate); destruct (N.eq_dec r0 r) as [->|]; [left; auto|right; congruence]).
    destruct D as [->|D]; [left; exists t; left; auto|]. destruct IH as [I|I]; [left; apply dropped_cons; auto|right; rewrite dropped_other; auto].
  Qed.
  Lemma called_dec r l : {called r l} + {~ called r l}.
  Proof.
    induction l as [|[t o] l IH]; [right; intros (t & [])|].
    assert (D : {o = OCall r} + {o <> OCall r}) by (destruct o; try (right; discriminate); destruct (N.eq_dec r0 r) as [->|]; [left; auto|right; congruence]).
    destruct D as [->|D]; [left; exists t; left; auto|]. destruct IH as [I|I]; [left; apply called_cons; auto|right; rewrite called_other; auto].
  Qed.
  Lemma done_dec k l : {done k l} + {~ done k l}.
  Proof.
    induction l as [|[t o] l IH]; [right; intros (t & [])|].
    assert (D : {o = OPolled k true} + {o <> OPolled k true}).
    { destruct o; try (right; discriminate). destruct (N.eq_dec k0 k) as [->|]; [|right; congruence]. destruct ready0; [left; auto|right; congruence]. }
    destruct D as [->|D]; [left; exists t; left; auto|].
    destruct IH as [I|I]; [left; destruct I as (u & I); exists u; right; auto|right; rewrite done_other; auto].
  Qed.
  Lemma filter_lt f t l : In t l -> f t = true ->
    N.of_nat (length (filter (fun x => negb (t_cb t =? t_cb x) && f x) l)) + 1 <= N.of_nat (length (filter (fun x => negb false && f x) l)).
  Proof.
    intros I F. apply in_split in I as (a & b & ->). rewrite !filter_app, !app_length. cbn [filter]. rewrite N.eqb_refl, F. cbn [negb andb length].
    pose proof (filter_le' (fun x => negb (t_cb t =? t_cb x) && f x) (fun x => negb false && f x) a) as A.
    pose proof (filter_le' (fun x => negb (t_cb t =? t_cb x) && f x) (fun x => negb false && f x) b) as B. cbn [negb andb] in *.
    assert (K : forall x, negb (t_cb t =? t_cb x) && f x = true -> f x = true) by (intros x Y; apply andb_true_iff in Y; apply Y).
    specialize (A (fun x _ => K x)). specialize (B (fun x _ => K x)). lia.
  Qed.
  Lemma sorted_unique l x y : StronglySorted N.lt (map t_cb l) -> In x l -> In y l -> t_cb x = t_cb y -> x = y.
  Proof.
    induction l as [|z l IH]; cbn; intros S I J E; [tauto|]. inversion_clear S as [|? ? S' F]. rewrite Forall_map, Forall_forall in F.
    destruct I as [->|I], J as [->|J]; auto.
    - apply F in J. lia.
    - apply F in I. lia.
  Qed.
  Lemma nodup_unique l x y : NoDup (map t_id l) -> In x l -> In y l -> t_id x = t_id y -> x = y.
  Proof.
    induction l as [|z l IH]; cbn; intros S I J E; [tauto|]. inversion_clear S as [|? ? S' F].
    destruct I as [->|I], J as [->|J]; auto.
    - destruct S'. rewrite E. apply in_map. auto.
    - destruct S'. rewrite <- E. apply in_map. auto.
  Qed.

  Lemma opens_inv w t l o p : Inv None None w -> In t (w_timers w) ->
    (server = false -> l = w_timers w /\ t_due t <= w_now w) -> (server = true -> w_timers w = t :: l) -> opens w (t_cb t) o p ->
    Inv (Some t) p (World (w_now w) (w_ids w) l (w_next w) (w_store w) (w_handles w) (w_spawned w) (w_tasks w) (o ++ w_log w)).
  Proof.
    intros V IT LB LS O.
    assert (SUB : forall x, In x l -> In x (w_timers w)).
    { intros x I. case_eq server; intro SV; [rewrite (LS SV); right; auto|]. destruct (LB SV) as [-> _]. auto. }
    assert (STAY : forall x, In x (w_timers w) -> t_cb x <> t_cb t -> In x l).
    { intros x I NE. case_eq server; intro SV; [|destruct (LB SV) as [-> _]; auto]. rewrite (LS SV) in I. destruct I; auto. congruence. }
    assert (OS : forall t r' kd d, In (t, OSet r' kd d) (o ++ w_log w) -> In (t, OSet r' kd d) (w_log w)).
    { intros u r' kd d I. apply in_app_iff in I as [I|I]; auto. exfalso. destruct O; cbn in I; intuition discriminate. }
    assert (OS' : forall x, In x (w_log w) -> In x (o ++ w_log w)) by (intros x I; apply in_app_iff; auto).
    assert (OD : forall r, dropped r (o ++ w_log w) <-> dropped r (w_log w)).
    { intro r. destruct O; cbn [app]; try rewrite dropped_other by discriminate; tauto. }
    assert (OF : forall k, done k (o ++ w_log w) <-> done k (w_log w)).
    { intro k. destruct O; cbn [app]; try rewrite done_other by discriminate; tauto. }
    assert (OK : forall k, (exists u, In (u, OSpawn k) (o ++ w_log w)) <-> exists u, In (u, OSpawn k) (w_log w)).
    { intro k. split; intros (u & I); exists u; auto. apply in_app_iff in I as [I|I]; auto. exfalso. destruct O; cbn in I; intuition discriminate. }
    assert (OCALL : forall r, r <> t_cb t -> (called r (o ++ w_log w) <-> called r (w_log w))).
    { intros r NE. destruct O; cbn [app]; try rewrite called_other by congruence; tauto. }
    assert (OCALL' : forall r, called r (w_log w) -> called r (o ++ w_log w)) by (intros r (u & I); exists u; auto).
    assert (LAST : forall r, r <> t_cb t -> last r (o ++ w_log w) = last r (w_log w)).
    { intros r NE. destruct O; cbn; auto. destruct (N.eqb_spec (t_cb t) r); congruence. }
    constructor; cbn [w_now w_ids w_timers w_next w_store w_handles w_spawned w_tasks w_log].
    - destruct O as [b X|k b X T|k b X T|X]; cbn [app]; try apply V; cbn [good]; (split; [|apply V]).
      + destruct (v_app _ _ _ V _ b X) as (t0 & kd & d & I & A & A2). destruct (v_pending _ _ _ V t b t0 kd d IT X I) as (B & B2 & B3 & B4).
        destruct (B4 eq_refl) as [B5 B6]. cbn. exists t0, kd, d. repeat (split; auto).
        * intro SV. rewrite <- (B3 SV), <- (B5 SV). apply LB. auto.
        * intros SV r' t' kd' L I' K. destruct (in_dec N.eq_dec r' (map t_cb (w_timers w))) as [J|J].
          -- exfalso. pose proof (v_sorted _ _ _ V) as S. rewrite (LS SV) in S, J. cbn in S, J. inversion_clear S as [|? ? ? F].
             rewrite Forall_forall in F. destruct J as [<-|J]; [lia|]. apply F in J. lia.
          -- destruct (dropped_dec r' (w_log w)) as [D|D]; auto. destruct (called_dec r' (w_log w)) as [C|C]; auto. exfalso. apply J.
             assert (Y : w_store w r' = Some (Entry App (boxed kd'))) by (eapply (v_kept _ _ _ V); eauto; intros; tauto).
             destruct (v_armed _ _ _ V r' _ t' kd' 0 Y I') as (x & Z & <-); [right; auto|auto|]. apply in_map. auto.
      + cbn. split; [apply V|]. apply (v_task _ _ _ V) in T as [_ T]. split; auto.
        pose proof (v_count _ _ _ V k) as C. assert (P : 0 < runs None k w); [|lia]. unfold runs.
        destruct (filter _ (w_timers w)) as [|y l'] eqn:F; [|cbn; lia]. exfalso.
        assert (Z : In t []) by (rewrite <- F; apply filter_In; split; auto; rewrite X; cbn; apply N.eqb_refl). destruct Z.
    - destruct O; cbn; try (split; [lia|]); apply V.
    - intros x I. apply (v_timer _ _ _ V). auto.
    - case_eq server; intro SV; [|destruct (LB SV) as [-> _]; apply V]. pose proof (v_sorted _ _ _ V) as A. rewrite (LS SV) in A. inversion A; auto.
    - intro SV. destruct (LB SV) as [-> _]. apply V. auto.
    - intros c E. injection E as <-. destruct (v_timer _ _ _ V t IT) as [A A2]. split; auto. split; [intro SV; apply A2; auto|].
      intros x I. split.
      + intros SV [E|E]; [apply (nodup_unique (w_timers w)); auto; apply V; auto|apply (sorted_unique (w_timers w)); auto; apply V].
      + intro SV. pose proof (v_sorted _ _ _ V) as B. rewrite (LS SV) in B. inversion_clear B as [|? ? ? F]. rewrite Forall_map, Forall_forall in F.
        apply F in I. lia.
    - intros r e X. destruct (v_store _ _ _ V r e X) as (A & A2 & A3). split; auto. split; auto. intros k Y. destruct (A3 k Y) as [A4 A5]. split; auto.
      intros u kd d I. apply OS in I. eapply A5; eauto.
    - intros r id b X. destruct (v_handle _ _ _ V r id b X) as [A A2]. split; auto. intro SV. destruct (A2 SV) as [A3 A4]. auto.
    - intros u r kd d I. apply OS in I. eapply (v_set _ _ _ V); eauto.
    - intros r b X. destruct (v_app _ _ _ V r b X) as (u & kd & d & I & A & A2). exists u, kd, d. rewrite OD. auto.
    - intros u r kd d I D K. apply OS in I. rewrite OD in D. apply (v_kept _ _ _ V u r kd d I D). intros E C. exfalso.
      destruct (K E (OCALL' _ C)) as [K1 K2]. cbn in K1. apply N.eqb_eq in K1. subst r.
      destruct O as [b X|k b X T|k b X T|X].
      + destruct (v_app _ _ _ V _ b X) as (t0 & kd0 & d0 & I0 & _ & _). destruct (v_pending _ _ _ V t b t0 kd0 d0 IT X I0) as (_ & _ & _ & B).
        destruct (set_unique _ _ _ _ _ _ _ _ (v_good _ _ _ V) I I0) as (_ & <- & _). destruct (B eq_refl) as [_ B2]. apply B2; auto. congruence.
      + destruct (v_store _ _ _ V _ _ X) as (_ & _ & Y). destruct (Y k eq_refl) as [_ Z]. eapply Z; eauto.
      + destruct (v_store _ _ _ V _ _ X) as (_ & _ & Y). destruct (Y k eq_refl) as [_ Z]. eapply Z; eauto.
      + auto.
    - intros x b t0 kd d I X Y. apply OS in Y. destruct (v_pending _ _ _ V x b t0 kd d (SUB _ I) X Y) as (A & A2 & A3 & A4). split; [auto|]. split; [auto|]. split; [auto|].
      cbn. intro NE. apply N.eqb_neq in NE. rewrite LAST, OCALL by auto. auto.
    - intros r b t0 kd d X Y A K. apply OS in Y. destruct (v_armed _ _ _ V r b t0 kd d X Y A) as (x & I & E).
      { destruct K as [K|K]; auto. }
      exists x. split; auto. destruct (N.eq_dec (t_cb x) (t_cb t)) as [NE|NE]; [|auto]. case_eq server; intro SV; [|destruct (LB SV) as [-> _]; auto].
      exfalso. destruct A as [A|[A A2]]; [congruence|]. destruct K as [K|K]; [congruence|]. apply K. rewrite <- E, NE in X. destruct O as [b' X'|? ? X'|? ? X'|X']; try congruence.
      exists (w_now w). left. congruence.
    - intros c b E X. injection E as <-. destruct O as [b' X'|? ? X'|? ? X'|X']; try congruence. split; [exists (w_now w); left; auto|]. cbn. rewrite N.eqb_refl. auto.
    - intros r k b X. cbn. destruct (N.eqb_spec (t_cb t) r) as [|NE]; auto. right. destruct (v_run _ _ _ V r k b X) as [A|(x & I & <- & A)]; [discriminate|].
      exists x. auto.
    - intros k X Y. assert (Z : waiting k (w_log w) = true /\ forall b, w_store w (t_cb t) <> Some (Entry (Run k) b)).
      { destruct O as [b' X'|k' b' X' T'|k' b' X' T'|X']; cbn in X; try (split; [auto|congruence]). destruct (N.eqb_spec k' k); [discriminate|].
        split; auto. congruence. }
      destruct Z as [Z Z2]. destruct (v_wait _ _ _ V k Z Y) as (r & b & x & A & A2 & A3 & A4). exists r, b, x.
      assert (NE : t_cb t <> r) by (intros <-; eapply Z2; eauto). split; [cbn; apply N.eqb_neq; auto|]. split; auto. split; auto. apply STAY; auto. congruence.
    - intro k. rewrite OF, OK. apply V.
    - intro k. rewrite OK. apply V.
    - intro k. pose proof (v_count _ _ _ V k) as T.
      assert (M : wakes k (o ++ w_log w) = wakes k (w_log w)) by (destruct O; reflexivity). rewrite M.
      set (f := fun x => match w_store w (t_cb x) with Some (Entry (Run k') _) => k' =? k | _ => false end).
      assert (R : runs (Some t) k (World (w_now w) (w_ids w) l (w_next w) (w_store w) (w_handles w) (w_spawned w) (w_tasks w) (o ++ w_log w)) +
        (if f t then 1 else 0) <= runs None k w).
      { change (N.of_nat (length (filter (fun x => negb (t_cb t =? t_cb x) && f x) l)) + (if f t then 1 else 0) <=
                N.of_nat (length (filter (fun x => negb false && f x) (w_timers w)))). destruct (f t) eqn:F.
        - case_eq server; intro SV.
          + rewrite (LS SV). cbn [filter]. rewrite F. cbn [negb andb length]. rewrite Nnat.Nat2N.inj_succ.
            enough (N.of_nat (length (filter (fun x => negb (t_cb t =? t_cb x) && f x) l)) <= N.of_nat (length (filter (fun x => f x) l))) by lia.
            apply filter_le'. intros x _ Y. apply andb_true_iff in Y as [_ Y]. auto.
          + destruct (LB SV) as [-> _]. apply filter_lt; auto.
        - rewrite N.add_0_r. etransitivity; [apply (filter_le' _ (fun x => negb false && f x))|].
          + intros x _ Y. apply andb_true_iff in Y as [_ Y]. auto.
          + case_eq server; intro SV; [|destruct (LB SV) as [-> _]; reflexivity]. rewrite (LS SV). cbn [filter negb andb]. rewrite F. reflexivity. }
      assert (P : polls k (o ++ w_log w) <= polls k (w_log w) + if f t then 1 else 0).
      { unfold f. destruct O as [b' X'|k' b' X' T'|k' b' X' T'|X']; cbn; rewrite ?X'; try lia. }
      lia.
    - destruct O; cbn; auto; apply V.
    - apply V.
    - intros x SV I L. apply (v_live _ _ _ V); auto.
    - intros u r d I C. apply OS in I. cbn. destruct (N.eqb_spec (t_cb t) r) as [E|NE]; auto. apply OCALL in C; auto.
      destruct (v_gone _ _ _ V u r d I C) as [X|X]; auto.
  Qed.

  Lemma polled_inv cur k (b : bool) w : Inv cur (Some k) w ->
    Inv cur None (World (w_now w) (w_ids w) (w_timers w) (w_next w) (w_store w) (w_handles w) (w_spawned w)
      (if b then setf k false (w_tasks w) else w_tasks w) ((w_now w, OPolled k b) :: w_log w)).
  Proof.
    intro V.
    assert (OS : forall t r' kd d, In (t, OSet r' kd d) ((w_now w, OPolled k b) :: w_log w) -> In (t, OSet r' kd d) (w_log w)).
    { intros u r' kd d [I|I]; auto. discriminate. }
    assert (OC : forall r', OPolled k b <> OCall r') by discriminate.
    assert (OD : forall r', OPolled k b <> ODrop r') by discriminate.
    assert (T : forall k', (if b then setf k false (w_tasks w) else w_tasks w) k' = true -> w_tasks w k' = true).
    { intros k' X. destruct b; auto. unfold setf in X. destruct (k' =? k); auto. discriminate. }
    assert (OK : forall k', (exists u, In (u, OSpawn k') ((w_now w, OPolled k b) :: w_log w)) <-> exists u, In (u, OSpawn k') (w_log w)).
    { intro k'. split; intros (u & I); exists u; cbn in *; auto. destruct I; auto; discriminate. }
    constructor; cbn [w_now w_ids w_timers w_next w_store w_handles w_spawned w_tasks w_log].
    - cbn. split; apply V.
    - cbn. split; [lia|apply V].
    - apply V.
    - apply V.
    - apply V.
    - apply V.
    - intros r e X. destruct (v_store _ _ _ V r e X) as (A & A2 & A3). split; auto. split; auto. intros k' Y. destruct (A3 k' Y) as [A4 A5]. split; auto.
      intros u kd d I. apply OS in I. eapply A5; eauto.
    - apply V.
    - intros u r kd d I. apply OS in I. eapply (v_set _ _ _ V); eauto.
    - intros r b' X. destruct (v_app _ _ _ V r b' X) as (u & kd & d & I & A & A2). exists u, kd, d. rewrite dropped_other by auto. split; [right|]; auto.
    - intros u r kd d I D K. apply OS in I. rewrite dropped_other in D by auto. rewrite called_other in K by auto. eapply (v_kept _ _ _ V); eauto.
    - intros x b' t0 kd d I X Y. apply OS in Y. rewrite called_other by auto. cbn [last]. eapply (v_pending _ _ _ V); eauto.
    - intros r b' t0 kd d X Y A K. apply OS in Y. rewrite called_other in K by auto. eapply (v_armed _ _ _ V); eauto.
    - intros c b' E X. rewrite called_other by auto. eapply (v_calling _ _ _ V); eauto.
    - apply V.
    - intros k' X Y. apply (v_wait _ _ _ V); auto.
    - intro k'. rewrite OK. destruct b.
      + destruct (N.eq_dec k' k) as [->|NE].
        * rewrite setf_same. split; [discriminate|]. intros [_ X]. destruct X. exists (w_now w). left. auto.
        * rewrite setf_other by auto. rewrite done_other by congruence. apply V.
      + rewrite done_other by discriminate. apply V.
    - intro k'. rewrite OK. apply V.
    - intro k'. apply (v_count _ _ _ V).
    - reflexivity.
    - apply V.
    - apply V.
    - intros u r d I C. apply OS in I. rewrite called_other in C by auto. eapply (v_gone _ _ _ V); eauto.
  Qed.

  (** What is left of the timers when [c] has fired. *)
  Definition rest (c : timer) (now : N) (l : list timer) : list timer :=
    if server then l
    else flat_map (fun x => if t_id x =? t_id c then if t_repeat c then [Timer (t_id c) true (t_cb c) (t_ms c) (now + t_ms c)] else [] else [x]) l.
  Lemma rest_in c now l x : In x (rest c now l) -> In x l /\ (server = false -> t_id x <> t_id c) \/
    server = false /\ t_repeat c = true /\ x = Timer (t_id c) true (t_cb c) (t_ms c) (now + t_ms c) /\ exists y, In y l /\ t_id y = t_id c.
  Proof.
    unfold rest. case_eq server; intro SV; [intro I; left; split; auto; discriminate|]. intro I. apply in_flat_map in I as (y & I & J). destruct (N.eqb_spec (t_id y) (t_id c)) as [E|E].
    - destruct (t_repeat c); [destruct J as [<-|[]]; right; eauto 6|destruct J].
    - destruct J as [<-|[]]. left. auto.
  Qed.
  Lemma in_rest c now l x : In x l -> t_id x <> t_id c -> In x (rest c now l).
  Proof.
    unfold rest. destruct server; auto. intros I E. apply in_flat_map. exists x. split; auto. apply N.eqb_neq in E. rewrite E. left. auto.
  Qed.
  Lemma rest_map {A} (f : timer -> A) c now l : server = false -> t_repeat c = true -> (forall x, In x l -> t_id x = t_id c -> x = c) ->
    f (Timer (t_id c) true (t_cb c) (t_ms c) (now + t_ms c)) = f c -> map f (rest c now l) = map f l.
  Proof.
    intros SV R H F. unfold rest. rewrite SV. induction l as [|x l IH]; auto. cbn. rewrite map_app, IH by (intros; apply H; auto; right; auto).
    destruct (N.eqb_spec (t_id x) (t_id c)) as [E|E]; auto. rewrite R. cbn. rewrite F. rewrite (H x) by (auto; left; auto). auto.
  Qed.
  Lemma rest_once c now l : server = false -> t_repeat c = false -> rest c now l = filter (fun x => negb (t_id x =? t_id c)) l.
  Proof. intros SV R. unfold rest. rewrite SV, R. induction l as [|x l IH]; auto. cbn. rewrite IH. destruct (t_id x =? t_id c); auto. Qed.

  Lemma rest_count (g h : timer -> bool) c now l : (forall y, g y = true -> h y = true) -> g (Timer (t_id c) true (t_cb c) (t_ms c) (now + t_ms c)) = false ->
    N.of_nat (length (filter g (rest c now l))) <= N.of_nat (length (filter h l)).
  Proof.
    intros H E. unfold rest. destruct server; [apply filter_le'; auto|]. induction l as [|x l IH]; [cbn; lia|].
    cbn [flat_map filter]. rewrite filter_app, app_length.
    assert (K : N.of_nat (length (filter g (if t_id x =? t_id c then if t_repeat c then [Timer (t_id c) true (t_cb c) (t_ms c) (now + t_ms c)] else [] else [x]))) <= if h x then 1 else 0).
    { destruct (t_id x =? t_id c); [destruct (t_repeat c); cbn [filter]; rewrite ?E; cbn; lia|]. cbn [filter].
      destruct (g x) eqn:G; [rewrite (H x G)|]; cbn; lia. }
    destruct (h x); cbn [length]; lia.
  Qed.

  Lemma closes_inv c w box x w' : Inv (Some c) None w ->
    w_store w (t_cb c) = Some (Entry x box) \/ w_store w (t_cb c) = None -> (forall k, x = Run k -> box = true) -> (box = true -> t_repeat c = false) ->
    w_now w' = w_now w -> w_ids w' = w_ids w -> w_timers w' = rest c (w_now w) (w_timers w) -> w_next w' = w_next w ->
    (forall r, w_store w' r = if box && (r =? t_cb c) then None else w_store w r) ->
    (forall r, w_handles w' r = if box && (r =? t_cb c) then None else w_handles w r) ->
    w_spawned w' = w_spawned w -> w_tasks w' = w_tasks w -> w_log w' = w_log w -> Inv None None w'.
  Proof.
    intros V ST BR BT E1 E2 E3 E4 E5 E6 E7 E8 E9.
    destruct (v_cur _ _ _ V c eq_refl) as (C1 & C2 & C3).
    assert (ID : forall x, server = false -> In x (w_timers w) -> t_id x = t_id c -> x = c) by (intros y SV I E; apply C3; auto).
    assert (SR : forall r e, w_store w' r = Some e -> w_store w r = Some e /\ (box = true -> r <> t_cb c)).
    { intros r e X. rewrite E5 in X. destruct box; cbn in X; [|split; [auto|discriminate]]. destruct (N.eqb_spec r (t_cb c)); [discriminate|auto]. }
    assert (SO : forall r, r <> t_cb c -> w_store w' r = w_store w r).
    { intros r NE. rewrite E5. apply N.eqb_neq in NE. rewrite NE, andb_false_r. auto. }
    assert (HO : forall r e, w_handles w' r = Some e -> w_handles w r = Some e /\ (box = true -> r <> t_cb c)).
    { intros r e X. rewrite E6 in X. destruct box; cbn in X; [|split; [auto|discriminate]]. destruct (N.eqb_spec r (t_cb c)); [discriminate|auto]. }
    assert (RI : forall y, In y (w_timers w') -> In y (w_timers w) /\ t_cb y <> t_cb c \/
      In c (w_timers w) /\ server = false /\ t_repeat c = true /\ y = Timer (t_id c) true (t_cb c) (t_ms c) (w_now w + t_ms c)).
    { intros y I. rewrite E3 in I. apply rest_in in I as [[I N]|(SV & R & -> & z & I & E)].
      - left. split; auto. intro E. case_eq server; intro SV; [apply (C3 y I) in SV; auto|]. apply (N SV). f_equal. apply (C3 y I); auto.
      - right. assert (z = c) by (apply ID; auto). subst z. auto. }
    assert (RO : forall y, In y (w_timers w') -> exists z, In z (w_timers w) /\ t_cb z = t_cb y /\ t_id z = t_id y).
    { intros y I. apply RI in I as [[I _]|(I & _ & _ & ->)]; eauto. }
    assert (KEEP : forall y, In y (w_timers w) -> t_cb y <> t_cb c -> In y (w_timers w')).
    { intros y I N. rewrite E3. case_eq server; intro SV; [unfold rest; rewrite SV; auto|]. apply in_rest; auto. intro E. apply N. f_equal. auto. }
    constructor; rewrite ?E1, ?E2, ?E4, ?E7, ?E8, ?E9; try apply V.
    - intros t I. destruct (RO t I) as (z & J & <- & <-). apply V. auto.
    - rewrite E3. case_eq server; intro SV; [unfold rest; rewrite SV; apply V|]. destruct (t_repeat c) eqn:R.
      + rewrite rest_map; auto. apply V.
      + rewrite rest_once by auto. apply sorted_filter, V.
    - intro SV. rewrite E3. destruct (t_repeat c) eqn:R.
      + rewrite rest_map; auto. apply V. auto.
      + rewrite rest_once by auto. apply nodup_filter, V. auto.
    - discriminate.
    - intros r e X. apply SR in X as [X NE]. destruct (v_store _ _ _ V r e X) as (A & (id & A2) & A3). split; auto. split; auto. exists id. rewrite E6.
      destruct box; cbn; auto. destruct (N.eqb_spec r (t_cb c)); auto. destruct NE; auto.
    - intros r id b X. apply HO in X as [X NE]. destruct (v_handle _ _ _ V r id b X) as [A A2]. split.
      + rewrite E5. destruct box; cbn; auto. destruct (N.eqb_spec r (t_cb c)); auto. destruct NE; auto.
      + intro SV. destruct (A2 SV) as [A3 A4]. split; auto. intros y I. destruct (RO y I) as (z & J & <- & <-). auto.
    - intros r b X. apply SR in X as [X NE]. eapply (v_app _ _ _ V); eauto.
    - intros t r kd d I D K. assert (Y : w_store w r = Some (Entry App (boxed kd))).
      { eapply (v_kept _ _ _ V); eauto. intros F G. destruct (K F G). discriminate. }
      rewrite E5. destruct box; cbn; auto. destruct (N.eqb_spec r (t_cb c)) as [->|]; auto. exfalso.
      destruct ST as [ST|ST]; [|congruence]. assert (F : kd = Detached) by (rewrite Y in ST; destruct kd; cbn in ST; congruence).
      destruct (v_calling _ _ _ V c _ eq_refl Y) as [Z _]. destruct (K F Z). discriminate.
    - intros y b t0 kd d I X Y. apply SR in X as [X NE]. apply RI in I as [[I N]|(I & SV & R & ->)].
      + destruct (v_pending _ _ _ V y b t0 kd d I X Y) as (A & A2 & A3 & A4). split; auto. split; auto. split; auto. intros _. apply A4. cbn. apply N.eqb_neq. auto.
      + cbn [t_cb t_repeat t_ms t_due] in *. destruct (v_pending _ _ _ V c b t0 kd d I X Y) as (A & A2 & A3 & A4). split; auto. split; [congruence|]. split; auto.
        intros _. destruct (v_calling _ _ _ V c _ eq_refl X) as [Z Z2]. split; [intros _; congruence|]. intro NI. exfalso. rewrite R in A2. destruct kd; try discriminate. auto.
    - intros r b t0 kd d X Y A K. apply SR in X as [X NE]. destruct (v_armed _ _ _ V r b t0 kd d X Y A K) as (y & I & E).
      destruct (N.eq_dec (t_cb y) (t_cb c)) as [F|F]; [|exists y; auto]. case_eq server; intro SV; [apply (C3 y I) in SV; contradiction|].
      assert (y = c) by (apply C3; auto). subst y. rewrite <- E in *. destruct (v_calling _ _ _ V c _ eq_refl X) as [Z Z2].
      destruct K as [->|K]; [|destruct (K Z)]. destruct (v_pending _ _ _ V c b t0 Interval d I X Y) as (_ & R & _). cbn in R.
      exists (Timer (t_id c) true (t_cb c) (t_ms c) (w_now w + t_ms c)). split; auto. rewrite E3. unfold rest. rewrite SV. apply in_flat_map. exists c.
      rewrite N.eqb_refl, R. split; auto. left. auto.
    - discriminate.
    - intros r k b X. apply SR in X as [X NE]. assert (N : r <> t_cb c).
      { intros ->. destruct ST as [ST|ST]; [|congruence]. apply NE; auto. apply (BR k). congruence. }
      right. destruct (v_run _ _ _ V r k b X) as [Y|(y & I & <- & Y)]; [apply N.eqb_eq in Y; congruence|]. exists y. auto.
    - intros k X Y. destruct (v_wait _ _ _ V k X Y) as (r & b & t & A & A2 & A3 & A4). apply N.eqb_neq in A. exists r, b, t. split; auto.
      rewrite SO by auto. split; auto. split; auto. apply KEEP; auto. congruence.
    - intro k. pose proof (v_count _ _ _ V k) as T. etransitivity; [|exact T]. apply N.add_le_mono_l. unfold runs.
      assert (FC : forall y, t_cb y = t_cb c -> match w_store w' (t_cb y) with Some (Entry (Run k') _) => k' =? k | _ => false end = false).
      { intros y ->. rewrite E5. destruct ST as [ST| ->]; [|destruct box; cbn; rewrite ?N.eqb_refl; auto]. rewrite ST, N.eqb_refl.
        destruct x as [|k']; [destruct box; auto|]. rewrite (BR k' eq_refl). auto. }
      rewrite E3. apply rest_count.
      + intros y Y. cbn [is_cur negb andb] in Y. destruct (N.eq_dec (t_cb y) (t_cb c)) as [E|N]; [rewrite FC in Y by auto; discriminate|].
        rewrite SO in Y by auto. rewrite Y. cbn. apply not_eq_sym, N.eqb_neq in N. rewrite N. auto.
      + cbn [is_cur negb andb]. apply FC. auto.
    - intros t SV I L. apply RI in I as [[I N]|(I & _ & R & ->)].
      + rewrite SO by auto. apply (v_live _ _ _ V); auto.
      + cbn [t_cb t_id] in *. rewrite E5. destruct box; [rewrite BT in R by auto; discriminate|]. cbn. apply (v_live _ _ _ V); auto.
    - intros t r d I C. right. rewrite E5. destruct (N.eq_dec r (t_cb c)) as [->|NE].
      + rewrite N.eqb_refl, andb_true_r. destruct box; auto. destruct ST as [ST|ST]; auto. exfalso. destruct x as [|k]; [|discriminate (BR k eq_refl)].
        destruct (v_app _ _ _ V _ _ ST) as (t1 & kd & d1 & I1 & B & _). destruct (set_unique _ _ _ _ _ _ _ _ (v_good _ _ _ V) I I1) as (_ & <- & _). discriminate.
      + apply N.eqb_neq in NE as NE'. rewrite NE', andb_false_r. destruct (v_gone _ _ _ V t r d I C) as [X|X]; auto. apply N.eqb_eq in X. congruence.
  Qed.

  Lemma filter_twice {A} (f g : A -> bool) l : (forall x, In x l -> f x = true -> g x = true) -> filter f (filter g l) = filter f l.
  Proof.
    induction l as [|x l IH]; intro H; auto. cbn. assert (K : filter f (filter g l) = filter f l) by (apply IH; intros; apply H; auto; right; auto).
    destruct (f x) eqn:F; [rewrite (H x) by (auto; left; auto); cbn; rewrite F, K; auto|]. destruct (g x); cbn; rewrite ?F; auto.
  Qed.
  Lemma drop_closes t w x box : Inv (Some t) None w -> w_store w (t_cb t) = Some (Entry x box) \/ w_store w (t_cb t) = None ->
    (forall k, x = Run k -> box = true) -> (box = true -> t_repeat t = false) ->
    let w' := if box then drop_timer (t_cb t) w else w in Inv None None (with_timers (rest t (w_now w') (w_timers w')) w').
  Proof.
    intros V ST BR BT. destruct box; cbv zeta.
    2: { apply (closes_inv t w false x); auto. }
    unfold TimerModel.drop_timer. destruct (w_handles w (t_cb t)) as [[id b]|] eqn:H.
    - assert (Q : with_timers (rest t (w_now w) (w_timers (timer_clear server id w))) (with_handle (t_cb t) None (with_store (t_cb t) None (timer_clear server id w))) =
        World (w_now w) (w_ids w) (rest t (w_now w) (w_timers w)) (w_next w) (setf (t_cb t) None (w_store w)) (setf (t_cb t) None (w_handles w)) (w_spawned w) (w_tasks w) (w_log w)).
      { unfold timer_clear. case_eq server; intro SV; [reflexivity|]. cbn. unfold with_timers. cbn. f_equal. rewrite !rest_once by auto. apply filter_twice.
        intros y I Y. apply negb_true_iff, N.eqb_neq in Y. apply negb_true_iff, N.eqb_neq. intro E. apply Y.
        destruct (v_handle _ _ _ V _ _ _ H) as [_ K]. destruct (K SV) as [_ K2]. f_equal. apply (proj2 (proj2 (v_cur _ _ _ V t eq_refl)) y I); auto. right. apply K2; auto. }
      match goal with |- Inv None None ?g => replace g with (World (w_now w) (w_ids w) (rest t (w_now w) (w_timers w)) (w_next w) (setf (t_cb t) None (w_store w)) (setf (t_cb t) None (w_handles w)) (w_spawned w) (w_tasks w) (w_log w)) end.
      2: { rewrite <- Q. unfold timer_clear. destruct server; reflexivity. }
      apply (closes_inv t w true x); auto.
    - assert (SN : w_store w (t_cb t) = None).
      { destruct (w_store w (t_cb t)) as [e|] eqn:E; auto. destruct (v_store _ _ _ V _ _ E) as (_ & (id & Y) & _). congruence. }
      apply (closes_inv t w true x); auto; intro r; cbn; destruct (N.eqb_spec r (t_cb t)) as [->|]; auto.
  Qed.

  Lemma fired_inv w t l : Inv None None w -> In t (w_timers w) -> (server = false -> l = w_timers w /\ t_due t <= w_now w) ->
    (server = true -> w_timers w = t :: l) ->
    let w' := call (t_cb t) (with_timers l w) in Inv None None (with_timers (rest t (w_now w') (w_timers w')) w').
  Proof.
    intros V IT LB LS. cbv zeta. destruct (v_timer _ _ _ V t IT) as [NX _].
    pose proof (fun o p => opens_inv w t l o p V IT LB LS) as OP.
    unfold TimerModel.call. cbn [w_store with_timers]. destruct (w_store w (t_cb t)) as [[[|k] b]|] eqn:E.
    - pose proof (acts_inv _ _ _ (OP _ _ (op_app _ _ b E))) as V2. apply (drop_closes t _ App b).
      + exact V2.
      + pose proof (acts_stays (note (OCall (t_cb t)) (with_timers l w)) (t_cb t) NX) as (_ & _ & Z). cbn [w_store note with_timers] in Z. rewrite E in Z. exact Z.
      + discriminate.
      + intros ->. destruct (v_app _ _ _ V _ _ E) as (t0 & kd & d & I & A & _). destruct (v_pending _ _ _ V t _ t0 kd d IT E I) as (_ & A2 & _).
        rewrite A2. destruct kd; auto; discriminate.
    - destruct (v_store _ _ _ V _ _ E) as (_ & _ & Y). destruct (Y k eq_refl) as [B _]. cbn in B. subst b. clear Y.
      assert (RP : t_repeat t = false).
      { destruct (v_run _ _ _ V _ _ _ E) as [A|(y & I & A & A2 & _)]; [discriminate|]. rewrite <- A2. f_equal. apply (sorted_unique (w_timers w)); auto. apply V. }
      unfold TimerModel.run. cbn [w_tasks with_timers]. destruct (w_tasks w k) eqn:T.
      + pose proof (acts_inv _ _ _ (OP _ _ (op_poll _ _ k true E T))) as V2. fold (with_timers l w) in V2.
        pose proof (acts_stays (note (OPoll k) (with_timers l w)) (t_cb t) NX) as (N1 & _ & Z). cbn [w_store note with_timers w_next] in Z, N1. rewrite E in Z.
        change (World (w_now w) (w_ids w) l (w_next w) (w_store w) (w_handles w) (w_spawned w) (w_tasks w) ([(w_now w, OPoll k)] ++ w_log w))
          with (note (OPoll k) (with_timers l w)) in V2.
        set (m := acts (note (OPoll k) (with_timers l w))) in *. destruct (ready (w_log m)).
        * apply (drop_closes t _ (Run k) true); auto.
          -- apply acts_inv. exact (polled_inv _ k true _ V2).
          -- destruct (acts_stays (with_task k false (note (OPolled k true) m)) (t_cb t)) as (_ & _ & Z2); [change (t_cb t < w_next m); lia|].
             cbn [w_store with_task note] in Z2. destruct Z2 as [-> | ->]; auto.
        * apply (drop_closes t _ (Run k) true); auto. exact (polled_inv _ k false _ V2).
      + apply (drop_closes t _ (Run k) true); auto. exact (OP _ _ (op_dead _ _ k true E T)).
    - apply (drop_closes t _ App false); auto; try discriminate. exact (OP _ _ (op_none _ _ E)).
  Qed.

  Lemma rest_server c now l : server = true -> rest c now l = l.
  Proof. unfold rest. intros ->. auto. Qed.
  Lemma with_timers_same w : with_timers (w_timers w) w = w.
  Proof. destruct w. reflexivity. Qed.
  Lemma step_inv w w' : Inv None None w -> step w w' -> Inv None None w'.
  Proof.
    intros V S. destruct S as [n w|n m w|t w SV I D|t l w SV E|a w].
    - destruct V. constructor; cbn; auto; try discriminate.
      + eapply timed_weaken; eauto. lia.
      + intros r k b X. destruct (v_run0 r k b X) as [Y|(t & A & A2 & A3 & A4)]; auto. right. exists t. repeat (split; auto). lia.
    - destruct V. constructor; cbn; auto; try discriminate.
      + intros t I. destruct (v_timer0 t I) as [A B]. split; [lia|]. intro SV. specialize (B SV). lia.
      + intros r e X. destruct (v_store0 r e X) as (A & B). split; [lia|auto].
      + intros r id b X. destruct (v_handle0 r id b X) as [A B]. split; auto. intro SV. destruct (B SV) as [C D]. split; [lia|auto].
      + intros t r kd d I. apply v_set0 in I. lia.
      + lia.
    - pose proof (fired_inv w t (w_timers w) V I) as F. rewrite with_timers_same in F. unfold TimerModel.fire.
      cbv zeta in F. unfold rest in F. case_eq server; intro SV'; [congruence|]. rewrite SV' in F. apply F; auto. congruence.
    - assert (F : Inv None None (let w' := call (t_cb t) (with_timers l w) in with_timers (rest t (w_now w') (w_timers w')) w')).
      { apply fired_inv; auto; [rewrite E; left; auto|congruence]. }
      cbv zeta in F. rewrite rest_server, with_timers_same in F by auto. auto.
    - apply act_inv. auto.
  Qed.
  Lemma start_inv : Inv None None start.
  Proof.
    constructor; cbn; try discriminate; try tauto; try (intros; discriminate); try (intros; tauto); auto; try lia.
    - constructor.
    - intros _. constructor.
    - intro k. split; [discriminate|]. intros [(t & []) _].
    - intro k. split; [lia|]. intros (t & []).
  Qed.
  Lemma reachable_inv w : reachable w -> Inv None None w.
  Proof. induction 1 as [|w w' R IH S]; [apply start_inv|eapply step_inv; eauto]. Qed.
End Platform.

(** ** C77: timers *)

Lemma timed_last now r : forall l t o, timed now l -> In (t, o) l -> (exists kd d, o = OSet r kd d) \/ o = OCall r -> t <= last r l.
Proof.
  induction l as [|[u p] l IH] in now |- *; intros t o T I O; [destruct I|]. destruct T as [_ T].
  assert (LE : forall l' u', timed u' l' -> In (t, o) l' -> t <= u').
  { clear. induction l' as [|[v q] l' IH]; intros u' T I; [destruct I|]. destruct T as [T1 T2], I as [I|I]; [congruence|]. apply IH in T2; auto. lia. }
  destruct I as [I|I].
  - injection I as -> ->. destruct O as [(kd & d & ->)| ->]; cbn; rewrite N.eqb_refl; lia.
  - pose proof (IH u t o T I O) as A. pose proof (LE l u T I) as B. destruct p; cbn; auto; destruct (r0 =? r); auto.
Qed.
Lemma timed_app now a l : timed now (a ++ l) -> exists n, timed n l.
Proof. revert now. induction a as [|[t o] a IH]; cbn; intros now T; [eauto|]. destruct T as [_ T]. eauto. Qed.

(** A function is called no earlier than its duration after it was set, and after it was called before (durations of less than 2^31
    milliseconds). *)
Theorem C77_not_early react ready w a t r b : reachable false react ready w -> w_log w = a ++ (t, OCall r) :: b ->
  exists t0 kd d, In (t0, OSet r kd d) b /\ (d < 2147483648 -> t0 + d <= t /\ forall t', In (t', OCall r) b -> t' + d <= t).
Proof.
  intros R E. pose proof (reachable_inv _ _ _ _ R) as V. pose proof (v_good _ _ _ _ V) as G. pose proof (v_times _ _ _ _ V) as T. rewrite E in G, T.
  pose proof (good_split _ _ _ _ G) as O. cbn in O. destruct O as (t0 & kd & d & I & _ & _ & _ & L & _). exists t0, kd, d. split; auto. intro D.
  specialize (L eq_refl). unfold js_ms in L. apply N.ltb_lt in D. rewrite D in L. apply timed_app in T as (n & T). destruct T as [_ T]. split.
  - pose proof (timed_last _ r b t0 _ T I (or_introl (ex_intro _ kd (ex_intro _ d eq_refl)))). lia.
  - intros t' J. pose proof (timed_last _ r b t' _ T J (or_intror eq_refl)). lia.
Qed.

(** The function of a timeout is called at most once. *)
Theorem C77_once server react ready w a t r b t0 kd d : reachable server react ready w -> w_log w = a ++ (t, OCall r) :: b ->
  In (t0, OSet r kd d) (w_log w) -> kd <> Interval -> ~ called r a /\ ~ called r b.
Proof.
  intros R E I K. pose proof (v_good _ _ _ _ (reachable_inv _ _ _ _ R)) as G. rewrite E in *. split.
  - intros (u & C). apply in_split in C as (a1 & a2 & ->). rewrite <- app_assoc in G. cbn in G. pose proof (good_split _ _ _ _ G) as O. cbn in O.
    destruct O as (t1 & kd1 & d1 & I1 & _ & N & _).
    assert (kd1 = kd).
    { assert (J : In (t1, OSet r kd1 d1) ((a1 ++ (u, OCall r) :: a2) ++ (t, OCall r) :: b)).
      { rewrite <- app_assoc. apply in_app_iff. right. right. auto. }
      rewrite <- app_assoc in I, J. apply (set_unique server _ _ _ _ _ _ _ _ G J I). }
    subst kd1. apply N; auto. exists t. apply in_app_iff. right. left. auto.
  - pose proof (good_split _ _ _ _ G) as O. cbn in O. destruct O as (t1 & kd1 & d1 & I1 & _ & N & _).
    assert (kd1 = kd).
    { assert (J : In (t1, OSet r kd1 d1) (a ++ (t, OCall r) :: b)) by (apply in_app_iff; right; right; auto).
      apply (set_unique server _ _ _ _ _ _ _ _ G J I). }
    subst kd1. auto.
Qed.

(** Nothing is called after it was dropped. *)
Theorem C77_dropped server react ready w a t r b : reachable server react ready w -> w_log w = a ++ (t, ODrop r) :: b -> ~ called r a.
Proof.
  intros R E (u & C). pose proof (v_good _ _ _ _ (reachable_inv _ _ _ _ R)) as G. rewrite E in G. apply in_split in C as (a1 & a2 & ->).
  rewrite <- app_assoc in G. cbn in G. pose proof (good_split _ _ _ _ G) as O. cbn in O. destruct O as (t1 & kd1 & d1 & _ & N & _).
  apply N. exists t. apply in_app_iff. right. left. auto.
Qed.

(** The application can drop what it was given: it is on the log, and C77_dropped follows. *)
Theorem C77_drops server react ready w t0 r kd d : reachable server react ready w -> In (t0, OSet r kd d) (w_log w) -> kd <> Detached ->
  ~ dropped r (w_log w) -> dropped r (w_log (act server (ADrop r) w)).
Proof.
  intros R I K D. pose proof (reachable_inv _ _ _ _ R) as V.
  assert (ST : w_store w r = Some (Entry App (boxed kd))) by (eapply (v_kept _ _ _ _ V); eauto; congruence).
  destruct (v_store _ _ _ _ V r _ ST) as (_ & (id & H) & _). cbn in H. assert (B : boxed kd = false) by (destruct kd; auto; congruence). rewrite B in *.
  cbn [act]. rewrite ST, H. exists (w_now w). unfold drop_timer. cbn [w_handles note]. rewrite H. unfold timer_clear. destruct server; left; reflexivity.
Qed.

(** When nothing is due any more, every timeout whose time has come was called, and every interval was called (or set) less than
    its duration ago. *)
Theorem C77_on_time react ready w t0 r kd d : reachable false react ready w -> quiet false w -> In (t0, OSet r kd d) (w_log w) -> d < 2147483648 ->
  ~ dropped r (w_log w) ->
  (kd <> Interval -> t0 + d <= w_now w -> called r (w_log w)) /\
  (kd = Interval -> exists t o, In (t, o) (w_log w) /\ (o = OSet r kd d \/ o = OCall r) /\ w_now w < t + d).
Proof.
  intros R Q I D ND. pose proof (reachable_inv _ _ _ _ R) as V. pose proof (v_times _ _ _ _ V) as T.
  assert (LAST : forall l, good false l -> In (t0, OSet r kd d) l -> exists o, In (last r l, o) l /\ (o = OSet r kd d \/ o = OCall r)).
  { clear -r. induction l as [|[u o] l IH]; intros G I; [destruct I|]. destruct G as [O G]. destruct o; cbn -[In].
    all: try (destruct I as [I|I]; [discriminate|]; destruct (IH G I) as (o & A & B); exists o; split; [right; exact A|exact B]).
    - destruct (N.eqb_spec r0 r) as [->|NE].
      + destruct I as [I|I]; [injection I as -> -> ->; eexists; split; [left; reflexivity|auto]|]. apply O in I. lia.
      + destruct I as [I|I]; [congruence|]. destruct (IH G I) as (o & A & B); exists o; split; [right; auto|auto].
    - destruct I as [I|I]; [discriminate|]. destruct (N.eqb_spec r0 r) as [->|NE]; [eexists; split; [left; reflexivity|auto]|].
      destruct (IH G I) as (o & A & B); exists o; split; [right; auto|auto]. }
  assert (P : kd = Interval \/ ~ called r (w_log w) -> w_now w < last r (w_log w) + d).
  { intro K. assert (ST : w_store w r = Some (Entry App (boxed kd))).
    { eapply (v_kept _ _ _ _ V); eauto. intros -> C. destruct K; [discriminate|tauto]. }
    destruct (v_armed _ _ _ _ V r _ t0 kd d ST I) as (x & J & <-); [left; auto|auto|].
    destruct (v_pending _ _ _ _ V x _ t0 kd d J ST I) as (_ & _ & M & L). destruct (L eq_refl) as [L1 _]. specialize (L1 eq_refl). specialize (M eq_refl).
    unfold js_ms in M. apply N.ltb_lt in D. rewrite D in M. destruct (Q x J) as [_ Q1]. lia. }
  split.
  - intros K L. destruct (called_dec r (w_log w)) as [C|C]; auto. exfalso. specialize (P (or_intror C)).
    destruct (LAST _ (v_good _ _ _ _ V) I) as (o & A & [-> | ->]); [|apply C; exists (last r (w_log w)); auto].
    destruct (set_unique _ _ _ _ _ _ _ _ _ (v_good _ _ _ _ V) A I) as [E _]. lia.
  - intros ->. specialize (P (or_introl eq_refl)). destruct (LAST _ (v_good _ _ _ _ V) I) as (o & A & B). eauto 6.
Qed.

(** What was dropped, and what was detached and called, is gone: from the callbacks always, from the timers of the browser as long as
    it gave fewer than 2^31 ids. *)
Theorem C77_released server react ready w t0 r kd d : reachable server react ready w -> In (t0, OSet r kd d) (w_log w) ->
  dropped r (w_log w) \/ kd = Detached /\ called r (w_log w) ->
  w_store w r = None /\ w_handles w r = None /\
  (server = false -> w_ids w <= 2147483648 -> forall x, In x (w_timers w) -> t_cb x <> r).
Proof.
  intros R I H. pose proof (reachable_inv _ _ _ _ R) as V.
  assert (ST : w_store w r = None).
  { destruct (w_store w r) as [[[|k] b]|] eqn:E; auto.
    - exfalso. destruct (v_app _ _ _ _ V r b E) as (t1 & kd1 & d1 & I1 & B & D). destruct H as [H|[-> H]]; auto.
      destruct (set_unique _ _ _ _ _ _ _ _ _ (v_good _ _ _ _ V) I I1) as (_ & <- & _). destruct (v_gone _ _ _ _ V _ _ _ I H); [discriminate|congruence].
    - exfalso. destruct (v_store _ _ _ _ V r _ E) as (_ & _ & X). destruct (X k eq_refl) as [_ Y]. eapply Y; eauto. }
  split; auto. split.
  - destruct (w_handles w r) as [[id b]|] eqn:E; auto. destruct (v_handle _ _ _ _ V r id b E) as [X _]. congruence.
  - intros SV L x J E. destruct (v_timer _ _ _ _ V x J) as [_ X]. specialize (X SV). subst r. apply (v_live _ _ _ _ V x) in J; auto. lia.
Qed.

(** ** C78: spawned futures *)

(** When nothing is due any more, every future that was spawned or woken was polled after that, or is done. *)
Theorem C78_polled server react ready w a t o k b : reachable server react ready w -> quiet server w -> w_log w = a ++ (t, o) :: b ->
  o = OSpawn k \/ o = OWake k -> (exists t', In (t', OPoll k) a) \/ done k (w_log w).
Proof.
  intros R Q E O. pose proof (reachable_inv _ _ _ _ R) as V.
  assert (A : waiting k (w_log w) = true \/ exists t', In (t', OPoll k) a).
  { rewrite E. clear -O. induction a as [|[u p] a IH].
    - left. destruct O as [-> | ->]; cbn; rewrite N.eqb_refl; auto.
    - destruct IH as [IH|(t' & IH)]; [|right; exists t'; right; auto]. destruct p; cbn; auto.
      + destruct (k0 =? k); auto.
      + destruct (k0 =? k); auto.
      + destruct (N.eqb_spec k0 k) as [->|]; auto. right. exists u. left. auto. }
  destruct A as [A|A]; auto. right.
  assert (SP : exists u, In (u, OSpawn k) (w_log w)).
  { destruct O as [-> | ->]; [exists t; rewrite E; apply in_app_iff; right; left; auto|].
    pose proof (v_good _ _ _ _ V) as G. rewrite E in G. destruct (good_split _ _ _ _ G) as (u & I). exists u. rewrite E. apply in_app_iff. right. right. auto. }
  destruct (w_tasks w k) eqn:T.
  - exfalso. destruct (v_wait _ _ _ _ V k A T) as (r & b' & x & _ & X & I & Y).
    destruct (v_run _ _ _ _ V r k b' X) as [Z|(y & J & Z & _ & L)]; [discriminate|]. destruct (Q y J). lia.
  - destruct (done_dec k (w_log w)) as [D|D]; auto. exfalso. assert (w_tasks w k = true) by (apply (v_task _ _ _ _ V); auto). congruence.
Qed.

(** A future that is done is not polled again. *)
Theorem C78_not_after_done server react ready w a t k b : reachable server react ready w -> w_log w = a ++ (t, OPoll k) :: b -> ~ done k b.
Proof.
  intros R E. pose proof (v_good _ _ _ _ (reachable_inv _ _ _ _ R)) as G. rewrite E in G. apply (good_split _ _ _ _ G).
Qed.

(** One at a time: a poll ends before the next begins, of whichever futures. *)
Theorem C78_one_at_a_time server react ready w a t k m t' k' b : reachable server react ready w ->
  w_log w = a ++ (t, OPoll k) :: m ++ (t', OPoll k') :: b -> exists u x, In (u, OPolled k' x) m.
Proof.
  intros R E. pose proof (v_good _ _ _ _ (reachable_inv _ _ _ _ R)) as G. rewrite E in G.
  pose proof (good_split _ _ _ _ G) as (P & _). cbn in P. apply good_app in G. destruct G as [_ G]. clear -P G.
  assert (Q : polling (m ++ (t', OPoll k') :: b) = Some k' \/ exists u x, In (u, OPolled k' x) m); [|destruct Q as [Q|Q]; [congruence|auto]]. clear P.
  induction m as [|[u o] m IH]; [left; auto|]. destruct G as [O G]. destruct (IH G) as [A|(v & x & A)]; [|right; exists v, x; right; auto].
  destruct o; auto; cbn in O.
  - exfalso. destruct O as (O & _). cbn in *. congruence.
  - right. exists u, ready. left. cbn in *. congruence.
Qed.

(** No future is polled more often than it was spawned and woken. *)
Theorem C78_no_spurious_polls server react ready w k : reachable server react ready w -> polls k (w_log w) <= wakes k (w_log w).
Proof. intro R. pose proof (v_count _ _ _ _ (reachable_inv _ _ _ _ R) k). lia. Qed.

(** Nothing is called and nothing is polled within the call that sets a timer, spawns a future or wakes one. *)
Theorem C78_later server a w : exists l, w_log (act server a w) = l ++ w_log w /\ forall t o, In (t, o) l -> (forall r, o <> OCall r) /\ forall k, o <> OPoll k.
Proof.
  assert (ONE : forall o w w', w_log w' = (w_now w, o) :: w_log w -> (forall r, o <> OCall r) -> (forall k, o <> OPoll k) ->
    exists l, w_log w' = l ++ w_log w /\ forall t o, In (t, o) l -> (forall r, o <> OCall r) /\ forall k, o <> OPoll k).
  { intros o v v' E A B. exists [(w_now v, o)]. split; auto. intros t p [I|[]]. injection I as _ <-. auto. }
  destruct a; cbn [act].
  - rewrite set_timer_is. eapply ONE; [reflexivity|discriminate|discriminate].
  - destruct (w_store w r) as [[[|] b]|]; try (exists []; split; [reflexivity|intros ? ? []]).
    destruct (w_handles w r) as [[id [|]]|] eqn:H; try (exists []; split; [reflexivity|intros ? ? []]).
    eapply (ONE (ODrop r)); [|discriminate|discriminate]. unfold drop_timer. cbn [w_handles note]. rewrite H. unfold timer_clear. destruct server; reflexivity.
  - unfold wake. rewrite set_timer_is. eapply ONE; [reflexivity|discriminate|discriminate].
  - destruct (k <? w_spawned w); [|exists []; split; [reflexivity|intros ? ? []]]. unfold wake. rewrite set_timer_is. eapply ONE; [reflexivity|discriminate|discriminate].
Qed.

(** ** C79: timers while the server renders *)

(** Only timeouts of zero are called. *)
Theorem C79_only_zero react ready w t r : reachable true react ready w -> In (t, OCall r) (w_log w) ->
  exists t0 kd, In (t0, OSet r kd 0) (w_log w) /\ kd <> Interval.
Proof.
  intros R I. pose proof (v_good _ _ _ _ (reachable_inv _ _ _ _ R)) as G. apply in_split in I as (a & b & E). rewrite E in G |- *.
  destruct (good_split _ _ _ _ G) as (t0 & kd & d & I & _ & _ & A & _). destruct A as [A|[A ->]]; [discriminate|].
  exists t0, kd. split; auto. apply in_app_iff. right. right. auto.
Qed.

(** They are called in the order in which they were set. *)
Theorem C79_in_order react ready w a t r b1 t0 kd d b2 t' r' kd' : reachable true react ready w ->
  w_log w = a ++ (t, OCall r) :: b1 ++ (t0, OSet r kd d) :: b2 -> In (t', OSet r' kd' 0) b2 -> kd' <> Interval ->
  let before := b1 ++ (t0, OSet r kd d) :: b2 in dropped r' before \/ called r' before.
Proof.
  intros R E I K. cbv zeta. pose proof (v_good _ _ _ _ (reachable_inv _ _ _ _ R)) as G. rewrite E in G.
  destruct (good_split _ _ _ _ G) as (_ & _ & _ & _ & _ & _ & _ & _ & F). apply (F eq_refl r' t' kd'); auto.
  - apply good_app in G. destruct G as [_ G]. cbn in G. apply (good_split _ _ _ _ G _ _ _ _ I).
  - apply in_app_iff. right. right. auto.
Qed.

(** When no message waits, every timeout of zero that was not dropped was called. *)
Theorem C79_all_zero react ready w t0 r kd : reachable true react ready w -> quiet true w -> In (t0, OSet r kd 0) (w_log w) -> kd <> Interval ->
  ~ dropped r (w_log w) -> called r (w_log w).
Proof.
  intros R Q I K D. pose proof (reachable_inv _ _ _ _ R) as V. destruct (called_dec r (w_log w)) as [C|C]; auto. exfalso.
  assert (ST : w_store w r = Some (Entry App (boxed kd))) by (eapply (v_kept _ _ _ _ V); eauto; tauto).
  destruct (v_armed _ _ _ _ V r _ t0 kd 0 ST I) as (x & J & _); [right; auto|auto|]. destruct (Q x J). discriminate.
Qed.

(** ** Runs: a page with timers and a future *)
Module TimerDemo.
  (** When the function of timer 1 is called, a future is spawned; when it is polled first, it is woken, and sleeps a while; it is done
      at the third poll, after timer 5 has called its waker. *)
  Definition react (l : list (N * obs)) : list action :=
    match l with
    | (_, OCall 1) :: _ => [ASpawn]
    | (_, OPoll 0) :: l => if polls 0 l =? 0 then [AWake 0; ASet Detached 0] else []
    | (_, OCall 5) :: _ => [AWake 0]
    | _ => []
    end.
  Definition ready (l : list (N * obs)) : bool := polls 0 l =? 3.
  Inductive move := Time (n : N) | Others (n m : N) | Fire (id : N) | Message | Do (a : action).
  Definition moved (server : bool) (m : move) (w : world) : world :=
    match m with
    | Time n => World (w_now w + n) (w_ids w) (w_timers w) (w_next w) (w_store w) (w_handles w) (w_spawned w) (w_tasks w) (w_log w)
    | Others n m => World (w_now w) (w_ids w + n) (w_timers w) (w_next w + m) (w_store w) (w_handles w) (w_spawned w) (w_tasks w) (w_log w)
    | Fire id => if server then w else
                 match find (fun t => (t_id t =? id) && (t_due t <=? w_now w)) (w_timers w) with
                 | Some t => fire server react ready t w
                 | None => w
                 end
    | Message => if server then match w_timers w with t :: l => call server react ready (t_cb t) (with_timers l w) | [] => w end else w
    | Do a => act server a w
    end.
  Definition play (server : bool) (l : list move) : world := fold_left (fun w m => moved server m w) l start.
  Lemma moved_reachable server m w : reachable server react ready w -> reachable server react ready (moved server m w).
  Proof.
    intro R. destruct m; cbn.
    - eapply r_step; [exact R|]. apply st_time.
    - eapply r_step; [exact R|]. apply st_others.
    - destruct server; auto. destruct (find _ (w_timers w)) as [t|] eqn:E; auto. apply find_some in E as [I E].
      apply andb_true_iff in E as [_ E]. apply N.leb_le in E. eapply r_step; [exact R|]. apply st_fire; auto.
    - destruct server; auto. destruct (w_timers w) as [|t l] eqn:E; auto. eapply r_step; [exact R|]. apply st_message; auto.
    - eapply r_step; [exact R|]. apply st_act.
  Qed.
  Lemma play_reachable server l : reachable server react ready (play server l).
  Proof.
    unfold play. assert (forall w, reachable server react ready w -> reachable server react ready (fold_left (fun w m => moved server m w) l w)).
    { induction l as [|m l IH]; intros w R; cbn; auto. apply IH, moved_reachable, R. }
    apply H. constructor.
  Qed.

  (** In the browser: a timeout of 5, an interval of 3 that is dropped later. *)
  Definition page : world := play false [Do (ASet Timeout 5); Do (ASet Interval 3); Time 3; Fire 2; Time 4; Fire 2; Fire 1; Fire 3; Fire 4; Fire 5; Fire 6; Do (ADrop 2); Time 9].
  Definition server_page : world := play true [Do (ASet Timeout 0); Do (ASet Timeout 5); Message; Message; Message; Message; Message; Message; Time 9].
End TimerDemo.
Import TimerDemo.

Example C77_example_log : w_log page =
  [(7, ODrop 2); (7, OPolled 0 true); (7, OPoll 0); (7, OWake 0); (7, OCall 5); (7, OPolled 0 false); (7, OPoll 0);
   (7, OPolled 0 false); (7, OSet 5 Detached 0); (7, OWake 0); (7, OPoll 0); (7, OSpawn 0); (7, OCall 1); (7, OCall 2); (3, OCall 2);
   (0, OSet 2 Interval 3); (0, OSet 1 Timeout 5)].
Proof. vm_compute. reflexivity. Qed.
Example C77_example_quiet : reachable false react ready page /\ quiet false page /\ w_now page = 16.
Proof.
  split; [apply play_reachable|]. split; [|vm_compute; reflexivity]. assert (E : w_timers page = []) by (vm_compute; reflexivity).
  intros t I. rewrite E in I. destruct I.
Qed.
Example C77_example_interval : let w := play false [Do (ASet Timeout 9); Do (ASet Interval 3); Time 3; Fire 2; Time 2] in
  reachable false react ready w /\ quiet false w /\ w_now w = 5 /\ w_log w = [(3, OCall 2); (0, OSet 2 Interval 3); (0, OSet 1 Timeout 9)].
Proof.
  cbv zeta. split; [apply play_reachable|].
  assert (T : w_timers (play false [Do (ASet Timeout 9); Do (ASet Interval 3); Time 3; Fire 2; Time 2]) = [Timer 1 false 1 9 9; Timer 2 true 2 3 6]) by (vm_compute; reflexivity).
  assert (W : w_now (play false [Do (ASet Timeout 9); Do (ASet Interval 3); Time 3; Fire 2; Time 2]) = 5) by (vm_compute; reflexivity).
  split; [|split; [exact W|vm_compute; reflexivity]].
  intros t I. rewrite T in I. rewrite W. destruct I as [<-|[<-|[]]]; split; reflexivity.
Qed.
Example C78_example : polls 0 (w_log page) = 3 /\ wakes 0 (w_log page) = 3 /\ done 0 (w_log page).
Proof. split; [vm_compute; reflexivity|]. split; [vm_compute; reflexivity|]. exists 7. rewrite C77_example_log. cbn. auto. Qed.
Example C79_example : reachable true react ready server_page /\ quiet true server_page /\ w_log server_page =
  [(0, OPolled 0 true); (0, OPoll 0); (0, OWake 0); (0, OCall 5); (0, OPolled 0 false); (0, OPoll 0); (0, OPolled 0 false);
   (0, OSet 5 Detached 0); (0, OWake 0); (0, OPoll 0); (0, OSpawn 0); (0, OCall 1); (0, OSet 2 Timeout 5); (0, OSet 1 Timeout 0)].
Proof.
  split; [apply play_reachable|]. split; [|vm_compute; reflexivity]. assert (E : w_timers server_page = []) by (vm_compute; reflexivity).
  intros t I. rewrite E in I. destruct I.
Qed.

(** driver.rs:147 says "every `time` seconds"; it is every [time] milliseconds. *)
Theorem C77_seconds_refuted : exists react ready w t0 r d t, reachable false react ready w /\ In (t0, OSet r Interval d) (w_log w) /\
  In (t, OCall r) (w_log w) /\ t < t0 + 1000 * d.
Proof.
  exists react, ready, page, 0, 2, 3, 3. split; [apply play_reachable|]. rewrite C77_example_log. cbn. split; [auto 20|]. split; [auto 20|lia].
Qed.
(** A duration of 2^31 milliseconds or more, which is a u32, is no duration: the function is called at once. *)
Theorem C77_long_refuted : exists react ready w t0 r d t, reachable false react ready w /\ In (t0, OSet r Timeout d) (w_log w) /\ d < 2 ^ 32 /\
  In (t, OCall r) (w_log w) /\ t < t0 + d.
Proof.
  exists react, ready, (play false [Do (ASet Interval 9); Do (ASet Timeout 2147483648); Fire 2]), 0, 2, 2147483648, 0. split; [apply play_reachable|].
  assert (E : w_log (play false [Do (ASet Interval 9); Do (ASet Timeout 2147483648); Fire 2]) = [(0, OCall 2); (0, OSet 2 Timeout 2147483648); (0, OSet 1 Interval 9)]) by (vm_compute; reflexivity).
  rewrite E. cbn. split; [auto|]. split; [reflexivity|]. split; [auto|reflexivity].
Qed.
(** While the server renders, a timeout is not called although its time has come and no message waits: [driver.sleep] (driver.rs:183)
    with a duration that is not 0 does not end. *)
Theorem C79_sleep_refuted : exists react ready w t0 r d, reachable true react ready w /\ quiet true w /\ In (t0, OSet r Timeout d) (w_log w) /\
  ~ dropped r (w_log w) /\ d < 2147483648 /\ t0 + d <= w_now w /\ ~ called r (w_log w).
Proof.
  exists react, ready, server_page, 0, 2, 5. destruct C79_example as (R & Q & E). split; auto. split; auto. rewrite E.
  assert (N : w_now server_page = 9) by (vm_compute; reflexivity). rewrite N. split; [cbn; auto 20|].
  split; [intros (t & I); cbn in I; intuition discriminate|]. split; [reflexivity|]. split; [discriminate|].
  intros (t & I). cbn in I. intuition discriminate.
Qed.

Print Assumptions C77_not_early.
Print Assumptions C77_released.
Print Assumptions C78_polled.
Print Assumptions C79_in_order.
