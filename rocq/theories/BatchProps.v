(** C110: what a transaction does to the document reaches the page whole and at once. *)
From Coq Require Import List NArith Bool Lia.
From Verif Require Import BatchModel.
Import ListNotations.
Local Open Scope N_scope.

(** ** Specification *)

(** The commands that were issued and not sent yet. *)
Definition unsent (t : list ev) : list N := fold_left (fun p e => match e with Issue c => p ++ [c] | Send _ => [] | _ => p end) t [].
(** No batch holds a part of a transaction: if something is sent before a transaction is over, it was issued before the transaction. *)
Definition never_half (t : list ev) : Prop :=
  forall t1 t2 l t3, t = t1 ++ Enter :: t2 ++ Send l :: t3 -> ~ In Leave t2 -> forall c, ~ In (Issue c) t2.
(** A batch holds all there is, and is not empty. *)
Definition complete (t : list ev) : Prop := forall t1 l t2, t = t1 ++ Send l :: t2 -> l = unsent t1 /\ l <> [].
(** When a transaction is over, the very next event is that its commands are sent. *)
Definition at_once (t : list ev) : Prop := forall t1 t2, t = t1 ++ Leave :: t2 -> unsent t1 <> [] -> exists t3, t2 = Send (unsent t1) :: t3.
(** How often something happened. *)
Definition times (p : ev -> bool) (t : list ev) : nat := length (filter p t).
Definition is_leave (e : ev) : bool := match e with Leave => true | _ => false end.
Definition is_hook (k : nat) (e : ev) : bool := match e with Hook j => Nat.eqb j k | _ => false end.
(** What an application can do: the host does not call it while it runs. *)
Fixpoint own (a : act) : Prop :=
  match a with
  | Cmd _ | Fetch => True
  | Tx body => fold_right (fun a P => own a /\ P) True body
  | Answered _ | Start => False
  end.
(** What can happen when nothing runs. *)
Definition event (a : act) : Prop := match a with Answered _ | Start => True | _ => own a end.

(** ** Proofs *)

Lemma own_all b : fold_right (fun a P => own a /\ P) True b <-> Forall own b.
Proof. induction b as [|a b IH]; cbn [fold_right]; split; intros H; auto; [destruct H; constructor; tauto|inversion H; tauto]. Qed.
Lemma own_event l : Forall own l -> Forall event l.
Proof. apply Forall_impl. intros [c| |b|g|] H; cbn in *; tauto. Qed.
Lemma unsent_snoc t e : unsent (t ++ [e]) = match e with Issue c => unsent t ++ [c] | Send _ => [] | _ => unsent t end.
Proof. unfold unsent. rewrite fold_left_app. destruct e; reflexivity. Qed.
Lemma unsent_issues t l : unsent (t ++ map Issue l) = unsent t ++ l.
Proof.
  revert t. induction l as [|c l IH]; intros t; cbn [map]; [rewrite !app_nil_r; reflexivity|].
  change (Issue c :: map Issue l) with ([Issue c] ++ map Issue l). rewrite app_assoc, IH, unsent_snoc, <- app_assoc. reflexivity.
Qed.
Lemma snoc_split {A} (t : list A) e t1 x t2 : t ++ [e] = t1 ++ x :: t2 -> (t2 = [] /\ e = x /\ t = t1) \/ exists t3, t2 = t3 ++ [e] /\ t = t1 ++ x :: t3.
Proof.
  destruct t2 as [|y t2 _] using rev_ind; intros H.
  - left. apply app_inj_tail in H as [-> ->]. auto.
  - right. rewrite app_comm_cons, app_assoc in H. apply app_inj_tail in H as [-> ->]. exists t2. auto.
Qed.

(** A transaction runs. *)
Definition inside (t : list ev) : Prop := exists t1 t2, t = t1 ++ Enter :: t2 /\ ~ In Leave t2.
Lemma outside_start : ~ inside [].
Proof. intros (t1 & t2 & H & _). destruct t1; discriminate. Qed.
Lemma outside_snoc t e : ~ inside t -> e <> Enter -> ~ inside (t ++ [e]).
Proof.
  intros H E (t1 & t2 & S & L). apply snoc_split in S as [(-> & -> & ->)|(t3 & -> & ->)]; [congruence|]. apply H. exists t1, t3. split; auto.
  intros C. apply L. apply in_or_app. auto.
Qed.
Lemma outside_leave t : ~ inside (t ++ [Leave]).
Proof. intros (t1 & t2 & S & L). apply snoc_split in S as [(-> & C & _)|(t3 & -> & ->)]; [discriminate|]. apply L, in_or_app. right. left. reflexivity. Qed.

Lemma half_snoc t e : never_half t -> (forall l, e <> Send l) -> never_half (t ++ [e]).
Proof.
  intros H E t1 t2 l t3 S L. rewrite app_comm_cons, app_assoc in S. apply snoc_split in S as [(_ & C & _)|(t4 & -> & ->)]; [exfalso; exact (E _ C)|].
  rewrite <- app_assoc in H. exact (H t1 t2 l t4 eq_refl L).
Qed.
Lemma half_send t l : never_half t -> ~ inside t -> never_half (t ++ [Send l]).
Proof.
  intros H O t1 t2 l1 t3 S L. rewrite app_comm_cons, app_assoc in S. apply snoc_split in S as [(_ & _ & S)|(t4 & -> & ->)].
  - exfalso. apply O. exists t1, t2. auto.
  - rewrite <- app_assoc in H. exact (H t1 t2 l1 t4 eq_refl L).
Qed.
Lemma half_enter_send t l : never_half t -> ~ inside t -> never_half ((t ++ [Enter]) ++ [Send l]).
Proof.
  intros H O t1 t2 l1 t3 S L c I. rewrite app_comm_cons, app_assoc in S. apply snoc_split in S as [(_ & _ & S)|(t4 & -> & S)].
  - apply snoc_split in S as [(-> & _ & _)|(t5 & -> & ->)]; [destruct I|]. apply O. exists t1, t5. split; auto. intros C. apply L, in_or_app. auto.
  - rewrite <- app_assoc in S. cbn [app] in S. apply (half_snoc t Enter H) with (3 := L) (c := c) (2 := S); [discriminate|exact I].
Qed.
Lemma complete_snoc t e : complete t -> (forall l, e = Send l -> l = unsent t /\ l <> []) -> complete (t ++ [e]).
Proof. intros H E t1 l t2 S. apply snoc_split in S as [(-> & -> & <-)|(t3 & -> & ->)]; [apply E; reflexivity|]. apply (H t1 l t3 eq_refl). Qed.
Lemma once_snoc t e : at_once t -> e <> Leave -> at_once (t ++ [e]).
Proof.
  intros H E t1 t2 S U. apply snoc_split in S as [(_ & C & _)|(t3 & -> & ->)]; [congruence|]. destruct (H t1 t3 eq_refl U) as (t4 & ->). exists (t4 ++ [e]). reflexivity.
Qed.
Lemma once_leave t : at_once t -> unsent t = [] -> at_once (t ++ [Leave]).
Proof.
  intros H E t1 t2 S U. apply snoc_split in S as [(_ & _ & ->)|(t3 & -> & ->)]; [congruence|]. destruct (H t1 t3 eq_refl U) as (t4 & ->). exists (t4 ++ [Leave]). reflexivity.
Qed.
Lemma once_leave_send t : at_once t -> at_once ((t ++ [Leave]) ++ [Send (unsent t)]).
Proof.
  intros H t1 t2 S U. apply snoc_split in S as [(_ & C & _)|(t3 & -> & S)]; [discriminate|]. apply snoc_split in S as [(-> & _ & ->)|(t4 & -> & ->)].
  - exists []. reflexivity.
  - destruct (H t1 t4 eq_refl U) as (t5 & ->). eexists. reflexivity.
Qed.
Lemma issues_ind (P : list ev -> Prop) : (forall t c, P t -> P (t ++ [Issue c])) -> forall l t, P t -> P (t ++ map Issue l).
Proof.
  intros H l. induction l as [|c l IH]; intros t Ht; cbn [map]; [rewrite app_nil_r; exact Ht|].
  change (Issue c :: map Issue l) with ([Issue c] ++ map Issue l). rewrite app_assoc. apply IH, H, Ht.
Qed.

Lemma times_app p t1 t2 : times p (t1 ++ t2) = (times p t1 + times p t2)%nat.
Proof. unfold times. rewrite filter_app, app_length. reflexivity. Qed.
Lemma times_issues p l : (forall c, p (Issue c) = false) -> times p (map Issue l) = 0%nat.
Proof. intros H. unfold times. induction l as [|c l IH]; [reflexivity|]. cbn [map filter]. rewrite H. exact IH. Qed.

(** The state when nothing runs. *)
Definition calm (s : st) : Prop := s_mode s = Idle /\ ~ inside (s_trace s) /\ s_cmds s = unsent (s_trace s) /\ never_half (s_trace s) /\ complete (s_trace s).
Definition prompt (s : st) : Prop := s_wait s = None /\ at_once (s_trace s).

Lemma note_calm e s : calm s -> e <> Enter -> (forall c, e <> Issue c) -> (forall l, e <> Send l) -> calm (note e s).
Proof.
  intros (M & O & C & H & K) E1 E2 E3. unfold calm, note. cbn [s_mode s_trace s_cmds]. split; [exact M|]. split; [apply outside_snoc; auto|]. split.
  - rewrite unsent_snoc. destruct e; auto; [exfalso; apply (E2 c); reflexivity|exfalso; apply (E3 l); reflexivity].
  - split; [apply half_snoc; auto|]. apply complete_snoc; auto. intros l ->. exfalso. apply (E3 l). reflexivity.
Qed.
Lemma flush_calm s : calm s -> calm (flush_inner s).
Proof.
  intros (M & O & C & H & K). unfold flush_inner. destruct (s_cmds s) as [|c l] eqn:E; [unfold calm; rewrite E; auto|].
  unfold calm, note. cbn [s_mode s_trace s_cmds]. split; [exact M|]. split; [apply outside_snoc; auto; discriminate|]. split; [rewrite unsent_snoc; reflexivity|].
  split; [apply half_send; auto|]. apply complete_snoc; auto. intros l1 E1. injection E1 as <-. split; [exact C|discriminate].
Qed.
Lemma flush_once s : at_once (s_trace s) -> at_once (s_trace (flush_inner s)).
Proof. intros H. unfold flush_inner. destruct (s_cmds s); [exact H|]. apply once_snoc; [exact H|discriminate]. Qed.
Lemma flush_wait s : s_wait (flush_inner s) = s_wait s.
Proof. unfold flush_inner. destruct (s_cmds s); reflexivity. Qed.
Lemma flush_mode s : s_mode (flush_inner s) = s_mode s.
Proof. unfold flush_inner. destruct (s_cmds s); reflexivity. Qed.
Lemma flush_cmds s : s_cmds (flush_inner s) = [].
Proof. unfold flush_inner. destruct (s_cmds s) eqn:E; [exact E|reflexivity]. Qed.

Section Facts.
  Variable refresh : st -> list act.
  Variable hooks : list (st -> list act).
  Hypothesis refresh_own : forall s, Forall own (refresh s).
  Hypothesis hooks_own : Forall (fun h : st -> list act => forall s, Forall own (h s)) hooks.
  Notation go := (run refresh hooks).

  Definition busy (m : mode) : Prop := match m with Idle => False | Modification l => 1 <= l | Refreshing => True end.
  (** While a transaction or a refresh runs, commands are only collected. *)
  Lemma run_busy f : forall l s s1, Forall own l -> busy (s_mode s) -> go f l s = Some s1 ->
    exists cs, s_trace s1 = s_trace s ++ map Issue cs /\ s_cmds s1 = s_cmds s ++ cs /\ s_mode s1 = s_mode s /\ (s_wait s = None <-> s_wait s1 = None).
  Proof.
    induction f as [|f IH]; intros l s s1 W B R; [discriminate|]. destruct l as [|a l]; cbn [run] in R.
    { injection R as <-. exists []. cbn. rewrite !app_nil_r. tauto. }
    inversion W as [|? ? Wa Wl]; subst. destruct (step refresh hooks (go f) a s) as [s2|] eqn:E; [|discriminate].
    assert (exists cs, s_trace s2 = s_trace s ++ map Issue cs /\ s_cmds s2 = s_cmds s ++ cs /\ s_mode s2 = s_mode s /\ (s_wait s = None <-> s_wait s2 = None)) as (c1 & T1 & C1 & M1 & N1).
    { destruct a as [c| |body|g|]; cbn [step own] in E, Wa; try tauto.
      - injection E as <-. exists [c]. cbn. tauto.
      - injection E as <-. exists []. cbn. rewrite !app_nil_r. destruct (s_wait s); cbn; intuition congruence.
      - apply own_all in Wa. unfold transaction, up in E. destruct (s_mode s) as [|lv|] eqn:Em; [destruct B| |discriminate]. cbn in B.
        destruct (go f body (set_mode (Modification (lv + 1)) s)) as [s3|] eqn:E3; [|discriminate].
        assert (busy (s_mode (set_mode (Modification (lv + 1)) s))) as B3 by (cbn; lia). destruct (IH _ _ _ Wa B3 E3) as (cs & T & C & M & Nw). unfold down in E. rewrite M in E. cbn [set_mode s_mode] in E.
        assert (lv + 1 - 1 =? 0 = false) as X by (apply N.eqb_neq; lia). rewrite X in E. injection E as <-. exists cs. cbn [set_mode s_trace s_cmds s_mode s_wait] in *.
        replace (lv + 1 - 1) with lv by lia. tauto. }
    rewrite <- M1 in B. destruct (IH _ _ _ Wl B R) as (c2 & T2 & C2 & M2 & N2). exists (c1 ++ c2). rewrite T2, T1, C2, C1, M2, M1, map_app, !app_assoc. tauto.
  Qed.

  (** The end of the outermost transaction, before the hooks. *)
  Lemma ending s2 f s4 : s_mode s2 = Modification 1 -> go f (refresh (set_mode Refreshing s2)) (set_mode Refreshing s2) = Some s4 ->
    s_cmds s2 = unsent (s_trace s2) -> never_half (s_trace s2) -> complete (s_trace s2) ->
    let s5 := flush (move_to_idle s4) in
    calm s5 /\ (s_wait s2 = None -> at_once (s_trace s2) -> prompt s5 /\ s_cmds s5 = []) /\ exists t, s_trace s5 = s_trace s2 ++ t /\ times is_leave t = 1%nat /\ forall k, times (is_hook k) t = 0%nat.
  Proof.
    intros M R C H K. destruct (run_busy f _ _ _ (refresh_own _) (I : busy (s_mode (set_mode Refreshing s2))) R) as (cs & T & C4 & M4 & N4). cbn [set_mode s_trace s_cmds s_mode s_wait] in T, C4, M4, N4.
    unfold move_to_idle. rewrite M4. cbn zeta. set (s5 := note Leave (set_mode Idle s4)).
    assert (calm s5) as Q.
    { unfold calm, s5, note, set_mode. cbn [s_mode s_trace s_cmds]. split; [reflexivity|]. split; [apply outside_leave|]. rewrite unsent_snoc, T, unsent_issues, C4, C. split; [reflexivity|].
      split.
      - apply half_snoc; [|discriminate]. apply issues_ind; [|exact H]. intros t c Ht. apply half_snoc; [exact Ht|discriminate].
      - apply complete_snoc; [|discriminate]. apply issues_ind; [|exact K]. intros t c Ht. apply complete_snoc; [exact Ht|discriminate]. }
    split; [unfold flush; destruct (s_wait s5); [exact Q|apply flush_calm; exact Q]|]. split; cycle 1.
    { assert (s_trace s5 = s_trace s2 ++ map Issue cs ++ [Leave]) as T5 by (unfold s5, note, set_mode; cbn [s_trace]; rewrite T, app_assoc; reflexivity).
      unfold flush, flush_inner. destruct (s_wait s5); [|destruct (s_cmds s5)].
      - exists (map Issue cs ++ [Leave]). split; [exact T5|]. split; [|intros k]; rewrite times_app, times_issues; auto.
      - exists (map Issue cs ++ [Leave]). split; [exact T5|]. split; [|intros k]; rewrite times_app, times_issues; auto.
      - exists ((map Issue cs ++ [Leave]) ++ [Send (n :: l)]). split; [unfold note; cbn [s_trace]; rewrite T5, <- !app_assoc; reflexivity|].
        split; [|intros k]; rewrite !times_app, times_issues; auto. }
    intros W A. assert (s_wait s5 = None) as W5 by (cbn; tauto). unfold flush. rewrite W5. split; [|apply flush_cmds]. split; [rewrite flush_wait; exact W5|].
    assert (at_once (s_trace s4)) as A4. { rewrite T. apply issues_ind; [|exact A]. intros t c Ht. apply once_snoc; [exact Ht|discriminate]. }
    assert (s_cmds s5 = unsent (s_trace s4)) as E5. { destruct Q as (_ & _ & E & _). rewrite E. unfold s5, note, set_mode. cbn [s_trace]. rewrite unsent_snoc. reflexivity. }
    unfold flush_inner. destruct (s_cmds s5) as [|c l] eqn:E.
    - apply once_leave; auto.
    - cbn [note s_trace]. rewrite E5. apply once_leave_send. exact A4.
  Qed.

  Lemma tx_shape f a s s2 : event a -> ((exists b, a = Tx b) \/ a = Answered true) -> calm s -> step refresh hooks (go f) a s = Some s2 ->
    exists s5 t, call_hooks (go f) 0 hooks s5 = Some s2 /\ calm s5 /\ (prompt s -> prompt s5 /\ s_cmds s5 = []) /\
      s_trace s5 = s_trace s ++ t /\ times is_leave t = 1%nat /\ forall k, times (is_hook k) t = 0%nat.
  Proof.
    intros Wa Cs Q E. assert (Q0 := Q). destruct Q as (M & O & C & H & K). destruct Cs as [(body & ->)| ->]; cbn [step event own] in E, Wa.
    - apply own_all in Wa. unfold transaction, up in E. rewrite M in E. set (s3 := note Enter (set_mode (Modification 1) s)) in E.
      destruct (go f body s3) as [s4|] eqn:E4; [|discriminate]. assert (busy (s_mode s3)) as B3 by (cbn; lia). destruct (run_busy f _ _ _ Wa B3 E4) as (cs & T & C4 & M4 & N4).
      unfold down in E. rewrite M4 in E. cbn in E. destruct (go f (refresh (set_mode Refreshing s4)) (set_mode Refreshing s4)) as [s5|] eqn:E5; [|discriminate].
      cbn [s3 note set_mode s_trace s_cmds s_wait] in T, C4, N4.
      destruct (ending s4 f s5 M4 E5) as (Q5 & P5 & t & T5 & L5 & K5).
      { rewrite C4, T, unsent_issues, unsent_snoc, C. reflexivity. }
      { rewrite T. apply issues_ind; [|apply half_snoc; [exact H|discriminate]]. intros t0 c Ht. apply half_snoc; [exact Ht|discriminate]. }
      { rewrite T. apply issues_ind; [|apply complete_snoc; [exact K|discriminate]]. intros t0 c Ht. apply complete_snoc; [exact Ht|discriminate]. }
      exists (flush (move_to_idle s5)), ([Enter] ++ map Issue cs ++ t). split; [exact E|]. split; [exact Q5|]. split; cycle 1.
      { rewrite T5, T, <- !app_assoc. split; [reflexivity|]. split; [|intros k]; rewrite !times_app, times_issues, ?L5, ?K5; auto. }
      intros [W1 A1]. apply P5; [tauto|].
      rewrite T. apply issues_ind; [|apply once_snoc; [exact A1|discriminate]]. intros t0 c Ht. apply once_snoc; [exact Ht|discriminate].
    - unfold transaction, up in E. rewrite M in E. set (s3 := note Enter (set_mode (Modification 1) s)) in E.
      destruct (fetch_down s3) as [s4|] eqn:E4; [|discriminate].
      assert (s_mode s4 = Modification 1 /\ s_cmds s4 = unsent (s_trace s4) /\ never_half (s_trace s4) /\ complete (s_trace s4) /\
              (s_wait s = None -> at_once (s_trace s) -> s_wait s4 = None /\ at_once (s_trace s4))) as (M4 & C4 & H4 & K4 & A4).
      { assert (never_half (s_trace s3)) as H3 by (apply half_snoc; [exact H|discriminate]). assert (complete (s_trace s3)) as K3 by (apply complete_snoc; [exact K|discriminate]).
        assert (s_cmds s3 = unsent (s_trace s3)) as C3 by (unfold s3, note, set_mode; cbn [s_cmds s_trace]; rewrite unsent_snoc; exact C).
        unfold fetch_down in E4. change (s_wait s3) with (s_wait s) in E4. destruct (s_wait s) as [n|] eqn:Ew.
        - destruct (n =? 0); [discriminate|]. destruct (n - 1 =? 0).
          + injection E4 as <-. rewrite flush_mode, flush_cmds. split; [reflexivity|]. unfold flush_inner. cbn [s_cmds s3 note set_mode].
            destruct (s_cmds s) as [|c0 l0] eqn:Ec; cbn [note s_trace].
            * rewrite unsent_snoc, <- C. split; [reflexivity|]. split; [exact H3|]. split; [exact K3|]. discriminate.
            * rewrite unsent_snoc. split; [reflexivity|]. split; [apply half_enter_send; auto|]. split; [|discriminate].
              apply complete_snoc; [exact K3|]. intros l1 X. injection X as <-. rewrite unsent_snoc, <- C. split; [reflexivity|discriminate].
          + injection E4 as <-. cbn [s_mode s_cmds s_trace]. split; [reflexivity|]. split; [exact C3|]. split; [exact H3|]. split; [exact K3|]. discriminate.
        - injection E4 as <-. split; [reflexivity|]. split; [exact C3|]. split; [exact H3|]. split; [exact K3|]. intros _ A1. split; [exact Ew|]. apply once_snoc; [exact A1|discriminate]. }
      assert (exists x, s_trace s4 = s_trace s ++ [Enter] ++ x /\ (x = [] \/ exists y, x = [Send y])) as (x & T4 & X).
      { unfold fetch_down, flush_inner in E4. cbn [s3 note set_mode s_wait s_cmds s_trace s_mode] in E4. destruct (s_wait s) as [n|].
        - destruct (n =? 0); [discriminate|]. destruct (n - 1 =? 0); [destruct (s_cmds s) as [|c0 l0]|]; injection E4 as <-; cbn [note s_trace].
          + exists []. auto.
          + exists [Send (c0 :: l0)]. rewrite <- app_assoc. split; [reflexivity|]. right. eexists. reflexivity.
          + exists []. auto.
        - injection E4 as <-. exists []. auto. }
      unfold down in E. rewrite M4 in E. cbn in E. destruct (go f (refresh (set_mode Refreshing s4)) (set_mode Refreshing s4)) as [s5|] eqn:E5; [|discriminate].
      destruct (ending s4 f s5 M4 E5 C4 H4 K4) as (Q5 & P5 & t & T5 & L5 & K5).
      exists (flush (move_to_idle s5)), ([Enter] ++ x ++ t). split; [exact E|]. split; [exact Q5|]. split; cycle 1.
      { rewrite T5, T4, <- !app_assoc. split; [reflexivity|]. split; [|intros k]; rewrite !times_app, ?L5, ?K5; destruct X as [->|(y & ->)]; reflexivity. }
      intros [W1 A1]. destruct (A4 W1 A1) as [W4 A5]. apply P5; auto.
  Qed.

  Lemma hooks_calm f : (forall l s s1, Forall event l -> calm s -> go f l s = Some s1 -> calm s1 /\ (prompt s -> prompt s1)) ->
    forall hs k s s1, Forall (fun h : st -> list act => forall s, Forall own (h s)) hs -> calm s -> call_hooks (go f) k hs s = Some s1 -> calm s1 /\ (prompt s -> prompt s1).
  Proof.
    intros IH hs. induction hs as [|h hs IHh]; intros k s s1 W Q R; cbn [call_hooks] in R; [injection R as <-; auto|].
    inversion W as [|? ? Wh Ws]; subst. destruct (go f (h (note (Hook k) s)) (note (Hook k) s)) as [s2|] eqn:E; [|discriminate].
    assert (calm (note (Hook k) s)) as Q1 by (apply note_calm; auto; discriminate).
    destruct (IH _ _ _ (own_event _ (Wh (note (Hook k) s))) Q1 E) as [Q2 P2].
    destruct (IHh _ _ _ Ws Q2 R) as [Q3 P3]. split; [exact Q3|]. intros [W1 A1]. apply P3, P2. split; [exact W1|]. apply once_snoc; [exact A1|discriminate].
  Qed.

  Lemma step_calm f : (forall l s s1, Forall event l -> calm s -> go f l s = Some s1 -> calm s1 /\ (prompt s -> prompt s1)) ->
    forall a s s2, event a -> calm s -> step refresh hooks (go f) a s = Some s2 -> calm s2 /\ (prompt s -> prompt s2).
  Proof.
    intros IH a s s2 Wa Q E.
    assert (Q0 := Q). destruct Q as (M & O & C & H & K). destruct a as [c| |body|[]|]; cbn [step event own] in E, Wa.
    - injection E as <-. unfold calm, prompt, add_command, note. cbn [s_mode s_trace s_cmds s_wait]. split.
      + split; [exact M|]. split; [apply outside_snoc; auto; discriminate|]. split; [rewrite unsent_snoc, C; reflexivity|]. split; [apply half_snoc; auto; discriminate|apply complete_snoc; auto; discriminate].
      + intros [W1 A1]. split; [exact W1|]. apply once_snoc; [exact A1|discriminate].
    - injection E as <-. split; [exact Q0|]. intros [W1 A1]. split; [cbn; rewrite W1; reflexivity|exact A1].
    - destruct (tx_shape f (Tx body) s s2 Wa (or_introl (ex_intro _ body eq_refl)) Q0 E) as (s5 & t & E5 & Q5 & P5 & _).
      destruct (hooks_calm f IH _ _ _ _ hooks_own Q5 E5) as [Q6 P6]. split; [exact Q6|]. intros P. apply P6, P5, P.
    - destruct (tx_shape f (Answered true) s s2 I (or_intror eq_refl) Q0 E) as (s5 & t & E5 & Q5 & P5 & _).
      destruct (hooks_calm f IH _ _ _ _ hooks_own Q5 E5) as [Q6 P6]. split; [exact Q6|]. intros P. apply P6, P5, P.
    - unfold fetch_down in E. destruct (s_wait s) as [n|] eqn:Ew.
      + destruct (n =? 0); [discriminate|]. destruct (n - 1 =? 0); injection E as <-; (split; [|intros [X _]; congruence]).
        * apply flush_calm. unfold calm. cbn. auto.
        * unfold calm. cbn. auto.
      + injection E as <-. auto.
    - unfold fetch_down in E. cbn [fetch_up s_wait] in E. destruct (s_wait s) as [n|] eqn:Ew; cbn [option_map] in E.
      + destruct (n + 1 =? 0); [discriminate|]. destruct (n + 1 - 1 =? 0); injection E as <-; (split; [|intros [X _]; congruence]).
        * unfold flush. rewrite flush_wait. cbn [s_wait]. apply flush_calm, flush_calm. unfold calm. cbn. auto.
        * unfold calm. cbn. auto.
      + injection E as <-. unfold flush. cbn [fetch_up s_wait]. rewrite Ew. cbn [option_map]. split.
        * apply flush_calm. unfold calm. cbn. auto.
        * intros [W1 A1]. split; [rewrite flush_wait; cbn; rewrite W1; reflexivity|]. apply flush_once. exact A1.
  Qed.
  Lemma run_calm f : forall l s s1, Forall event l -> calm s -> go f l s = Some s1 -> calm s1 /\ (prompt s -> prompt s1).
  Proof.
    induction f as [|f IH]; intros l s s1 W Q R; [discriminate|]. destruct l as [|a l]; cbn [run] in R; [injection R as <-; auto|].
    inversion W as [|? ? Wa Wl]; subst. destruct (step refresh hooks (go f) a s) as [s2|] eqn:E; [|discriminate].
    destruct (step_calm f IH a s s2 Wa Q E) as [Q2 P2]. destruct (IH _ _ _ Wl Q2 R) as [Q3 P3]. auto.
  Qed.

  Lemma fetch_down_trace s s1 : fetch_down s = Some s1 -> exists t, s_trace s1 = s_trace s ++ t /\ (t = [] \/ exists y, t = [Send y]).
  Proof.
    unfold fetch_down, flush_inner. cbn [s_cmds]. destruct (s_wait s) as [n|].
    - destruct (n =? 0); [discriminate|]. destruct (n - 1 =? 0); [destruct (s_cmds s) as [|c0 l0]|]; intros E; injection E as <-; cbn [note s_trace].
      + exists []. rewrite app_nil_r. auto.
      + exists [Send (c0 :: l0)]. split; [reflexivity|]. right. eexists. reflexivity.
      + exists []. rewrite app_nil_r. auto.
    - intros E. injection E as <-. exists []. rewrite app_nil_r. auto.
  Qed.
  Lemma flush_trace s : exists t, s_trace (flush s) = s_trace s ++ t /\ (t = [] \/ exists y, t = [Send y]).
  Proof.
    unfold flush, flush_inner. destruct (s_wait s); [|destruct (s_cmds s) as [|c0 l0]]; [exists []; rewrite app_nil_r; auto|exists []; rewrite app_nil_r; auto|].
    exists [Send (c0 :: l0)]. split; [reflexivity|]. right. eexists. reflexivity.
  Qed.

  (** The hooks from number [k] on are called once each. *)
  Lemma hooks_times f : (forall l s s1, Forall event l -> calm s -> go f l s = Some s1 ->
      exists t, s_trace s1 = s_trace s ++ t /\ forall k, (k < length hooks)%nat -> times (is_hook k) t = times is_leave t) ->
    forall hs k0 s s1, Forall (fun h : st -> list act => forall s, Forall own (h s)) hs -> calm s -> call_hooks (go f) k0 hs s = Some s1 ->
    exists t, s_trace s1 = s_trace s ++ t /\ forall k, (k < length hooks)%nat ->
      times (is_hook k) t = (times is_leave t + (if andb (Nat.leb k0 k) (Nat.ltb k (k0 + length hs)) then 1 else 0))%nat.
  Proof.
    intros IH hs. induction hs as [|h hs IHh]; intros k0 s s1 W Q R; cbn [call_hooks] in R.
    { injection R as <-. exists []. rewrite app_nil_r. split; [reflexivity|]. intros k Hk. cbn [length].
      destruct (PeanoNat.Nat.leb_spec k0 k); destruct (PeanoNat.Nat.ltb_spec k (k0 + 0)); cbn; try reflexivity; lia. }
    inversion W as [|? ? Wh Ws]; subst. destruct (go f (h (note (Hook k0) s)) (note (Hook k0) s)) as [s2|] eqn:E; [|discriminate].
    assert (calm (note (Hook k0) s)) as Q1 by (apply note_calm; auto; discriminate). pose proof (own_event _ (Wh (note (Hook k0) s))) as We.
    destruct (IH _ _ _ We Q1 E) as (t1 & T1 & N1). destruct (run_calm f _ _ _ We Q1 E) as [Q2 _]. destruct (IHh _ _ _ Ws Q2 R) as (t2 & T2 & N2).
    exists ([Hook k0] ++ t1 ++ t2). rewrite T2, T1. cbn [note s_trace]. rewrite <- !app_assoc. split; [reflexivity|]. intros k Hk. rewrite !times_app, N1, N2 by exact Hk.
    change (times is_leave [Hook k0]) with 0%nat. unfold times at 1. cbn [filter is_hook length].
    destruct (PeanoNat.Nat.eqb_spec k0 k) as [->|Ne]; cbn [length];
      destruct (PeanoNat.Nat.leb_spec (S k0) k) || destruct (PeanoNat.Nat.leb_spec (S k) k); try destruct (PeanoNat.Nat.leb_spec k0 k); try destruct (PeanoNat.Nat.leb_spec k k);
      repeat match goal with |- context [Nat.ltb ?a ?b] => destruct (PeanoNat.Nat.ltb_spec a b) end; cbn [andb]; try lia.
  Qed.
  Lemma run_times f : forall l s s1, Forall event l -> calm s -> go f l s = Some s1 ->
    exists t, s_trace s1 = s_trace s ++ t /\ forall k, (k < length hooks)%nat -> times (is_hook k) t = times is_leave t.
  Proof.
    induction f as [|f IH]; intros l s s1 W Q R; [discriminate|]. destruct l as [|a l]; cbn [run] in R; [injection R as <-; exists []; rewrite app_nil_r; auto|].
    inversion W as [|? ? Wa Wl]; subst. destruct (step refresh hooks (go f) a s) as [s2|] eqn:E; [|discriminate].
    destruct (step_calm f (run_calm f) a s s2 Wa Q E) as [Q2 _]. destruct (IH _ _ _ Wl Q2 R) as (t2 & T2 & N2).
    assert (exists t, s_trace s2 = s_trace s ++ t /\ forall k, (k < length hooks)%nat -> times (is_hook k) t = times is_leave t) as (t1 & T1 & N1).
    { assert (forall t, (t = [] \/ exists y, t = [Send y]) -> forall k, times (is_hook k) t = times is_leave t) as Z by (intros t [->|(y & ->)] k; reflexivity).
      assert ((exists b, a = Tx b) \/ a = Answered true -> exists t, s_trace s2 = s_trace s ++ t /\ forall k, (k < length hooks)%nat -> times (is_hook k) t = times is_leave t) as Y.
      { intros Y. destruct (tx_shape f a s s2 Wa Y Q E) as (s5 & t & E5 & Q5 & _ & T5 & L5 & K5). destruct (hooks_times f IH _ _ _ _ hooks_own Q5 E5) as (t3 & T3 & N3).
        exists (t ++ t3). rewrite T3, T5, <- app_assoc. split; [reflexivity|]. intros k Hk. rewrite !times_app, N3, L5, K5 by exact Hk. cbn [Nat.leb andb].
        assert (Nat.ltb k (0 + length hooks) = true) as -> by (apply PeanoNat.Nat.ltb_lt; lia). lia. }
      destruct a as [c| |body|[]|]; cbn [step] in E.
      - injection E as <-. exists [Issue c]. split; [reflexivity|]. reflexivity.
      - injection E as <-. exists []. rewrite app_nil_r. split; reflexivity.
      - apply Y. left. eexists. reflexivity.
      - apply Y. right. reflexivity.
      - destruct (fetch_down_trace _ _ E) as (t & T & X). exists t. split; [exact T|]. intros k _. apply Z, X.
      - destruct (fetch_down (fetch_up s)) as [s3|] eqn:E3; [|discriminate]. injection E as <-. destruct (fetch_down_trace _ _ E3) as (t & T & X). destruct (flush_trace s3) as (t3 & T3 & X3).
        exists (t ++ t3). rewrite T3, T. cbn [fetch_up s_trace]. rewrite <- app_assoc. split; [reflexivity|]. intros k _. rewrite !times_app, (Z _ X), (Z _ X3). reflexivity. }
    exists (t1 ++ t2). rewrite T2, T1, <- app_assoc. split; [reflexivity|]. intros k Hk. rewrite !times_app, N1, N2 by exact Hk. reflexivity.
  Qed.

  (** With commands in transactions only, nothing is left. *)
  Hypothesis hooks_tx : Forall (fun h : st -> list act => forall s c, ~ In (Cmd c) (h s)) hooks.
  Lemma run_sent f : forall l s s1, Forall event l -> (forall c, ~ In (Cmd c) l) -> calm s -> prompt s -> s_cmds s = [] -> go f l s = Some s1 -> s_cmds s1 = [].
  Proof.
    induction f as [|f IH]; intros l s s1 W NC Q P Z R; [discriminate|]. destruct l as [|a l]; cbn [run] in R; [injection R as <-; auto|].
    inversion W as [|? ? Wa Wl]; subst. destruct (step refresh hooks (go f) a s) as [s2|] eqn:E; [|discriminate].
    destruct (step_calm f (run_calm f) a s s2 Wa Q E) as [Q2 P2]. apply (IH l s2 s1 Wl); auto; [intros c Hc; apply (NC c); right; exact Hc|].
    assert ((exists b, a = Tx b) \/ a = Answered true -> s_cmds s2 = []) as Y.
    { intros Y. destruct (tx_shape f a s s2 Wa Y Q E) as (s5 & t & E5 & Q5 & P5 & _). destruct (P5 P) as [P6 Z5]. clear - IH E5 Q5 P6 Z5 hooks_own hooks_tx refresh_own.
      assert (forall hs k s s2, Forall (fun h : st -> list act => forall s, Forall own (h s)) hs -> Forall (fun h : st -> list act => forall s c, ~ In (Cmd c) (h s)) hs ->
        calm s -> prompt s -> s_cmds s = [] -> call_hooks (go f) k hs s = Some s2 -> s_cmds s2 = []) as G; [|exact (G hooks 0%nat s5 s2 hooks_own hooks_tx Q5 P6 Z5 E5)].
      clear - IH hooks_own refresh_own. induction hs as [|h hs IHh]; intros k s s2 W1 W2 Q P Z R; cbn [call_hooks] in R; [injection R as <-; exact Z|].
      inversion W1 as [|? ? Wh Ws]; subst. inversion W2 as [|? ? Xh Xs]; subst. destruct (go f (h (note (Hook k) s)) (note (Hook k) s)) as [s3|] eqn:E; [|discriminate].
      assert (calm (note (Hook k) s)) as Q1 by (apply note_calm; auto; discriminate). pose proof (own_event _ (Wh (note (Hook k) s))) as We.
      assert (prompt (note (Hook k) s)) as P1 by (destruct P as [P P0]; split; [exact P|apply once_snoc; [exact P0|discriminate]]).
      destruct (run_calm f _ _ _ We Q1 E) as [Q3 P3]. apply (IHh (S k) s3 s2 Ws Xs Q3 (P3 P1)); [|exact R]. exact (IH _ _ _ We (Xh _) Q1 P1 Z E). }
    destruct a as [c| |body|[]|]; cbn [step] in E.
    - exfalso. apply (NC c). left. reflexivity.
    - injection E as <-. exact Z.
    - apply Y. left. eexists. reflexivity.
    - apply Y. right. reflexivity.
    - destruct P as [P _]. unfold fetch_down in E. rewrite P in E. injection E as <-. exact Z.
    - destruct P as [P _]. unfold fetch_down in E. cbn [fetch_up s_wait] in E. rewrite P in E. cbn [option_map] in E. injection E as <-. unfold flush. cbn [fetch_up s_wait]. rewrite P. apply flush_cmds.
  Qed.
End Facts.

Lemma initial_calm : calm initial.
Proof.
  split; [reflexivity|]. split; [exact outside_start|]. split; [reflexivity|].
  split; [intros t1 t2 l t3 H; destruct t1; discriminate|intros t1 l t2 H; destruct t1; discriminate].
Qed.

(** *** C110 *)

(** For every application (what its clients do when they are refreshed, what the functions called after transactions do) and every sequence of events from its beginning:
    no batch holds a part of a transaction, and each holds all there is. *)
Theorem C110_whole_partial refresh hooks f l s : (forall s, Forall own (refresh s)) -> Forall (fun h : st -> list act => forall s, Forall own (h s)) hooks ->
  Forall event l -> run refresh hooks f l initial = Some s -> never_half (s_trace s) /\ complete (s_trace s).
Proof. intros R H W E. destruct (run_calm refresh hooks R H f l initial s W initial_calm E) as [(_ & _ & _ & X & Y) _]. auto. Qed.
(** Once the first page was sent (or there was nothing to wait for): when a transaction is over, its commands are sent before anything else happens; and if commands are
    issued in transactions only, none is left when the application comes to rest. *)
Theorem C110_at_once_partial refresh hooks f l s : (forall s, Forall own (refresh s)) -> Forall (fun h : st -> list act => forall s, Forall own (h s)) hooks ->
  Forall event l -> run refresh hooks f l (St Idle None [] []) = Some s ->
  at_once (s_trace s) /\
  (Forall (fun h : st -> list act => forall s c, ~ In (Cmd c) (h s)) hooks -> (forall c, ~ In (Cmd c) l) -> unsent (s_trace s) = []).
Proof.
  intros R H W E. assert (calm (St Idle None [] [])) as Q.
  { destruct initial_calm as (_ & Q). split; [reflexivity|exact Q]. }
  assert (prompt (St Idle None [] [])) as P by (split; [reflexivity|intros t1 t2 X; destruct t1; discriminate]).
  destruct (run_calm refresh hooks R H f l _ s W Q E) as [Q1 P1]. split; [apply P1, P|].
  intros HT NC. destruct Q1 as (_ & _ & Q1 & _). rewrite <- Q1. exact (run_sent refresh hooks R H HT f l _ s W NC Q P eq_refl E).
Qed.
(** Every function given to on_after_transaction is called once for every outermost transaction, also for those begun by such functions. *)
Theorem C110_hooks refresh hooks f l s : (forall s, Forall own (refresh s)) -> Forall (fun h : st -> list act => forall s, Forall own (h s)) hooks ->
  Forall event l -> run refresh hooks f l initial = Some s -> forall k, (k < length hooks)%nat -> times (is_hook k) (s_trace s) = times is_leave (s_trace s).
Proof. intros R H W E k Hk. destruct (run_times refresh hooks R H f l initial s W initial_calm E) as (t & T & X). rewrite T. apply X, Hk. Qed.

(** A handler of an event that changes the document without a transaction: the command stays behind until some transaction ends. *)
Theorem C110_outside_refuted : exists s, run (fun _ => []) [] 9 [Start; Tx [Cmd 1]; Cmd 2] initial = Some s /\ unsent (s_trace s) = [2].
Proof. eexists. split; reflexivity. Qed.
(** The application waits with its first page for the answers of the fetches it began with, but the page is sent before the last answer is looked at: what is shown in its place
    while it loads (1) is the first page, what the answer brings (2) comes after. *)
Theorem C110_first_refuted : exists s, run (fun _ => []) [] 9 [Cmd 1; Fetch; Start; Answered true; Tx [Cmd 2]] initial = Some s /\
  s_trace s = [Issue 1; Enter; Send [1]; Leave; Enter; Issue 2; Leave; Send [2]].
Proof. eexists. split; reflexivity. Qed.

(** ** Examples *)
(** Nested transactions, a client that changes the document, a hook that begins a transaction of its own the first time. *)
Definition demo_refresh (s : st) : list act := if Nat.ltb (times is_leave (s_trace s)) 1 then [Cmd 7] else [].
Definition demo_hook (s : st) : list act := if Nat.leb (times is_leave (s_trace s)) 1 then [Tx [Cmd 8]] else [].
Example C110_case : (forall s, Forall own (demo_refresh s)) /\ Forall (fun h : st -> list act => forall s, Forall own (h s)) [demo_hook] /\
  Forall event [Cmd 1; Start; Tx [Cmd 2; Tx [Cmd 3]; Cmd 4]] /\
  exists s, run demo_refresh [demo_hook] 20 [Cmd 1; Start; Tx [Cmd 2; Tx [Cmd 3]; Cmd 4]] initial = Some s /\
    s_trace s = [Issue 1; Send [1]; Enter; Issue 2; Issue 3; Issue 4; Issue 7; Leave; Send [2; 3; 4; 7]; Hook 0; Enter; Issue 8; Leave; Send [8]; Hook 0].
Proof.
  split; [intros s; unfold demo_refresh; destruct (Nat.ltb _ _); repeat constructor|].
  split; [constructor; [|constructor]; intros s; unfold demo_hook; destruct (Nat.leb _ _); repeat constructor|].
  split; [repeat constructor|]. eexists. split; reflexivity.
Qed.
Example C110_at_once_case : Forall (fun h : st -> list act => forall s c, ~ In (Cmd c) (h s)) [demo_hook] /\ (forall c, ~ In (Cmd c) [Tx [Cmd 2]; Answered true]) /\
  exists s, run demo_refresh [demo_hook] 20 [Tx [Cmd 2]; Answered true] (St Idle None [] []) = Some s /\
    s_trace s = [Enter; Issue 2; Issue 7; Leave; Send [2; 7]; Hook 0; Enter; Issue 8; Leave; Send [8]; Hook 0; Enter; Leave; Hook 0].
Proof.
  split; [constructor; [|constructor]; intros s c; unfold demo_hook; destruct (Nat.leb _ _); intros X; cbn in X; intuition discriminate|].
  split; [intros c X; cbn in X; intuition discriminate|]. eexists. split; reflexivity.
Qed.
