(** Consequences of the step-by-step principle: dropped subscriptions stay silent, values do not
    change while subscriptions are refreshed, established subscriptions are active and have their edge. *)

From Coq Require Import List NArith Bool Lia Arith.
From Verif Require Import GraphModel GraphSpec GraphProofs ReactModel ReactSpec ReactBase ReactInv ReactExec
  ReactRel.
Import ListNotations.

Section Facts.
  Context {V : Type}.
  Variable E : @env V.
  Variable rank : gid -> nat.
  Hypothesis WF : well_founded_env E rank.

  Notation GI := (GI E rank).
  Notation src := (src E).
  Notation open_sub := (open_sub E).
  Notation trans := (trans E rank).

  Lemma init_gi vs : GI (init vs).
  Proof.
    constructor; simpl; auto; try (intros; discriminate); try (intros p c []; fail).
    - split; [intros p c; unfold child, parent; simpl; tauto|].
      split; split; constructor.
    - intros v. split; [discriminate|]. intros (_ & _ & c & []).
    - intros v; constructor.
    - intros c _; repeat split; auto.
  Qed.

  Lemma run_gi vs h s : run E vs h s -> GI s /\ tx s = Idle /\ running s = [] /\ frames s = [].
  Proof.
    intros [f X]. destruct (struct_cmds E rank WF f h _ s (init_gi vs) X) as [T S].
    split; [apply T|]. split; [exact S|]. split; [apply (t_running _ _ _ _ _ _ _ _ T)|apply (t_frames _ _ _ _ _ _ _ _ T)].
  Qed.

  (** The facts every closing step gives, in one place. *)
  Lemma sub_closed s c s4 s6 : GI s -> pre (TSub c) s ->
    trans (eq c) (tx s <> Idle) False [c] (open_sub c s) s4 -> same_tx (open_sub c s) s4 ->
    push_context E c (fst (frame_close s4)) (snd (frame_close s4)) = Ok s6 ->
    let s9 := set_dying (remove gid_dec c (dying (closed c s6))) (closed c s6) in
    (exists lc, log s9 = lc ++ log s4 /\ Forall (calc_event (V := V)) lc) /\
    live s9 = live s4 /\ next s9 = next s4 /\ vals s9 = vals s4 /\ tx s9 = tx s4 /\ res s9 = res s4 /\
    (forall d, active s9 d = if gid_eqb d c then true else active s4 d) /\
    running s9 = running s /\ frames s9 = frames s /\
    (forall p d, gkind d = KClient -> d <> c -> child (graph_of s4) p d -> child (graph_of s9) p d) /\
    child (graph_of s9) (src c) c.
  Proof.
    intros G PR T14 S14 PC s9.
    destruct (close_ok E rank WF c (tx s <> Idle) s s4 (snd (frame_close s4)) (fst (frame_close s4)) s6 G PR T14 S14)
      as (T09 & S09 & CTX & S5); auto.
    { destruct (frame_close s4); auto. }
    rewrite CTX, S5 in PC. clear CTX S5.
    pose proof PR as (P1 & P2 & P3 & P4 & P5).
    pose proof (t_gi _ _ _ _ _ _ _ _ T14) as G4.
    pose proof (t_running _ _ _ _ _ _ _ _ T14) as R4. simpl in R4.
    assert (LV : live s4 c = true) by (apply (gi_runlive _ _ _ _ G4); rewrite R4; simpl; auto).
    change (push_context E c [src c] (set_frames (frames s) s4)) with
      (set_parents E c [src c] (set_frames (frames s) s4)) in PC.
    set (s5 := set_frames (frames s) s4) in *.
    assert (G5 : GIx E rank (eq c) s5).
    { apply GIx_frames. eapply GIx_weaken; [|exact G4]. intros ? []. }
    destruct (rk_src E rank WF c P1) as [RK KS].
    destruct (set_parents_ok E rank c [src c] s5 G5)
      as (s0 & X0 & G6 & FZ & CH & CA & CB & CC & AC & HZ & (lc & LC & FLC) & AM); [repeat constructor| | | |].
    { intros p [<-|[]]; split; auto. congruence. }
    { congruence. }
    { intros _ p [<-|[]]; auto. }
    rewrite PC in X0. inversion X0; subst s0. clear X0.
    destruct FZ as (Z1 & Z2 & Z3 & Z4 & Z5 & Z6 & Z7 & Z8 & Z9).
    split; [exists lc; split; [exact LC|eapply Forall_impl; [|exact FLC]; apply conn_calc_event]|].
    split; [exact Z4|]. split; [exact Z9|]. split; [exact Z1|]. split; [exact Z5|]. split; [exact Z3|].
    split.
    { intros d. change (active s9 d) with (upd (active s6) c true d). unfold upd.
      destruct (gid_eqb_spec d c); auto. apply AC; auto. }
    split; [apply (t_running _ _ _ _ _ _ _ _ T09)|]. split; [apply (t_frames _ _ _ _ _ _ _ _ T09)|].
    split.
    - intros p d Kd N Hd. apply CH. right. split; auto. split; auto.
      intros O. apply orph_child in O as [e O]. apply (gi_kind _ _ _ _ G5) in O as [O _]; auto.
    - apply CH. left; simpl; auto.
  Qed.

  Lemma drop_facts s c s2 : GI s -> live s c = true -> ~ In c (running s) ->
    set_parents E c [] (add_log (EDrop c) (set_live (upd (live s) c false) s)) = Ok s2 ->
    (exists lc, log s2 = lc ++ EDrop c :: log s /\ Forall (calc_event (V := V)) lc) /\
    live s2 = upd (live s) c false /\ next s2 = next s /\ vals s2 = vals s /\ tx s2 = tx s /\
    res s2 = res s /\ running s2 = running s /\ frames s2 = frames s /\ dying s2 = dying s /\
    (forall d, d <> c -> active s2 d = active s d) /\
    (forall p d, child (graph_of s2) p d <->
       d <> c /\ child (graph_of s) p d /\ ~ orph s c [] d) /\
    (hazard s2 = true <-> hazard s = true \/
       exists n, orph s c [] n /\ gkind n = KComputed /\ in_frames n s).
  Proof.
    intros G LV NR X.
    assert (KC : gkind c = KClient) by (apply (gi_livek _ _ _ _ G); auto).
    set (s1 := add_log (EDrop c) (set_live (upd (live s) c false) s)) in *.
    assert (G1 : GIx E rank (eq c) s1).
    { apply GIx_log; [auto|congruence|]. destruct G; constructor; auto.
      + intros p d Q Kd N. simpl. rewrite upd_other by congruence. eapply gi_live; eauto.
      + intros d Q. destruct (gi_fresh d Q) as (A1 & A2 & A3 & A4 & A5 & A6 & A7). simpl.
        repeat split; auto. unfold upd; destruct (gid_eqb d c); auto.
      + intros d Q. simpl in Q. unfold upd in Q. destruct (gid_eqb d c); [discriminate|auto].
      + intros d Q. simpl. rewrite upd_other by (intros ->; auto). auto. }
    destruct (set_parents_ok E rank c [] s1 G1)
      as (s0 & X0 & G' & FZ & CH & CA & CB & CC & AC & HZ & (lc & LC & FLC) & AM); try congruence.
    { constructor. } { intros p []. } { intros _ p []. }
    rewrite X in X0. inversion X0; subst s0. clear X0.
    destruct FZ as (Z1 & Z2 & Z3 & Z4 & Z5 & Z6 & Z7 & Z8 & Z9).
    split; [exists lc; split; [exact LC|eapply Forall_impl; [|exact FLC]; apply conn_calc_event]|].
    split; [exact Z4|]. split; [exact Z9|]. split; [exact Z1|]. split; [exact Z5|]. split; [exact Z3|].
    split; [exact Z7|]. split; [exact Z6|]. split; [exact Z8|]. split; [exact AC|]. split.
    - intros p d. rewrite CH. unfold orph. simpl. intuition.
    - rewrite HZ. change (hazard s1) with (hazard s).
      split; (intros [?|(n & H)]; [left; auto|right; exists n]).
      + destruct H as (A & B & _ & D). split; [exact A|split; [auto|exact D]].
      + destruct H as (A & B & D). split; [exact A|split; [auto|split; [congruence|exact D]]].
  Qed.

  Lemma get_facts f id s s1 v : GI s -> get E f id s = Ok (s1, v) ->
    (exists lc, log s1 = lc ++ log s /\ Forall (calc_event (V := V)) lc) /\
    kept s s1 /\ same_clients s s1 /\ GI s1 /\ frames s1 = frames s.
  Proof.
    intros G X. destruct (get_ok E rank WF f id s s1 v G X) as (ST & FR & _ & _).
    destruct ST as (G1 & KP & SC & LG & _). auto.
  Qed.

  Lemma report_facts s s1 l cs id v : GI s -> tx s = Modification l cs ->
    report_set id (set_vals (upd (vals s) id v) s) = Ok s1 ->
    exists tx1 c1 h1, s1 = State (upd (vals s) id v) c1 (active s) (prev s) (res s) (live s) (graph_of s) (conn s) tx1
               (frames s) (running s) (dying s) (next s) h1 (log s).
  Proof.
    intros G T X.
    assert (G1 : GI (set_vals (upd (vals s) id v) s)) by (apply GIx_vals; auto).
    destruct (report_set_ok E rank id _ s1 l cs G1 T X) as (deps & cs' & _ & _ & _ & _ & _ & _ & _ & _ & EQ).
    simpl in EQ. eauto.
  Qed.

  Lemma up_facts s s1 : GI s -> up s = Ok s1 -> s1 = set_tx (tx s1) s /\ tx s <> Refreshing.
  Proof.
    intros G U. destruct (up_ok E rank none True False s s1 G U) as (_ & NR & EQ & _). auto.
  Qed.

  Lemma calc_no_drop l : Forall (calc_event (V := V)) l -> forall c, ~ In (EDrop c) l.
  Proof. intros F c I. rewrite Forall_forall in F. apply F in I. exact I. Qed.

  (** ** Dropped subscriptions *)

  (** Nothing is delivered to a subscription after it was dropped. *)
  Definition silent (l : list (@event V)) : Prop :=
    forall c l2 l1, l = l2 ++ EDrop c :: l1 -> delivered c l2 = [].

  Definition gone (s : @state V) : Prop :=
    (forall c, In (EDrop c) (log s) -> live s c = false /\ (gnum c < next s)%N) /\ silent (log s).

  Lemma silent_app l l0 : silent l0 -> (forall c, ~ In (EDrop c) l) ->
    (forall c, In (EDrop c) l0 -> delivered c l = []) -> silent (l ++ l0).
  Proof.
    intros S N D c l2 l1 EQ. revert l EQ N D.
    induction l2 as [|e l2 IH]; intros l EQ N D; [reflexivity|].
    destruct l as [|e' l].
    - simpl in EQ. apply (S c (e :: l2) l1). auto.
    - simpl in EQ. inversion EQ; subst e'.
      assert (N' : forall d, ~ In (EDrop d) l) by (intros d Q; apply (N d); right; auto).
      assert (I0 : In (EDrop c) l0).
      { assert (In (EDrop c) (l ++ l0)) as Q by (rewrite H1; apply in_app_iff; right; left; auto).
        apply in_app_iff in Q as [Q|Q]; auto. exfalso; eapply N'; eauto. }
      assert (DL : forall d, In (EDrop d) l0 -> delivered d l = []).
      { intros d Hd. specialize (D d Hd). simpl in D. destruct e; auto.
        destruct (gid_eqb d c0); auto. discriminate. }
      specialize (IH l H1 N' DL). specialize (D c I0).
      change (delivered c ([e] ++ l2) = []). change (delivered c ([e] ++ l) = []) in D.
      rewrite delivered_app in *. apply app_eq_nil in D as [-> _]. exact IH.
  Qed.

  Lemma gone_calc s s' l : gone s -> log s' = l ++ log s -> Forall (calc_event (V := V)) l ->
    live s' = live s -> next s' = next s -> gone s'.
  Proof.
    intros [A B] EQ F LV NX. destruct (calc_events_quiet l F) as (Q1 & _).
    split.
    - intros c I. rewrite EQ in I. apply in_app_iff in I as [I|I]; [exfalso; eapply calc_no_drop; eauto|].
      rewrite LV, NX; auto.
    - rewrite EQ. apply silent_app; auto. apply calc_no_drop; auto.
  Qed.

  Lemma gone_same s s' : gone s -> log s' = log s -> live s' = live s -> next s' = next s -> gone s'.
  Proof. intros G L LV NX. apply (gone_calc s s' []); auto. Qed.

  Lemma gone_event s e : gone s -> (forall c, e <> EDrop c) ->
    (forall c v vs b, e = EDeliver c v vs b -> live s c = true) -> gone (add_log e s).
  Proof.
    intros [A B] N D. split.
    - intros c [I|I]; [exfalso; eapply N; eauto|exact (A c I)].
    - change (silent ([e] ++ log s)). apply silent_app; auto.
      + intros c [I|[]]. eapply N; eauto.
      + intros c I. simpl. destruct e; auto. destruct (gid_eqb_spec c c0) as [->|]; auto.
        apply A in I as [I _]. rewrite (D c0 v vals refreshing) in I; auto. discriminate.
  Qed.

  Theorem exec_gone f cs s s' : GI s -> exec E f (TCmds cs) s = Ok s' -> gone s -> gone s'.
  Proof.
    intros G X. revert G X.
    assert (GET : forall f' id a b v, GI a -> get E f' id a = Ok (b, v) -> gone a -> gone b).
    { intros f' id a b v Ga GX H.
      destruct (get_facts f' id a b v Ga GX) as ((lc & L & FL) & (_ & _ & _ & LV & _ & _ & _ & NX & _) & _).
      eapply gone_calc; eauto. }
    apply (exec_rel E rank WF (fun s s' => gone s -> gone s')); auto.
    - intros a b Ga U H. destruct (up_facts a b Ga U) as [-> _]. exact H.
    - intros a b l cs' id v Ga T R H. destruct (report_facts a b l cs' id v Ga T R) as (t & c1 & h & ->). exact H.
    - intros f' id a b v Ga _ GX. apply (GET f' id a b v Ga GX).
    - intros f' id a b v Ga GX H. apply gone_event; [apply (GET f' id a b v Ga GX); auto| |]; intros; discriminate.
    - intros a c v Ga I H. apply gone_event; auto; [intros; discriminate|].
      intros c' v' vs' b' EQ. inversion EQ; subst. apply (gi_runlive _ _ _ _ Ga); auto.
    - intros a c b Ga LV NR X H.
      destruct (drop_facts a c b Ga LV NR X) as ((lc & L & FL) & LV2 & NX & _).
      destruct (calc_events_quiet lc FL) as (Q1 & _).
      destruct H as [A B].
      assert (NC : (gnum c < next a)%N).
      { destruct (N.ltb_spec (gnum c) (next a)); auto.
        destruct (gi_fresh _ _ _ _ Ga c); [lia|congruence]. }
      split.
      + intros d I. rewrite L in I. rewrite LV2, NX.
        apply in_app_iff in I as [I|[I|I]]; [exfalso; eapply calc_no_drop; eauto| |].
        * inversion I; subst. rewrite upd_same. auto.
        * destruct (A d I) as [A1 A2]. split; auto. unfold upd; destruct (gid_eqb d c); auto.
      + rewrite L. apply silent_app; [|apply calc_no_drop; auto|auto].
        intros d l2 l1 EQ. destruct l2 as [|e l2]; [reflexivity|].
        simpl in EQ. inversion EQ; subst. simpl. eapply B; eauto.
    - intros s0 a c s4 s6 G0 ST Ga PR G4 T14 S14 P14 PC H.
      destruct (sub_closed a c s4 s6 Ga PR T14 S14 PC) as ((lc & L & FL) & LV & NX & _).
      eapply gone_calc; [|exact L|exact FL|exact LV|exact NX]. apply P14.
      destruct ST as [[-> _]|(NL & _ & ->)].
      + exact H.
      + destruct H as [A B]. split; auto. intros d I. destruct (A d I) as [A1 A2]. simpl.
        rewrite upd_other by (intros ->; lia). split; auto. lia.
    - intros a b cs' Ga T Gb P TB H. apply gone_event; [|discriminate|discriminate].
      exact (P H).
  Qed.

  (** ** While subscriptions are refreshed *)

  Definition ev_at (vs : gid -> V) (e : @event V) : Prop :=
    match e with
    | ERead _ _ w => w = vs
    | EDeliver _ _ w b => w = vs /\ b = true
    | _ => True
    end.

  Definition refreshing_rel (s s' : @state V) : Prop :=
    tx s = Refreshing -> tx s' = Refreshing /\ vals s' = vals s /\
    exists l, log s' = l ++ log s /\ Forall (ev_at (vals s)) l.

  Lemma calc_ev_at vs l : Forall (calc_event (V := V)) l -> Forall (ev_at vs) l.
  Proof. apply Forall_impl. intros e; destruct e; simpl; tauto. Qed.

  Theorem exec_refreshing f cs s s' : GI s -> pre (TRefresh cs) s ->
    exec E f (TRefresh cs) s = Ok s' -> refreshing_rel s s'.
  Proof.
    intros G PR X. revert G PR X.
    assert (SAME : forall a b : @state V, tx b = tx a -> vals b = vals a -> log b = log a -> refreshing_rel a b).
    { intros a b T VV L Q. rewrite T, VV. split; auto. split; auto. exists []. rewrite L; auto. }
    apply (exec_rel_refresh E rank WF refreshing_rel).
    - intros a. apply SAME; auto.
    - intros a b c A B Q. destruct (A Q) as (A1 & A2 & l & A3 & A4).
      destruct (B A1) as (B1 & B2 & l' & B3 & B4). split; auto. split; [congruence|].
      exists (l' ++ l). rewrite B3, A3, app_assoc. split; auto. apply Forall_app. rewrite A2 in B4. auto.
    - intros a b Ga U Q. destruct (up_facts a b Ga U) as [_ N]. congruence.
    - intros a b l cs' id v Ga T R Q. congruence.
    - intros a l cs' id v Ga T _ Q. congruence.
    - intros f' id a b v Ga _ GX Q.
      destruct (get_facts f' id a b v Ga GX) as ((lc & L & FL) & (VV & _ & _ & _ & T & _) & _).
      split; [congruence|]. split; auto. exists lc. split; auto. apply calc_ev_at; auto.
    - intros f' id a b v Ga GX Q.
      destruct (get_facts f' id a b v Ga GX) as ((lc & L & FL) & (VV & _ & _ & _ & T & _) & _).
      split; [simpl; congruence|]. split; auto. exists (ERead id v (vals b) :: lc). simpl. rewrite L. split; auto.
      constructor; [exact VV|]. apply calc_ev_at; auto.
    - intros a c v Ga I. apply SAME; auto.
    - intros a c v Ga I Q. split; auto. split; auto.
      exists [EDeliver c v (vals a) (is_refreshing a)]. split; auto.
      constructor; auto. split; auto. unfold is_refreshing; rewrite Q; auto.
    - intros a c r Ga. apply SAME; auto.
    - intros a c Ga I. apply SAME; auto.
    - intros a c b Ga LV NR X Q.
      destruct (drop_facts a c b Ga LV NR X) as ((lc & L & FL) & LV2 & NX & VV & T & _).
      split; [congruence|]. split; auto. exists (lc ++ [EDrop c]). rewrite <- app_assoc. split; auto.
      apply Forall_app. split; [apply calc_ev_at; auto|repeat constructor].
    - intros s0 a c s4 s6 G0 ST Ga PR G4 T14 S14 P14 PC Q.
      destruct (sub_closed a c s4 s6 Ga PR T14 S14 PC) as ((lc & L & FL) & LV & NX & VV & T & _).
      assert (T0 : tx a = tx s0 /\ vals a = vals s0 /\ log a = log s0).
      { destruct ST as [[-> _]|(_ & _ & ->)]; auto. }
      destruct T0 as (T1 & T2 & T3).
      destruct (P14 ltac:(simpl; congruence)) as (W1 & W2 & l & W3 & W4). simpl in W2, W3, W4.
      split; [rewrite T; auto|]. split; [rewrite VV; congruence|].
      exists (lc ++ l). rewrite L, W3, T3, app_assoc. split; auto. apply Forall_app. rewrite <- T2.
      split; auto. apply calc_ev_at; auto.
    - intros a b cs' Ga T Gb P TB Q. congruence.
    - intros a l cs' Ga T _ Q. congruence.
  Qed.

  (** ** Established subscriptions *)

  Definition settled (s : @state V) : Prop :=
    (forall c, live s c = true -> ~ In c (running s) -> active s c = true) /\
    (forall c, live s c = true -> active s c = true -> child (graph_of s) (src c) c).

  Lemma settled_same (s s' : @state V) : settled s -> live s' = live s -> running s' = running s ->
    (forall c, active s' c = active s c) -> same_clients s s' ->
    (forall c, live s c = true -> gkind c = KClient) -> settled s'.
  Proof.
    intros [A B] L R AC SC LK. split; intros c.
    - rewrite L, R, AC; auto.
    - rewrite L, AC. intros H1 H2. apply SC; auto.
  Qed.

  Lemma settled_end s : settled s -> settled (set_tx Refreshing s).
  Proof. intros H; exact H. Qed.

  Definition settled_rel (s s' : @state V) : Prop := settled s -> settled s'.

  Lemma settled_up a b : GI a -> up a = Ok b -> settled_rel a b.
  Proof. intros Ga U H. destruct (up_facts a b Ga U) as [-> _]. exact H. Qed.

  Lemma settled_report a b l cs' id v : GI a -> tx a = Modification l cs' ->
    report_set id (set_vals (upd (vals a) id v) a) = Ok b -> settled_rel a b.
  Proof.
    intros Ga T R H. destruct (report_facts a b l cs' id v Ga T R) as (t & c1 & h & ->). exact H.
  Qed.

  Lemma settled_get f' id a b v : GI a -> get E f' id a = Ok (b, v) -> settled_rel a b.
  Proof.
    intros Ga GX H.
    destruct (get_facts f' id a b v Ga GX) as (_ & (_ & _ & _ & LV & _ & RN & _ & _ & AC) & SC & _).
    eapply settled_same; eauto. apply (gi_livek _ _ _ _ Ga).
  Qed.

  Lemma settled_drop a c b : GI a -> live a c = true -> ~ In c (running a) ->
    set_parents E c [] (add_log (EDrop c) (set_live (upd (live a) c false) a)) = Ok b -> settled_rel a b.
  Proof.
    intros Ga LV NR X [A B].
    destruct (drop_facts a c b Ga LV NR X) as (_ & LV2 & _ & _ & _ & _ & RN & _ & _ & AC & CH & _).
    split; intros d; rewrite LV2; intros L1; (assert (N : d <> c) by (intros ->; rewrite upd_same in L1; discriminate));
      rewrite upd_other in L1 by auto; rewrite AC by auto.
    - rewrite RN. auto.
    - intros L2. apply CH. split; auto. split; [apply B; auto|].
      intros O. apply orph_child in O as [e O]. apply (gi_kind _ _ _ _ Ga) in O as [O _].
      apply O, (gi_livek _ _ _ _ Ga); auto.
  Qed.

  Lemma settled_sub s0 a c s4 s6 : GI s0 -> starts s0 c a -> GI a -> pre (TSub c) a -> GI s4 ->
    trans (eq c) (tx a <> Idle) False [c] (open_sub c a) s4 -> same_tx (open_sub c a) s4 ->
    settled_rel (open_sub c a) s4 ->
    push_context E c (fst (frame_close s4)) (snd (frame_close s4)) = Ok s6 ->
    settled_rel s0 (set_dying (remove gid_dec c (dying (closed c s6))) (closed c s6)).
  Proof.
    intros G0 ST Ga PR G4 T14 S14 P14 PC H.
    destruct (sub_closed a c s4 s6 Ga PR T14 S14 PC)
      as (_ & LV & NX & _ & _ & _ & AC & RN & _ & ED & EC).
    set (s9 := set_dying (remove gid_dec c (dying (closed c s6))) (closed c s6)) in *.
    assert (H1 : settled (open_sub c a)).
    { destruct H as [A B]. split; intros d.
      - simpl. intros L N. destruct ST as [[-> _]|(NL & _ & ->)].
        + apply A; auto.
        + simpl in *. rewrite upd_other in L by (intros ->; auto). apply A; auto.
      - simpl. intros L N. destruct ST as [[-> _]|(NL & _ & ->)].
        + apply B; auto.
        + simpl in *. destruct (upd_spec (live s0) c true d) as [[-> _]|[_ Q]].
          * destruct (gi_fresh _ _ _ _ G0 c NL) as (_ & Q & _). congruence.
          * rewrite Q in L. apply B; auto. }
    destruct (P14 H1) as [A B]. pose proof (t_running _ _ _ _ _ _ _ _ T14) as R4. simpl in R4.
    split; intros d; rewrite LV, AC; intros L.
    - rewrite RN. intros N. destruct (gid_eqb_spec d c) as [->|NE]; auto. apply A; auto.
      rewrite R4. intros [Q|Q]; auto.
    - destruct (gid_eqb_spec d c) as [->|NE]; [intros _; exact EC|]. intros L2. apply ED; auto.
      apply (gi_livek _ _ _ _ G4); auto.
  Qed.

  Theorem exec_settled f cs s s' : GI s -> exec E f (TCmds cs) s = Ok s' -> settled s -> settled s'.
  Proof.
    intros G X. revert G X.
    apply (exec_rel E rank WF settled_rel); unfold settled_rel; auto.
    - intros a b Ga U. apply settled_up; auto.
    - intros a b l cs' id v Ga T R. eapply settled_report; eauto.
    - intros f' id a b v Ga _ GX. eapply settled_get; eauto.
    - intros f' id a b v Ga GX H. exact (settled_get f' id a b v Ga GX H).
    - intros a c b Ga LV NR X. eapply settled_drop; eauto.
    - intros s0 a c s4 s6 G0 ST Ga PR G4 T14 S14 P14 PC. eapply settled_sub; eauto.
  Qed.

  Lemma settled_task f t s s' : GI s -> pre t s -> exec E f t s = Ok s' ->
    match t with
    | TSub c => forall s0, GI s0 -> starts s0 c s -> settled_rel s0 s'
    | _ => settled_rel s s'
    end.
  Proof.
    apply (exec_rel_aux E rank WF settled_rel); unfold settled_rel; auto.
    - intros a b Ga U. apply settled_up; auto.
    - intros a b l cs' id v Ga T R. eapply settled_report; eauto.
    - intros f' id a b v Ga _ GX. eapply settled_get; eauto.
    - intros f' id a b v Ga GX H. exact (settled_get f' id a b v Ga GX H).
    - intros a c b Ga LV NR X. eapply settled_drop; eauto.
    - intros s0 a c s4 s6 G0 ST Ga PR G4 T14 S14 P14 PC. eapply settled_sub; eauto.
  Qed.

  Lemma run_settled vs h s : run E vs h s -> settled s.
  Proof.
    intros [f X]. eapply exec_settled; [apply (init_gi vs)|exact X|]. split; simpl; intros; discriminate.
  Qed.

  Lemma run_gone vs h s : run E vs h s -> gone s.
  Proof.
    intros [f X]. eapply exec_gone; [apply (init_gi vs)|exact X|]. split; simpl.
    - intros c [].
    - intros c l2 l1 EQ. destruct l2; discriminate.
  Qed.

  Lemma run_dedup vs h s : decides_eq E -> run E vs h s -> dedup_ok E s.
  Proof.
    intros DE [f X]. destruct (struct_cmds E rank WF f h _ s (init_gi vs) X) as [T S].
    apply (t_dedup _ _ _ _ _ _ _ _ T); auto. intros c _. simpl. auto.
  Qed.

  (** ** Refreshing reaches every pending subscription that survives *)

  Lemma sub_delivers f c s s' : GI s -> pre (TSub c) s -> s_dedup (e_sub E c) = false ->
    exec E (S f) (TSub c) s = Ok s' -> exists l, log s' = l ++ log s /\ delivered c l <> [].
  Proof.
    intros G PR SD X.
    pose proof (exec_sub_inv E f c s s' X) as (s2 & v & s4 & s6 & GX & H & PC & FIN).
    destruct (sub_get E rank WF f c s s2 v G PR GX) as (ST & F2 & T12 & TX2 & L2 & R2 & LV2 & G2 & G1).
    destruct (sub_body E rank WF f c s s2 v s4 G PR GX H) as [T14 S14].
    assert (SU : should_update E c v s2 = true) by (unfold should_update; rewrite SD; auto).
    destruct H as [(_ & sb & X5 & X4)|(Q & _)]; [|congruence].
    destruct (sub_tail E rank WF f c v s2 sb s4 G2 L2 LV2 SU X5 X4) as (TC & SC & TR & TDr & SDx).
    destruct (t_log _ _ _ _ _ _ _ _ T12) as (l1 & LL1 & _).
    destruct (t_log _ _ _ _ _ _ _ _ TC) as (l2 & LL2 & _).
    destruct (t_log _ _ _ _ _ _ _ _ TDr) as (l4 & LL4 & _).
    destruct (sub_closed s c s4 s6 G PR T14 S14 PC) as ((lc & L & FL) & _).
    destruct (close_ok E rank WF c (tx s <> Idle) s s4 (snd (frame_close s4)) (fst (frame_close s4)) s6 G PR T14 S14)
      as (T09 & S09 & _ & _); auto.
    { destruct (frame_close s4); auto. }
    set (s9 := set_dying (remove gid_dec c (dying (closed c s6))) (closed c s6)) in *.
    assert (LH : exists b, log (handed E c v s2) = EDeliver c v (vals s2) b :: log s2).
    { unfold handed, remembered. rewrite SD. eexists; reflexivity. }
    destruct LH as (b & LH). simpl in LL1, LL4.
    assert (L9 : log s9 = (lc ++ l4 ++ l2 ++ [EDeliver c v (vals s2) b] ++ l1) ++ log s).
    { rewrite L, LL4, LL2, LH, LL1. rewrite <- !app_assoc. reflexivity. }
    assert (D9 : delivered c (lc ++ l4 ++ l2 ++ [EDeliver c v (vals s2) b] ++ l1) <> []).
    { rewrite !delivered_app. simpl. rewrite gid_eqb_refl. simpl.
      intros Q. repeat (apply app_eq_nil in Q as [_ Q]). discriminate. }
    destruct FIN as [(_ & X9)|(_ & ->)]; [|eauto].
    destruct (struct_drop E rank WF f [c] s9 s' (t_gi _ _ _ _ _ _ _ _ T09) X9) as [T _].
    destruct (t_log _ _ _ _ _ _ _ _ T) as (l9 & LL9 & _).
    eexists. split; [rewrite LL9, L9, app_assoc; reflexivity|].
    rewrite delivered_app. intros Q. apply app_eq_nil in Q as [_ Q]. auto.
  Qed.

  Lemma refresh_reaches f : forall cs c s s', GI s -> pre (TRefresh cs) s -> settled s ->
    exec E f (TRefresh cs) s = Ok s' -> In c cs -> ~ In c (running s) -> s_dedup (e_sub E c) = false ->
    (gnum c < next s)%N -> live s' c = true ->
    exists l, log s' = l ++ log s /\ delivered c l <> [].
  Proof.
    induction f as [|f IH]; intros cs c s s' G PR SE X I NR SD NX LV; [discriminate|].
    destruct cs as [|d rest]; [destruct I|]. cbn [exec] in X.
    destruct (if live s d && active s d then _ else _) as [s1| |] eqn:X1; try discriminate. cbn [obind] in X.
    destruct PR as [TX RN].
    destruct (live s d && active s d) eqn:LA.
    - apply andb_prop in LA as [LD AC].
      assert (PS : pre (TSub d) s).
      { simpl. split; [apply (gi_livek _ _ _ _ G); auto|]. split; [auto|]. split; [|split].
        - destruct (N.ltb_spec (gnum d) (next s)); auto.
          destruct (gi_fresh _ _ _ _ G d); [lia|congruence].
        - intros H. rewrite RN in AC; auto. discriminate.
        - congruence. }
      destruct (exec_struct E rank WF f (TSub d) s s1 G PS X1) as [T S].
      assert (PR1 : pre (TRefresh rest) s1).
      { split; [eapply same_tx_refreshing; eauto|].
        intros e H. rewrite (t_running _ _ _ _ _ _ _ _ T) in H.
        destruct (t_keep _ _ _ _ _ _ _ _ T e H) as [-> _]; auto. }
      pose proof (t_gi _ _ _ _ _ _ _ _ T) as G1.
      destruct (exec_struct E rank WF f (TRefresh rest) s1 s' G1 PR1 X) as [T2 _].
      destruct (t_log _ _ _ _ _ _ _ _ T) as (l1 & LL1 & _).
      destruct (t_log _ _ _ _ _ _ _ _ T2) as (l2 & LL2 & _).
      destruct I as [->|I].
      + destruct f as [|f']; [discriminate|].
        destruct (sub_delivers f' c s s1 G PS SD X1) as (l & L & DL).
        exists (l2 ++ l). rewrite LL2, L, app_assoc. split; auto. rewrite delivered_app.
        intros Q. apply app_eq_nil in Q as [_ Q]. auto.
      + destruct (IH rest c s1 s' G1 PR1) as (l & L & DL); auto.
        * assert (Q : settled_rel s s1) by (apply (settled_task f (TSub d) s s1 G PS X1 s G); left; auto).
          apply Q; auto.
        * rewrite (t_running _ _ _ _ _ _ _ _ T). auto.
        * pose proof (t_next _ _ _ _ _ _ _ _ T). lia.
        * exists (l ++ l1). rewrite L, LL1, app_assoc. split; auto. rewrite delivered_app.
          intros Q. apply app_eq_nil in Q as [Q _]. auto.
    - inversion X1; subst s1. destruct I as [->|I].
      + exfalso.
        destruct (exec_struct E rank WF f (TRefresh rest) s s' G (conj TX RN) X) as [T2 _].
        assert (LS : live s c = true) by (apply (t_live _ _ _ _ _ _ _ _ T2); auto).
        rewrite LS, (proj1 SE c LS NR) in LA. discriminate.
      + apply (IH rest c s s'); auto. split; auto.
  Qed.
End Facts.
