(** Coherence: as long as no evaluation in progress lost something it had read, caches, reads and
    deliveries are the from-scratch values, and every subscription is up to date. *)

From Coq Require Import List NArith Bool Lia Arith Relations Wf_nat.
From Verif Require Import GraphModel GraphSpec GraphProofs ReactModel ReactSpec ReactBase ReactInv ReactExec
  ReactRel.
Import ListNotations.

Section Coh.
  Context {V : Type}.
  Variable E : @env V.
  Variable rank : gid -> nat.
  Hypothesis WF : well_founded_env E rank.
  Hypothesis DE : decides_eq E.

  Notation GI := (GI E rank).
  Notation GIx := (GIx E rank).
  Notation src := (src E).
  Notation open_sub := (open_sub E).
  Notation trans := (trans E rank).
  Notation coh := (coh E).
  Notation rk := (rk E rank).

  Lemma runs_transfer vs vs' p l v : runs E vs p l v ->
    (forall i x, In i l -> den E vs i x -> den E vs' i x) -> runs E vs' p l v.
  Proof.
    revert l v. induction p as [w|id k IH]; intros l v R H; inversion R; subst; [constructor|].
    econstructor; [apply H; simpl; eauto|]. apply IH; auto. intros; apply H; simpl; auto.
  Qed.

  Lemma runs_kind vs p l v n : reads_below rank n p -> runs E vs p l v ->
    forall i, In i l -> rank i < n /\ gkind i <> KClient.
  Proof.
    revert l v. induction p as [w|id k IH]; intros l v RB R i Hi; inversion R; subst; [destruct Hi|].
    destruct RB as (A & B & C). destruct Hi as [<-|Hi]; auto. eapply IH; eauto.
  Qed.

  Lemma runs_ext vs vs' : (forall i, vs' i = vs i) ->
    forall n p l v, reads_below rank n p -> runs E vs p l v -> runs E vs' p l v.
  Proof.
    intros EQ. induction n as [n IH] using lt_wf_ind. intros p l v RB R.
    apply (runs_transfer vs); auto. intros i x Hi D.
    destruct (runs_kind vs p l v n RB R i Hi) as [A B].
    inversion D; subst.
    - rewrite <- EQ. constructor; auto.
    - econstructor; eauto. eapply IH; eauto. apply WF; auto.
  Qed.

  Lemma coh_ext s vs : coh s -> (forall c v, cache s c = Some v -> gkind c = KComputed) ->
    (forall i, vs i = vals s i) -> coh (set_vals vs s).
  Proof.
    intros C K EQ c v H. destruct (C c v H) as (l & R & A & B). exists l. split; [|auto].
    simpl. eapply (runs_ext (vals s)); eauto. apply WF; eauto.
  Qed.

  (** Clearing the dependents of a changed value leaves only correct caches. *)
  Lemma report_runs s id v : GI s -> coh s ->
    forall n c w, rk c < n -> cache s c = Some w -> ~ dependents (child (graph_of s)) id c ->
    exists l, runs E (vals s) (e_comp E c) l w /\ runs E (upd (vals s) id v) (e_comp E c) l w.
  Proof.
    intros G C. induction n as [|n IH]; intros c w L CW ND; [lia|].
    destruct (C c w CW) as (l & R & PC & CC). exists l. split; auto.
    apply (runs_transfer (vals s)); auto. intros i x Hi D.
    pose proof (proj2 (PC i) Hi) as CH.
    inversion D as [i0 K|c0 l' x' K R']; subst.
    - rewrite <- (upd_other (vals s) id v i); [constructor; auto|].
      intros ->. apply ND, t_step; auto.
    - pose proof (CC i Hi K) as NN.
      destruct (cache s i) as [y|] eqn:CY; [|congruence].
      assert (y = x).
      { eapply den_det; [|exact D]. eapply coh_den; eauto. }
      subst y. destruct (IH i x) as (l2 & _ & R2); auto.
      + pose proof (gi_rank _ _ _ _ G _ _ CH). lia.
      + intros Q. apply ND. eapply t_trans; [exact Q|apply t_step; auto].
      + econstructor; eauto.
  Qed.

  Lemma report_coh s id v l cs s2 : GI s -> tx s = Modification l cs -> coh s ->
    report_set id (set_vals (upd (vals s) id v) s) = Ok s2 ->
    coh s2 /\
    (forall c, ~ dependents (child (graph_of s)) id c -> cache s2 c = cache s c) /\
    (hazard s2 = false -> forall n, in_frames n s -> gkind n = KComputed -> cache s2 n = cache s n) /\
    (exists cs', tx s2 = Modification l cs' /\
       forall c, gkind c = KClient -> In c cs \/ dependents (child (graph_of s)) id c -> In c cs') /\
    s2 = State (upd (vals s) id v) (cache s2) (active s) (prev s) (res s) (live s) (graph_of s) (conn s) (tx s2)
               (frames s) (running s) (dying s) (next s) (hazard s2) (log s).
  Proof.
    intros G T C R.
    assert (G1 : GI (set_vals (upd (vals s) id v) s)) by (apply GIx_vals; auto).
    destruct (report_set_ok E rank id _ s2 l cs G1 T R)
      as (deps & cs' & D & CI & SC & T' & C1 & C2 & C3 & HZ & EQ). simpl in *.
    destruct (get_all_deps_spec (graph_of s) id) as (r & X & _ & DS).
    rewrite X in D. inversion D; subst r. clear D.
    assert (KEEP : forall c, ~ dependents (child (graph_of s)) id c -> cache s2 c = cache s c).
    { intros c N. apply C2. rewrite DS; auto. }
    split; [|split; [auto|split; [|split; [exists cs'; split; auto|auto]]]].
    - intros c w CW. rewrite EQ; simpl.
      assert (CS : cache s c = Some w).
      { destruct (cache s c) eqn:Q; [|rewrite C3 in CW; auto]. 
        destruct (in_dec gid_eq_dec c deps) as [I|I].
        - rewrite C1 in CW; [discriminate|auto|]. eapply (gi_cache _ _ _ _ G); eauto.
        - rewrite C2 in CW; auto. congruence. }
      assert (ND : ~ dependents (child (graph_of s)) id c).
      { intros Q. apply DS in Q. rewrite C1 in CW; [discriminate|auto|]. eapply (gi_cache _ _ _ _ G); eauto. }
      destruct (report_runs s id v G C (S (rk c)) c w) as (lr & R1 & R2); auto.
      destruct (C c w CS) as (l' & R' & PC & CC).
      destruct (runs_det E _ _ _ _ _ _ R1 R') as [-> _].
      exists l'. split; [auto|split; [auto|]].
      intros p Hp K. rewrite KEEP; auto. intros Q. apply ND. eapply t_trans; [exact Q|apply t_step, PC; auto].
    - intros H n I K. destruct (in_dec gid_eq_dec n deps) as [J|J]; [|auto].
      assert (hazard s2 = true); [|congruence]. apply HZ. right. exists n; split; [auto|split; auto].
    - intros c K [H|H]; apply CI; [auto|right; split; auto; apply DS; auto].
  Qed.

  (** Replacing the parents of a subscription. *)
  Lemma set_parents_coh c new s s' :
    GIx (eq c) s -> gkind c = KClient -> sorted new ->
    (forall p, In p new -> p = src c /\ live s c = true) ->
    set_parents E c new s = Ok s' -> coh s -> hazard s' = false ->
    coh s' /\
    (forall n, in_frames n s -> gkind n = KComputed -> cache s' n = cache s n) /\
    (forall n d, gkind d = KClient -> d <> c -> child (graph_of s) n d ->
       child (graph_of s') n d /\ cache s' n = cache s n) /\
    (forall n, In n new -> cache s' n = cache s n /\ child (graph_of s') n c).
  Proof.
    intros G K SN NW X C H.
    assert (KN : forall p, In p new -> rk p < rk c /\ gkind p <> KClient).
    { intros p Hp. destruct (NW p Hp) as [-> _]. destruct (rk_src E rank WF c K). split; auto. congruence. }
    destruct (set_parents_ok E rank c new s G SN KN)
      as (s0 & X0 & G' & FZ & CH & CA & CB & CC & AC & HZ & LG & AM); auto; [congruence|].
    rewrite X0 in X. inversion X; subst s0. clear X.
    assert (OK : forall n, orph s c new n -> n <> c).
    { intros n O ->. apply orph_child in O as [d O]. apply (gi_kind _ _ _ _ G) in O as [O _]; auto. }
    assert (NH : forall n, in_frames n s -> gkind n = KComputed -> ~ orph s c new n).
    { intros n I Kn O. assert (hazard s' = true); [|congruence].
      apply HZ. right. exists n. auto. }
    assert (KEEP : forall n, gkind n = KComputed -> ~ orph s c new n -> cache s' n = cache s n).
    { intros n Kn O. destruct (gid_eq_dec n c) as [->|N]; [congruence|auto]. }
    assert (KEEP' : forall n, ~ orph s c new n -> cache s' n = cache s n).
    { intros n O. destruct (gid_eq_dec n c) as [->|N]; [auto|auto]. }
    split; [|split; [|split]].
    - intros d w Hd.
      assert (Kd : gkind d = KComputed) by (eapply (gi_cache _ _ _ _ G'); eauto).
      assert (dc : d <> c) by congruence.
      assert (NO : ~ orph s c new d).
      { intros O. rewrite (CA d) in Hd; auto; discriminate. }
      rewrite CB in Hd by auto. destruct (C d w Hd) as (l & R & PC & CL).
      exists l. split; [|split].
      + destruct FZ as (-> & _). auto.
      + intros p. rewrite CH, <- PC. intuition congruence.
      + intros p Hp Kp. rewrite KEEP; auto. intros O. inversion O as [m _ _ ALL]; subst.
        destruct (ALL d (proj2 (PC p) Hp)); auto.
    - intros n I Kn. auto.
    - intros n d Kd N CD.
      assert (NOd : ~ orph s c new d).
      { intros O. apply orph_child in O as [e O]. apply (gi_kind _ _ _ _ G) in O as [O _]; auto. }
      split; [apply CH; right; auto|]. apply KEEP'.
      intros O. inversion O as [m _ _ ALL]; subst. destruct (ALL d CD); auto.
    - intros n I. split; [apply KEEP'|apply CH; auto]. intros O. inversion O; subst; auto.
  Qed.

  (** ** The invariant *)

  Definition pending (s : @state V) (c : gid) : Prop :=
    match tx s with Modification _ cs => In c cs | _ => False end.

  (** What an event of the log promises. *)
  Definition ev_ok (e : @event V) : Prop :=
    match e with
    | ERead id v vs => den E vs id v
    | EDeliver c v vs _ => den E vs (src c) v
    | _ => True
    end.

  Definition uptodate (s : @state V) (c : gid) : Prop :=
    exists v, child (graph_of s) (src c) c /\ cache s (src c) = Some v /\
      hd_error (delivered c (log s)) = Some v.

  Record K (todo : gid -> Prop) (s : @state V) : Prop := {
    k_coh : coh s;
    k_frames : forall n, in_frames n s -> gkind n = KComputed -> cache s n <> None;
    k_act : forall c, live s c = true -> ~ In c (running s) -> active s c = true;
    k_sub : forall c, live s c = true -> ~ In c (running s) -> ~ todo c -> ~ pending s c -> uptodate s c;
    k_log : Forall ev_ok (log s);
    k_prev : dedup_ok E s
  }.

  Definition stable (s s' : @state V) : Prop :=
    forall n, in_frames n s -> gkind n = KComputed -> cache s' n = cache s n.

  Lemma stable_refl s : stable s s.
  Proof. intros n _ _; auto. Qed.

  Lemma stable_trans a b c : frames b = frames a -> stable a b -> stable b c -> stable a c.
  Proof.
    intros F A B n I Kn. rewrite B, A; auto. destruct I as (f & I & J). exists f; rewrite F; auto.
  Qed.

  Lemma K_todo (t t' : gid -> Prop) s : K t s ->
    (forall c, t c -> t' c \/ live s c = false \/ In c (running s) \/ pending s c) -> K t' s.
  Proof.
    intros [A B C D F P] H. constructor; auto. intros c L R N1 N2. apply D; auto.
    intros Q. destruct (H c Q) as [?|[?|[?|?]]]; auto. congruence.
  Qed.

  Lemma K_get todo f id s s1 v : GI s -> coh s ->
    (forall n, in_frames n s -> gkind n = KComputed -> cache s n <> None \/ n = id) ->
    (forall c, live s c = true -> ~ In c (running s) -> active s c = true) ->
    (forall c, live s c = true -> ~ In c (running s) -> ~ todo c -> ~ pending s c -> uptodate s c) ->
    Forall ev_ok (log s) -> dedup_ok E s ->
    get E f id s = Ok (s1, v) -> hazard s1 = false ->
    K todo s1 /\ den E (vals s1) id v /\ (gkind id = KComputed -> cache s1 id = Some v) /\
    (forall n, in_frames n s -> cache s n <> None -> cache s1 n = cache s n).
  Proof.
    intros G KC KF KA KS KL KP X H.
    destruct (get_ok E rank WF f id s s1 v G X) as (ST & FR & KI & VAL).
    destruct (VAL KC H) as [VD VC].
    pose proof ST as (G1 & (V1 & V2 & V3 & V4 & V5 & V6 & V7 & V8 & V9) & SC & (l & LG & FL) & _ & CO).
    destruct (CO KC H) as [C1 ST1].
    assert (FRI : forall n, in_frames n s1 <-> in_frames n s).
    { intros n; unfold in_frames; rewrite FR; tauto. }
    assert (SF : forall n, in_frames n s -> cache s n <> None -> cache s1 n = cache s n).
    { intros n I NN. apply ST1; auto. left; auto. }
    destruct (calc_events_quiet l FL) as (Q1 & Q2 & Q3).
    split; [|split; [auto|split; auto]]. constructor; auto.
    - intros n I Kn. rewrite FRI in I. destruct (KF n I Kn) as [NN| ->].
      + rewrite SF; auto.
      + rewrite VC; auto. congruence.
    - intros c. rewrite V4, V6, V9. auto.
    - intros c. rewrite V4, V6. unfold pending. rewrite V5. intros A B C D.
      destruct (KS c A B C D) as (w & U1 & U2 & U3).
      assert (Kc : gkind c = KClient) by (apply (gi_livek _ _ _ _ G); auto).
      exists w. split; [apply SC; auto|]. split.
      + rewrite ST1; auto; [|congruence]. right. exists c; auto.
      + rewrite LG, delivered_app, Q1. auto.
    - rewrite LG. apply Forall_app; split; auto. eapply Forall_impl; [|exact FL].
      intros e; destruct e; simpl; tauto.
    - intros c Hc. destruct (KP c Hc). rewrite LG, delivered_app, Q1, V2; auto.
  Qed.

  (** Changing the bookkeeping. *)
  Lemma K_tx todo todo' t s : K todo s ->
    (forall c, ~ todo' c -> match t with Modification _ cs => ~ In c cs | _ => True end ->
       ~ todo c /\ ~ pending s c) -> K todo' (set_tx t s).
  Proof.
    intros [A B C D F P] H. constructor; auto. intros c L R N1 N2. apply D; auto.
    - apply H; auto. unfold pending in N2; simpl in N2. destruct t; auto.
    - apply H; auto. unfold pending in N2; simpl in N2. destruct t; auto.
  Qed.

  Lemma K_log todo e s : (forall c v vs b, e <> EDeliver c v vs b) -> ev_ok e -> K todo s ->
    K todo (add_log e s).
  Proof.
    intros N O [A B C D F P].
    assert (DL : forall c, delivered c (log (add_log e s)) = delivered c (log s)).
    { intros c. simpl. destruct e; auto. exfalso; eapply N; eauto. }
    constructor; auto.
    - intros c H1 H2 H3 H4. destruct (D c H1 H2 H3 H4) as (v & U1 & U2 & U3). exists v.
      rewrite DL. auto.
    - constructor; auto.
    - intros c Hc. rewrite DL. apply P; auto.
  Qed.

  Lemma K_report todo id v l cs s s2 : GI s -> tx s = Modification l cs -> K todo s ->
    report_set id (set_vals (upd (vals s) id v) s) = Ok s2 -> hazard s2 = false ->
    K todo s2 /\ stable s s2.
  Proof.
    intros G T [A B C D F P] R H.
    destruct (report_coh s id v l cs s2 G T A R) as (C2 & KEEP & FRM & (cs' & T' & I') & EQ).
    split; [|intros n I Kn; apply FRM; auto]. constructor; auto.
    - intros n I Kn. assert (in_frames n s) by (rewrite EQ in I; exact I). rewrite FRM; auto.
    - rewrite EQ; auto.
    - intros c L R' N1 N2. assert (L0 : live s c = true) by (rewrite EQ in L; auto).
      assert (R0 : ~ In c (running s)) by (rewrite EQ in R'; auto).
      assert (Kc : gkind c = KClient) by (apply (gi_livek _ _ _ _ G); auto).
      unfold pending in N2. rewrite T' in N2.
      destruct (D c L0 R0 N1) as (w & U1 & U2 & U3).
      { unfold pending. rewrite T. intros Q. apply N2, I'; auto. }
      exists w. rewrite EQ; simpl. split; auto. split; auto.
      rewrite KEEP; auto. intros Q. apply N2, I'; auto. right. eapply t_trans; [exact Q|apply t_step; auto].
    - rewrite EQ; auto.
    - intros c. rewrite EQ. apply P.
  Qed.

  Lemma K_same todo id v s : GI s -> K todo s -> e_eqb E (vals s id) v = true ->
    K todo (set_vals (upd (vals s) id v) s).
  Proof.
    intros G [A B C D F P] EQ. constructor; auto. apply coh_ext; auto.
    - apply (gi_cache _ _ _ _ G).
    - intros i. destruct (upd_spec (vals s) id v i) as [[-> ->]|[_ ->]]; auto.
      apply DE in EQ. auto.
  Qed.

  Lemma K_drop todo c s s2 : GI s -> live s c = true -> ~ In c (running s) ->
    set_parents E c [] (add_log (EDrop c) (set_live (upd (live s) c false) s)) = Ok s2 ->
    K todo s -> hazard s2 = false -> K todo s2 /\ stable s s2.
  Proof.
    intros G LV NR X [A B C D F P] H.
    assert (KC : gkind c = KClient) by (apply (gi_livek _ _ _ _ G); auto).
    set (s1 := add_log (EDrop c) (set_live (upd (live s) c false) s)) in *.
    assert (G1 : GIx (eq c) s1).
    { apply GIx_log; [auto|congruence|]. destruct G; constructor; auto.
      + intros p d Q Kd N. simpl. rewrite upd_other by congruence. eapply gi_live; eauto.
      + intros d Q. destruct (gi_fresh d Q) as (A1 & A2 & A3 & A4 & A5 & A6 & A7). simpl.
        repeat split; auto. unfold upd; destruct (gid_eqb d c); auto.
      + intros d Q. simpl in Q. unfold upd in Q. destruct (gid_eqb d c); [discriminate|auto].
      + intros d Q. simpl. rewrite upd_other by (intros ->; auto). auto. }
    destruct (set_parents_ok E rank c [] s1 G1)
      as (s0 & X0 & G' & FZ & CH & CA & CB & CC & AC & HZ & (lc & LC & FLC) & AM); try congruence.
    { constructor. } { intros p []. } { intros _ p []. }
    rewrite X in X0. inversion X0; subst s0. clear X0.
    destruct (set_parents_coh c [] s1 s2 G1 KC) as (C2 & S1 & S2 & _); auto.
    { constructor. } { intros p []. }
    destruct FZ as (Z1 & Z2 & Z3 & Z4 & Z5 & Z6 & Z7 & Z8 & Z9). simpl in *.
    assert (CQ : Forall (calc_event (V := V)) lc).
    { eapply Forall_impl; [|exact FLC]. apply conn_calc_event. }
    destruct (calc_events_quiet lc CQ) as (Q1 & Q2 & Q3).
    assert (DL : forall d, delivered d (log s2) = delivered d (log s)).
    { intros d. rewrite LC, delivered_app, Q1; auto. }
    split; [|exact S1]. constructor; auto.
    - intros n I Kn. assert (in_frames n s) by (destruct I as (f & I & J); exists f; rewrite Z6 in I; auto).
      rewrite S1; auto.
    - intros d L R. rewrite Z4 in L. rewrite Z7 in R.
      assert (d <> c) by (intros ->; rewrite upd_same in L; discriminate).
      rewrite upd_other in L by auto. rewrite AC; auto.
    - intros d L R N1 N2. rewrite Z4 in L. rewrite Z7 in R.
      assert (N : d <> c) by (intros ->; rewrite upd_same in L; discriminate).
      rewrite upd_other in L by auto. unfold pending in N2. rewrite Z5 in N2.
      destruct (D d L R N1 N2) as (w & U1 & U2 & U3).
      assert (Kd : gkind d = KClient) by (apply (gi_livek _ _ _ _ G); auto).
      destruct (S2 (src d) d Kd N U1) as [W1 W2].
      exists w. rewrite W2, DL. auto.
    - rewrite LC. apply Forall_app; split.
      + eapply Forall_impl; [|exact CQ]. intros e; destruct e; simpl; tauto.
      + constructor; simpl; auto.
    - intros d Hd. rewrite DL, Z2. apply P; auto.
  Qed.

  Lemma hz_back me st hk sch s s' : trans me st hk sch s s' -> hazard s' = false -> hazard s = false.
  Proof. intros T H. apply not_true_false. intros Q. apply (t_hz _ _ _ _ _ _ _ _ T) in Q. congruence. Qed.

  (** Closing the function of a subscription. *)
  Lemma K_close todo c s s4 s6 v : GI s -> pre (TSub c) s ->
    trans (eq c) (tx s <> Idle) False [c] (open_sub c s) s4 -> same_tx (open_sub c s) s4 ->
    push_context E c (fst (frame_close s4)) (snd (frame_close s4)) = Ok s6 ->
    K todo s4 -> cache s4 (src c) = Some v -> hd_error (delivered c (log s4)) = Some v ->
    hazard s6 = false ->
    let s9 := set_dying (remove gid_dec c (dying (closed c s6))) (closed c s6) in
    K todo s9 /\ (forall n, in_frames n s -> gkind n = KComputed -> cache s9 n = cache s4 n).
  Proof.
    intros G PR T14 S14 PC [A B C D F P] CV HV H s9.
    destruct (close_ok E rank WF c (tx s <> Idle) s s4 (snd (frame_close s4)) (fst (frame_close s4)) s6 G PR T14 S14)
      as (T09 & S09 & CTX & S5); auto.
    { destruct (frame_close s4); auto. }
    rewrite CTX, S5 in PC. clear CTX S5.
    pose proof PR as (P1 & P2 & P3 & P4 & P5).
    pose proof (t_gi _ _ _ _ _ _ _ _ T14) as G4.
    pose proof (t_running _ _ _ _ _ _ _ _ T14) as R4. simpl in R4.
    pose proof (t_frames _ _ _ _ _ _ _ _ T14) as F4. simpl in F4.
    assert (LV : live s4 c = true) by (apply (gi_runlive _ _ _ _ G4); rewrite R4; simpl; auto).
    change (push_context E c [src c] (set_frames (frames s) s4)) with
      (set_parents E c [src c] (set_frames (frames s) s4)) in PC.
    set (s5 := set_frames (frames s) s4) in *.
    assert (G5 : GIx (eq c) s5).
    { apply GIx_frames. eapply GIx_weaken; [|exact G4]. intros ? []. }
    assert (SS : sorted [src c]) by (repeat constructor).
    assert (NW : forall p, In p [src c] -> p = src c /\ live s5 c = true).
    { intros p [<-|[]]; auto. }
    destruct (rk_src E rank WF c P1) as [RK KS].
    destruct (set_parents_ok E rank c [src c] s5 G5 SS)
      as (s0 & X0 & G6 & FZ & CH & CA & CB & CC & AC & HZ & (lc & LC & FLC) & AM); auto; [|congruence|].
    { intros p [<-|[]]; split; auto. congruence. }
    rewrite PC in X0. inversion X0; subst s0. clear X0.
    destruct (set_parents_coh c [src c] s5 s6 G5 P1 SS NW PC) as (C2 & SB1 & SB2 & SB3); auto.
    destruct FZ as (Z1 & Z2 & Z3 & Z4 & Z5 & Z6 & Z7 & Z8 & Z9). simpl in Z1, Z2, Z3, Z4, Z5, Z6, Z7, Z8, Z9.
    assert (CQ : Forall (calc_event (V := V)) lc).
    { eapply Forall_impl; [|exact FLC]. apply conn_calc_event. }
    destruct (calc_events_quiet lc CQ) as (Q1 & Q2 & Q3).
    assert (DL : forall d, delivered d (log s6) = delivered d (log s4)).
    { intros d. rewrite LC, delivered_app, Q1; auto. }
    assert (R9 : running s9 = running s).
    { change (running s9) with (remove gid_dec c (running s6)). rewrite Z7, R4. simpl.
      destruct (gid_dec c c); [|congruence]. apply remove_notin; auto. }
    assert (RI : forall d, ~ In d (running s9) -> d <> c -> ~ In d (running s4)).
    { intros d N1 N2. rewrite R9 in N1. rewrite R4. intros [<-|Q]; auto. }
    split.
    - constructor.
      + exact C2.
      + intros n (f & I & J) Kn. change (frames s9) with (frames s6) in I. rewrite Z6 in I.
        assert (I5 : in_frames n s5) by (exists f; auto).
        change (cache s9 n) with (cache s6 n). rewrite SB1 by auto. apply B; auto.
        exists f. rewrite F4. split; [right; auto|auto].
      + intros d L R. change (active s9 d) with (upd (active s6) c true d).
        destruct (upd_spec (active s6) c true d) as [[-> ->]|[N ->]]; auto.
        rewrite AC by auto. apply C; [change (live s6 d = true) in L; rewrite Z4 in L; auto|apply RI; auto].
      + intros d L R N1 N2. change (live s6 d = true) in L. rewrite Z4 in L.
        destruct (gid_eq_dec d c) as [->|N].
        * exists v. change (graph_of s9) with (graph_of s6). change (cache s9) with (cache s6).
          change (log s9) with (log s6). rewrite DL.
          destruct (SB3 (src c)) as [W1 W2]; [simpl; auto|]. split; auto. split; auto. rewrite W1; auto.
        * destruct (D d L (RI d R N) N1) as (w & U1 & U2 & U3).
          { unfold pending in *. change (tx s9) with (tx s6) in N2. rewrite Z5 in N2. auto. }
          assert (Kd : gkind d = KClient) by (apply (gi_livek _ _ _ _ G4); auto).
          destruct (SB2 (src d) d Kd N U1) as [W1 W2].
          exists w. change (graph_of s9) with (graph_of s6). change (cache s9) with (cache s6).
          change (log s9) with (log s6). rewrite DL, W2. auto.
      + change (log s9) with (log s6). rewrite LC. apply Forall_app; split; auto.
        eapply Forall_impl; [|exact CQ]. intros e; destruct e; simpl; tauto.
      + intros d Hd. change (log s9) with (log s6). change (prev s9) with (prev s6).
        rewrite DL, Z2. apply P; auto.
    - intros n I Kn. change (cache s9 n) with (cache s6 n). apply (SB1 n); auto.
  Qed.

  Definition coh_pre (t : @task V) (todo : gid -> Prop) (s : @state V) : Prop :=
    match t with
    | TSub c => K todo (set_running (c :: running s) s)
    | TRefresh cs => K (fun d => todo d \/ In d cs) s
    | _ => K todo s
    end.

  Theorem exec_coh f : forall t todo s s', GI s -> pre t s -> coh_pre t todo s ->
    exec E f t s = Ok s' -> hazard s' = false -> K todo s' /\ stable s s'.
  Proof.
    induction f as [|f IH]; intros t todo s s' G PR KP X HZ; [discriminate|].
    assert (IHC : forall cs todo s s', GI s -> K todo s -> exec E f (TCmds cs) s = Ok s' ->
              hazard s' = false -> K todo s' /\ stable s s').
    { intros cs td a b Ga Ka Xa Ha. apply (IH (TCmds cs) td a b); auto. exact I. }
    assert (IHD : forall cs todo s s', GI s -> K todo s -> exec E f (TDrop cs) s = Ok s' ->
              hazard s' = false -> K todo s' /\ stable s s').
    { intros cs td a b Ga Ka Xa Ha. apply (IH (TDrop cs) td a b); auto. exact I. }
    pose proof (exec_struct E rank WF f) as ES.
    destruct t as [cs|c|cs|cs|]; simpl in KP.
    - destruct cs as [|cm rest]; cbn [exec] in X; [inversion X; subst; split; auto; apply stable_refl|].
      assert (TXN : forall s1 s2 s3, up s = Ok s1 ->
                trans none (tx s1 <> Idle) False [] s1 s2 -> same_tx s1 s2 ->
                (hazard s2 = false -> K todo s1 -> K todo s2 /\ stable s1 s2) ->
                exec E f TEnd s2 = Ok s3 -> exec E f (TCmds rest) s3 = Ok s' -> K todo s' /\ stable s s').
      { intros s1 s2 s3 U T12 S12 K12 X3 XR.
        destruct (up_ok E rank none True False s s1 G U) as (T01 & NR & E1 & l & cs1 & T1 & M).
        assert (PE : pre TEnd s2).
        { unfold same_tx in S12; rewrite T1 in S12. destruct S12 as (cs2 & S12 & _). simpl; eauto. }
        pose proof (t_gi _ _ _ _ _ _ _ _ T12) as G2.
        pose proof (ES TEnd s2 s3 G2 PE X3) as PO.
        destruct (txn_post E rank s s1 s2 s3 G U T12 S12 PO) as [T03 S03].
        pose proof (t_gi _ _ _ _ _ _ _ _ T03) as G3.
        destruct (struct_cmds E rank WF f rest s3 s' G3 XR) as [T34 _].
        assert (H3 : hazard s3 = false) by (eapply hz_back; eauto).
        assert (T23 : exists st hk sch, trans none st hk sch s2 s3).
        { destruct PO as (l' & cs' & _ & [(_ & Q & _)|(_ & _ & Q)]); eauto. }
        destruct T23 as (st & hk & sch & T23).
        assert (H2 : hazard s2 = false) by (eapply hz_back; eauto).
        assert (K1 : K todo s1).
        { rewrite E1. eapply K_tx; [exact KP|]. intros c N1 N2. split; auto.
          rewrite T1 in N2. unfold pending. destruct (tx s); auto. destruct M as [_ ->]; auto. }
        destruct (K12 H2 K1) as [K2 ST2].
        destruct (IH TEnd todo s2 s3 G2 PE K2 X3 H3) as [K3 ST3].
        destruct (IHC rest todo s3 s' G3 K3 XR HZ) as [K4 ST4].
        split; auto.
        assert (F1 : frames s1 = frames s) by (rewrite E1; auto).
        pose proof (t_frames _ _ _ _ _ _ _ _ T12) as F2. pose proof (t_frames _ _ _ _ _ _ _ _ T23) as F3.
        apply (stable_trans s s1); auto; [rewrite E1; exact (stable_refl s)|].
        apply (stable_trans s1 s2); auto. apply (stable_trans s2 s3); auto. }
      destruct cm as [id v|id v|body|id k|c|c].
      + destruct (negb (is_value id)); [discriminate|].
        destruct (up s) as [s1| |] eqn:U; try discriminate. cbn [obind] in X.
        destruct (report_set id _) as [s2| |] eqn:R; try discriminate. cbn [obind] in X.
        destruct (exec E f TEnd s2) as [s3| |] eqn:X3; try discriminate. cbn [obind] in X.
        destruct (up_ok E rank none True False s s1 G U) as (T01 & NR & _ & l & cs1 & T1 & M).
        assert (NR1 : tx s1 <> Refreshing) by (rewrite T1; congruence).
        pose proof (t_gi _ _ _ _ _ _ _ _ T01) as G1.
        pose proof (set_vals_trans E rank none (tx s1 <> Idle) False (upd (vals s1) id v) s1 G1 NR1) as TV.
        assert (TR : trans none (tx s1 <> Idle) False [] (set_vals (upd (vals s1) id v) s1) s2)
          by (eapply report_trans; eauto; apply TV).
        assert (ST : same_tx s1 s2).
        { destruct (report_set_ok E rank _ _ _ _ _ (t_gi _ _ _ _ _ _ _ _ TV) T1 R) as (d & cs' & _ & C & _ & T' & _).
          unfold same_tx. rewrite T1, T'. exists cs'; split; auto. intros n Hn; apply C; auto. }
        eapply TXN; [reflexivity| |exact ST| |exact X3|exact X].
        * change (@nil gid) with (@nil gid ++ []). eapply trans_seq; eauto. apply same_tx_refl; auto.
        * intros H2 K1. eapply K_report; eauto.
      + destruct (negb (is_value id)); [discriminate|].
        destruct (up s) as [s1| |] eqn:U; try discriminate. cbn [obind] in X.
        destruct (if e_eqb E (vals s1 id) v then _ else _) as [s2| |] eqn:R; try discriminate. cbn [obind] in X.
        destruct (exec E f TEnd s2) as [s3| |] eqn:X3; try discriminate. cbn [obind] in X.
        destruct (up_ok E rank none True False s s1 G U) as (T01 & NR & _ & l & cs1 & T1 & M).
        assert (NR1 : tx s1 <> Refreshing) by (rewrite T1; congruence).
        pose proof (t_gi _ _ _ _ _ _ _ _ T01) as G1.
        pose proof (set_vals_trans E rank none (tx s1 <> Idle) False (upd (vals s1) id v) s1 G1 NR1) as TV.
        destruct (e_eqb E (vals s1 id) v) eqn:EQ.
        * inversion R; subst s2.
          eapply TXN; [reflexivity|exact TV|apply same_tx_refl; auto| |exact X3|exact X].
          intros _ K1. split; [apply K_same; auto|exact (stable_refl s1)].
        * assert (TR : trans none (tx s1 <> Idle) False [] (set_vals (upd (vals s1) id v) s1) s2)
            by (eapply report_trans; eauto; apply TV).
          assert (ST : same_tx s1 s2).
          { destruct (report_set_ok E rank _ _ _ _ _ (t_gi _ _ _ _ _ _ _ _ TV) T1 R) as (d & cs' & _ & C & _ & T' & _).
            unfold same_tx. rewrite T1, T'. exists cs'; split; auto. intros n Hn; apply C; auto. }
          eapply TXN; [reflexivity| |exact ST| |exact X3|exact X].
          -- change (@nil gid) with (@nil gid ++ []). eapply trans_seq; eauto. apply same_tx_refl; auto.
          -- intros H2 K1. eapply K_report; eauto.
      + destruct (up s) as [s1| |] eqn:U; try discriminate. cbn [obind] in X.
        destruct (exec E f (TCmds body) s1) as [s2| |] eqn:X2; try discriminate. cbn [obind] in X.
        destruct (exec E f TEnd s2) as [s3| |] eqn:X3; try discriminate. cbn [obind] in X.
        destruct (up_ok E rank none True False s s1 G U) as (T01 & NR & _ & l & cs1 & T1 & M).
        pose proof (t_gi _ _ _ _ _ _ _ _ T01) as G1.
        destruct (struct_cmds E rank WF f body s1 s2 G1 X2) as [T12 S12].
        eapply TXN; [reflexivity|exact T12|exact S12| |exact X3|exact X].
        intros H2 K1. eapply IHC; eauto.
      + destruct (get E f id s) as [[s1 v]| |] eqn:GX; try discriminate. cbn [obind] in X.
        destruct (get_ok E rank WF f id s s1 v G GX) as (ST & FR & KI & _).
        assert (G1 : GI s1) by apply ST.
        set (s2 := add_log (ERead id v (vals s1)) s1) in *.
        assert (G2 : GI s2) by (apply GIx_log; [auto|congruence|auto]).
        destruct (struct_cmds E rank WF f _ s2 s' G2 X) as [T2 _].
        assert (H1 : hazard s1 = false) by (apply (hz_back _ _ _ _ _ _ T2 HZ)).
        destruct KP as [A B C D F P].
        destruct (K_get todo f id s s1 v G A) as (K1 & VD & _ & SF); auto.
        assert (K2 : K todo s2) by (apply K_log; [congruence|exact VD|auto]).
        destruct (IHC _ todo s2 s' G2 K2 X HZ) as [K3 ST3]. split; auto.
        apply (stable_trans s s2); auto. intros n I Kn. apply SF; auto.
      + destruct (N.leb_spec (next s) (gnum c)) as [L|]; [|discriminate]. simpl andb in X.
        destruct (gkind c) eqn:KC; try discriminate.
        destruct (new_sub_trans E rank none (tx s <> Idle) False c s G L KC) as [T02 P2].
        set (s2 := set_live (upd (live (set_next (gnum c + 1)%N s)) c true) (set_next (gnum c + 1)%N s)) in *.
        change (set_live (upd (live s) c true) (set_next (gnum c + 1)%N s)) with s2 in T02, P2.
        destruct (exec E f (TSub c) s2) as [s3| |] eqn:X3; try discriminate. cbn [obind] in X.
        pose proof (t_gi _ _ _ _ _ _ _ _ T02) as G2.
        destruct (ES (TSub c) _ _ G2 P2 X3) as [T23 S23].
        pose proof (t_gi _ _ _ _ _ _ _ _ T23) as G3.
        destruct (struct_cmds E rank WF f rest s3 s' G3 X) as [T34 _].
        assert (H3 : hazard s3 = false) by (eapply hz_back; eauto).
        assert (K2 : K todo (set_running (c :: running s2) s2)).
        { destruct KP as [A B C D F P]. constructor; auto.
          - intros d LD RD. simpl in LD, RD. rewrite upd_other in LD by (intros ->; auto).
            apply C; auto.
          - intros d LD RD N1 N2. simpl in LD, RD. rewrite upd_other in LD by (intros ->; auto).
            apply D; auto. }
        destruct (IH (TSub c) todo s2 s3 G2 P2 K2 X3 H3) as [K3 ST3].
        destruct (IHC rest todo s3 s' G3 K3 X HZ) as [K4 ST4]. split; auto.
        apply (stable_trans s s2); auto; [exact (stable_refl s)|].
        apply (stable_trans s2 s3); auto. apply T23.
      + destruct (exec E f (TDrop [c]) s) as [s1| |] eqn:X1; try discriminate. cbn [obind] in X.
        destruct (struct_drop E rank WF f [c] s s1 G X1) as [T S].
        pose proof (t_gi _ _ _ _ _ _ _ _ T) as G1.
        destruct (struct_cmds E rank WF f rest s1 s' G1 X) as [T2 _].
        assert (H1 : hazard s1 = false) by (eapply hz_back; eauto).
        destruct (IHD [c] todo s s1 G KP X1 H1) as [K1 ST1].
        destruct (IHC rest todo s1 s' G1 K1 X HZ) as [K2 ST2]. split; auto.
        apply (stable_trans s s1); auto. apply T.
    - pose proof (exec_sub_inv E f c s s' X) as (s2 & v & s4 & s6 & GX & H & PC & FIN).
      destruct (sub_get E rank WF f c s s2 v G PR GX) as (ST & F2 & T12 & TX2 & L2 & R2 & LV2 & G2 & G1).
      destruct (sub_body E rank WF f c s s2 v s4 G PR GX H) as [T14 S14].
      pose proof (t_gi _ _ _ _ _ _ _ _ T14) as G4.
      destruct (close_ok E rank WF c (tx s <> Idle) s s4 (snd (frame_close s4)) (fst (frame_close s4)) s6 G PR T14 S14)
        as (T09 & S09 & CTX & S5); auto.
      { destruct (frame_close s4); auto. }
      set (s9 := set_dying (remove gid_dec c (dying (closed c s6))) (closed c s6)) in *.
      pose proof (t_gi _ _ _ _ _ _ _ _ T09) as G9.
      assert (H9 : hazard s9 = false).
      { destruct FIN as [(_ & X9)|(_ & ->)]; [|exact HZ].
        destruct (struct_drop E rank WF f [c] s9 s' G9 X9) as [T _]. eapply hz_back; eauto. }
      assert (H6 : hazard s6 = false) by exact H9.
      assert (H4 : hazard s4 = false).
      { apply not_true_false. intros Q.
        pose proof PR as (P1 & _).
        rewrite CTX, S5 in PC.
        change (push_context E c [src c] (set_frames (frames s) s4)) with
          (set_parents E c [src c] (set_frames (frames s) s4)) in PC.
        destruct (rk_src E rank WF c P1) as [RK KS].
        destruct (set_parents_ok E rank c [src c] (set_frames (frames s) s4))
          as (s0 & X0 & _ & _ & _ & _ & _ & _ & _ & HZZ & _); auto.
        - apply GIx_frames. eapply GIx_weaken; [|exact G4]. intros ? [].
        - repeat constructor.
        - intros p [<-|[]]; split; auto. congruence.
        - congruence.
        - intros _ p [<-|[]]. split; auto. apply (gi_runlive _ _ _ _ G4).
          rewrite (t_running _ _ _ _ _ _ _ _ T14). simpl; auto.
        - rewrite PC in X0. inversion X0; subst s0. assert (hazard s6 = true) by (apply HZZ; auto). congruence. }
      assert (MID : hazard s2 = false -> K todo s2 /\ cache s2 (src c) = Some v /\
                    den E (vals s2) (src c) v /\
                    (forall n, in_frames n s -> gkind n = KComputed -> cache s2 n = cache s n)).
      { intros H2. destruct KP as [A B C D F P].
        destruct (K_get todo f (src c) (open_sub c s) s2 v G1) as (K2 & VD & VC & SF); auto.
        - intros n (fr & I & J) Kn. simpl in I. destruct I as [<-|I].
          + destruct J as [<-|[]]; auto.
          + left. apply B; auto. exists fr; auto.
        - destruct (rk_src E rank WF c) as [_ KS]; [apply PR|].
          split; [exact K2|split; [auto|split; auto]].
          intros n I Kn. apply SF.
          + destruct I as (fr & I & J). exists fr. split; [right; auto|auto].
          + apply B; auto. }
      destruct H as [(SU & sb & X5 & X4)|(SU & ->)].
      + destruct (sub_handed E rank c v (tx s2 <> Idle) s2 G2 L2 LV2 SU) as [TD TX].
        destruct (sub_tail E rank WF f c v s2 sb s4 G2 L2 LV2 SU X5 X4) as (TC & SC & TR & TDr & SD).
        set (sr := set_res (upd (res sb) c (s_res (e_sub E c) v)) sb) in *.
        assert (Hr : hazard sr = false) by (eapply hz_back; eauto).
        assert (Hb : hazard sb = false) by exact Hr.
        assert (Hh : hazard (handed E c v s2) = false) by (eapply hz_back; eauto).
        assert (H2 : hazard s2 = false) by (eapply hz_back; eauto).
        destruct (MID H2) as (K2 & C2 & VD & SF).
        assert (NEQ : vals (remembered E c v s2) = vals s2) by (unfold remembered; destruct (s_dedup _); auto).
        assert (GEQ : handed E c v s2 = State (vals s2) (cache s2) (active s2) (prev (handed E c v s2)) (res s2)
                  (live s2) (graph_of s2) (conn s2) (tx s2) (frames s2) (running s2) (dying s2) (next s2)
                  (hazard s2) (log (handed E c v s2))).
        { unfold handed, remembered. destruct (s_dedup (e_sub E c)); reflexivity. }
        assert (LEQ : log (handed E c v s2) = EDeliver c v (vals s2) (is_refreshing (remembered E c v s2)) :: log s2).
        { unfold handed. simpl. rewrite NEQ. unfold remembered; destruct (s_dedup _); auto. }
        assert (Kh : K todo (handed E c v s2)).
        { destruct K2 as [A B C D F P]. constructor.
          - rewrite GEQ. exact A.
          - rewrite GEQ. exact B.
          - rewrite GEQ. exact C.
          - rewrite GEQ. intros d LD RD N1 N2. simpl in LD, RD.
            destruct (D d LD RD N1 N2) as (w & U1 & U2 & U3). exists w. split; [exact U1|]. split; [exact U2|].
            change (hd_error (delivered d (log (handed E c v s2))) = Some w).
            rewrite LEQ. simpl. rewrite gid_eqb_neq; auto. intros ->. apply RD. rewrite R2; simpl; auto.
          - rewrite LEQ. constructor; auto.
          - apply (t_dedup _ _ _ _ _ _ _ _ TD); auto. }
        destruct (IHC _ todo _ sb (t_gi _ _ _ _ _ _ _ _ TD) Kh X5 Hb) as [Kb STb].
        assert (Kr : K todo sr) by (destruct Kb; constructor; auto).
        destruct (IHD _ todo _ s4 (t_gi _ _ _ _ _ _ _ _ TR) Kr X4 H4) as [K4 ST4].
        pose proof (t_frames _ _ _ _ _ _ _ _ TC) as FB.
        assert (FH : frames (handed E c v s2) = [src c] :: frames s) by (rewrite GEQ; auto).
        assert (ST24 : forall n, in_frames n (handed E c v s2) -> gkind n = KComputed -> cache s4 n = cache s2 n).
        { intros n I Kn. rewrite ST4; auto.
          - change (cache sr n) with (cache sb n). rewrite STb; auto. rewrite GEQ; auto.
          - destruct I as (fr & I & J). exists fr. change (frames sr) with (frames sb). rewrite FB; auto. }
        assert (C4 : cache s4 (src c) = Some v).
        { rewrite ST24; auto.
          - exists [src c]. rewrite FH. simpl; auto.
          - apply (rk_src E rank WF c). apply PR. }
        assert (D4 : hd_error (delivered c (log s4)) = Some v).
        { destruct (t_log _ _ _ _ _ _ _ _ TC) as (lb & LB & LB1 & _).
          destruct (t_log _ _ _ _ _ _ _ _ TDr) as (l4 & L4 & L41 & _).
          change (log sr) with (log sb) in L4. rewrite L4, LB, !delivered_app.
          rewrite L41, LB1.
          - rewrite LEQ. simpl. rewrite gid_eqb_refl. auto.
          - rewrite GEQ. simpl. rewrite R2; simpl; auto.
          - intros [].
          - change (running sr) with (running sb). rewrite (t_running _ _ _ _ _ _ _ _ TC), GEQ. simpl.
            rewrite R2; simpl; auto.
          - intros []. }
        destruct (K_close todo c s s4 s6 v G PR T14 S14 PC K4 C4 D4 H6) as [K9 ST9]. fold s9 in K9, ST9.
        assert (STF : stable s s9).
        { intros n I Kn. rewrite ST9 by auto. rewrite ST24; auto.
          destruct I as (fr & I & J). exists fr. rewrite FH. split; [right; auto|auto]. }
        destruct FIN as [(_ & X9)|(_ & ->)]; [|split; auto].
        destruct (IHD [c] todo s9 s' G9 K9 X9 HZ) as [K10 ST10]. split; auto.
        apply (stable_trans s s9); auto. apply (t_frames _ _ _ _ _ _ _ _ T09).
      + destruct (sub_quiet E rank c v (tx s <> Idle) s2 G2 L2 SU) as [TQ TX].
        assert (H2 : hazard s2 = false) by (eapply hz_back; eauto).
        destruct (MID H2) as (K2 & C2 & VD & SF).
        unfold should_update in SU.
        destruct (s_dedup (e_sub E c)) eqn:SD; [|discriminate].
        destruct (prev s2 c) as [w|] eqn:PV; [|discriminate].
        assert (w = v) by (destruct (e_eqb E w v) eqn:Q; [apply DE; auto|discriminate]). subst w.
        assert (REQ : remembered E c v s2 = set_prev (upd (prev s2) c (Some v)) s2)
          by (unfold remembered; rewrite SD; auto).
        assert (D4 : hd_error (delivered c (log s2)) = Some v).
        { destruct (k_prev _ _ K2 c SD) as [Q _]. congruence. }
        assert (K4 : K todo (remembered E c v s2)).
        { pose proof (t_dedup _ _ _ _ _ _ _ _ TQ DE (k_prev _ _ K2)) as DD.
          rewrite REQ in *. destruct K2; constructor; auto. }
        rewrite REQ in *.
        destruct (K_close todo c s _ s6 v G PR T14 S14 PC K4 C2 D4 H6) as [K9 ST9]. fold s9 in K9, ST9.
        assert (STF : stable s s9).
        { intros n I Kn. rewrite ST9 by auto. apply SF; auto. }
        destruct FIN as [(_ & X9)|(_ & ->)]; [|split; auto].
        destruct (IHD [c] todo s9 s' G9 K9 X9 HZ) as [K10 ST10]. split; auto.
        apply (stable_trans s s9); auto. apply (t_frames _ _ _ _ _ _ _ _ T09).
    - destruct PR as [TX RN]. destruct cs as [|c rest]; cbn [exec] in X.
      { inversion X; subst. split; [|apply stable_refl]. eapply K_todo; [exact KP|]. intros d [?|[]]; auto. }
      destruct (if live s c && active s c then _ else _) as [s1| |] eqn:X1; try discriminate. cbn [obind] in X.
      destruct (live s c && active s c) eqn:LA.
      + apply andb_prop in LA as [LV AC].
        assert (PS : pre (TSub c) s).
        { simpl. split; [apply (gi_livek _ _ _ _ G); auto|]. split; [auto|]. split; [|split].
          - destruct (N.ltb_spec (gnum c) (next s)); auto.
            destruct (gi_fresh _ _ _ _ G c); [lia|congruence].
          - intros H. rewrite RN in AC; auto. discriminate.
          - congruence. }
        destruct (ES (TSub c) s s1 G PS X1) as [T S].
        assert (PR1 : pre (TRefresh rest) s1).
        { split; [eapply same_tx_refreshing; eauto|].
          intros d H. rewrite (t_running _ _ _ _ _ _ _ _ T) in H.
          destruct (t_keep _ _ _ _ _ _ _ _ T d H) as [-> _]; auto. }
        pose proof (t_gi _ _ _ _ _ _ _ _ T) as G1.
        destruct (ES (TRefresh rest) s1 s' G1 PR1 X) as [T2 _].
        assert (H1 : hazard s1 = false) by (eapply hz_back; eauto).
        destruct (IH (TSub c) (fun d => todo d \/ In d rest) s s1 G PS) as [K1 ST1]; auto.
        { destruct KP as [A B C D F P]. constructor; auto.
          - intros d LD RD. apply C; auto. intros Q; apply RD; right; auto.
          - intros d LD RD N1 N2. apply D; auto.
            + intros Q; apply RD; right; auto.
            + intros [Q|[Q|Q]]; [apply N1; auto|apply RD; left; auto|apply N1; auto]. }
        destruct (IH (TRefresh rest) todo s1 s' G1 PR1 K1 X HZ) as [K2 ST2]. split; auto.
        apply (stable_trans s s1); auto. apply T.
      + inversion X1; subst s1. apply (IH (TRefresh rest) todo s s'); auto; [split; auto|].
        simpl. eapply K_todo; [exact KP|]. intros d [Q|[<-|Q]]; auto.
        apply andb_false_iff in LA as [Q|Q]; auto.
        destruct (in_dec gid_eq_dec c (running s)) as [I|I]; auto.
        destruct (live s c) eqn:LV; auto. rewrite (k_act _ _ KP c LV I) in Q. discriminate.
    - destruct cs as [|c rest]; cbn [exec] in X; [inversion X; subst; split; auto; apply stable_refl|].
      destruct (if negb (live s c) then _ else _) as [s1| |] eqn:X1; try discriminate. cbn [obind] in X.
      destruct (live s c) eqn:LV; simpl in X1.
      + destruct (set_mem_spec c (running s)) as [RN|RN].
        * inversion X1; subst.
          pose proof (set_dying_trans E rank none True False c s G RN) as TD.
          destruct (IHD rest todo (set_dying (c :: dying s) s) s' (t_gi _ _ _ _ _ _ _ _ TD)) as [K1 ST1]; auto.
          destruct KP; constructor; auto.
        * destruct (set_parents E c [] _) as [s2| |] eqn:SP; try discriminate. cbn [obind] in X1.
          destruct (drop_trans E rank none (tx s <> Idle) False c s s2 G LV RN SP) as [T02 TX].
          pose proof (t_gi _ _ _ _ _ _ _ _ T02) as G2.
          destruct (struct_drop E rank WF f _ s2 s1 G2 X1) as [T S].
          pose proof (t_gi _ _ _ _ _ _ _ _ T) as G1.
          destruct (struct_drop E rank WF f _ s1 s' G1 X) as [T3 _].
          assert (H1 : hazard s1 = false) by (eapply hz_back; eauto).
          assert (H2 : hazard s2 = false) by (eapply hz_back; eauto).
          destruct (K_drop todo c s s2 G LV RN SP KP H2) as [K2 ST2].
          destruct (IHD _ todo s2 s1 G2 K2 X1 H1) as [K1 ST1].
          destruct (IHD _ todo s1 s' G1 K1 X HZ) as [K3 ST3]. split; auto.
          apply (stable_trans s s2); auto; [apply T02|]. apply (stable_trans s2 s1); auto. apply T.
      + inversion X1; subst. eapply IHD; eauto.
    - destruct PR as (l & cs & TX). cbn [exec] in X.
      destruct (down s) as [s1 r] eqn:D.
      destruct (down_ok E rank s s1 r l cs G TX D) as [(-> & -> & ->)|(L & -> & ->)].
      + destruct (exec E f (TRefresh cs) (set_tx Refreshing s)) as [s2| |] eqn:X2; try discriminate.
        cbn [obind] in X.
        assert (G1 : GI (set_tx Refreshing s)) by (apply GIx_tx; [exact I|congruence|auto]).
        assert (PR : pre (TRefresh cs) (set_tx Refreshing s)).
        { split; auto. apply (gi_run _ _ _ _ G). congruence. }
        destruct (ES (TRefresh cs) _ _ G1 PR X2) as [T S].
        unfold move_to_idle in X. rewrite S in X. inversion X; subst s'. clear X.
        destruct (IH (TRefresh cs) todo _ s2 G1 PR) as [K2 ST2]; auto.
        { simpl. eapply K_tx; [exact KP|]. intros c N _. unfold pending. rewrite TX. tauto. }
        split; [|exact ST2]. apply K_log; [congruence|exact I|]. eapply K_tx; [exact K2|].
        intros c N _. unfold pending. rewrite S. tauto.
      + inversion X; subst s'. split; [|exact (stable_refl s)]. eapply K_tx; [exact KP|].
        intros c N1 N2. unfold pending. rewrite TX. auto.
  Qed.
End Coh.
