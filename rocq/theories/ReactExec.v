(** Structural facts about running an application: what every operation preserves, which callbacks
    it may run, and in which order. *)

From Coq Require Import List NArith Bool Lia Arith.
From Verif Require Import GraphModel GraphSpec GraphProofs ReactModel ReactSpec ReactBase ReactInv.
Import ListNotations.

Inductive subseq {A} : list A -> list A -> Prop :=
| sub_nil : subseq [] []
| sub_skip x l l' : subseq l l' -> subseq l (x :: l')
| sub_keep x l l' : subseq l l' -> subseq (x :: l) (x :: l').

Lemma subseq_nil_l {A} (l : list A) : subseq [] l.
Proof. induction l; constructor; auto. Qed.

Lemma subseq_refl {A} (l : list A) : subseq l l.
Proof. induction l; [constructor|apply sub_keep; auto]. Qed.

Lemma subseq_app {A} (a b c d : list A) : subseq a c -> subseq b d -> subseq (a ++ b) (c ++ d).
Proof. induction 1; simpl; intros; auto; [apply sub_skip|apply sub_keep]; auto. Qed.

Lemma subseq_trans {A} (b c : list A) : subseq b c -> forall a, subseq a b -> subseq a c.
Proof.
  induction 1; intros a H'; auto.
  - apply sub_skip; auto.
  - inversion H'; subst; [apply sub_skip|apply sub_keep]; auto.
Qed.

Lemma subseq_nil {A} (l : list A) : subseq l [] -> l = [].
Proof. inversion 1; auto. Qed.

Lemma subseq_In {A} (l l' : list A) : subseq l l' -> forall x, In x l -> In x l'.
Proof. induction 1; simpl; intros y Hy; auto. destruct Hy; auto. Qed.

Section Exec.
  Context {V : Type}.
  Variable E : @env V.
  Variable rank : gid -> nat.
  Hypothesis WF : well_founded_env E rank.

  Notation GI := (GI E rank).
  Notation GIx := (GIx E rank).
  Notation src := (src E).

  (** The subscriptions with number below [n] whose callback ran, oldest first. *)
  Fixpoint olds (n : N) (l : list (@event V)) : list gid :=
    match l with
    | [] => []
    | e :: t =>
        olds n t ++ match e with
                    | EDeliver c _ _ _ => if (gnum c <? n)%N then [c] else []
                    | _ => []
                    end
    end.

  Lemma olds_app n l l' : olds n (l ++ l') = olds n l' ++ olds n l.
  Proof. induction l as [|e l IH]; simpl; [rewrite app_nil_r; auto|]. rewrite IH, app_assoc; auto. Qed.

  Lemma olds_le n n' l : (n <= n')%N -> subseq (olds n l) (olds n' l).
  Proof.
    intros L. induction l as [|e l IH]; simpl; [constructor|]. apply subseq_app; auto.
    destruct e; try constructor. destruct (N.ltb_spec (gnum c) n), (N.ltb_spec (gnum c) n');
      try apply subseq_nil_l; try apply subseq_refl. lia.
  Qed.

  Lemma delivered_app c l l' : delivered (V := V) c (l ++ l') = delivered c l ++ delivered c l'.
  Proof.
    induction l as [|e l IH]; simpl; auto. destruct e; auto.
    destruct (gid_eqb c c0); simpl; rewrite IH; auto.
  Qed.

  Lemma calc_events_quiet l : Forall (calc_event (V := V)) l ->
    (forall c, delivered c l = []) /\ (forall n, olds n l = []) /\ ~ In EHook l.
  Proof.
    induction 1 as [|e l H _ (A & B & C)]; simpl; [auto|].
    destruct e; simpl in H; try contradiction;
      (split; [auto|split; [intros n; rewrite B; auto|intros [Q|Q]; [discriminate|auto]]]).
  Qed.

  (** Consecutive elements differ. *)
  Fixpoint no_repeat (l : list V) : Prop :=
    match l with
    | [] => True
    | a :: t => (match t with [] => True | b :: _ => a <> b end) /\ no_repeat t
    end.

  Definition dedup_ok (s : @state V) : Prop :=
    forall c, s_dedup (e_sub E c) = true ->
      prev s c = hd_error (delivered c (log s)) /\ no_repeat (delivered c (log s)).

  (** What every operation guarantees.  [me]: subscriptions exempted from the clauses about running
      ones; [strict]: whether the clauses about which callbacks run apply; [hk]: whether the
      after-transaction hook may fire; [sch]: the subscriptions scheduled. *)
  Record trans (me : gid -> Prop) (strict hk : Prop) (sch : list gid) (s s' : @state V) : Prop := {
    t_gi : GI s';
    t_frames : frames s' = frames s;
    t_running : running s' = running s;
    t_next : (next s <= next s')%N;
    t_vals : tx s = Refreshing -> vals s' = vals s;
    t_live : forall c, (gnum c < next s)%N -> live s' c = true -> live s c = true;
    t_keep : forall c, In c (running s) -> ~ me c ->
      active s' c = active s c /\ prev s' c = prev s c;
    t_hz : hazard s = true -> hazard s' = true;
    t_log : exists l, log s' = l ++ log s /\
      (forall c, In c (running s) -> ~ me c -> delivered c l = []) /\
      (forall c, (gnum c < next s)%N -> live s c = false -> delivered c l = []) /\
      (strict -> subseq (olds (next s) l) sch /\ (~ hk -> ~ In EHook l));
    t_dedup : decides_eq E -> dedup_ok s -> dedup_ok s'
  }.

  Lemma trans_refl me st hk s : GI s -> trans me st hk [] s s.
  Proof.
    intros G; constructor; auto; try lia. exists []; repeat split; auto. constructor.
  Qed.

  Lemma trans_trans me (st st1 st2 hk hk1 hk2 : Prop) sch1 sch2 a b c :
    trans me st1 hk1 sch1 a b -> trans me st2 hk2 sch2 b c ->
    (st -> st1 /\ st2) -> (hk1 \/ hk2 -> hk) ->
    (tx a = Refreshing -> tx b = Refreshing) ->
    trans me st hk (sch1 ++ sch2) a c.
  Proof.
    intros [A1 A2 A3 A4 A5 A6 A7 A8 (l & A9 & A10 & A11 & A12) A13]
           [B1 B2 B3 B4 B5 B6 B7 B8 (l' & B9 & B10 & B11 & B12) B13] ST HK TX.
    constructor; auto; try congruence; try lia.
    - intros T. rewrite B5, A5; auto.
    - intros d L H. apply A6; auto. apply B6; auto. lia.
    - intros d I N. destruct (A7 d I N) as [Q1 Q2]. rewrite <- A3 in I.
      destruct (B7 d I N) as [Q3 Q4]. split; congruence.
    - exists (l' ++ l). split; [rewrite B9, A9, app_assoc; auto|split; [|split]].
      + intros d I N. rewrite delivered_app, A10, B10; auto. rewrite A3; auto.
      + intros d L H. rewrite delivered_app, A11, B11; auto; [lia|].
        destruct (live b d) eqn:Q; auto. apply A6 in Q; auto; congruence.
      + intros S. destruct (ST S) as [S1 S2]. destruct (A12 S1) as [U1 U2], (B12 S2) as [W1 W2]. split.
        * rewrite olds_app. apply subseq_app; auto.
          eapply subseq_trans; [exact W1|]. apply olds_le; auto.
        * intros NH I. apply in_app_iff in I as [I|I]; [apply W2|apply U2]; tauto.
  Qed.

  Lemma trans_weaken me (st st' hk hk' : Prop) sch sch' a b :
    trans me st hk sch a b -> (st' -> st) -> (hk -> hk') -> subseq sch sch' -> trans me st' hk' sch' a b.
  Proof.
    intros [A1 A2 A3 A4 A5 A6 A7 A8 (l & A9 & A10 & A11 & A12) A13] ST HK SB.
    constructor; auto. exists l. split; [auto|split; [auto|split; [auto|]]].
    intros S. destruct (A12 (ST S)) as [U1 U2]. split; [eapply subseq_trans; eauto|tauto].
  Qed.

  Lemma trans_unstrict me (st st' hk hk' : Prop) sch sch' a b :
    trans me st hk sch a b -> ~ st' -> trans me st' hk' sch' a b.
  Proof.
    intros [A1 A2 A3 A4 A5 A6 A7 A8 (l & A9 & A10 & A11 & A12) A13] ST.
    constructor; auto. exists l. split; [auto|split; [auto|split; [auto|]]]. tauto.
  Qed.

  Lemma step_trans me st hk s s' : step E rank s s' -> frames s' = frames s -> trans me st hk [] s s'.
  Proof.
    intros (G & (K1 & K2 & K3 & K4 & K5 & K6 & K7 & K8 & K9) & SC & (l & L & F) & HZ & _) FR.
    destruct (calc_events_quiet l F) as (Q1 & Q2 & Q3).
    constructor; auto; try (rewrite K8; lia).
    - intros c _; rewrite K4; auto.
    - intros c _ _; split; auto. rewrite K2; auto.
    - exists l. repeat split; auto. rewrite Q2; constructor.
    - intros _ D c H. destruct (D c H) as [D1 D2]. rewrite L, delivered_app, Q1, K2; auto.
  Qed.

  Definition same_tx (s s' : @state V) : Prop :=
    match tx s with
    | Idle => tx s' = Idle
    | Refreshing => tx s' = Refreshing
    | Modification l cs => exists cs', tx s' = Modification l cs' /\ incl cs cs'
    end.

  Lemma same_tx_refl s s' : tx s' = tx s -> same_tx s s'.
  Proof. unfold same_tx; intros ->; destruct (tx s); eauto using incl_refl. Qed.

  Lemma same_tx_trans a b c : same_tx a b -> same_tx b c -> same_tx a c.
  Proof.
    unfold same_tx; destruct (tx a) eqn:A.
    - intros ->; auto.
    - intros (cs & -> & I) (cs' & -> & I'). exists cs'; split; auto. eapply incl_tran; eauto.
    - intros ->; auto.
  Qed.

  Lemma same_tx_refreshing a b : same_tx a b -> tx a = Refreshing -> tx b = Refreshing.
  Proof. unfold same_tx; intros H Q; rewrite Q in H; auto. Qed.

  Lemma same_tx_idle a b : same_tx a b -> tx a <> Idle -> tx b <> Idle.
  Proof. unfold same_tx; destruct (tx a); [congruence| |congruence]. intros (cs & -> & _); congruence. Qed.

  (** ** Starting a transaction and changing values *)

  Lemma GIx_tx x t s :
    match t with
    | Modification l cs => (1 <= l)%N /\ sorted cs /\ Forall (fun c => gkind c = KClient) cs
    | _ => True
    end ->
    (t <> Refreshing -> tx s = Refreshing -> forall c, In c (running s) -> active s c = false) ->
    GIx x s -> GIx x (set_tx t s).
  Proof.
    intros T R []; constructor; auto. intros Q c H; simpl in *.
    destruct (tx s) eqn:TX; [apply gi_run; congruence|apply gi_run; congruence|auto].
  Qed.

  Lemma up_ok me st hk s s1 : GI s -> up s = Ok s1 ->
    trans me st hk [] s s1 /\ tx s <> Refreshing /\ s1 = set_tx (tx s1) s /\
    exists l cs, tx s1 = Modification (l + 1) cs /\
      match tx s with Idle => l = 0%N /\ cs = [] | Modification l' cs' => l' = l /\ cs = cs' | _ => False end.
  Proof.
    intros G X. unfold up in X.
    assert (T : forall t, t <> Refreshing -> tx s <> Refreshing ->
        match t with
        | Modification l cs => (1 <= l)%N /\ sorted cs /\ Forall (fun c => gkind c = KClient) cs
        | _ => True
        end -> trans me st hk [] s (set_tx t s)).
    { intros t T1 T2 T3. constructor; auto; try lia.
      - apply GIx_tx; auto. congruence.
      - simpl; lia.
      - exists []; repeat split; auto. constructor. }
    destruct (tx s) as [|l cs|] eqn:TX; try discriminate.
    - inversion X; subst. split; [apply T; try congruence; repeat split; try lia; constructor|].
      split; [congruence|]. split; [reflexivity|]. exists 0%N, []; auto.
    - destruct (l <? 65535)%N; [|discriminate]. inversion X; subst.
      pose proof (gi_tx _ _ _ _ G) as GT. rewrite TX in GT.
      split; [apply T; try congruence; intuition; lia|].
      split; [congruence|]. split; [reflexivity|]. exists l, cs; auto.
  Qed.

  Lemma down_ok s s1 r l cs : GI s -> tx s = Modification l cs -> down s = (s1, r) ->
    (l = 1%N /\ s1 = set_tx Refreshing s /\ r = Some cs) \/
    (l <> 1%N /\ s1 = set_tx (Modification (l - 1) cs) s /\ r = None).
  Proof.
    intros G T X. pose proof (gi_tx _ _ _ _ G) as GT. rewrite T in GT. unfold down in X; rewrite T in X.
    destruct (N.eqb_spec (l - 1) 0); inversion X; subst; [left|right]; repeat split; auto; lia.
  Qed.

  Definition is_comp (d : gid) : bool := match gkind d with KComputed => true | _ => false end.
  Definition is_client (d : gid) : bool := match gkind d with KClient => true | _ => false end.

  (** The caches cleared by a change of a value. *)
  Lemma fold_clear_ok comps : forall s : @state V,
    let s' := fold_left (fun s d => note_hazard d (clear_computed d s)) comps s in
    (forall n, In n comps -> cache s' n = None) /\
    (forall n, ~ In n comps -> cache s' n = cache s n) /\
    (hazard s' = true <-> hazard s = true \/ exists n, In n comps /\ in_frames n s) /\
    (forall n, cache s n = None -> cache s' n = None) /\
    s' = State (vals s) (cache s') (active s) (prev s) (res s) (live s) (graph_of s) (conn s) (tx s)
               (frames s) (running s) (dying s) (next s) (hazard s') (log s).
  Proof.
    induction comps as [|d comps IH]; intros s; cbn [fold_left].
    - cbv zeta. split; [intros n []|split; [auto|split; [|split; [auto|destruct s; auto]]]].
      split; auto. intros [?|(n & [] & _)]; auto.
    - cbv zeta in *. specialize (IH (note_hazard d (clear_computed d s))).
      set (s0 := note_hazard d (clear_computed d s)) in *.
      set (s' := fold_left _ comps s0) in *.
      assert (S0 : s0 = State (vals s) (upd (cache s) d None) (active s) (prev s) (res s) (live s)
               (graph_of s) (conn s) (tx s)
               (frames s) (running s) (dying s) (next s) (hazard s0) (log s) /\
               (hazard s0 = true <-> hazard s = true \/ in_frames d s)).
      { unfold s0, note_hazard, clear_computed. rewrite <- in_frames_spec. simpl.
        destruct (existsb (set_mem d) (frames s)) eqn:X; simpl; split; auto; intuition congruence. }
      destruct S0 as [S0 H0]. destruct IH as (I1 & I2 & I3 & I4 & I5).
      assert (C0 : forall n, cache s0 n = upd (cache s) d None n) by (intros; rewrite S0; auto).
      split; [|split; [|split; [|split]]].
      + intros n [->|H]; auto. apply I4. rewrite C0; apply upd_same.
      + intros n H. rewrite I2, C0, upd_other; auto; simpl in H; intuition.
      + rewrite I3, H0. assert (F : forall n, in_frames n s0 <-> in_frames n s).
        { intros n; rewrite S0; unfold in_frames; simpl; tauto. }
        split.
        * intros [[?|?]|(n & I & J)]; auto; right; [exists d|exists n; rewrite <- F]; split; simpl; auto.
        * intros [?|(n & [->|I] & J)]; auto. right; exists n; rewrite F; auto.
      + intros n H. apply I4. rewrite C0. unfold upd; destruct (gid_eqb n d); auto.
      + rewrite I5, S0; reflexivity.
  Qed.

  Lemma report_set_ok id s s' l cs :
    GI s -> tx s = Modification l cs -> report_set id s = Ok s' ->
    exists deps cs',
      get_all_deps (graph_of s) id = Some deps /\
      (forall n, In n cs' <-> In n cs \/ (In n deps /\ gkind n = KClient)) /\
      sorted cs' /\
      tx s' = Modification l cs' /\
      (forall n, In n deps -> gkind n = KComputed -> cache s' n = None) /\
      (forall n, ~ In n deps -> cache s' n = cache s n) /\
      (forall n, cache s n = None -> cache s' n = None) /\
      (hazard s' = true <->
         hazard s = true \/ exists n, In n deps /\ gkind n = KComputed /\ in_frames n s) /\
      s' = State (vals s) (cache s') (active s) (prev s) (res s) (live s) (graph_of s) (conn s) (tx s')
               (frames s) (running s) (dying s) (next s) (hazard s') (log s).
  Proof.
    intros G T. unfold report_set.
    destruct (get_all_deps (graph_of s) id) as [deps|] eqn:D; [|discriminate].
    destruct (existsb _ deps); [discriminate|].
    set (comps := filter (fun d => match gkind d with KComputed => true | _ => false end) deps).
    set (cls := filter (fun d => match gkind d with KClient => true | _ => false end) deps). intros X.
    apply (f_equal (fun o => match o with Ok a => a | _ => s end)) in X. cbv beta iota in X.
    pose proof (fold_clear_ok comps s) as F. cbv zeta in F.
    set (s1 := fold_left _ comps s) in *. destruct F as (F1 & F2 & F3 & F4 & F5).
    unfold add_clients_to_refresh in X.
    assert (T1 : tx s1 = Modification l cs) by (rewrite F5; auto). rewrite T1 in X.
    set (cs' := fold_left _ cls cs) in X.
    pose proof (gi_tx _ _ _ _ G) as GT. rewrite T in GT. destruct GT as (_ & SC & _).
    assert (CI : forall n, In n comps <-> In n deps /\ gkind n = KComputed).
    { intros n; unfold comps; rewrite filter_In. destruct (gkind n); intuition congruence. }
    exists deps, cs'. subst s'. split; [auto|]. split.
    { intros n. unfold cs'. rewrite fold_insert_In. unfold cls; rewrite filter_In.
      destruct (gkind n); intuition congruence. }
    split; [apply fold_insert_sorted; auto|]. split; [reflexivity|].
    split; [intros n H K; apply F1, CI; auto|]. split; [intros n H; apply F2; rewrite CI; tauto|].
    split; [exact F4|]. split.
    - simpl. rewrite F3. split; (intros [?|(n & H)]; [auto|right; exists n]); rewrite CI in *; tauto.
    - simpl. rewrite F5 at 1. unfold set_tx. simpl. rewrite F5. reflexivity.
  Qed.

  Definition none : gid -> Prop := fun _ => False.

  Lemma report_trans me st hk id s s' l cs :
    GI s -> tx s = Modification l cs -> report_set id s = Ok s' -> trans me st hk [] s s'.
  Proof.
    intros G T X. destruct (report_set_ok id s s' l cs G T X)
      as (deps & cs' & D & C & SC & T' & C1 & C2 & C3 & HZ & EQ).
    pose proof (gi_tx _ _ _ _ G) as GT. rewrite T in GT. destruct GT as (L1 & _ & FC).
    assert (G' : GI s').
    { destruct G. rewrite EQ. constructor; simpl; auto.
      - intros c v H. destruct (cache s c) eqn:Q; [eapply gi_cache; eauto|]. rewrite C3 in H; congruence.
      - rewrite T'. split; [auto|split; [auto|]]. apply Forall_forall; intros n Hn; apply C in Hn.
        rewrite Forall_forall in FC. destruct Hn as [Hn|[_ Hn]]; auto.
      - intros _; apply gi_run. rewrite T; congruence. }
    constructor; auto; try (rewrite EQ; simpl; auto; fail).
    - rewrite EQ; simpl; lia.
    - intros H; apply HZ; auto.
    - exists []. split; [rewrite EQ; auto|]. repeat split; auto. constructor.
  Qed.

  Lemma GIx_vals x vs s : GIx x s -> GIx x (set_vals vs s).
  Proof. intros []; constructor; auto. Qed.

  Lemma set_vals_trans me st hk vs s : GI s -> tx s <> Refreshing -> trans me st hk [] s (set_vals vs s).
  Proof.
    intros G T. constructor; auto.
    - apply GIx_vals; auto.
    - simpl; lia.
    - congruence.
    - exists []. repeat split; auto. constructor.
  Qed.

  Definition pre (t : @task V) (s : @state V) : Prop :=
    match t with
    | TCmds _ | TDrop _ => True
    | TSub c =>
        gkind c = KClient /\ live s c = true /\ (gnum c < next s)%N /\ ~ In c (running s) /\
        (tx s <> Refreshing -> active s c = false)
    | TRefresh cs => tx s = Refreshing /\ forall c, In c (running s) -> active s c = false
    | TEnd => exists l cs, tx s = Modification l cs
    end.

  Definition post (t : @task V) (s s' : @state V) : Prop :=
    match t with
    | TCmds _ | TDrop _ => trans none (tx s <> Idle) False [] s s' /\ same_tx s s'
    | TSub c => trans none (tx s <> Idle) False [c] s s' /\ same_tx s s'
    | TRefresh cs => trans none True False cs s s' /\ tx s' = Refreshing
    | TEnd => exists l cs, tx s = Modification l cs /\
        ((l = 1%N /\ trans none True True cs s s' /\ tx s' = Idle /\ vals s' = vals s) \/
         (l <> 1%N /\ s' = set_tx (Modification (l - 1) cs) s /\ trans none True False [] s s'))
    end.

  Lemma txn_post s s1 s2 s3 :
    GI s -> up s = Ok s1 -> trans none (tx s1 <> Idle) False [] s1 s2 -> same_tx s1 s2 ->
    post TEnd s2 s3 -> trans none (tx s <> Idle) False [] s s3 /\ same_tx s s3.
  Proof.
    intros G U T12 ST (l & cs & T2 & P).
    destruct (up_ok none True False s s1 G U) as (T01 & NR & _ & l' & cs1 & T1 & M).
    assert (T02 : trans none (tx s <> Idle) False [] s s2).
    { change (@nil gid) with (@nil gid ++ []). eapply trans_trans; [exact T01|exact T12| | |].
      - intros _; split; auto. rewrite T1; congruence.
      - tauto.
      - congruence. }
    unfold same_tx in ST. rewrite T1 in ST. destruct ST as (cs2 & T2' & I2).
    rewrite T2 in T2'. inversion T2'; subst l cs2; clear T2'.
    destruct (tx s) as [|l0 cs0|] eqn:TX; [| |congruence].
    - destruct M as [-> ->]. destruct P as [(_ & T23 & T3 & _)|(L & _)]; [|simpl in L; congruence].
      split.
      + change (@nil gid) with (@nil gid ++ []).
        eapply (trans_trans none _ _ _ False False False); [exact T02| | | |].
        * eapply (trans_unstrict none True False); [exact T23|tauto].
        * congruence.
        * tauto.
        * congruence.
      + unfold same_tx; rewrite TX; auto.
    - destruct M as [-> ->]. pose proof (gi_tx _ _ _ _ G) as GT. rewrite TX in GT.
      destruct P as [(L & _)|(L & -> & T23)]; [lia|].
      split.
      + change (@nil gid) with (@nil gid ++ []).
        eapply trans_trans; [exact T02|exact T23|tauto|tauto|congruence].
      + unfold same_tx; rewrite TX. simpl. exists cs; split; auto. f_equal; lia.
  Qed.

  Lemma trans_me (me me' : gid -> Prop) st hk sch a b :
    (forall c, me c -> me' c) -> trans me st hk sch a b -> trans me' st hk sch a b.
  Proof.
    intros M [A1 A2 A3 A4 A5 A6 A7 A8 (l & A9 & A10 & A11 & A12) A13].
    constructor; auto.
    exists l. split; [auto|split; [|auto]]. intros c I N; apply A10; auto.
  Qed.

  Lemma trans_seq me (st hk : Prop) sch1 sch2 a b c :
    trans me st hk sch1 a b -> trans me st hk sch2 b c -> same_tx a b ->
    trans me st hk (sch1 ++ sch2) a c.
  Proof. intros A B T. eapply trans_trans; eauto; [tauto|apply same_tx_refreshing; auto]. Qed.

  Lemma olds_lt n l : Forall (fun c => (gnum c < n)%N) (olds n l).
  Proof.
    induction l as [|e l IH]; simpl; [constructor|]. apply Forall_app; split; auto.
    destruct e; auto. destruct (N.ltb_spec (gnum c) n); auto.
  Qed.

  Lemma trans_fresh me st hk c a b :
    trans me st hk [c] a b -> (next a <= gnum c)%N -> trans me st hk [] a b.
  Proof.
    intros [A1 A2 A3 A4 A5 A6 A7 A8 (l & A9 & A10 & A11 & A12) A13] L.
    constructor; auto. exists l. split; [auto|split; [auto|split; [auto|]]].
    intros S; destruct (A12 S) as [U W]; split; auto.
    pose proof (olds_lt (next a) l) as F. revert F U. generalize (olds (next a) l).
    intros o F U. destruct o as [|x o]; [constructor|]. exfalso.
    inversion F; subst. apply subseq_In with (x := x) in U; [|simpl; auto].
    destruct U as [->|[]]. lia.
  Qed.

  (** Opening the function of a subscription. *)
  Definition open_sub (c : gid) (s : @state V) : state :=
    set_running (c :: running s) (add_parent (src c) (frame_open s)).

  Lemma open_gi c s : GI s -> pre (TSub c) s -> GI (open_sub c s).
  Proof.
    intros [] (P1 & P2 & P3 & P4 & P5). constructor; auto.
    - intros d H. simpl in *. destruct (gi_fresh d H) as (A1 & A2 & A3 & A4 & A5 & A6 & A7).
      repeat split; auto. intros [<-|Q]; auto. lia.
    - intros d [<-|H]; simpl; auto.
    - intros d H; simpl in *; auto.
    - intros T d [<-|H]; simpl; auto.
  Qed.

  Lemma set_prev_trans (me : gid -> Prop) (st hk : Prop) c v s :
    GI s -> (forall d, d = c -> me d) -> (gnum c < next s)%N ->
    (decides_eq E -> s_dedup (e_sub E c) = true ->
       prev s c = hd_error (delivered c (log s)) -> prev s c = Some v) ->
    trans me st hk [] s (set_prev (upd (prev s) c (Some v)) s).
  Proof.
    intros G M L D. constructor; auto.
    - destruct G; constructor; auto. intros d H. simpl in H.
      destruct (gi_fresh d H) as (A1 & A2 & A3 & A4 & A5 & A6 & A7). simpl. repeat split; auto.
      rewrite upd_other; auto. intros ->; lia.
    - simpl; lia.
    - intros d _ N; simpl; split; auto. rewrite upd_other; auto.
    - exists []. repeat split; auto. constructor.
    - intros DE DO d Hd. destruct (DO d Hd) as [A B]. simpl.
      destruct (upd_spec (prev s) c (Some v) d) as [[-> ->]|[N ->]]; auto.
      split; auto. rewrite <- A. symmetry; apply D; auto.
  Qed.

  Lemma deliver_trans (me : gid -> Prop) (st hk : Prop) c v vs b s :
    GI s -> (forall d, d = c -> me d) -> (gnum c < next s)%N -> live s c = true ->
    (decides_eq E -> s_dedup (e_sub E c) = true ->
       prev s c = hd_error (delivered c (log s)) -> prev s c <> Some v) ->
    trans me st hk [c] s
      (add_log (EDeliver c v vs b)
         (if s_dedup (e_sub E c) then set_prev (upd (prev s) c (Some v)) s else s)).
  Proof.
    intros G M L LV D.
    set (s3 := if s_dedup (e_sub E c) then _ else s).
    assert (S3 : s3 = set_prev (prev s3) s /\
                 (forall d, d <> c -> prev s3 d = prev s d) /\
                 (s_dedup (e_sub E c) = true -> prev s3 c = Some v)).
    { unfold s3. destruct (s_dedup (e_sub E c)); [|destruct s; repeat split; auto; discriminate].
      repeat split; simpl; intros; [apply upd_other; auto|apply upd_same]. }
    destruct S3 as (S3 & PO & PS).
    constructor; try (rewrite S3; simpl; auto; fail).
    - destruct G; constructor; try (rewrite S3; simpl; auto; fail).
      + intros w. rewrite S3; simpl. apply conn_other; auto; discriminate.
      + intros d H. rewrite S3 in H; simpl in H.
        destruct (gi_fresh d H) as (A1 & A2 & A3 & A4 & A5 & A6 & A7).
        assert (d <> c) by (intros ->; lia).
        simpl. rewrite PO by auto. rewrite S3; simpl. rewrite gid_eqb_neq by auto. repeat split; auto.
    - rewrite S3; simpl; lia.
    - intros d _ N. simpl. rewrite PO by auto. rewrite S3; auto.
    - exists [EDeliver c v vs b]. split; [rewrite S3; auto|]. split; [|split].
      + intros d _ N. simpl. rewrite gid_eqb_neq; auto.
      + intros d H1 H2. simpl. rewrite gid_eqb_neq; auto. congruence.
      + intros _. split; [|intros _ [Q|[]]; discriminate].
        simpl. destruct (gnum c <? next s)%N; [apply subseq_refl|constructor; constructor].
    - intros DE DO d Hd. destruct (DO d Hd) as [A B]. simpl.
      assert (LG : log s3 = log s) by (rewrite S3; auto). rewrite LG.
      destruct (gid_eqb_spec d c) as [->|N].
      + simpl. split; [auto|split; auto].
        specialize (D DE Hd A). rewrite A in D. destruct (delivered c (log s)); auto.
        simpl in D. congruence.
      + rewrite PO; auto.
  Qed.

  Lemma set_res_trans (me : gid -> Prop) (st hk : Prop) c r s : GI s -> (gnum c < next s)%N ->
    trans me st hk [] s (set_res (upd (res s) c r) s).
  Proof.
    intros G L. constructor; auto.
    - destruct G; constructor; auto. intros d H. simpl in H.
      destruct (gi_fresh d H) as (A1 & A2 & A3 & A4 & A5 & A6 & A7). simpl. repeat split; auto.
      rewrite upd_other; auto. intros ->; lia.
    - simpl; lia.
    - exists []. repeat split; auto. constructor.
  Qed.

  Lemma remove_notin c l : ~ In c l -> remove gid_dec c l = l.
  Proof. apply notin_remove. Qed.

  Lemma set_mem_false c l : set_mem c l = false -> ~ In c l.
  Proof. destruct (set_mem_spec c l); congruence. Qed.

  Lemma rk_src c : gkind c = KClient -> rk E rank (src c) < rk E rank c /\ gkind (src c) = KComputed.
  Proof.
    intros K. destruct WF as [_ W]. specialize (W c). unfold rk, ReactInv.src. rewrite K, W. auto.
  Qed.

  (** Closing the function of a subscription: the state after the edges are pushed and the
      subscription marked active. *)
  Definition closed (c : gid) (s6 : @state V) : state :=
    set_running (remove gid_dec c (running s6)) (set_active (upd (active s6) c true) s6).

  Lemma close_ok c st s s4 s5 ctx s6 :
    GI s -> pre (TSub c) s ->
    trans (eq c) st False [c] (open_sub c s) s4 -> same_tx (open_sub c s) s4 ->
    frame_close s4 = (ctx, s5) -> push_context E c ctx s5 = Ok s6 ->
    let s8 := closed c s6 in
    let s9 := set_dying (remove gid_dec c (dying s8)) s8 in
    trans none st False [c] s s9 /\ same_tx s s9 /\
    ctx = [src c] /\ s5 = set_frames (frames s) s4.
  Proof.
    intros G P T14 ST FC PC s8 s9.
    destruct P as (P1 & P2 & P3 & P4 & P5).
    destruct T14 as [G4 F4 R4 N4 V4 L4 K4 H4 (l & LG & LG1 & LG2 & LG3) D4].
    simpl in F4, R4.
    unfold frame_close in FC. rewrite F4 in FC. inversion FC; subst ctx s5; clear FC.
    assert (LV : live s4 c = true) by (apply (gi_runlive _ _ _ _ G4); rewrite R4; simpl; auto).
    destruct (rk_src c P1) as [RK KS].
    destruct (set_parents_ok E rank c [src c] (set_frames (frames s) s4))
      as (s6' & X6 & G6 & FZ & CH & CA & CB & CC & AC & HZ & (lc & LC & FLC) & AM).
    - apply GIx_frames. eapply GIx_weaken; [|exact G4]. intros ? [].
    - repeat constructor.
    - intros p [<-|[]]. split; auto. congruence.
    - congruence.
    - intros _ p [<-|[]]; auto.
    - change (push_context E c [src c] (set_frames (frames s) s4)) with
        (set_parents E c [src c] (set_frames (frames s) s4)) in PC.
      rewrite X6 in PC. inversion PC; subst s6'; clear PC.
      destruct FZ as (Z1 & Z2 & Z3 & Z4 & Z5 & Z6 & Z7 & Z8 & Z9).
      simpl in Z1, Z2, Z3, Z4, Z5, Z6, Z7, Z8, Z9.
      assert (RS : remove gid_dec c (running s6) = running s).
      { rewrite Z7, R4. simpl. destruct (gid_dec c c); [|congruence]. apply remove_notin; auto. }
      assert (CQ : Forall (calc_event (V := V)) lc).
      { eapply Forall_impl; [|exact FLC]. apply conn_calc_event. }
      destruct (calc_events_quiet lc CQ) as (Q1 & Q2 & Q3).
      assert (STX : same_tx s s6).
      { unfold same_tx in *. simpl in ST. rewrite Z5; auto. }
      split; [|split; [exact STX|split; auto]].
      assert (R9 : running s9 = running s) by exact RS.
      constructor.
      + destruct G6. constructor; auto.
        * intros d. simpl. unfold upd. destruct (gid_eqb_spec d c) as [Q|]; [intros _; congruence|auto].
        * intros d H. change (next s9) with (next s6) in H.
          destruct (gi_fresh d H) as (A1 & A2 & A3 & A4 & A5 & A6 & A7).
          assert (d <> c) by (intros ->; rewrite Z9 in H; change (next s <= next s4)%N in N4; lia).
          rewrite R9. simpl. rewrite upd_other by auto.
          repeat split; auto.
          -- intros I; apply A5; rewrite Z7, R4; right; auto.
          -- intros I; apply A6; eapply in_remove; eauto.
        * intros d H. rewrite R9 in H. apply gi_runlive. rewrite Z7, R4; right; auto.
        * intros d H. simpl in H. apply in_remove in H as [H N]. rewrite R9.
          apply gi_dying in H. rewrite Z7, R4 in H. destruct H as [->|]; congruence.
        * intros T d H. rewrite R9 in H. simpl. rewrite upd_other by (intros ->; auto).
          apply gi_run; auto. rewrite Z7, R4; right; auto.
      + simpl. rewrite Z6. auto.
      + exact R9.
      + simpl. rewrite Z9. exact N4.
      + intros T. simpl. rewrite Z1. apply V4; auto.
      + intros d Hd Hl. simpl in Hl. rewrite Z4 in Hl. apply L4; auto.
      + intros d Hd _. assert (d <> c) by (intros ->; auto). simpl. rewrite upd_other by auto.
        rewrite AC by auto. rewrite Z2. simpl. apply K4; simpl; auto.
      + intros H. simpl. apply HZ. left. apply H4; auto.
      + exists (lc ++ l). split; [simpl; rewrite LC; simpl; rewrite LG; simpl; rewrite app_assoc; auto|].
        split; [|split].
        * intros d Hd _. rewrite delivered_app, Q1, LG1; simpl; auto. intros ->; auto.
        * intros d Hd Hl. rewrite delivered_app, Q1, LG2; auto.
        * intros S. destruct (LG3 S) as [U W]. split.
          -- rewrite olds_app, Q2, app_nil_r; auto.
          -- intros NH I. apply in_app_iff in I as [I|I]; auto. apply (W NH); auto.
      + intros DE DO d Hd.
        destruct (D4 DE DO d Hd) as [A B]. simpl. rewrite LC, delivered_app, Q1, Z2. simpl. auto.
  Qed.

  Lemma set_dying_trans (me : gid -> Prop) (st hk : Prop) c s : GI s -> In c (running s) ->
    trans me st hk [] s (set_dying (c :: dying s) s).
  Proof.
    intros G I. constructor; auto.
    - destruct G; constructor; auto.
      + intros d H. destruct (gi_fresh d H) as (A1 & A2 & A3 & A4 & A5 & A6 & A7). simpl.
        repeat split; auto. intros [<-|Q]; auto.
      + intros d [<-|H]; simpl; auto.
    - simpl; lia.
    - exists []. repeat split; auto. constructor.
  Qed.

  Lemma drop_trans (me : gid -> Prop) (st hk : Prop) c s s2 : GI s -> live s c = true -> ~ In c (running s) ->
    set_parents E c [] (add_log (EDrop c) (set_live (upd (live s) c false) s)) = Ok s2 ->
    trans me st hk [] s s2 /\ tx s2 = tx s.
  Proof.
    intros G LV NR X.
    set (s1 := add_log (EDrop c) (set_live (upd (live s) c false) s)) in *.
    assert (KC : gkind c = KClient) by (apply (gi_livek _ _ _ _ G); auto).
    destruct (set_parents_ok E rank c [] s1)
      as (s6' & X6 & G6 & FZ & CH & CA & CB & CC & AC & HZ & (lc & LC & FLC) & AM).
    - apply GIx_log; [auto|congruence|]. destruct G; constructor; auto.
      + intros p d H K N. simpl. rewrite upd_other by congruence. eapply gi_live; eauto.
      + intros d H. destruct (gi_fresh d H) as (A1 & A2 & A3 & A4 & A5 & A6 & A7). simpl.
        repeat split; auto. unfold upd; destruct (gid_eqb d c); auto.
      + intros d H. simpl in H. unfold upd in H. destruct (gid_eqb d c); [discriminate|auto].
      + intros d H. simpl. rewrite upd_other by (intros ->; auto). auto.
    - constructor.
    - intros p [].
    - congruence.
    - intros _ p [].
    - rewrite X6 in X. inversion X; subst s6'.
      destruct FZ as (Z1 & Z2 & Z3 & Z4 & Z5 & Z6 & Z7 & Z8 & Z9). simpl in *.
      assert (CQ : Forall (calc_event (V := V)) lc).
      { eapply Forall_impl; [|exact FLC]. apply conn_calc_event. }
      destruct (calc_events_quiet lc CQ) as (Q1 & Q2 & Q3).
      split; auto. constructor; auto.
      + rewrite Z9; lia.
      + intros d _ H. rewrite Z4 in H. unfold upd in H. destruct (gid_eqb d c); [discriminate|auto].
      + intros d H _. rewrite AC by (intros ->; auto). rewrite Z2; auto.
      + intros H; apply HZ; auto.
      + exists (lc ++ [EDrop c]). rewrite <- app_assoc. split; [auto|].
        assert (DL : forall d, delivered d (lc ++ [EDrop c]) = []) by (intros; rewrite delivered_app, Q1; auto).
        split; [auto|]. split; [auto|].
        intros _. rewrite olds_app, Q2; split; [constructor|].
        intros _ I. apply in_app_iff in I as [I|[I|[]]]; [auto|discriminate].
      + intros DE DO d Hd. destruct (DO d Hd). rewrite LC, delivered_app, Q1, Z2; auto.
  Qed.

  Lemma new_sub_trans (me : gid -> Prop) (st hk : Prop) c s : GI s -> (next s <= gnum c)%N -> gkind c = KClient ->
    let s2 := set_live (upd (live s) c true) (set_next (gnum c + 1)%N s) in
    trans me st hk [] s s2 /\ pre (TSub c) s2.
  Proof.
    intros G L K s2. destruct (gi_fresh _ _ _ _ G c L) as (B1 & B2 & B3 & B4 & B5 & B6 & B7). split.
    - constructor; auto.
      + destruct G; constructor; auto.
        * intros p d H Kd N. simpl. unfold upd. destruct (gid_eqb d c); eauto.
        * intros d H. simpl in H. destruct (gi_fresh d) as (A1 & A2 & A3 & A4 & A5 & A6 & A7); [lia|].
          simpl. rewrite upd_other by (intros ->; lia). repeat split; auto.
        * intros d H. simpl in H. unfold upd in H. destruct (gid_eqb_spec d c) as [Q|]; [congruence|auto].
        * intros d H. simpl. unfold upd. destruct (gid_eqb d c); auto.
      + simpl; lia.
      + intros d H Q. simpl in Q. rewrite upd_other in Q by (intros ->; lia). auto.
      + exists []. repeat split; auto. constructor.
    - simpl. rewrite upd_same. repeat split; auto. lia.
  Qed.

  Theorem exec_struct f : forall t s s', GI s -> pre t s -> exec E f t s = Ok s' -> post t s s'.
  Proof.
    induction f as [|f IH]; intros t s s' G P X; [discriminate|].
    assert (IHC : forall cs s s', GI s -> exec E f (TCmds cs) s = Ok s' -> post (TCmds cs) s s')
      by (intros; eapply IH; eauto; exact I).
    assert (IHD : forall cs s s', GI s -> exec E f (TDrop cs) s = Ok s' -> post (TDrop cs) s s')
      by (intros; eapply IH; eauto; exact I).
    destruct t as [cs|c|cs|cs|].
    - (* commands *)
      destruct cs as [|cm rest]; cbn [exec] in X.
      { inversion X; subst. split; [apply trans_refl; auto|apply same_tx_refl; auto]. }
      assert (REST : forall s3, trans none (tx s <> Idle) False [] s s3 -> same_tx s s3 ->
                exec E f (TCmds rest) s3 = Ok s' -> post (TCmds (cm :: rest)) s s').
      { intros s3 T ST X3. destruct (IHC _ _ _ (t_gi _ _ _ _ _ _ T) X3) as [T' ST'].
        split; [|eapply same_tx_trans; eauto].
        change (@nil gid) with (@nil gid ++ []).
        eapply trans_seq; [exact T| |auto].
        eapply trans_weaken; [exact T'|apply same_tx_idle; auto|tauto|constructor]. }
      destruct cm as [id v|id v|body|id k|c|c].
      + destruct (negb (is_value id)); [discriminate|].
        destruct (up s) as [s1| |] eqn:U; try discriminate. cbn [obind] in X.
        destruct (report_set id _) as [s2| |] eqn:R; try discriminate. cbn [obind] in X.
        destruct (exec E f TEnd s2) as [s3| |] eqn:X3; try discriminate. cbn [obind] in X.
        destruct (up_ok none True False s s1 G U) as (T01 & NR & _ & l & cs1 & T1 & M).
        assert (NR1 : tx s1 <> Refreshing) by (rewrite T1; congruence).
        pose proof (set_vals_trans none (tx s1 <> Idle) False (upd (vals s1) id v) s1 (t_gi _ _ _ _ _ _ T01) NR1) as TV.
        assert (TR : trans none (tx s1 <> Idle) False [] (set_vals (upd (vals s1) id v) s1) s2)
          by (eapply report_trans; eauto; apply TV).
        assert (T12 : trans none (tx s1 <> Idle) False [] s1 s2).
        { change (@nil gid) with (@nil gid ++ []). eapply trans_seq; eauto. apply same_tx_refl; auto. }
        assert (ST : same_tx s1 s2).
        { destruct (report_set_ok _ _ _ _ _ (t_gi _ _ _ _ _ _ TV) T1 R) as (d & cs' & _ & C & _ & T' & _).
          unfold same_tx. rewrite T1, T'. exists cs'; split; auto. intros n Hn; apply C; auto. }
        destruct (txn_post s s1 s2 s3 G U T12 ST) as [T03 S03].
        { apply (IH TEnd); auto; [apply T12|]. unfold same_tx in ST; rewrite T1 in ST.
          destruct ST as (cs2 & ST & _). simpl; eauto. }
        eapply REST; eauto.
      + destruct (negb (is_value id)); [discriminate|].
        destruct (up s) as [s1| |] eqn:U; try discriminate. cbn [obind] in X.
        destruct (if e_eqb E (vals s1 id) v then _ else _) as [s2| |] eqn:R; try discriminate. cbn [obind] in X.
        destruct (exec E f TEnd s2) as [s3| |] eqn:X3; try discriminate. cbn [obind] in X.
        destruct (up_ok none True False s s1 G U) as (T01 & NR & _ & l & cs1 & T1 & M).
        assert (NR1 : tx s1 <> Refreshing) by (rewrite T1; congruence).
        pose proof (set_vals_trans none (tx s1 <> Idle) False (upd (vals s1) id v) s1 (t_gi _ _ _ _ _ _ T01) NR1) as TV.
        assert (trans none (tx s1 <> Idle) False [] s1 s2 /\ same_tx s1 s2) as [T12 ST].
        { destruct (e_eqb E (vals s1 id) v).
          - inversion R; subst s2. split; [exact TV|apply same_tx_refl; auto].
          - split.
            + change (@nil gid) with (@nil gid ++ []). eapply trans_seq; [exact TV| |apply same_tx_refl; auto].
              eapply report_trans; eauto; apply TV.
            + destruct (report_set_ok _ _ _ _ _ (t_gi _ _ _ _ _ _ TV) T1 R) as (d & cs' & _ & C & _ & T' & _).
              unfold same_tx. rewrite T1, T'. exists cs'; split; auto. intros n Hn; apply C; auto. }
        destruct (txn_post s s1 s2 s3 G U T12 ST) as [T03 S03].
        { apply (IH TEnd); auto; [apply T12|]. unfold same_tx in ST; rewrite T1 in ST.
          destruct ST as (cs2 & ST & _). simpl; eauto. }
        eapply REST; eauto.
      + destruct (up s) as [s1| |] eqn:U; try discriminate. cbn [obind] in X.
        destruct (exec E f (TCmds body) s1) as [s2| |] eqn:X2; try discriminate. cbn [obind] in X.
        destruct (exec E f TEnd s2) as [s3| |] eqn:X3; try discriminate. cbn [obind] in X.
        destruct (up_ok none True False s s1 G U) as (T01 & NR & _ & l & cs1 & T1 & M).
        destruct (IHC body s1 s2) as [T12 ST]; auto; [apply T01|].
        destruct (txn_post s s1 s2 s3 G U T12 ST) as [T03 S03].
        { apply (IH TEnd); auto; [apply T12|]. unfold same_tx in ST; rewrite T1 in ST.
          destruct ST as (cs2 & ST & _). simpl; eauto. }
        eapply REST; eauto.
      + destruct (get E f id s) as [[s1 v]| |] eqn:GX; try discriminate. cbn [obind] in X.
        destruct (get_ok E rank WF f id s s1 v G GX) as (ST & FR & KI & _).
        assert (T01 : trans none (tx s <> Idle) False [] s s1) by (apply step_trans; auto).
        assert (TX1 : tx s1 = tx s) by apply ST.
        set (s2 := add_log (ERead id v (vals s1)) s1) in *.
        assert (T12 : trans none (tx s <> Idle) False [] s1 s2).
        { constructor; auto.
          - apply GIx_log; [auto|congruence|apply T01].
          - simpl; lia.
          - exists [ERead id v (vals s1)]. repeat split; auto; [constructor|].
            intros _ [Q|[]]; discriminate. }
        assert (T02 : trans none (tx s <> Idle) False [] s s2).
        { change (@nil gid) with (@nil gid ++ []). eapply trans_seq; eauto. apply same_tx_refl; auto. }
        destruct (IHC _ _ _ (t_gi _ _ _ _ _ _ T02) X) as [T' ST'].
        assert (S02 : same_tx s s2) by (apply same_tx_refl; auto).
        split; [|eapply same_tx_trans; eauto].
        change (@nil gid) with (@nil gid ++ []).
        eapply trans_seq; [exact T02| |auto].
        eapply trans_weaken; [exact T'|apply same_tx_idle; auto|tauto|constructor].
      + destruct (N.leb_spec (next s) (gnum c)) as [L|]; [|discriminate]. simpl andb in X.
        destruct (gkind c) eqn:KC; try discriminate.
        destruct (new_sub_trans none (tx s <> Idle) False c s G L KC) as [T02 P2].
        set (s2 := set_live (upd (live (set_next (gnum c + 1)%N s)) c true) (set_next (gnum c + 1)%N s)) in *.
        change (set_live (upd (live s) c true) (set_next (gnum c + 1)%N s)) with s2 in T02, P2.
        destruct (exec E f (TSub c) s2) as [s3| |] eqn:X3; try discriminate. cbn [obind] in X.
        destruct (IH _ _ _ (t_gi _ _ _ _ _ _ T02) P2 X3) as [T23 S23].
        assert (S02 : same_tx s s2) by (apply same_tx_refl; auto).
        apply (REST s3); [|exact (same_tx_trans s s2 s3 S02 S23)|exact X].
        eapply (trans_fresh none _ _ c); auto.
        change [c] with ([] ++ [c]). eapply trans_seq; eauto.
      + destruct (exec E f (TDrop [c]) s) as [s1| |] eqn:X1; try discriminate. cbn [obind] in X.
        destruct (IHD _ _ _ G X1) as [T S]. eapply REST; eauto.
    - (* running a subscription *)
      cbn [exec] in X. fold (src c) in X.
      change (set_running (c :: running s) (add_parent (src c) (frame_open s))) with (open_sub c s) in X.
      pose proof (open_gi c s G P) as G1.
      pose proof P as (P1 & P2 & P3 & P4 & P5).
      destruct (get E f (src c) (open_sub c s)) as [[s2 v]| |] eqn:GX; try discriminate. cbn [obind] in X.
      destruct (get_ok E rank WF f (src c) _ s2 v G1 GX) as (ST & FR & _ & _).
      assert (TX2 : tx s2 = tx s) by apply ST.
      assert (T12 : trans (eq c) (tx s <> Idle) False [] (open_sub c s) s2) by (apply step_trans; auto).
      assert (L2 : (gnum c < next s2)%N) by (destruct T12; simpl in *; lia).
      assert (RUN2 : In c (running s2)) by (rewrite (t_running _ _ _ _ _ _ T12); simpl; auto).
      assert (LV2 : live s2 c = true) by (apply (gi_runlive _ _ _ _ (t_gi _ _ _ _ _ _ T12)); auto).
      set (s3 := if s_dedup (e_sub E c) then set_prev (upd (prev s2) c (Some v)) s2 else s2) in *.
      destruct (if should_update E c v s2 then _ else _) as [s4| |] eqn:X4; try discriminate. cbn [obind] in X.
      assert (T24 : trans (eq c) (tx s <> Idle) False [c] s2 s4 /\ same_tx s2 s4).
      { destruct (should_update E c v s2) eqn:SU.
        - set (sa := add_log (EDeliver c v (vals s3) (is_refreshing s3)) s3) in *.
          assert (TD : trans (eq c) (tx s <> Idle) False [c] s2 sa).
          { apply deliver_trans; auto; [apply T12|]. intros DE SD PV.
            unfold should_update in SU. rewrite SD in SU. destruct (prev s2 c); [|congruence].
            intros Q; inversion Q; subst. rewrite (proj2 (DE v v)) in SU; auto. discriminate. }
          destruct (exec E f (TCmds _) sa) as [sb| |] eqn:X5; try discriminate. cbn [obind] in X4.
          destruct (IHC _ _ _ (t_gi _ _ _ _ _ _ TD) X5) as [TC SC].
          assert (TXs' : tx sa = tx s2) by (unfold sa, s3; destruct (s_dedup (e_sub E c)); auto).
          assert (TR : trans (eq c) (tx s <> Idle) False [] sb
                         (set_res (upd (res sb) c (s_res (e_sub E c) v)) sb)).
          { apply set_res_trans; [apply TC|].
            pose proof (t_next _ _ _ _ _ _ TD). pose proof (t_next _ _ _ _ _ _ TC). lia. }
          destruct (IHD _ _ _ (t_gi _ _ _ _ _ _ TR) X4) as [TDr SD].
          assert (S2' : same_tx s2 sa) by (apply same_tx_refl; auto).
          assert (SR : same_tx sb (set_res (upd (res sb) c (s_res (e_sub E c) v)) sb)) by (apply same_tx_refl; auto).
          assert (STs : same_tx s s2) by (apply same_tx_refl; auto).
          split; [|eapply same_tx_trans; [eapply same_tx_trans; [eapply same_tx_trans; [exact S2'|exact SC]|exact SR]|exact SD]].
          change [c] with ([c] ++ [] ++ [] ++ []).
          eapply trans_seq; [exact TD| |exact S2'].
          eapply trans_seq; [|eapply trans_seq; [exact TR| |exact SR]|exact SC].
          + eapply trans_me; [|eapply trans_weaken; [exact TC| |tauto|constructor]]; [intros ? []|].
            rewrite TXs', TX2; auto.
          + eapply trans_me; [|eapply trans_weaken; [exact TDr| |tauto|constructor]]; [intros ? []|].
            simpl. intros Q. apply (same_tx_idle _ _ SC). rewrite TXs', TX2; auto.
        - inversion X4; subst s4. split; [|apply same_tx_refl; unfold s3; destruct (s_dedup _); auto].
          apply (trans_weaken (eq c) (tx s <> Idle) (tx s <> Idle) False False [] [c]); [|tauto|tauto|apply subseq_nil_l].
          unfold should_update in SU. unfold s3. destruct (s_dedup (e_sub E c)); [|discriminate].
          apply set_prev_trans; auto; [apply T12|]. intros DE _ PV.
          destruct (prev s2 c); [|discriminate].
          destruct (e_eqb E v0 v) eqn:Q; [|discriminate]. apply DE in Q; congruence. }
      destruct T24 as [T24 S24].
      assert (S12 : same_tx (open_sub c s) s2) by (apply same_tx_refl; auto).
      assert (T14 : trans (eq c) (tx s <> Idle) False [c] (open_sub c s) s4).
      { change [c] with ([] ++ [c]). eapply trans_seq; eauto. }
      assert (S14 : same_tx (open_sub c s) s4) by (eapply same_tx_trans; eauto).
      destruct (frame_close s4) as [ctx s5] eqn:FC.
      destruct (push_context E c ctx s5) as [s6| |] eqn:PC; try discriminate. cbn [obind] in X.
      fold (closed c s6) in X.
      destruct (close_ok c _ s s4 s5 ctx s6 G P T14 S14 FC PC) as (T09 & S09 & _).
      change (running (set_active (upd (active s6) c true) s6)) with (running s6) in X.
      fold (closed c s6) in X.
      destruct (set_mem c (dying (closed c s6))) eqn:DY.
      + destruct (IHD _ _ _ (t_gi _ _ _ _ _ _ T09) X) as [TD SD].
        split; [|eapply same_tx_trans; eauto].
        change [c] with ([c] ++ []). eapply trans_seq; [exact T09| |exact S09].
        eapply trans_weaken; [exact TD|apply same_tx_idle; auto|tauto|constructor].
      + inversion X; subst s'.
        rewrite remove_notin in T09, S09 by (apply set_mem_false; auto).
        assert (Q : set_dying (dying (closed c s6)) (closed c s6) = closed c s6) by reflexivity.
        rewrite Q in T09, S09. split; auto.
    - (* refreshing *)
      destruct P as [TX RN]. destruct cs as [|c rest]; cbn [exec] in X.
      { inversion X; subst. split; [apply trans_refl; auto|auto]. }
      destruct (if live s c && active s c then _ else _) as [s1| |] eqn:X1; try discriminate. cbn [obind] in X.
      assert (T01 : trans none True False [c] s s1 /\ tx s1 = Refreshing).
      { destruct (live s c) eqn:LV; simpl in X1.
        - destruct (active s c) eqn:AC.
          + destruct (IH (TSub c) s s1) as [T S]; auto.
            * simpl. split; [apply (gi_livek _ _ _ _ G); auto|]. split; [auto|]. split; [|split].
              -- destruct (N.ltb_spec (gnum c) (next s)); auto.
                 destruct (gi_fresh _ _ _ _ G c); [lia|congruence].
              -- intros H. rewrite RN in AC; auto. discriminate.
              -- congruence.
            * split; [|eapply same_tx_refreshing; eauto].
              eapply trans_weaken; [exact T|intros _; congruence|tauto|apply subseq_refl].
          + inversion X1; subst. split; auto.
            eapply trans_weaken; [apply (trans_refl none True False s1 G)|tauto|tauto|apply subseq_nil_l].
        - inversion X1; subst. split; auto.
          eapply trans_weaken; [apply (trans_refl none True False s1 G)|tauto|tauto|apply subseq_nil_l]. }
      destruct T01 as [T01 TX1].
      destruct (IH (TRefresh rest) s1 s') as [T S]; auto.
      * apply T01.
      * split; auto. intros d H. rewrite (t_running _ _ _ _ _ _ T01) in H.
        destruct (t_keep _ _ _ _ _ _ T01 d H) as [-> _]; auto.
      * split; auto. change (c :: rest) with ([c] ++ rest).
        eapply trans_trans; [exact T01|exact T|tauto|tauto|auto].
    - (* dropping *)
      destruct cs as [|c rest]; cbn [exec] in X.
      { inversion X; subst. split; [apply trans_refl; auto|apply same_tx_refl; auto]. }
      destruct (if negb (live s c) then _ else _) as [s1| |] eqn:X1; try discriminate. cbn [obind] in X.
      assert (T01 : trans none (tx s <> Idle) False [] s s1 /\ same_tx s s1).
      { destruct (live s c) eqn:LV; simpl in X1.
        - destruct (set_mem_spec c (running s)) as [RN|RN].
          + inversion X1; subst. split; [apply set_dying_trans; auto|apply same_tx_refl; auto].
          + destruct (set_parents E c [] _) as [s2| |] eqn:SP; try discriminate. cbn [obind] in X1.
            destruct (drop_trans none (tx s <> Idle) False c s s2 G LV RN SP) as [T02 TX].
            destruct (IHD _ _ _ (t_gi _ _ _ _ _ _ T02) X1) as [T S].
            assert (S02 : same_tx s s2) by (apply same_tx_refl; auto).
            split; [|eapply same_tx_trans; eauto].
            change (@nil gid) with (@nil gid ++ []). eapply trans_seq; [exact T02| |exact S02].
            eapply trans_weaken; [exact T|apply same_tx_idle; auto|tauto|constructor].
        - inversion X1; subst. split; [apply trans_refl; auto|apply same_tx_refl; auto]. }
      destruct T01 as [T01 S01].
      destruct (IHD _ _ _ (t_gi _ _ _ _ _ _ T01) X) as [T S].
      split; [|eapply same_tx_trans; eauto].
      change (@nil gid) with (@nil gid ++ []). eapply trans_seq; [exact T01| |exact S01].
      eapply trans_weaken; [exact T|apply same_tx_idle; auto|tauto|constructor].
    - (* end of a transaction *)
      destruct P as (l & cs & TX). cbn [exec] in X.
      destruct (down s) as [s1 r] eqn:D.
      exists l, cs. split; auto.
      pose proof (gi_tx _ _ _ _ G) as GT. rewrite TX in GT.
      destruct (down_ok s s1 r l cs G TX D) as [(-> & -> & ->)|(L & -> & ->)].
      + left. split; auto.
        destruct (exec E f (TRefresh cs) (set_tx Refreshing s)) as [s2| |] eqn:X2; try discriminate.
        cbn [obind] in X.
        assert (G1 : GI (set_tx Refreshing s)) by (apply GIx_tx; [exact I|congruence|auto]).
        destruct (IH (TRefresh cs) _ _ G1 (conj eq_refl (gi_run _ _ _ _ G ltac:(congruence))) X2) as [T S].
        unfold move_to_idle in X. rewrite S in X. inversion X; subst s'. clear X.
        destruct T as [G4 F4 R4 N4 V4 L4 K4 H4 (l & LG & LG1 & LG2 & LG3) D4]. simpl in *.
        split; [|split; auto].
        constructor; auto.
        * apply GIx_log; [auto|congruence|]. apply GIx_tx; auto. intros _ _ c Hc. rewrite R4 in Hc.
          destruct (K4 c Hc) as [-> _]; [intros []|].
          apply (gi_run _ _ _ _ G); auto. congruence.
        * exists (EHook :: l). simpl. rewrite LG. split; auto. split; auto. split; auto.
          intros _. rewrite app_nil_r. split; [apply LG3; auto|tauto].
      + right. split; auto. inversion X; subst s'. split; auto.
        constructor; auto.
        * apply GIx_tx; [split; [lia|tauto]|congruence|auto].
        * simpl; lia.
        * exists []. repeat split; auto. constructor.
  Qed.
End Exec.
