(** The theorems about the reactive core: C01-C06 and C09-C11.

    A run is [run E vs h s]: the commands [h], executed on a fresh driver with the stored values [vs]
    in an application [E], end in the state [s].  Runs that panic are not runs; see the head comments of
    [ReactModel] and [ReactSpec]. *)

From Coq Require Import List NArith Bool Lia Arith Relations.
From Verif Require Import GraphModel GraphSpec GraphProofs ReactModel ReactSpec ReactBase ReactInv ReactExec
  ReactRel ReactFacts ReactCoh ReactStatic ReactConn.
Import ListNotations.

(** ** What the properties say *)

Section Statements.
  Context {V : Type}.
  Variable E : @env V.

  (** C01: every read of the log gave the from-scratch value. *)
  Definition reads_fresh (l : list (@event V)) : Prop :=
    forall id v vs, In (ERead id v vs) l -> den E vs id v.

  (** C02: every value handed to a callback was the from-scratch value. *)
  Definition deliveries_fresh (l : list (@event V)) : Prop :=
    forall c v vs b, In (EDeliver c v vs b) l -> den E vs (s_src (e_sub E c)) v.

  (** C04: the last value handed to every live subscription is the current from-scratch value. *)
  Definition all_notified (s : @state V) : Prop :=
    forall c, live s c = true ->
      exists v, hd_error (delivered c (log s)) = Some v /\ den E (vals s) (s_src (e_sub E c)) v.

  (** [needs vs c id]: evaluating [c] from scratch reads [id], directly or not. *)
  Inductive needs (vs : gid -> V) : gid -> gid -> Prop :=
  | needs_read c l v id : gkind c = KComputed -> runs E vs (e_comp E c) l v -> In id l -> needs vs c id
  | needs_via c l v m id : gkind c = KComputed -> runs E vs (e_comp E c) l v -> In m l ->
      needs vs m id -> needs vs c id.
End Statements.

(** ** Concrete applications used by the examples and refutations *)

Module Demo.
  Local Open Scope N_scope.
  Definition v1 := GId KValue 1.
  Definition v2 := GId KValue 2.
  Definition v7 := GId KValue 7.
  Definition c3 := GId KComputed 3.
  Definition c4 := GId KComputed 4.
  Definition c5 := GId KComputed 5.
  Definition c8 := GId KComputed 8.
  Definition k10 := GId KClient 10.
  Definition k11 := GId KClient 11.
  Definition k12 := GId KClient 12.

  (** [c3 = 2*v1]; [c4 = if v2 then c3 else 0]; [c5 = if v2 then c4 else c3 + c4]; [c8 = c5 + v7]. *)
  Definition comp (c : gid) : @prog N :=
    match gnum c with
    | 3 => PRead v1 (fun a => PRet (2 * a))
    | 4 => PRead v2 (fun f => if f =? 0 then PRet 0 else PRead c3 PRet)
    | 5 => PRead v2 (fun f => if f =? 0 then PRead c3 (fun x => PRead c4 (fun y => PRet (x + y)))
                              else PRead c4 PRet)
    | 8 => PRead c5 (fun x => PRead v7 (fun y => PRet (x + y)))
    | _ => PRet 0
    end.

  (** Subscription 10 watches [c5], 11 watches [c8], 12 is a [subscribe_all] of [c3]. *)
  Definition subs (c : gid) : @sub N :=
    match gnum c with
    | 11 => Sub c8 true (fun _ => []) (fun _ => [])
    | 12 => Sub c3 false (fun _ => []) (fun _ => [])
    | _ => Sub c5 true (fun _ => []) (fun _ => [])
    end.

  Definition demo : @env N := Env comp subs (fun v => gid_eqb v v1) N.eqb.
  Definition ones : gid -> N := fun _ => 1.
  Definition rank (id : gid) : nat := N.to_nat (gnum id).

  Lemma demo_wf : well_founded_env demo rank.
  Proof.
    split.
    - intros [k n] K. simpl in K. subst k. unfold rank. cbn [demo e_comp]. unfold comp. cbn [gnum].
      destruct (N.eq_dec n 3) as [->|]; [simpl; split; [lia|split; [congruence|auto]]|].
      destruct (N.eq_dec n 4) as [->|].
      { simpl. split; [lia|split; [congruence|]]. intros x. destruct (x =? 0); simpl; auto.
        split; [lia|split; [congruence|auto]]. }
      destruct (N.eq_dec n 5) as [->|].
      { simpl. split; [lia|split; [congruence|]]. intros x. destruct (x =? 0); simpl.
        - split; [lia|split; [congruence|]]. intros y. split; [lia|split; [congruence|auto]].
        - split; [lia|split; [congruence|auto]]. }
      destruct (N.eq_dec n 8) as [->|].
      { simpl. split; [lia|split; [congruence|]]. intros x. split; [lia|split; [congruence|auto]]. }
      destruct n as [|p]; simpl; auto.
      do 4 (try (destruct p as [p|p|]; simpl; auto)); congruence.
    - intros [k n]. simpl. unfold subs. cbn [gnum].
      destruct n as [|p]; simpl; auto. do 4 (try (destruct p as [p|p|]; simpl; auto)).
  Qed.

  Lemma demo_eq : decides_eq demo.
  Proof. intros a b. apply N.eqb_eq. Qed.

  (** The state a run ends in. *)
  Definition final (E : @env N) (h : list cmd) : state :=
    match exec E 100 (TCmds h) (init ones) with Ok s => s | _ => init ones end.
  Definition ends (E : @env N) (h : list cmd) : bool :=
    match exec E 100 (TCmds h) (init ones) with Ok _ => true | _ => false end.

  Lemma run_final E h : ends E h = true -> run E ones h (final E h).
  Proof.
    unfold ends, final. intros X. exists 100%nat.
    destruct (exec E 100 (TCmds h) (init ones)); [reflexivity|discriminate|discriminate].
  Qed.

  (** The newest read, the newest delivery. *)
  Fixpoint last_read (l : list (@event N)) : option (gid * N * (gid -> N)) :=
    match l with
    | [] => None
    | ERead id v vs :: _ => Some (id, v, vs)
    | _ :: t => last_read t
    end.
  Fixpoint last_delivery (l : list (@event N)) : option (gid * N * (gid -> N) * bool) :=
    match l with
    | [] => None
    | EDeliver c v vs b :: _ => Some (c, v, vs, b)
    | _ :: t => last_delivery t
    end.

  Lemma last_read_In l id v vs : last_read l = Some (id, v, vs) -> In (ERead id v vs) l.
  Proof.
    induction l as [|e l IH]; [discriminate|]. destruct e; simpl; auto.
    intros X; inversion X; subst; auto.
  Qed.

  Lemma last_delivery_In l c v vs b : last_delivery l = Some (c, v, vs, b) -> In (EDeliver c v vs b) l.
  Proof.
    induction l as [|e l IH]; [discriminate|]. destruct e; simpl; auto.
    intros X; inversion X; subst; auto.
  Qed.

  (** From-scratch values of the application. *)
  Lemma den_c3 vs : den demo vs c3 (2 * vs v1).
  Proof.
    eapply den_computed; [reflexivity|]. eapply runs_read; [apply den_value; reflexivity|constructor].
  Qed.
  Lemma den_c5_off vs : vs v2 = 0 -> den demo vs c5 (2 * vs v1).
  Proof.
    intros Z. eapply den_computed; [reflexivity|].
    eapply runs_read; [apply den_value; reflexivity|]. rewrite Z. simpl.
    eapply runs_read; [apply den_c3|].
    eapply runs_read.
    - eapply den_computed; [reflexivity|]. eapply runs_read; [apply den_value; reflexivity|].
      rewrite Z. simpl. constructor.
    - rewrite N.add_0_r. constructor.
  Qed.
  Lemma den_c8_off vs : vs v2 = 0 -> den demo vs c8 (2 * vs v1 + vs v7).
  Proof.
    intros Z. eapply den_computed; [reflexivity|].
    eapply runs_read; [apply den_c5_off; auto|].
    eapply runs_read; [apply den_value; reflexivity|constructor].
  Qed.

  (** An application that always reads the same things: [c3 = 2*v1], [c5 = c3 + v2]. *)
  Definition comp' (c : gid) : @prog N :=
    match gnum c with
    | 3 => PRead v1 (fun a => PRet (2 * a))
    | 5 => PRead c3 (fun x => PRead v2 (fun y => PRet (x + y)))
    | _ => PRet 0
    end.

  (** Subscription 10 watches [c5]; whenever called it subscribes nothing but reads [c3]; 11 watches
      [c3] and owns subscription 10. *)
  Definition subs' (c : gid) : @sub N :=
    match gnum c with
    | 11 => Sub c3 true (fun _ => []) (fun _ => [k10])
    | 12 => Sub c3 false (fun _ => []) (fun _ => [])
    | _ => Sub c5 true (fun _ => [CRead c3 (fun _ => [])]) (fun _ => [])
    end.
  Definition sdemo : @env N := Env comp' subs' (fun v => gid_eqb v v1) N.eqb.

  Lemma sdemo_wf : well_founded_env sdemo rank.
  Proof.
    split.
    - intros [k n] K. simpl in K. subst k. unfold rank. cbn [sdemo e_comp]. unfold comp'. cbn [gnum].
      destruct (N.eq_dec n 3) as [->|]; [simpl; split; [lia|split; [congruence|auto]]|].
      destruct (N.eq_dec n 5) as [->|].
      { simpl. split; [lia|split; [congruence|]]. intros x. split; [lia|split; [congruence|auto]]. }
      destruct n as [|p]; simpl; auto.
      do 3 (try (destruct p as [p|p|]; simpl; auto)); congruence.
    - intros [k n]. simpl. unfold subs'. cbn [gnum].
      destruct n as [|p]; simpl; auto. do 4 (try (destruct p as [p|p|]; simpl; auto)).
  Qed.

  Lemma sdemo_eq : decides_eq sdemo.
  Proof. intros a b. apply N.eqb_eq. Qed.

  Lemma sdemo_static : static_env sdemo.
  Proof.
    split.
    - intros [k n] K. cbn [sdemo e_comp]. unfold comp'. cbn [gnum].
      destruct n as [|p]; [eexists; constructor|].
      do 3 (try (destruct p as [p|p|]; try (eexists; constructor; fail))).
      + eexists. constructor. intros x. constructor. intros y. constructor.
      + eexists. constructor. intros x. constructor.
    - intros [k n] v. cbn [sdemo e_sub]. unfold subs'. cbn [gnum].
      destruct n as [|p]; [repeat constructor|].
      do 4 (try (destruct p as [p|p|]; try (repeat constructor; fail))).
  Qed.
End Demo.
Import Demo.

(** ** C01, C02, C04: coherence *)

(** Runs can be continued. *)
Lemma obind_ok {A B} (m : out A) (k : A -> out B) r : obind m k = Ok r -> exists a, m = Ok a /\ k a = Ok r.
Proof. destruct m; simpl; intros X; try discriminate; eauto. Qed.

Lemma get_mono {V} (E : @env V) f g id s r : f <= g -> get E f id s = Ok r -> get E g id s = Ok r.
Proof.
  intros L. unfold get. destruct (gkind id); auto. destruct (cache s id); auto. apply calc_mono; auto.
Qed.

Lemma exec_mono_step {V} (E : @env V) f g : f <= g ->
  (forall t s s', exec E f t s = Ok s' -> exec E g t s = Ok s') ->
  forall t s s', exec E (S f) t s = Ok s' -> exec E (S g) t s = Ok s'.
Proof.
  intros L IH t s s' X.
  destruct t as [cs|c|cs|cs|].
  - destruct cs as [|cm rest]; [exact X|]. destruct cm as [id v|id v|body|id k|c|c]; cbn [exec] in *.
    + destruct (negb (is_value id)); auto.
      apply obind_ok in X as (s1 & -> & X). apply obind_ok in X as (s2 & X2 & X).
      apply obind_ok in X as (s3 & X3 & X). simpl. rewrite X2. simpl. rewrite (IH _ _ _ X3). simpl. auto.
    + destruct (negb (is_value id)); auto.
      apply obind_ok in X as (s1 & -> & X). apply obind_ok in X as (s2 & X2 & X).
      apply obind_ok in X as (s3 & X3 & X). simpl. rewrite X2. simpl. rewrite (IH _ _ _ X3). simpl. auto.
    + apply obind_ok in X as (s1 & -> & X). apply obind_ok in X as (s2 & X2 & X).
      apply obind_ok in X as (s3 & X3 & X). simpl. rewrite (IH _ _ _ X2). simpl.
      rewrite (IH _ _ _ X3). simpl. auto.
    + apply obind_ok in X as ([s1 v] & X1 & X). rewrite (get_mono E f g id s _ L X1). simpl. auto.
    + destruct (_ && _); auto. apply obind_ok in X as (s3 & X3 & X). rewrite (IH _ _ _ X3). simpl. auto.
    + apply obind_ok in X as (s3 & X3 & X). rewrite (IH _ _ _ X3). simpl. auto.
  - cbn [exec] in *. apply obind_ok in X as ([s2 v] & X1 & X).
    rewrite (get_mono E f g _ _ _ L X1). cbn [obind].
    apply obind_ok in X as (s4 & X4 & X).
    match goal with |- obind ?m _ = _ => replace m with (Ok s4) end.
    + cbn [obind]. destruct (frame_close s4) as [ctx s5]. apply obind_ok in X as (s6 & -> & X).
      cbn [obind] in *. destruct (set_mem c _); auto.
    + destruct (should_update E c v s2); auto.
      apply obind_ok in X4 as (sb & X5 & X4). rewrite (IH _ _ _ X5). cbn [obind]. symmetry; auto.
  - destruct cs as [|c rest]; [exact X|]. cbn [exec] in *.
    apply obind_ok in X as (s1 & X1 & X).
    destruct (live s c && active s c); [rewrite (IH _ _ _ X1)|rewrite X1]; simpl; auto.
  - destruct cs as [|c rest]; [exact X|]. cbn [exec] in *.
    apply obind_ok in X as (s1 & X1 & X).
    match goal with |- obind ?m _ = _ => replace m with (Ok s1) end; [simpl; auto|].
    destruct (negb (live s c)); auto. destruct (set_mem c (running s)); auto.
    apply obind_ok in X1 as (s2 & -> & X1). simpl. symmetry; auto.
  - cbn [exec] in *. destruct (down s) as [s1 [cs|]]; auto.
    apply obind_ok in X as (s2 & X2 & X). rewrite (IH _ _ _ X2). simpl. auto.
Qed.

Lemma exec_mono {V} (E : @env V) f : forall g t s s', f <= g -> exec E f t s = Ok s' -> exec E g t s = Ok s'.
Proof.
  induction f as [|f IH]; intros g t s s' L X; [discriminate|].
  destruct g as [|g]; [lia|]. revert X. apply exec_mono_step; [lia|]. intros t' a b. apply IH. lia.
Qed.

Lemma exec_app {V} (E : @env V) f : forall h1 h2 s s1 s2, exec E f (TCmds h1) s = Ok s1 ->
  exec E f (TCmds h2) s1 = Ok s2 -> exec E (f + f) (TCmds (h1 ++ h2)) s = Ok s2.
Proof.
  assert (AUX : forall n f g h1 h2 s s1 s2, n = f -> f <= g -> exec E f (TCmds h1) s = Ok s1 ->
            exec E g (TCmds h2) s1 = Ok s2 -> exec E (f + g) (TCmds (h1 ++ h2)) s = Ok s2).
  { induction n as [n IH] using lt_wf_ind. intros f0 g h1 h2 s s1 s2 EQ L X1 X2. subst n.
    destruct f0 as [|f0]; [discriminate|].
    destruct h1 as [|cm rest].
    { cbn [exec] in X1. inversion X1; subst. eapply exec_mono; [|exact X2]. lia. }
    assert (REST : forall a, exec E f0 (TCmds rest) a = Ok s1 -> exec E (f0 + g) (TCmds (rest ++ h2)) a = Ok s2).
    { intros a Xa. apply (IH f0) with (s1 := s1); auto. lia. }
    change (S f0 + g) with (S (f0 + g)).
    assert (M : forall t a b, exec E f0 t a = Ok b -> exec E (f0 + g) t a = Ok b).
    { intros t a b. apply exec_mono. lia. }
    simpl List.app. destruct cm as [id v|id v|body|id k|c|c]; cbn [exec] in *.
    + destruct (negb (is_value id)); [discriminate|].
      apply obind_ok in X1 as (a1 & -> & X). apply obind_ok in X as (a2 & Y2 & X).
      apply obind_ok in X as (a3 & Y3 & X). simpl. rewrite Y2. simpl. rewrite (M _ _ _ Y3). simpl. auto.
    + destruct (negb (is_value id)); [discriminate|].
      apply obind_ok in X1 as (a1 & -> & X). apply obind_ok in X as (a2 & Y2 & X).
      apply obind_ok in X as (a3 & Y3 & X). simpl. rewrite Y2. simpl. rewrite (M _ _ _ Y3). simpl. auto.
    + apply obind_ok in X1 as (a1 & -> & X). apply obind_ok in X as (a2 & Y2 & X).
      apply obind_ok in X as (a3 & Y3 & X). simpl. rewrite (M _ _ _ Y2). simpl.
      rewrite (M _ _ _ Y3). simpl. auto.
    + apply obind_ok in X1 as ([a1 v] & Y1 & X). rewrite (get_mono E f0 (f0 + g) id s _ ltac:(lia) Y1). simpl.
      rewrite app_assoc. apply (IH f0) with (s1 := s1); auto. lia.
    + destruct (_ && _); [|discriminate]. apply obind_ok in X1 as (a3 & Y3 & X). rewrite (M _ _ _ Y3). simpl. auto.
    + apply obind_ok in X1 as (a3 & Y3 & X). rewrite (M _ _ _ Y3). simpl. auto. }
  intros. eapply AUX; eauto.
Qed.

Lemma run_app {V} (E : @env V) vs h f h2 s s' : run E vs h s -> exec E f (TCmds h2) s = Ok s' ->
  run E vs (h ++ h2) s'.
Proof.
  intros [g X] Y. exists ((f + g) + (f + g)).
  eapply exec_app; (eapply exec_mono; [|eassumption]); lia.
Qed.

Lemma run_coh {V} (E : @env V) rank vs h s : well_founded_env E rank -> decides_eq E ->
  run E vs h s -> hazard s = false -> K E (fun _ => False) s.
Proof.
  intros WF DE [f X] HZ.
  apply (exec_coh E rank WF DE f (TCmds h) (fun _ => False) (init vs) s); auto; [apply init_gi|exact I|].
  constructor; simpl; try (intros; discriminate).
  - intros n (g & [] & _).
  - constructor.
  - intros c _. simpl. auto.
Qed.

(** C01, full statement: [forall E rank vs h s, well_founded_env E rank -> decides_eq E ->
    run E vs h s -> reads_fresh E (log s)].  It is false. *)
Theorem C01_fresh_reads_refuted :
  exists (E : @env N) rank vs h s,
    well_founded_env E rank /\ decides_eq E /\ run E vs h s /\ ~ reads_fresh E (log s).
Proof.
  exists demo, rank, ones, [CSub k10; CSet v2 0%N; CSet v1 10%N; CTrans [CRead c5 (fun _ => [])]],
    (final demo [CSub k10; CSet v2 0%N; CSet v1 10%N; CTrans [CRead c5 (fun _ => [])]]).
  split; [exact demo_wf|]. split; [exact demo_eq|]. split; [apply run_final; vm_compute; reflexivity|].
  intros H.
  destruct (last_read (log (final demo [CSub k10; CSet v2 0%N; CSet v1 10%N; CTrans [CRead c5 (fun _ => [])]])))
    as [[[id v] vs]|] eqn:L; [|vm_compute in L; discriminate].
  assert (Q : id = c5 /\ v = 2%N /\ vs v1 = 10%N /\ vs v2 = 0%N).
  { vm_compute in L. inversion L; subst. vm_compute. auto. }
  destruct Q as (-> & -> & Q1 & Q2).
  apply last_read_In, H in L. pose proof (den_c5_off vs Q2) as D. rewrite Q1 in D.
  pose proof (den_det demo vs c5 _ _ L D). discriminate.
Qed.

(** What holds: as long as no evaluation in progress has lost something it had already read
    ([hazard s = false], a ghost flag that [note_hazard] sets at the two places where a cache is
    cleared). *)
Theorem C01_fresh_reads_partial {V} (E : @env V) rank vs h s :
  well_founded_env E rank -> decides_eq E -> run E vs h s -> hazard s = false ->
  reads_fresh E (log s).
Proof.
  intros WF DE R HZ id v w I.
  pose proof (k_log _ _ _ (run_coh E rank vs h s WF DE R HZ)) as F.
  rewrite Forall_forall in F. exact (F _ I).
Qed.

(** In particular for every application whose computeds always read the same things and whose
    callbacks only read and subscribe, whatever the history. *)
Theorem C01_fresh_reads_static_partial {V} (E : @env V) rank vs h s :
  well_founded_env E rank -> decides_eq E -> static_env E -> run E vs h s -> reads_fresh E (log s).
Proof.
  intros WF DE SE R. eapply C01_fresh_reads_partial; eauto. eapply run_static; eauto.
Qed.

(** A non-trivial history that meets the hypotheses, in the application of the refutation and in a
    static one; both contain reads, sets, nested transactions, subscriptions and a drop. *)
Definition demo_history : list (@cmd N) :=
  [CSub k10; CTrans [CSet v1 5%N; CTrans [CRead c5 (fun x => [CSet v2 x])]; CRead c5 (fun _ => [])];
   CSub k12; CSet v1 7%N; CDrop k10; CSet v1 8%N; CTrans [CRead c3 (fun _ => [])]].

Example C01_example :
  run demo ones demo_history (final demo demo_history) /\ hazard (final demo demo_history) = false /\
  length (filter (fun e => match e with ERead _ _ _ => true | _ => false end) (log (final demo demo_history))) = 3.
Proof. split; [apply run_final; vm_compute; reflexivity|]. split; vm_compute; reflexivity. Qed.

Example C01_static_example :
  run sdemo ones demo_history (final sdemo demo_history) /\ static_env sdemo /\
  length (filter (fun e => match e with ERead _ _ _ => true | _ => false end) (log (final sdemo demo_history))) = 6.
Proof.
  split; [apply run_final; vm_compute; reflexivity|]. split; [exact sdemo_static|]. vm_compute; reflexivity.
Qed.

(** ** The shape of an outermost transaction *)

Lemma subseq_sorted l l' : subseq l l' -> sorted l' -> sorted l.
Proof.
  induction 1 as [|x l l' H IH|x l l' H IH]; auto; intros S; inversion S as [|y t F S']; subst; auto.
  constructor; auto. rewrite Forall_forall in *. intros y I. apply F. eapply subseq_In; eauto.
Qed.

Lemma olds_In {V} n (l : list (@event V)) c v w b : (gnum c < n)%N -> In (EDeliver c v w b) l -> In c (olds n l).
Proof.
  intros L. induction l as [|e l IH]; [intros []|]. intros [H|H]; simpl; apply in_app_iff; [|auto].
  subst e. right. apply N.ltb_lt in L. rewrite L. simpl; auto.
Qed.

Lemma delivered_olds {V} c n (l : list (@event V)) : (gnum c < n)%N ->
  length (delivered c l) = count_occ gid_eq_dec (olds n l) c.
Proof.
  intros L. induction l as [|e l IH]; auto. simpl olds. rewrite count_occ_app.
  destruct e as [| c' v w b| | | | |]; simpl; try (rewrite IH; lia).
  destruct (gid_eqb_spec c c') as [->|N].
  - apply N.ltb_lt in L. rewrite L. simpl. rewrite IH. destruct (gid_eq_dec c' c'); [lia|congruence].
  - destruct (gnum c' <? n)%N; simpl; [|lia]. rewrite IH. destruct (gid_eq_dec c' c); [congruence|lia].
Qed.

Section Shape.
  Context {V : Type}.
  Variable E : @env V.
  Variable rank : gid -> nat.
  Hypothesis WF : well_founded_env E rank.

  (** An outermost transaction: its body runs, then the scheduled subscriptions are refreshed, then the
      hook is called. *)
  Lemma end_shape f (s s' : @state V) cs : GI E rank s -> settled E s -> tx s = Modification 1 cs ->
    exec E f TEnd s = Ok s' ->
    exists lr f' sr, log s' = EHook :: lr ++ log s /\ tx s' = Idle /\ vals s' = vals s /\
      Forall (ev_at (vals s)) lr /\ ~ In EHook lr /\ subseq (olds (next s) lr) cs /\ sorted cs /\
      exec E f' (TRefresh cs) (set_tx Refreshing s) = Ok sr /\ s' = add_log EHook (set_tx Idle sr) /\
      GI E rank (set_tx Refreshing s) /\ pre (TRefresh cs) (set_tx Refreshing s).
  Proof.
    intros G SE TX X. destruct f as [|f]; [discriminate|]. cbn [exec] in X.
    destruct (down s) as [s1 r] eqn:D.
    destruct (down_ok E rank s s1 r 1 cs G TX D) as [(_ & -> & ->)|(L & _)]; [|congruence].
    destruct (exec E f (TRefresh cs) (set_tx Refreshing s)) as [s2| |] eqn:X2; try discriminate.
    cbn [obind] in X.
    assert (G1 : GI E rank (set_tx Refreshing s)) by (apply GIx_tx; [exact I|congruence|auto]).
    assert (PR : pre (TRefresh cs) (set_tx Refreshing s)).
    { split; auto. apply (gi_run _ _ _ _ G). congruence. }
    destruct (exec_struct E rank WF f (TRefresh cs) _ _ G1 PR X2) as [T S].
    unfold move_to_idle in X. rewrite S in X. inversion X; subst s'. clear X.
    destruct (exec_refreshing E rank WF f cs _ s2 G1 PR X2 eq_refl) as (_ & VV & lr & LR & FR).
    destruct (t_log _ _ _ _ _ _ _ _ T) as (l & LL & _ & _ & ST).
    destruct (ST Logic.I) as [ST1 ST2].
    assert (l = lr).
    { simpl in LL, LR. rewrite LL in LR. apply app_inv_tail in LR; auto. }
    subst l. pose proof (gi_tx _ _ _ _ G) as GT. rewrite TX in GT.
    exists lr, f, s2. simpl in LR. simpl. rewrite LR.
    split; [auto|]. split; [auto|]. split; [auto|]. split; [auto|].
    split; [apply ST2; auto|]. split; [exact ST1|]. split; [apply GT|]. split; [auto|]. auto.
  Qed.

  (** A call flagged as part of a refresh is followed by the hook. *)
  Definition flag_rel (s s' : @state V) : Prop :=
    exists l, log s' = l ++ log s /\
      (tx s <> Refreshing -> tx s' <> Refreshing /\ forall c v w, In (EDeliver c v w true) l -> In EHook l).

  Lemma exec_flag f cs s s' : GI E rank s -> exec E f (TCmds cs) s = Ok s' -> flag_rel s s'.
  Proof.
    assert (SAME : forall a b : @state V, log b = log a -> (tx a <> Refreshing -> tx b <> Refreshing) -> flag_rel a b).
    { intros a b L T. exists []. split; [exact L|]. intros Q. split; [auto|]. intros ? ? ? []. }
    assert (QUIET : forall (a b : @state V) l, log b = l ++ log a -> (tx a <> Refreshing -> tx b <> Refreshing) ->
              (forall c v w, ~ In (EDeliver c v w true) l) -> flag_rel a b).
    { intros a b l L T N. exists l. split; [exact L|]. intros Q. split; [auto|]. intros c v w I. destruct (N c v w I). }
    assert (CALC : forall l, Forall (calc_event (V := V)) l -> forall c v w, ~ In (EDeliver c v w true) l).
    { intros l F c v w I. rewrite Forall_forall in F. apply F in I. exact I. }
    apply (exec_rel E rank WF flag_rel).
    - intros a. apply SAME; auto.
    - intros a b c (l & L & A) (l' & L' & B). exists (l' ++ l). split; [rewrite L', L, app_assoc; auto|].
      intros Q. destruct (A Q) as [A1 A2]. destruct (B A1) as [B1 B2]. split; auto.
      intros d v w I. apply in_app_iff. apply in_app_iff in I as [I|I]; eauto.
    - intros a b Ga U. destruct (up_facts E rank a b Ga U) as [EQ _].
      destruct (up_ok E rank none True False a b Ga U) as (_ & _ & _ & l & cs1 & T & _).
      apply SAME; [rewrite EQ; auto|congruence].
    - intros a b l cs' id v Ga T X.
      destruct (report_set_ok E rank id _ b l cs' (GIx_vals _ _ _ _ _ Ga) T X)
        as (d & cs2 & _ & _ & _ & T' & _ & _ & _ & _ & EQ).
      apply SAME; [rewrite EQ; auto|congruence].
    - intros a l cs' id v Ga T _. apply SAME; auto.
    - intros f' id a b v Ga _ GX.
      destruct (get_facts E rank WF f' id a b v Ga GX) as ((lc & L & FL) & (_ & _ & _ & _ & T & _) & _).
      apply (QUIET a b lc); auto. congruence.
    - intros f' id a b v Ga GX.
      destruct (get_facts E rank WF f' id a b v Ga GX) as ((lc & L & FL) & (_ & _ & _ & _ & T & _) & _).
      apply (QUIET a _ (ERead id v (vals b) :: lc)); [simpl; rewrite L; auto|simpl; congruence|].
      intros c w ws [I|I]; [discriminate|]. eapply CALC; eauto.
    - intros a c v Ga I. apply SAME; auto.
    - intros a c v Ga I. exists [EDeliver c v (vals a) (is_refreshing a)]. split; auto.
      intros Q. split; auto. intros d w ws [H|[]]. exfalso. unfold is_refreshing in H.
      destruct (tx a); [discriminate|discriminate|congruence].
    - intros a c r Ga. apply SAME; auto.
    - intros a c Ga I. apply SAME; auto.
    - intros a c b Ga LV NR X.
      destruct (drop_facts E rank a c b Ga LV NR X) as ((lc & L & FL) & _ & _ & _ & T & _).
      apply (QUIET a b (lc ++ [EDrop c])); [rewrite <- app_assoc; auto|congruence|].
      intros d v w I. apply in_app_iff in I as [I|[I|[]]]; [eapply CALC; eauto|discriminate].
    - intros s0 a c s4 s6 G0 ST Ga PR G4 T14 S14 (l & L & A) PC.
      destruct (sub_closed E rank WF a c s4 s6 Ga PR T14 S14 PC) as ((lc & L9 & FL) & _ & _ & _ & T & _).
      assert (T0 : tx a = tx s0 /\ log a = log s0).
      { destruct ST as [[-> _]|(_ & _ & ->)]; auto. }
      destruct T0 as (T1 & T3). simpl in L, A.
      exists (lc ++ l). rewrite L9, L, T3, app_assoc. split; auto.
      intros Q. destruct (A ltac:(congruence)) as [A1 A2]. split; [rewrite T; auto|].
      intros d v w I. apply in_app_iff. apply in_app_iff in I as [I|I]; [|eauto].
      exfalso; eapply CALC; eauto.
    - intros a b cs' Ga T Gb (l & L & _) TB. exists (EHook :: l). simpl in *. rewrite L. split; auto.
      intros _. split; [congruence|]. auto.
    - intros a l cs' Ga T _. apply SAME; auto. simpl. congruence.
  Qed.

  Lemma trans_shape f vs h (s s' : @state V) body : run E vs h s ->
    exec E f (TCmds [CTrans body]) s = Ok s' ->
    exists lr lb f' sm cs,
      exec E f' (TCmds body) (set_tx (Modification 1 []) s) = Ok sm /\ log sm = lb ++ log s /\
      tx sm = Modification 1 cs /\ sorted cs /\
      log s' = EHook :: lr ++ log sm /\ tx s' = Idle /\ vals s' = vals sm /\
      ~ In EHook (lr ++ lb) /\
      Forall (ev_at (vals s')) lr /\
      olds (next s) lb = [] /\ subseq (olds (next sm) lr) cs /\ (next s <= next sm)%N.
  Proof.
    intros R X. destruct (run_gi E rank WF vs h s R) as (G & TI & RN & FR).
    pose proof (run_settled E rank WF vs h s R) as SE.
    destruct f as [|f]; [discriminate|]. cbn [exec] in X.
    assert (U : up s = Ok (set_tx (Modification 1 []) s)) by (unfold up; rewrite TI; auto).
    rewrite U in X. cbn [obind] in X.
    destruct (exec E f (TCmds body) _) as [sm| |] eqn:X2; try discriminate. cbn [obind] in X.
    destruct (exec E f TEnd sm) as [s3| |] eqn:X3; try discriminate. cbn [obind] in X.
    destruct f as [|f]; [discriminate|]. cbn [exec] in X. inversion X; subst s3. clear X.
    destruct (up_ok E rank none True False s _ G U) as (T01 & _).
    pose proof (t_gi _ _ _ _ _ _ _ _ T01) as G1.
    destruct (struct_cmds E rank WF (S f) body _ sm G1 X2) as [T12 S12].
    unfold same_tx in S12. simpl in S12. destruct S12 as (cs & TM & _).
    assert (SE1 : settled E (set_tx (Modification 1 []) s)) by exact SE.
    pose proof (exec_settled E rank WF (S f) body _ sm G1 X2 SE1) as SEM.
    pose proof (t_gi _ _ _ _ _ _ _ _ T12) as GM.
    destruct (end_shape (S f) sm s' cs GM SEM TM X3) as (lr & f' & sr & L & TI' & VV & FE & NH & SQ & SO & _).
    destruct (t_log _ _ _ _ _ _ _ _ T12) as (lb & LB & _ & _ & ST).
    assert (NI : tx (set_tx (Modification 1 []) s) <> Idle) by (simpl; congruence).
    destruct (ST NI) as [ST1 ST2]. simpl in LB, ST1. apply subseq_nil in ST1.
    exists lr, lb, (S f), sm, cs.
    split; [exact X2|]. split; [exact LB|]. split; [exact TM|]. split; [exact SO|]. split; [exact L|].
    split; [auto|]. split; [auto|]. split.
    { intros I. apply in_app_iff in I as [I|I]; auto. apply (ST2 ltac:(tauto) I). }
    split; [rewrite VV; auto|]. split; [auto|]. split; [auto|].
    exact (t_next _ _ _ _ _ _ _ _ T12).
  Qed.
End Shape.

(** ** C02 *)

(** Full statement: as [C02_glitch_free_partial] without the hypothesis [hazard s' = false].  False. *)
Theorem C02_glitch_free_refuted :
  exists (E : @env N) rank vs h s,
    well_founded_env E rank /\ decides_eq E /\ run E vs h s /\ ~ deliveries_fresh E (log s).
Proof.
  exists demo, rank, ones, [CSub k10; CSub k11; CSet v2 0%N; CSet v1 10%N; CSet v7 5%N],
    (final demo [CSub k10; CSub k11; CSet v2 0%N; CSet v1 10%N; CSet v7 5%N]).
  split; [exact demo_wf|]. split; [exact demo_eq|]. split; [apply run_final; vm_compute; reflexivity|].
  intros H.
  destruct (last_delivery (log (final demo [CSub k10; CSub k11; CSet v2 0%N; CSet v1 10%N; CSet v7 5%N])))
    as [[[[c v] vs] b]|] eqn:L; [|vm_compute in L; discriminate].
  assert (Q : c = k11 /\ v = 7%N /\ vs v1 = 10%N /\ vs v2 = 0%N /\ vs v7 = 5%N).
  { vm_compute in L. inversion L; subst. vm_compute. auto 6. }
  destruct Q as (-> & -> & Q1 & Q2 & Q7).
  apply last_delivery_In, H in L. pose proof (den_c8_off vs Q2) as D. rewrite Q1, Q7 in D.
  pose proof (den_det demo vs c8 _ _ L D). discriminate.
Qed.

(** Every value handed to a callback is the from-scratch value for the stored values recorded with the
    event (those at the time of the call); for the calls made while refreshing (flag [true]) these are
    the values at the end of the outermost transaction, whatever happened in it.  The other calls are the
    ones a new subscription makes at once. *)
Theorem C02_glitch_free_partial {V} (E : @env V) rank vs h s f body s' :
  well_founded_env E rank -> decides_eq E -> run E vs h s ->
  exec E f (TCmds [CTrans body]) s = Ok s' ->
  (forall l c v w, log s' = l ++ log s -> In (EDeliver c v w true) l -> w = vals s') /\
  (hazard s' = false -> deliveries_fresh E (log s')).
Proof.
  intros WF DE R X. split.
  - intros l c v w L I.
    destruct (trans_shape E rank WF f vs h s s' body R X)
      as (lr & lb & f' & sm & cs & XB & LB & TM & SO & LS & TI & VV & NH & FE & _).
    destruct (run_gi E rank WF vs h s R) as (G & TI0 & RN & FR).
    assert (U : up s = Ok (set_tx (Modification 1 []) s)) by (unfold up; rewrite TI0; auto).
    destruct (up_ok E rank none True False s _ G U) as (T01 & _).
    destruct (exec_flag E rank WF f' body _ sm (t_gi _ _ _ _ _ _ _ _ T01) XB) as (lb' & LB' & FL).
    simpl in LB'. assert (lb' = lb) by (rewrite LB in LB'; apply app_inv_tail in LB'; auto). subst lb'.
    destruct FL as [_ FL]; [simpl; congruence|].
    assert (l = EHook :: lr ++ lb).
    { rewrite LS, LB in L. apply (app_inv_tail (log s)). rewrite <- L. simpl. rewrite <- app_assoc. auto. }
    subst l. destruct I as [I|I]; [discriminate|]. apply in_app_iff in I as [I|I].
    + rewrite Forall_forall in FE. apply FE in I. apply I.
    + exfalso. apply NH, in_app_iff. right. eapply FL; eauto.
  - intros HZ c v w b I.
    assert (R' : run E vs (h ++ [CTrans body]) s').
    { eapply run_app; eauto. }
    pose proof (k_log _ _ _ (run_coh E rank vs _ s' WF DE R' HZ)) as F.
    rewrite Forall_forall in F. exact (F _ I).
Qed.

Theorem C02_glitch_free_static_partial {V} (E : @env V) rank vs h s :
  well_founded_env E rank -> decides_eq E -> static_env E -> run E vs h s -> deliveries_fresh E (log s).
Proof.
  intros WF DE SE R c v w b I.
  pose proof (k_log _ _ _ (run_coh E rank vs h s WF DE R (run_static E rank WF SE vs h s R))) as F.
  rewrite Forall_forall in F. exact (F _ I).
Qed.

(** A transaction with two sets that ends with a delivery, from a state with subscriptions. *)
Example C02_example :
  let h := [CSub k10; CSub k11] in
  let body := [CSet v1 5%N; CTrans [CSet v7 3%N]] in
  run demo ones h (final demo h) /\ hazard (final demo (h ++ [CTrans body])) = false /\
  ends demo (h ++ [CTrans body]) = true /\
  option_map (fun '(c, v, _, b) => (c, v, b)) (last_delivery (log (final demo (h ++ [CTrans body])))) = Some (k11, 13%N, true).
Proof. cbv zeta. split; [apply run_final; vm_compute; reflexivity|]. repeat split; vm_compute; reflexivity. Qed.

(** ** C03 *)

(** However the body is built, from every reachable state: the log of the transaction consists of the
    events of the body ([lb]), those of the refresh ([lr]) and the final hook; no subscription existing
    before the transaction is called during the body; in the refresh the subscriptions that existed at
    the end of the body are called in strictly ascending order of creation, so each at most once. *)
Theorem C03_once_per_transaction {V} (E : @env V) rank vs h s f body s' :
  well_founded_env E rank -> run E vs h s -> exec E f (TCmds [CTrans body]) s = Ok s' ->
  exists lr lb f' sm,
    exec E f' (TCmds body) (set_tx (Modification 1 []) s) = Ok sm /\
    log sm = lb ++ log s /\ log s' = EHook :: lr ++ log sm /\
    (forall c v w b, (gnum c < next s)%N -> ~ In (EDeliver c v w b) lb) /\
    sorted (olds (next sm) lr) /\
    (forall c, (gnum c < next sm)%N -> length (delivered c lr) <= 1).
Proof.
  intros WF R X.
  destruct (trans_shape E rank WF f vs h s s' body R X)
    as (lr & lb & f' & sm & cs & XB & LB & TM & SO & LS & TI & VV & NH & FE & OB & SQ & NX).
  assert (SOR : sorted (olds (next sm) lr)) by (eapply subseq_sorted; eauto).
  exists lr, lb, f', sm. split; [auto|]. split; [auto|]. split; [auto|]. split; [|split; [auto|]].
  - intros c v w b L I. assert (J : In c (olds (next s) lb)) by (eapply olds_In; eauto).
    rewrite OB in J. destruct J.
  - intros c L. apply sorted_NoDup in SOR. rewrite (delivered_olds c (next sm) lr L).
    apply NoDup_count_occ with (decA := gid_eq_dec). auto.
Qed.

Example C03_example :
  let h := [CSub k10; CSub k11; CSub k12] in
  let body := [CSet v1 5%N; CTrans [CSet v7 3%N; CSet v1 6%N]; CSet v2 2%N] in
  run demo ones h (final demo h) /\ ends demo (h ++ [CTrans body]) = true /\
  rev (map (fun e => match e with EDeliver c v _ b => Some (c, v, b) | _ => None end)
         (firstn 5 (log (final demo (h ++ [CTrans body]))))) =
  [Some (k10, 12%N, true); None; Some (k11, 15%N, true); Some (k12, 12%N, true); None].
Proof. cbv zeta. split; [apply run_final; vm_compute; reflexivity|]. repeat split; vm_compute; reflexivity. Qed.

(** ** C04 *)

(** Full statement: [forall E rank vs h s, well_founded_env E rank -> decides_eq E -> run E vs h s ->
    all_notified E s].  False, also in applications without the interplay of [demo]: *)
Theorem C04_no_missed_update_refuted :
  exists (E : @env N) rank vs h s,
    well_founded_env E rank /\ decides_eq E /\ run E vs h s /\ tx s = Idle /\ ~ all_notified E s.
Proof.
  exists demo, rank, ones, [CSub k10; CSet v2 0%N; CSet v1 10%N], (final demo [CSub k10; CSet v2 0%N; CSet v1 10%N]).
  split; [exact demo_wf|]. split; [exact demo_eq|]. split; [apply run_final; vm_compute; reflexivity|].
  split; [vm_compute; reflexivity|].
  intros H. destruct (H k10) as (v & L & D); [vm_compute; reflexivity|].
  assert (v = 2%N) by (vm_compute in L; congruence). subst v.
  set (s := final demo [CSub k10; CSet v2 0%N; CSet v1 10%N]) in *.
  assert (Q : vals s v2 = 0%N) by (vm_compute; reflexivity).
  pose proof (den_c5_off _ Q) as D'. assert (Q1 : vals s v1 = 10%N) by (vm_compute; reflexivity).
  rewrite Q1 in D'. pose proof (den_det demo _ _ _ _ D D'). discriminate.
Qed.

Theorem C04_no_missed_update_partial {V} (E : @env V) rank vs h s :
  well_founded_env E rank -> decides_eq E -> run E vs h s -> hazard s = false ->
  tx s = Idle /\ all_notified E s.
Proof.
  intros WF DE R HZ. destruct (run_gi E rank WF vs h s R) as (G & TI & RN & FR). split; auto.
  intros c L. pose proof (run_coh E rank vs h s WF DE R HZ) as KK.
  destruct (k_sub _ _ _ KK c L) as (v & CH & CA & HD); auto.
  - rewrite RN. auto.
  - unfold pending. rewrite TI. auto.
  - exists v. split; auto. eapply coh_den; eauto. apply KK.
Qed.

Theorem C04_no_missed_update_static_partial {V} (E : @env V) rank vs h s :
  well_founded_env E rank -> decides_eq E -> static_env E -> run E vs h s -> tx s = Idle /\ all_notified E s.
Proof.
  intros WF DE SE R. eapply C04_no_missed_update_partial; eauto. eapply run_static; eauto.
Qed.

(** Live subscriptions at the end of a history. *)
Example C04_example :
  let h := [CSub k10; CSub k11; CSet v1 5%N; CTrans [CSet v2 3%N; CSet v7 9%N]] in
  run demo ones h (final demo h) /\ hazard (final demo h) = false /\
  live (final demo h) k10 = true /\ live (final demo h) k11 = true /\
  delivered k11 (log (final demo h)) = [19%N; 11%N; 3%N].
Proof. cbv zeta. split; [apply run_final; vm_compute; reflexivity|]. repeat split; vm_compute; reflexivity. Qed.

Example C04_static_example :
  let h := [CSub k10; CSub k12; CSet v1 5%N; CTrans [CSet v2 3%N; CSet v7 9%N]] in
  run sdemo ones h (final sdemo h) /\ live (final sdemo h) k10 = true /\
  delivered k10 (log (final sdemo h)) = [13%N; 11%N; 3%N].
Proof. cbv zeta. split; [apply run_final; vm_compute; reflexivity|]. repeat split; vm_compute; reflexivity. Qed.

(** ** C05 *)

(** A [subscribe] callback is never called twice in a row with the same value. *)
Theorem C05_no_repeat {V} (E : @env V) rank vs h s c :
  well_founded_env E rank -> decides_eq E -> run E vs h s -> s_dedup (e_sub E c) = true ->
  no_repeat (delivered c (log s)).
Proof. intros WF DE R D. apply (run_dedup E rank WF vs h s DE R c D). Qed.

(** A [subscribe_all] callback is called exactly once by every set of a value it depends on (according to
    the dependency graph), unless it is dropped meanwhile. *)
Theorem C05_subscribe_all {V} (E : @env V) rank vs h s f id v s' c :
  well_founded_env E rank -> run E vs h s -> exec E f (TCmds [CSet id v]) s = Ok s' ->
  s_dedup (e_sub E c) = false -> gkind c = KClient -> live s' c = true ->
  dependents (child (graph_of s)) id c ->
  exists l x, log s' = l ++ log s /\ delivered c l = [x].
Proof.
  intros WF R X SD KC LV DEP. destruct (run_gi E rank WF vs h s R) as (G & TI & RN & FR).
  pose proof (run_settled E rank WF vs h s R) as SE.
  assert (NX : (gnum c < next s)%N).
  { assert (exists p, child (graph_of s) p c) as (p & P).
    { clear - DEP. apply clos_trans_tn1 in DEP. destruct DEP; eauto. }
    destruct (N.ltb_spec (gnum c) (next s)); auto.
    pose proof (gi_live _ _ _ _ G p c P KC (fun x => x)). destruct (gi_fresh _ _ _ _ G c); [lia|congruence]. }
  destruct f as [|f]; [discriminate|]. cbn [exec] in X.
  destruct (negb (is_value id)); [discriminate|].
  assert (U : up s = Ok (set_tx (Modification 1 []) s)) by (unfold up; rewrite TI; auto).
  rewrite U in X. cbn [obind] in X. set (s1 := set_tx (Modification 1 []) s) in *.
  destruct (report_set id _) as [s2| |] eqn:RP; try discriminate. cbn [obind] in X.
  destruct (exec E f TEnd s2) as [s3| |] eqn:X3; try discriminate. cbn [obind] in X.
  destruct f as [|f]; [discriminate|]. cbn [exec] in X. inversion X; subst s3. clear X.
  destruct (up_ok E rank none True False s s1 G U) as (T01 & _).
  pose proof (t_gi _ _ _ _ _ _ _ _ T01) as G1.
  assert (GV : GI E rank (set_vals (upd (vals s1) id v) s1)) by (apply GIx_vals; auto).
  destruct (report_set_ok E rank id _ s2 1 [] GV eq_refl RP)
    as (deps & cs & GD & CS & SO & T2 & _ & _ & _ & _ & EQ).
  assert (G2 : GI E rank s2).
  { eapply t_gi. eapply (report_trans E rank none True False); eauto. reflexivity. }
  assert (SE2 : settled E s2) by (rewrite EQ; exact SE).
  destruct (end_shape E rank WF (S f) s2 s' cs G2 SE2 T2 X3)
    as (lr & f' & sr & L & TI' & VV & FE & NH & SQ & _ & XR & S' & GR & PR).
  assert (IN : In c cs).
  { apply CS. right. split; auto. destruct (get_all_deps_spec (graph_of s) id) as (r & GD' & _ & IFF).
    simpl in GD. rewrite GD' in GD. inversion GD; subst. apply IFF; auto. }
  assert (L2 : log s2 = log s) by (rewrite EQ; auto).
  assert (N2 : next s2 = next s) by (rewrite EQ; auto).
  assert (R2 : running s2 = []) by (rewrite EQ; auto).
  destruct (refresh_reaches E rank WF f' cs c _ sr GR PR SE2 XR IN) as (l & LR & DL); auto.
  { simpl. rewrite R2. auto. }
  { simpl. lia. }
  { rewrite S' in LV. exact LV. }
  assert (l = lr).
  { rewrite S' in L. simpl in L, LR. rewrite LR in L. inversion L as [Q]. apply app_inv_tail in Q; auto. }
  subst l. exists (EHook :: lr).
  assert (LE : length (delivered c lr) <= 1).
  { rewrite (delivered_olds c (next s2) lr) by lia.
    apply NoDup_count_occ with (decA := gid_eq_dec). apply sorted_NoDup. eapply subseq_sorted; eauto. }
  destruct (delivered c lr) as [|x [|y r]] eqn:Q; [congruence| |simpl in LE; lia].
  exists x. split; [rewrite L, L2; auto|exact Q].
Qed.

(** Without interrupted evaluations the dependency graph contains what evaluating the subscribed computed
    really reads, so the same holds of every value the computed needs. *)
Theorem C05_subscribe_all_needs {V} (E : @env V) rank vs h s f id v s' c :
  well_founded_env E rank -> decides_eq E -> run E vs h s -> hazard s = false ->
  exec E f (TCmds [CSet id v]) s = Ok s' ->
  s_dedup (e_sub E c) = false -> live s c = true -> live s' c = true ->
  needs E (vals s) (s_src (e_sub E c)) id ->
  exists l x, log s' = l ++ log s /\ delivered c l = [x].
Proof.
  intros WF DE R HZ X SD LV LV' ND. destruct (run_gi E rank WF vs h s R) as (G & TI & RN & FR).
  pose proof (run_coh E rank vs h s WF DE R HZ) as KK.
  eapply (C05_subscribe_all E rank vs h s f id v s' c); eauto; [apply (gi_livek _ _ _ _ G); auto|].
  destruct (k_sub _ _ _ KK c LV) as (w & CH & CA & HD); auto.
  { rewrite RN. auto. } { unfold pending. rewrite TI. auto. }
  assert (B : forall a b, needs E (vals s) a b -> cache s a <> None -> dependents (child (graph_of s)) b a).
  { induction 1 as [a l x b K0 RR I|a l x m b K0 RR I N IH]; intros Q;
      (destruct (cache s a) as [y|] eqn:CY; [|congruence]);
      destruct (k_coh _ _ _ KK a y CY) as (l' & R' & CE & CC);
      destruct (runs_det E (vals s) _ _ _ _ _ RR R') as [<- <-].
    - apply t_step, CE; auto.
    - eapply t_trans; [apply IH|apply t_step, CE; auto]. apply CC; auto.
      inversion N; auto. }
  eapply t_trans; [apply B; [exact ND|unfold src in CA; congruence]|apply t_step; exact CH].
Qed.

(** Without that condition it is false: a [subscribe_all] callback misses the change of a value its computed reads. *)
Theorem C05_subscribe_all_refuted :
  exists (E : @env N) rank vs h s f id v s' c,
    well_founded_env E rank /\ decides_eq E /\ run E vs h s /\ exec E f (TCmds [CSet id v]) s = Ok s' /\
    s_dedup (e_sub E c) = false /\ live s c = true /\ live s' c = true /\ needs E (vals s) (s_src (e_sub E c)) id /\
    delivered c (log s') = delivered c (log s).
Proof.
  pose (E := Env comp (fun _ => Sub c5 false (fun _ => []) (fun _ => [])) (fun v => gid_eqb v v1) N.eqb).
  exists E, rank, ones, [CSub k10; CSet v2 0%N], (final E [CSub k10; CSet v2 0%N]), 100, v1, 10%N.
  destruct (exec E 100 (TCmds [CSet v1 10%N]) (final E [CSub k10; CSet v2 0%N])) as [s'| |] eqn:X; [|vm_compute in X; discriminate|vm_compute in X; discriminate].
  exists s', k10. split; [split; [exact (proj1 demo_wf)|intros c; reflexivity]|]. split; [exact demo_eq|].
  split; [apply run_final; vm_compute; reflexivity|]. split; [reflexivity|]. split; [reflexivity|]. split; [vm_compute; reflexivity|].
  assert (Q : live s' k10 = true /\ delivered k10 (log s') = delivered k10 (log (final E [CSub k10; CSet v2 0%N]))).
  { assert (Y : match exec E 100 (TCmds [CSet v1 10%N]) (final E [CSub k10; CSet v2 0%N]) with
      | Ok t => live t k10 = true /\ delivered k10 (log t) = delivered k10 (log (final E [CSub k10; CSet v2 0%N])) | _ => True end) by (vm_compute; auto).
    rewrite X in Y. exact Y. }
  split; [apply Q|]. split; [|apply Q].
  set (vs := vals (final E [CSub k10; CSet v2 0%N])). assert (V2 : vs v2 = 0%N) by (vm_compute; reflexivity). clearbody vs.
  assert (R3 : runs E vs (e_comp E c3) [v1] (2 * vs v1)%N) by (eapply runs_read; [apply den_value; reflexivity|constructor]).
  assert (D4 : den E vs c4 0%N).
  { eapply den_computed; [reflexivity|]. eapply runs_read; [apply den_value; reflexivity|]. rewrite V2. simpl. constructor. }
  apply (needs_via E vs c5 [v2; c3; c4] (2 * vs v1 + 0)%N c3); [reflexivity| |simpl; auto|apply (needs_read E vs c3 [v1] (2 * vs v1)%N); [reflexivity|exact R3|simpl; auto]].
  cbn [E e_comp]. eapply runs_read; [apply den_value; reflexivity|]. rewrite V2. simpl.
  eapply runs_read; [eapply den_computed; [reflexivity|exact R3]|]. eapply runs_read; [exact D4|constructor].
Qed.

(** Setting a value to the value it already has: [subscribe] stays silent, [subscribe_all] is called. *)
Example C05_example :
  let h := [CSub k10; CSub k12; CSet v1 5%N; CSet v1 5%N] in
  run sdemo ones h (final sdemo h) /\ hazard (final sdemo h) = false /\
  live (final sdemo (removelast h)) k12 = true /\ live (final sdemo h) k12 = true /\
  dependents (child (graph_of (final sdemo (removelast h)))) v1 k12 /\
  delivered k10 (log (final sdemo h)) = [11%N; 3%N] /\
  delivered k12 (log (final sdemo h)) = [10%N; 10%N; 2%N].
Proof.
  cbv zeta. split; [apply run_final; vm_compute; reflexivity|].
  split; [vm_compute; reflexivity|]. split; [vm_compute; reflexivity|]. split; [vm_compute; reflexivity|].
  split; [|split; vm_compute; reflexivity].
  apply t_trans with c3; apply t_step; vm_compute; auto.
Qed.

(** ** C06 *)

(** In a run, nothing is handed to a subscription after the moment it is gone, wherever the drop came
    from (the application, a callback, the resource of another subscription). *)
Theorem C06_silent_after_drop {V} (E : @env V) rank vs h s c l2 l1 :
  well_founded_env E rank -> run E vs h s -> log s = l2 ++ EDrop c :: l1 -> delivered c l2 = [].
Proof. intros WF R. apply (run_gone E rank WF vs h s R). Qed.

(** Dropping an existing subscription: whatever happens afterwards, it is not called again and the
    dependency graph has no edge to it. *)
Theorem C06_no_call_after_drop {V} (E : @env V) rank vs h s f c h2 s' :
  well_founded_env E rank -> run E vs h s -> gkind c = KClient -> (gnum c < next s)%N ->
  exec E f (TCmds (CDrop c :: h2)) s = Ok s' ->
  exists l, log s' = l ++ log s /\ delivered c l = [] /\ live s' c = false /\
    (forall p, ~ child (graph_of s') p c).
Proof.
  intros WF R KC NX X. destruct (run_gi E rank WF vs h s R) as (G & TI & RN & FR).
  assert (FIN : live s' c = false -> forall p, ~ child (graph_of s') p c).
  { intros LV p P. destruct (struct_cmds E rank WF f _ s s' G X) as [T _].
    pose proof (gi_live _ _ _ _ (t_gi _ _ _ _ _ _ _ _ T) p c P KC (fun x => x)). congruence. }
  destruct (live s c) eqn:LV.
  - destruct f as [|f]; [discriminate|]. cbn [exec] in X. apply obind_ok in X as (s3 & X1 & X).
    destruct f as [|f]; [discriminate|]. cbn [exec] in X1. rewrite LV, RN in X1. simpl negb in X1.
    cbn [set_mem] in X1. cbv iota in X1.
    apply obind_ok in X1 as (s4 & X1 & X4). apply obind_ok in X1 as (s2 & SP & X2).
    destruct f as [|f]; [discriminate|]. cbn [exec] in X4. inversion X4; subst s4. clear X4.
    assert (NR : ~ In c (running s)) by (rewrite RN; auto).
    destruct (drop_facts E rank s c s2 G LV NR SP) as ((lc & L & FL) & LV2 & NX2 & _).
    destruct (drop_trans E rank none True False c s s2 G LV NR SP) as [T02 TX].
    destruct (struct_drop E rank WF _ _ s2 s3 (t_gi _ _ _ _ _ _ _ _ T02) X2) as [T23 _].
    destruct (struct_cmds E rank WF _ h2 s3 s' (t_gi _ _ _ _ _ _ _ _ T23) X) as [T34 _].
    destruct (t_log _ _ _ _ _ _ _ _ T23) as (l2 & L2 & _ & D2 & _).
    destruct (t_log _ _ _ _ _ _ _ _ T34) as (l3 & L3 & _ & D3 & _).
    pose proof (t_next _ _ _ _ _ _ _ _ T23) as N23.
    assert (LC2 : live s2 c = false) by (rewrite LV2, upd_same; auto).
    assert (LC3 : live s3 c = false).
    { destruct (live s3 c) eqn:Q; auto. apply (t_live _ _ _ _ _ _ _ _ T23) in Q; [congruence|lia]. }
    assert (LC : live s' c = false).
    { destruct (live s' c) eqn:Q; auto. apply (t_live _ _ _ _ _ _ _ _ T34) in Q; [congruence|lia]. }
    destruct (calc_events_quiet lc FL) as (Q1 & _).
    exists (l3 ++ l2 ++ lc ++ [EDrop c]). split; [|split; [|split; auto]].
    + rewrite L3, L2, L, <- !app_assoc. reflexivity.
    + rewrite !delivered_app, D3, D2, Q1 by (auto; lia). reflexivity.
  - destruct (struct_cmds E rank WF f _ s s' G X) as [T _].
    destruct (t_log _ _ _ _ _ _ _ _ T) as (l & L & _ & D & _).
    assert (LC : live s' c = false).
    { destruct (live s' c) eqn:Q; auto. apply (t_live _ _ _ _ _ _ _ _ T) in Q; auto. congruence. }
    exists l. auto 6.
Qed.

(** A live subscription, dropped before two further sets that would otherwise reach it. *)
Example C06_example :
  let h := [CSub k10; CSub k11; CSet v1 5%N] in
  let h2 := [CSet v1 7%N; CSet v7 9%N] in
  run demo ones h (final demo h) /\ live (final demo h) k11 = true /\
  (gnum k11 < next (final demo h))%N /\ ends demo (h ++ CDrop k11 :: h2) = true /\
  delivered k10 (log (final demo (h ++ CDrop k11 :: h2))) = [14%N; 10%N; 2%N] /\
  delivered k11 (log (final demo (h ++ CDrop k11 :: h2))) = [11%N; 3%N] /\
  delivered k11 (log (final demo (h ++ h2))) = [23%N; 15%N; 11%N; 3%N].
Proof. cbv zeta. split; [apply run_final; vm_compute; reflexivity|]. repeat split; vm_compute; reflexivity. Qed.

(** ** C09 *)

(** A value made by [with_connect] is connected iff something depends on it, and its connects and
    disconnects alternate, beginning with a connect and ending as it is now. *)
Theorem C09_connected_iff_needed {V} (E : @env V) rank vs h s v :
  well_founded_env E rank -> run E vs h s ->
  (conn s v = true <-> gkind v = KValue /\ e_conn E v = true /\ exists c, child (graph_of s) v c) /\
  conn_ok v (log s) (conn s v).
Proof.
  intros WF R. destruct (run_gi E rank WF vs h s R) as (G & _).
  split; [apply (gi_conn _ _ _ _ G)|apply (gi_log _ _ _ _ G)].
Qed.

(** Connected by the first subscription, not again by the second, disconnected by the last drop. *)
Example C09_example :
  let conns h := filter (fun e => match e with EConnect _ | EDisconnect _ => true | _ => false end)
                        (log (final sdemo h)) in
  conns [CSub k10; CSub k12] = [EConnect v1] /\
  conns [CSub k10; CSub k12; CDrop k10] = [EConnect v1] /\
  conns [CSub k10; CSub k12; CDrop k10; CDrop k12] = [EDisconnect v1; EConnect v1] /\
  run sdemo ones [CSub k10; CSub k12; CDrop k10; CDrop k12] (final sdemo [CSub k10; CSub k12; CDrop k10; CDrop k12]).
Proof. cbv zeta. split; [|split; [|split; [|apply run_final]]]; vm_compute; reflexivity. Qed.

(** ** C10 *)

(** Full statement: [run E vs h s -> (forall c, live s c = false) -> conn s v = false].  False: reading a
    computed once leaves the values it read connected. *)
Theorem C10_read_does_not_connect_refuted :
  exists (E : @env N) rank vs h s v,
    well_founded_env E rank /\ run E vs h s /\ (forall c, live s c = false) /\ conn s v = true.
Proof.
  exists demo, rank, ones, [CTrans [CRead c3 (fun _ => [])]], (final demo [CTrans [CRead c3 (fun _ => [])]]), v1.
  split; [exact demo_wf|]. split; [apply run_final; vm_compute; reflexivity|]. split; [|vm_compute; reflexivity].
  intros c. vm_compute. reflexivity.
Qed.

(** What keeps a value connected is a live subscription or a computed that was read one-off; so reading the
    value itself, or reading nothing, does not. *)
Theorem C10_read_does_not_connect_partial {V} (E : @env V) rank vs h s v :
  well_founded_env E rank -> run E vs h s -> conn s v = true ->
  exists d, dependents (child (graph_of s)) v d /\
    ((gkind d = KClient /\ live s d = true) \/ (gkind d = KComputed /\ was_read d (log s))).
Proof.
  intros WF R C. destruct (run_gi E rank WF vs h s R) as (G & _).
  apply (gi_conn _ _ _ _ G) in C as (_ & _ & c & C). eapply run_anchored; eauto.
Qed.

Theorem C10_no_computed_read_partial {V} (E : @env V) rank vs h s v :
  well_founded_env E rank -> run E vs h s -> (forall c, live s c = false) ->
  (forall c, gkind c = KComputed -> ~ was_read c (log s)) -> conn s v = false.
Proof.
  intros WF R NL NR. destruct (conn s v) eqn:C; auto.
  destruct (C10_read_does_not_connect_partial E rank vs h s v WF R C) as (d & _ & [[_ H]|[K H]]).
  - rewrite NL in H. discriminate.
  - destruct (NR d K H).
Qed.

(** A subscription comes and goes, the value is read: it is not connected any more. *)
Example C10_example :
  let h := [CSub k10; CTrans [CRead v1 (fun _ => [])]; CDrop k10] in
  run demo ones h (final demo h) /\ (forall c, live (final demo h) c = false) /\
  (forall c, gkind c = KComputed -> ~ was_read c (log (final demo h))) /\
  conn (final demo (removelast h)) v1 = true /\ conn (final demo h) v1 = false.
Proof.
  cbv zeta. split; [apply run_final; vm_compute; reflexivity|]. split.
  { intros c. transitivity (upd (upd (fun _ => false) k10 true) k10 false c); [vm_compute; reflexivity|].
    unfold upd. destruct (gid_eqb c k10); auto. }
  split; [|split; vm_compute; reflexivity].
  intros c K (v & w & I).
  assert (F : forallb (fun e : @event N => match e with ERead (GId KComputed _) _ _ => false | _ => true end)
    (log (final demo [CSub k10; CTrans [CRead v1 (fun _ => [])]; CDrop k10])) = true) by (vm_compute; reflexivity).
  rewrite forallb_forall in F. apply F in I. destruct c as [[] n]; discriminate.
Qed.

(** ** C11 *)

(** The outermost transaction: the hook is called exactly once, after everything else, and the state is
    idle again. *)
Theorem C11_outermost {V} (E : @env V) rank vs h s f body s' :
  well_founded_env E rank -> run E vs h s -> exec E f (TCmds [CTrans body]) s = Ok s' ->
  tx s' = Idle /\ exists l, log s' = EHook :: l ++ log s /\ ~ In EHook l.
Proof.
  intros WF R X.
  destruct (trans_shape E rank WF f vs h s s' body R X)
    as (lr & lb & f' & sm & cs & XB & LB & TM & SO & LS & TI & VV & NH & _).
  split; auto. exists (lr ++ lb). rewrite LS, LB, app_assoc. auto.
Qed.

(** An inner transaction, at any depth, from any state the body of an outer one can reach: no hook, no
    call of an existing subscription, and the depth is as before. *)
Theorem C11_nested {V} (E : @env V) rank vs h s0 f0 pre_body s f body s' l cs :
  well_founded_env E rank -> run E vs h s0 ->
  exec E f0 (TCmds pre_body) (set_tx (Modification l cs) s0) = Ok s ->
  (1 <= l)%N -> sorted cs -> Forall (fun c => gkind c = KClient) cs ->
  exec E f (TCmds [CTrans body]) s = Ok s' ->
  (exists cs', tx s' = Modification l cs') /\
  exists new, log s' = new ++ log s /\ ~ In EHook new /\ olds (next s) new = [].
Proof.
  intros WF R XP L1 SO FC X. destruct (run_gi E rank WF vs h s0 R) as (G & TI & RN & FR).
  assert (G0 : GI E rank (set_tx (Modification l cs) s0)).
  { apply GIx_tx; auto. rewrite RN. intros _ _ ? []. }
  destruct (struct_cmds E rank WF f0 _ _ s G0 XP) as [T0 S0]. simpl in S0.
  unfold same_tx in S0. simpl in S0. destruct S0 as (cs0 & TS & _).
  destruct (struct_cmds E rank WF f _ s s' (t_gi _ _ _ _ _ _ _ _ T0) X) as [T S].
  unfold same_tx in S. rewrite TS in S. destruct S as (cs1 & TS' & _). split; [eauto|].
  destruct (t_log _ _ _ _ _ _ _ _ T) as (new & LN & _ & _ & ST).
  destruct ST as [ST1 ST2]; [congruence|]. exists new. split; auto. split; [apply ST2; auto|].
  apply subseq_nil; auto.
Qed.

(** Setting a value or opening a transaction while subscriptions are refreshed is refused. *)
Theorem C11_refused {V} (E : @env V) f s body id v rest :
  tx s = Refreshing ->
  exec E (S f) (TCmds (CTrans body :: rest)) s = Panic /\ exec E (S f) (TCmds (CSet id v :: rest)) s = Panic.
Proof.
  intros T. cbn [exec]. unfold up. rewrite T. split; auto. destruct (negb (is_value id)); auto.
Qed.

(** Sequences of transaction starts ([true]) and ends ([false]): the answers of the ends. *)
Fixpoint bracket {V} (w : list bool) (s : @state V) : out (@state V * list (option (list gid))) :=
  match w with
  | [] => Ok (s, [])
  | true :: t => let! s1 := up s in bracket t s1
  | false :: t =>
      let (s1, r) := down s in
      let! (s2, rs) := bracket t s1 in Ok (s2, r :: rs)
  end.

(** The word [w], begun at depth [d], returns to depth 0 exactly at its end and never exceeds the range of
    the counter. *)
Fixpoint closes (d : N) (w : list bool) : Prop :=
  match w with
  | [] => d = 0%N
  | true :: t => (d < 65535)%N /\ closes (d + 1) t
  | false :: t => (0 < d)%N /\ (d = 1%N -> t = []) /\ closes (d - 1) t
  end.

Theorem C11_brackets {V} (s : @state V) w : tx s = Idle -> w <> [] -> closes 0 w ->
  exists rs s', bracket w s = Ok (s', rs ++ [Some []]) /\ Forall (eq None) rs /\ s' = set_tx Refreshing s.
Proof.
  intros TI NE C.
  assert (B : forall w d (s : @state V) cs, closes d w -> w <> [] -> (0 < d)%N -> tx s = Modification d cs ->
    exists rs, bracket w s = Ok (set_tx Refreshing s, rs ++ [Some cs]) /\ Forall (eq None) rs).
  { clear. induction w as [|[|] w IH]; intros d s cs C NE D T; [congruence| |].
    - destruct C as [L C]. cbn [bracket]. unfold up. rewrite T. rewrite (proj2 (N.ltb_lt _ _) L). cbn [obind].
      destruct w as [|b w]; [simpl in C; lia|].
      destruct (IH (d + 1)%N (set_tx (Modification (d + 1) cs) s) cs C) as (rs & X & F); auto; try lia; try congruence.
      exists rs. rewrite X. auto.
    - destruct C as (_ & L & C). cbn [bracket]. unfold down. rewrite T.
      destruct (N.eqb_spec (d - 1) 0) as [Q|Q].
      + rewrite L by lia. exists []. simpl. auto.
      + destruct w as [|b w]; [simpl in C; lia|].
        destruct (IH (d - 1)%N (set_tx (Modification (d - 1) cs) s) cs C) as (rs & X & F); auto; try lia; try congruence.
        exists (None :: rs). rewrite X. cbn [obind]. split; auto. }
  destruct w as [|[|] w]; [congruence| |destruct C; lia].
  destruct C as [_ C]. cbn [bracket]. unfold up. rewrite TI. cbn [obind].
  destruct w as [|b w]; [discriminate|].
  destruct (B (b :: w) 1%N (set_tx (Modification 1 []) s) [] C) as (rs & X & F); auto; try congruence; try lia.
  exists rs, (set_tx Refreshing s). rewrite X. auto.
Qed.

Example C11_example :
  let body := [CSet v1 5%N; CTrans [CSet v7 3%N; CTrans [CSet v2 4%N]]] in
  run demo ones [CSub k10; CSub k11] (final demo [CSub k10; CSub k11]) /\
  ends demo [CSub k10; CSub k11; CTrans body] = true /\
  length (filter (fun e => match e with EHook => true | _ => false end)
    (log (final demo [CSub k10; CSub k11; CTrans body]))) = 1 /\
  closes 0 [true; true; false; true; true; false; false; false].
Proof. cbv zeta. split; [apply run_final; vm_compute; reflexivity|]. repeat split; vm_compute; auto; discriminate. Qed.

Print Assumptions C01_fresh_reads_refuted.
Print Assumptions C01_fresh_reads_partial.
Print Assumptions C01_fresh_reads_static_partial.
Print Assumptions C02_glitch_free_refuted.
Print Assumptions C02_glitch_free_partial.
Print Assumptions C02_glitch_free_static_partial.
Print Assumptions C03_once_per_transaction.
Print Assumptions C04_no_missed_update_refuted.
Print Assumptions C04_no_missed_update_partial.
Print Assumptions C04_no_missed_update_static_partial.
Print Assumptions C05_no_repeat.
Print Assumptions C05_subscribe_all.
Print Assumptions C05_subscribe_all_needs.
Print Assumptions C06_silent_after_drop.
Print Assumptions C06_no_call_after_drop.
Print Assumptions C09_connected_iff_needed.
Print Assumptions C10_read_does_not_connect_refuted.
Print Assumptions C10_read_does_not_connect_partial.
Print Assumptions C10_no_computed_read_partial.
Print Assumptions C11_outermost.
Print Assumptions C11_nested.
Print Assumptions C11_refused.
Print Assumptions C11_brackets.
