(** Applications whose computeds always read the same things and whose callbacks only read and
    subscribe never lose something an evaluation in progress has read. *)

From Coq Require Import List NArith Bool Lia Arith.
From Verif Require Import GraphModel GraphSpec GraphProofs ReactModel ReactSpec ReactBase ReactInv ReactExec
  ReactRel ReactFacts.
Import ListNotations.

Section StaticSpec.
  Context {V : Type}.

  (** The program reads exactly the ids in the list, whatever values it gets. *)
  Inductive fixed_reads : @prog V -> list gid -> Prop :=
  | fr_ret v : fixed_reads (PRet v) []
  | fr_read id k l : (forall x, fixed_reads (k x) l) -> fixed_reads (PRead id k) (id :: l).

  (** Commands that only read and subscribe. *)
  Inductive calm : list (@cmd V) -> Prop :=
  | calm_nil : calm []
  | calm_read id k r : (forall x, calm (k x)) -> calm r -> calm (CRead id k :: r)
  | calm_sub c r : calm r -> calm (CSub c :: r).

  Definition static_env (E : @env V) : Prop :=
    (forall c, gkind c = KComputed -> exists l, fixed_reads (e_comp E c) l) /\
    (forall c v, calm (s_call (e_sub E c) v)).
End StaticSpec.

Section Static.
  Context {V : Type}.
  Variable E : @env V.
  Variable rank : gid -> nat.
  Hypothesis WF : well_founded_env E rank.
  Hypothesis SE : static_env E.

  Notation GI := (GI E rank).
  Notation src := (src E).
  Notation open_sub := (open_sub E).
  Notation trans := (trans E rank).

  Lemma calm_app a b : calm (V := V) a -> calm b -> calm (a ++ b).
  Proof. induction 1; simpl; auto; constructor; auto. Qed.

  Lemma fixed_det (w : V) p l l' : fixed_reads (V := V) p l -> fixed_reads p l' -> l = l'.
  Proof.
    intros H; revert l'. induction H as [v|id k l H IH]; intros l' H'; inversion H'; subst; auto.
    f_equal. apply (IH w). auto.
  Qed.

  (** The recorded parents of a computed are among the things it reads. *)
  Definition SI (s : @state V) : Prop :=
    forall p c l, child (graph_of s) p c -> gkind c = KComputed -> fixed_reads (e_comp E c) l -> In p l.

  Lemma no_orph (s : @state V) c new n : (forall p, child (graph_of s) p c -> In p new) -> ~ orph s c new n.
  Proof.
    intros H. unfold orph, not. revert n. fix F 2. intros n [n' [d Hd] NI ALL].
    destruct (ALL d Hd) as [->|O]; [exact (NI (H _ Hd))|exact (F d O)].
  Qed.

  Lemma calc_gi f c s s' v : gkind c = KComputed -> GI s -> cache s c = None ->
    calc E f c s = Ok (s', v) -> step E rank s s' /\ frames s' = frames s /\ cache s' c = Some v.
  Proof.
    intros K G C X. apply (calc_mono E f (f + S (rk E rank c))) in X; [|lia].
    destruct (calc_ok E rank WF (f + S (rk E rank c)) c s) as (s2 & w & X2 & ST & F & CS); auto; [lia|].
    rewrite X in X2; inversion X2; subst; auto.
  Qed.

  Definition hz (s s' : @state V) : Prop := hazard s' = true -> hazard s = true.

  Lemma calc_static f : forall c s s' v, gkind c = KComputed -> GI s -> cache s c = None -> SI s ->
    calc E f c s = Ok (s', v) -> SI s' /\ hz s s'.
  Proof.
    induction f as [|f IH]; intros c s s' v K G CN S X; [discriminate|].
    pose proof X as X0. cbn [calc] in X.
    assert (RUN : forall p l s s1 w f0 fs, fixed_reads p l -> GI s -> SI s -> frames s = f0 :: fs ->
              (exists n, reads_below rank n p) ->
              run_prog (calc E f) p s = Ok (s1, w) ->
              GI s1 /\ SI s1 /\ hz s s1 /\ frames s1 = (rev l ++ f0) :: fs).
    { clear - IH WF. induction p as [v|id k IHp]; intros l s s1 w f0 fs FR G S F RB X; cbn [run_prog] in X.
      - inversion X; subst. inversion FR; subst. split; [auto|]. split; [auto|]. split; [intros ?; auto|exact F].
      - inversion FR as [|id' k' l' FRk]; subst. destruct RB as (n & RI & KI & RB).
        set (s0 := add_parent id s) in *.
        assert (S0 : s0 = set_frames ((id :: f0) :: fs) s) by (unfold s0, add_parent; rewrite F; auto).
        assert (G0 : GI s0) by (rewrite S0; apply GIx_frames; auto).
        assert (SI0 : SI s0) by (rewrite S0; exact S).
        assert (F0 : frames s0 = (id :: f0) :: fs) by (rewrite S0; auto).
        assert (H0 : hazard s0 = hazard s) by (rewrite S0; auto).
        assert (FIN : forall s2 x, GI s2 -> SI s2 -> frames s2 = frames s0 -> hz s0 s2 ->
                  run_prog (calc E f) (k x) s2 = Ok (s1, w) ->
                  GI s1 /\ SI s1 /\ hz s s1 /\ frames s1 = (rev (id :: l') ++ f0) :: fs).
        { intros s2 x G2 SI2 F2 H2 X2. rewrite F0 in F2.
          destruct (IHp x l' s2 s1 w (id :: f0) fs (FRk x) G2 SI2 F2 (ex_intro _ n (RB x)) X2) as (A & B & C & D).
          split; auto. split; auto. split.
          - intros Q. rewrite <- H0. apply H2, C; auto.
          - rewrite D. simpl. rewrite <- app_assoc. auto. }
        destruct (gkind id) eqn:K; [| |discriminate].
        + apply (FIN s0 (vals s0 id)); auto. intros ?; auto.
        + destruct (cache s0 id) as [x|] eqn:CX.
          * apply (FIN s0 x); auto. intros ?; auto.
          * destruct (calc E f id s0) as [[s2 x]| |] eqn:CC; try discriminate. cbn [obind] in X.
            destruct (IH id s0 s2 x K G0 CX SI0 CC) as [A B].
            destruct (calc_gi f id s0 s2 x K G0 CX CC) as (ST & F2 & _).
            apply (FIN s2 x); auto. apply ST. }
    set (s0 := add_log (ECompute c) (frame_open s)) in *.
    assert (G0 : GI s0) by (apply GIx_log; [auto|congruence|apply GIx_frames; auto]).
    destruct (run_prog (calc E f) (e_comp E c) s0) as [[s1 w]| |] eqn:R; try discriminate. cbn [obind] in X.
    destruct (proj1 SE c K) as (l & FR).
    pose proof (proj1 WF c K) as RBc.
    destruct (RUN (e_comp E c) l s0 s1 w [] (frames s) FR G0 S eq_refl (ex_intro (fun n => reads_below rank n _) _ RBc) R)
      as (G1 & S1 & H1 & F1).
    rewrite app_nil_r in F1. unfold frame_close in X. rewrite F1 in X.
    set (s2 := set_frames (frames s) s1) in *.
    assert (G2 : GI s2) by (apply GIx_frames; auto).
    unfold push_context in X.
    assert (IN : forall p, In p (set_of_list (rev l)) <-> In p l).
    { intros p. rewrite set_of_list_In. symmetry; apply in_rev. }
    assert (RL : forall i, In i l -> rank i < rank c /\ gkind i <> KClient).
    { clear - FR RBc v. revert FR RBc. generalize (rank c). intros n FR RB.
      induction FR as [w|id k l FR IH]; intros i Hi; [destruct Hi|].
      destruct RB as (A & B & C). destruct Hi as [<-|Hi]; auto. eapply (IH v); eauto. }
    destruct (set_parents_ok E rank c (set_of_list (rev l)) s2)
      as (s3 & X3 & G3 & FZ & CH & CA & CB & _ & AC & HZ & LG & AM).
    - eapply GIx_weaken; [|exact G2]. intros ? [].
    - apply set_of_list_sorted.
    - intros p Hp. apply IN in Hp. destruct (RL p Hp) as [A B]. split; auto.
      unfold rk. rewrite K. destruct (gkind p) eqn:KP; auto. congruence.
    - congruence.
    - congruence.
    - rewrite X3 in X. cbn [obind] in X. inversion X; subst s' w. clear X.
      assert (NO : forall n, ~ orph s2 c (set_of_list (rev l)) n).
      { intros n. apply no_orph. intros p Hp. apply IN. eapply (S1 p c l); eauto. }
      split.
      + intros p d l' Hd Kd FRd. simpl in Hd. apply CH in Hd as [[-> Hp]|(N & Hd & _)].
        * apply IN in Hp. rewrite (fixed_det v _ _ _ FRd FR). auto.
        * eapply (S1 p d); eauto.
      + intros Q. simpl in Q. apply HZ in Q as [Q|(n & O & _)]; [|exfalso; eapply NO; eauto].
        apply H1 in Q. exact Q.
  Qed.

  Lemma get_static f id s s' v : GI s -> SI s -> get E f id s = Ok (s', v) -> SI s' /\ hz s s'.
  Proof.
    intros G S. unfold get. destruct (gkind id) eqn:K; [| |discriminate].
    - intros X; inversion X; subst; split; auto. intros ?; auto.
    - destruct (cache s id) eqn:C.
      + intros X; inversion X; subst; split; auto. intros ?; auto.
      + apply calc_static; auto.
  Qed.

  (** Everything an evaluation in progress has read is held by a running subscription's edge. *)
  Definition guarded (s : @state V) : Prop :=
    forall n, in_frames n s -> gkind n = KComputed ->
      exists d, In d (running s) /\ gkind d = KClient /\ child (graph_of s) n d.

  Lemma guarded_nil s : frames s = [] -> guarded s.
  Proof. intros F n (f & I & _). rewrite F in I. destruct I. Qed.

  Lemma SI_graph (s s' : @state V) : graph_of s' = graph_of s -> SI s -> SI s'.
  Proof. intros Q H p c l. rewrite Q. apply H. Qed.

  (** Replacing the parents of a subscription. *)
  Lemma SI_client c new s s' : GIx E rank (eq c) s -> gkind c = KClient -> sorted new ->
    (forall p, In p new -> p = src c /\ live s c = true) ->
    set_parents E c new s = Ok s' -> SI s -> SI s'.
  Proof.
    intros G KC SN NW X H.
    assert (KN : forall p, In p new -> rk E rank p < rk E rank c /\ gkind p <> KClient).
    { intros p Hp. destruct (NW p Hp) as [-> _]. destruct (rk_src E rank WF c KC). split; auto. congruence. }
    destruct (set_parents_ok E rank c new s G SN KN)
      as (s0 & X0 & _ & _ & CH & _); auto; [congruence|].
    rewrite X in X0. inversion X0; subst s0.
    intros p d l Hd Kd FR. apply CH in Hd as [[-> _]|(_ & Hd & _)]; [congruence|]. eapply H; eauto.
  Qed.

  Definition quiet (s s' : @state V) : Prop :=
    dying s' = dying s /\ forall d, (gnum d < next s)%N -> res s' d = res s d.

  Definition sset (t : @task V) (s : @state V) : Prop :=
    match t with
    | TSub c => settled E (open_sub c s)
    | TDrop _ => True
    | _ => settled E s
    end.

  Definition spre (t : @task V) (s : @state V) : Prop :=
    match t with
    | TCmds cs => frames s = [] \/ calm cs
    | TSub c => (frames s = [] /\ active s c = true) \/ (res s c = [] /\ ~ In c (dying s))
    | TRefresh _ => frames s = []
    | TDrop _ => guarded s
    | TEnd => frames s = []
    end.

  Definition spost (t : @task V) (s s' : @state V) : Prop :=
    SI s' /\ hz s s' /\
    match t with
    | TCmds cs => calm cs -> quiet s s'
    | TSub c => res s c = [] -> ~ In c (dying s) ->
        dying s' = dying s /\ forall d, d <> c -> (gnum d < next s)%N -> res s' d = res s d
    | TDrop _ => guarded s'
    | _ => True
    end.

  Lemma hz_refl s : hz s s.
  Proof. unfold hz; auto. Qed.

  Lemma hz_trans a b c : hz a b -> hz b c -> hz a c.
  Proof. unfold hz; auto. Qed.

  Lemma quiet_trans a b c : (next a <= next b)%N -> quiet a b -> quiet b c -> quiet a c.
  Proof.
    intros N [A1 A2] [B1 B2]. split; [congruence|]. intros d Hd. rewrite B2, A2; auto. lia.
  Qed.

  Lemma open_settled s0 c a : GI s0 -> starts s0 c a -> settled E s0 -> settled E (open_sub c a).
  Proof.
    intros G0 ST [A B]. split; intros d.
    - simpl. intros L N. destruct ST as [[-> _]|(NL & _ & ->)].
      + apply A; auto.
      + simpl in *. rewrite upd_other in L by (intros ->; auto). apply A; auto.
    - simpl. intros L N. destruct ST as [[-> _]|(NL & _ & ->)].
      + apply B; auto.
      + simpl in *. destruct (upd_spec (live s0) c true d) as [[-> _]|[_ Q]].
        * destruct (gi_fresh _ _ _ _ G0 c NL) as (_ & Q & _). congruence.
        * rewrite Q in L. apply B; auto.
  Qed.

  Lemma report_static s s1 id v l cs : GI s -> tx s = Modification l cs -> frames s = [] -> SI s ->
    report_set id (set_vals (upd (vals s) id v) s) = Ok s1 -> SI s1 /\ hz s s1.
  Proof.
    intros G T F S X.
    destruct (report_set_ok E rank id _ s1 l cs (GIx_vals _ _ _ _ _ G) T X)
      as (deps & cs' & _ & _ & _ & _ & _ & _ & _ & HZ & EQ).
    split.
    - apply (SI_graph s); auto. rewrite EQ; auto.
    - intros Q. apply HZ in Q as [Q|(n & _ & _ & Q)]; auto.
      exfalso. destruct Q as (g & I & _). simpl in I. rewrite F in I. destruct I.
  Qed.

  Lemma close_static s c s4 s6 : GI s -> pre (TSub c) s ->
    trans (eq c) (tx s <> Idle) False [c] (open_sub c s) s4 -> same_tx (open_sub c s) s4 ->
    push_context E c (fst (frame_close s4)) (snd (frame_close s4)) = Ok s6 -> SI s4 ->
    SI s6 /\ hz s4 s6 /\ dying s6 = dying s4 /\ res s6 = res s4.
  Proof.
    intros G PR T14 S14 PC S.
    destruct (close_ok E rank WF c (tx s <> Idle) s s4 (snd (frame_close s4)) (fst (frame_close s4)) s6 G PR T14 S14)
      as (T09 & S09 & CTX & S5); auto.
    { destruct (frame_close s4); auto. }
    rewrite CTX, S5 in PC. clear CTX S5.
    pose proof PR as (P1 & P2 & P3 & P4 & P5).
    pose proof (t_gi _ _ _ _ _ _ _ _ T14) as G4.
    pose proof (t_running _ _ _ _ _ _ _ _ T14) as R4. simpl in R4.
    assert (LV : live s4 c = true) by (apply (gi_runlive _ _ _ _ G4); rewrite R4; simpl; auto).
    change (push_context E c [src c] (set_frames (frames s) s4)) with
      (set_parents E c [src c] (set_frames (frames s) s4)) in PC.
    set (s5 := set_frames (frames s) s4) in *.
    assert (G5 : GIx E rank (eq c) s5).
    { apply GIx_frames. eapply GIx_weaken; [|exact G4]. intros ? []. }
    destruct (rk_src E rank WF c P1) as [RK KS].
    destruct (set_parents_ok E rank c [src c] s5 G5)
      as (s0 & X0 & G6 & FZ & CH & CA & CB & CC & AC & HZ & (lc & LC & FLC) & AM); [repeat constructor| | | |].
    { intros p [<-|[]]; split; auto. congruence. }
    { congruence. }
    { intros _ p [<-|[]]; auto. }
    rewrite PC in X0. inversion X0; subst s0. clear X0.
    destruct FZ as (Z1 & Z2 & Z3 & Z4 & Z5 & Z6 & Z7 & Z8 & Z9).
    split; [|split; [|split; [exact Z8|exact Z3]]].
    - intros p d l Hd Kd FR. apply CH in Hd as [[-> _]|(_ & Hd & _)]; [congruence|]. eapply S; eauto.
    - intros Q. apply HZ in Q as [Q|(n & O & _)]; [exact Q|]. exfalso. revert O. apply no_orph.
      intros p Hp. rewrite (gi_src _ _ _ _ G5 p c Hp P1). simpl; auto.
  Qed.

  Lemma drop_static s c s2 : GI s -> live s c = true -> ~ In c (running s) -> SI s -> guarded s ->
    set_parents E c [] (add_log (EDrop c) (set_live (upd (live s) c false) s)) = Ok s2 ->
    SI s2 /\ hz s s2 /\ guarded s2.
  Proof.
    intros G LV NR S GU X.
    destruct (drop_facts E rank s c s2 G LV NR X)
      as (_ & _ & _ & _ & _ & _ & RN & FR & _ & _ & CH & HZ).
    assert (CO : forall d, gkind d = KClient -> ~ orph s c [] d).
    { intros d K O. apply orph_child in O as [e O]. apply (gi_kind _ _ _ _ G) in O as [O _]; auto. }
    split; [|split].
    - intros p d l Hd Kd FRd. apply CH in Hd as (_ & Hd & _). eapply S; eauto.
    - intros Q. apply HZ in Q as [Q|(n & O & K & I)]; auto.
      exfalso. destruct (GU n I K) as (d & R & Kd & Hd).
      inversion O as [n' _ NI ALL]; subst. destruct (ALL d Hd) as [->|O']; [auto|]. eapply CO; eauto.
    - intros n I K. unfold in_frames in I. rewrite FR in I.
      destruct (GU n I K) as (d & R & Kd & Hd). exists d. rewrite RN. split; auto. split; auto.
      apply CH. split; [intros ->; auto|]. split; auto.
  Qed.

  Theorem exec_static f : forall t s s', GI s -> pre t s -> sset t s -> SI s -> spre t s ->
    exec E f t s = Ok s' -> spost t s s'.
  Proof.
    induction f as [|f IH]; intros t s s' G PR SET S SP X; [discriminate|].
    pose proof (exec_struct E rank WF f) as ES.
    pose proof (settled_task E rank WF f) as ST.
    assert (IHD : forall cs s s', GI s -> SI s -> guarded s -> exec E f (TDrop cs) s = Ok s' -> SI s' /\ hz s s' /\ guarded s').
    { intros cs a b Ga Sa Gu Xa. exact (IH (TDrop cs) a b Ga I I Sa Gu Xa). }
    destruct t as [cs|c|cs|cs|].
    - destruct cs as [|cm rest]; cbn [exec] in X.
      { inversion X; subst. split; auto. split; [apply hz_refl|]. intros _; split; auto. }
      assert (REST : forall s3, GI s3 -> settled E s3 -> frames s3 = frames s ->
                (next s <= next s3)%N -> SI s3 -> hz s s3 ->
                (calm (cm :: rest) -> quiet s s3) ->
                exec E f (TCmds rest) s3 = Ok s' -> spost (TCmds (cm :: rest)) s s').
      { intros s3 G3 SE3 F3 N3 S3 H3 Q3 X3.
        assert (SP3 : spre (TCmds rest) s3).
        { destruct SP as [F|C]; [left; congruence|right; inversion C; auto]. }
        destruct (IH (TCmds rest) s3 s' G3 I SE3 S3 SP3 X3) as (A & B & C).
        split; auto. split; [eapply hz_trans; eauto|].
        intros CA. eapply quiet_trans; eauto; apply C. inversion CA; auto. }
      assert (TXN : frames s = [] -> (calm (cm :: rest) -> False) -> forall s1 s2 s3, up s = Ok s1 ->
                trans none (tx s1 <> Idle) False [] s1 s2 -> same_tx s1 s2 -> settled E s2 -> SI s2 -> hz s1 s2 ->
                exec E f TEnd s2 = Ok s3 -> exec E f (TCmds rest) s3 = Ok s' ->
                spost (TCmds (cm :: rest)) s s').
      { intros F NC s1 s2 s3 U T12 S12 SE2 S2 H2 X3 XR.
        destruct (up_ok E rank none True False s s1 G U) as (T01 & NR & EQ & l & cs1 & T1 & M).
        assert (PE : pre TEnd s2).
        { unfold same_tx in S12; rewrite T1 in S12. destruct S12 as (cs2 & S12 & _). simpl; eauto. }
        pose proof (t_gi _ _ _ _ _ _ _ _ T12) as G2.
        pose proof (ES TEnd s2 s3 G2 PE X3) as PO.
        destruct (txn_post E rank s s1 s2 s3 G U T12 S12 PO) as [T03 S03].
        assert (F2 : frames s2 = []).
        { rewrite (t_frames _ _ _ _ _ _ _ _ T12), (t_frames _ _ _ _ _ _ _ _ T01); auto. }
        destruct (IH TEnd s2 s3 G2 PE SE2 S2 F2 X3) as (A & B & _).
        apply (REST s3); auto.
        - apply T03.
        - exact (ST TEnd s2 s3 G2 PE X3 SE2).
        - apply (t_frames _ _ _ _ _ _ _ _ T03).
        - apply (t_next _ _ _ _ _ _ _ _ T03).
        - intros Q. apply B in Q. apply H2 in Q. rewrite EQ in Q. exact Q.
        - intros CA. destruct (NC CA). }
      assert (NCALM : forall c', cm = c' -> (forall id k, c' <> CRead id k) -> (forall c, c' <> CSub c) ->
                frames s = [] /\ (calm (cm :: rest) -> False)).
      { intros c' <- A B.
        assert (NC : calm (cm :: rest) -> False).
        { intros CA. inversion CA; subst; [eapply A; eauto|eapply B; eauto]. }
        split; auto. destruct SP as [F|C]; auto. destruct (NC C). }
      destruct cm as [id v|id v|body|id k|c|c].
      + destruct (NCALM _ eq_refl) as [F NC]; [congruence|congruence|].
        destruct (negb (is_value id)); [discriminate|].
        destruct (up s) as [s1| |] eqn:U; try discriminate. cbn [obind] in X.
        destruct (report_set id _) as [s2| |] eqn:R; try discriminate. cbn [obind] in X.
        destruct (exec E f TEnd s2) as [s3| |] eqn:X3; try discriminate. cbn [obind] in X.
        destruct (up_ok E rank none True False s s1 G U) as (T01 & NR & EQ & l & cs1 & T1 & M).
        assert (NR1 : tx s1 <> Refreshing) by (rewrite T1; congruence).
        pose proof (t_gi _ _ _ _ _ _ _ _ T01) as G1.
        pose proof (set_vals_trans E rank none (tx s1 <> Idle) False (upd (vals s1) id v) s1 G1 NR1) as TV.
        assert (TR : trans none (tx s1 <> Idle) False [] (set_vals (upd (vals s1) id v) s1) s2)
          by (eapply report_trans; eauto; apply TV).
        assert (SS : same_tx s1 s2).
        { destruct (report_set_ok E rank _ _ _ _ _ (t_gi _ _ _ _ _ _ _ _ TV) T1 R) as (d & cs' & _ & C & _ & T' & _).
          unfold same_tx. rewrite T1, T'. exists cs'; split; auto. intros n Hn; apply C; auto. }
        assert (F1 : frames s1 = []) by (rewrite EQ; auto).
        assert (S1 : SI s1) by (rewrite EQ; exact S).
        destruct (report_static s1 s2 id v _ cs1 G1 T1 F1 S1 R) as [A B].
        eapply (TXN F NC s1 s2 s3); auto.
        * change (@nil gid) with (@nil gid ++ []). eapply trans_seq; eauto. apply same_tx_refl; auto.
        * exact (settled_report E rank s1 s2 _ cs1 id v G1 T1 R (settled_up E rank s s1 G U SET)).
      + destruct (NCALM _ eq_refl) as [F NC]; [congruence|congruence|].
        destruct (negb (is_value id)); [discriminate|].
        destruct (up s) as [s1| |] eqn:U; try discriminate. cbn [obind] in X.
        destruct (if e_eqb E (vals s1 id) v then _ else _) as [s2| |] eqn:R; try discriminate. cbn [obind] in X.
        destruct (exec E f TEnd s2) as [s3| |] eqn:X3; try discriminate. cbn [obind] in X.
        destruct (up_ok E rank none True False s s1 G U) as (T01 & NR & EQ & l & cs1 & T1 & M).
        assert (NR1 : tx s1 <> Refreshing) by (rewrite T1; congruence).
        pose proof (t_gi _ _ _ _ _ _ _ _ T01) as G1.
        pose proof (set_vals_trans E rank none (tx s1 <> Idle) False (upd (vals s1) id v) s1 G1 NR1) as TV.
        assert (F1 : frames s1 = []) by (rewrite EQ; auto).
        assert (S1 : SI s1) by (rewrite EQ; exact S).
        destruct (e_eqb E (vals s1 id) v) eqn:EQB.
        * inversion R; subst s2.
          eapply (TXN F NC s1 _ s3); [reflexivity|exact TV|apply same_tx_refl; auto| |exact S1|intros Q; exact Q|exact X3|exact X].
          exact (settled_up E rank s s1 G U SET).
        * assert (TR : trans none (tx s1 <> Idle) False [] (set_vals (upd (vals s1) id v) s1) s2)
            by (eapply report_trans; eauto; apply TV).
          assert (SS : same_tx s1 s2).
          { destruct (report_set_ok E rank _ _ _ _ _ (t_gi _ _ _ _ _ _ _ _ TV) T1 R) as (d & cs' & _ & C & _ & T' & _).
            unfold same_tx. rewrite T1, T'. exists cs'; split; auto. intros n Hn; apply C; auto. }
          destruct (report_static s1 s2 id v _ cs1 G1 T1 F1 S1 R) as [A B].
          eapply (TXN F NC s1 s2 s3); auto.
          -- change (@nil gid) with (@nil gid ++ []). eapply trans_seq; eauto. apply same_tx_refl; auto.
          -- exact (settled_report E rank s1 s2 _ cs1 id v G1 T1 R (settled_up E rank s s1 G U SET)).
      + destruct (NCALM _ eq_refl) as [F NC]; [congruence|congruence|].
        destruct (up s) as [s1| |] eqn:U; try discriminate. cbn [obind] in X.
        destruct (exec E f (TCmds body) s1) as [s2| |] eqn:X2; try discriminate. cbn [obind] in X.
        destruct (exec E f TEnd s2) as [s3| |] eqn:X3; try discriminate. cbn [obind] in X.
        destruct (up_ok E rank none True False s s1 G U) as (T01 & NR & EQ & l & cs1 & T1 & M).
        pose proof (t_gi _ _ _ _ _ _ _ _ T01) as G1.
        destruct (struct_cmds E rank WF f body s1 s2 G1 X2) as [T12 S12].
        assert (F1 : frames s1 = []) by (rewrite EQ; auto).
        assert (S1 : SI s1) by (rewrite EQ; exact S).
        assert (SE1 : settled E s1) by exact (settled_up E rank s s1 G U SET).
        destruct (IH (TCmds body) s1 s2 G1 I SE1 S1 (or_introl F1) X2) as (A & B & _).
        eapply (TXN F NC s1 s2 s3); auto.
        exact (ST (TCmds body) s1 s2 G1 I X2 SE1).
      + destruct (get E f id s) as [[s1 v]| |] eqn:GX; try discriminate. cbn [obind] in X.
        destruct (get_static f id s s1 v G S GX) as [S1 H1].
        destruct (get_facts E rank WF f id s s1 v G GX) as (_ & KP & SC & G1 & F1).
        pose proof KP as (_ & _ & KR & _ & _ & _ & KD & KN & _).
        set (s2 := add_log (ERead id v (vals s1)) s1) in *.
        assert (SE2 : settled E s2) by exact (settled_get E rank WF f id s s1 v G GX SET).
        assert (SP2 : spre (TCmds (k v ++ rest)) s2).
        { destruct SP as [F|C]; [left; simpl; congruence|right; inversion C; subst; apply calm_app; auto]. }
        assert (G2 : GI s2) by (apply GIx_log; [auto|congruence|auto]).
        destruct (IH (TCmds (k v ++ rest)) s2 s' G2 I SE2 S1 SP2 X) as (A & B & C).
        split; auto. split; [eapply hz_trans; [exact H1|exact B]|].
        intros CA. inversion CA; subst. destruct C as [C1 C2]; [apply calm_app; auto|].
        simpl in C1, C2. split; [congruence|]. intros d Hd. rewrite C2 by lia. congruence.
      + destruct (N.leb_spec (next s) (gnum c)) as [L|]; [|discriminate]. simpl andb in X.
        destruct (gkind c) eqn:KC; try discriminate.
        destruct (new_sub_trans E rank none (tx s <> Idle) False c s G L KC) as [T02 P2].
        set (s2 := set_live (upd (live (set_next (gnum c + 1)%N s)) c true) (set_next (gnum c + 1)%N s)) in *.
        change (set_live (upd (live s) c true) (set_next (gnum c + 1)%N s)) with s2 in T02, P2.
        destruct (exec E f (TSub c) s2) as [s3| |] eqn:X3; try discriminate. cbn [obind] in X.
        pose proof (t_gi _ _ _ _ _ _ _ _ T02) as G2.
        destruct (ES (TSub c) _ _ G2 P2 X3) as [T23 S23].
        assert (STA : starts s c s2) by (right; auto).
        destruct (gi_fresh _ _ _ _ G c L) as (_ & _ & _ & R0 & _ & D0 & _).
        assert (SE2 : sset (TSub c) s2) by exact (open_settled s c s2 G STA SET).
        assert (S2 : SI s2) by exact S.
        destruct (IH (TSub c) s2 s3 G2 P2 SE2 S2 (or_intror (conj R0 D0)) X3) as (A & B & C).
        destruct (C R0 D0) as [C1 C2].
        apply (REST s3); auto.
        * apply T23.
        * exact (ST (TSub c) s2 s3 G2 P2 X3 s G STA SET).
        * rewrite (t_frames _ _ _ _ _ _ _ _ T23). reflexivity.
        * pose proof (t_next _ _ _ _ _ _ _ _ T23). pose proof (t_next _ _ _ _ _ _ _ _ T02). lia.
        * intros _. split; [exact C1|]. intros d Hd. apply C2; [intros ->; lia|].
          pose proof (t_next _ _ _ _ _ _ _ _ T02). lia.
      + destruct (NCALM _ eq_refl) as [F NC]; [congruence|congruence|].
        destruct (exec E f (TDrop [c]) s) as [s1| |] eqn:X1; try discriminate. cbn [obind] in X.
        destruct (struct_drop E rank WF f [c] s s1 G X1) as [T SS].
        destruct (IHD [c] s s1 G S (guarded_nil s F) X1) as (A & B & _).
        apply (REST s1); auto.
        * apply T.
        * exact (ST (TDrop [c]) s s1 G I X1 SET).
        * apply (t_frames _ _ _ _ _ _ _ _ T).
        * apply (t_next _ _ _ _ _ _ _ _ T).
        * intros CA. destruct (NC CA).
    - pose proof (exec_sub_inv E f c s s' X) as (s2 & v & s4 & s6 & GX & H & PC & FIN).
      destruct (sub_get E rank WF f c s s2 v G PR GX) as (STP & F2 & T12 & TX2 & L2 & R2 & LV2 & G2 & G1).
      destruct (sub_body E rank WF f c s s2 v s4 G PR GX H) as [T14 S14].
      pose proof (t_gi _ _ _ _ _ _ _ _ T14) as G4.
      destruct (get_static f (src c) (open_sub c s) s2 v G1 S GX) as [S2 H2].
      destruct (get_facts E rank WF f _ _ s2 v G1 GX) as (_ & KP & SC & _ & _).
      pose proof KP as (_ & _ & KR & _ & _ & _ & KD & KN & KA).
      assert (SE2 : settled E s2) by exact (settled_get E rank WF f _ _ s2 v G1 GX SET).
      assert (BODY : SI s4 /\ hz s2 s4 /\
                (res s c = [] -> ~ In c (dying s) ->
                 dying s4 = dying s /\ forall d, d <> c -> (gnum d < next s)%N -> res s4 d = res s d)).
      { destruct H as [(SU & sb & X5 & X4)|(SU & ->)].
        - destruct (sub_handed E rank c v (tx s2 <> Idle) s2 G2 L2 LV2 SU) as [TD TX].
          destruct (sub_tail E rank WF f c v s2 sb s4 G2 L2 LV2 SU X5 X4) as (TC & SSC & TR & TDr & SD).
          assert (HS : SI (handed E c v s2) /\ settled E (handed E c v s2) /\ hazard (handed E c v s2) = hazard s2 /\
                    dying (handed E c v s2) = dying s2 /\ res (handed E c v s2) = res s2 /\
                    next (handed E c v s2) = next s2 /\ running (handed E c v s2) = running s2 /\
                    active (handed E c v s2) = active s2 /\ frames (handed E c v s2) = frames s2).
          { unfold handed, remembered. destruct (s_dedup (e_sub E c)); auto 12. }
          destruct HS as (HS1 & HS2 & HS3 & HS4 & HS5 & HS6 & HS7 & HS8 & HS9).
          pose proof (proj2 SE c v) as CALM.
          destruct (IH (TCmds (s_call (e_sub E c) v)) _ sb (t_gi _ _ _ _ _ _ _ _ TD) I HS2 HS1 (or_intror CALM) X5)
            as (A & B & C).
          destruct (C CALM) as [C1 C2].
          assert (SEB : settled E sb) by exact (ST (TCmds (s_call (e_sub E c) v)) _ sb (t_gi _ _ _ _ _ _ _ _ TD) I X5 HS2).
          assert (Rb : res sb c = res s c).
          { rewrite C2, HS5 by lia. rewrite KR. reflexivity. }
          assert (Db : dying sb = dying s) by (rewrite C1, HS4, KD; reflexivity).
          assert (H2b : hz s2 sb) by (intros Q; apply B in Q; congruence).
          assert (CASE : (res s c = [] /\ ~ In c (dying s)) \/
                    (~ (res s c = [] /\ ~ In c (dying s)) /\ frames s = [] /\ active s c = true)).
          { destruct (res s c) as [|r rs] eqn:RC.
            - destruct (in_dec gid_eq_dec c (dying s)) as [D|D]; [|auto].
              right. split; [tauto|]. destruct SP as [Q|[_ Q]]; [auto|contradiction].
            - right. split; [intros [Q _]; discriminate|]. destruct SP as [Q|[Q _]]; [auto|congruence]. }
          destruct CASE as [[RC DC]|(NN & FN & AN)].
          + rewrite Rb, RC in X4. destruct f; [discriminate|]. cbn [exec] in X4. inversion X4; subst s4.
            split; [exact A|]. split; [exact H2b|]. intros _ _. split; [exact Db|].
            intros d ND Hd. simpl. rewrite upd_other by auto. rewrite C2, HS5.
            * rewrite KR. reflexivity.
            * rewrite HS6, KN. exact Hd.
          + assert (GU : guarded (set_res (upd (res sb) c (s_res (e_sub E c) v)) sb)).
            { intros n (g & Ig & In_) K. simpl in Ig.
              rewrite (t_frames _ _ _ _ _ _ _ _ TC), HS9, F2, FN in Ig.
              destruct Ig as [<-|[]]. destruct In_ as [<-|[]].
              assert (RNb : running sb = c :: running s).
              { rewrite (t_running _ _ _ _ _ _ _ _ TC), HS7, R2; auto. }
              exists c. split; [simpl; rewrite RNb; simpl; auto|]. split; [apply PR|].
              apply (proj2 SEB).
              - apply (gi_runlive _ _ _ _ (t_gi _ _ _ _ _ _ _ _ TC)). rewrite RNb; simpl; auto.
              - destruct (t_keep _ _ _ _ _ _ _ _ TC c) as [Q _].
                + rewrite HS7, R2; simpl; auto.
                + intros [].
                + rewrite Q, HS8, KA. exact AN. }
            destruct (IHD _ _ s4 (t_gi _ _ _ _ _ _ _ _ TR) A GU X4) as (A' & B' & _).
            split; auto. split; [eapply hz_trans; [exact H2b|exact B']|]. intros Q1 Q2; tauto.
        - assert (HS : SI (remembered E c v s2) /\ hazard (remembered E c v s2) = hazard s2 /\
                    dying (remembered E c v s2) = dying s2 /\ res (remembered E c v s2) = res s2).
          { unfold remembered. destruct (s_dedup (e_sub E c)); auto. }
          destruct HS as (HS1 & HS2 & HS3 & HS4).
          split; auto. split; [intros Q; congruence|]. intros _ _. rewrite HS3, HS4, KD, KR. auto. }
      destruct BODY as (S4 & H4 & Q4).
      destruct (close_static s c s4 s6 G PR T14 S14 PC S4) as (S6 & H6 & D6 & R6).
      set (s9 := set_dying (remove gid_dec c (dying (closed c s6))) (closed c s6)) in *.
      assert (H9 : hz s s9).
      { intros Q. apply H6 in Q. apply H4 in Q. apply H2 in Q. exact Q. }
      assert (Q9 : res s c = [] -> ~ In c (dying s) ->
                dying s9 = dying s /\ forall d, d <> c -> (gnum d < next s)%N -> res s9 d = res s d).
      { intros A B. destruct (Q4 A B) as [C D]. split.
        - change (dying s9) with (remove gid_dec c (dying s6)). rewrite D6, C. apply remove_notin; auto.
        - change (res s9) with (res s6). rewrite R6. exact D. }
      destruct FIN as [(IN & X9)|(_ & ->)]; [|split; [exact S6|split; [exact H9|exact Q9]]].
      change (dying (closed c s6)) with (dying s6) in IN. rewrite D6 in IN.
      destruct (close_ok E rank WF c (tx s <> Idle) s s4 (snd (frame_close s4)) (fst (frame_close s4)) s6 G PR T14 S14)
        as (T09 & _ & _); auto.
      { destruct (frame_close s4); auto. }
      destruct SP as [[FN AN]|[RC DC]].
      + assert (GU : guarded s9).
        { apply guarded_nil. exact (eq_trans (t_frames _ _ _ _ _ _ _ _ T09) FN). }
        destruct (IHD [c] s9 s' (t_gi _ _ _ _ _ _ _ _ T09) S6 GU X9) as (A & B & _).
        split; auto. split; [eapply hz_trans; eauto|]. intros RC DC.
        exfalso. destruct (Q4 RC DC) as [C _]. rewrite C in IN. auto.
      + exfalso. destruct (Q4 RC DC) as [C _]. rewrite C in IN. auto.
    - destruct PR as [TX RN]. destruct cs as [|c rest]; cbn [exec] in X.
      { inversion X; subst. split; auto. split; [apply hz_refl|auto]. }
      destruct (if live s c && active s c then _ else _) as [s1| |] eqn:X1; try discriminate. cbn [obind] in X.
      destruct (live s c && active s c) eqn:LA.
      + apply andb_prop in LA as [LV AC].
        assert (PS : pre (TSub c) s).
        { simpl. split; [apply (gi_livek _ _ _ _ G); auto|]. split; [auto|]. split; [|split].
          - destruct (N.ltb_spec (gnum c) (next s)); auto.
            destruct (gi_fresh _ _ _ _ G c); [lia|congruence].
          - intros H. rewrite RN in AC; auto. discriminate.
          - congruence. }
        destruct (ES (TSub c) s s1 G PS X1) as [T SS].
        assert (STA : starts s c s) by (left; auto).
        destruct (IH (TSub c) s s1 G PS (open_settled s c s G STA SET) S (or_introl (conj SP AC)) X1) as (A & B & _).
        assert (PR1 : pre (TRefresh rest) s1).
        { split; [eapply same_tx_refreshing; eauto|].
          intros d H. rewrite (t_running _ _ _ _ _ _ _ _ T) in H.
          destruct (t_keep _ _ _ _ _ _ _ _ T d H) as [-> _]; auto. }
        assert (F1 : frames s1 = []) by (rewrite (t_frames _ _ _ _ _ _ _ _ T); exact SP).
        pose proof (ST (TSub c) s s1 G PS X1 s G STA SET) as SE1.
        destruct (IH (TRefresh rest) s1 s' (t_gi _ _ _ _ _ _ _ _ T) PR1 SE1 A F1 X) as (A' & B' & _).
        split; auto. split; [eapply hz_trans; eauto|exact I].
      + inversion X1; subst s1. apply (IH (TRefresh rest) s s'); auto. split; auto.
    - destruct cs as [|c rest]; cbn [exec] in X.
      { inversion X; subst. split; auto. split; [apply hz_refl|exact SP]. }
      destruct (if negb (live s c) then _ else _) as [s1| |] eqn:X1; try discriminate. cbn [obind] in X.
      destruct (live s c) eqn:LV; simpl in X1.
      + destruct (set_mem_spec c (running s)) as [RN|RN].
        * inversion X1; subst. destruct (set_dying_trans E rank none True False c s G RN) as [TD].
          exact (IHD rest _ s' TD S SP X).
        * destruct (set_parents E c [] _) as [s2| |] eqn:XP; try discriminate. cbn [obind] in X1.
          destruct (drop_trans E rank none (tx s <> Idle) False c s s2 G LV RN XP) as [T02 TX].
          pose proof (t_gi _ _ _ _ _ _ _ _ T02) as G2.
          destruct (drop_static s c s2 G LV RN S SP XP) as (S2 & H2 & GU2).
          destruct (struct_drop E rank WF f _ s2 s1 G2 X1) as [T SS].
          destruct (IHD _ s2 s1 G2 S2 GU2 X1) as (A & B & C).
          destruct (IHD rest s1 s' (t_gi _ _ _ _ _ _ _ _ T) A C X) as (A' & B' & C').
          split; auto. split; auto. eapply hz_trans; [exact H2|]. eapply hz_trans; eauto.
      + inversion X1; subst. exact (IHD rest s1 s' G S SP X).
    - destruct PR as (l & cs & TX). cbn [exec] in X.
      destruct (down s) as [s1 r] eqn:D.
      destruct (down_ok E rank s s1 r l cs G TX D) as [(-> & -> & ->)|(L & -> & ->)].
      + destruct (exec E f (TRefresh cs) (set_tx Refreshing s)) as [s2| |] eqn:X2; try discriminate.
        cbn [obind] in X.
        assert (G1 : GI (set_tx Refreshing s)) by (apply GIx_tx; [exact I|congruence|auto]).
        assert (PR : pre (TRefresh cs) (set_tx Refreshing s)).
        { split; auto. apply (gi_run _ _ _ _ G). congruence. }
        destruct (IH (TRefresh cs) (set_tx Refreshing s) s2 G1 PR SET S SP X2) as (A & B & _).
        unfold move_to_idle in X. inversion X; subst s'. destruct (tx s2); split; auto.
      + inversion X; subst s'. split; [exact S|]. split; [intros Q; exact Q|exact I].
  Qed.

  Theorem run_static vs h s : run E vs h s -> hazard s = false.
  Proof.
    intros [f X].
    assert (S0 : SI (init vs)) by (intros p c l []).
    assert (SET : sset (TCmds h) (init vs)) by (split; simpl; intros; discriminate).
    destruct (exec_static f (TCmds h) (init vs) s (init_gi E rank vs) I SET S0 (or_introl eq_refl) X)
      as (_ & H & _).
    destruct (hazard s) eqn:Q; auto. apply H in Q. discriminate.
  Qed.
End Static.
