(** The structural invariant of the reactive model, and its preservation by evaluation. *)

From Coq Require Import List NArith Bool Lia Arith.
From Verif Require Import GraphModel GraphSpec GraphProofs ReactModel ReactSpec ReactBase.
Import ListNotations.

Section Inv.
  Context {V : Type}.
  Variable E : @env V.
  Variable rank : gid -> nat.
  Hypothesis WF : well_founded_env E rank.

  Definition src (c : gid) : gid := s_src (e_sub E c).

  (** Rank extended to subscriptions. *)
  Definition rk (id : gid) : nat :=
    match gkind id with KClient => S (rank (src id)) | _ => rank id end.

  (** Structural invariant; subscriptions in [x] are being dropped. *)
  Record GIx (x : gid -> Prop) (s : @state V) : Prop := {
    gi_intact : intact (graph_of s);
    gi_rank : forall p c, child (graph_of s) p c -> rk p < rk c;
    gi_kind : forall p c, child (graph_of s) p c -> gkind p <> KClient /\ gkind c <> KValue;
    gi_src : forall p c, child (graph_of s) p c -> gkind c = KClient -> p = src c;
    gi_live : forall p c, child (graph_of s) p c -> gkind c = KClient -> ~ x c -> live s c = true;
    gi_conn : forall v, conn s v = true <->
      (gkind v = KValue /\ e_conn E v = true /\ exists c, child (graph_of s) v c);
    gi_log : forall v, conn_ok v (log s) (conn s v);
    gi_cache : forall c v, cache s c = Some v -> gkind c = KComputed;
    gi_active : forall c, active s c = true -> gkind c = KClient;
    gi_fresh : forall c, (next s <= gnum c)%N ->
      live s c = false /\ active s c = false /\ prev s c = None /\ res s c = [] /\
      ~ In c (running s) /\ ~ In c (dying s) /\ delivered c (log s) = [];
    gi_livek : forall c, live s c = true -> gkind c = KClient;
    gi_runlive : forall c, In c (running s) -> live s c = true;
    gi_dying : forall c, In c (dying s) -> In c (running s);
    gi_tx : match tx s with
            | Modification l cs => (1 <= l)%N /\ sorted cs /\ Forall (fun c => gkind c = KClient) cs
            | _ => True
            end;
    gi_run : tx s <> Refreshing -> forall c, In c (running s) -> active s c = false
  }.

  Definition GI (s : @state V) : Prop := GIx (fun _ => False) s.

  Lemma GIx_weaken (x y : gid -> Prop) s : (forall c, x c -> y c) -> GIx x s -> GIx y s.
  Proof. intros XY []; constructor; auto. intros p c C K N; eapply gi_live0; eauto. Qed.

  Lemma delivered_conn c l l0 : Forall conn_event l -> delivered (V := V) c (l ++ l0) = delivered c l0.
  Proof. induction 1 as [|e l H _ IH]; simpl; auto. destruct e; simpl in H; auto; contradiction. Qed.

  Definition orph (s : @state V) := orphaned (child (graph_of s)).

  Lemma orph_child s client new n : orph s client new n -> exists c, child (graph_of s) n c.
  Proof. intros []; auto. Qed.

  Lemma set_parents_ok client new s :
    GIx (eq client) s -> sorted new ->
    (forall p, In p new -> rk p < rk client /\ gkind p <> KClient) ->
    gkind client <> KValue ->
    (gkind client = KClient -> forall p, In p new -> p = src client /\ live s client = true) ->
    exists s',
      set_parents E client new s = Ok s' /\ GI s' /\ frozen s s' /\
      (forall p c, child (graph_of s') p c <->
         (c = client /\ In p new) \/ (c <> client /\ child (graph_of s) p c /\ ~ orph s client new c)) /\
      (forall n, n <> client -> gkind n = KComputed -> orph s client new n -> cache s' n = None) /\
      (forall n, n <> client -> ~ orph s client new n -> cache s' n = cache s n) /\
      (gkind client = KClient -> cache s' client = cache s client) /\
      (forall n, n <> client -> active s' n = active s n) /\
      (hazard s' = true <-> hazard s = true \/
         exists n, orph s client new n /\ gkind n = KComputed /\ n <> client /\ in_frames n s) /\
      (exists l, log s' = l ++ log s /\ Forall conn_event l) /\
      (active s client = false -> active s' client = false).
  Proof.
    intros G SN RN KC KL.
    destruct (set_parent_spec (graph_of s) client new (gi_intact _ _ G)
                (ex_intro _ rk (gi_rank _ _ G)) SN)
      as (g' & info & X & I' & CH & SI & FL & OR & RO & CL & AD & LG).
    unfold set_parents. rewrite X. eexists; split; [reflexivity|].
    set (s0 := set_graph g' s).
    set (s' := fold_left (apply_active E client) info s0).
    assert (FR : frozen s0 s') by apply fold_active_frozen.
    assert (FR0 : frozen s s') by exact FR.
    assert (GR : graph_of s' = g') by apply (fold_active_graph E client info s0).
    assert (ND : NoDup (map fst info)) by (apply sorted_NoDup; auto).
    assert (CH' : forall p c, child (graph_of s') p c <->
         (c = client /\ In p new) \/ (c <> client /\ child (graph_of s) p c /\ ~ orph s client new c)).
    { intros p c; rewrite GR; apply CH. }
    assert (OC : forall n, orph s client new n -> gkind n <> KClient).
    { intros n O K. apply orph_child in O as [c O]. apply (gi_kind _ _ G) in O as [O _]; auto. }
    assert (ACT : forall n, n <> client -> active s' n = active s n).
    { intros n N. unfold s'. rewrite fold_active_active; auto.
      intros b I B K L. subst b. destruct (RO n I) as [|O]; auto. exfalso; eapply OC; eauto. }
    assert (CONN : forall v, conn s' v = true <->
        (gkind v = KValue /\ e_conn E v = true /\ exists c, child (graph_of s') v c)).
    { intros v.
      destruct (fold_active_conn E client info s0 v ND) as [A B].
      assert (D : (exists b, In (v, b) info) \/ ~ exists b, In (v, b) info).
      { destruct (in_dec gid_eq_dec v (map fst info)) as [H|H].
        - left. apply in_map_iff in H as ([v' b] & <- & H). exists b; auto.
        - right. intros [b Hb]. apply H. change v with (fst (v, b)). apply in_map; auto. }
      destruct (gkind v) eqn:K.
      - destruct D as [[b D]|D].
        + specialize (A b D eq_refl). fold s' in A. rewrite A.
          pose proof (FL v b D) as F. rewrite <- GR in F. destruct b.
          * split.
            -- intros H. split; [auto|]. apply orb_true_iff in H as [H|H].
               ++ apply (gi_conn _ _ G) in H as (_ & H & _). split; auto. apply F; auto.
               ++ split; auto. apply F; auto.
            -- intros (_ & H & _). rewrite H; apply orb_true_r.
          * split; [congruence|]. intros (_ & _ & H). apply F in H; auto.
        + specialize (B (fun b H => D (ex_intro _ b (proj1 H)))). fold s' in B. rewrite B.
          change (conn s0 v) with (conn s v). rewrite (gi_conn _ _ G).
          assert ((exists c, child (graph_of s) v c) <-> (exists c, child (graph_of s') v c)) as ->.
          { split.
            - intros [c Hc].
              destruct (in_dec gid_eq_dec c (rel (g_pc (graph_of s')) v)) as [H|H]; [eauto|].
              exfalso. rewrite GR in H. apply (LG v c Hc) in H.
              apply in_map_iff in H as ([v' b] & E1 & H). simpl in E1; subst v'. eauto.
            - intros [c Hc]. apply CH' in Hc as [[-> Hn]|(_ & Hc & _)]; [|eauto].
              destruct (in_dec gid_eq_dec client (rel (g_pc (graph_of s)) v)) as [Hc|Hc]; [eauto|].
              exfalso; apply D; exists true; auto. }
          tauto.
      - specialize (B ltac:(intros b [_ ?]; congruence)). fold s' in B. rewrite B. change (conn s0 v) with (conn s v).
        rewrite (gi_conn _ _ G). intuition congruence.
      - specialize (B ltac:(intros b [_ ?]; congruence)). fold s' in B. rewrite B. change (conn s0 v) with (conn s v).
        rewrite (gi_conn _ _ G). intuition congruence. }
    destruct (fold_active_log E client info s0 (gi_log _ _ G)) as [LOG LX]. fold s' in LOG, LX.
    assert (CA : forall n, n <> client -> gkind n = KComputed -> orph s client new n -> cache s' n = None).
    { intros n N K O. apply (fold_active_cache E client info s0 n); auto. }
    assert (CB : forall n, n <> client -> ~ orph s client new n -> cache s' n = cache s n).
    { intros n N O. apply (fold_active_cache E client info s0 n).
      intros [H _]. destruct (RO n H); auto. }
    assert (CC : gkind client = KClient -> cache s' client = cache s client).
    { intros K. apply (fold_active_cache E client info s0 client). intros [_ ?]; congruence. }
    assert (CD : cache s' client = cache s client \/ cache s' client = None).
    { destruct (in_dec gid_eq_dec client (map fst (filter (fun e => negb (snd e)) info))) as [H|H].
      - apply in_map_iff in H as ([c b] & E1 & H). simpl in E1; subst c.
        apply filter_In in H as [H B]. destruct b; [discriminate|].
        destruct (gkind client) eqn:K; [congruence| |left; apply CC; auto].
        right. apply (fold_active_cache E client info s0 client); auto.
      - left. apply (fold_active_cache E client info s0 client). intros [Q _]. apply H.
        apply in_map_iff. exists (client, false); split; auto. apply filter_In; auto. }
    destruct FR0 as (F1 & F2 & F3 & F4 & F5 & F6 & F7 & F8 & F9).
    assert (AM : forall n, active s n = false -> active s' n = false).
    { intros n; apply (fold_active_active_me E client info s0 n). }
    split; [|split; [|split; [|split; [|split; [|split; [|split; [|split; [|split]]]]]]]]; auto.
    - constructor.
      + rewrite GR; exact I'.
      + intros p c H. apply CH' in H as [[-> H]|(_ & H & _)]; [apply RN; auto|apply (gi_rank _ _ G); auto].
      + intros p c H. apply CH' in H as [[-> H]|(_ & H & _)]; [split; auto; apply RN; auto|].
        apply (gi_kind _ _ G _ _ H).
      + intros p c H K. apply CH' in H as [[-> H]|(_ & H & _)]; [apply KL; auto|].
        apply (gi_src _ _ G _ _ H K).
      + intros p c H K _. rewrite F4. apply CH' in H as [[-> H]|(N & H & _)].
        * eapply KL; eauto.
        * apply (gi_live _ _ G _ _ H K). congruence.
      + exact CONN.
      + exact LOG.
      + intros c v H. destruct (gid_eq_dec c client) as [->|N].
        * destruct CD as [CD|CD]; rewrite CD in H; [|discriminate]. eapply (gi_cache _ _ G); eauto.
        * destruct (fold_active_cache E client info s0 c) as [_ Q]. fold s' in Q.
          destruct (in_dec gid_eq_dec c (map fst (filter (fun e => negb (snd e)) info))) as [Hi|Hi].
          -- apply in_map_iff in Hi as ([c' b] & E1 & Hi). simpl in E1; subst c'.
             apply filter_In in Hi as [Hi B]. destruct b; [discriminate|].
             destruct (gkind c) eqn:K; auto.
             ++ rewrite Q in H by (intros [_ ?]; congruence).
                apply (gi_cache _ _ G) in H. congruence.
             ++ rewrite Q in H by (intros [_ ?]; congruence).
                apply (gi_cache _ _ G) in H. congruence.
          -- rewrite Q in H; [eapply (gi_cache _ _ G); eauto|].
             intros [H1 _]. apply Hi. apply in_map_iff. exists (c, false); split; auto.
             apply filter_In; auto.
      + intros c H. apply (gi_active _ _ G). destruct (active s c) eqn:Q; auto. rewrite AM in H; auto.
      + intros c H. rewrite F9 in H. destruct (gi_fresh _ _ G c H) as (A1 & A2 & A3 & A4 & A5 & A6 & A7).
        rewrite F2, F3, F4, F7, F8. repeat split; auto.
        destruct LX as (lx & -> & FX). rewrite delivered_conn by auto. exact A7.
      + rewrite F4; apply (gi_livek _ _ G).
      + rewrite F4, F7; apply (gi_runlive _ _ G).
      + rewrite F7, F8; apply (gi_dying _ _ G).
      + rewrite F5; apply (gi_tx _ _ G).
      + rewrite F5, F7. intros T c H. apply AM, (gi_run _ _ G T c H).
    - unfold s'. rewrite fold_active_hazard. change (hazard s0) with (hazard s).
      split; (intros [?|(n & H1 & H2 & H3 & H4)]; [left; auto|right; exists n]).
      + split; [|auto]. destruct (RO n H1); [congruence|auto].
      + split; [apply OR; auto|auto].
  Qed.

  (** ** Evaluation *)

  (** Everything evaluation leaves alone, except the contexts. *)
  Definition kept (s s' : @state V) : Prop :=
    vals s' = vals s /\ prev s' = prev s /\ res s' = res s /\ live s' = live s /\
    tx s' = tx s /\ running s' = running s /\ dying s' = dying s /\ next s' = next s /\
    (forall n, active s' n = active s n).

  Lemma kept_refl s : kept s s.
  Proof. unfold kept; auto 12. Qed.

  Lemma kept_trans a b c : kept a b -> kept b c -> kept a c.
  Proof.
    unfold kept; intros (A1 & A2 & A3 & A4 & A5 & A6 & A7 & A8 & A9) (B1 & B2 & B3 & B4 & B5 & B6 & B7 & B8 & B9).
    repeat (split; [congruence|]). intros n; rewrite B9; auto.
  Qed.

  (** Events evaluation may log. *)
  Definition calc_event (e : @event V) : Prop :=
    match e with EConnect _ | EDisconnect _ | ECompute _ => True | _ => False end.

  Definition logged (P : @event V -> Prop) (s s' : @state V) : Prop :=
    exists l, log s' = l ++ log s /\ Forall P l.

  Lemma logged_refl P s : logged P s s.
  Proof. exists []; auto. Qed.

  Lemma logged_trans P a b c : logged P a b -> logged P b c -> logged P a c.
  Proof.
    intros (l & A & F) (l' & B & F'). exists (l' ++ l). rewrite B, A, app_assoc; split; auto.
    apply Forall_app; auto.
  Qed.

  Lemma logged_weaken (P Q : @event V -> Prop) s s' :
    (forall e, P e -> Q e) -> logged P s s' -> logged Q s s'.
  Proof. intros PQ (l & A & F). exists l; split; auto. eapply Forall_impl; eauto. Qed.

  Lemma conn_calc_event e : conn_event e -> calc_event e.
  Proof. destruct e; simpl; auto. Qed.

  (** Edges into subscriptions are unchanged. *)
  Definition same_clients (s s' : @state V) : Prop :=
    forall p c, gkind c = KClient -> (child (graph_of s') p c <-> child (graph_of s) p c).

  (** Caches that are in use - read by an evaluation in progress or by a subscription. *)
  Definition held (s : @state V) (n : gid) : Prop :=
    in_frames n s \/ exists c, gkind c = KClient /\ child (graph_of s) n c.

  (** Every cache holds the from-scratch value, with the recorded parents being what that evaluation
      reads, themselves cached. *)
  Definition coh (s : @state V) : Prop :=
    forall c v, cache s c = Some v ->
      exists l, runs E (vals s) (e_comp E c) l v /\
        (forall p, child (graph_of s) p c <-> In p l) /\
        (forall p, In p l -> gkind p = KComputed -> cache s p <> None).

  Lemma coh_den s c v : GI s -> coh s -> cache s c = Some v -> den E (vals s) c v.
  Proof.
    intros G C H. destruct (C c v H) as (l & R & _). econstructor; eauto. eapply (gi_cache _ _ G); eauto.
  Qed.

  (** What running part of an evaluation guarantees. *)
  Definition step (s s' : @state V) : Prop :=
    GI s' /\ kept s s' /\ same_clients s s' /\ logged calc_event s s' /\
    (hazard s = true -> hazard s' = true) /\
    (coh s -> hazard s' = false ->
       coh s' /\ forall n, held s n -> cache s n <> None -> cache s' n = cache s n).

  Lemma step_refl s : GI s -> step s s.
  Proof.
    intros G. split; [auto|split; [apply kept_refl|split; [intros p c _; tauto|split; [apply logged_refl|]]]].
    split; auto.
  Qed.

  Lemma not_true_false b : (b = true -> False) -> b = false.
  Proof. destruct b; auto. intros H; exfalso; auto. Qed.

  Lemma step_trans a b c :
    (forall n, in_frames n a -> in_frames n b) -> step a b -> step b c -> step a c.
  Proof.
    intros FR (A1 & A2 & A3 & A4 & A5 & A6) (B1 & B2 & B3 & B4 & B5 & B6).
    split; [auto|split; [eapply kept_trans; eauto|split; [|split; [eapply logged_trans; eauto|split; [auto|]]]]].
    - intros p d K. rewrite (B3 p d K), (A3 p d K); tauto.
    - intros C H. assert (HB : hazard b = false).
      { apply not_true_false; intros Q; apply B5 in Q; congruence. }
      destruct (A6 C HB) as [C1 S1]. destruct (B6 C1 H) as [C2 S2]. split; auto.
      intros n [Hn|(d & K & Hd)] N.
      + rewrite S2; [apply S1; auto; left; auto|left; auto|rewrite S1; auto; left; auto].
      + assert (held a n) by (right; eauto).
        rewrite S2; [apply S1; auto|right; exists d; split; auto; apply A3; auto|rewrite S1; auto].
  Qed.

  (** A change of bookkeeping that no part of the invariant looks at. *)
  Lemma GIx_frames x f s : GIx x s -> GIx x (set_frames f s).
  Proof. intros []; constructor; auto. Qed.

  Lemma GIx_log x e s : ~ conn_event e -> (forall c v vs b, e <> EDeliver c v vs b) ->
    GIx x s -> GIx x (add_log e s).
  Proof.
    intros N D []; constructor; auto.
    2: { intros c H. destruct (gi_fresh0 c H) as (A1 & A2 & A3 & A4 & A5 & A6 & A7).
         repeat split; auto. simpl. destruct e; auto. exfalso; eapply D; reflexivity. }
    intros v; simpl. apply conn_other; auto; intros ->; apply N; simpl; auto.
  Qed.

  Section Calc.
    Variable fuel : nat.
    Hypothesis IH : forall c s, gkind c = KComputed -> GI s -> rk c < fuel -> cache s c = None ->
      exists s' v, calc E fuel c s = Ok (s', v) /\ step s s' /\ frames s' = frames s /\
        cache s' c = Some v.

    Lemma run_ok p : forall s f0 fs n,
      reads_below rank n p -> GI s -> n <= fuel ->
      frames s = f0 :: fs ->
      exists s' v l,
        run_prog (calc E fuel) p s = Ok (s', v) /\ step s s' /\
        frames s' = (rev l ++ f0) :: fs /\
        (forall i, In i l -> rank i < n /\ gkind i <> KClient) /\
        (coh s -> hazard s' = false ->
           runs E (vals s) p l v /\ forall i, In i l -> gkind i = KComputed -> cache s' i <> None).
    Proof.
      induction p as [v|id k IHp]; intros s f0 fs n RB G LE FR.
      - exists s, v, []. simpl. split; [auto|split; [apply step_refl; auto|split; [auto|split]]].
        + intros i [].
        + intros _ _; split; [constructor|intros i []].
      - destruct RB as (RI & KI & RB). cbn [run_prog].
        set (s1 := add_parent id s).
        assert (S1 : s1 = set_frames ((id :: f0) :: fs) s) by (unfold s1, add_parent; rewrite FR; auto).
        assert (G1 : GI s1) by (rewrite S1; apply GIx_frames; auto).
        assert (ST1 : step s s1).
        { rewrite S1. split; [rewrite <- S1; auto|split; [exact (kept_refl s)|split; [intros p c _; simpl; tauto|]]].
          split; [exact (logged_refl _ s)|split; auto]. }
        assert (FR1 : frames s1 = (id :: f0) :: fs) by (rewrite S1; auto).
        assert (SUB : forall n0, in_frames n0 s -> in_frames n0 s1).
        { intros m (f & Hf & Hm). rewrite FR in Hf. unfold in_frames; rewrite FR1.
          destruct Hf as [<-|Hf]; [exists (id :: f0); simpl; auto|exists f; simpl; auto]. }
        (* the value read, the state after the read *)
        assert (RD : exists s2 x,
          (match gkind id with
           | KValue => run_prog (calc E fuel) (k (vals s1 id)) s1
           | KComputed => match cache s1 id with
                          | Some v => run_prog (calc E fuel) (k v) s1
                          | None => let! (s2, v) := calc E fuel id s1 in run_prog (calc E fuel) (k v) s2
                          end
           | KClient => Panic
           end) = run_prog (calc E fuel) (k x) s2 /\
          step s1 s2 /\ frames s2 = frames s1 /\
          (coh s -> hazard s2 = false -> den E (vals s) id x /\
             (gkind id = KComputed -> cache s2 id <> None))).
        { destruct (gkind id) eqn:K; [| |congruence].
          - exists s1, (vals s1 id). split; [auto|split; [apply step_refl; auto|split; [auto|]]].
            intros C H. split; [|discriminate]. rewrite S1; simpl. constructor; auto.
          - destruct (cache s1 id) as [v|] eqn:CV.
            + exists s1, v. split; [auto|split; [apply step_refl; auto|split; [auto|]]].
              intros C H. split; [|congruence]. rewrite S1 in CV; simpl in CV.
              eapply coh_den; eauto.
            + destruct (IH id s1) as (s2 & v & X & ST & F & CS); auto.
              { unfold rk; rewrite K; lia. }
              exists s2, v. rewrite X. split; [auto|split; [auto|split; [auto|]]].
              intros C H. split; [|congruence].
              destruct ST as (G2 & KP & _ & _ & _ & CO).
              destruct CO as [C2 _]; [rewrite S1; exact C|auto|].
              assert (vals s = vals s2) as ->.
              { destruct KP as (-> & _). rewrite S1; auto. }
              eapply coh_den; eauto. }
        destruct RD as (s2 & x & -> & ST2 & F2 & RD).
        pose proof ST2 as (G2 & KP2 & _ & _ & HM2 & CO2).
        destruct (IHp x s2 (id :: f0) fs n) as (s' & v & l & X & ST & F & RL & CO); auto.
        { rewrite F2; auto. }
        assert (ST12 : step s1 s').
        { eapply step_trans; [|exact ST2|exact ST]. intros m (f & Hf & Hm). exists f; rewrite F2; auto. }
        exists s', v, (id :: l). split; [exact X|split; [|split; [|split]]].
        + eapply step_trans; [exact SUB|exact ST1|exact ST12].
        + rewrite F. simpl. rewrite <- app_assoc. reflexivity.
        + intros i [<-|Hi]; auto.
        + intros C H.
          pose proof ST as (_ & _ & _ & _ & HM & COS).
          assert (H2 : hazard s2 = false).
          { apply not_true_false; intros Q; apply HM in Q; congruence. }
          destruct (RD C H2) as [D CI].
          assert (C1 : coh s1) by (rewrite S1; exact C).
          destruct (CO2 C1 H2) as [C2 ST2'].
          destruct (CO C2 H) as [R CL].
          assert (VS : vals s2 = vals s).
          { destruct KP2 as (-> & _). rewrite S1; auto. }
          rewrite VS in R.
          split; [econstructor; eauto|].
          intros i [<-|Hi] K; [|auto].
          destruct (COS C2 H) as [_ ST3]. rewrite ST3; auto.
          left. exists (id :: f0). rewrite F2, FR1; simpl; auto.
    Qed.
  End Calc.

  Lemma calc_ok fuel : forall c s, gkind c = KComputed -> GI s -> rk c < fuel -> cache s c = None ->
    exists s' v, calc E fuel c s = Ok (s', v) /\ step s s' /\ frames s' = frames s /\
      cache s' c = Some v.
  Proof.
    induction fuel as [|f IH]; intros c s K G LT CN; [lia|]. cbn [calc].
    set (s0 := add_log (ECompute c) (frame_open s)).
    assert (G0 : GI s0) by (apply GIx_log; [auto|congruence|apply GIx_frames; auto]).
    assert (FR0 : frames s0 = [] :: frames s) by reflexivity.
    assert (RKC : rk c = rank c) by (unfold rk; rewrite K; auto).
    destruct (run_ok f IH (e_comp E c) s0 [] (frames s) (rank c)) as (s1 & v & l & X & ST & F1 & RL & CO); auto.
    { apply WF; auto. }
    { lia. }
    rewrite X. cbn [obind]. unfold frame_close. rewrite F1, app_nil_r.
    set (s2 := set_frames (frames s) s1).
    pose proof ST as (G1 & KP1 & SC1 & LG1 & HM1 & CO1).
    assert (G2 : GI s2) by (apply GIx_frames; auto).
    unfold push_context.
    assert (IN : forall p, In p (set_of_list (rev l)) <-> In p l).
    { intros p. rewrite set_of_list_In. symmetry; apply in_rev. }
    destruct (set_parents_ok c (set_of_list (rev l)) s2)
      as (s3 & X3 & G3 & FZ & CH & CA & CB & _ & AC & HZ & LG & AM).
    - eapply GIx_weaken; [|exact G2]. intros ? [].
    - apply set_of_list_sorted.
    - intros p Hp. apply IN in Hp. destruct (RL p Hp) as [A B]. split; auto.
      unfold rk at 1. destruct (gkind p) eqn:KP; try lia. congruence.
    - congruence.
    - congruence.
    - rewrite X3. cbn [obind].
      set (s4 := set_cache (upd (cache s3) c (Some v)) s3).
      exists s4, v. split; [auto|]. split; [|split].
      + destruct FZ as (Z1 & Z2 & Z3 & Z4 & Z5 & Z6 & Z7 & Z8 & Z9).
        assert (OC : forall n d, gkind d = KClient -> child (graph_of s2) n d -> ~ orph s2 c (set_of_list (rev l)) n).
        { intros n d Kd Hd O. inversion O as [m _ _ ALL]; subst.
          destruct (ALL d Hd) as [->|O']; [congruence|].
          apply orph_child in O' as [e O']. apply (gi_kind _ _ G2) in O' as [O' _]; auto. }
        split; [|split; [|split; [|split; [|split]]]].
        * destruct G3; constructor; auto. intros d w H. simpl in H.
          destruct (upd_spec (cache s3) c (Some v) d) as [[-> _]|[_ Q]]; [auto|rewrite Q in H; eauto].
        * assert (kept s1 s3).
          { unfold kept. repeat split; auto. intros n. destruct (gid_eq_dec n c) as [->|N]; [|apply AC; auto].
            assert (active s2 c = false) as Q.
            { destruct (active s2 c) eqn:Q; auto. apply (gi_active _ _ G2) in Q. congruence. }
            rewrite AM by exact Q. symmetry; exact Q. }
          eapply kept_trans; [|eapply kept_trans; [exact KP1|exact H]]. exact (kept_refl s).
        * intros p d Kd. simpl. rewrite CH.
          pose proof (SC1 p d Kd) as Q. change (graph_of s0) with (graph_of s) in Q.
          change (graph_of s1) with (graph_of s2) in Q. rewrite <- Q.
          split.
          -- intros [[-> _]|(_ & H & _)]; [congruence|auto].
          -- intros H. right. split; [congruence|]. split; auto.
             intros O. apply orph_child in O as [e O].
             apply (gi_kind _ _ G2) in O as [O _]; auto.
        * eapply logged_trans; [|eapply logged_trans; [exact LG1|]].
          -- exists [ECompute c]; split; [reflexivity|repeat constructor].
          -- destruct LG as (l' & L1 & L2). exists l'; split; auto.
             eapply Forall_impl; [|exact L2]. apply conn_calc_event.
        * intros H. simpl. apply HZ. left. apply HM1. exact H.
        * intros C H. simpl in H.
          assert (H1 : hazard s1 = false).
          { apply not_true_false; intros Q. assert (hazard s3 = true) by (apply HZ; auto). congruence. }
          assert (C0 : coh s0) by exact C.
          destruct (CO1 C0 H1) as [C1 ST1]. destruct (CO C0 H1) as [R CL].
          assert (NH : forall n, in_frames n s -> gkind n = KComputed -> n <> c ->
                     ~ orph s2 c (set_of_list (rev l)) n).
          { intros n I Kn N O. assert (hazard s3 = true); [|congruence].
            apply HZ. right. exists n; auto. }
          assert (NEW : forall i, In i l -> gkind i = KComputed -> cache s3 i = cache s1 i).
          { intros i Hi Ki. apply (CB i).
            - intros ->. destruct (RL c Hi); lia.
            - intros O. inversion O as [m _ NI _]; subst. apply NI, IN; auto. }
          split.
          -- intros d w Hd. simpl in Hd |- *.
             destruct (upd_spec (cache s3) c (Some v) d) as [[-> Q]|[N Q]]; rewrite Q in Hd.
             ++ inversion Hd; subst w. exists l. split; [|split].
                ** rewrite Z1. destruct KP1 as (V1 & _). change (vals s2) with (vals s1). rewrite V1. exact R.
                ** intros p. rewrite CH, IN. intuition congruence.
                ** intros p Hp Kp. destruct (upd_spec (cache s3) c (Some v) p) as [[-> Q']|[N' Q']]; rewrite Q';
                     [congruence|]. rewrite NEW; auto.
             ++ assert (NO : ~ orph s2 c (set_of_list (rev l)) d).
                { intros O. rewrite (CA d N) in Hd; auto; [discriminate|].
                  eapply (gi_cache _ _ G3); eauto. }
                rewrite CB in Hd by auto. destruct (C1 d w Hd) as (l' & R' & P' & Q1).
                exists l'. split; [|split].
                ** rewrite Z1. exact R'.
                ** intros p. rewrite CH. change (graph_of s2) with (graph_of s1). rewrite <- P'. intuition.
                ** intros p Hp Kp. destruct (upd_spec (cache s3) c (Some v) p) as [[-> Q']|[N' Q']]; rewrite Q';
                     [congruence|].
                   rewrite CB; [apply Q1; auto|auto|].
                   intros O. inversion O as [m _ _ ALL]; subst.
                   assert (HC : child (graph_of s2) p d) by (apply P'; auto).
                   destruct (ALL d HC); auto.
          -- intros n Hn NN. simpl.
             assert (Kn : gkind n = KComputed).
             { destruct (cache s n) eqn:Q; [|congruence]. eapply (gi_cache _ _ G); eauto. }
             assert (H0 : held s0 n).
             { destruct Hn as [(f' & Hf & Hn)|Hn]; [left|right; auto].
               exists f'; split; auto. rewrite FR0; right; auto. }
             assert (Q1 : cache s1 n = cache s n) by (apply ST1; auto).
             destruct (upd_spec (cache s3) c (Some v) n) as [[-> Q]|[N Q]]; rewrite Q.
             ++ congruence.
             ++ rewrite CB; auto. destruct Hn as [Hn|(d & Kd & Hd)].
                ** apply NH; auto.
                ** eapply OC; eauto. apply SC1; auto.
      + simpl. destruct FZ as (_ & _ & _ & _ & _ & Z6 & _). rewrite Z6. reflexivity.
      + simpl. apply upd_same.
  Qed.

  (** ** Any amount of fuel *)

  Lemma run_mono (rec rec' : gid -> state -> out (state * V)) p :
    (forall c s r, rec c s = Ok r -> rec' c s = Ok r) ->
    forall s r, run_prog rec p s = Ok r -> run_prog rec' p s = Ok r.
  Proof.
    intros H. induction p as [v|id k IHp]; intros s r X; cbn [run_prog] in *; auto.
    destruct (gkind id); auto. destruct (cache (add_parent id s) id); auto.
    destruct (rec id (add_parent id s)) as [[s2 w]| |] eqn:R; try discriminate.
    rewrite (H _ _ _ R). cbn [obind] in *. auto.
  Qed.

  Lemma calc_mono_S f : forall c s r, calc E f c s = Ok r -> calc E (S f) c s = Ok r.
  Proof.
    induction f as [|f IH]; intros c s r X; [discriminate|].
    change (calc E (S (S f)) c s) with
      (let! (s1, v) := run_prog (calc E (S f)) (e_comp E c) (add_log (ECompute c) (frame_open s)) in
       let (ctx, s2) := frame_close s1 in
       let! s3 := push_context E c ctx s2 in
       Ok (set_cache (upd (cache s3) c (Some v)) s3, v)).
    cbn [calc] in X.
    destruct (run_prog (calc E f) (e_comp E c) (add_log (ECompute c) (frame_open s))) as [[s1 v]| |] eqn:R;
      try discriminate.
    rewrite (run_mono (calc E f) (calc E (S f)) _ IH _ _ R). exact X.
  Qed.

  Lemma calc_mono f f' c s r : f <= f' -> calc E f c s = Ok r -> calc E f' c s = Ok r.
  Proof. induction 1; auto. intros X; apply calc_mono_S; auto. Qed.

  Lemma get_ok f id s s' v : GI s -> get E f id s = Ok (s', v) ->
    step s s' /\ frames s' = frames s /\ gkind id <> KClient /\
    (coh s -> hazard s' = false ->
       den E (vals s') id v /\ (gkind id = KComputed -> cache s' id = Some v)).
  Proof.
    intros G. unfold get. destruct (gkind id) eqn:K; [| |discriminate].
    - intros X; inversion X; subst. split; [apply step_refl; auto|split; [auto|split; [congruence|]]].
      intros _ _. split; [constructor; auto|discriminate].
    - destruct (cache s id) as [w|] eqn:C.
      + intros X; inversion X; subst. split; [apply step_refl; auto|split; [auto|split; [congruence|]]].
        intros CO _. split; auto. eapply coh_den; eauto.
      + intros X. apply (calc_mono f (f + S (rk id))) in X; [|lia].
        destruct (calc_ok (f + S (rk id)) id s) as (s2 & w & X2 & ST & F & CS); auto; [lia|].
        rewrite X in X2; inversion X2; subst.
        split; [auto|split; [auto|split; [congruence|]]].
        intros CO H. destruct ST as (G2 & _ & _ & _ & _ & Q). destruct (Q CO H) as [C2 _].
        split; auto. eapply coh_den; eauto.
  Qed.

  (** Evaluation cannot get stuck: with enough fuel it returns. *)
  Lemma get_total id s : GI s -> gkind id <> KClient ->
    exists f s' v, get E f id s = Ok (s', v).
  Proof.
    intros G K. exists (S (rk id)). unfold get.
    destruct (gkind id) eqn:KI; [eauto| |congruence].
    destruct (cache s id) eqn:C; [eauto|].
    destruct (calc_ok (S (rk id)) id s) as (s2 & w & X2 & _); auto. eauto.
  Qed.
End Inv.
