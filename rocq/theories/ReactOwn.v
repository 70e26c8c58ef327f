(** C56: a subscription owns what its callback returned.

    [resource_box] (computed_box.rs:104-117, 129-138) keeps the resource returned by the latest call of the
    callback; the model keeps the subscriptions owned by it ([s_res]).  Proved here: they are dropped when the
    callback has run again or its subscription is dropped, and not before. *)

From Coq Require Import List NArith Bool Lia Arith.
From Verif Require Import GraphModel GraphSpec GraphProofs ReactModel ReactSpec ReactBase ReactInv ReactExec
  ReactRel ReactFacts.
Import ListNotations.

(** ** Specification: in terms of the log only *)

Section OwnSpec.
  Context {V : Type}.
  Variable E : @env V.

  (** [ends_call c e]: with the event [e], what the previous call of the callback of [c] returned is not
      needed any more: the callback is called again, or the subscription is gone. *)
  Definition ends_call (c : gid) (e : @event V) : Prop :=
    match e with
    | EDeliver c' _ _ _ => c' = c
    | EDrop c' => c' = c
    | _ => False
    end.

  (** [released l r l1]: the log [l] (newest first) has an event that ends a call which returned [r]; [l1] is
      the log before that event. *)
  Definition released (l : list (@event V)) (r : gid) (l1 : list (@event V)) : Prop :=
    exists l2 e c v vs, l = l2 ++ e :: l1 /\ ends_call c e /\
      delivered c l1 = v :: vs /\ In r (s_res (e_sub E c) v).

  (** Commands that never drop [r] themselves. *)
  Inductive spares (r : gid) : @cmd V -> Prop :=
  | sp_set id v : spares r (CSet id v)
  | sp_compare id v : spares r (CSetCompare id v)
  | sp_trans body : Forall (spares r) body -> spares r (CTrans body)
  | sp_read id k : (forall v, Forall (spares r) (k v)) -> spares r (CRead id k)
  | sp_sub c : spares r (CSub c)
  | sp_drop c : c <> r -> spares r (CDrop c).
End OwnSpec.

Section Own.
  Context {V : Type}.
  Variable E : @env V.
  Variable rank : gid -> nat.
  Hypothesis WF : well_founded_env E rank.

  Notation GI := (GI E rank).
  Notation src := (src E).
  Notation open_sub := (open_sub E).
  Notation trans := (trans E rank).
  Notation released := (released E).
  Notation handed := (handed E).
  Notation remembered := (remembered E).

  (** ** Logs *)

  Definition quiet (e : @event V) : Prop :=
    match e with EDeliver _ _ _ _ | EDrop _ => False | _ => True end.

  Lemma calc_quiet l : Forall (calc_event (V := V)) l -> Forall quiet l.
  Proof. apply Forall_impl. intros []; simpl; tauto. Qed.

  Lemma quiet_delivered c l l0 : Forall quiet l -> delivered c (l ++ l0) = delivered c l0.
  Proof. induction 1 as [|e l Q _ IH]; simpl; auto. destruct e; simpl in Q; try contradiction; auto. Qed.

  Lemma released_cons e l r l1 : released (e :: l) r l1 <->
    released l r l1 \/ (l1 = l /\ exists c v vs, ends_call c e /\ delivered c l = v :: vs /\
                                   In r (s_res (e_sub E c) v)).
  Proof.
    split.
    - intros (l2 & e' & c & v & vs & Q & A & B & D). destruct l2 as [|e2 l2]; simpl in Q; inversion Q; subst.
      + right. split; auto. exists c, v, vs; auto.
      + left. exists l2, e', c, v, vs; auto.
    - intros [(l2 & e' & c & v & vs & Q & A)|(-> & c & v & vs & A & B & D)].
      + exists (e :: l2), e', c, v, vs. rewrite Q. auto.
      + exists [], e, c, v, vs. auto.
  Qed.

  Lemma released_app l l0 r l1 : released l0 r l1 -> released (l ++ l0) r l1.
  Proof. intros H. induction l; simpl; auto. apply released_cons; auto. Qed.

  Lemma released_quiet l l0 r l1 : Forall quiet l -> released (l ++ l0) r l1 -> released l0 r l1.
  Proof.
    induction 1 as [|e l Q _ IH]; simpl; auto. rewrite released_cons.
    intros [H|(_ & c & v & vs & A & _)]; auto. destruct e; simpl in *; contradiction.
  Qed.

  Lemma released_suffix l r l1 : released l r l1 -> exists l2 e, l = l2 ++ e :: l1.
  Proof. intros (l2 & e & c & v & vs & Q & _). eauto. Qed.

  (** ** What is released is dropped *)

  Definition over (s : @state V) (r : gid) : Prop := live s r = false \/ In r (dying s).

  (** [Y]: about to be dropped; [Z]: subscriptions whose callback is running. *)
  Record Inv (Y Z : gid -> Prop) (s : @state V) : Prop := {
    i_res : forall c v vs, live s c = true -> ~ Z c -> delivered c (log s) = v :: vs ->
      incl (s_res (e_sub E c) v) (res s c);
    i_rel : forall r l1, released (log s) r l1 -> delivered r l1 <> [] -> over s r \/ Y r
  }.

  Lemma inv_quiet Y Z s s' l : Inv Y Z s -> log s' = l ++ log s -> Forall quiet l ->
    live s' = live s -> res s' = res s -> (forall r, In r (dying s) -> In r (dying s')) -> Inv Y Z s'.
  Proof.
    intros [A B] L Q LV RS DY. constructor.
    - intros c v vs. rewrite LV, RS, L, quiet_delivered by auto. apply A.
    - intros r l1. rewrite L. intros H D. apply released_quiet in H; auto.
      destruct (B r l1 H D) as [[O|O]|O]; auto; left; [left; congruence|right; auto].
  Qed.

  Lemma inv_same Y Z s s' : Inv Y Z s -> log s' = log s -> live s' = live s -> res s' = res s ->
    dying s' = dying s -> Inv Y Z s'.
  Proof. intros H L LV RS DY. apply (inv_quiet Y Z s s' []); auto. rewrite DY; auto. Qed.

  Lemma inv_weaken (Y Y' Z : gid -> Prop) s : Inv Y Z s -> (forall r, Y r -> Y' r \/ over s r) -> Inv Y' Z s.
  Proof.
    intros [A B] H. constructor; auto. intros r l1 R D. destruct (B r l1 R D) as [O|O]; auto.
    destruct (H r O); auto.
  Qed.

  Record keeps (s s' : @state V) : Prop := {
    k_res : forall c, In c (running s) -> res s' c = res s c;
    k_dying : forall c, In c (dying s) -> In c (dying s')
  }.

  Lemma keeps_refl s : keeps s s.
  Proof. constructor; auto. Qed.

  Lemma keeps_trans a b c : keeps a b -> keeps b c -> running b = running a -> keeps a c.
  Proof. intros [A1 A2] [B1 B2] R. constructor; auto. intros d H. rewrite B1, A1; auto. congruence. Qed.

  Lemma keeps_same s s' : res s' = res s -> dying s' = dying s -> keeps s s'.
  Proof. intros R D. constructor; [rewrite R|rewrite D]; auto. Qed.

  Lemma push_dying c ctx s s6 : push_context E c ctx s = Ok s6 -> dying s6 = dying s.
  Proof.
    unfold push_context, set_parents.
    destruct (set_parent_for_client _ _ _) as [[g info]|]; [|discriminate]. intros X; inversion X; subst s6; clear X.
    change (dying s) with (dying (set_graph g s)). generalize (set_graph g s) as a.
    induction info as [|[id act] info IH]; intros a; simpl; auto.
    rewrite IH. unfold apply_active, set_connection, clear_client, note_hazard, clear_computed.
    destruct (gkind id); repeat (match goal with |- context [if ?b then _ else _] => destruct b end); auto.
  Qed.

  Definition finished (t : @task V) (s s' : @state V) : Prop :=
    match t with
    | TDrop cs => (forall r, live s' r = true -> live s r = true) /\ forall r, In r cs -> over s' r
    | _ => True
    end.

  Lemma over_keep s s' r : keeps s s' -> (live s' r = true -> live s r = true) -> over s r -> over s' r.
  Proof.
    intros K L [O|O]; [left|right; apply (k_dying _ _ K); auto].
    destruct (live s' r) eqn:Q; auto. rewrite L in O; auto.
  Qed.

  Lemma delivered_suffix c l2 (e : @event V) l1 : delivered c (l2 ++ e :: l1) = [] -> delivered c l1 = [].
  Proof.
    intros H. change (e :: l1) with ([e] ++ l1) in H. rewrite !delivered_app in H.
    apply app_eq_nil in H as [_ H]. apply app_eq_nil in H as [_ H]. exact H.
  Qed.

  Lemma own_aux f : forall t s s' (Y Z : gid -> Prop), GI s -> pre t s ->
    (forall c, Z c -> In c (running s)) -> Inv Y Z s -> exec E f t s = Ok s' ->
    Inv Y Z s' /\ keeps s s' /\ finished t s s'.
  Proof.
    induction f as [|f IH]; intros t s s' Y Z G PR ZR H X; [discriminate|].
    assert (IHC : forall cs s s' (Y Z : gid -> Prop), GI s -> (forall c, Z c -> In c (running s)) -> Inv Y Z s ->
              exec E f (TCmds cs) s = Ok s' -> Inv Y Z s' /\ keeps s s')
      by (intros cs a b Ya Za Ga Ra Ha Xa; destruct (IH (TCmds cs) a b Ya Za Ga Logic.I Ra Ha Xa) as (A & B & _); auto).
    assert (IHD : forall cs s s' (Y Z : gid -> Prop), GI s -> (forall c, Z c -> In c (running s)) -> Inv Y Z s ->
              exec E f (TDrop cs) s = Ok s' -> Inv Y Z s' /\ keeps s s' /\ finished (TDrop cs) s s')
      by (intros cs a b Ya Za Ga Ra Ha Xa; apply (IH (TDrop cs) a b Ya Za Ga Logic.I Ra Ha Xa)).
    pose proof (exec_struct E rank WF f) as ES.
    destruct t as [cs|c|cs|cs|].
    - cut (Inv Y Z s' /\ keeps s s'); [simpl; tauto|].
      destruct cs as [|cm rest]; cbn [exec] in X; [inversion X; subst; split; auto using keeps_refl|].
      assert (TXN : forall s1 s2 s3, up s = Ok s1 ->
                trans none (tx s1 <> Idle) False [] s1 s2 -> same_tx s1 s2 ->
                (Inv Y Z s1 -> Inv Y Z s2 /\ keeps s1 s2) ->
                exec E f TEnd s2 = Ok s3 -> exec E f (TCmds rest) s3 = Ok s' -> Inv Y Z s' /\ keeps s s').
      { intros s1 s2 s3 U T12 S12 P12 X3 XR.
        destruct (up_ok E rank none True False s s1 G U) as (T01 & NR & _ & l & cs1 & T1 & M).
        assert (PE : pre TEnd s2).
        { unfold same_tx in S12; rewrite T1 in S12. destruct S12 as (cs2 & S12 & _). simpl; eauto. }
        pose proof (t_gi _ _ _ _ _ _ _ _ T12) as G2.
        pose proof (ES TEnd s2 s3 G2 PE X3) as PO.
        destruct (txn_post E rank s s1 s2 s3 G U T12 S12 PO) as [T03 S03].
        destruct (up_facts E rank s s1 G U) as [EQ _].
        assert (H1 : Inv Y Z s1) by (apply (inv_same Y Z s); auto; rewrite EQ; auto).
        assert (K1 : keeps s s1) by (apply keeps_same; rewrite EQ; auto).
        destruct (P12 H1) as [H2 K2].
        assert (R1 : running s1 = running s) by apply (t_running _ _ _ _ _ _ _ _ T01).
        assert (R2 : running s2 = running s) by (rewrite (t_running _ _ _ _ _ _ _ _ T12); auto).
        assert (R3 : running s3 = running s) by apply (t_running _ _ _ _ _ _ _ _ T03).
        destruct (IH TEnd s2 s3 Y Z G2 PE) as (H3 & K3 & _); auto; [rewrite R2; auto|].
        destruct (IHC rest s3 s' Y Z) as (H4 & K4); auto; [apply T03|rewrite R3; auto|].
        split; auto. eapply keeps_trans; [|exact K4|exact R3].
        eapply keeps_trans; [|exact K3|exact R2]. eapply keeps_trans; [exact K1|exact K2|exact R1]. }
      assert (REP : forall s1 l cs1 id v s2, GI s1 -> tx s1 = Modification l cs1 ->
                report_set id (set_vals (upd (vals s1) id v) s1) = Ok s2 ->
                Inv Y Z s1 -> Inv Y Z s2 /\ keeps s1 s2).
      { intros s1 l cs1 id v s2 G1 T1 R H1.
        destruct (report_facts E rank s1 s2 l cs1 id v G1 T1 R) as (t & c1 & h & ->).
        split; [apply (inv_same Y Z s1); auto|apply keeps_same; auto]. }
      destruct cm as [id v|id v|body|id k|c|c].
      + destruct (negb (is_value id)); [discriminate|].
        destruct (up s) as [s1| |] eqn:U; try discriminate. cbn [obind] in X.
        destruct (report_set id _) as [s2| |] eqn:R; try discriminate. cbn [obind] in X.
        destruct (exec E f TEnd s2) as [s3| |] eqn:X3; try discriminate. cbn [obind] in X.
        destruct (up_ok E rank none True False s s1 G U) as (T01 & NR & _ & l & cs1 & T1 & M).
        assert (NR1 : tx s1 <> Refreshing) by (rewrite T1; congruence).
        pose proof (t_gi _ _ _ _ _ _ _ _ T01) as G1.
        pose proof (set_vals_trans E rank none (tx s1 <> Idle) False (upd (vals s1) id v) s1 G1 NR1) as TV.
        assert (TR : trans none (tx s1 <> Idle) False [] (set_vals (upd (vals s1) id v) s1) s2)
          by (eapply report_trans; eauto; apply TV).
        assert (ST : same_tx s1 s2).
        { destruct (report_set_ok E rank _ _ _ _ _ (t_gi _ _ _ _ _ _ _ _ TV) T1 R) as (d & cs' & _ & C & _ & T' & _).
          unfold same_tx. rewrite T1, T'. exists cs'; split; auto. intros n Hn; apply C; auto. }
        eapply TXN; [reflexivity| |exact ST| |exact X3|exact X].
        * change (@nil gid) with (@nil gid ++ []). eapply trans_seq; eauto. apply same_tx_refl; auto.
        * eapply REP; eauto.
      + destruct (negb (is_value id)); [discriminate|].
        destruct (up s) as [s1| |] eqn:U; try discriminate. cbn [obind] in X.
        destruct (if e_eqb E (vals s1 id) v then _ else _) as [s2| |] eqn:R; try discriminate. cbn [obind] in X.
        destruct (exec E f TEnd s2) as [s3| |] eqn:X3; try discriminate. cbn [obind] in X.
        destruct (up_ok E rank none True False s s1 G U) as (T01 & NR & _ & l & cs1 & T1 & M).
        assert (NR1 : tx s1 <> Refreshing) by (rewrite T1; congruence).
        pose proof (t_gi _ _ _ _ _ _ _ _ T01) as G1.
        pose proof (set_vals_trans E rank none (tx s1 <> Idle) False (upd (vals s1) id v) s1 G1 NR1) as TV.
        destruct (e_eqb E (vals s1 id) v) eqn:EQ.
        * inversion R; subst s2.
          eapply TXN; [reflexivity|exact TV|apply same_tx_refl; auto| |exact X3|exact X].
          intros H1. split; [apply (inv_same Y Z s1); auto|apply keeps_same; auto].
        * assert (TR : trans none (tx s1 <> Idle) False [] (set_vals (upd (vals s1) id v) s1) s2)
            by (eapply report_trans; eauto; apply TV).
          assert (ST : same_tx s1 s2).
          { destruct (report_set_ok E rank _ _ _ _ _ (t_gi _ _ _ _ _ _ _ _ TV) T1 R) as (d & cs' & _ & C & _ & T' & _).
            unfold same_tx. rewrite T1, T'. exists cs'; split; auto. intros n Hn; apply C; auto. }
          eapply TXN; [reflexivity| |exact ST| |exact X3|exact X].
          -- change (@nil gid) with (@nil gid ++ []). eapply trans_seq; eauto. apply same_tx_refl; auto.
          -- eapply REP; eauto.
      + destruct (up s) as [s1| |] eqn:U; try discriminate. cbn [obind] in X.
        destruct (exec E f (TCmds body) s1) as [s2| |] eqn:X2; try discriminate. cbn [obind] in X.
        destruct (exec E f TEnd s2) as [s3| |] eqn:X3; try discriminate. cbn [obind] in X.
        destruct (up_ok E rank none True False s s1 G U) as (T01 & NR & _ & l & cs1 & T1 & M).
        pose proof (t_gi _ _ _ _ _ _ _ _ T01) as G1.
        destruct (struct_cmds E rank WF f body s1 s2 G1 X2) as [T12 S12].
        eapply TXN; [reflexivity|exact T12|exact S12| |exact X3|exact X].
        intros H1. eapply IHC; eauto. intros c0 Hc. rewrite (t_running _ _ _ _ _ _ _ _ T01); auto.
      + destruct (get E f id s) as [[s1 v]| |] eqn:GX; try discriminate. cbn [obind] in X.
        destruct (get_ok E rank WF f id s s1 v G GX) as (ST & FR & KI & _).
        destruct (get_facts E rank WF f id s s1 v G GX) as
          ((lc & L & FL) & (_ & _ & RS & LV & _ & RN & DY & _ & _) & _ & G1 & _).
        destruct (IHC (k v ++ rest) (add_log (ERead id v (vals s1)) s1) s' Y Z) as (H2 & K2); auto.
        * apply GIx_log; [auto|congruence|auto].
        * simpl. rewrite RN. auto.
        * apply (inv_quiet Y Z s _ (ERead id v (vals s1) :: lc)); simpl; auto; try congruence.
          -- constructor; [exact Logic.I|apply calc_quiet; auto].
        * split; auto. eapply keeps_trans; [|exact K2|]; [apply keeps_same; auto|simpl; auto].
      + destruct (N.leb_spec (next s) (gnum c)) as [L|]; [|discriminate]. simpl andb in X.
        destruct (gkind c) eqn:KC; try discriminate.
        destruct (new_sub_trans E rank none (tx s <> Idle) False c s G L KC) as [T02 P2].
        set (s2 := set_live (upd (live (set_next (gnum c + 1)%N s)) c true) (set_next (gnum c + 1)%N s)) in *.
        change (set_live (upd (live s) c true) (set_next (gnum c + 1)%N s)) with s2 in T02, P2.
        destruct (exec E f (TSub c) s2) as [s3| |] eqn:X3; try discriminate. cbn [obind] in X.
        pose proof (t_gi _ _ _ _ _ _ _ _ T02) as G2.
        destruct (ES (TSub c) _ _ G2 P2 X3) as [T23 S23].
        destruct (gi_fresh _ _ _ _ G c L) as (_ & _ & _ & _ & _ & _ & DF).
        assert (H2 : Inv Y Z s2).
        { destruct H as [A B]. constructor.
          - intros d v vs LVd NZ D. simpl in *. unfold upd in LVd.
            destruct (gid_eqb_spec d c) as [->|]; [congruence|]. eapply A; eauto.
          - intros r l1 RL D. destruct (B r l1 RL D) as [[O|O]|O]; auto; left; [left|right; auto].
            simpl. rewrite upd_other; auto. intros ->. apply D.
            destruct (released_suffix _ _ _ RL) as (l2 & e & Q). simpl in Q. rewrite Q in DF.
            eapply delivered_suffix; eauto. }
        destruct (IH (TSub c) s2 s3 Y Z G2 P2) as (H3 & K3 & _); auto.
        assert (R3 : running s3 = running s) by (rewrite (t_running _ _ _ _ _ _ _ _ T23); auto).
        destruct (IHC rest s3 s' Y Z) as (H4 & K4); auto; [apply T23|rewrite R3; auto|].
        split; auto. eapply keeps_trans; [|exact K4|exact R3].
        destruct K3 as [KA KB]. constructor; auto.
      + destruct (exec E f (TDrop [c]) s) as [s1| |] eqn:X1; try discriminate. cbn [obind] in X.
        destruct (struct_drop E rank WF f [c] s s1 G X1) as [T S].
        pose proof (t_running _ _ _ _ _ _ _ _ T) as R1.
        destruct (IHD [c] s s1 Y Z G ZR H X1) as (H1 & K1 & _).
        destruct (IHC rest s1 s' Y Z) as (H2 & K2); auto; [apply T|rewrite R1; auto|].
        split; auto. eapply keeps_trans; eauto.
    - cut (Inv Y Z s' /\ keeps s s'); [simpl; tauto|].
      pose proof (exec_sub_inv E f c s s' X) as (s2 & v & s4 & s6 & GX & HB & PC & FIN).
      destruct (sub_get E rank WF f c s s2 v G PR GX) as (ST & F2 & T12 & TX2 & L2 & R2 & LV2 & G2 & G1).
      destruct (sub_body E rank WF f c s s2 v s4 G PR GX HB) as [T14 S14].
      pose proof (t_gi _ _ _ _ _ _ _ _ T14) as G4.
      pose proof PR as (P1 & P2 & P3 & P4 & P5).
      assert (NZ : ~ Z c) by (intros Q; apply P4; auto).
      destruct (get_facts E rank WF f (src c) _ s2 v G1 GX) as
        ((lc & L & FL) & (_ & _ & RS & LV & _ & RN & DY & _ & _) & _).
      simpl in L, RS, LV, RN, DY.
      assert (H2 : Inv Y Z s2).
      { apply (inv_quiet Y Z s s2 lc); auto; [apply calc_quiet; auto|rewrite DY; auto]. }
      assert (RM : log (remembered c v s2) = log s2 /\ live (remembered c v s2) = live s2 /\
                   res (remembered c v s2) = res s2 /\ dying (remembered c v s2) = dying s2 /\
                   running (remembered c v s2) = running s2).
      { unfold ReactRel.remembered. destruct (s_dedup (e_sub E c)); auto. }
      destruct RM as (M1 & M2 & M3 & M4 & M5).
      assert (H4 : Inv Y Z s4 /\ (forall d, In d (running s) -> res s4 d = res s d) /\
                   (forall d, In d (dying s) -> In d (dying s4))).
      { destruct HB as [(SU & sb & X5 & X4)|(SU & ->)].
        2:{ split; [apply (inv_same Y Z s2); auto|]. rewrite M3, M4, RS, DY. auto. }
        destruct (sub_handed E rank c v (tx s2 <> Idle) s2 G2 L2 LV2 SU) as [TD TX].
        destruct (sub_tail E rank WF f c v s2 sb s4 G2 L2 LV2 SU X5 X4) as (TC & SC & TR & TDr & SD).
        set (sh := handed c v s2) in *.
        assert (N1 : exists b w, log sh = EDeliver c v w b :: log s2).
        { unfold sh, ReactRel.handed. simpl. rewrite M1. eauto. }
        destruct N1 as (b & w & N1).
        assert (N2 : live sh = live s2) by (unfold sh, ReactRel.handed; simpl; auto).
        assert (N3 : res sh = res s2) by (unfold sh, ReactRel.handed; simpl; auto).
        assert (N4 : dying sh = dying s2) by (unfold sh, ReactRel.handed; simpl; auto).
        assert (N5 : running sh = running s2) by (unfold sh, ReactRel.handed; simpl; auto).
        set (Y' := fun r => Y r \/ In r (res s2 c)).
        set (Z' := fun d => Z d \/ d = c).
        assert (HH : Inv Y' Z' sh).
        { destruct H2 as [A B]. constructor.
          - intros d x xs. rewrite N1, N2, N3. simpl. intros LVd NZd D.
            destruct (gid_eqb_spec d c) as [->|N]; [exfalso; apply NZd; right; auto|].
            eapply A; eauto. intros Q; apply NZd; left; auto.
          - intros r l1. rewrite N1, released_cons. unfold over. rewrite N2, N4.
            intros [RL|(-> & d & x & xs & EC & D & IR)] DD.
            + destruct (B r l1 RL DD) as [O|O]; [left; exact O|right; left; auto].
            + simpl in EC. subst d. right; right. eapply (A c x xs); eauto. }
        assert (RH : forall d, Z' d -> In d (running sh)).
        { intros d [Q|Q]; rewrite N5, RN; simpl; [right; auto|left; auto]. }
        destruct (IHC _ sh sb Y' Z' (t_gi _ _ _ _ _ _ _ _ TD) RH HH X5) as [Hb Kb].
        set (sr := set_res (upd (res sb) c (s_res (e_sub E c) v)) sb) in *.
        assert (RSB : res sb c = res s2 c).
        { rewrite (k_res _ _ Kb), N3; auto. rewrite N5, RN; simpl; auto. }
        assert (RNB : running sb = running s2) by (rewrite (t_running _ _ _ _ _ _ _ _ TC); auto).
        assert (Hr : Inv Y' Z sr).
        { destruct Hb as [A B]. constructor; [|exact B].
          intros d x xs LVd NZd D. simpl in LVd, D |- *. unfold upd. destruct (gid_eqb_spec d c) as [->|N].
          - destruct (t_log _ _ _ _ _ _ _ _ TC) as (l & LL & LQ & _).
            rewrite LL, N1, delivered_app, LQ in D.
            + simpl in D. rewrite gid_eqb_refl in D. inversion D; subst. apply incl_refl.
            + rewrite N5, RN; simpl; auto.
            + intros [].
          - eapply A; eauto. intros [Q|Q]; auto. }
        destruct (IHD (res sb c) sr s4 Y' Z (t_gi _ _ _ _ _ _ _ _ TR)) with (3 := X4) as (H4 & K4 & _ & O4); auto.
        { intros d Q. simpl. rewrite RNB, RN. right; auto. }
        split; [|split].
        - apply (inv_weaken Y' Y Z s4 H4). intros r [Q|Q]; auto. right. apply O4. rewrite RSB. auto.
        - intros d Q. assert (N : d <> c) by (intros ->; auto).
          rewrite (k_res _ _ K4).
          + simpl. rewrite upd_other by auto. rewrite (k_res _ _ Kb), N3, RS; auto.
            rewrite N5, RN; simpl; auto.
          + simpl. rewrite RNB, RN. simpl; auto.
        - intros d Q. apply (k_dying _ _ K4). simpl. apply (k_dying _ _ Kb). rewrite N4, DY. auto. }
      destruct H4 as (H4 & KR4 & KD4).
      destruct (sub_closed E rank WF s c s4 s6 G PR T14 S14 PC) as
        ((lc9 & L9 & FL9) & LV9 & NX9 & _ & _ & RS9 & _ & RN9 & _).
      destruct (close_ok E rank WF c (tx s <> Idle) s s4 (snd (frame_close s4)) (fst (frame_close s4)) s6 G PR T14 S14)
        as (T09 & S09 & _); auto.
      { destruct (frame_close s4); auto. }
      set (s9 := set_dying (remove gid_dec c (dying (closed c s6))) (closed c s6)) in *.
      assert (D9 : forall r, In r (dying s9) <-> In r (dying s4) /\ r <> c).
      { intros r. simpl. rewrite (push_dying _ _ _ _ PC).
        assert (Q : dying (snd (frame_close s4)) = dying s4) by (unfold frame_close; destruct (frames s4); auto).
        rewrite Q. split; [intros I; apply in_remove in I; auto|intros [? ?]; apply in_in_remove; auto]. }
      assert (K9 : keeps s s9).
      { constructor.
        - intros d Q. rewrite RS9. auto.
        - intros d Q. apply D9. split; auto. intros ->. apply P4. apply (gi_dying _ _ _ _ G); auto. }
      assert (H9 : Inv (fun r => Y r \/ (r = c /\ In c (dying s4))) Z s9).
      { destruct H4 as [A B]. constructor.
        - intros d x xs. rewrite LV9, RS9, L9, quiet_delivered by (apply calc_quiet; auto). apply A.
        - intros r l1. rewrite L9. intros RL DD. apply released_quiet in RL; [|apply calc_quiet; auto].
          destruct (B r l1 RL DD) as [[O|O]|O]; auto.
          + left; left. congruence.
          + destruct (gid_dec r c) as [->|N]; [right; right; auto|left; right; apply D9; auto]. }
      destruct FIN as [(DC & X9)|(DC & ->)].
      + destruct (IHD [c] s9 s' (fun r => Y r \/ (r = c /\ In c (dying s4))) Z (t_gi _ _ _ _ _ _ _ _ T09)) with (3 := X9) as (H10 & K10 & _ & O10).
        { rewrite RN9; auto. } { exact H9. }
        split; [|eapply keeps_trans; eauto].
        apply (inv_weaken _ Y Z s' H10). intros r [Q|(-> & _)]; auto. right. apply O10. simpl; auto.
      + split; auto. apply (inv_weaken _ Y Z s9 H9). intros r [Q|(-> & Q)]; auto.
        exfalso. apply DC. simpl. rewrite (push_dying _ _ _ _ PC).
        unfold frame_close; destruct (frames s4); auto.
    - cut (Inv Y Z s' /\ keeps s s'); [simpl; tauto|].
      destruct PR as [TX RN]. destruct cs as [|c rest]; cbn [exec] in X; [inversion X; subst; split; auto using keeps_refl|].
      destruct (if live s c && active s c then _ else _) as [s1| |] eqn:X1; try discriminate. cbn [obind] in X.
      destruct (live s c && active s c) eqn:LA.
      + apply andb_prop in LA as [LV AC].
        assert (PS : pre (TSub c) s).
        { simpl. split; [apply (gi_livek _ _ _ _ G); auto|]. split; [auto|]. split; [|split].
          - destruct (N.ltb_spec (gnum c) (next s)); auto.
            destruct (gi_fresh _ _ _ _ G c); [lia|congruence].
          - intros Q. rewrite RN in AC; auto. discriminate.
          - congruence. }
        destruct (ES (TSub c) s s1 G PS X1) as [T S].
        pose proof (t_running _ _ _ _ _ _ _ _ T) as R1.
        destruct (IH (TSub c) s s1 Y Z G PS ZR H X1) as (H1 & K1 & _).
        destruct (IH (TRefresh rest) s1 s' Y Z) as (H2 & K2 & _); auto.
        * apply T.
        * split; [eapply same_tx_refreshing; eauto|].
          intros d Q. rewrite R1 in Q. destruct (t_keep _ _ _ _ _ _ _ _ T d Q) as [-> _]; auto.
        * rewrite R1; auto.
        * split; auto. eapply keeps_trans; eauto.
      + inversion X1; subst s1. destruct (IH (TRefresh rest) s s' Y Z) as (H2 & K2 & _); auto. split; auto.
    - destruct cs as [|c rest]; cbn [exec] in X.
      { inversion X; subst. split; auto. split; [apply keeps_refl|]. split; auto. intros r []. }
      destruct (if negb (live s c) then _ else _) as [s1| |] eqn:X1; try discriminate. cbn [obind] in X.
      assert (STEP : GI s1 /\ running s1 = running s /\ Inv Y Z s1 /\ keeps s s1 /\
                     (forall r, live s1 r = true -> live s r = true) /\ over s1 c).
      { destruct (live s c) eqn:LV; simpl in X1.
        2:{ inversion X1; subst. do 3 (split; [auto|]). split; [apply keeps_refl|]. split; auto. left; auto. }
        destruct (set_mem_spec c (running s)) as [RN|RN].
        - inversion X1; subst.
          pose proof (set_dying_trans E rank none True False c s G RN) as T.
          split; [apply T|]. split; [auto|]. split; [|split; [|split; [auto|right; simpl; auto]]].
          + apply (inv_quiet Y Z s _ []); simpl; auto.
          + constructor; simpl; auto.
        - destruct (set_parents E c [] _) as [s2| |] eqn:SP; try discriminate. cbn [obind] in X1.
          destruct (drop_trans E rank none (tx s <> Idle) False c s s2 G LV RN SP) as [T02 TX].
          pose proof (t_gi _ _ _ _ _ _ _ _ T02) as G2.
          destruct (struct_drop E rank WF f _ s2 s1 G2 X1) as [T S].
          destruct (drop_facts E rank s c s2 G LV RN SP) as
            ((lc & L & FL) & LV2 & _ & _ & _ & RS & RN2 & _ & DY & _).
          set (Y' := fun r => Y r \/ In r (res s2 c)).
          assert (H2 : Inv Y' Z s2).
          { destruct H as [A B]. constructor.
            - intros d x xs. rewrite LV2, RS, L, quiet_delivered by (apply calc_quiet; auto). simpl.
              unfold upd. intros LVd. destruct (gid_eqb d c) eqn:Q; [discriminate|]. apply A; auto.
            - intros r l1. rewrite L. intros RL DD. apply released_quiet in RL; [|apply calc_quiet; auto].
              apply released_cons in RL. unfold over. rewrite DY.
              destruct RL as [RL|(-> & d & x & xs & EC & D & IR)].
              + destruct (B r l1 RL DD) as [[O|O]|O]; auto.
                * left; left. rewrite LV2. unfold upd. destruct (gid_eqb r c); auto.
                * right; left; auto.
              + simpl in EC. subst d. right; right. rewrite RS. eapply (A c x xs); eauto. }
          assert (K2 : keeps s s2) by (apply keeps_same; auto).
          destruct (IHD (res s2 c) s2 s1 Y' Z G2) with (3 := X1) as (H1 & K1 & LL & O1); auto.
          { rewrite RN2; auto. }
          split; [apply T|]. split; [rewrite (t_running _ _ _ _ _ _ _ _ T); auto|].
          split; [|split; [|split]].
          + apply (inv_weaken Y' Y Z s1 H1). intros r [Q|Q]; auto.
          + eapply keeps_trans; eauto.
          + intros r Q. apply LL in Q. rewrite LV2 in Q. unfold upd in Q. destruct (gid_eqb r c); [discriminate|auto].
          + left. destruct (live s1 c) eqn:Q; auto. apply LL in Q. rewrite LV2, upd_same in Q. auto. }
      destruct STEP as (G1 & R1 & H1 & K1 & LL1 & O1).
      destruct (IHD rest s1 s' Y Z G1) with (3 := X) as (H2 & K2 & LL2 & O2); auto.
      { rewrite R1; auto. }
      split; auto. split; [eapply keeps_trans; eauto|]. split; [auto|].
      intros r [<-|Q]; auto. eapply over_keep; eauto.
    - cut (Inv Y Z s' /\ keeps s s'); [simpl; tauto|].
      destruct PR as (l & cs & TX). cbn [exec] in X.
      destruct (down s) as [s1 r] eqn:D.
      destruct (down_ok E rank s s1 r l cs G TX D) as [(-> & -> & ->)|(L & -> & ->)].
      + destruct (exec E f (TRefresh cs) (set_tx Refreshing s)) as [s2| |] eqn:X2; try discriminate.
        cbn [obind] in X.
        assert (G1 : GI (set_tx Refreshing s)) by (apply GIx_tx; [exact Logic.I|congruence|auto]).
        assert (PR : pre (TRefresh cs) (set_tx Refreshing s)).
        { split; auto. apply (gi_run _ _ _ _ G). congruence. }
        destruct (ES (TRefresh cs) _ _ G1 PR X2) as [T S].
        unfold move_to_idle in X. rewrite S in X. inversion X; subst s'. clear X.
        destruct (IH (TRefresh cs) (set_tx Refreshing s) s2 Y Z G1 PR) with (3 := X2) as (H2 & K2 & _); auto.
        { apply (inv_same Y Z s); auto. }
        split; [|destruct K2 as [KA KB]; constructor; auto].
        apply (inv_quiet Y Z s2 _ [EHook]); simpl; auto. repeat constructor.
      + inversion X; subst s'. split; [apply (inv_same Y Z s); auto|apply keeps_same; auto].
  Qed.

  Lemma run_own vs h s : run E vs h s ->
    forall r l1, released (log s) r l1 -> delivered r l1 <> [] -> live s r = false.
  Proof.
    intros R r l1 RL D. pose proof (run_gi E rank WF vs h s R) as (G & _ & RN & _).
    destruct R as [f X].
    assert (I0 : Inv (fun _ => False) (fun _ => False) (init vs)).
    { constructor; simpl; [intros; discriminate|]. intros r' l' (l2 & e & c & v & ws & Q & _).
      destruct l2; discriminate. }
    destruct (own_aux f (TCmds h) (init vs) s (fun _ => False) (fun _ => False) (init_gi E rank vs) Logic.I) with (3 := X) as (H & _); [|exact I0|].
    { intros c []. }
    destruct (i_rel _ _ _ H r l1 RL D) as [[O|O]|[]]; auto.
    apply (gi_dying _ _ _ _ G) in O. rewrite RN in O. destruct O.
  Qed.

  (** ** What is not released is kept *)

  Variable r : gid.
  Hypothesis SP : forall c v, Forall (spares r) (s_call (e_sub E c) v).

  Definition rel (l : list (@event V)) : Prop := exists l1, released l r l1.

  Lemma rel_app l l0 : rel l0 -> rel (l ++ l0).
  Proof. intros (l1 & H). exists l1. apply released_app; auto. Qed.

  (** [Z]: subscriptions whose callback is running. *)
  Record Keep (Z : gid -> Prop) (s : @state V) : Prop := {
    j_res : forall c, In r (res s c) -> rel (log s) \/
      ~ Z c /\ exists v vs, delivered c (log s) = v :: vs /\ In r (s_res (e_sub E c) v);
    j_dying : In r (dying s) -> rel (log s);
    j_log : forall l2 l1, log s = l2 ++ EDrop r :: l1 -> rel l1
  }.

  Definition grants (t : @task V) (s : @state V) : Prop :=
    match t with
    | TCmds cs => Forall (spares r) cs
    | TDrop cs => In r cs -> rel (log s)
    | _ => True
    end.

  Lemma keep_quiet Z s s' l : Keep Z s -> log s' = l ++ log s -> Forall quiet l -> res s' = res s ->
    (forall d, In d (dying s') -> In d (dying s)) -> Keep Z s'.
  Proof.
    intros [A B C] L Q RS DY. constructor; rewrite ?RS, ?L.
    - intros c H. rewrite quiet_delivered by auto. destruct (A c H) as [O|O]; auto using rel_app.
    - intros H. apply rel_app; auto.
    - intros l2 l1. clear L. revert l2. induction Q as [|e l Qe Q IH]; intros l2 EQ; simpl in EQ; [eauto|].
      destruct l2 as [|e2 l2]; simpl in EQ; inversion EQ; subst; [contradiction|eauto].
  Qed.

  Lemma keep_same Z s s' : Keep Z s -> log s' = log s -> res s' = res s -> dying s' = dying s -> Keep Z s'.
  Proof. intros H L RS DY. apply (keep_quiet Z s s' []); auto. rewrite DY; auto. Qed.

  Lemma logs me st hk sch s s' : trans me st hk sch s s' -> exists l, log s' = l ++ log s.
  Proof. intros T. destruct (t_log _ _ _ _ _ _ _ _ T) as (l & L & _). eauto. Qed.

  Lemma keep_aux f : forall t s s' (Z : gid -> Prop), GI s -> pre t s -> grants t s ->
    (forall c, Z c -> In c (running s)) -> Keep Z s -> exec E f t s = Ok s' -> Keep Z s'.
  Proof.
    induction f as [|f IH]; intros t s s' Z G PR GR ZR H X; [discriminate|].
    assert (IHC : forall cs s s' (Z : gid -> Prop), GI s -> Forall (spares r) cs ->
              (forall c, Z c -> In c (running s)) -> Keep Z s ->
              exec E f (TCmds cs) s = Ok s' -> Keep Z s')
      by (intros cs a b Za Ga Ra Ka Ha Xa; apply (IH (TCmds cs) a b Za Ga Logic.I Ra Ka Ha Xa)).
    assert (IHD : forall cs s s' (Z : gid -> Prop), GI s -> (In r cs -> rel (log s)) ->
              (forall c, Z c -> In c (running s)) -> Keep Z s ->
              exec E f (TDrop cs) s = Ok s' -> Keep Z s')
      by (intros cs a b Za Ga Ra Ka Ha Xa; apply (IH (TDrop cs) a b Za Ga Logic.I Ra Ka Ha Xa)).
    pose proof (exec_struct E rank WF f) as ES.
    destruct t as [cs|c|cs|cs|].
    - destruct cs as [|cm rest]; cbn [exec] in X; [inversion X; subst; auto|].
      simpl in GR. apply Forall_cons_iff in GR as [GC GR].
      assert (TXN : forall s1 s2 s3, up s = Ok s1 ->
                trans none (tx s1 <> Idle) False [] s1 s2 -> same_tx s1 s2 ->
                (Keep Z s1 -> Keep Z s2) ->
                exec E f TEnd s2 = Ok s3 -> exec E f (TCmds rest) s3 = Ok s' -> Keep Z s').
      { intros s1 s2 s3 U T12 S12 P12 X3 XR.
        destruct (up_ok E rank none True False s s1 G U) as (T01 & NR & _ & l & cs1 & T1 & M).
        assert (PE : pre TEnd s2).
        { unfold same_tx in S12; rewrite T1 in S12. destruct S12 as (cs2 & S12 & _). simpl; eauto. }
        pose proof (t_gi _ _ _ _ _ _ _ _ T12) as G2.
        pose proof (ES TEnd s2 s3 G2 PE X3) as PO.
        destruct (txn_post E rank s s1 s2 s3 G U T12 S12 PO) as [T03 S03].
        destruct (up_facts E rank s s1 G U) as [EQ _].
        assert (H1 : Keep Z s1) by (apply (keep_same Z s); auto; rewrite EQ; auto).
        assert (R1 : running s1 = running s) by apply (t_running _ _ _ _ _ _ _ _ T01).
        assert (R2 : running s2 = running s) by (rewrite (t_running _ _ _ _ _ _ _ _ T12); auto).
        assert (R3 : running s3 = running s) by apply (t_running _ _ _ _ _ _ _ _ T03).
        apply (IHC rest s3 s'); auto; [apply T03|rewrite R3; auto|].
        apply (IH TEnd s2 s3); auto; try exact Logic.I; rewrite R2; auto. }
      assert (REP : forall s1 l cs1 id v s2, GI s1 -> tx s1 = Modification l cs1 ->
                report_set id (set_vals (upd (vals s1) id v) s1) = Ok s2 -> Keep Z s1 -> Keep Z s2).
      { intros s1 l cs1 id v s2 G1 T1 R H1.
        destruct (report_facts E rank s1 s2 l cs1 id v G1 T1 R) as (t & c1 & h & ->).
        apply (keep_same Z s1); auto. }
      destruct cm as [id v|id v|body|id k|c|c].
      + destruct (negb (is_value id)); [discriminate|].
        destruct (up s) as [s1| |] eqn:U; try discriminate. cbn [obind] in X.
        destruct (report_set id _) as [s2| |] eqn:R; try discriminate. cbn [obind] in X.
        destruct (exec E f TEnd s2) as [s3| |] eqn:X3; try discriminate. cbn [obind] in X.
        destruct (up_ok E rank none True False s s1 G U) as (T01 & NR & _ & l & cs1 & T1 & M).
        assert (NR1 : tx s1 <> Refreshing) by (rewrite T1; congruence).
        pose proof (t_gi _ _ _ _ _ _ _ _ T01) as G1.
        pose proof (set_vals_trans E rank none (tx s1 <> Idle) False (upd (vals s1) id v) s1 G1 NR1) as TV.
        assert (TR : trans none (tx s1 <> Idle) False [] (set_vals (upd (vals s1) id v) s1) s2)
          by (eapply report_trans; eauto; apply TV).
        assert (ST : same_tx s1 s2).
        { destruct (report_set_ok E rank _ _ _ _ _ (t_gi _ _ _ _ _ _ _ _ TV) T1 R) as (d & cs' & _ & C & _ & T' & _).
          unfold same_tx. rewrite T1, T'. exists cs'; split; auto. intros n Hn; apply C; auto. }
        eapply TXN; [reflexivity| |exact ST| |exact X3|exact X].
        * change (@nil gid) with (@nil gid ++ []). eapply trans_seq; eauto. apply same_tx_refl; auto.
        * eapply REP; eauto.
      + destruct (negb (is_value id)); [discriminate|].
        destruct (up s) as [s1| |] eqn:U; try discriminate. cbn [obind] in X.
        destruct (if e_eqb E (vals s1 id) v then _ else _) as [s2| |] eqn:R; try discriminate. cbn [obind] in X.
        destruct (exec E f TEnd s2) as [s3| |] eqn:X3; try discriminate. cbn [obind] in X.
        destruct (up_ok E rank none True False s s1 G U) as (T01 & NR & _ & l & cs1 & T1 & M).
        assert (NR1 : tx s1 <> Refreshing) by (rewrite T1; congruence).
        pose proof (t_gi _ _ _ _ _ _ _ _ T01) as G1.
        pose proof (set_vals_trans E rank none (tx s1 <> Idle) False (upd (vals s1) id v) s1 G1 NR1) as TV.
        destruct (e_eqb E (vals s1 id) v) eqn:EQ.
        * inversion R; subst s2.
          eapply TXN; [reflexivity|exact TV|apply same_tx_refl; auto| |exact X3|exact X].
          intros H1. apply (keep_same Z s1); auto.
        * assert (TR : trans none (tx s1 <> Idle) False [] (set_vals (upd (vals s1) id v) s1) s2)
            by (eapply report_trans; eauto; apply TV).
          assert (ST : same_tx s1 s2).
          { destruct (report_set_ok E rank _ _ _ _ _ (t_gi _ _ _ _ _ _ _ _ TV) T1 R) as (d & cs' & _ & C & _ & T' & _).
            unfold same_tx. rewrite T1, T'. exists cs'; split; auto. intros n Hn; apply C; auto. }
          eapply TXN; [reflexivity| |exact ST| |exact X3|exact X].
          -- change (@nil gid) with (@nil gid ++ []). eapply trans_seq; eauto. apply same_tx_refl; auto.
          -- eapply REP; eauto.
      + destruct (up s) as [s1| |] eqn:U; try discriminate. cbn [obind] in X.
        destruct (exec E f (TCmds body) s1) as [s2| |] eqn:X2; try discriminate. cbn [obind] in X.
        destruct (exec E f TEnd s2) as [s3| |] eqn:X3; try discriminate. cbn [obind] in X.
        destruct (up_ok E rank none True False s s1 G U) as (T01 & NR & _ & l & cs1 & T1 & M).
        pose proof (t_gi _ _ _ _ _ _ _ _ T01) as G1.
        destruct (struct_cmds E rank WF f body s1 s2 G1 X2) as [T12 S12].
        eapply TXN; [reflexivity|exact T12|exact S12| |exact X3|exact X].
        intros H1. apply (IHC body s1 s2 Z); auto; [inversion GC; auto|].
        rewrite (t_running _ _ _ _ _ _ _ _ T01); auto.
      + destruct (get E f id s) as [[s1 v]| |] eqn:GX; try discriminate. cbn [obind] in X.
        destruct (get_ok E rank WF f id s s1 v G GX) as (ST & FR & KI & _).
        destruct (get_facts E rank WF f id s s1 v G GX) as
          ((lc & L & FL) & (_ & _ & RS & LV & _ & RN & DY & _ & _) & _ & G1 & _).
        apply (IHC (k v ++ rest) (add_log (ERead id v (vals s1)) s1) s'); auto.
        * apply GIx_log; [auto|congruence|auto].
        * apply Forall_app. split; auto. inversion GC; auto.
        * simpl. rewrite RN. auto.
        * apply (keep_quiet Z s _ (ERead id v (vals s1) :: lc)); simpl; auto; try congruence.
          constructor; [exact Logic.I|apply calc_quiet; auto].
      + destruct (N.leb_spec (next s) (gnum c)) as [L|]; [|discriminate]. simpl andb in X.
        destruct (gkind c) eqn:KC; try discriminate.
        destruct (new_sub_trans E rank none (tx s <> Idle) False c s G L KC) as [T02 P2].
        set (s2 := set_live (upd (live (set_next (gnum c + 1)%N s)) c true) (set_next (gnum c + 1)%N s)) in *.
        change (set_live (upd (live s) c true) (set_next (gnum c + 1)%N s)) with s2 in T02, P2.
        destruct (exec E f (TSub c) s2) as [s3| |] eqn:X3; try discriminate. cbn [obind] in X.
        pose proof (t_gi _ _ _ _ _ _ _ _ T02) as G2.
        destruct (ES (TSub c) _ _ G2 P2 X3) as [T23 S23].
        assert (R3 : running s3 = running s) by (rewrite (t_running _ _ _ _ _ _ _ _ T23); auto).
        apply (IHC rest s3 s'); auto; [apply T23|rewrite R3; auto|].
        apply (IH (TSub c) s2 s3 Z G2 P2 Logic.I); auto. apply (keep_same Z s); auto.
      + destruct (exec E f (TDrop [c]) s) as [s1| |] eqn:X1; try discriminate. cbn [obind] in X.
        destruct (struct_drop E rank WF f [c] s s1 G X1) as [T S].
        pose proof (t_running _ _ _ _ _ _ _ _ T) as R1.
        apply (IHC rest s1 s'); auto; [apply T|rewrite R1; auto|]. apply (IHD [c] s s1); auto.
        intros [Q|[]]. inversion GC; congruence.
    - pose proof (exec_sub_inv E f c s s' X) as (s2 & v & s4 & s6 & GX & HB & PC & FIN).
      destruct (sub_get E rank WF f c s s2 v G PR GX) as (ST & F2 & T12 & TX2 & L2 & R2 & LV2 & G2 & G1).
      destruct (sub_body E rank WF f c s s2 v s4 G PR GX HB) as [T14 S14].
      destruct (get_facts E rank WF f (src c) _ s2 v G1 GX) as
        ((lc & L & FL) & (_ & _ & RS & LV & _ & RN & DY & _ & _) & _).
      simpl in L, RS, LV, RN, DY.
      assert (NZ : ~ Z c) by (intros Q; apply PR; auto).
      assert (H2 : Keep Z s2).
      { apply (keep_quiet Z s s2 lc); auto; [apply calc_quiet; auto|rewrite DY; auto]. }
      assert (RM : log (remembered c v s2) = log s2 /\ 
                   res (remembered c v s2) = res s2 /\ dying (remembered c v s2) = dying s2).
      { unfold ReactRel.remembered. destruct (s_dedup (e_sub E c)); auto. }
      destruct RM as (M1 & M3 & M4).
      assert (H4 : Keep Z s4).
      { destruct HB as [(SU & sb & X5 & X4)|(SU & ->)]; [|apply (keep_same Z s2); auto].
        destruct (sub_handed E rank c v (tx s2 <> Idle) s2 G2 L2 LV2 SU) as [TD TX].
        destruct (sub_tail E rank WF f c v s2 sb s4 G2 L2 LV2 SU X5 X4) as (TC & SC & TR & TDr & SD).
        set (sh := handed c v s2) in *.
        assert (N1 : exists b w, log sh = EDeliver c v w b :: log s2).
        { unfold sh, ReactRel.handed. simpl. rewrite M1. eauto. }
        destruct N1 as (b & w & N1).
        assert (N3 : res sh = res s2) by (unfold sh, ReactRel.handed; simpl; auto).
        assert (N4 : dying sh = dying s2) by (unfold sh, ReactRel.handed; simpl; auto).
        assert (N5 : running sh = running s2).
        { unfold sh, ReactRel.handed, ReactRel.remembered; simpl. destruct (s_dedup (e_sub E c)); auto. }
        assert (RC : In r (res s2 c) -> rel (log sh)).
        { intros Q. rewrite N1. destruct (j_res _ _ H2 c Q) as [O|(_ & x & xs & D & I)].
          - change (rel ([EDeliver c v w b] ++ log s2)). apply rel_app; auto.
          - exists (log s2). apply released_cons. right. split; auto. exists c, x, xs. simpl; auto. }
        set (Z' := fun d => Z d \/ d = c).
        assert (HH : Keep Z' sh).
        { destruct H2 as [A B C]. constructor.
          - intros d Q. destruct (gid_eqb_spec d c) as [->|N]; [left; apply RC; rewrite <- N3; auto|].
            rewrite N3 in Q. rewrite N1. destruct (A d Q) as [O|(NZd & x & xs & D & I)].
            + left. change (rel ([EDeliver c v w b] ++ log s2)). apply rel_app; auto.
            + right. split; [intros [?|?]; auto|]. exists x, xs. simpl. destruct (gid_eqb_spec d c); [contradiction|auto].
          - rewrite N4, N1. intros Q. change (rel ([EDeliver c v w b] ++ log s2)). apply rel_app; auto.
          - intros l2 l1. rewrite N1. destruct l2 as [|e2 l2]; intros Q; inversion Q; subst; eauto. }
        assert (RH : forall d, Z' d -> In d (running sh)).
        { intros d [Q|Q]; rewrite N5, RN; simpl; [right; auto|left; auto]. }
        pose proof (IHC _ sh sb Z' (t_gi _ _ _ _ _ _ _ _ TD) (SP c v) RH HH X5) as Hb.
        assert (RNB : running sb = running s2) by (rewrite (t_running _ _ _ _ _ _ _ _ TC); auto).
        set (sr := set_res (upd (res sb) c (s_res (e_sub E c) v)) sb) in *.
        destruct (t_log _ _ _ _ _ _ _ _ TC) as (l & LL & LQ & _).
        assert (IN : In c (running sh)) by (rewrite N5, RN; simpl; auto).
        assert (Hr : Keep Z sr).
        { destruct Hb as [A B C]. constructor; [|exact B|exact C].
          intros d Q. simpl in Q. unfold upd in Q. destruct (gid_eqb_spec d c) as [EQd|N].
          2:{ destruct (A d Q) as [O|(NZd & O)]; [left; exact O|right]. split; [|exact O]. intros Q'; apply NZd; left; auto. }
          subst d. right. split; [auto|]. exists v, (delivered c (log s2)). split; [|auto].
          change (log sr) with (log sb). rewrite LL, N1, delivered_app, LQ; auto.
          simpl. rewrite gid_eqb_refl. auto.
          }
        apply (IHD (res sb c) sr s4); auto; [apply TR| |].
        - intros Q. change (log sr) with (log sb).
          destruct (j_res _ _ Hb c Q) as [O|(NZc & _)]; auto. exfalso. apply NZc. right; auto.
        - intros d Q. simpl. rewrite RNB, RN. right; auto. }
      destruct (sub_closed E rank WF s c s4 s6 G PR T14 S14 PC) as
        ((lc9 & L9 & FL9) & LV9 & NX9 & _ & _ & RS9 & _ & RN9 & _).
      destruct (close_ok E rank WF c (tx s <> Idle) s s4 (snd (frame_close s4)) (fst (frame_close s4)) s6 G PR T14 S14)
        as (T09 & S09 & _); auto.
      { destruct (frame_close s4); auto. }
      set (s9 := set_dying (remove gid_dec c (dying (closed c s6))) (closed c s6)) in *.
      assert (D6 : dying (closed c s6) = dying s4).
      { simpl. rewrite (push_dying _ _ _ _ PC). unfold frame_close; destruct (frames s4); auto. }
      assert (H9 : Keep Z s9).
      { apply (keep_quiet Z s4 s9 lc9); auto; [apply calc_quiet; auto|].
        intros d Q. change (dying s9) with (remove gid_dec c (dying (closed c s6))) in Q.
        apply in_remove in Q as [Q _]. rewrite D6 in Q; auto. }
      destruct FIN as [(DC & X9)|(DC & ->)]; auto.
      apply (IHD [c] s9 s'); auto; [apply T09| |rewrite RN9; auto]. intros [->|[]].
      rewrite L9. apply rel_app. apply (j_dying _ _ H4). rewrite <- D6. auto.
    - destruct PR as [TX RN]. destruct cs as [|c rest]; cbn [exec] in X; [inversion X; subst; auto|].
      destruct (if live s c && active s c then _ else _) as [s1| |] eqn:X1; try discriminate. cbn [obind] in X.
      destruct (live s c && active s c) eqn:LA.
      + apply andb_prop in LA as [LV AC].
        assert (PS : pre (TSub c) s).
        { simpl. split; [apply (gi_livek _ _ _ _ G); auto|]. split; [auto|]. split; [|split].
          - destruct (N.ltb_spec (gnum c) (next s)); auto.
            destruct (gi_fresh _ _ _ _ G c); [lia|congruence].
          - intros Q. rewrite RN in AC; auto. discriminate.
          - congruence. }
        destruct (ES (TSub c) s s1 G PS X1) as [T S].
        pose proof (t_running _ _ _ _ _ _ _ _ T) as R1.
        apply (IH (TRefresh rest) s1 s'); auto.
        * apply T.
        * split; [eapply same_tx_refreshing; eauto|].
          intros d Q. rewrite R1 in Q. destruct (t_keep _ _ _ _ _ _ _ _ T d Q) as [-> _]; auto.
        * rewrite R1; auto.
        * apply (IH (TSub c) s s1 Z G PS Logic.I ZR H X1).
      + inversion X1; subst s1. apply (IH (TRefresh rest) s s'); auto. split; auto.
    - destruct cs as [|c rest]; cbn [exec] in X; [inversion X; subst; auto|].
      destruct (if negb (live s c) then _ else _) as [s1| |] eqn:X1; try discriminate. cbn [obind] in X.
      simpl in GR.
      assert (STEP : GI s1 /\ running s1 = running s /\ Keep Z s1 /\ exists l, log s1 = l ++ log s).
      { destruct (live s c) eqn:LV; simpl in X1.
        2:{ inversion X1; subst. split; [auto|]. split; [auto|]. split; [auto|exists []; auto]. }
        destruct (set_mem_spec c (running s)) as [RN|RN].
        - inversion X1; subst.
          pose proof (set_dying_trans E rank none True False c s G RN) as T.
          split; [apply T|]. split; [auto|]. split; [|exists []; auto].
          destruct H as [A B C]. constructor; auto. simpl. intros [Q|Q]; auto.
        - destruct (set_parents E c [] _) as [s2| |] eqn:SQ; try discriminate. cbn [obind] in X1.
          destruct (drop_trans E rank none (tx s <> Idle) False c s s2 G LV RN SQ) as [T02 TX].
          pose proof (t_gi _ _ _ _ _ _ _ _ T02) as G2.
          destruct (struct_drop E rank WF f _ s2 s1 G2 X1) as [T S].
          destruct (drop_facts E rank s c s2 G LV RN SQ) as
            ((lc & L & FL) & LV2 & _ & _ & _ & RS & RN2 & _ & DY & _).
          assert (HD : Keep Z (add_log (EDrop c) s)).
          { destruct H as [A B C]. constructor; simpl.
            - intros d Q. destruct (A d Q) as [O|O]; auto. left.
              change (rel ([EDrop c] ++ log s)). apply rel_app; auto.
            - intros Q. change (rel ([EDrop c] ++ log s)). apply rel_app; auto.
            - intros l2 l1 Q. destruct l2 as [|e2 l2]; inversion Q; subst; eauto. }
          assert (H2 : Keep Z s2).
          { apply (keep_quiet Z (add_log (EDrop c) s) s2 lc); simpl; auto; [apply calc_quiet; auto|].
            rewrite DY; auto. }
          split; [apply T|]. split; [rewrite (t_running _ _ _ _ _ _ _ _ T); auto|]. split.
          + apply (IHD (res s2 c) s2 s1); auto; [|rewrite RN2; auto].
            rewrite RS, L. intros Q. apply rel_app. destruct (j_res _ _ H c Q) as [O|(_ & x & xs & D & I)].
            * change (rel ([EDrop c] ++ log s)). apply rel_app; auto.
            * exists (log s). apply released_cons. right. split; auto. exists c, x, xs. simpl; auto.
          + destruct (logs _ _ _ _ _ _ T) as (l & ->). rewrite L. exists (l ++ lc ++ [EDrop c]).
            rewrite <- !app_assoc. auto. }
      destruct STEP as (G1 & R1 & H1 & l & L).
      apply (IHD rest s1 s'); auto; [|rewrite R1; auto]. intros Q. rewrite L. apply rel_app; auto.
    - destruct PR as (l & cs & TX). cbn [exec] in X.
      destruct (down s) as [s1 q] eqn:D.
      destruct (down_ok E rank s s1 q l cs G TX D) as [(-> & -> & ->)|(L & -> & ->)].
      + destruct (exec E f (TRefresh cs) (set_tx Refreshing s)) as [s2| |] eqn:X2; try discriminate.
        cbn [obind] in X.
        assert (G1 : GI (set_tx Refreshing s)) by (apply GIx_tx; [exact Logic.I|congruence|auto]).
        assert (PR : pre (TRefresh cs) (set_tx Refreshing s)).
        { split; auto. apply (gi_run _ _ _ _ G). congruence. }
        destruct (ES (TRefresh cs) _ _ G1 PR X2) as [T S].
        unfold move_to_idle in X. rewrite S in X. inversion X; subst s'. clear X.
        pose proof (IH (TRefresh cs) (set_tx Refreshing s) s2 Z G1 PR Logic.I ZR) as H2.
        apply (keep_quiet Z s2 _ [EHook]); simpl; auto.
        apply H2; auto. apply (keep_same Z s); auto.
      + inversion X; subst s'. apply (keep_same Z s); auto.
  Qed.

  Lemma run_keep vs h s : run E vs h s -> Forall (spares r) h ->
    forall l2 l1, log s = l2 ++ EDrop r :: l1 -> exists l0, released l1 r l0.
  Proof.
    intros [f X] SH. apply (j_log (fun _ => False)).
    apply (keep_aux f (TCmds h) (init vs) s (fun _ => False) (init_gi E rank vs) Logic.I SH); auto; try tauto.
    constructor; simpl; [intros c []|intros []|]. intros l2 l1 Q. destruct l2; discriminate.
  Qed.
End Own.
