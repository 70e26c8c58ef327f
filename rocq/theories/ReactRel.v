(** Relations between the states before and after running an application, established step by step. *)

From Coq Require Import List NArith Bool Lia Arith.
From Verif Require Import GraphModel GraphSpec GraphProofs ReactModel ReactSpec ReactBase ReactInv ReactExec.
Import ListNotations.

Section Rel.
  Context {V : Type}.
  Variable E : @env V.
  Variable rank : gid -> nat.
  Hypothesis WF : well_founded_env E rank.

  Notation GI := (GI E rank).
  Notation src := (src E).
  Notation open_sub := (open_sub E).
  Notation trans := (trans E rank).

  Lemma struct_cmds f cs s s' : GI s -> exec E f (TCmds cs) s = Ok s' ->
    trans none (tx s <> Idle) False [] s s' /\ same_tx s s'.
  Proof. intros G X. exact (exec_struct E rank WF f (TCmds cs) s s' G I X). Qed.

  Lemma struct_drop f cs s s' : GI s -> exec E f (TDrop cs) s = Ok s' ->
    trans none (tx s <> Idle) False [] s s' /\ same_tx s s'.
  Proof. intros G X. exact (exec_struct E rank WF f (TDrop cs) s s' G I X). Qed.

  (** The phases of running the function of a subscription. *)
  Definition remembered (c : gid) (v : V) (s2 : state) : state :=
    if s_dedup (e_sub E c) then set_prev (upd (prev s2) c (Some v)) s2 else s2.

  Definition handed (c : gid) (v : V) (s2 : state) : state :=
    let s3 := remembered c v s2 in
    add_log (EDeliver c v (vals s3) (is_refreshing s3)) s3.

  Lemma exec_sub_inv f c s s' : exec E (S f) (TSub c) s = Ok s' ->
    exists s2 v s4 s6,
      get E f (src c) (open_sub c s) = Ok (s2, v) /\
      ((should_update E c v s2 = true /\ exists sb,
          exec E f (TCmds (s_call (e_sub E c) v)) (handed c v s2) = Ok sb /\
          exec E f (TDrop (res sb c)) (set_res (upd (res sb) c (s_res (e_sub E c) v)) sb) = Ok s4) \/
       (should_update E c v s2 = false /\ s4 = remembered c v s2)) /\
      push_context E c (fst (frame_close s4)) (snd (frame_close s4)) = Ok s6 /\
      ((In c (dying (closed c s6)) /\
        exec E f (TDrop [c]) (set_dying (remove gid_dec c (dying (closed c s6))) (closed c s6)) = Ok s') \/
       (~ In c (dying (closed c s6)) /\
        s' = set_dying (remove gid_dec c (dying (closed c s6))) (closed c s6))).
  Proof.
    cbn [exec]. fold (src c).
    change (set_running (c :: running s) (add_parent (src c) (frame_open s))) with (open_sub c s).
    intros X.
    destruct (get E f (src c) (open_sub c s)) as [[s2 v]| |] eqn:GX; try discriminate. cbn [obind] in X.
    fold (remembered c v s2) in X. fold (handed c v s2) in X.
    destruct (if should_update E c v s2 then _ else _) as [s4| |] eqn:X4; try discriminate. cbn [obind] in X.
    destruct (frame_close s4) as [ctx s5] eqn:FC.
    destruct (push_context E c ctx s5) as [s6| |] eqn:PC; try discriminate. cbn [obind] in X.
    change (running (set_active (upd (active s6) c true) s6)) with (running s6) in X.
    fold (closed c s6) in X.
    exists s2, v, s4, s6. split; [auto|]. split; [|rewrite FC; split; [exact PC|]].
    - destruct (should_update E c v s2); [left|right; inversion X4; auto]. split; auto.
      destruct (exec E f (TCmds _) (handed c v s2)) as [sb| |] eqn:X5; try discriminate. cbn [obind] in X4.
      exists sb; auto.
    - destruct (set_mem_spec c (dying (closed c s6))) as [D|D]; [left; auto|right; split; auto].
      inversion X. rewrite remove_notin by auto. reflexivity.
  Qed.

  Lemma sub_get f c s s2 v : GI s -> pre (TSub c) s -> get E f (src c) (open_sub c s) = Ok (s2, v) ->
    step E rank (open_sub c s) s2 /\ frames s2 = [src c] :: frames s /\
    trans (eq c) (tx s <> Idle) False [] (open_sub c s) s2 /\ tx s2 = tx s /\
    (gnum c < next s2)%N /\ running s2 = c :: running s /\ live s2 c = true /\ GI s2 /\ GI (open_sub c s).
  Proof.
    intros G P GX. pose proof (open_gi E rank c s G P) as G1.
    pose proof P as (P1 & P2 & P3 & P4 & P5).
    destruct (get_ok E rank WF f (src c) _ s2 v G1 GX) as (ST & FR & _ & _).
    assert (TX2 : tx s2 = tx s) by apply ST.
    assert (T12 : trans (eq c) (tx s <> Idle) False [] (open_sub c s) s2) by (apply step_trans; auto).
    assert (RUN2 : running s2 = c :: running s) by (rewrite (t_running _ _ _ _ _ _ _ _ T12); auto).
    assert (GI s2) by apply T12.
    assert (gnum c < next s2)%N by (destruct T12; simpl in *; lia).
    assert (live s2 c = true) by (apply (gi_runlive _ _ _ _ H); rewrite RUN2; simpl; auto).
    repeat (split; [auto|]); auto.
  Qed.

  Lemma sub_handed c v st s2 : GI s2 -> (gnum c < next s2)%N -> live s2 c = true ->
    should_update E c v s2 = true ->
    trans (eq c) st False [c] s2 (handed c v s2) /\ tx (handed c v s2) = tx s2.
  Proof.
    intros G L LV SU. split; [|unfold handed, remembered; destruct (s_dedup (e_sub E c)); auto].
    apply deliver_trans; auto. intros DE SD PV.
    unfold should_update in SU. rewrite SD in SU. destruct (prev s2 c); [|congruence].
    intros Q; inversion Q; subst. rewrite (proj2 (DE v v)) in SU; auto. discriminate.
  Qed.

  Lemma sub_quiet c v st s2 : GI s2 -> (gnum c < next s2)%N ->
    should_update E c v s2 = false ->
    trans (eq c) st False [] s2 (remembered c v s2) /\ tx (remembered c v s2) = tx s2.
  Proof.
    intros G L SU. split; [|unfold remembered; destruct (s_dedup (e_sub E c)); auto].
    unfold should_update in SU. unfold remembered. destruct (s_dedup (e_sub E c)); [|discriminate].
    apply set_prev_trans; auto. intros DE _ PV.
    destruct (prev s2 c); [|discriminate].
    destruct (e_eqb E v0 v) eqn:Q; [|discriminate]. apply DE in Q; congruence.
  Qed.

  Lemma sub_tail f c v s2 sb s4 : GI s2 -> (gnum c < next s2)%N -> live s2 c = true ->
    should_update E c v s2 = true ->
    exec E f (TCmds (s_call (e_sub E c) v)) (handed c v s2) = Ok sb ->
    exec E f (TDrop (res sb c)) (set_res (upd (res sb) c (s_res (e_sub E c) v)) sb) = Ok s4 ->
    let sr := set_res (upd (res sb) c (s_res (e_sub E c) v)) sb in
    trans none (tx s2 <> Idle) False [] (handed c v s2) sb /\ same_tx s2 sb /\
    trans none (tx s2 <> Idle) False [] sb sr /\
    trans none (tx s2 <> Idle) False [] sr s4 /\ same_tx s2 s4.
  Proof.
    intros G L LV SU X5 X4 sr.
    destruct (sub_handed c v (tx s2 <> Idle) s2 G L LV SU) as [TD TX].
    destruct (struct_cmds _ _ _ _ (t_gi _ _ _ _ _ _ _ _ TD) X5) as [TC SC].
    assert (S1 : same_tx s2 sb).
    { eapply same_tx_trans; [|exact SC]. apply same_tx_refl; auto. }
    assert (TR : trans none (tx s2 <> Idle) False [] sb sr).
    { apply set_res_trans; [apply TC|].
      pose proof (t_next _ _ _ _ _ _ _ _ TD). pose proof (t_next _ _ _ _ _ _ _ _ TC). lia. }
    destruct (struct_drop _ _ _ _ (t_gi _ _ _ _ _ _ _ _ TR) X4) as [TDr SD].
    rewrite TX in TC.
    split; [exact TC|]. split; [auto|]. split; [auto|]. split.
    - eapply trans_weaken; [exact TDr| |tauto|constructor]. apply same_tx_idle; auto.
    - eapply same_tx_trans; [exact S1|exact SD].
  Qed.

  Lemma sub_body f c s s2 v s4 : GI s -> pre (TSub c) s ->
    get E f (src c) (open_sub c s) = Ok (s2, v) ->
    ((should_update E c v s2 = true /\ exists sb,
        exec E f (TCmds (s_call (e_sub E c) v)) (handed c v s2) = Ok sb /\
        exec E f (TDrop (res sb c)) (set_res (upd (res sb) c (s_res (e_sub E c) v)) sb) = Ok s4) \/
     (should_update E c v s2 = false /\ s4 = remembered c v s2)) ->
    trans (eq c) (tx s <> Idle) False [c] (open_sub c s) s4 /\ same_tx (open_sub c s) s4.
  Proof.
    intros G P GX H.
    destruct (sub_get f c s s2 v G P GX) as (ST & F2 & T12 & TX2 & L2 & R2 & LV2 & G2 & G1).
    assert (S12 : same_tx (open_sub c s) s2) by (apply same_tx_refl; auto).
    destruct H as [(SU & sb & X5 & X4)|(SU & ->)].
    - destruct (sub_handed c v (tx s <> Idle) s2 G2 L2 LV2 SU) as [TD TX].
      destruct (sub_tail f c v s2 sb s4 G2 L2 LV2 SU X5 X4) as (TC & SC & TR & TDr & SD).
      rewrite TX2 in TC, TR, TDr.
      split; [|eapply same_tx_trans; eauto].
      change [c] with ([] ++ [c] ++ [] ++ [] ++ []).
      eapply trans_seq; [exact T12| |exact S12].
      eapply trans_seq; [exact TD| |apply same_tx_refl; auto].
      eapply trans_seq; [eapply trans_me; [|exact TC]; intros ? []| |].
      + eapply trans_seq; [eapply trans_me; [|exact TR]; intros ? []|eapply trans_me; [|exact TDr]; intros ? []|].
        apply same_tx_refl; auto.
      + unfold same_tx in *. rewrite TX. exact SC.
    - destruct (sub_quiet c v (tx s <> Idle) s2 G2 L2 SU) as [TQ TX].
      split; [|eapply same_tx_trans; [exact S12|apply same_tx_refl; auto]].
      apply (trans_weaken E rank (eq c) (tx s <> Idle) (tx s <> Idle) False False [] [c]);
        [|tauto|tauto|apply subseq_nil_l].
      change (@nil gid) with (@nil gid ++ []). eapply trans_seq; eauto.
  Qed.

  (** ** The principle *)

  (** The two ways the function of a subscription is started: a refresh, or a new subscription. *)
  Definition starts (s0 : @state V) (c : gid) (s : @state V) : Prop :=
    (s0 = s /\ active s c = true) \/
    ((next s0 <= gnum c)%N /\ gkind c = KClient /\
     s = set_live (upd (live s0) c true) (set_next (gnum c + 1)%N s0)).

  Variable P : @state V -> @state V -> Prop.
  Hypothesis Prefl : forall s, P s s.
  Hypothesis Ptrans : forall a b c, P a b -> P b c -> P a c.
  Hypothesis Pup : forall s s1, GI s -> up s = Ok s1 -> P s s1.
  Hypothesis Preport : forall s s1 l cs id v, GI s -> tx s = Modification l cs ->
    report_set id (set_vals (upd (vals s) id v) s) = Ok s1 -> P s s1.
  Hypothesis Psame : forall s l cs id v, GI s -> tx s = Modification l cs -> e_eqb E (vals s id) v = true ->
    P s (set_vals (upd (vals s) id v) s).
  Hypothesis Pget : forall f id s s1 v, GI s -> in_frames id s -> get E f id s = Ok (s1, v) -> P s s1.
  Hypothesis Pread : forall f id s s1 v, GI s -> get E f id s = Ok (s1, v) ->
    P s (add_log (ERead id v (vals s1)) s1).
  Hypothesis Pprev : forall s c v, GI s -> In c (running s) -> P s (set_prev (upd (prev s) c (Some v)) s).
  Hypothesis Pdeliver : forall s c v, GI s -> In c (running s) ->
    P s (add_log (EDeliver c v (vals s) (is_refreshing s)) s).
  Hypothesis Pres : forall s c r, GI s -> P s (set_res (upd (res s) c r) s).
  Hypothesis Pdying : forall s c, GI s -> In c (running s) -> P s (set_dying (c :: dying s) s).
  Hypothesis Pdrop : forall s c s2, GI s -> live s c = true -> ~ In c (running s) ->
    set_parents E c [] (add_log (EDrop c) (set_live (upd (live s) c false) s)) = Ok s2 -> P s s2.
  Hypothesis Psub : forall s0 s c s4 s6, GI s0 -> starts s0 c s -> GI s -> pre (TSub c) s -> GI s4 ->
    trans (eq c) (tx s <> Idle) False [c] (open_sub c s) s4 -> same_tx (open_sub c s) s4 ->
    P (open_sub c s) s4 ->
    push_context E c (fst (frame_close s4)) (snd (frame_close s4)) = Ok s6 ->
    P s0 (set_dying (remove gid_dec c (dying (closed c s6))) (closed c s6)).
  Hypothesis Pend1 : forall s s2 cs, GI s -> tx s = Modification 1 cs -> GI s2 ->
    P (set_tx Refreshing s) s2 -> tx s2 = Refreshing -> P s (add_log EHook (set_tx Idle s2)).
  Hypothesis Pend2 : forall s l cs, GI s -> tx s = Modification l cs -> l <> 1%N ->
    P s (set_tx (Modification (l - 1) cs) s).

  Lemma exec_rel_aux f : forall t s s', GI s -> pre t s -> exec E f t s = Ok s' ->
    match t with
    | TSub c => forall s0, GI s0 -> starts s0 c s -> P s0 s'
    | _ => P s s'
    end.
  Proof.
    induction f as [|f IH]; intros t s s' G PR X; [discriminate|].
    assert (IHC : forall cs s s', GI s -> exec E f (TCmds cs) s = Ok s' -> P s s')
      by (intros cs a b Ga Xa; apply (IH (TCmds cs) a b Ga I Xa)).
    assert (IHD : forall cs s s', GI s -> exec E f (TDrop cs) s = Ok s' -> P s s')
      by (intros cs a b Ga Xa; apply (IH (TDrop cs) a b Ga I Xa)).
    pose proof (exec_struct E rank WF f) as ES.
    destruct t as [cs|c|cs|cs|].
    - destruct cs as [|cm rest]; cbn [exec] in X; [inversion X; subst; auto|].
      assert (TXN : forall s1 s2 s3, up s = Ok s1 ->
                trans none (tx s1 <> Idle) False [] s1 s2 -> same_tx s1 s2 -> P s1 s2 ->
                exec E f TEnd s2 = Ok s3 -> exec E f (TCmds rest) s3 = Ok s' -> P s s').
      { intros s1 s2 s3 U T12 S12 P12 X3 XR.
        destruct (up_ok E rank none True False s s1 G U) as (T01 & NR & _ & l & cs1 & T1 & M).
        assert (PE : pre TEnd s2).
        { unfold same_tx in S12; rewrite T1 in S12. destruct S12 as (cs2 & S12 & _). simpl; eauto. }
        pose proof (t_gi _ _ _ _ _ _ _ _ T12) as G2.
        pose proof (ES TEnd s2 s3 G2 PE X3) as PO.
        destruct (txn_post E rank s s1 s2 s3 G U T12 S12 PO) as [T03 S03].
        eapply Ptrans; [eapply Pup; eauto|]. eapply Ptrans; [exact P12|].
        eapply Ptrans; [exact (IH TEnd s2 s3 G2 PE X3)|]. eapply IHC; eauto. apply T03. }
      destruct cm as [id v|id v|body|id k|c|c].
      + destruct (negb (is_value id)); [discriminate|].
        destruct (up s) as [s1| |] eqn:U; try discriminate. cbn [obind] in X.
        destruct (report_set id _) as [s2| |] eqn:R; try discriminate. cbn [obind] in X.
        destruct (exec E f TEnd s2) as [s3| |] eqn:X3; try discriminate. cbn [obind] in X.
        destruct (up_ok E rank none True False s s1 G U) as (T01 & NR & _ & l & cs1 & T1 & M).
        assert (NR1 : tx s1 <> Refreshing) by (rewrite T1; congruence).
        pose proof (t_gi _ _ _ _ _ _ _ _ T01) as G1.
        pose proof (set_vals_trans E rank none (tx s1 <> Idle) False (upd (vals s1) id v) s1 G1 NR1) as TV.
        assert (TR : trans none (tx s1 <> Idle) False [] (set_vals (upd (vals s1) id v) s1) s2)
          by (eapply report_trans; eauto; apply TV).
        assert (ST : same_tx s1 s2).
        { destruct (report_set_ok E rank _ _ _ _ _ (t_gi _ _ _ _ _ _ _ _ TV) T1 R) as (d & cs' & _ & C & _ & T' & _).
          unfold same_tx. rewrite T1, T'. exists cs'; split; auto. intros n Hn; apply C; auto. }
        eapply TXN; [reflexivity| |exact ST| |exact X3|exact X].
        * change (@nil gid) with (@nil gid ++ []). eapply trans_seq; eauto. apply same_tx_refl; auto.
        * eapply Preport; eauto.
      + destruct (negb (is_value id)); [discriminate|].
        destruct (up s) as [s1| |] eqn:U; try discriminate. cbn [obind] in X.
        destruct (if e_eqb E (vals s1 id) v then _ else _) as [s2| |] eqn:R; try discriminate. cbn [obind] in X.
        destruct (exec E f TEnd s2) as [s3| |] eqn:X3; try discriminate. cbn [obind] in X.
        destruct (up_ok E rank none True False s s1 G U) as (T01 & NR & _ & l & cs1 & T1 & M).
        assert (NR1 : tx s1 <> Refreshing) by (rewrite T1; congruence).
        pose proof (t_gi _ _ _ _ _ _ _ _ T01) as G1.
        pose proof (set_vals_trans E rank none (tx s1 <> Idle) False (upd (vals s1) id v) s1 G1 NR1) as TV.
        destruct (e_eqb E (vals s1 id) v) eqn:EQ.
        * inversion R; subst s2.
          eapply TXN; [reflexivity|exact TV|apply same_tx_refl; auto| |exact X3|exact X].
          eapply Psame; eauto.
        * assert (TR : trans none (tx s1 <> Idle) False [] (set_vals (upd (vals s1) id v) s1) s2)
            by (eapply report_trans; eauto; apply TV).
          assert (ST : same_tx s1 s2).
          { destruct (report_set_ok E rank _ _ _ _ _ (t_gi _ _ _ _ _ _ _ _ TV) T1 R) as (d & cs' & _ & C & _ & T' & _).
            unfold same_tx. rewrite T1, T'. exists cs'; split; auto. intros n Hn; apply C; auto. }
          eapply TXN; [reflexivity| |exact ST| |exact X3|exact X].
          -- change (@nil gid) with (@nil gid ++ []). eapply trans_seq; eauto. apply same_tx_refl; auto.
          -- eapply Preport; eauto.
      + destruct (up s) as [s1| |] eqn:U; try discriminate. cbn [obind] in X.
        destruct (exec E f (TCmds body) s1) as [s2| |] eqn:X2; try discriminate. cbn [obind] in X.
        destruct (exec E f TEnd s2) as [s3| |] eqn:X3; try discriminate. cbn [obind] in X.
        destruct (up_ok E rank none True False s s1 G U) as (T01 & NR & _ & l & cs1 & T1 & M).
        pose proof (t_gi _ _ _ _ _ _ _ _ T01) as G1.
        destruct (struct_cmds f body s1 s2 G1 X2) as [T12 S12].
        eapply TXN; [reflexivity|exact T12|exact S12|eapply IHC; eauto|exact X3|exact X].
      + destruct (get E f id s) as [[s1 v]| |] eqn:GX; try discriminate. cbn [obind] in X.
        destruct (get_ok E rank WF f id s s1 v G GX) as (ST & FR & KI & _).
        assert (G1 : GI s1) by apply ST.
        eapply Ptrans; [eapply (Pread f id s s1 v); eauto|].
        eapply IHC; [|exact X]. apply GIx_log; [auto|congruence|auto].
      + destruct (N.leb_spec (next s) (gnum c)) as [L|]; [|discriminate]. simpl andb in X.
        destruct (gkind c) eqn:KC; try discriminate.
        destruct (new_sub_trans E rank none (tx s <> Idle) False c s G L KC) as [T02 P2].
        set (s2 := set_live (upd (live (set_next (gnum c + 1)%N s)) c true) (set_next (gnum c + 1)%N s)) in *.
        change (set_live (upd (live s) c true) (set_next (gnum c + 1)%N s)) with s2 in T02, P2.
        destruct (exec E f (TSub c) s2) as [s3| |] eqn:X3; try discriminate. cbn [obind] in X.
        pose proof (t_gi _ _ _ _ _ _ _ _ T02) as G2.
        destruct (ES (TSub c) _ _ G2 P2 X3) as [T23 S23].
        eapply Ptrans; [apply (IH (TSub c) s2 s3); auto|eapply IHC; [apply T23|exact X]].
        right; auto.
      + destruct (exec E f (TDrop [c]) s) as [s1| |] eqn:X1; try discriminate. cbn [obind] in X.
        destruct (struct_drop f [c] s s1 G X1) as [T S].
        eapply Ptrans; [eapply IHD; eauto|]. eapply IHC; [apply T|exact X].
    - intros s0 G0 ST0. pose proof (exec_sub_inv f c s s' X) as (s2 & v & s4 & s6 & GX & H & PC & FIN).
      destruct (sub_get f c s s2 v G PR GX) as (ST & F2 & T12 & TX2 & L2 & R2 & LV2 & G2 & G1).
      destruct (sub_body f c s s2 v s4 G PR GX H) as [T14 S14].
      pose proof (t_gi _ _ _ _ _ _ _ _ T14) as G4.
      assert (INR : In c (running s2)) by (rewrite R2; simpl; auto).
      assert (P14 : P (open_sub c s) s4).
      { eapply Ptrans; [eapply Pget; [exact G1| |exact GX]; exists [src c]; simpl; auto|].
        assert (PRM : P s2 (remembered c v s2)).
        { unfold remembered. destruct (s_dedup (e_sub E c)); auto. }
        assert (GRM : GI (remembered c v s2)).
        { unfold remembered. destruct (s_dedup (e_sub E c)); auto.
          destruct G2; constructor; auto. intros d Hd. simpl in Hd.
          destruct (gi_fresh d Hd) as (A1 & A2 & A3 & A4 & A5 & A6 & A7). simpl. repeat split; auto.
          rewrite upd_other; auto. intros ->; lia. }
        destruct H as [(SU & sb & X5 & X4)|(SU & ->)]; [|auto].
        destruct (sub_handed c v (tx s2 <> Idle) s2 G2 L2 LV2 SU) as [TD TX].
        destruct (sub_tail f c v s2 sb s4 G2 L2 LV2 SU X5 X4) as (TC & SC & TR & TDr & SD).
        eapply Ptrans; [exact PRM|].
        eapply Ptrans; [apply (Pdeliver (remembered c v s2) c v); auto|].
        { unfold remembered. destruct (s_dedup (e_sub E c)); auto. }
        eapply Ptrans; [eapply IHC; [apply TD|exact X5]|].
        eapply Ptrans; [apply Pres; apply TC|].
        eapply IHD; [apply TR|exact X4]. }
      pose proof (Psub s0 s c s4 s6 G0 ST0 G PR G4 T14 S14 P14 PC) as PS.
      destruct (close_ok E rank WF c (tx s <> Idle) s s4 (snd (frame_close s4)) (fst (frame_close s4)) s6 G PR T14 S14)
        as (T09 & S09 & _); auto.
      { destruct (frame_close s4); auto. }
      destruct FIN as [(_ & X9)|(_ & ->)]; [|exact PS].
      eapply Ptrans; [exact PS|]. eapply IHD; [apply T09|exact X9].
    - destruct PR as [TX RN]. destruct cs as [|c rest]; cbn [exec] in X; [inversion X; subst; auto|].
      destruct (if live s c && active s c then _ else _) as [s1| |] eqn:X1; try discriminate. cbn [obind] in X.
      destruct (live s c && active s c) eqn:LA.
      + apply andb_prop in LA as [LV AC].
        assert (PS : pre (TSub c) s).
        { simpl. split; [apply (gi_livek _ _ _ _ G); auto|]. split; [auto|]. split; [|split].
          - destruct (N.ltb_spec (gnum c) (next s)); auto.
            destruct (gi_fresh _ _ _ _ G c); [lia|congruence].
          - intros H. rewrite RN in AC; auto. discriminate.
          - congruence. }
        destruct (ES (TSub c) s s1 G PS X1) as [T S].
        eapply Ptrans; [apply (IH (TSub c) s s1); auto; left; auto|].
        apply (IH (TRefresh rest) s1 s'); auto; [apply T|].
        split; [eapply same_tx_refreshing; eauto|].
        intros d H. rewrite (t_running _ _ _ _ _ _ _ _ T) in H.
        destruct (t_keep _ _ _ _ _ _ _ _ T d H) as [-> _]; auto.
      + inversion X1; subst s1. apply (IH (TRefresh rest) s s'); auto. split; auto.
    - destruct cs as [|c rest]; cbn [exec] in X; [inversion X; subst; auto|].
      destruct (if negb (live s c) then _ else _) as [s1| |] eqn:X1; try discriminate. cbn [obind] in X.
      destruct (live s c) eqn:LV; simpl in X1.
      + destruct (set_mem_spec c (running s)) as [RN|RN].
        * inversion X1; subst. eapply Ptrans; [apply Pdying; eauto|]. eapply IHD; [|exact X].
          apply (set_dying_trans E rank none True False c s G RN).
        * destruct (set_parents E c [] _) as [s2| |] eqn:SP; try discriminate. cbn [obind] in X1.
          destruct (drop_trans E rank none (tx s <> Idle) False c s s2 G LV RN SP) as [T02 TX].
          pose proof (t_gi _ _ _ _ _ _ _ _ T02) as G2.
          destruct (struct_drop f _ s2 s1 G2 X1) as [T S].
          eapply Ptrans; [eapply Pdrop; eauto|].
          eapply Ptrans; [eapply IHD; eauto|]. eapply IHD; [apply T|exact X].
      + inversion X1; subst. eapply IHD; eauto.
    - destruct PR as (l & cs & TX). cbn [exec] in X.
      destruct (down s) as [s1 r] eqn:D.
      destruct (down_ok E rank s s1 r l cs G TX D) as [(-> & -> & ->)|(L & -> & ->)].
      + destruct (exec E f (TRefresh cs) (set_tx Refreshing s)) as [s2| |] eqn:X2; try discriminate.
        cbn [obind] in X.
        assert (G1 : GI (set_tx Refreshing s)) by (apply GIx_tx; [exact I|congruence|auto]).
        assert (PR : pre (TRefresh cs) (set_tx Refreshing s)).
        { split; auto. apply (gi_run _ _ _ _ G). congruence. }
        destruct (ES (TRefresh cs) _ _ G1 PR X2) as [T S].
        unfold move_to_idle in X. rewrite S in X. inversion X; subst s'. clear X.
        eapply Pend1; [exact G|exact TX|apply T|exact (IH (TRefresh cs) _ _ G1 PR X2)|auto].
      + inversion X; subst s'. apply Pend2; auto.
  Qed.

  Theorem exec_rel f cs s s' : GI s -> exec E f (TCmds cs) s = Ok s' -> P s s'.
  Proof. intros G X. exact (exec_rel_aux f (TCmds cs) s s' G I X). Qed.

  Theorem exec_rel_refresh f cs s s' : GI s -> pre (TRefresh cs) s -> exec E f (TRefresh cs) s = Ok s' -> P s s'.
  Proof. intros G PR X. exact (exec_rel_aux f (TRefresh cs) s s' G PR X). Qed.
End Rel.
