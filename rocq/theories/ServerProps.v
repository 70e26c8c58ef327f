(** C44: fetches made while the server renders a page. *)

From Coq Require Import List NArith Bool Permutation Lia.
From Verif Require Import ServerModel.
Import ListNotations.

Section Props.
  Context {A R : Type}.
  Variable app_call : A -> N -> option R -> A * list amsg.

  Notation server := (server A R).
  Notation msg := (msg R).
  Notation step := (step app_call).
  Notation reach := (reach app_call).

  Definition resp_keys (q : list msg) : list key := flat_map (fun m => match m with FetchResponse k _ => [k] | _ => [] end) q.
  Definition requested (f : list (key * status R)) : list key := flat_map (fun e => match snd e with Requested _ => [fst e] | Response _ => [] end) f.
  Definition responded (f : list (key * status R)) : list key := flat_map (fun e => match snd e with Response _ => [fst e] | _ => [] end) f.
  Definition pending (f : list (key * status R)) : list (N * key) :=
    flat_map (fun e => match snd e with Requested cbs => map (fun c => (c, fst e)) cbs | _ => [] end) f.

  Record inv (s : server) : Prop := {
    i_nodup : NoDup (map fst (s_fetch s));
    i_sent : Permutation (s_sent s) (map fst (s_fetch s));
    i_flight : Permutation (s_flight s ++ resp_keys (s_queue s)) (requested (s_fetch s));
    i_recv : Permutation (s_recv s) (pending (s_fetch s) ++ map fst (s_ans s));
    i_resp : forall k r, In (k, Response r) (s_fetch s) -> In (k, r) (s_got s);
    i_ans : forall c k r, In (c, k, r) (s_ans s) -> In (k, r) (s_got s);
    i_got : Permutation (map fst (s_got s)) (responded (s_fetch s))
  }.

  Lemma key_eqb_spec a b : reflect (a = b) (key_eqb a b).
  Proof.
    destruct a as [a1 a2], b as [b1 b2]. unfold key_eqb. simpl. destruct (N.eqb_spec a1 b1), (N.eqb_spec a2 b2); simpl; constructor; congruence.
  Qed.

  Lemma perm_flat {X Y} (f : X -> list Y) l l' : Permutation l l' -> Permutation (flat_map f l) (flat_map f l').
  Proof.
    induction 1; simpl; auto.
    - apply Permutation_app_head. auto.
    - rewrite !app_assoc. apply Permutation_app_tail, Permutation_app_comm.
    - etransitivity; eauto.
  Qed.

  Lemma kdel_notin (m : list (key * status R)) k : ~ In k (map fst m) -> kdel m k = m.
  Proof.
    unfold kdel. induction m as [|[k' v] m IH]; simpl; auto. intros H. destruct (key_eqb_spec k k'); [subst; tauto|]. simpl. rewrite IH; tauto.
  Qed.

  Lemma kget_perm (m : list (key * status R)) k v : NoDup (map fst m) -> kget m k = Some v -> Permutation m ((k, v) :: kdel m k).
  Proof.
    induction m as [|[k' v'] m IH]; simpl; [discriminate|]. intros ND H. inversion ND; subst. unfold kdel. simpl.
    destruct (key_eqb_spec k k').
    - subst k'. inversion H; subst. simpl. fold (kdel m k). rewrite kdel_notin by auto. auto.
    - simpl. fold (kdel m k). etransitivity; [apply perm_skip, IH; auto|]. apply perm_swap.
  Qed.

  Lemma kget_none (m : list (key * status R)) k : kget m k = None -> ~ In k (map fst m).
  Proof.
    induction m as [|[k' v'] m IH]; simpl; auto. destruct (key_eqb_spec k k'); [discriminate|]. intros H [E|I]; [congruence|]. apply IH; auto.
  Qed.

  Lemma kdel_in (m : list (key * status R)) k : ~ In k (map fst (kdel m k)).
  Proof.
    unfold kdel. intros I. apply in_map_iff in I as (e & E & I). apply filter_In in I as [_ I]. destruct (key_eqb_spec k (fst e)); [discriminate|congruence].
  Qed.

  Lemma kdel_nodup (m : list (key * status R)) k : NoDup (map fst m) -> NoDup (map fst (kdel m k)).
  Proof.
    unfold kdel. induction m as [|e m IH]; simpl; auto. intros ND. inversion ND; subst. destruct (key_eqb k (fst e)); simpl; auto. constructor; auto.
    intros I. apply H1. apply in_map_iff in I as (x & E & I). apply filter_In in I as [I _]. rewrite <- E. apply in_map. auto.
  Qed.

  Lemma upd_perm (m : list (key * status R)) k v w : NoDup (map fst m) -> kget m k = Some v ->
    Permutation (map (fun e => if key_eqb k (fst e) then (fst e, w) else e) m) ((k, w) :: kdel m k).
  Proof.
    induction m as [|[k' v'] m IH]; simpl; [discriminate|]. intros ND H. inversion ND; subst. unfold kdel. simpl.
    destruct (key_eqb_spec k k').
    - subst k'. simpl. fold (kdel m k). rewrite kdel_notin by auto. apply perm_skip.
      rewrite (map_ext_in _ (fun e => e)); [rewrite map_id; auto|]. intros [k1 v1] I. simpl. destruct (key_eqb_spec k k1); auto. subst. destruct H2. apply (in_map fst) in I. auto.
    - simpl. fold (kdel m k). etransitivity; [apply perm_skip, IH; auto|]. apply perm_swap.
  Qed.

  (** Answering a list of callbacks. *)
  Lemma send_all k r cbs : forall s, let s1 := fold_left (fun s cb => send_fetch_response app_call s k cb r) cbs s in
    s_flight s1 = s_flight s /\ s_fetch s1 = s_fetch s /\ s_done s1 = s_done s /\ s_sent s1 = s_sent s /\ s_recv s1 = s_recv s /\
    s_got s1 = s_got s /\ s_ans s1 = s_ans s ++ map (fun c => (c, k, r)) cbs /\ resp_keys (s_queue s1) = resp_keys (s_queue s).
  Proof.
    induction cbs as [|c cbs IH]; intros s; cbn [fold_left]; cbv zeta.
    - rewrite app_nil_r. repeat split; auto.
    - destruct (IH (send_fetch_response app_call s k c r)) as (E1 & E2 & E3 & E4 & E5 & E6 & E7 & E8).
      rewrite E1, E2, E3, E4, E5, E6, E7, E8. unfold send_fetch_response. destruct (app_call (s_app s) c (Some r)) as [a ms]. simpl.
      repeat split; auto; [rewrite <- app_assoc; auto|]. unfold resp_keys. rewrite flat_map_app.
      assert (Z : flat_map (fun m : msg => match m with FetchResponse k0 _ => [k0] | _ => [] end) (map FromApp ms) = []) by (clear; induction ms; simpl; auto).
      rewrite Z, app_nil_r. auto.
  Qed.

  Lemma inv_same s s1 : inv s -> s_fetch s1 = s_fetch s -> s_sent s1 = s_sent s -> s_recv s1 = s_recv s -> s_got s1 = s_got s -> s_ans s1 = s_ans s ->
    s_flight s1 ++ resp_keys (s_queue s1) = s_flight s ++ resp_keys (s_queue s) -> inv s1.
  Proof. intros [] E1 E2 E3 E4 E5 E6. constructor; rewrite ?E1, ?E2, ?E3, ?E4, ?E5, ?E6; auto. Qed.

  Lemma resp_app (q : list msg) ms : resp_keys (q ++ map FromApp ms) = resp_keys q.
  Proof.
    unfold resp_keys. rewrite flat_map_app.
    assert (Z : flat_map (fun m : msg => match m with FetchResponse k0 _ => [k0] | _ => [] end) (map FromApp ms) = []) by (clear; induction ms; simpl; auto).
    rewrite Z, app_nil_r. auto.
  Qed.

  Lemma kget_in (m : list (key * status R)) k v : kget m k = Some v -> In (k, v) m.
  Proof. induction m as [|[k' v'] m IH]; simpl; [discriminate|]. destruct (key_eqb_spec k k'); [intros Q; inversion Q; subst; auto|auto]. Qed.

  Lemma requested_in f k : In k (requested f) <-> exists cbs, In (k, Requested cbs) f.
  Proof.
    unfold requested. rewrite in_flat_map. split.
    - intros ([k' [cbs|r]] & I & J); simpl in J; [destruct J as [<-|[]]; eauto|destruct J].
    - intros (cbs & I). exists (k, Requested cbs). simpl. auto.
  Qed.

  Lemma kget_of (m : list (key * status R)) k v : NoDup (map fst m) -> In (k, v) m -> kget m k = Some v.
  Proof.
    induction m as [|[k' v'] m IH]; simpl; [tauto|]. intros ND I. inversion ND; subst. destruct (key_eqb_spec k k').
    - subst. destruct I as [I|I]; [congruence|]. apply (in_map fst) in I. contradiction.
    - destruct I as [I|I]; [congruence|auto].
  Qed.

  (** Receiving a message: no panic, and the invariant stays. *)
  Lemma process_inv s m : (* [s]: the message is already taken off *)
    (forall k r, m <> FetchResponse k r) -> inv s -> exists s1, process_message app_call s m = Some s1 /\ inv s1.
  Proof.
    intros NR H. destruct m as [[u| |cb|cb k|]| |k r]; cbn [process_message].
    - eexists; split; [reflexivity|]. eapply inv_same; eauto.
    - eexists; split; [reflexivity|]. eapply inv_same; eauto.
    - destruct (app_call (s_app s) cb None) as [a ms]. eexists; split; [reflexivity|]. eapply inv_same; eauto. simpl. rewrite resp_app. auto.
    - destruct (kget (s_fetch s) k) as [[cbs|r]|] eqn:G.
      + eexists; split; [reflexivity|]. destruct H as [H1 H2 H3 H4 H5 H6 H7].
        pose proof (kget_perm _ _ _ H1 G) as P0. pose proof (upd_perm _ _ _ (Requested (cbs ++ [cb])) H1 G) as P1.
        set (f' := map (fun e => if key_eqb k (fst e) then (fst e, Requested (cbs ++ [cb])) else e) (s_fetch s)) in *.
        assert (K : map fst f' = map fst (s_fetch s)). { unfold f'. rewrite map_map. apply map_ext. intros e. destruct (key_eqb k (fst e)); auto. }
        constructor; unfold with_fetch; simpl; fold f'.
        * rewrite K. auto.
        * rewrite K. auto.
        * etransitivity; [exact H3|]. unfold requested. etransitivity; [apply perm_flat; exact P0|]. symmetry. etransitivity; [apply perm_flat; exact P1|]. auto.
        * etransitivity; [apply Permutation_app_tail; exact H4|]. symmetry.
          etransitivity; [apply Permutation_app_tail; unfold pending; apply perm_flat; exact P1|]. simpl.
          symmetry. etransitivity; [apply Permutation_app_tail, Permutation_app_tail; unfold pending; apply perm_flat; exact P0|]. simpl.
          rewrite map_app. simpl. rewrite <- !app_assoc. apply Permutation_app_head. simpl.
          symmetry. etransitivity; [apply Permutation_cons_append|]. rewrite <- !app_assoc. auto.
        * intros k1 r1 I. apply H5. eapply Permutation_in in I; [|exact P1]. destruct I as [I|I]; [discriminate|]. eapply Permutation_in; [symmetry; exact P0|]. right; auto.
        * auto.
        * etransitivity; [exact H7|]. unfold responded. etransitivity; [apply perm_flat; exact P0|]. symmetry. etransitivity; [apply perm_flat; exact P1|]. auto.
      + eexists; split; [reflexivity|]. unfold send_fetch_response. cbn [with_fetch s_app]. destruct (app_call (s_app s) cb (Some r)) as [a ms].
        destruct H as [H1 H2 H3 H4 H5 H6 H7]. constructor; simpl; auto.
        * rewrite resp_app. auto.
        * rewrite map_app. simpl. etransitivity; [apply Permutation_app_tail; exact H4|]. rewrite <- app_assoc. auto.
        * intros c k1 r1 I. apply in_app_iff in I as [I|[I|[]]]; eauto. inversion I; subst. apply H5. apply kget_in. auto.
      + eexists; split; [reflexivity|]. destruct H as [H1 H2 H3 H4 H5 H6 H7]. apply kget_none in G. constructor; simpl; auto.
        * constructor; auto.
        * etransitivity; [apply Permutation_app_tail; exact H2|]. symmetry. apply Permutation_cons_append.
        * rewrite <- app_assoc. simpl. etransitivity; [symmetry; apply Permutation_middle|]. apply perm_skip. auto.
        * etransitivity; [apply Permutation_app_tail; exact H4|]. symmetry. apply Permutation_cons_append.
        * intros k1 r1 [I|I]; [discriminate|auto].
    - eexists; split; [reflexivity|]. eapply inv_same; eauto.
    - eexists; split; [reflexivity|]. eapply inv_same; eauto.
    - destruct (NR k r eq_refl).
  Qed.

  Lemma response_inv s k r q : inv s -> s_queue s = FetchResponse k r :: q ->
    exists s1, process_message app_call (push s q (s_flight s)) (FetchResponse k r) = Some s1 /\ inv s1.
  Proof.
    intros [H1 H2 H3 H4 H5 H6 H7] Q. rewrite Q in H3. simpl in H3.
    assert (I : In k (requested (s_fetch s))). { eapply Permutation_in; [exact H3|]. apply in_app_iff. right. left. auto. }
    apply requested_in in I as (cbs & I). pose proof (kget_of _ _ _ H1 I) as G. cbn [process_message push s_fetch]. rewrite G.
    eexists; split; [reflexivity|].
    set (s1 := with_fetch (push s q (s_flight s)) (kdel (s_fetch s) k) (s_flight (push s q (s_flight s))) (s_sent (push s q (s_flight s)))
                 (s_recv (push s q (s_flight s))) (s_got (push s q (s_flight s)) ++ [(k, r)])).
    destruct (send_all k r cbs s1) as (E1 & E2 & E3 & E4 & E5 & E6 & E7 & E8).
    pose proof (kget_perm _ _ _ H1 G) as P0.
    constructor; unfold with_fetch; cbn [s_fetch s_sent s_flight s_queue s_recv s_ans s_got]; rewrite ?E1, ?E2, ?E3, ?E4, ?E5, ?E6, ?E7, ?E8; unfold s1, with_fetch, push;
      cbn [s_fetch s_sent s_flight s_queue s_recv s_ans s_got].
    - simpl. constructor; [apply kdel_in|apply kdel_nodup; auto].
    - etransitivity; [exact H2|]. etransitivity; [apply Permutation_map; exact P0|]. auto.
    - simpl. assert (P : Permutation (k :: s_flight s ++ resp_keys q) (k :: requested (kdel (s_fetch s) k))).
      { etransitivity; [apply Permutation_middle|]. etransitivity; [exact H3|]. etransitivity; [apply perm_flat; exact P0|]. auto. }
      apply Permutation_cons_inv in P. auto.
    - etransitivity; [exact H4|]. rewrite map_app, map_map. simpl.
      etransitivity; [apply Permutation_app_tail; unfold pending; apply perm_flat; exact P0|]. simpl.
      rewrite <- app_assoc. etransitivity; [apply Permutation_app_comm|]. rewrite <- app_assoc. auto.
    - intros k1 r1 [J|J]; [inversion J; subst; apply in_app_iff; right; left; auto|]. apply in_app_iff. left. apply H5.
      eapply Permutation_in; [symmetry; exact P0|]. right. auto.
    - intros c k1 r1 J. apply in_app_iff in J as [J|J]; [apply in_app_iff; left; eauto|].
      apply in_map_iff in J as (c1 & J & _). inversion J; subst. apply in_app_iff. right. left. auto.
    - rewrite map_app. simpl. etransitivity; [symmetry; apply Permutation_cons_append|]. apply perm_skip. etransitivity; [exact H7|].
      unfold responded. etransitivity; [apply perm_flat; exact P0|]. auto.
  Qed.

  Lemma step_inv s o : inv s -> step s o -> exists s1, o = Some s1 /\ inv s1.
  Proof.
    intros H S. inversion S as [s0 m q D Q|s0 D Q W|s0 f1 k f2 r F|s0]; subst.
    - destruct m as [m| |k r].
      + destruct (process_inv (push s q (s_flight s)) (FromApp m)) as (s1 & E & I); [discriminate| |eauto].
        eapply inv_same; eauto. simpl. rewrite Q. auto.
      + destruct (process_inv (push s q (s_flight s)) TimeoutAndSendResponse) as (s1 & E & I); [discriminate| |eauto].
        eapply inv_same; eauto. simpl. rewrite Q. auto.
      + destruct (response_inv s k r q H Q) as (s1 & E & I). eauto.
    - eexists; split; [reflexivity|]. eapply inv_same; eauto.
    - eexists; split; [reflexivity|]. destruct H as [H1 H2 H3 H4 H5 H6 H7]. constructor; auto. simpl. etransitivity; [|exact H3]. rewrite F.
      unfold resp_keys. rewrite flat_map_app. simpl. fold (resp_keys (s_queue s)). rewrite <- !app_assoc. apply Permutation_app_head. simpl.
      symmetry. rewrite app_assoc. apply Permutation_cons_append.
    - eexists; split; [reflexivity|]. eapply inv_same; eauto. simpl. unfold resp_keys. rewrite flat_map_app. simpl. rewrite app_nil_r. auto.
  Qed.

  Lemma start_inv a ms : inv (started a ms).
  Proof.
    constructor; simpl; try constructor; try tauto. change (resp_keys (map FromApp ms)) with (resp_keys ([] ++ map FromApp ms)). rewrite resp_app. constructor.
  Qed.

  Lemma reach_inv a ms s : reach a ms s -> inv s.
  Proof. induction 1 as [|s s1 _ IH S]; [apply start_inv|]. destruct (step_inv _ _ IH S) as (s2 & E & I). congruence. Qed.

  (** ** Theorems *)

  (** The loop never panics. *)
  Theorem C44_no_panic a ms s : reach a ms s -> ~ step s None.
  Proof. intros H S. destruct (step_inv _ _ (reach_inv _ _ _ H) S) as (s1 & E & _). discriminate. Qed.

  (** Every request received from the application is either answered or waiting, and never both: as multisets of
      (callback, request), the requests received are those pending and those answered.  An answer is the one response that
      the network gave to the request. *)
  Theorem C44_answers a ms s : reach a ms s ->
    (exists wait, Permutation (s_recv s) (wait ++ map fst (s_ans s)) /\ (waiting_request s = 0 -> wait = [])) /\
    (forall c k r, In (c, k, r) (s_ans s) -> In (k, r) (s_got s)) /\ NoDup (map fst (s_got s)).
  Proof.
    intros H. destruct (reach_inv _ _ _ H) as [H1 H2 H3 H4 H5 H6 H7]. split; [|split; auto].
    - exists (pending (s_fetch s)). split; auto. unfold waiting_request, pending. intros W. clear - W.
      induction (s_fetch s) as [|[k [cbs|r]] f IH]; simpl in *; auto. discriminate.
    - eapply Permutation_NoDup; [symmetry; exact H7|]. clear - H1. unfold responded. induction (s_fetch s) as [|[k [cbs|r]] f IH]; simpl in *; [constructor| |]; inversion H1; subst; auto.
      constructor; auto. intros I. apply H2. apply in_flat_map in I as ([k1 [c1|r1]] & I1 & I2); simpl in I2; [destruct I2|].
      destruct I2 as [->|[]]. apply (in_map fst) in I1. auto.
  Qed.

  (** When the page is sent (neither because of the timeout, a panic, nor a plain response), every fetch request received has been
      answered, exactly once, and no request is in flight. *)
  Theorem C44_page_complete a ms s s1 : reach a ms s -> s_done s = None -> step s (Some s1) -> s_done s1 = Some Built ->
    Permutation (s_recv s1) (map fst (s_ans s1)) /\ s_flight s1 = [] /\ s_queue s1 = [].
  Proof.
    intros H D S B. pose proof (reach_inv _ _ _ H) as I.
    assert (W : s1 = finish s Built /\ s_queue s = [] /\ waiting_request s = 0).
    { clear H I. inversion S as [s0 m q D0 Q E0 E|s0 D0 Q W E0 E|s0 f1 k f2 r F E0 E|s0 E0 E]; subst; auto.
      - exfalso. destruct m as [[u| |cb|cb k|]| |k r]; cbn [process_message] in *.
        + inversion E; subst; simpl in B; congruence.
        + inversion E; subst; simpl in B; congruence.
        + cbn [push s_app] in E. destruct (app_call (s_app s) cb None) as [? ?]; inversion E; subst; simpl in B; congruence.
        + cbn [push s_fetch] in E. destruct (kget (s_fetch s) k) as [[cbs|r]|]; inversion E; subst.
          * simpl in B; congruence.
          * unfold send_fetch_response in B. destruct (app_call _ _ _) in B. simpl in B. congruence.
          * simpl in B; congruence.
        + inversion E; subst; simpl in B; congruence.
        + inversion E; subst; simpl in B; congruence.
        + cbn [push s_fetch] in E. destruct (kget (s_fetch s) k) as [[cbs|r0]|]; inversion E; subst.
          * cbn [with_fetch s_done] in B. match type of B with s_done (fold_left _ _ ?x) = _ => destruct (send_all k r cbs x) as (_ & _ & E3 & _); rewrite E3 in B end.
            simpl in B. congruence.
          * simpl in B. congruence.
      - simpl in B. congruence.
      - simpl in B. congruence. }
    destruct W as (-> & Q & W). destruct (C44_answers _ _ _ H) as [(wait & P & Z) _]. rewrite (Z W) in P. split; [exact P|]. split; [|exact Q].
    simpl. pose proof (i_flight _ I) as F. rewrite Q in F. simpl in F. rewrite app_nil_r in F.
    assert (RQ : requested (s_fetch s) = []).
    { unfold waiting_request in W. unfold requested. clear - W. induction (s_fetch s) as [|[k [cbs|r]] f IH]; simpl in *; auto. discriminate. }
    rewrite RQ in F. apply Permutation_nil. symmetry. auto.
  Qed.

  (** The loop is never stuck: when it waits for a message, a request is in flight. *)
  Theorem C44_no_deadlock a ms s : reach a ms s -> s_queue s = [] -> waiting_request s <> 0 -> s_flight s <> [].
  Proof.
    intros H Q W E. pose proof (i_flight _ (reach_inv _ _ _ H)) as F. rewrite Q, E in F. simpl in F. apply Permutation_nil in F. apply W.
    unfold waiting_request. unfold requested in F. clear - F. induction (s_fetch s) as [|[k [cbs|r]] f IH]; simpl in *; auto. discriminate.
  Qed.

  (** Identical requests are sent once: same content and same order of headers. *)
  Theorem C44_sent_once a ms s : reach a ms s -> NoDup (s_sent s) /\ forall k, In k (s_sent s) <-> exists c, In (c, k) (s_recv s).
  Proof.
    intros H. split.
    - destruct (reach_inv _ _ _ H). eapply Permutation_NoDup; [symmetry; eauto|auto].
    - induction H as [|s s1 H IH S]; [simpl; firstorder|].
      assert (same : s_sent s1 = s_sent s -> s_recv s1 = s_recv s -> forall k, In k (s_sent s1) <-> exists c, In (c, k) (s_recv s1)).
      { intros E1 E2. rewrite E1, E2. auto. }
      inversion S as [s0 m q D0 Q E0 EE|s0 D0 Q W E0 EE|s0 f1 k f2 r F E0 EE|s0 E0 EE]; subst; auto.
      destruct m as [[u| |cb|cb k|]| |k r]; cbn [process_message] in *.
      + inversion EE; subst; auto.
      + inversion EE; subst; auto.
      + cbn [push s_app] in *. destruct (app_call (s_app s) cb None) as [? ?]; inversion EE; subst; auto.
      + cbn [push s_fetch] in *. destruct (kget (s_fetch s) k) as [st|] eqn:G.
        * assert (K : In k (s_sent s)).
          { pose proof (i_sent _ (reach_inv _ _ _ H)) as P. eapply Permutation_in; [symmetry; exact P|]. apply kget_in in G. apply (in_map fst) in G. auto. }
          assert (E : s_sent s1 = s_sent s /\ s_recv s1 = s_recv s ++ [(cb, k)]).
          { destruct st; inversion EE; subst; auto. unfold send_fetch_response. destruct (app_call _ _ _). auto. }
          destruct E as [E1 E2]. rewrite E1, E2. intros k0. rewrite IH. split.
          -- intros (c & I). exists c. apply in_app_iff. auto.
          -- intros (c & I). apply in_app_iff in I as [I|[I|[]]]; [eauto|]. inversion I; subst. apply IH. auto.
        * inversion EE; subst. simpl. intros k0. rewrite in_app_iff, IH. simpl. split.
          -- intros [(c & I)|[<-|[]]]; [exists c; apply in_app_iff; auto|]. exists cb. apply in_app_iff. right. left. auto.
          -- intros (c & I). apply in_app_iff in I as [I|[I|[]]]; [left; eauto|]. inversion I; subst. auto.
      + inversion EE; subst; auto.
      + inversion EE; subst; auto.
      + cbn [push s_fetch] in *. destruct (kget (s_fetch s) k) as [[cbs|r0]|]; inversion EE; subst; auto.
        cbn [with_fetch s_sent s_recv]. match goal with |- context [fold_left _ _ ?x] => destruct (send_all k r cbs x) as (_ & _ & _ & E4 & E5 & _) end.
        rewrite E4, E5. auto.
  Qed.

  (** C44's de-duplication in full: requests that are equal are sent once. *)
  Definition equal_sent_once : Prop := forall a ms s, reach a ms s -> NoDup (map k_content (s_sent s)).

  (** It holds if equal requests iterate their headers in the same order, e.g. if no request has more than one header. *)
  Theorem C44_equal_sent_once_partial (order : N -> N) a ms s : reach a ms s ->
    (forall c k, In (c, k) (s_recv s) -> k_order k = order (k_content k)) -> NoDup (map k_content (s_sent s)).
  Proof.
    intros H O. destruct (C44_sent_once _ _ _ H) as [ND K].
    assert (OS : forall k, In k (s_sent s) -> k_order k = order (k_content k)). { intros k I. apply K in I as (c & I). eauto. }
    revert ND OS. generalize (s_sent s). induction l as [|k l IH]; simpl; intros ND OS; [constructor|]. inversion ND; subst. constructor; auto.
    intros I. apply in_map_iff in I as (k2 & E & I). apply H2. replace k with k2; auto.
    destruct k as [x y], k2 as [x2 y2]. simpl in E. subst x2. f_equal.
    rewrite <- (OS {| k_content := x; k_order := y |} (or_introl eq_refl)) at 1 || idtac.
    specialize (OS {| k_content := x; k_order := y2 |} (or_intror I)) as A2. specialize (OS {| k_content := x; k_order := y |} (or_introl eq_refl)) as A1.
    simpl in A1, A2. congruence.
  Qed.
End Props.

Lemma st_recv_to {A R} (f : A -> N -> option R -> A * list amsg) s m q s1 : s_done s = None -> s_queue s = m :: q ->
  process_message f (push s q (s_flight s)) m = Some s1 -> step f s (Some s1).
Proof. intros D Q E. rewrite <- E. apply st_recv; auto. Qed.

(** Two equal requests whose headers are iterated in different orders are sent twice. *)
Definition no_app (a : unit) (cb : N) (r : option unit) : unit * list amsg := (tt, []).
Definition twice : list amsg := [FetchRequest 1 (Key 7 0); FetchRequest 2 (Key 7 1)].
Theorem C44_dedup_refuted : exists a ms s, reach no_app a ms s /\
  (forall c k, In (c, k) (s_recv s) -> k_content k = 7%N) /\ length (s_sent s) = 2.
Proof.
  exists tt, twice. eexists. split.
  - eapply re_step; [eapply re_step; [apply re_start|]|].
    + eapply st_recv_to; [reflexivity|reflexivity|cbv; reflexivity].
    + eapply st_recv_to; [reflexivity|reflexivity|cbv; reflexivity].
  - split; [|reflexivity]. simpl. intros c k [E|[E|[]]]; inversion E; reflexivity.
Qed.
Theorem C44_equal_sent_once_refuted : ~ equal_sent_once no_app.
Proof.
  intros H. destruct C44_dedup_refuted as (a & ms & s & R & K & L).
  pose proof (H a ms s R) as ND. destruct (C44_sent_once _ _ _ _ R) as [_ S].
  destruct (s_sent s) as [|k1 [|k2 [|]]] eqn:E; try discriminate L. simpl in ND. inversion ND as [|? ? NI _]; subst. apply NI. left.
  destruct (proj1 (S k1) (or_introl eq_refl)) as (c1 & I1). destruct (proj1 (S k2) (or_intror (or_introl eq_refl))) as (c2 & I2).
  rewrite (K _ _ I1), (K _ _ I2). reflexivity.
Qed.

(** A case: two requests for the same page, then a third one after the response. *)
Module ServerDemo.
  Definition again (a : bool) (cb : N) (r : option N) : bool * list amsg := (true, if a then [] else [DomUpdate 5; FetchRequest 3 (Key 7 0)]).
  Example C44_case : exists s s1, reach again false [FetchRequest 1 (Key 7 0); FetchRequest 2 (Key 7 0)] s /\ s_done s = None /\
    step again s (Some s1) /\ s_done s1 = Some Built /\ s_ans s1 = [(1, Key 7 0, 200); (2, Key 7 0, 200); (3, Key 7 0, 200)]%N /\ length (s_sent s1) = 1.
  Proof.
    eexists. eexists. split.
    - eapply re_step; [eapply re_step; [eapply re_step; [eapply re_step; [eapply re_step; [eapply re_step; [apply re_start|]|]|]|]|]|].
      + eapply st_recv_to; [reflexivity|reflexivity|cbv; reflexivity].
      + eapply st_recv_to; [reflexivity|reflexivity|cbv; reflexivity].
      + apply (st_net again _ [] (Key 7 0) [] 200%N). reflexivity.
      + eapply st_recv_to; [reflexivity|reflexivity|cbv; reflexivity].
      + eapply st_recv_to; [reflexivity|reflexivity|cbv; reflexivity].
      + eapply st_recv_to; [reflexivity|reflexivity|cbv; reflexivity].
    - split; [reflexivity|]. split; [apply st_idle; reflexivity|]. split; [reflexivity|]. split; reflexivity.
  Qed.
End ServerDemo.
