(** Properties C43 (lazy cache) and C46 (conversion of responses). *)

From Coq Require Import String List NArith ZArith Bool Lia.
From Verif Require Import CodecModel JsonModel DomWire FetchModel.
Import ListNotations.
Local Open Scope string_scope.
Local Open Scope list_scope.
Local Open Scope nat_scope.

Section Props.
  Variable show : fbody -> bytes.
  Context {T : Type}.
  Notation answer := (fetch_answer show).

  (** ** C46 *)

  (** What the browser passes to the callback: success flag, status, body. *)
  Definition js_body (b : fbody) : jsval := match b with BText s => VString s | BJson j => VJson j | BBin v => VVec v end.
  Definition js_response (success : bool) (status : N) (b : fbody) : jsval :=
    VList [if success then VTrue else VFalse; VU32 status; js_body b].

  (** A response: the converter decides, and where it does not the status is reported; a failure is reported as
      it is. *)
  Theorem C46_into : forall (convert : N -> fbody -> option (result T)) status b,
    (forall data, answer (js_response true status b) = Some data ->
       (forall r, convert status b = Some r -> rr_into convert data = r) /\
       (convert status b = None -> rr_into convert data = Bad (str "Unhandled response code " ++ dec status))) /\
    (forall data, answer (js_response false status b) = Some data -> rr_into convert data = Bad (show b)) /\
    (exists d1 d2, answer (js_response true status b) = Some d1 /\ answer (js_response false status b) = Some d2).
  Proof.
    intros convert status b. unfold fetch_answer, js_response.
    assert (P : forall s : bool, fetch_params (VList [if s then VTrue else VFalse; VU32 status; js_body b]) = Some (s, status, b)) by (intros []; destruct b; reflexivity).
    rewrite (P true), (P false). split; [|split].
    - intros data [= <-]. simpl. split; intros; rewrite ?H; auto.
    - intros data [= <-]. auto.
    - eauto.
  Qed.

  (** [into_data]: the value iff the request succeeded and the body is JSON that decodes to it. *)
  Theorem C46_into_data : forall (decode : json -> result T) data a,
    into_data decode data = Good a <-> exists status j, data = Good (status, BJson j) /\ decode j = Good a.
  Proof.
    intros decode data a. unfold into_data, rr_into, body_into. split.
    - destruct data as [[status [s|j|v]]|e]; try discriminate. intros H. exists status, j. split; auto.
      destruct (decode j); congruence.
    - intros (status & j & -> & E). rewrite E. auto.
  Qed.

  (** Anything else passed to the callback is reported to nobody: the future stays pending.  So "conversion is
      total" fails for arguments that cannot be decoded. *)
  Theorem C46_undecodable_refuted : exists params, answer params = None.
  Proof. exists VUndefined. reflexivity. Qed.

  (** ... and these are the only ones. *)
  Theorem C46_published : forall params, answer params <> None -> exists success status b, params = js_response success status b.
  Proof.
    intros params. unfold fetch_answer. destruct (fetch_params params) as [[[s st] b]|] eqn:E; [|congruence]. intros _.
    destruct params as [| | | | | | | | | | |l| |]; try discriminate E.
    destruct l as [|x [|y [|z [|w l]]]]; simpl in E; try discriminate E; destruct y; try discriminate E.
    destruct x; try discriminate E; destruct z as [| | | | | | | | |v|t| | |j]; inversion E; subst.
    + exists true, st, (BBin v). auto.
    + exists true, st, (BText t). auto.
    + exists true, st, (BJson j). auto.
    + exists false, st, (BBin v). auto.
    + exists false, st, (BText t). auto.
    + exists false, st, (BJson j). auto.
  Qed.

  (** ** C43 *)

  Variable map_response : N -> fbody -> option (result T).
  Variable ttl : option N.
  Notation run := (l_run show map_response ttl).
  Notation step := (l_step show map_response ttl).
  Notation lev := (lev T).

  (** Read off a history: the last result stored (with its expiry), the time, the number of events. *)
  Definition cached_step (c : option (resource T * option N)) (e : lev) : option (resource T * option N) :=
    match e with
    | VStored r x => Some (r, x)
    | VLoading => Some (Loading, None)
    | VForgot => None
    | _ => c
    end.
  Definition cached (tr : list lev) := fold_left cached_step tr None.
  Definition time_of (t0 : N) (tr : list lev) : N := fold_left (fun t e => match e with VTime n => n | _ => t end) tr t0.
  Definition how_many (p : lev -> bool) (tr : list lev) : nat := length (filter p tr).
  Definition is_spawn (e : lev) := match e with VSpawn => true | _ => false end.
  Definition is_end (e : lev) := match e with VEnd => true | _ => false end.
  Definition is_request (e : lev) := match e with VRequest => true | _ => false end.
  Definition is_stored (e : lev) := match e with VStored _ _ => true | _ => false end.

  (** What a read shows; is a refresh needed; no update is going on. *)
  Definition shown (tr : list lev) : resource T := match cached tr with Some (r, _) => r | None => Loading end.
  Definition stale (t0 : N) (tr : list lev) : Prop :=
    match cached tr with None => True | Some (_, None) => False | Some (_, Some e) => (e < time_of t0 tr)%N end.
  Definition idle (tr : list lev) : Prop := how_many is_spawn tr = how_many is_end tr.

  Lemma how_app p a b : how_many p (a ++ b) = how_many p a + how_many p b.
  Proof. unfold how_many. rewrite filter_app, app_length. auto. Qed.
  Lemma cached_app a b : cached (a ++ b) = fold_left cached_step b (cached a).
  Proof. apply fold_left_app. Qed.

  (** The value in the cache. *)
  Definition as_cached (a : api T) : option (resource T * option N) :=
    match a with Uninitialized => None | Data r x => Some (r, x) end.

  Record linv (t0 : N) (s : lcache T) (tr : list lev) : Prop := LInv {
    li_value : as_cached (lc_value s) = cached tr;
    li_time : lc_now s = time_of t0 tr;
    li_tasks : if lc_queued s
               then exists t, lc_tasks s = [t] /\ how_many is_spawn tr = S (how_many is_end tr) /\
                    how_many is_request tr = match t with Spawned _ _ => how_many is_stored tr | _ => S (how_many is_stored tr) end
               else lc_tasks s = [] /\ how_many is_spawn tr = how_many is_end tr /\ how_many is_request tr = how_many is_stored tr
  }.

  (** Each event is right with respect to what came before: reads show what is cached, an update starts only when
      none is going on, and no request is sent while another is in flight. *)
  Definition right_event (before : list lev) (e : lev) : Prop :=
    match e with
    | VGot r => r = shown before
    | VSpawn => idle before
    | VRequest => how_many is_request before = how_many is_stored before
    | _ => True
    end.
  Definition all_right (tr : list lev) : Prop := forall t1 e t2, tr = t1 ++ e :: t2 -> right_event t1 e.

  Lemma right_snoc tr e : all_right tr -> right_event tr e -> all_right (tr ++ [e]).
  Proof.
    intros A B t1 e' t2 E. destruct t2 as [|y t2] using rev_ind.
    - apply app_inj_tail in E. destruct E; subst. auto.
    - rewrite app_comm_cons, app_assoc in E. apply app_inj_tail in E. destruct E; subst. eapply A; eauto.
  Qed.

  Lemma time_app t0 a b : time_of t0 (a ++ b) = time_of (time_of t0 a) b.
  Proof. apply fold_left_app. Qed.

  Lemma api_shown s tr : as_cached (lc_value s) = cached tr -> api_value (lc_value s) = shown tr.
  Proof. unfold shown. intros <-. destruct (lc_value s); auto. Qed.

  Lemma needs_iff t0 s tr : linv t0 s tr -> (needs_update (lc_now s) (lc_value s) = true <-> stale t0 tr).
  Proof.
    intros [V Tm _]. unfold stale. rewrite <- V, <- Tm. destruct (lc_value s) as [|r [e|]]; simpl; try tauto.
    - rewrite N.ltb_lt. tauto.
    - split; [discriminate|tauto].
  Qed.

  Ltac counts := unfold idle in *; rewrite ?how_app; cbn [how_many filter is_spawn is_end is_request is_stored length]; rewrite ?PeanoNat.Nat.add_0_r; try lia; auto.

  Lemma step_inv t0 s tr o : linv t0 s tr -> all_right tr ->
    linv t0 (fst (step s o)) (tr ++ snd (step s o)) /\ all_right (tr ++ snd (step s o)).
  Proof.
    intros I R. pose proof I as [V Tm K].
    assert (N0 : forall p, how_many p (tr ++ []) = how_many p tr) by (intros; rewrite app_nil_r; auto).
    assert (same : linv t0 s (tr ++ []) /\ all_right (tr ++ [])) by (rewrite app_nil_r; auto).
    assert (upd : forall w f tr', linv t0 s tr' -> all_right tr' ->
       linv t0 (fst (update s w f)) (tr' ++ snd (update s w f)) /\ all_right (tr' ++ snd (update s w f))).
    { intros w f tr' [V' Tm' K'] R'. unfold update. destruct (lc_queued s) eqn:Q.
      - simpl. rewrite app_nil_r. split; auto. constructor; auto. rewrite Q. auto.
      - destruct K' as (A & B & C). simpl. rewrite A. split.
        + constructor; simpl; rewrite ?cached_app, ?time_app; auto. exists (Spawned w f). split; auto.
          split; [|]; counts.
        + apply right_snoc; auto. }
    destruct o as [|w f| |i|i params|i|n]; simpl.
    - assert (GI : linv t0 s (tr ++ [VGot (api_value (lc_value s))]) /\ all_right (tr ++ [VGot (api_value (lc_value s))])).
      { split; [|apply right_snoc; auto; simpl; apply api_shown; auto].
        constructor; simpl; rewrite ?cached_app, ?time_app; auto.
        destruct (lc_queued s).
        - destruct K as (t & A & B & C). exists t. split; auto. split; counts; destruct t; counts.
        - destruct K as (A & B & C). split; auto. split; counts. }
      destruct (negb (lc_queued s) && needs_update (lc_now s) (lc_value s)).
      + specialize (upd false false _ (proj1 GI) (proj2 GI)). destruct (update s false false) as [s1 ev]. simpl in *.
        rewrite <- app_assoc in upd. auto.
      + simpl. auto.
    - apply upd; auto.
    - split; [|apply right_snoc; auto; exact Logic.I]. constructor; simpl; rewrite ?cached_app, ?time_app; auto.
      destruct (lc_queued s).
      + destruct K as (t & A & B & C). exists t. split; auto. split; counts; destruct t; counts.
      + destruct K as (A & B & C). split; auto. split; counts.
    - destruct (lc_queued s) eqn:Q.
      + destruct K as (t & A & B & C). rewrite A. destruct i as [|i]; [|destruct i; exact same]. simpl.
        destruct t as [w f| | |]; try exact same. simpl negb. cbv iota.
        destruct (f || needs_update (lc_now s) (lc_value s)).
        * destruct w; simpl.
          -- split.
             ++ constructor; simpl; rewrite ?cached_app, ?time_app; auto. exists Waiting. split; auto. split; counts.
             ++ change ([VLoading; VRequest]) with ([VLoading] ++ [VRequest (T := T)]). rewrite app_assoc. apply right_snoc.
                ** apply right_snoc; auto; exact Logic.I.
                ** simpl. counts.
          -- split; [|apply right_snoc; auto]. constructor; simpl; rewrite ?cached_app, ?time_app; auto. exists Waiting. split; auto. split; counts.
        * simpl. split; [|apply right_snoc; auto; exact Logic.I]. constructor; simpl; rewrite ?cached_app, ?time_app; auto. split; auto. split; counts.
      + destruct K as (A & B & C). rewrite A. destruct i; exact same.
    - destruct (lc_queued s) eqn:Q.
      + destruct K as (t & A & B & C). rewrite A. destruct i as [|i]; [|destruct i; exact same]. simpl.
        destruct t as [w f| | |]; try exact same. simpl. split; [|apply same].
        rewrite app_nil_r. constructor; simpl; auto. exists (match answer params with Some r => Published r | None => Dead end).
        split; auto. split; auto. destruct (answer params); auto.
      + destruct K as (A & B & C). rewrite A. destruct i; exact same.
    - destruct (lc_queued s) eqn:Q.
      + destruct K as (t & A & B & C). rewrite A. destruct i as [|i]; [|destruct i; exact same]. simpl.
        destruct t as [w f| |r|]; try exact same. simpl. split.
        * constructor; simpl; rewrite ?cached_app, ?time_app; auto. split; auto. split; counts.
        * match goal with |- all_right (tr ++ [?a; ?b]) => change [a; b] with ([a] ++ [b]) end. rewrite app_assoc.
          apply right_snoc; [apply right_snoc; auto; exact Logic.I|exact Logic.I].
      + destruct K as (A & B & C). rewrite A. destruct i; exact same.
    - split; [|apply right_snoc; auto; exact Logic.I]. constructor; simpl; rewrite ?cached_app, ?time_app; auto.
      destruct (lc_queued s).
      + destruct K as (t & A & B & C). exists t. split; auto. split; counts; destruct t; counts.
      + destruct K as (A & B & C). split; auto. split; counts.
  Qed.

  Lemma run_app s a b : run s (a ++ b) = let '(s1, e1) := run s a in let '(s2, e2) := run s1 b in (s2, e1 ++ e2).
  Proof.
    revert s. induction a as [|o a IH]; simpl; intros s; [destruct (run s b); auto|].
    destruct (step s o) as [s1 e1]. rewrite IH. destruct (run s1 a) as [s2 e2]. destruct (run s2 b) as [s3 e3]. rewrite app_assoc. auto.
  Qed.

  Lemma run_inv t0 ops : let '(s, tr) := run (lcache_new t0) ops in linv t0 s tr /\ all_right tr.
  Proof.
    induction ops as [|o ops IH] using rev_ind.
    - simpl. split; [constructor; simpl; auto|]. intros t1 e t2 E. destruct t1; discriminate.
    - rewrite run_app. destruct (run (lcache_new t0) ops) as [s tr]. simpl. destruct IH as [I R].
      pose proof (step_inv t0 s tr o I R) as X. destruct (step s o) as [s1 e1]. simpl in *. rewrite app_nil_r. auto.
  Qed.

  (** The history of a cache. *)
  Definition history (t0 : N) (ops : list lop) : list lev := snd (run (lcache_new t0) ops).

  (** Reads show the last stored result ("loading" before the first one or when so requested), updates are
      exclusive and there is never more than one request in flight. *)
  Theorem C43_history : forall t0 ops, all_right (history t0 ops).
  Proof. intros t0 ops. unfold history. pose proof (run_inv t0 ops). destruct (run (lcache_new t0) ops). apply H. Qed.

  (** A read starts an update iff the cached result is missing or expired (and none is going on already). *)
  Theorem C43_read_starts : forall t0 ops, let tr := history t0 ops in
    (idle tr /\ stale t0 tr -> history t0 (ops ++ [LGet]) = tr ++ [VGot (shown tr); VSpawn]) /\
    (~ (idle tr /\ stale t0 tr) -> history t0 (ops ++ [LGet]) = tr ++ [VGot (shown tr)]).
  Proof.
    intros t0 ops. cbv zeta. unfold history. rewrite run_app. pose proof (run_inv t0 ops) as H.
    destruct (run (lcache_new t0) ops) as [s tr]. destruct H as [I R]. simpl.
    assert (Q : lc_queued s = false <-> idle tr).
    { unfold idle. destruct I as [_ _ K]. destruct (lc_queued s); [destruct K as (t & A & B & C)|destruct K as (A & B & C)]; split; auto; try discriminate. lia. }
    pose proof (needs_iff t0 s tr I) as ND. rewrite (api_shown s tr (li_value _ _ _ I)). unfold update.
    destruct (lc_queued s); simpl.
    - split; [intros [A _]; apply Q in A; discriminate|auto].
    - destruct (needs_update (lc_now s) (lc_value s)); simpl.
      + split; [auto|]. intros X. destruct X. split; [apply Q|apply ND]; auto.
      + split; [intros [_ B]; apply ND in B; discriminate|auto].
  Qed.

  (** An update started by a read sends its request when the timer runs it, unless the clock was turned back. *)
  Theorem C43_read_requests : forall t0 ops mid, let tr := history t0 ops in let tr2 := history t0 (ops ++ LGet :: mid) in
    idle tr -> stale t0 tr -> (forall i, ~ In (LRun i) mid) -> (time_of t0 tr <= time_of t0 tr2)%N ->
    history t0 (ops ++ LGet :: mid ++ [LRun 0]) = tr2 ++ [VRequest].
  Proof.
    intros t0 ops mid. cbv zeta. intros ID ST NR LE.
    pose proof (proj1 (C43_read_starts t0 ops) (conj ID ST)) as G. unfold history in *.
    pose proof (run_inv t0 ops) as H0. pose proof (run_inv t0 (ops ++ [LGet])) as H1.
    pose proof (run_inv t0 (ops ++ LGet :: mid)) as H2.
    replace (ops ++ LGet :: mid ++ [LRun 0]) with ((ops ++ LGet :: mid) ++ [LRun 0]) by (rewrite <- app_assoc; auto).
    rewrite run_app.
    replace (ops ++ LGet :: mid) with ((ops ++ [LGet]) ++ mid) in * by (rewrite <- app_assoc; auto).
    assert (SP : forall s0 ms, (forall i, ~ In (LRun i) ms) -> lc_tasks s0 = [Spawned false false] -> lc_queued s0 = true ->
       let s1 := fst (run s0 ms) in lc_tasks s1 = [Spawned false false] /\ lc_queued s1 = true /\
       (lc_value s1 = lc_value s0 \/ lc_value s1 = Uninitialized)).
    { clear. intros s0 ms. revert s0. induction ms as [|o ms IH]; simpl; intros s0 NR A B; [auto|].
      assert (X : let s1 := fst (step s0 o) in lc_tasks s1 = [Spawned false false] /\ lc_queued s1 = true /\
         (lc_value s1 = lc_value s0 \/ lc_value s1 = Uninitialized)).
      { destruct o; simpl; unfold update; rewrite ?B; simpl; rewrite ?A; auto.
        - destruct (NR i); auto.
        - destruct i as [|[|i]]; simpl; auto.
        - destruct i as [|[|i]]; simpl; auto. }
      destruct (step s0 o) as [s1 e1]. simpl in X. destruct X as (X1 & X2 & X3).
      specialize (IH s1 (fun i I => NR i (or_intror I)) X1 X2). destruct (run s1 ms) as [s2 e2]. simpl in *.
      destruct IH as (Y1 & Y2 & Y3). split; auto. split; auto. destruct Y3; auto. destruct X3; [left|right]; congruence. }
    rewrite !run_app in *. destruct (run (lcache_new t0) ops) as [s tr]. 
    assert (ST0 : lc_tasks s = [] /\ lc_queued s = false /\ needs_update (lc_now s) (lc_value s) = true).
    { destruct H0 as [I _]. split; [|split].
      - destruct I as [_ _ K]. unfold idle in ID. simpl in ID. destruct (lc_queued s); [destruct K as (t & A & B & C); lia|tauto].
      - destruct I as [_ _ K]. unfold idle in ID. simpl in ID. destruct (lc_queued s); [destruct K as (t & A & B & C); lia|tauto].
      - apply (needs_iff t0 s tr I); auto. }
    destruct ST0 as (T0 & Q0 & N0).
    assert (GS : step s LGet = (LCache (lc_value s) true [Spawned false false] (lc_now s), [VGot (api_value (lc_value s)); VSpawn])).
    { simpl. unfold update. rewrite Q0, T0, N0. auto. }
    cbn [l_run] in *. rewrite GS in *. cbv iota beta in *.
    set (s1 := LCache (lc_value s) true [Spawned false false] (lc_now s)) in *.
    specialize (SP s1 mid NR eq_refl eq_refl).
    destruct (run s1 mid) as [s2 e2]. cbv zeta in SP. simpl fst in SP. destruct SP as (P1 & P2 & P3).
    destruct H2 as [I2 _]. simpl snd in *.
    cbn [l_step]. rewrite P1. simpl nth_error. cbv iota. rewrite P2. simpl negb. cbv iota.
    assert (N2 : needs_update (lc_now s2) (lc_value s2) = true).
    { destruct P3 as [P3|P3]; [|rewrite P3; auto]. subst s1. simpl in P3. rewrite P3.
      destruct I2 as [_ T2 _]. destruct H0 as [I0 _]. destruct I0 as [_ T00 _].
      rewrite T2. rewrite T00 in N0. destruct (lc_value s) as [|r [e|]]; simpl in *; auto.
      apply N.ltb_lt. apply N.ltb_lt in N0. lia. }
    rewrite N2. simpl. rewrite ?app_nil_r. reflexivity.
  Qed.

  Lemma waiting_stays s ops : (forall i v, ~ In (LAnswer i v) ops) -> lc_tasks s = [Waiting] -> lc_queued s = true ->
    lc_tasks (fst (run s ops)) = [Waiting] /\ lc_queued (fst (run s ops)) = true.
  Proof.
    revert s. induction ops as [|o ops IH]; simpl; intros s NA A B; auto.
    assert (X : lc_tasks (fst (step s o)) = [Waiting] /\ lc_queued (fst (step s o)) = true).
    { destruct o; simpl; unfold update; rewrite ?B; simpl; rewrite ?A; auto.
      - destruct i as [|[|i]]; simpl; auto.
      - destruct (NA i params); auto.
      - destruct i as [|[|i]]; simpl; auto. }
    destruct (step s o) as [s1 e1]. simpl in X. destruct X as [X1 X2].
    specialize (IH s1 (fun i v I => NA i v (or_intror I)) X1 X2). destruct (run s1 ops). auto.
  Qed.

  (** When the response of a request arrives and can be decoded, the result is stored (with the configured time to
      live) and another update can be started. *)
  Theorem C43_restart_partial : forall t0 ops i mid success status b, let tr := history t0 (ops ++ LRun i :: mid) in
    how_many is_request (history t0 (ops ++ [LRun i])) = S (how_many is_request (history t0 ops)) ->
    (forall j v, ~ In (LAnswer j v) mid) ->
    exists r, let tr2 := tr ++ [VStored r (option_map (N.add (time_of t0 tr)) ttl); VEnd] in
      history t0 (ops ++ LRun i :: mid ++ [LAnswer 0 (js_response success status b); LResume 0]) = tr2 /\ idle tr2 /\
      r = (if success then match map_response status b with
                           | Some (Good a) => RReady a | Some (Bad m) => RError m
                           | None => RError (str "Unhandled response code " ++ dec status) end
           else RError (show b)).
  Proof.
    intros t0 ops i mid success status b. cbv zeta. intros RQ NA. unfold history in *.
    pose proof (run_inv t0 (ops ++ LRun i :: mid)) as H.
    replace (ops ++ LRun i :: mid ++ [LAnswer 0 (js_response success status b); LResume 0])
      with ((ops ++ LRun i :: mid) ++ [LAnswer 0 (js_response success status b); LResume 0]) by (rewrite <- app_assoc; auto).
    rewrite (run_app _ (ops ++ LRun i :: mid)).
    assert (W : lc_tasks (fst (run (lcache_new t0) (ops ++ LRun i :: mid))) = [Waiting]).
    { pose proof (run_inv t0 ops) as H0. rewrite run_app in RQ |- *. destruct (run (lcache_new t0) ops) as [s0 tr0]. destruct H0 as [[_ _ K0] _].
      cbn [l_run l_step] in RQ |- *.
      assert (S : exists s1 e1, step s0 (LRun i) = (s1, e1) /\ lc_tasks s1 = [Waiting] /\ lc_queued s1 = true).
      { cbn [l_step]. destruct (nth_error (lc_tasks s0) i) as [[w f| | |]|] eqn:E;
          try (exfalso; revert RQ; rewrite ?app_nil_r; simpl snd; lia).
        destruct (lc_queued s0) eqn:Q; [|destruct K0 as (A & _); rewrite A in E; destruct i; discriminate].
        destruct K0 as (t & A & B & C). rewrite A in *. destruct i as [|[|i]]; try discriminate. simpl in E.
        cbn [negb] in *. destruct (f || needs_update (lc_now s0) (lc_value s0)).
        - destruct w; do 2 eexists; (split; [reflexivity|]; split; reflexivity).
        - exfalso. revert RQ. simpl snd. rewrite how_app. cbn. lia. }
      destruct S as (s1 & e1 & E & A & B). cbn [l_step] in E. rewrite E.
      pose proof (waiting_stays s1 mid NA A B) as [X _]. destruct (run s1 mid). exact X. }
    destruct (run (lcache_new t0) (ops ++ LRun i :: mid)) as [s tr]. simpl in W. destruct H as [[V Tm K] R].
    simpl snd in *. cbn [l_run l_step]. rewrite W. simpl nth_error. cbv iota beta. cbn [lc_tasks lc_value lc_queued lc_now set_nth].
    assert (A : answer (js_response success status b) = Some (if success then Good (status, b) else Bad (show b))).
    { unfold fetch_answer, js_response. destruct success, b; reflexivity. }
    rewrite A. cbn [nth_error]. rewrite Tm. eexists. split; [reflexivity|]. split.
    - rewrite W in K. destruct (lc_queued s); [|destruct K; discriminate]. destruct K as (t & _ & B & _). counts.
    - destruct success; simpl; auto. destruct (map_response status b) as [[a|m]|]; auto.
  Qed.

  (** "After a request ends another can be started" is false when the response cannot be decoded: the lock is
      kept, and whatever happens later no request is ever sent again. *)
  Theorem C43_stuck_refuted : forall t0, exists ops, let tr := history t0 ops in
    how_many is_request tr = 1 /\ cached tr = None /\
    forall later, exists more, history t0 (ops ++ later) = tr ++ more /\ how_many is_request more = 0 /\
      forall r, In (VGot r) more -> r = Loading.
  Proof.
    intros t0. exists [LGet; LRun 0; LAnswer 0 VUndefined]. cbv zeta. split; [reflexivity|]. split; [reflexivity|].
    intros later. unfold history. rewrite run_app.
    assert (G : forall later s, lc_queued s = true -> lc_tasks s = [Dead] -> lc_value s = Uninitialized ->
       how_many is_request (snd (run s later)) = 0 /\ forall r, In (VGot r) (snd (run s later)) -> r = Loading).
    { clear. induction later as [|o later IH]; simpl; intros s Q K V; [split; auto; intros r []|].
      assert (X : let '(s1, e1) := step s o in lc_queued s1 = true /\ lc_tasks s1 = [Dead] /\ lc_value s1 = Uninitialized /\
         how_many is_request e1 = 0 /\ forall r, In (VGot r) e1 -> r = Loading).
      { destruct o; simpl; unfold update; rewrite ?Q, ?K, ?V; simpl; try (destruct i as [|[|i]]; simpl);
          rewrite ?Q, ?K, ?V; (split; [auto|split; [auto|split; [auto|split; [auto|]]]]);
          intros r H; simpl in H; intuition congruence. }
      destruct (step s o) as [s1 e1]. destruct X as (X1 & X2 & X3 & X4 & X5).
      specialize (IH s1 X1 X2 X3). destruct (run s1 later) as [s2 e2]. simpl in *. destruct IH as [Y1 Y2]. split.
      - rewrite how_app, X4, Y1. auto.
      - intros r I. apply in_app_iff in I. destruct I; auto. }
    simpl run. cbv iota beta zeta.
    match goal with |- context [run ?s later] => specialize (G later s eq_refl eq_refl eq_refl); destruct (run s later) as [s2 e2] end.
    exists e2. simpl in G. split; [reflexivity|]. auto.
  Qed.
End Props.

(** One full cycle: read (loading), request, response, read again, expiry, refresh. *)
Example C43_example :
  let conv := fun (_ : N) (b : fbody) => match b with BText s => Some (Good s) | _ => None end in
  let ok := js_response true 200 (BText (str "hi")) in
  history (fun _ => []) conv (Some 10%N) 0 [LGet; LRun 0; LGet; LAnswer 0 ok; LResume 0; LGet; LTime 11; LGet; LRun 0] =
  [VGot Loading; VSpawn; VRequest; VGot Loading; VStored (RReady (str "hi")) (Some 10%N); VEnd; VGot (RReady (str "hi"));
   VTime 11; VGot (RReady (str "hi")); VSpawn; VRequest].
Proof. reflexivity. Qed.

Example C46_example :
  let conv := fun (st : N) (b : fbody) => if (st =? 200)%N then Some (Good b) else None in
  rr_into conv (Good (404%N, BText [])) = Bad (str "Unhandled response code 404") /\
  rr_into conv (Good (200%N, BText (str "x"))) = Good (BText (str "x")).
Proof. split; reflexivity. Qed.
