(** Properties of the pages under [vertigo watch] (C88). *)
From Coq Require Import List NArith Bool Lia.
From Verif Require Import WatchModel WatchProps.
Import ListNotations.
Local Open Scope N_scope.

(** A step that makes a page load: it is opened, or processes a version that is not its first. *)
Definition loads (w : world) (s : step) : option nat :=
  match s with
  | Load => if listening w then Some (length (w_pages w)) else None
  | Process i =>
      match nth_error (w_pages w) i with
      | Some p => match p_inbox p with Version _ :: _ => if p_last p then Some i else None | _ => None end
      | None => None
      end
  | _ => None
  end.

(** What is reachable if no change is taken up while a build is under way, and every page that loads does so while the status is a
    version, and is connected before the status changes. *)
Inductive orderly (compiles : N -> bool) (port : N) (lb : bool) : world -> Prop :=
| orderly_start : orderly compiles port lb start
| orderly_step w s : orderly compiles port lb w -> (s = Loop -> ~ compiling w) -> loads w s = None ->
    orderly compiles port lb (do compiles port lb w s)
| orderly_load w s i v : orderly compiles port lb w -> loads w s = Some i -> w_status w = Version v ->
    orderly compiles port lb (fold_left (do compiles port lb) [s; Connect i; Poll i] w).

(** Every message that there is for the page has been sent and processed. *)
Definition drained (w : world) (p : page) : Prop := p_emit p = Some (w_status w) /\ p_inbox p = [].

Lemma orderly_apart c port lb w : orderly c port lb w -> apart c port lb w.
Proof.
  induction 1 as [|w s H IH Hl _|w s i v H IH Hs _].
  - apply apart_start.
  - apply apart_step; assumption.
  - cbn [fold_left]. apply apart_step; [|discriminate]. apply apart_step; [|discriminate]. apply apart_step; [exact IH|].
    intros ->. discriminate Hs.
Qed.

Section C88.
  Variable compiles : N -> bool.
  Variable lb : bool.
  Notation do := (do compiles 5555 lb).

  Definition is_version (s : status) : bool := match s with Version _ => true | _ => false end.
  (** The message over the page after the last of the messages it has processed since its version. *)
  Definition over_ok (done : list status) (o : option overlay) : Prop :=
    match rev done with
    | [] => o = None
    | Building :: _ => o = Some OBuilding
    | Errors :: _ => o = Some OErrors \/ o = Some OClosed
    | Version _ :: _ => False
    end.

  (** A page that shows version [v0]: what it has been sent is that version and then [done ++ p_inbox]. *)
  Definition page_ok (w : world) (p : page) : Prop :=
    p_live p = true /\ p_conn p = true /\
    exists v0 msgs, v0 <= w_version w /\
      (v0 = w_version w -> w_status w = Version v0 /\ w_state w = Some (p_shows p)) /\
      p_emit p = Some (last msgs (Version v0)) /\
      ((p_last p = false /\ p_over p = None /\ p_inbox p = Version v0 :: msgs) \/
       (p_last p = true /\ exists done, msgs = done ++ p_inbox p /\ forallb (fun s => negb (is_version s)) done = true /\ over_ok done (p_over p))).
  Definition pages_ok (w : world) : Prop := forall p, In p (w_pages w) -> page_ok w p.

  (** What the pages depend on of the rest. *)
  Lemma page_ok_world w w' p : page_ok w p -> w_version w <= w_version w' ->
    (w_version w' = w_version w -> forall v, w_status w = Version v -> v = w_version w -> w_status w' = Version v /\ w_state w' = w_state w) ->
    page_ok w' p.
  Proof.
    intros (A & B & v0 & msgs & C & D & E) Hv Hs. split; [exact A|]. split; [exact B|]. exists v0, msgs.
    split; [lia|]. split; [|exact E]. intros ->. assert (Ev : w_version w' = w_version w) by lia. rewrite Ev in D.
    destruct (D eq_refl) as [D1 D2]. destruct (Hs Ev _ D1 eq_refl) as [F G]. rewrite Ev, G. auto.
  Qed.

  Lemma in_update {A} i (f : A -> A) l x : In x (update i f l) -> In x l \/ exists y, nth_error l i = Some y /\ x = f y.
  Proof.
    revert i. induction l as [|y l IH]; intros [|i] H; cbn in *; try contradiction.
    - destruct H as [<-|H]; eauto.
    - destruct H as [<-|H]; [auto|]. destruct (IH i H) as [G|G]; auto.
  Qed.

  Lemma last_app_one {A} (l : list A) x d : last (l ++ [x]) d = x.
  Proof. induction l as [|y l IH]; [reflexivity|]. cbn. destruct (l ++ [x]) eqn:E; [destruct l; discriminate|]. exact IH. Qed.

  Lemma poll_ok w p : page_ok w p -> page_ok w (poll (w_status w) p).
  Proof.
    intros H. unfold poll. destruct (p_conn p && _) eqn:E; [|exact H].
    destruct H as (A & B & v0 & msgs & C & D & F & G). split; [exact A|]. split; [reflexivity|].
    exists v0, (msgs ++ [w_status w]). split; [exact C|]. split; [exact D|]. split; [cbn; rewrite last_app_one; reflexivity|].
    cbn. destruct G as [(G1 & G2 & G3)|(G1 & done & G2 & G3 & G4)].
    - left. rewrite G3. auto.
    - right. split; [exact G1|]. exists done. rewrite G2, app_assoc. auto.
  Qed.

  Lemma over_app done s o : is_version s = false -> o = (match s with Building => Some OBuilding | _ => Some OErrors end) -> over_ok (done ++ [s]) o.
  Proof. intros Hs ->. unfold over_ok. rewrite rev_unit. destruct s; [reflexivity|discriminate|left; reflexivity]. Qed.

  Lemma process_ok w p : page_ok w p -> (match p_inbox p with Version _ :: _ => p_last p | _ => false end = false) -> page_ok w (process w p).
  Proof.
    intros H Hn. unfold process. destruct H as (A & B & v0 & msgs & C & D & F & G).
    destruct G as [(G1 & G2 & G3)|(G1 & done & G2 & G3 & G4)].
    - rewrite G3, G1. split; [exact A|]. split; [exact B|]. exists v0, msgs. split; [exact C|]. split; [exact D|]. split; [exact F|].
      right. split; [reflexivity|]. exists []. split; [reflexivity|]. split; [reflexivity|]. exact G2.
    - destruct (p_inbox p) as [|m t] eqn:Ei.
      { split; [exact A|]. split; [exact B|]. exists v0, msgs. rewrite Ei. split; [exact C|]. split; [exact D|]. split; [exact F|]. right. split; [exact G1|]. exists done. auto. }
      assert (Hs : is_version m = false) by (destruct m; cbn in *; congruence).
      assert (K : forall o, o = (match m with Building => Some OBuilding | _ => Some OErrors end) ->
                  page_ok w (Page (p_live p) (p_shows p) (p_last p) o (p_conn p) (p_emit p) t)).
      { intros o Ho. split; [exact A|]. split; [exact B|]. exists v0, msgs. split; [exact C|]. split; [exact D|]. split; [exact F|].
        right. split; [exact G1|]. exists (done ++ [m]). cbn. split; [rewrite <- app_assoc; exact G2|].
        split; [rewrite forallb_app, G3; cbn; rewrite Hs; reflexivity|]. apply over_app; assumption. }
      destruct m; [apply K; reflexivity|discriminate Hs|apply K; reflexivity].
  Qed.

  Lemma close_ok w p : page_ok w p -> page_ok w (close p).
  Proof.
    intros H. unfold close. destruct (p_over p) as [[]|] eqn:Eo; try exact H.
    destruct H as (A & B & v0 & msgs & C & D & F & G). split; [exact A|]. split; [exact B|]. exists v0, msgs.
    split; [exact C|]. split; [exact D|]. split; [exact F|]. cbn. destruct G as [(G1 & G2 & G3)|(G1 & done & G2 & G3 & G4)]; [congruence|].
    right. split; [exact G1|]. exists done. split; [exact G2|]. split; [exact G3|]. rewrite Eo in G4. unfold over_ok in *.
    destruct (rev done) as [|[]]; try discriminate; try contradiction. auto.
  Qed.

  Lemma connect_ok w p : page_ok w p -> page_ok w (connect 5555 p).
  Proof.
    intros H. unfold connect. destruct ((5555 =? 5555) && p_live p); [|exact H].
    destruct H as (A & B & H). split; [reflexivity|]. split; [reflexivity|]. exact H.
  Qed.

  Lemma pages_world w w' : pages_ok w -> w_pages w' = w_pages w -> w_version w <= w_version w' ->
    (w_version w' = w_version w -> forall v, w_status w = Version v -> v = w_version w -> w_status w' = Version v /\ w_state w' = w_state w) ->
    pages_ok w'.
  Proof. intros H Ep Hv Hs p Hin. rewrite Ep in Hin. apply (page_ok_world w); auto. Qed.

  (** While the status is a version, there is just the task that serves it. *)
  Lemma version_task w v : single compiles w -> w_status w = Version v ->
    v = w_version w /\ exists t s, w_tasks w = [t] /\ t_phase t = Serving true /\ t_ver t = v /\ w_state w = Some s.
  Proof.
    intros Hs Hv. unfold single in Hs. destruct (w_tasks w) as [|t [|u r]]; [| |destruct Hs].
    - destruct Hs as [A _]. congruence.
    - destruct Hs as (A & B & Hs). destruct (t_phase t) as [|[s|]|b|b] eqn:Eph; try congruence; try (destruct Hs; congruence).
      destruct Hs as (C & s & D & E & _). destruct b; [|congruence]. split; [congruence|]. exists t, s. repeat split; congruence.
  Qed.

  Lemma step_ok w s : single compiles w -> pages_ok w -> loads w s = None -> pages_ok (do w s).
  Proof.
    intros Hs H Hn. destruct s.
    - apply (pages_world w); [exact H|reflexivity|reflexivity|]. cbn. auto.
    - cbn [WatchModel.do]. unfold loop. destruct (w_permit w); [|exact H]. apply (pages_world w); [exact H|reflexivity|cbn; lia|cbn; lia].
    - cbn [WatchModel.do]. unfold go. destruct (find _ (w_tasks w)) as [t|] eqn:Ef; [|exact H].
      assert (G : forall p st d sta lg, t_phase t <> Serving true ->
                  pages_ok (World (w_src w) (w_permit w) (w_version w) (put v p (w_tasks w)) st d sta (w_pages w) lg)).
      { intros p st d sta lg Hph. apply (pages_world w); [exact H|reflexivity|reflexivity|]. intros _ v' Hv' _. exfalso.
        destruct (version_task w v' Hs Hv') as (_ & t' & s' & Et & Eph & _). rewrite Et in Ef. cbn in Ef.
        destruct (t_ver t' =? v); [|discriminate]. congruence. }
      destruct (t_phase t) as [|[s|]|b|b] eqn:Eph; try (apply G; discriminate).
      + destruct (compiles s); apply G; discriminate.
      + destruct (w_dest w); [destruct (listening w || t_aborted t)|]; apply G; discriminate.
      + exact H.
    - cbn [WatchModel.do]. unfold check. destruct (find _ (w_tasks w)) as [t|] eqn:Ef; [|exact H].
      destruct (listening w && lb); [|exact H].
      assert (G : forall p st, t_phase t <> Serving true ->
                  pages_ok (World (w_src w) (w_permit w) (w_version w) (put v p (w_tasks w)) st (w_dest w) (w_state w) (w_pages w) (w_log w))).
      { intros p st Hph. apply (pages_world w); [exact H|reflexivity|reflexivity|]. intros _ v' Hv' _. exfalso.
        destruct (version_task w v' Hs Hv') as (_ & t' & s' & Et & Eph & _). rewrite Et in Ef. cbn in Ef.
        destruct (t_ver t' =? v); [|discriminate]. congruence. }
      destruct (t_phase t) as [|[s|]|[]|[]] eqn:Eph; try exact H; apply G; discriminate.
    - cbn [WatchModel.do]. unfold fresh. cbn in Hn. destruct (listening w); [discriminate|]. exact H.
    - intros p Hin. cbn in Hin. apply in_update in Hin. destruct Hin as [Hin|(q & Hq & ->)]; [exact (H p Hin)|].
      apply connect_ok. apply nth_error_In in Hq. exact (H q Hq).
    - intros p Hin. cbn in Hin. apply in_update in Hin. destruct Hin as [Hin|(q & Hq & ->)]; [exact (H p Hin)|].
      apply nth_error_In in Hq. exact (poll_ok w q (H q Hq)).
    - intros p Hin. cbn in Hin. apply in_update in Hin. destruct Hin as [Hin|(q & Hq & ->)]; [exact (H p Hin)|].
      cbn in Hn. rewrite Hq in Hn. apply nth_error_In in Hq. apply (process_ok w q (H q Hq)).
      destruct (p_inbox q) as [|[] ?]; try reflexivity. destruct (p_last q); [discriminate|reflexivity].
    - intros p Hin. cbn in Hin. apply in_update in Hin. destruct Hin as [Hin|(q & Hq & ->)]; [exact (H p Hin)|].
      apply close_ok. apply nth_error_In in Hq. exact (H q Hq).
  Qed.

  Lemma update_update {A} i (f g : A -> A) l : update i f (update i g l) = update i (fun x => f (g x)) l.
  Proof. revert i. induction l as [|x l IH]; intros [|i]; cbn; try reflexivity. rewrite IH. reflexivity. Qed.
  Lemma update_last {A} (f : A -> A) l x : update (length l) f (l ++ [x]) = l ++ [f x].
  Proof. induction l as [|y l IH]; cbn; [reflexivity|]. rewrite IH. reflexivity. Qed.

  (** A page that has just been loaded and connected. *)
  Lemma new_ok w s : w_state w = Some s -> w_status w = Version (w_version w) ->
    page_ok w (poll (w_status w) (connect 5555 (Page true s false None false None []))).
  Proof.
    intros Hst Hv. cbn. split; [reflexivity|]. split; [reflexivity|]. exists (w_version w), []. cbn.
    split; [reflexivity|]. split; [intros _; auto|]. rewrite Hv. auto.
  Qed.

  Lemma load_ok w s i v : single compiles w -> pages_ok w -> loads w s = Some i -> w_status w = Version v ->
    pages_ok (fold_left do [s; Connect i; Poll i] w).
  Proof.
    intros Hs H Hl Hv. destruct (version_task w v Hs Hv) as (Ev & t & st & Et & Eph & _ & Est). subst v.
    assert (Hf : fresh w = Some (Page true st false None false None [])).
    { unfold fresh, listening. rewrite Et. cbn. rewrite Eph, Est. reflexivity. }
    destruct s; try discriminate Hl.
    - cbn in Hl. destruct (listening w); [|discriminate]. injection Hl as <-. cbn [fold_left WatchModel.do]. rewrite Hf.
      unfold with_pages; cbn [w_pages w_status]. rewrite !update_last. intros p Hin. cbn [w_pages] in Hin. apply in_app_or in Hin.
      destruct Hin as [Hin|[<-|[]]]; [exact (H p Hin)|]. exact (new_ok w st Est Hv).
    - cbn in Hl. destruct (nth_error (w_pages w) i0) as [q|] eqn:Eq; [|discriminate].
      destruct (p_inbox q) as [|[|v|] ?] eqn:Ei; try discriminate. destruct (p_last q) eqn:El; [|discriminate]. injection Hl as <-.
      cbn [fold_left WatchModel.do]. unfold with_pages; cbn [w_pages w_status]. rewrite !update_update.
      intros p Hin. cbn [w_pages] in Hin. apply in_update in Hin. destruct Hin as [Hin|(q' & Hq & ->)]; [exact (H p Hin)|].
      rewrite Eq in Hq. injection Hq as <-. unfold process. rewrite Ei, El, Hf. exact (new_ok w st Est Hv).
  Qed.

  Lemma orderly_ok w : orderly compiles 5555 lb w -> pages_ok w.
  Proof.
    induction 1 as [|w s H IH Hl Hn|w s i v H IH Hs Hv].
    - intros p [].
    - apply step_ok; try assumption. apply (apart_single compiles 5555 lb), orderly_apart, H.
    - apply (load_ok w s i v); try assumption. apply (apart_single compiles 5555 lb), orderly_apart, H.
  Qed.

  (** A connected page that is polled has been sent the status, whatever was sent before. *)
  Theorem C88_told w i p : nth_error (w_pages w) i = Some p -> p_conn p = true ->
    exists q, nth_error (w_pages (WatchModel.do compiles 5555 lb w (Poll i))) i = Some q /\ p_emit q = Some (w_status w) /\
      (p_inbox q = p_inbox p ++ [w_status w] \/ (p_inbox q = p_inbox p /\ p_emit p = Some (w_status w))).
  Proof.
    intros Hn Hc. exists (poll (w_status w) p). split.
    - cbn [WatchModel.do]. unfold with_pages; cbn [w_pages]. revert i Hn. induction (w_pages w) as [|x t IH]; intros [|i] Hn; try discriminate Hn.
      + injection Hn as ->. reflexivity.
      + exact (IH i Hn).
    - unfold poll. rewrite Hc. cbn [andb]. destruct (p_emit p) as [e|] eqn:E; cbn [negb].
      + destruct (status_eqb e (w_status w)) eqn:Q; cbn [negb]; [|cbn; auto].
        assert (e = w_status w) by (destruct e, (w_status w); try discriminate Q; try reflexivity; apply N.eqb_eq in Q; congruence).
        subst e. auto.
      + cbn. auto.
  Qed.

  (** In an orderly run, once all is settled, every page that has processed its messages shows the newest sources and has nothing over
      it, if they compile; if they do not, it has the errors over it, unless the user has closed them. *)
  Theorem C88_pages_partial w p : orderly compiles 5555 lb w -> settled w -> In p (w_pages w) -> drained w p ->
    p_live p = true /\
    if compiles (w_src w) then p_shows p = w_src w /\ p_over p = None
    else p_over p = Some OErrors \/ p_over p = Some OClosed.
  Proof.
    intros Ho Hset Hin [He Hi]. pose proof (orderly_ok w Ho p Hin) as (A & _ & v0 & msgs & C & D & F & G). split; [exact A|].
    pose proof (C87_settled_partial compiles 5555 lb w (orderly_apart _ _ _ _ Ho) Hset) as Hs.
    destruct G as [(_ & _ & G3)|(G1 & done & G2 & G3 & G4)]; [congruence|]. rewrite Hi, app_nil_r in G2. subst done.
    rewrite F in He. injection He as He.
    assert (K : msgs = [] \/ exists m, msgs = m ++ [w_status w]).
    { destruct msgs as [|x m _] using rev_ind; [auto|]. right. exists m. rewrite last_app_one in He. congruence. }
    destruct (compiles (w_src w)).
    - destruct Hs as (S1 & S2 & S3). destruct K as [->|(m & ->)].
      + cbn in He. rewrite S1 in He. injection He as ->. destruct (D eq_refl) as [_ E]. split; [congruence|exact G4].
      + rewrite forallb_app, S1 in G3. cbn in G3. rewrite andb_false_r in G3. discriminate.
    - destruct K as [->|(m & ->)].
      + cbn in He. congruence.
      + unfold over_ok in G4. rewrite rev_unit, Hs in G4. exact G4.
  Qed.
End C88.

(** A page is opened, the sources are changed and built again: it has been loaded again. *)
Definition opened : list step := [Load; Connect 0; Poll 0; Process 0].
Example C88_pages_ok :
  let w := run two 5555 true (built 1 ++ opened ++ [Change; Loop; Poll 0; Process 0] ++ built 2 ++ [Poll 0; Process 0; Connect 0; Poll 0; Process 0]) in
  w_pages w = [Page true 1 true None true (Some (Version 2)) []] /\ w_src w = 1.
Proof. vm_compute. auto. Qed.
(** A page that has missed the building is sent the next version. *)
Example C88_told_ok :
  let w := run two 5555 true (built 1 ++ opened ++ [Change; Loop] ++ built 2) in
  exists p, nth_error (w_pages w) 0 = Some p /\ p_conn p = true /\ p_emit p = Some (Version 1) /\ w_status w = Version 2.
Proof. eexists. vm_compute. auto. Qed.
(** Such a run is orderly. *)
Example C88_pages_hyp :
  exists w p, orderly two 5555 true w /\ settled w /\ In p (w_pages w) /\ drained w p /\ w_src w = 1 /\ two (w_src w) = true.
Proof.
  set (w := run two 5555 true (built 1 ++ opened ++ [Change; Loop; Poll 0; Process 0] ++ built 2 ++ [Poll 0; Process 0; Connect 0; Poll 0; Process 0])).
  exists w, (Page true 1 true None true (Some (Version 2)) []). split.
  - set (step := do two 5555 true).
    assert (H1 : orderly two 5555 true (fold_left step (built 1) start)).
    { unfold built. cbn [fold_left]. repeat (apply orderly_step; [|discriminate|reflexivity]). apply orderly_start. }
    assert (H2 : orderly two 5555 true (fold_left step [Load; Connect 0; Poll 0] (fold_left step (built 1) start))).
    { apply (orderly_load _ _ _ _ Load 0%nat 1 H1); reflexivity. }
    assert (H3 : orderly two 5555 true (fold_left step (built 2) (fold_left step [Process 0; Change; Loop; Poll 0; Process 0]
                    (fold_left step [Load; Connect 0; Poll 0] (fold_left step (built 1) start))))).
    { unfold built at 1. cbn [fold_left]. repeat (apply orderly_step; [|discriminate|vm_compute; reflexivity]).
      apply orderly_step; [|intros _ (t & Hin & Ht); vm_compute in Hin; destruct Hin as [<-|[]]; exact Ht|vm_compute; reflexivity].
      do 2 (apply orderly_step; [|discriminate|vm_compute; reflexivity]). exact H2. }
    assert (H4 : orderly two 5555 true (fold_left step [Process 0; Connect 0; Poll 0] (step (fold_left step (built 2) (fold_left step [Process 0; Change; Loop; Poll 0; Process 0]
                    (fold_left step [Load; Connect 0; Poll 0] (fold_left step (built 1) start)))) (Poll 0)))).
    { apply (orderly_load _ _ _ _ (Process 0) 0%nat 2); [|vm_compute; reflexivity|vm_compute; reflexivity].
      apply orderly_step; [exact H3|discriminate|reflexivity]. }
    apply (orderly_step _ _ _ _ (Process 0)) in H4; [|discriminate|vm_compute; reflexivity].
    match type of H4 with orderly _ _ _ ?x => replace w with x by (vm_compute; reflexivity) end. exact H4.
  - split; [split; [reflexivity|]; intros t Hin; vm_compute in Hin; destruct Hin as [<-|[]]; reflexivity|].
    split; [vm_compute; auto|]. split; [split; reflexivity|]. split; reflexivity.
Qed.

(** A page is loaded as soon as the new server listens, before the status is the new version: the message that a build is in progress
    appears and is never removed. *)
Theorem C88_overlay_refuted : exists l p,
  let w := run two 5555 true l in
  settled w /\ w_pages w = [p] /\ drained w p /\ p_shows p = w_src w /\ p_over p = Some OBuilding.
Proof.
  exists [Go 1; Go 1; Go 1; Go 1; Load; Connect 0; Poll 0; Process 0; Check 1; Poll 0; Process 0], (Page true 0 true (Some OBuilding) true (Some (Version 1)) []).
  vm_compute. repeat split; try reflexivity. intros t [<-|[]]. reflexivity.
Qed.

(** A page is loaded from the old server just before the sources are changed and connected just after that: it is not loaded again, and
    goes on showing the old sources. *)
Theorem C88_stale_refuted : exists l p,
  let w := run two 5555 true l in
  settled w /\ two (w_src w) = true /\ w_pages w = [p] /\ drained w p /\ p_shows p = 0 /\ w_src w = 1.
Proof.
  exists (built 1 ++ [Load; Change; Loop; Connect 0; Poll 0; Process 0] ++ built 2 ++ [Poll 0; Process 0]),
    (Page true 0 true (Some OBuilding) true (Some (Version 2)) []).
  vm_compute. repeat split; try reflexivity. intros t [<-|[]]. reflexivity.
Qed.

(** A page is told to load again, but the next change has stopped the server: the browser shows that there is no server, and this page is
    not brought up to date by the build that follows. *)
Theorem C88_dead_refuted : exists l p,
  let w := run (fun _ => true) 5555 true l in
  settled w /\ listening w = true /\ w_status w = Version 3 /\ w_pages w = [p] /\ p_live p = false.
Proof.
  exists (built 1 ++ opened ++ [Change; Loop; Poll 0; Process 0] ++ built 2 ++ [Poll 0; Change; Loop; Process 0] ++ built 3 ++ [Poll 0; Process 0; Connect 0; Poll 0; Process 0]),
    (Page false 0 false None false None []).
  vm_compute. repeat split; try reflexivity. intros t [<-|[]]. reflexivity.
Qed.

(** With another port of [--port-watch] than 5555 no page ever gets a message, and so none is ever loaded again. *)
Theorem C88_port_refuted : exists port, forall compiles lb l p,
  In p (w_pages (run compiles port lb l)) -> p_inbox p = [] /\ p_last p = false /\ p_over p = None.
Proof.
  exists 5556. intros compiles lb l.
  assert (G : forall p, In p (w_pages (run compiles 5556 lb l)) -> p_conn p = false /\ p_inbox p = [] /\ p_last p = false /\ p_over p = None).
  { unfold run. induction l as [|s l IH] using rev_ind; [intros p []|]. rewrite fold_left_app. cbn [fold_left].
    set (w := fold_left (do compiles 5556 lb) l start) in *.
    assert (U : forall i f, (forall p, p_conn p = false /\ p_inbox p = [] /\ p_last p = false /\ p_over p = None -> f p = p) ->
                forall p, In p (update i f (w_pages w)) -> p_conn p = false /\ p_inbox p = [] /\ p_last p = false /\ p_over p = None).
    { intros i f Hf p Hin. apply in_update in Hin. destruct Hin as [Hin|(q & Hq & ->)]; [auto|].
      apply nth_error_In in Hq. rewrite Hf by auto. auto. }
    destruct s; cbn [do]; try exact IH.
    - unfold loop. destruct (w_permit w); exact IH.
    - unfold go. destruct (find _ _) as [t|]; [|exact IH]. destruct (t_phase t) as [|[s|]|b|b]; try exact IH.
      + destruct (compiles s); exact IH.
      + destruct (w_dest w); [destruct (_ || _)|]; exact IH.
    - unfold check. destruct (find _ _) as [t|]; [|exact IH]. destruct (_ && _); [|exact IH]. destruct (t_phase t) as [|[s|]|[]|[]]; exact IH.
    - unfold fresh. destruct (listening w); [|exact IH]. destruct (w_state w) as [s|]; [|exact IH].
      intros p Hin. cbn in Hin. apply in_app_or in Hin. destruct Hin as [Hin|[<-|[]]]; [auto|cbn; auto].
    - apply U. intros p (A & _). unfold connect. cbn. reflexivity.
    - apply U. intros p (A & _). unfold poll. rewrite A. reflexivity.
    - apply U. intros p (_ & A & _). unfold process. rewrite A. reflexivity.
    - apply U. intros p (_ & _ & _ & A). unfold close. rewrite A. reflexivity. }
  intros p Hin. apply G in Hin. tauto.
Qed.

(** With an address of [--host] that 127.0.0.1 does not reach, no version is ever sent. *)
Theorem C88_host_refuted : exists lb, forall compiles port l v, w_status (run compiles port lb l) <> Version v.
Proof.
  exists false. intros compiles port l v. unfold run. induction l as [|s l IH] using rev_ind; [discriminate|].
  rewrite fold_left_app. cbn [fold_left]. set (w := fold_left (do compiles port false) l start) in *. destruct s; cbn [do]; try exact IH.
  - unfold loop. destruct (w_permit w); [discriminate|exact IH].
  - unfold go. destruct (find _ _) as [t|]; [|exact IH]. destruct (t_phase t) as [|[s|]|b|b]; try exact IH.
    + destruct (compiles s); [exact IH|discriminate].
    + destruct (w_dest w); [destruct (_ || _)|]; exact IH.
  - unfold check. destruct (find _ _) as [t|]; [|exact IH]. rewrite andb_false_r. exact IH.
  - unfold fresh. destruct (listening w); [|exact IH]. destruct (w_state w); exact IH.
Qed.
