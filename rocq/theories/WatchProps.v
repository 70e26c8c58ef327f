(** Properties of [vertigo watch] (C87, C88). *)
From Coq Require Import List NArith Bool Lia.
From Verif Require Import WatchModel.
Import ListNotations.
Local Open Scope N_scope.

(** Nothing is left to happen by itself: no change waits, no task is under way, the running server's version has been sent. *)
Definition settled (w : world) : Prop :=
  w_permit w = false /\ forall t, In t (w_tasks w) -> t_phase t = Serving true.

(** A build is under way. *)
Definition compiling (w : world) : Prop :=
  exists t, In t (w_tasks w) /\ match t_phase t with Compiling _ | Starting _ => True | _ => False end.

(** What is reachable if no change is taken up while a build is under way. *)
Inductive apart (compiles : N -> bool) (port : N) (lb : bool) : world -> Prop :=
| apart_start : apart compiles port lb start
| apart_step w s : apart compiles port lb w -> (s = Loop -> ~ compiling w) -> apart compiles port lb (do compiles port lb w s).

(** ** C87: what the status says *)

Lemma find_put_other v p ts v' : v' <> v ->
  find (fun t => t_ver t =? v') (put v p ts) = find (fun t => t_ver t =? v') ts.
Proof.
  intros Hn. induction ts as [|t ts IH]; [reflexivity|]. unfold put in *. cbn [flat_map].
  destruct (t_ver t =? v) eqn:E.
  - apply N.eqb_eq in E. cbn [find]. replace (t_ver t =? v') with false by (symmetry; apply N.eqb_neq; lia).
    destruct p; cbn [app find t_ver]; [|exact IH]. replace (v =? v') with false by (symmetry; apply N.eqb_neq; lia). exact IH.
  - cbn [app find]. rewrite IH. reflexivity.
Qed.

Section C87.
  Variable compiles : N -> bool.
  Variable port : N.
  Variable lb : bool.
  Notation do := (do compiles port lb).

  (** The single task of a run without overlapping builds. *)
  Definition single (w : world) : Prop :=
    match w_tasks w with
    | [] => w_status w = Errors /\ exists s, compiles s = false /\ (w_permit w = true \/ s = w_src w)
    | [t] =>
        t_ver t = w_version w /\ t_aborted t = false /\
        match t_phase t with
        | Sleeping => w_status w = Building
        | Compiling None => w_status w = Building
        | Compiling (Some s) => w_status w = Building /\ (w_permit w = true \/ s = w_src w)
        | Starting b => w_status w = Building /\ b = false /\
            exists s, w_dest w = Some s /\ compiles s = true /\ (w_permit w = true \/ s = w_src w)
        | Serving b => w_status w = (if b then Version (w_version w) else Building) /\
            exists s, w_state w = Some s /\ compiles s = true /\ (w_permit w = true \/ s = w_src w)
        end
    | _ => False
    end.

  Lemma pages_only w ps : single w -> single (with_pages w ps).
  Proof. exact (fun H => H). Qed.

  Lemma single_step w s : single w -> (s = Loop -> ~ compiling w) -> single (do w s).
  Proof.
    intros H Hl. destruct s.
    - (* Change *) unfold single in *; cbn [WatchModel.do w_tasks w_status w_permit w_src w_version w_dest w_state].
      destruct (w_tasks w) as [|t [|u r]]; [|destruct H as (A & B & H); split; [exact A|]; split; [exact B|]; destruct (t_phase t) as [|[s|]|b|b]|exact H].
      + destruct H as [A (s & B & _)]. split; [exact A|]. exists s. auto.
      + exact H.
      + destruct H; auto.
      + exact H.
      + destruct H as (C & D & s & E & F & _). split; [exact C|]. split; [exact D|]. exists s. auto.
      + destruct H as (C & s & E & F & _). split; [exact C|]. exists s. auto.
    - (* Loop *) specialize (Hl eq_refl). cbn [WatchModel.do]. unfold loop. destruct (w_permit w) eqn:Ep; [|exact H].
      unfold single in *; cbn [w_tasks w_status w_permit w_src w_version w_dest w_state].
      destruct (w_tasks w) as [|t [|u r]] eqn:Et; [| |destruct H].
      + cbn. auto.
      + destruct H as (A & B & H). cbn [flat_map app]. unfold abort. rewrite A, N.eqb_refl.
        destruct (t_phase t) as [|sn|b|b] eqn:Eph; cbn; auto; exfalso; apply Hl; exists t; rewrite Et, Eph; cbn; auto.
    - (* Go *) cbn [WatchModel.do]. unfold go. destruct (find _ _) as [t|] eqn:Ef; [|exact H].
      assert (Et : w_tasks w = [t] /\ t_ver t = v).
      { apply List.find_some in Ef. destruct Ef as [Hin Hv]. apply N.eqb_eq in Hv. unfold single in H.
        destruct (w_tasks w) as [|t' [|u r]]; [destruct Hin| |destruct H]. destruct Hin as [<-|[]]. auto. }
      destruct Et as [Et Ev]. unfold single in H. rewrite Et in H. destruct H as (A & B & H).
      assert (Hput : forall p, put v p (w_tasks w) = match p with Some p => [Task v false p] | None => [] end).
      { intros p. rewrite Et. unfold put; cbn [flat_map]. rewrite Ev, N.eqb_refl, B. destruct p; reflexivity. }
      destruct (t_phase t) as [|[s|]|b|b] eqn:Eph.
      + unfold single. cbn [w_tasks]. rewrite Hput. cbn. repeat split; try congruence; auto.
      + destruct H as [C D]. destruct (compiles s) eqn:Ec; unfold single; cbn [w_tasks]; rewrite Hput; cbn.
        * split; [congruence|]. split; [reflexivity|]. split; [exact C|]. split; [reflexivity|]. exists s. auto.
        * split; [reflexivity|]. exists s. auto.
      + unfold single. cbn [w_tasks]. rewrite Hput. cbn. split; [congruence|]. split; [reflexivity|]. split; [exact H|]. auto.
      + destruct H as (C & -> & s & E & F & G). rewrite E.
        replace (listening w) with false by (unfold listening; rewrite Et; cbn; rewrite Eph; reflexivity).
        rewrite B. cbn [orb]. unfold single; cbn [w_tasks]; rewrite Hput; cbn.
        split; [congruence|]. split; [reflexivity|]. split; [exact C|]. exists s. auto.
      + unfold single. rewrite Et, Eph. auto.
    - (* Check *) cbn [WatchModel.do]. unfold check. destruct (find _ _) as [t|] eqn:Ef; [|exact H].
      assert (Et : w_tasks w = [t] /\ t_ver t = v).
      { apply List.find_some in Ef. destruct Ef as [Hin Hv]. apply N.eqb_eq in Hv. unfold single in H.
        destruct (w_tasks w) as [|t' [|u r]]; [destruct Hin| |destruct H]. destruct Hin as [<-|[]]. auto. }
      destruct Et as [Et Ev]. pose proof H as H0. unfold single in H. rewrite Et in H. destruct H as (A & B & H).
      assert (Hput : forall p, put v p (w_tasks w) = match p with Some p => [Task v false p] | None => [] end).
      { intros p. rewrite Et. unfold put; cbn [flat_map]. rewrite Ev, N.eqb_refl, B. destruct p; reflexivity. }
      destruct (listening w && lb) eqn:El; [|exact H0].
      assert (L : listening w = true) by (destruct (listening w); [reflexivity|discriminate]).
      unfold listening in L. rewrite Et in L. cbn in L.
      destruct (t_phase t) as [|[s|]|b|b] eqn:Eph; try discriminate L.
      destruct b; [exact H0|]. destruct H as (C & s & E & F & G).
      unfold single; cbn [w_tasks]; rewrite Hput; cbn.
      split; [congruence|]. split; [reflexivity|]. split; [congruence|]. exists s. auto.
    - cbn [WatchModel.do]. destruct (fresh w); [apply pages_only|]; exact H.
    - apply pages_only, H.
    - apply pages_only, H.
    - apply pages_only, H.
    - apply pages_only, H.
  Qed.

  Lemma apart_single w : apart compiles port lb w -> single w.
  Proof.
    induction 1 as [|w s H IH Hl]; [|apply single_step; assumption].
    cbn. auto.
  Qed.

  (** If no change is taken up during a build, then once all is settled: either the newest sources compile, the status is the last
      version and a server is listening that makes pages of the newest sources; or they do not, and the status says so. *)
  Theorem C87_settled_partial w : apart compiles port lb w -> settled w ->
    if compiles (w_src w)
    then w_status w = Version (w_version w) /\ listening w = true /\ w_state w = Some (w_src w)
    else w_status w = Errors.
  Proof.
    intros H [Hp Ht]. pose proof (apart_single _ H) as Hs. unfold single in Hs. unfold listening.
    destruct (w_tasks w) as [|t [|u r]]; [| |destruct Hs].
    - destruct Hs as [A (s & B & [C| ->])]; [congruence|]. rewrite B. exact A.
    - destruct Hs as (A & B & Hs). rewrite (Ht t (or_introl eq_refl)) in Hs.
      destruct Hs as (C & s & D & E & [F|F]); [congruence|]. subst s. rewrite E. repeat split; try assumption.
      cbn. rewrite (Ht t (or_introl eq_refl)). reflexivity.
  Qed.

  (** The status never names a version before there is a server that makes pages of what that build, the last one, has read. *)
  Theorem C87_version_partial w v : apart compiles port lb w -> w_status w = Version v ->
    v = w_version w /\ listening w = true /\ exists s, w_state w = Some s /\ compiles s = true.
  Proof.
    intros H Hv. pose proof (apart_single _ H) as Hs. unfold single in Hs. unfold listening.
    destruct (w_tasks w) as [|t [|u r]]; [| |destruct Hs].
    - destruct Hs as [A _]. congruence.
    - destruct Hs as (A & B & Hs). cbn. destruct (t_phase t) as [|[s|]|b|b]; try congruence; try (destruct Hs; congruence).
      destruct Hs as (C & s & D & E & _). destruct b; [|congruence].
      split; [congruence|]. split; [reflexivity|]. exists s. auto.
  Qed.
End C87.

(** ** No change is lost, whatever overlaps *)

Section Lost.
  Variable compiles : N -> bool.
  Variable port : N.
  Variable lb : bool.
  Notation do := (do compiles port lb).

  Definition vers_ok (w : world) : Prop := forall t, In t (w_tasks w) -> t_ver t <= w_version w.

  Lemma in_put v p ts t : In t (put v p ts) -> (In t ts) \/ (t_ver t = v /\ exists u q, p = Some q /\ In u ts /\ t_ver u = v /\ t = Task v (t_aborted u) q).
  Proof.
    unfold put. rewrite in_flat_map. intros (u & Hu & H). destruct (t_ver u =? v) eqn:E.
    - apply N.eqb_eq in E. destruct p as [q|]; [|destruct H]. destruct H as [<-|[]]. right. cbn. eauto 10.
    - destruct H as [<-|[]]. auto.
  Qed.

  (** The task of the current version, if it has still to read the sources; or it has read the newest. *)
  Definition caught (w : world) : Prop :=
    w_permit w = true \/ In (w_version w, w_src w) (w_log w) \/
    exists t, find (fun t => t_ver t =? w_version w) (w_tasks w) = Some t /\ (t_phase t = Sleeping \/ t_phase t = Compiling None).

  Lemma find_app_none {A} (f : A -> bool) l r : (forall x, In x l -> f x = false) -> find f (l ++ r) = find f r.
  Proof. induction l as [|x l IH]; [reflexivity|]. intros H. cbn. rewrite (H x (or_introl eq_refl)). apply IH. intros y Hy. apply H. right. exact Hy. Qed.

  Lemma vers_put w v p st d sta lg : vers_ok w -> vers_ok (World (w_src w) (w_permit w) (w_version w) (put v p (w_tasks w)) st d sta (w_pages w) lg).
  Proof.
    intros V t Hin. cbn [w_tasks] in Hin. cbn [w_version]. apply in_put in Hin. destruct Hin as [Hin|(E & u & q & _ & Hu & Eu & _)]; [apply V, Hin|].
    rewrite E, <- Eu. apply V, Hu.
  Qed.

  Lemma find_put_same v p q ts t : find (fun t => t_ver t =? v) ts = Some t -> p = Some q ->
    find (fun t => t_ver t =? v) (put v p ts) = Some (Task v (t_aborted t) q).
  Proof.
    intros H ->. induction ts as [|u ts IH]; [discriminate|]. cbn [find] in H. unfold put in *. cbn [flat_map].
    destruct (t_ver u =? v) eqn:E.
    - injection H as <-. cbn [app find t_ver]. rewrite N.eqb_refl. reflexivity.
    - cbn [app find]. rewrite E. apply IH, H.
  Qed.

  Lemma caught_step w s : vers_ok w -> caught w -> vers_ok (do w s) /\ caught (do w s).
  Proof.
    intros V H. destruct s; try (split; [exact V|exact H]).
    - split; [exact V|]. left. reflexivity.
    - cbn [WatchModel.do]. unfold loop. destruct (w_permit w) eqn:Ep; [|auto]. split.
      + intros t Hin. cbn [w_tasks w_version] in *. apply in_app_or in Hin. destruct Hin as [Hin|[<-|[]]]; [|cbn; lia].
        apply in_flat_map in Hin. destruct Hin as (u & Hu & Hin). specialize (V u Hu). unfold abort in Hin.
        destruct (t_ver u =? w_version w); [destruct (t_phase u)|]; try destruct Hin as [<-|[]]; cbn; try lia; destruct Hin.
      + right. right. exists (Task (w_version w + 1) false Sleeping). split; [|left; reflexivity]. cbn [w_tasks w_version].
        rewrite find_app_none.
        * cbn. rewrite N.eqb_refl. reflexivity.
        * intros t Hin. apply in_flat_map in Hin. destruct Hin as (u & Hu & Hin). specialize (V u Hu). apply N.eqb_neq. unfold abort in Hin.
          destruct (t_ver u =? w_version w); [destruct (t_phase u)|]; try destruct Hin as [<-|[]]; cbn; try lia; destruct Hin.
    - cbn [WatchModel.do]. unfold go. destruct (find _ (w_tasks w)) as [t|] eqn:Ef; [|auto].
      assert (G : forall p st d sta, (t_phase t = Sleeping -> p = Some (Compiling None)) -> t_phase t <> Compiling None ->
                  caught (World (w_src w) (w_permit w) (w_version w) (put v p (w_tasks w)) st d sta (w_pages w) (w_log w))).
      { intros p st d sta Hp Hq. destruct H as [H|[H|(u & Hu & Hph)]]; [left; exact H|right; left; exact H|].
        right. right. cbn [w_tasks w_version]. destruct (N.eq_dec (w_version w) v) as [E|E].
        - rewrite E in Hu. rewrite Ef in Hu. injection Hu as ->. destruct Hph as [Hph|Hph]; [|congruence].
          rewrite E. exists (Task v (t_aborted u) (Compiling None)). split; [apply find_put_same; [exact Ef|apply Hp, Hph]|right; reflexivity].
        - exists u. rewrite find_put_other by exact E. auto. }
      destruct (t_phase t) as [|[s|]|b|b] eqn:Eph.
      + split; [apply vers_put, V|]. apply G; [reflexivity|discriminate].
      + destruct (compiles s); (split; [apply vers_put, V|]); apply G; discriminate.
      + split; [apply vers_put, V|]. destruct H as [H|[H|(u & Hu & Hph)]]; [left; exact H|right; left; right; exact H|].
        destruct (N.eq_dec (w_version w) v) as [E|E].
        * right. left. left. cbn. rewrite E. reflexivity.
        * right. right. exists u. cbn [w_tasks w_version]. rewrite find_put_other by exact E. auto.
      + destruct (w_dest w); [destruct (listening w || t_aborted t)|]; (split; [apply vers_put, V|]); apply G; discriminate.
      + auto.
    - cbn [WatchModel.do]. unfold check. destruct (find _ (w_tasks w)) as [t|] eqn:Ef; [|auto].
      destruct (listening w && lb); [|auto].
      assert (G : forall p st, t_phase t <> Sleeping -> t_phase t <> Compiling None ->
                  caught (World (w_src w) (w_permit w) (w_version w) (put v p (w_tasks w)) st (w_dest w) (w_state w) (w_pages w) (w_log w))).
      { intros p st Hp Hq. destruct H as [H|[H|(u & Hu & Hph)]]; [left; exact H|right; left; exact H|].
        right. right. cbn [w_tasks w_version]. destruct (N.eq_dec (w_version w) v) as [E|E].
        - rewrite E in Hu. rewrite Ef in Hu. injection Hu as ->. destruct Hph; contradiction.
        - exists u. rewrite find_put_other by exact E. auto. }
      destruct (t_phase t) as [|[s|]|[]|[]] eqn:Eph; auto; (split; [apply vers_put, V|]); apply G; discriminate.
    - cbn [WatchModel.do]. destruct (fresh w); auto.
  Qed.

  (** However the builds overlap: once all is settled, the last build is one that has read the newest sources. *)
  Theorem C87_not_lost l : let w := run compiles port lb l in settled w -> In (w_version w, w_src w) (w_log w).
  Proof.
    intros w [Hp Ht].
    assert (G : vers_ok w /\ caught w).
    { subst w. clear. unfold run. induction l as [|s l IH] using rev_ind.
      - split; [intros t [<-|[]]; cbn; lia|]. right. right. exists (Task 1 false Sleeping). cbn. auto.
      - rewrite fold_left_app. cbn [fold_left]. apply caught_step; apply IH. }
    destruct G as [_ [G|[G|(t & Hf & Hph)]]]; [congruence|exact G|].
    apply List.find_some in Hf. destruct Hf as [Hin _]. rewrite (Ht t Hin) in Hph. destruct Hph; discriminate.
  Qed.
End Lost.

(** ** Overlapping builds *)

(** The sources 2 and later do not compile. *)
Definition two (s : N) : bool := s <? 2.
(** The sources 1 do not compile. *)
Definition not_one (s : N) : bool := negb (s =? 1).

Definition built (v : N) : list step := [Go v; Go v; Go v; Go v; Check v].

(** A first build, a change, a second build. *)
Example C87_settled_ok :
  let w := run two 5555 true (built 1 ++ [Change; Loop] ++ built 2) in
  w_status w = Version 2 /\ w_state w = Some 1 /\ w_src w = 1 /\ w_permit w = false.
Proof. vm_compute. auto. Qed.
Example C87_settled_hyp :
  apart two 5555 true (run two 5555 true (built 1 ++ [Change; Loop] ++ built 2)) /\
  settled (run two 5555 true (built 1 ++ [Change; Loop] ++ built 2)).
Proof.
  split.
  - unfold run. assert (Hb : forall w v, apart two 5555 true w -> apart two 5555 true (fold_left (do two 5555 true) (built v) w)).
    { intros w v H. unfold built. cbn [fold_left]. repeat (apply apart_step; [|discriminate]). exact H. }
    rewrite fold_left_app. rewrite fold_left_app. apply Hb. cbn [fold_left]. apply apart_step.
    + apply apart_step; [|discriminate]. apply Hb, apart_start.
    + intros _ (t & Hin & Ht). vm_compute in Hin. destruct Hin as [<-|[]]. exact Ht.
  - split; [reflexivity|]. intros t Hin. vm_compute in Hin. destruct Hin as [<-|[]]. reflexivity.
Qed.
(** And one that does not compile. *)
Example C87_errors_ok :
  let w := run two 5555 true (built 1 ++ [Change; Change; Loop; Go 2; Go 2; Go 2]) in
  w_status w = Errors /\ listening w = false /\ w_src w = 2.
Proof. vm_compute. auto. Qed.

(** A change is taken up during the first build, which ends, aborted, when the second is already served: it has put its own program
    in the place of the newer one, and the pages are made of the old sources although the status is that of the new version. *)
Theorem C87_stale_refuted : exists l,
  let w := run two 5555 true l in
  settled w /\ two (w_src w) = true /\ w_status w = Version 2 /\ listening w = true /\ w_state w = Some 0 /\ w_src w = 1.
Proof.
  exists ([Go 1; Go 1; Change; Loop] ++ built 2 ++ [Go 1; Go 1]). vm_compute. repeat split; try reflexivity.
  intros t [<-|[]]. reflexivity.
Qed.

(** The same if the first build fails: the status is left at errors, although the newest sources compile and are served. *)
Theorem C87_stale_errors_refuted : exists l,
  let w := run not_one 5555 true l in
  settled w /\ not_one (w_src w) = true /\ w_state w = Some (w_src w) /\ listening w = true /\ w_status w = Errors.
Proof.
  exists (built 1 ++ [Change; Loop; Go 2; Go 2; Change; Loop] ++ built 3 ++ [Go 2]). vm_compute. repeat split; try reflexivity.
  intros t [<-|[]]. reflexivity.
Qed.
