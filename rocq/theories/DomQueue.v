(** Sending DOM commands: every command once, in order, after the initial fetches (property C24). *)

From Coq Require Import List NArith Bool Lia PeanoNat.
From Verif Require Import DomModel.
Import ListNotations.

Section Queue.
  Context {T : Type}.
  Notation dcmd := (dcmd T).

  (** The calls to [Commands] (dom.rs:86, 111, 119, 125). *)
  Inductive qev := QAdd (c : dcmd) | QFlush | QUp | QDown.

  Definition q_ev (q : queue T) (e : qev) : option (queue T) :=
    match e with
    | QAdd c => Some (q_add q c)
    | QFlush => Some (q_flush q)
    | QUp => q_up q
    | QDown => q_down q
    end.
  Fixpoint q_run (q : queue T) (evs : list qev) : option (queue T) :=
    match evs with
    | [] => Some q
    | e :: t => match q_ev q e with None => None | Some q1 => q_run q1 t end
    end.

  (** ** Specification *)

  Fixpoint issued (evs : list qev) : list dcmd :=
    match evs with [] => [] | QAdd c :: t => c :: issued t | _ :: t => issued t end.
  Fixpoint starts (evs : list qev) : nat :=
    match evs with [] => 0 | QUp :: t => S (starts t) | _ :: t => starts t end.
  Fixpoint stops (evs : list qev) : nat :=
    match evs with [] => 0 | QDown :: t => S (stops t) | _ :: t => stops t end.

  (** Fetches stop after they started, and there are fewer than 2^32 of them. *)
  Definition plausible (evs : list qev) : Prop :=
    (forall pre post, evs = pre ++ post -> stops pre <= starts pre) /\ (N.of_nat (starts evs) < 4294967296)%N.

  (** At some point fetches had been started and all of them had stopped. *)
  Definition finished (evs : list qev) : Prop :=
    exists pre post, evs = pre ++ post /\ 0 < starts pre /\ stops pre = starts pre.

  (** Event [e] after [pre] is one at which pending commands have to be sent: the end of the initial
      fetches, and every flush after it. *)
  Definition must_send (pre : list qev) (e : qev) : Prop :=
    finished (pre ++ [e]) /\ (e = QFlush \/ ~ finished pre).

  (** ** Proof *)

  Lemma starts_app a b : starts (a ++ b) = starts a + starts b.
  Proof. induction a as [|[] a IH]; simpl; auto. Qed.
  Lemma stops_app a b : stops (a ++ b) = stops a + stops b.
  Proof. induction a as [|[] a IH]; simpl; auto. Qed.
  Lemma issued_app a b : issued (a ++ b) = issued a ++ issued b.
  Proof. induction a as [|[] a IH]; simpl; auto. f_equal; auto. Qed.
  Lemma run_app a : forall q b, q_run q (a ++ b) = match q_run q a with Some q1 => q_run q1 b | None => None end.
  Proof. induction a as [|e a IH]; simpl; intros; auto. destruct (q_ev q e); auto. Qed.

  Lemma finished_app a b : finished a -> finished (a ++ b).
  Proof. intros (p & r & -> & H). exists p, (r ++ b). rewrite app_assoc. auto. Qed.

  Lemma finished_snoc a e : finished (a ++ [e]) <-> finished a \/ (0 < starts (a ++ [e]) /\ stops (a ++ [e]) = starts (a ++ [e])).
  Proof.
    split.
    - intros (p & r & E & H). destruct r as [|x r'] using rev_ind; [|clear IHr'].
      + right. rewrite app_nil_r in E. rewrite E. auto.
      + left. rewrite app_assoc in E. apply app_inj_tail in E. destruct E as [-> ->]. exists p, r'. auto.
    - intros [H|H]; [apply finished_app; auto|]. exists (a ++ [e]), []. rewrite app_nil_r. auto.
  Qed.

  (** The state after [evs]. *)
  Record qinv (evs : list qev) (q : queue T) (slices : list (list dcmd)) : Prop := {
    qi_issued : issued evs = concat slices ++ q_cmds q;
    qi_sent : q_sent q = map sort_commands slices;
    qi_nonempty : forall s, In s slices -> s <> [];
    qi_state : match q_state q with
               | Ready => finished evs
               | Waiting n => ~ finished evs /\ slices = [] /\ stops evs <= starts evs /\ n = N.of_nat (starts evs - stops evs)
               end
  }.

  Lemma plausible_pre a b : plausible (a ++ b) -> plausible a.
  Proof.
    intros [A B]. split.
    - intros pre post ->. apply (A pre (post ++ b)). rewrite app_assoc. auto.
    - rewrite starts_app in B. lia.
  Qed.

  Lemma not_finished_le evs : plausible evs -> stops evs <= starts evs.
  Proof. intros [A _]. apply (A evs []). rewrite app_nil_r; auto. Qed.

  (** Sending what is pending. *)
  Lemma flush_inner_inv (q : queue T) slices : let q1 := q_flush_inner q in
    q_sent q = map sort_commands slices -> (forall s, In s slices -> s <> []) ->
    exists slices1, q_sent q1 = map sort_commands slices1 /\ (forall s, In s slices1 -> s <> []) /\
      q_cmds q1 = [] /\ q_state q1 = q_state q /\ concat slices1 ++ q_cmds q1 = concat slices ++ q_cmds q.
  Proof.
    intros q1 A B. unfold q1, q_flush_inner. destruct (q_cmds q) as [|c cs] eqn:E.
    - exists slices. rewrite E. auto 6.
    - exists (slices ++ [c :: cs]). simpl. rewrite map_app, concat_app, A. simpl. rewrite !app_nil_r.
      split; auto. split; auto. intros s I. apply in_app_or in I. destruct I as [I|[<-|[]]]; auto. discriminate.
  Qed.

  Lemma step_inv evs e q slices : plausible (evs ++ [e]) -> qinv evs q slices ->
    exists q1 slices1, q_ev q e = Some q1 /\ qinv (evs ++ [e]) q1 slices1 /\
      (q_cmds q1 = [] \/ (~ must_send evs e /\ q_cmds q1 = q_cmds q ++ issued [e])).
  Proof.
    intros P [A B C D]. pose proof (not_finished_le _ P) as LE. pose proof P as [_ BD].
    rewrite stops_app, starts_app in LE. rewrite starts_app in BD.
    destruct e as [c| | |]; simpl in LE, BD |- *.
    - do 2 eexists. split; [reflexivity|]. split.
      + constructor; simpl; eauto.
        * rewrite issued_app, A. simpl. rewrite app_assoc. reflexivity.
        * destruct (q_state q); [|apply finished_app; auto]. rewrite starts_app, stops_app. simpl.
          destruct D as (D1 & D2 & D3 & D4). rewrite finished_snoc. rewrite starts_app, stops_app. simpl.
          rewrite !Nat.add_0_r. split; [|auto]. intros [F|[F1 F2]]; auto. apply D1.
          exists evs, []. rewrite app_nil_r. auto.
      + right. split; auto. intros [F [E|E]]; [discriminate|]. apply finished_snoc in F.
        destruct F as [F|[F1 F2]]; auto. apply E. rewrite starts_app, stops_app in *; simpl in *.
        exists evs, []. rewrite app_nil_r. split; auto. lia.
    - unfold q_flush. destruct (q_state q) as [n|] eqn:S.
      + destruct D as (D1 & D2 & D3 & D4).
        assert (NF : ~ finished (evs ++ [QFlush])).
        { rewrite finished_snoc. rewrite starts_app, stops_app. simpl. rewrite !Nat.add_0_r.
          intros [F|[F1 F2]]; auto. apply D1. exists evs, []. rewrite app_nil_r. auto. }
        exists q, slices. split; auto. split.
        * constructor; auto.
          -- rewrite issued_app. simpl. rewrite app_nil_r. auto.
          -- rewrite S. rewrite starts_app, stops_app. simpl. rewrite !Nat.add_0_r. auto.
        * right. split; [|rewrite app_nil_r; auto]. intros [F _]. auto.
      + destruct (flush_inner_inv q slices B C) as (sl & F1 & F2 & F3 & F4 & F5).
        exists (q_flush_inner q), sl. split; auto. split; auto. constructor; auto.
        * rewrite issued_app. simpl. rewrite app_nil_r. congruence.
        * rewrite F4, S. apply finished_app; auto.
    - unfold q_up. destruct (q_state q) as [n|] eqn:S.
      + destruct D as (D1 & D2 & D3 & D4).
        destruct (N.ltb_spec n 4294967295) as [H|H]; [|exfalso; lia].
        assert (NF : ~ finished (evs ++ [QUp])).
        { rewrite finished_snoc. rewrite starts_app, stops_app. simpl. intros [F|[F1 F2]]; auto. lia. }
        do 2 eexists. split; [reflexivity|]. split.
        * constructor; simpl; eauto.
          -- rewrite issued_app. simpl. rewrite app_nil_r. eauto.
          -- rewrite starts_app, stops_app. simpl. split; auto. split; auto. split; lia.
        * right. simpl. rewrite app_nil_r. split; auto. intros [F _]; auto.
      + exists q, slices. split; auto. split.
        * constructor; auto; [rewrite issued_app; simpl; rewrite app_nil_r; auto|].
          rewrite S. apply finished_app; auto.
        * right. rewrite app_nil_r. split; auto. intros [_ [F|F]]; [discriminate|]. auto.
    - unfold q_down. destruct (q_state q) as [n|] eqn:S.
      + destruct D as (D1 & D2 & D3 & D4).
        destruct (N.eqb_spec n 0) as [H|H]; [exfalso; lia|].
        destruct (N.eqb_spec (n - 1) 0) as [H1|H1].
        * destruct (flush_inner_inv (Queue Ready (q_cmds q) (q_sent q)) slices B C) as (sl & F1 & F2 & F3 & F4 & F5).
          do 2 eexists. split; [reflexivity|]. split; [|left; exact F3]. econstructor; eauto.
          -- rewrite issued_app. simpl. rewrite app_nil_r. rewrite A. symmetry. exact F5.
          -- rewrite F4. simpl. exists (evs ++ [QDown]), []. rewrite app_nil_r, starts_app, stops_app. simpl.
             split; auto. lia.
        * assert (NF : ~ finished (evs ++ [QDown])).
          { rewrite finished_snoc. rewrite starts_app, stops_app. simpl. intros [F|[F1 F2]]; auto. lia. }
          do 2 eexists. split; [reflexivity|]. split.
          -- constructor; simpl; eauto.
             ++ rewrite issued_app. simpl. rewrite app_nil_r. eauto.
             ++ rewrite starts_app, stops_app. simpl. split; auto. split; auto. split; lia.
          -- right. simpl. rewrite app_nil_r. split; auto. intros [F _]; auto.
      + exists q, slices. split; auto. split.
        * constructor; auto; [rewrite issued_app; simpl; rewrite app_nil_r; auto|].
          rewrite S. apply finished_app; auto.
        * right. rewrite app_nil_r. split; auto. intros [_ [F|F]]; [discriminate|]. auto.
  Qed.

  (** What is pending was issued after the last point at which everything had to be sent. *)
  Definition recent (evs : list qev) (pending : list dcmd) : Prop :=
    forall pre e post, evs = pre ++ e :: post -> must_send pre e -> exists older, issued post = older ++ pending.

  Lemma run_inv evs : plausible evs -> exists q slices,
    q_run (@queue_new T) evs = Some q /\ qinv evs q slices /\ recent evs (q_cmds q).
  Proof.
    induction evs as [|e evs IH] using rev_ind; intros P.
    - exists (@queue_new T), []. split; auto. split.
      + constructor; simpl; auto. split; auto. intros (p & r & E & H & _). destruct p; [simpl in H; lia|discriminate].
      + intros pre e post E. destruct pre; discriminate.
    - destruct (IH (plausible_pre _ _ P)) as (q & sl & R & I & K).
      destruct (step_inv evs e q sl P I) as (q1 & sl1 & S & I1 & L).
      exists q1, sl1. split; [|split]; auto.
      + rewrite run_app, R. simpl. rewrite S. auto.
      + intros pre e' post E M. destruct L as [L|[L1 L2]].
        { rewrite L. exists (issued post). rewrite app_nil_r. auto. }
        destruct post as [|x post] using rev_ind.
        * apply app_inj_tail in E. destruct E as [-> ->]. contradiction.
        * clear IHpost. rewrite app_comm_cons, app_assoc in E. apply app_inj_tail in E. destruct E as [E ->].
          destruct (K _ _ _ E M) as [o O]. exists o. rewrite issued_app, O, L2, app_assoc. auto.
  Qed.

  (** ** Property C24 *)

  (** [slices] are the commands of the batches before sorting: together with what is pending they are the
      commands issued, in order; a batch is the sorted slice; no batch is empty; there is none before the
      initial fetches have finished; nothing stays pending at the end of the fetches or at a later flush. *)
  Theorem C24_sent_once evs : plausible evs -> exists q slices,
    q_run (@queue_new T) evs = Some q /\
    q_sent q = map sort_commands slices /\
    issued evs = concat slices ++ q_cmds q /\
    (forall s, In s slices -> s <> []) /\
    (~ finished evs -> q_sent q = []) /\
    recent evs (q_cmds q).
  Proof.
    intros P. destruct (run_inv evs P) as (q & sl & R & [A B C D] & K). exists q, sl.
    split; auto. split; auto. split; auto. split; auto. split; auto.
    intros F. destruct (q_state q); [|contradiction]. destruct D as (_ & -> & _). auto.
  Qed.

  (** In particular, right after the fetches have finished or a later flush nothing is pending. *)
  Corollary C24_flushed evs e : plausible (evs ++ [e]) -> must_send evs e -> exists q slices,
    q_run (@queue_new T) (evs ++ [e]) = Some q /\ q_sent q = map sort_commands slices /\
    concat slices = issued (evs ++ [e]) /\ q_cmds q = [].
  Proof.
    intros P M. destruct (C24_sent_once _ P) as (q & sl & R & S & I & _ & _ & K). exists q, sl.
    destruct (K evs e [] eq_refl M) as [o O]. destruct o; [|discriminate]. simpl in O. rewrite <- O in *.
    rewrite app_nil_r in I. auto.
  Qed.
End Queue.
Arguments qev : clear implicits.

(** Two nested fetches, commands in between, a flush too early and one afterwards. *)
Example C24_example :
  let evs : list (qev N) := [QUp; QAdd (CreateText 4 1); QFlush; QUp; QAdd (RemoveText 4); QDown; QAdd (CreateText 5 1);
                             QDown; QAdd (CreateText 6 1); QUp; QFlush; QDown]%N in
  plausible evs /\ finished evs /\
  match q_run (@queue_new N) evs with
  | Some q => q_sent q = [[CreateText 4 1; CreateText 5 1; RemoveText 4]; [CreateText 6 1]]%N
  | None => False
  end.
Proof.
  split; [split|split].
  - intros pre post E.
    assert (H : forall k, k <= 12 -> stops (firstn k [QUp; QAdd (CreateText 4 1); QFlush; QUp; QAdd (RemoveText 4); QDown; QAdd (CreateText 5 1);
                             QDown; QAdd (CreateText 6 1); QUp; QFlush; QDown]%N) <= starts (firstn k [QUp; QAdd (CreateText 4 1); QFlush; QUp; QAdd (RemoveText 4); QDown; QAdd (CreateText 5 1);
                             QDown; QAdd (CreateText 6 1); QUp; QFlush; QDown]%N)).
    { intros k K. do 13 (destruct k; [simpl; lia|]). lia. }
    specialize (H (length pre)). rewrite E, firstn_app, firstn_all, Nat.sub_diag, app_nil_r in H. apply H.
    apply (f_equal (@length _)) in E. rewrite app_length in E. simpl in E. lia.
  - reflexivity.
  - eexists (firstn 8 _), (skipn 8 _). rewrite firstn_skipn. split; [reflexivity|]. simpl. lia.
  - reflexivity.
Qed.

Print Assumptions C24_sent_once.
Print Assumptions C24_flushed.
