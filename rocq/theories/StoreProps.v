(** Properties C39 (callback ids), C40 (arguments), C41 (event emitter), C45 (future box). *)

From Coq Require Import List NArith Bool Lia.
From Verif Require Import CodecModel MapModel StoreModel.
Import ListNotations.

(** ** C39 *)

(** The callbacks registered and neither dropped nor (one-shot) finished, read off the history. *)
Definition live_step (l : list (N * cb)) (e : cev) : list (N * cb) :=
  match e with
  | EReg id c => (id, c) :: l
  | EDrop id => filter (fun p => negb (fst p =? id)%N) l
  | EEnd id => filter (fun p => negb ((fst p =? id)%N && cb_once (snd p))) l
  | _ => l
  end.
Definition live (tr : list cev) : list (N * cb) := fold_left live_step tr [].

Definition registrations (tr : list cev) : N := N.of_nat (length (filter (fun e => match e with EReg _ _ => true | _ => false end) tr)).

(** Every event is right with respect to what came before. *)
Definition right_event (before : list cev) (e : cev) : Prop :=
  match e with
  | EReg id _ => forall c, ~ In (EReg id c) before
  | ERun id c => In (id, c) (live before) /\ exists tag body, c = Cb (cb_once c) tag body
  | EMiss id => forall c, ~ In (id, c) (live before)
  | EEnd id => exists c, In (ERun id c) before
  | EDrop id => exists c, In (id, c) (live before) /\ cb_once c = false
  end.
Definition dispatch_ok (tr : list cev) : Prop := forall t1 e t2, tr = t1 ++ e :: t2 -> right_event t1 e.

Lemma live_app a b : live (a ++ b) = fold_left live_step b (live a).
Proof. apply fold_left_app. Qed.
Lemma live_snoc a e : live (a ++ [e]) = live_step (live a) e.
Proof. rewrite live_app. reflexivity. Qed.

Lemma reg_app a b : registrations (a ++ b) = (registrations a + registrations b)%N.
Proof. unfold registrations. rewrite filter_app, app_length. lia. Qed.

Lemma live_registered tr id c : In (id, c) (live tr) -> In (EReg id c) tr.
Proof.
  induction tr as [|e tr IH] using rev_ind; [simpl; auto|]. rewrite live_snoc, in_app_iff.
  destruct e; simpl; try rewrite filter_In; intros H; try (left; apply IH; tauto).
  destruct H as [[= <- <-]|H]; auto.
Qed.

Record cinv (s : cstore) (tr : list cev) : Prop := CInv {
  ci_next : (registrations tr < two_64 - 1)%N -> cs_next s = (1 + registrations tr)%N;
  ci_ids : (registrations tr < two_64)%N -> forall id c, In (EReg id c) tr -> (1 <= id <= registrations tr)%N;
  ci_data : (registrations tr < two_64)%N -> forall id c, hget (cs_data s) id = Some c <-> In (id, c) (live tr);
  ci_right : (registrations tr < two_64)%N -> dispatch_ok tr
}.

Lemma dispatch_snoc tr e : dispatch_ok tr -> right_event tr e -> dispatch_ok (tr ++ [e]).
Proof.
  intros A B t1 e' t2 E. destruct t2 as [|y t2] using rev_ind.
  - apply app_inj_tail in E. destruct E; subst. auto.
  - rewrite app_comm_cons, app_assoc in E. apply app_inj_tail in E. destruct E; subst. eapply A; eauto.
Qed.

Lemma cinv_quiet s tr e : cinv s tr -> (match e with EMiss _ | ERun _ _ => True | _ => False end) -> ((registrations tr < two_64)%N -> right_event tr e) -> cinv s (tr ++ [e]).
Proof.
  intros [A B C D] Q R.
  assert (E : registrations (tr ++ [e]) = registrations tr) by (rewrite reg_app; destruct e; simpl in Q; try contradiction; unfold registrations; simpl; lia).
  split; rewrite E; auto.
  - intros L id c I. apply in_app_iff in I. destruct I as [I|[->|[]]]; [eauto|simpl in Q; contradiction].
  - intros L id c. rewrite live_snoc. destruct e; simpl in Q; try contradiction; simpl; auto.
  - intros L. apply dispatch_snoc; auto.
Qed.

Lemma cinv_exec fuel : forall s tr acts s' tr', cinv s tr -> c_exec fuel s tr acts = Some (s', tr') ->
  cinv s' tr' /\ exists t, tr' = tr ++ t.
Proof.
  induction fuel as [|f IH]; simpl; intros s tr acts s' tr' INV E; [discriminate|].
  destruct acts as [|[c|id|id] rest].
  - inversion E; subst. split; auto. exists []. rewrite app_nil_r. auto.
  - apply IH in E.
    + destruct E as (I & t & ->). split; auto. eexists. rewrite <- app_assoc. reflexivity.
    + destruct INV as [A B C D].
      assert (RE : registrations (tr ++ [EReg (cs_next s) c]) = (registrations tr + 1)%N) by (rewrite reg_app; auto).
      assert (NX : (registrations tr + 1 < two_64)%N -> cs_next s = (1 + registrations tr)%N) by (intros; apply A; unfold two_64 in *; lia).
      assert (FR : (registrations tr + 1 < two_64)%N -> forall c', ~ In (EReg (cs_next s) c') tr).
      { intros L c' I. rewrite NX in I by auto. apply B in I; lia. }
      split; rewrite RE; cbn [cs_next cs_data].
      * intros L. rewrite NX by (unfold two_64 in *; lia). rewrite N.mod_small by (unfold two_64 in *; lia). lia.
      * intros L id c' I. apply in_app_iff in I. destruct I as [I|[[= <- <-]|[]]].
        -- apply B in I; lia.
        -- rewrite NX by auto. lia.
      * intros L id c'. rewrite live_snoc. simpl live_step. rewrite hget_set. simpl In.
        destruct (N.eqb_spec id (cs_next s)) as [->|NE].
        -- split; [intros [= <-]; auto|]. intros [[= <-]|I]; auto. exfalso. eapply FR; eauto. apply live_registered; eauto.
        -- rewrite C by lia. split; [auto|]. intros [X|I]; [inversion X; congruence|auto].
      * intros L. apply dispatch_snoc; [apply D; lia|]. simpl. apply FR. auto.
  - destruct (hget (cs_data s) id) as [[once tag body]|] eqn:G.
    + destruct (c_exec f s (tr ++ [ERun id (Cb once tag body)]) body) as [[s1 tr1]|] eqn:E1; [|discriminate].
      apply IH in E1.
      2:{ apply cinv_quiet; auto. intros L. simpl. split; [apply (ci_data _ _ INV L); auto|eauto]. }
      destruct E1 as (I1 & t & ->). apply IH in E.
      * destruct E as (I2 & t2 & ->). split; auto. eexists. rewrite <- !app_assoc. reflexivity.
      * destruct I1 as [A B C D]. set (tr1 := (tr ++ [ERun id (Cb once tag body)]) ++ t) in *.
        assert (RE : registrations (tr1 ++ [EEnd id]) = registrations tr1) by (rewrite reg_app; unfold registrations; simpl; lia).
        assert (RN : In (ERun id (Cb once tag body)) tr1) by (unfold tr1; rewrite !in_app_iff; simpl; auto).
        assert (LV : (registrations tr1 < two_64)%N -> forall c', In (id, c') (live tr1) -> c' = Cb once tag body).
        { intros L c' I'. apply live_registered in I'.
          (* both were registered under the same id *)
          assert (U : forall tr0, dispatch_ok tr0 -> forall i c1 c2, In (EReg i c1) tr0 -> In (EReg i c2) tr0 -> c1 = c2).
          { clear. intros tr0. induction tr0 as [|e tr0 IHt] using rev_ind; intros DO i c1 c2 I1 I2; [destruct I1|].
            assert (DO' : dispatch_ok tr0).
            { intros t1 e' t2 EQ. apply (DO t1 e' (t2 ++ [e])). rewrite EQ, <- app_assoc. auto. }
            assert (RE := DO tr0 e [] eq_refl). apply in_app_iff in I1, I2. simpl in I1, I2.
            destruct I1 as [I1|[->|[]]], I2 as [I2|[E2|[]]]; eauto.
            - subst e. simpl in RE. exfalso. eapply RE; eauto.
            - simpl in RE. exfalso. eapply RE; eauto.
            - congruence. }
          apply in_split in RN. destruct RN as (u1 & u2 & EQ).
          pose proof (D L u1 _ _ EQ) as [RL _]. apply live_registered in RL.
          apply (U tr1 (D L) id); auto. rewrite EQ, in_app_iff. auto. }
        split; rewrite RE.
        -- intros L. destruct once; simpl; auto.
        -- intros L i c I. apply in_app_iff in I. destruct I as [I|[X|[]]]; [eauto|discriminate].
        -- intros L i c. rewrite live_snoc. simpl. rewrite filter_In. simpl. destruct once; cbn [cs_data].
           ++ rewrite hget_del. destruct (N.eqb_spec i id) as [->|NE].
              ** split; [discriminate|]. intros [I F]. rewrite (LV L c I) in F. discriminate.
              ** rewrite C by auto. simpl. tauto.
           ++ rewrite C by auto. destruct (N.eqb_spec i id) as [->|NE]; simpl; [|tauto].
              split; [intros I; split; auto|tauto]. rewrite (LV L c I). auto.
        -- intros L. apply dispatch_snoc; auto. simpl. eauto.
    + apply IH in E.
      * destruct E as (I2 & t2 & ->). split; auto. eexists. rewrite <- !app_assoc. reflexivity.
      * apply cinv_quiet; auto. intros L. simpl. intros c I. apply (ci_data _ _ INV L) in I. congruence.
  - destruct (hget (cs_data s) id) as [[[] tag body]|] eqn:G; try (apply IH in E; auto; fail).
    apply IH in E.
    + destruct E as (I2 & t2 & ->). split; auto. eexists. rewrite <- !app_assoc. reflexivity.
    + destruct INV as [A B C D].
      assert (RE : registrations (tr ++ [EDrop id]) = registrations tr) by (rewrite reg_app; unfold registrations; simpl; lia).
      split; rewrite RE; cbn [cs_next cs_data]; auto.
      * intros L i c I. apply in_app_iff in I. destruct I as [I|[X|[]]]; [eauto|discriminate].
      * intros L i c. rewrite live_snoc, hget_del. simpl. rewrite filter_In. simpl.
        destruct (N.eqb_spec i id); simpl; [split; [discriminate|intros []; discriminate]|]. rewrite C by auto. tauto.
      * intros L. apply dispatch_snoc; auto. simpl. exists (Cb false tag body). split; auto. apply C; auto.
Qed.

Lemma cinv_new : cinv cstore_new [].
Proof.
  split; simpl; auto.
  - intros _ id c [].
  - intros _ id c. split; [discriminate|intros []].
  - intros _ t1 e t2 E. destruct t1; discriminate.
Qed.

(** In every history of an application: ids are fresh, a call runs the callback registered under the id if and
    only if it is still registered, and reports a missing callback otherwise.  (Fewer than 2^64 registrations.) *)
Theorem C39_dispatch : forall fuel acts s tr, c_exec fuel cstore_new [] acts = Some (s, tr) ->
  (registrations tr < two_64)%N -> dispatch_ok tr.
Proof. intros fuel acts s tr E L. apply (cinv_exec _ _ _ _ _ _ cinv_new) in E. destruct E as [I _]. apply I. auto. Qed.

(** A call in a reachable state is answered. *)
Theorem C39_call : forall fuel acts s tr fuel' id s' tr',
  c_exec fuel cstore_new [] acts = Some (s, tr) -> (registrations tr < two_64)%N ->
  c_exec fuel' s tr [Call id] = Some (s', tr') ->
  (forall c, In (id, c) (live tr) -> exists t, tr' = tr ++ [ERun id c] ++ t ++ [EEnd id]) /\
  ((forall c, ~ In (id, c) (live tr)) -> tr' = tr ++ [EMiss id]).
Proof.
  intros fuel acts s tr fuel' id s' tr' E L E'. apply (cinv_exec _ _ _ _ _ _ cinv_new) in E. destruct E as [I _].
  destruct fuel' as [|f]; [discriminate|]. simpl in E'. pose proof (ci_data _ _ I L) as D. split.
  - intros c H. apply D in H. rewrite H in E'. destruct c as [once tag body].
    destruct (c_exec f s (tr ++ [ERun id (Cb once tag body)]) body) as [[s1 tr1]|] eqn:E1; [|discriminate].
    assert (X : exists t, tr1 = (tr ++ [ERun id (Cb once tag body)]) ++ t).
    { clear - E1. revert E1. generalize (tr ++ [ERun id (Cb once tag body)]). intros l.
      revert s l s1 tr1. generalize body as acts.
      induction f as [|f IH]; intros acts s l s1 tr1 E; [discriminate|]. simpl in E. destruct acts as [|[c|i|i] rest].
      - inversion E; subst. exists []. rewrite app_nil_r. auto.
      - apply IH in E. destruct E as (t & ->). eexists. rewrite <- app_assoc. reflexivity.
      - destruct (hget (cs_data s) i) as [[o g b]|].
        + destruct (c_exec f s (l ++ [ERun i (Cb o g b)]) b) as [[s2 tr2]|] eqn:E2; [|discriminate].
          apply IH in E2. destruct E2 as (t & ->). apply IH in E. destruct E as (t' & ->). eexists. rewrite <- !app_assoc. reflexivity.
        + apply IH in E. destruct E as (t & ->). eexists. rewrite <- app_assoc. reflexivity.
      - destruct (hget (cs_data s) i) as [[[] g b]|]; apply IH in E; destruct E as (t & ->); eexists; rewrite <- ?app_assoc; reflexivity. }
    destruct X as (t & ->). destruct f as [|f]; [discriminate|]. simpl in E'. inversion E'; subst.
    exists t. rewrite <- !app_assoc. auto.
  - intros H. destruct (hget (cs_data s) id) as [c|] eqn:G; [exfalso; apply D in G; eapply H; eauto|].
    destruct f as [|f]; [discriminate|]. simpl in E'. inversion E'; subst. auto.
Qed.

(** A one-shot callback never runs again once it has finished, and no callback runs after it was dropped.
    Missing for "at most once": runs of a one-shot callback started while it is running. *)
Theorem C39_once_partial : forall fuel acts s tr t1 id t2,
  c_exec fuel cstore_new [] acts = Some (s, tr) -> (registrations tr < two_64)%N ->
  (tr = t1 ++ EDrop id :: t2 \/ tr = t1 ++ EEnd id :: t2 /\ forall c, In (EReg id c) tr -> cb_once c = true) ->
  forall c, ~ In (ERun id c) t2.
Proof.
  intros fuel acts s tr t1 id t2 E L H c I.
  assert (DO := C39_dispatch _ _ _ _ E L).
  assert (SHAPE : exists e, tr = t1 ++ e :: t2 /\ (e = EDrop id \/ e = EEnd id /\ forall c, In (EReg id c) tr -> cb_once c = true)).
  { destruct H as [H|[H K]]; eauto. }
  clear H. destruct SHAPE as (e & EQ & KIND).
  apply in_split in I. destruct I as (u1 & u2 & ->).
  assert (R := DO (t1 ++ e :: u1) (ERun id c) u2 ltac:(rewrite EQ, <- app_assoc; auto)). destruct R as [R _].
  (* id was registered before e, so not again after it *)
  assert (REG : exists c0, In (EReg id c0) t1).
  { destruct KIND as [->|[-> K]].
    - assert (R2 := DO t1 _ _ EQ). simpl in R2. destruct R2 as (c0 & R2 & _). exists c0. apply live_registered; auto.
    - assert (R2 := DO t1 _ _ EQ). simpl in R2. destruct R2 as (c0 & R2). apply in_split in R2. destruct R2 as (v1 & v2 & ->).
      assert (R3 := DO v1 (ERun id c0) (v2 ++ EEnd id :: u1 ++ ERun id c :: u2) ltac:(rewrite EQ, <- app_assoc; auto)).
      destruct R3 as [R3 _]. apply live_registered in R3. exists c0. apply in_app_iff; auto. }
  assert (GONE : forall u, (exists v, u1 = u ++ v) -> forall c', ~ In (id, c') (live (t1 ++ e :: u))).
  { induction u as [|x u IHu] using rev_ind; intros (v & ->) c' I'.
    - rewrite live_snoc in I'. destruct KIND as [->|[-> K]]; simpl in I'; apply filter_In in I'; destruct I' as [I' F]; simpl in F; rewrite N.eqb_refl in F.
      + discriminate.
      + rewrite K in F; [discriminate|]. apply live_registered in I'. rewrite EQ. apply in_app_iff; auto.
    - assert (X := IHu ltac:(exists ([x] ++ v); rewrite <- app_assoc; auto)).
      rewrite app_comm_cons, app_assoc, live_snoc in I'. destruct x; simpl in I'; try (eapply X; eauto; fail); try (apply filter_In in I'; eapply X; apply I').
      destruct I' as [[= -> ->]|I']; [|eapply X; eauto].
      destruct REG as (c0 & REG).
      assert (R4 := DO (t1 ++ e :: u) (EReg id c') (v ++ ERun id c :: u2)).
      simpl in R4. eapply R4.
      { rewrite EQ. repeat (rewrite <- app_assoc; simpl). auto. }
      apply in_app_iff. left. eauto. }
  eapply GONE; [exists []; rewrite app_nil_r; reflexivity|exact R].
Qed.

(** A one-shot callback that gets called again while it is running runs twice. *)
Theorem C39_once_refuted : exists acts s tr id c t1 t2 t3,
  c_exec 20 cstore_new [] acts = Some (s, tr) /\ cb_once c = true /\
  tr = t1 ++ ERun id c :: t2 ++ ERun id c :: t3.
Proof.
  set (A := Cb true 10 [Call 1]). set (B := Cb false 11 [DropRes 1; Call 2]).
  exists [Register B; Register A; Call 2]. do 2 eexists. exists 2%N, A, [EReg 1 B; EReg 2 A], [ERun 1 B; EDrop 1], [EMiss 1; EEnd 2; EEnd 1; EEnd 2].
  split; [vm_compute; reflexivity|]. split; reflexivity.
Qed.

Example C39_example : exists s tr, c_exec 20 cstore_new []
  [Register (Cb false 1 [Register (Cb true 2 [])]); Call 1; Call 2; Call 2; DropRes 1; Call 1] = Some (s, tr) /\
  (registrations tr < two_64)%N /\ length tr = 9%nat.
Proof. do 2 eexists. split; [vm_compute; reflexivity|]. split; reflexivity. Qed.

(** ** C40 *)

Definition touches (p : N) (o : aop) : Prop :=
  match o with AAlloc q _ | AGet q | AFree q | ASet q _ => p = q end.
Definition stores (p : N) (o : aop) : Prop := match o with AAlloc q _ | ASet q _ => p = q | _ => False end.

(** The value of a block. *)
Definition decoded (c : bytes) : jsval := match from_block c with ROk v => v | _ => VUndefined end.

Lemma a_run_app m a b : a_run m (a ++ b) =
  let '(m1, r1) := a_run m a in let '(m2, r2) := a_run m1 b in (m2, r1 ++ r2).
Proof.
  revert m. induction a as [|o a IH]; simpl; intros m; [destruct (a_run m b); auto|].
  destruct (a_step m o) as [m1 r]. rewrite IH. destruct (a_run m1 a). destruct (a_run h b). auto.
Qed.

Lemma a_len m ops : length (snd (a_run m ops)) = length ops.
Proof.
  revert m. induction ops as [|o t IH]; simpl; intros m; auto. destruct (a_step m o) as [m1 r]. specialize (IH m1).
  destruct (a_run m1 t). simpl in *. auto.
Qed.

(** The result of the operation after [before]. *)
Definition answer (before : list aop) (o : aop) : option jsval := snd (a_step (fst (a_run [] before)) o).

(** That is what a run returns at that place. *)
Lemma answer_run before o after : nth_error (snd (a_run [] (before ++ o :: after))) (length before) = Some (answer before o).
Proof.
  rewrite a_run_app. unfold answer. pose proof (a_len [] before) as L. destruct (a_run [] before) as [m1 r1] eqn:E. simpl in *.
  destruct (a_step m1 o) as [m2 r]. destruct (a_run m2 after) as [m3 r3]. simpl.
  rewrite nth_error_app2 by lia. rewrite L, PeanoNat.Nat.sub_diag. auto.
Qed.

Lemma a_untouched p ops m : Forall (fun o => ~ touches p o) ops -> hget (fst (a_run m ops)) p = hget m p.
Proof.
  revert m. induction ops as [|o t IH]; simpl; intros m F; auto. inversion F; subst.
  assert (S : hget (fst (a_step m o)) p = hget m p).
  { destruct o; simpl in *; rewrite ?hget_set, ?hget_del; try (destruct (N.eqb_spec p ptr); [contradiction|auto]).
    destruct (ptr =? 0)%N; auto. destruct (hget m ptr); simpl; auto. rewrite hget_del. destruct (N.eqb_spec p ptr); [contradiction|auto]. }
  specialize (IH (fst (a_step m o)) H2). destruct (a_step m o) as [m1 r]. simpl in *. destruct (a_run m1 t). simpl in *. congruence.
Qed.

Lemma a_gone p ops m : hget m p = None -> Forall (fun o => ~ stores p o) ops -> hget (fst (a_run m ops)) p = None.
Proof.
  revert m. induction ops as [|o t IH]; simpl; intros m G F; auto. inversion F; subst.
  assert (S : hget (fst (a_step m o)) p = None).
  { destruct o; simpl in *; rewrite ?hget_set, ?hget_del; try (destruct (N.eqb_spec p ptr); [contradiction|auto]).
    - destruct (ptr =? 0)%N; auto. destruct (hget m ptr) eqn:E; simpl; auto. rewrite hget_del. destruct (p =? ptr)%N; auto.
    - destruct (p =? ptr)%N; auto. }
  specialize (IH (fst (a_step m o)) S H2). destruct (a_step m o) as [m1 r]. simpl in *. destruct (a_run m1 t). auto.
Qed.

(** A block is delivered at the first read of its address (the allocator never hands out the address of a
    block in use, so nothing else is stored there in between) ... *)
Theorem C40_delivered : forall before p c between, p <> 0%N -> Forall (fun o => ~ touches p o) between ->
  answer (before ++ AAlloc p c :: between) (AGet p) = Some (decoded c).
Proof.
  intros before p c between NZ F. unfold answer. rewrite a_run_app. destruct (a_run [] before) as [m1 r1]. simpl.
  destruct (a_run (hset m1 p c) between) as [m2 r2] eqn:E. simpl.
  pose proof (a_untouched p between (hset m1 p c) F) as U. rewrite E, hget_set, N.eqb_refl in U. simpl in U. rewrite U.
  destruct (N.eqb_spec p 0); [contradiction|]. reflexivity.
Qed.

(** ... and only then; address 0 never holds anything. *)
Theorem C40_once : forall before p between, Forall (fun o => ~ stores p o) between ->
  answer (before ++ AGet p :: between) (AGet p) = Some VUndefined /\
  answer before (AGet 0) = Some VUndefined /\
  answer between (AGet p) = Some VUndefined.
Proof.
  intros before p between F.
  assert (G : forall m, hget m p = None -> snd (a_step (fst (a_run m between)) (AGet p)) = Some VUndefined).
  { intros m H. pose proof (a_gone p between m H F) as U. simpl. rewrite U. destruct (p =? 0)%N; auto. }
  split; [|split; [reflexivity|apply G; auto]].
  unfold answer. rewrite a_run_app. destruct (a_run [] before) as [m1 r1]. 
  change (a_run m1 (AGet p :: between)) with (let '(m2, r) := a_step m1 (AGet p) in let '(m3, rs) := a_run m2 between in (m3, r :: rs)).
  assert (X : p = 0%N \/ hget (fst (a_step m1 (AGet p))) p = None).
  { simpl. destruct (N.eqb_spec p 0); auto. right. destruct (hget m1 p) eqn:E; simpl; auto. rewrite hget_del, N.eqb_refl. auto. }
  destruct (a_step m1 (AGet p)) as [m2 r] eqn:S. specialize (G m2). simpl in X.
  destruct (a_run m2 between) as [m3 rs] eqn:R. simpl fst in *. cbv iota beta zeta.
  destruct X as [->|X]; [reflexivity|apply G; auto].
Qed.

Example C40_example :
  answer [AAlloc 8 [8%N]; AAlloc 16 [3%N; 104%N]; AGet 16; AFree 24] (AGet 8) = Some (decoded [8%N]) /\
  answer [AAlloc 8 [8%N]; AGet 8; AAlloc 16 [8%N]] (AGet 8) = Some VUndefined /\ decoded [8%N] <> VUndefined.
Proof. split; [|split]; [reflexivity|reflexivity|vm_compute; discriminate]. Qed.

(** ** C41 *)

(** [delivers l tr l']: starting with the listeners [l] (in the order of registration), the history [tr] is
    right and ends with the listeners [l']: a trigger calls exactly the listeners registered when it starts,
    once each, in order. *)
Inductive delivers : list (N * lis) -> list tev -> list (N * lis) -> Prop :=
| dl_nil l : delivers l [] l
| dl_add l id x tr l' : ~ In id (map fst l) -> delivers (l ++ [(id, x)]) tr l' -> delivers l (TAdd id x :: tr) l'
| dl_remove l id tr l' : delivers (filter (fun p => negb (fst p =? id)%N) l) tr l' -> delivers l (TRemove id :: tr) l'
| dl_trigger l calls l1 tr l' : map fst calls = l -> delivers_calls l calls l1 -> delivers l1 tr l' ->
    delivers l (TTrigger calls :: tr) l'
with delivers_calls : list (N * lis) -> list (N * lis * list tev) -> list (N * lis) -> Prop :=
| dc_nil l : delivers_calls l [] l
| dc_cons l c tr l1 rest l' : delivers l tr l1 -> delivers_calls l1 rest l' -> delivers_calls l ((c, tr) :: rest) l'.

(** Number of registrations. *)
Fixpoint adds (e : tev) : N :=
  match e with
  | TAdd _ _ => 1
  | TRemove _ => 0
  | TTrigger calls => fold_right (fun c n => fold_right (fun e n => adds e + n)%N 0%N (snd c) + n)%N 0%N calls
  end.
Definition all_adds (tr : list tev) : N := fold_right (fun e n => adds e + n)%N 0%N tr.

(** The next id exceeds all ids in use. *)
Definition einv (s : emitter) : Prop := forall id x, In (id, x) (em_list s) -> (id < em_next s)%N.

Lemma bt_insert_last {A} (m : list (N * A)) k a : (forall k' a', In (k', a') m -> (k' < k)%N) -> bt_insert m k a = m ++ [(k, a)].
Proof.
  induction m as [|[k' a'] m IH]; simpl; intros H; auto.
  assert (k' < k)%N by (apply (H k' a'); auto).
  destruct (N.ltb_spec k k'); [lia|]. destruct (N.eqb_spec k k'); [lia|]. f_equal. apply IH. eauto.
Qed.

Lemma hdel_filter (l : list (N * lis)) id : hdel l id = filter (fun p => negb (fst p =? id)%N) l.
Proof. unfold hdel. apply filter_ext. intros [i x]. simpl. rewrite N.eqb_sym. auto. Qed.

Definition e_calls (f : nat) := fix calls (s : emitter) (l : list (N * lis)) : option (emitter * list (N * lis * list tev)) :=
  match l with
  | [] => Some (s, [])
  | (id, Lis tag body) :: t =>
      match e_exec f s body with
      | None => None
      | Some (s1, tr) =>
          match calls s1 t with
          | None => None
          | Some (s2, r) => Some (s2, (id, Lis tag body, tr) :: r)
          end
      end
  end.

Lemma e_exec_add f s l rest : e_exec (S f) s (LAdd l :: rest) =
  match e_exec f (Emitter ((em_next s + 1) mod two_32) (bt_insert (em_list s) (em_next s) l)) rest with
  | None => None
  | Some (s2, tr) => Some (s2, TAdd (em_next s) l :: tr)
  end.
Proof. reflexivity. Qed.

Lemma e_exec_trigger f s rest : e_exec (S f) s (LTrigger :: rest) =
  match e_calls f s (em_list s) with
  | None => None
  | Some (s1, cs) =>
      match e_exec f s1 rest with
      | None => None
      | Some (s2, tr) => Some (s2, TTrigger cs :: tr)
      end
  end.
Proof. reflexivity. Qed.

Lemma e_exec_ok fuel : forall s acts s' tr, einv s -> (em_next s + all_adds tr < two_32)%N -> e_exec fuel s acts = Some (s', tr) ->
  delivers (em_list s) tr (em_list s') /\ einv s' /\ em_next s' = (em_next s + all_adds tr)%N.
Proof.
  induction fuel as [|f IH]; [discriminate|]. intros s acts s' tr INV B E.
  destruct acts as [|[x|id|] rest].
  - simpl in E. inversion E; subst. simpl in *. split; [constructor|]. split; auto. lia.
  - rewrite e_exec_add in E. destruct (e_exec f _ rest) as [[s2 tr2]|] eqn:E2; [|discriminate]. inversion E; subst. clear E.
    change (all_adds (TAdd (em_next s) x :: tr2)) with (1 + all_adds tr2)%N in *.
    assert (MS : ((em_next s + 1) mod two_32 = em_next s + 1)%N) by (apply N.mod_small; lia). rewrite MS in E2.
    rewrite bt_insert_last in E2 by exact INV.
    apply IH in E2; cbn [em_next em_list] in *; [|intros i y I|lia].
    + destruct E2 as (D & I & N). split; [|split; auto; lia]. constructor; auto.
      intros X. apply in_map_iff in X. destruct X as ([i y] & EQ & X). simpl in EQ. apply INV in X. lia.
    + cbn [em_next em_list] in *. apply in_app_iff in I. destruct I as [I|[X|[]]]; [apply INV in I; lia|]. inversion X. lia.
  - simpl in E. destruct (e_exec f _ rest) as [[s2 tr2]|] eqn:E2; [|discriminate]. inversion E; subst. clear E.
    change (all_adds (TRemove id :: tr2)) with (all_adds tr2) in *.
    apply IH in E2; cbn [em_next em_list] in *; auto.
    + destruct E2 as (D & I & N). split; [|split; auto]. constructor. rewrite <- hdel_filter. auto.
    + intros i y I. unfold hdel in I. apply filter_In in I. apply (INV i y). tauto.
  - rewrite e_exec_trigger in E. destruct (e_calls f s (em_list s)) as [[s1 cs]|] eqn:E1; [|discriminate].
    destruct (e_exec f s1 rest) as [[s2 tr2]|] eqn:E2; [|discriminate]. inversion E; subst. clear E.
    change (all_adds (TTrigger cs :: tr2)) with (adds (TTrigger cs) + all_adds tr2)%N in *.
    assert (C : forall l s s1 cs, einv s -> (em_next s + adds (TTrigger cs) < two_32)%N -> e_calls f s l = Some (s1, cs) ->
       map fst cs = l /\ delivers_calls (em_list s) cs (em_list s1) /\ einv s1 /\ em_next s1 = (em_next s + adds (TTrigger cs))%N).
    { clear - IH. induction l as [|[id [tag body]] l IHl]; intros s s1 cs INV B E; simpl in E.
      - inversion E; subst. simpl. split; auto. split; [constructor|]. split; auto. lia.
      - destruct (e_exec f s body) as [[sa tra]|] eqn:E1; [|discriminate].
        destruct (e_calls f sa l) as [[sb r]|] eqn:E2; [|discriminate]. inversion E; subst. clear E.
        change (adds (TTrigger ((id, Lis tag body, tra) :: r))) with (all_adds tra + adds (TTrigger r))%N in *.
        apply IH in E1; auto; [|lia]. destruct E1 as (D1 & I1 & N1).
        apply IHl in E2; auto; [|lia]. destruct E2 as (M & D2 & I2 & N2).
        split; [simpl; f_equal; auto|]. split; [econstructor; eauto|]. split; auto. lia. }
    assert (B1 : (em_next s + adds (TTrigger cs) < two_32)%N) by lia.
    destruct (C _ _ _ _ INV B1 E1) as (M & D & I1 & N1).
    apply IH in E2; auto; [|lia]. destruct E2 as (D2 & I2 & N2).
    split; [econstructor; eauto|]. split; auto. lia.
Qed.

(** Every history of an emitter is right (fewer than 2^32 - 1 registrations). *)
Theorem C41_delivers : forall fuel acts s tr, e_exec fuel emitter_new acts = Some (s, tr) -> (all_adds tr < two_32 - 1)%N ->
  delivers [] tr (em_list s).
Proof.
  intros fuel acts s tr E B. apply e_exec_ok in E; [apply E| |].
  - intros id x [].
  - change (em_next emitter_new) with 1%N. unfold two_32 in *. lia.
Qed.

(** "A removed listener is never called again" is false: a listener removed by an earlier listener of the same
    trigger is still called. *)
Theorem C41_removed_refuted : exists acts s l1 l2 tr1, e_exec 20 emitter_new acts = Some (s, tr1) /\
  tr1 = [TAdd 1 l1; TAdd 2 l2; TTrigger [(1%N, l1, [TRemove 2]); (2%N, l2, [])]].
Proof.
  exists [LAdd (Lis 7 [LRemove 2]); LAdd (Lis 8 []); LTrigger], (Emitter 3 [(1%N, Lis 7 [LRemove 2])]), (Lis 7 [LRemove 2]), (Lis 8 []).
  eexists. split; [vm_compute; reflexivity|reflexivity].
Qed.

Example C41_example : exists s tr, e_exec 20 emitter_new
    [LAdd (Lis 1 [LAdd (Lis 3 [])]); LAdd (Lis 2 []); LTrigger; LRemove 2; LTrigger] = Some (s, tr) /\
  (all_adds tr < two_32 - 1)%N /\ map fst (em_list s) = [1%N; 3%N; 4%N].
Proof. do 2 eexists. split; [vm_compute; reflexivity|]. split; reflexivity. Qed.

(** ** C45 *)

Section Future.
  Context {T : Type}.
  Notation op := (fop T).

  Definition is_poll (o : op) : Prop := match o with FPoll _ => True | _ => False end.

  (** The result of the operation after [before]. *)
  Fixpoint f_state (s : fbox T) (ops : list op) : fbox T :=
    match ops with [] => s | o :: t => f_state (fst (f_step s o)) t end.
  Definition f_answer (before : list op) (o : op) : fres T := snd (f_step (f_state fbox_new before) o).

  Lemma f_answer_run before o after : nth_error (f_run fbox_new (before ++ o :: after)) (length before) = Some (f_answer before o).
  Proof.
    unfold f_answer. generalize (@fbox_new T) as s. induction before as [|x b IH]; intros s; simpl.
    - destruct (f_step s o); auto.
    - destruct (f_step s x) as [s1 r]. simpl. apply IH.
  Qed.

  Lemma f_state_app s a b : f_state s (a ++ b) = f_state (f_state s a) b.
  Proof. revert s. induction a; simpl; auto. Qed.

  (** A published value is received by the first poll after it ... *)
  Theorem C45_received : forall before v task, f_answer (before ++ [FPublish v]) (FPoll task) = Ready v.
  Proof.
    intros. unfold f_answer. rewrite f_state_app. simpl. destruct (fb_waker (f_state fbox_new before)); auto.
  Qed.

  (** ... and by no other: until something is published again all polls are pending. *)
  Theorem C45_once : forall before polls task, Forall is_poll polls ->
    f_answer polls (FPoll task) = Pending /\ f_answer (before ++ FPoll task :: polls) (FPoll task) = Pending.
  Proof.
    intros before polls task F.
    assert (G : forall s, fb_result s = None -> snd (f_step (f_state s polls) (FPoll task)) = Pending).
    { induction F as [|o polls P F IH]; simpl; intros s H; [rewrite H; auto|]. apply IH. destruct o; [|contradiction]. simpl. rewrite H. auto. }
    split; [apply G; auto|]. unfold f_answer. rewrite f_state_app. simpl. apply G.
    destruct (fb_result (f_state fbox_new before)); auto.
  Qed.

  (** The task that polled last (and got [Pending]) before a value is published is woken. *)
  Theorem C45_woken : forall before task v, f_answer before (FPoll task) = Pending ->
    f_answer (before ++ [FPoll task]) (FPublish v) = Woken task.
  Proof.
    intros before task v. unfold f_answer. rewrite f_state_app. simpl. destruct (fb_result (f_state fbox_new before)); [discriminate|]. auto.
  Qed.

  (** A second value published before the first was received replaces it. *)
  Theorem C45_two_values_refuted : forall v1 v2 task rest, Forall is_poll rest ->
    f_run fbox_new (FPublish v1 :: FPublish v2 :: FPoll task :: rest) = NoWaker :: NoWaker :: Ready v2 :: map (fun _ => Pending) rest.
  Proof.
    intros. simpl. do 3 f_equal. generalize (None (A := N)). induction H as [|o rest P F IH]; simpl; intros w; auto. destruct o; [|contradiction]. simpl. f_equal. apply IH.
  Qed.
End Future.

Example C45_example : f_run fbox_new [FPoll 1; FPoll 2; FPublish 7%N; FPoll 2; FPoll 2] = [Pending; Pending; Woken 2; Ready 7%N; Pending].
Proof. reflexivity. Qed.
