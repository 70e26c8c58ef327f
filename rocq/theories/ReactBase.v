(** Basic lemmas about the reactive model: determinism of the specification, the effect of replacing
    the parents of a node, and the structural invariant of evaluation. *)

From Coq Require Import List NArith Bool Lia Arith.
From Verif Require Import GraphModel GraphSpec GraphProofs ReactModel ReactSpec.
Import ListNotations.

Section Base.
  Context {V : Type}.
  Variable E : @env V.

  Scheme den_ind2 := Minimality for den Sort Prop
    with runs_ind2 := Minimality for runs Sort Prop.
  Combined Scheme den_runs_ind from den_ind2, runs_ind2.

  Lemma den_runs_det vs :
    (forall id v, den E vs id v -> forall w, den E vs id w -> v = w) /\
    (forall p l v, runs E vs p l v -> forall l' w, runs E vs p l' w -> l = l' /\ v = w).
  Proof.
    apply (den_runs_ind V E vs
      (fun id v => forall w, den E vs id w -> v = w)
      (fun p l v => forall l' w, runs E vs p l' w -> l = l' /\ v = w)).
    - intros id K w H; inversion H; congruence.
    - intros c l v K R IH w H; inversion H; subst; [congruence|]. eapply IH; eauto.
    - intros v l' w H; inversion H; auto.
    - intros id k x l v D IHD R IHR l' w H. inversion H as [|? ? x' l2 ? D' R']; subst.
      assert (x = x') by eauto; subst x'. destruct (IHR _ _ R') as [-> ->]. auto.
  Qed.

  Lemma den_det vs id v w : den E vs id v -> den E vs id w -> v = w.
  Proof. intros A B; eapply (proj1 (den_runs_det vs)); eauto. Qed.

  Lemma runs_det vs p l v l' w : runs E vs p l v -> runs E vs p l' w -> l = l' /\ v = w.
  Proof. intros A B; eapply (proj2 (den_runs_det vs)); eauto. Qed.

  (** ** Updates *)

  Lemma upd_same {A} (f : gid -> A) k a : upd f k a k = a.
  Proof. unfold upd; rewrite gid_eqb_refl; auto. Qed.

  Lemma upd_other {A} (f : gid -> A) k a x : x <> k -> upd f k a x = f x.
  Proof. intros; unfold upd; rewrite gid_eqb_neq; auto. Qed.

  Lemma upd_spec {A} (f : gid -> A) k a x :
    (x = k /\ upd f k a x = a) \/ (x <> k /\ upd f k a x = f x).
  Proof. destruct (gid_eq_dec x k) as [->|N]; [left; rewrite upd_same|right; rewrite upd_other]; auto. Qed.

  (** ** The loop over the nodes to refresh *)

  (** Fields no part of a parent replacement touches. *)
  Definition frozen (s s' : @state V) : Prop :=
    vals s' = vals s /\ prev s' = prev s /\ res s' = res s /\ live s' = live s /\
    tx s' = tx s /\ frames s' = frames s /\ running s' = running s /\
    dying s' = dying s /\ next s' = next s.

  Lemma frozen_refl s : frozen s s.
  Proof. unfold frozen; auto 12. Qed.

  Lemma frozen_trans a b c : frozen a b -> frozen b c -> frozen a c.
  Proof. unfold frozen; intros; intuition; congruence. Qed.

  Definition in_frames (n : gid) (s : @state V) : Prop := exists f, In f (frames s) /\ In n f.

  Lemma in_frames_spec n s : existsb (set_mem n) (frames s) = true <-> in_frames n s.
  Proof.
    rewrite existsb_exists. unfold in_frames. split; intros (f & F & H); exists f; split; auto;
      destruct (set_mem_spec n f); auto; congruence.
  Qed.

  Lemma apply_active_frozen me s e : frozen s (apply_active E me s e).
  Proof.
    destruct e as [id b]; unfold apply_active, note_hazard, clear_client, clear_computed, set_connection.
    destruct (gkind id), b; simpl;
      repeat match goal with |- context [if ?x then _ else _] => destruct x; simpl end;
      unfold frozen; simpl; auto 12.
  Qed.

  Lemma fold_active_frozen me info : forall s, frozen s (fold_left (apply_active E me) info s).
  Proof.
    induction info as [|e info IH]; intros s; simpl; [apply frozen_refl|].
    eapply frozen_trans; [apply apply_active_frozen|apply IH].
  Qed.

  Lemma apply_active_graph me s e : graph_of (apply_active E me s e) = graph_of s.
  Proof.
    destruct e as [id b]; unfold apply_active, note_hazard, clear_client, clear_computed, set_connection.
    destruct (gkind id), b; simpl;
      repeat match goal with |- context [if ?x then _ else _] => destruct x; simpl end; auto.
  Qed.

  Lemma fold_active_graph me info : forall s,
    graph_of (fold_left (apply_active E me) info s) = graph_of s.
  Proof. induction info; intros s; simpl; auto. rewrite IHinfo, apply_active_graph; auto. Qed.

  Lemma apply_active_cache me s id b n :
    cache (apply_active E me s (id, b)) n =
    if gid_eqb n id && negb b && match gkind id with KComputed => true | _ => false end
    then None else cache s n.
  Proof.
    unfold apply_active, note_hazard, clear_client, clear_computed, set_connection, upd.
    destruct (gkind id), b; simpl; rewrite ?andb_false_r, ?andb_true_r;
      repeat match goal with |- context [if ?x then _ else _] => destruct x eqn:?; simpl end;
      simpl in *; auto; try congruence.
  Qed.

  Lemma fold_active_cache me info : forall s n,
    (In (n, false) info -> gkind n = KComputed -> cache (fold_left (apply_active E me) info s) n = None) /\
    (~ (In (n, false) info /\ gkind n = KComputed) ->
     cache (fold_left (apply_active E me) info s) n = cache s n).
  Proof.
    assert (MONO : forall info s n, cache s n = None ->
              cache (fold_left (apply_active E me) info s) n = None).
    { clear. induction info as [|[id b] info IH]; intros s n H; cbn [fold_left]; auto.
      apply IH. rewrite apply_active_cache. destruct (_ && _); auto. }
    induction info as [|[id b] info IH]; intros s n; cbn [fold_left].
    - split; [intros []|auto].
    - destruct (IH (apply_active E me s (id, b)) n) as [A B]. split.
      + intros [H|H] K; [|auto]. inversion H; subst.
        apply MONO. rewrite apply_active_cache, gid_eqb_refl, K. reflexivity.
      + intros H. rewrite B.
        * rewrite apply_active_cache. destruct (gid_eqb_spec n id) as [->|]; auto.
          destruct b; auto. destruct (gkind id) eqn:K; auto. exfalso; apply H; simpl; auto.
        * intros [H1 H2]; apply H; simpl; auto.
  Qed.

  Lemma apply_active_active me s id b n :
    active (apply_active E me s (id, b)) n =
    if gid_eqb n id && negb b && live s id && match gkind id with KClient => true | _ => false end
    then false else active s n.
  Proof.
    unfold apply_active, note_hazard, clear_client, clear_computed, set_connection, upd.
    destruct (gkind id), b; simpl; rewrite ?andb_false_r, ?andb_true_r;
      repeat match goal with |- context [if ?x then _ else _] => destruct x eqn:?; simpl end;
      simpl in *; auto; try congruence;
      repeat match goal with H : ?a = true, H' : context [?a] |- _ => rewrite H in H' end;
      simpl in *; rewrite ?andb_false_r, ?andb_true_r in *; try congruence.
  Qed.

  Lemma fold_active_active me info : forall s n,
    (forall b, In (n, b) info -> b = false -> gkind n = KClient -> live s n = true -> n = me) ->
    n <> me ->
    active (fold_left (apply_active E me) info s) n = active s n.
  Proof.
    induction info as [|[id b] info IH]; intros s n H N; cbn [fold_left]; auto.
    pose proof (apply_active_frozen me s (id, b)) as (_ & _ & _ & L & _).
    rewrite IH; auto.
    - rewrite apply_active_active. destruct (gid_eqb_spec n id) as [->|]; auto.
      destruct b; auto. destruct (live s id) eqn:Lv; auto. destruct (gkind id) eqn:K; auto.
      exfalso; apply N; eapply H; simpl; eauto.
    - rewrite L. intros b' I; eapply H; right; eauto.
  Qed.

  Lemma fold_active_active_me me info : forall s n,
    active s n = false -> active (fold_left (apply_active E me) info s) n = false.
  Proof.
    induction info as [|[id b] info IH]; intros s n H; cbn [fold_left]; auto.
    apply IH. rewrite apply_active_active. destruct (_ && _); auto.
  Qed.

  Lemma apply_active_hazard me s id b :
    hazard (apply_active E me s (id, b)) = true <->
    hazard s = true \/ (b = false /\ gkind id = KComputed /\ id <> me /\ in_frames id s).
  Proof.
    rewrite <- in_frames_spec.
    unfold apply_active, note_hazard, clear_client, clear_computed, set_connection.
    destruct (gkind id), b; simpl;
      try (destruct (gid_eqb_spec id me) as [->|]);
      simpl; repeat match goal with |- context [if ?x then _ else _] => destruct x eqn:?; simpl end;
      simpl; intuition congruence.
  Qed.

  Lemma fold_active_hazard me info : forall s,
    hazard (fold_left (apply_active E me) info s) = true <->
    hazard s = true \/
    exists n, In (n, false) info /\ gkind n = KComputed /\ n <> me /\ in_frames n s.
  Proof.
    induction info as [|[id b] info IH]; intros s; cbn [fold_left].
    - split; auto. intros [?|(n & [] & _)]; auto.
    - rewrite IH, apply_active_hazard.
      assert (F : forall n, in_frames n (apply_active E me s (id, b)) <-> in_frames n s).
      { intros n; unfold in_frames.
        pose proof (apply_active_frozen me s (id, b)) as (_ & _ & _ & _ & _ & F & _).
        rewrite F; tauto. }
      split.
      + intros [[?|(-> & K & N & I)]|(n & I & K & N & F')]; auto; right.
        * exists id; split; [simpl; auto|auto].
        * exists n; rewrite F in F'; split; [simpl; auto|auto].
      + intros [?|(n & [I|I] & K & N & F')]; auto.
        * inversion I; subst. left; right; auto.
        * right; exists n; rewrite F; auto.
  Qed.

  Lemma conn_ok_app_other id l s b :
    conn_ok id s b -> Forall (fun e => e <> EConnect id /\ e <> EDisconnect id) l ->
    conn_ok (V := V) id (l ++ s) b.
  Proof.
    intros H; induction l as [|e l IH]; simpl; auto. inversion 1 as [|? ? [A B] F]; subst.
    apply conn_other; auto.
  Qed.

  (** Connections: a listed value ends up as its flag says, the others do not change. *)
  Lemma apply_active_conn me s id b n :
    conn (apply_active E me s (id, b)) n =
    if gid_eqb n id && match gkind id with KValue => true | _ => false end
    then (if b then conn s n || e_conn E n else false) else conn s n.
  Proof.
    unfold apply_active. destruct (gkind id).
    - rewrite andb_true_r. unfold set_connection. destruct b.
      + destruct (conn s id) eqn:C; [|destruct (e_conn E id) eqn:X]; simpl; unfold upd;
          destruct (gid_eqb_spec n id) as [->|]; rewrite ?C, ?X; auto.
      + destruct (conn s id) eqn:C; simpl; unfold upd;
          destruct (gid_eqb_spec n id) as [->|]; rewrite ?C; auto.
    - rewrite andb_false_r. destruct b; auto. unfold note_hazard, clear_computed.
      destruct (gid_eqb id me); auto. destruct (existsb _ _); auto.
    - rewrite andb_false_r. destruct b; auto. unfold clear_client. destruct (live s id); auto.
  Qed.

  Lemma fold_active_conn me info : forall s n, NoDup (map fst info) ->
    (forall b, In (n, b) info -> gkind n = KValue ->
       conn (fold_left (apply_active E me) info s) n = if b then conn s n || e_conn E n else false) /\
    ((forall b, ~ (In (n, b) info /\ gkind n = KValue)) ->
       conn (fold_left (apply_active E me) info s) n = conn s n).
  Proof.
    induction info as [|[id b] info IH]; intros s n ND; cbn [fold_left].
    - split; [intros b []|auto].
    - simpl in ND; inversion ND as [|? ? NI ND']; subst.
      destruct (IH (apply_active E me s (id, b)) n ND') as [A B]. split.
      + intros b' [H|H] K.
        * inversion H; subst. rewrite B.
          -- rewrite apply_active_conn, gid_eqb_refl, K; simpl; auto.
          -- intros b [H1 _]. apply NI. change n with (fst (n, b)). apply in_map; auto.
        * rewrite (A b' H K), apply_active_conn.
          assert (n <> id) by (intros ->; apply NI; change id with (fst (id, b')); apply in_map; auto).
          rewrite gid_eqb_neq by auto; simpl; auto.
      + intros H. rewrite B.
        * rewrite apply_active_conn. destruct (gid_eqb_spec n id) as [->|]; simpl; auto.
          destruct (gkind id) eqn:K; auto. exfalso; apply (H b); simpl; auto.
        * intros b' [H1 H2]; apply (H b'); simpl; auto.
  Qed.

  Definition conn_event (e : @event V) : Prop :=
    match e with EConnect _ | EDisconnect _ => True | _ => False end.

  Lemma apply_active_log me s e :
    (forall v, conn_ok v (log s) (conn s v)) ->
    (forall v, conn_ok v (log (apply_active E me s e)) (conn (apply_active E me s e) v)) /\
    exists l, log (apply_active E me s e) = l ++ log s /\ Forall conn_event l.
  Proof.
    intros H. destruct e as [id b].
    unfold apply_active, note_hazard, clear_client, clear_computed, set_connection.
    destruct (gkind id), b; simpl;
      repeat match goal with |- context [if ?x then _ else _] => destruct x eqn:?; simpl end;
      try (split; [exact H|exists []; auto]).
    - split; [|exists [EConnect id]; simpl; repeat constructor].
      intros v. destruct (upd_spec (conn s) id true v) as [[-> ->]|[N ->]].
      + apply conn_connect. rewrite <- Heqb. apply H.
      + apply conn_other; auto; congruence.
    - split; [|exists [EDisconnect id]; simpl; repeat constructor].
      intros v. destruct (upd_spec (conn s) id false v) as [[-> ->]|[N ->]].
      + apply conn_disconnect. rewrite <- Heqb. apply H.
      + apply conn_other; auto; congruence.
  Qed.

  Lemma fold_active_log me info : forall s,
    (forall v, conn_ok v (log s) (conn s v)) ->
    (forall v, conn_ok v (log (fold_left (apply_active E me) info s))
                         (conn (fold_left (apply_active E me) info s) v)) /\
    exists l, log (fold_left (apply_active E me) info s) = l ++ log s /\ Forall conn_event l.
  Proof.
    induction info as [|e info IH]; intros s H; cbn [fold_left].
    - split; auto. exists []; auto.
    - destruct (apply_active_log me s e H) as [A (l & L & F)].
      destruct (IH _ A) as [B (l' & L' & F')]. split; auto.
      exists (l' ++ l). rewrite L', L, app_assoc; split; auto. apply Forall_app; auto.
  Qed.
End Base.
