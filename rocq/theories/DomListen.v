(** C61: listeners of a page, from the element that registers them to the page that has them.

    Source: EL = /repo/crates/vertigo/src/dom/dom_element.rs:182-203, 395-399,
    CB = /repo/crates/vertigo/src/driver_module/api/callbacks.rs:40-68, and DomModel (dom.ts:339-422). *)
From Coq Require Import List NArith Bool Lia.
From Verif Require Import DomModel.
Import ListNotations.

Section Elements.
  Context {T : Type}.

  (** The elements that exist, with the listeners they own in [subscriptions] (EL 27-29), and [el_node]: not yet removed
      from the document; the ids of [CallbackStore] (CB 36-39); the counters of [DomId] and [CallbackId]; the commands issued. *)
  Record elem := Elem { el_id : N; el_node : bool; el_subs : list (T * N) }.
  Record app := App { a_elems : list elem; a_store : list N; a_next_id : N; a_next_cb : N; a_cmds : list (dcmd T) }.

  (** What the application does with elements.  Dropping one takes two steps, between which its children are dropped
      (EL 395-399, then the fields in order): [RemoveNode] is issued, and the subscriptions are dropped. *)
  Inductive op := New (name : T) | On (id : N) (event : T) | DropNode (id : N) | DropSubs (id : N).

  (** Changing the element with an id. *)
  Definition el_update (id : N) (f : elem -> elem) (l : list elem) : list elem :=
    map (fun e => if (el_id e =? id)%N then f e else e) l.

  Definition el_find (id : N) (l : list elem) : option elem := find (fun e => (el_id e =? id)%N) l.

  (** EL 32-48 [new], 182-203 [add_event_listener] with CB 50-68 [register], EL 395-399 [drop], and the drop resource
      188-194 of each listener: [callback_remove], then [drop.off()] (CB 61-65).
      Operations on elements that do not exist (any more) cannot be written in Rust: nothing happens here. *)
  Definition step (s : app) (o : op) : app :=
    match o with
    | New name =>
        App (a_elems s ++ [Elem (a_next_id s) true []]) (a_store s) (a_next_id s + 1) (a_next_cb s)
            (a_cmds s ++ [CreateNode (a_next_id s) name])
    | On id ev =>
        match el_find id (a_elems s) with
        | Some (Elem _ true _) =>
            App (el_update id (fun e => Elem (el_id e) (el_node e) (el_subs e ++ [(ev, a_next_cb s)])) (a_elems s))
                (a_store s ++ [a_next_cb s]) (a_next_id s) (a_next_cb s + 1)
                (a_cmds s ++ [CallbackAdd id ev (a_next_cb s)])
        | _ => s
        end
    | DropNode id =>
        match el_find id (a_elems s) with
        | Some (Elem _ true _) =>
            App (el_update id (fun e => Elem (el_id e) false (el_subs e)) (a_elems s)) (a_store s) (a_next_id s)
                (a_next_cb s) (a_cmds s ++ [RemoveNode id])
        | _ => s
        end
    | DropSubs id =>
        match el_find id (a_elems s) with
        | Some (Elem _ false subs) =>
            App (filter (fun e => negb (el_id e =? id)%N) (a_elems s))
                (filter (fun cb => negb (existsb (fun p => (snd p =? cb)%N) subs)) (a_store s))
                (a_next_id s) (a_next_cb s) (a_cmds s ++ map (fun p => CallbackRemove id (fst p) (snd p)) subs)
        | _ => s
        end
    end.

  Definition run (s : app) (l : list op) : app := fold_left step l s.

  (** dom_id.rs:8-12 (ids start after the permanent ones), CB 12: counters at the start. *)
  Definition start : app := App [] [] 4 1 [].
End Elements.
Arguments app : clear implicits.
Arguments elem : clear implicits.
Arguments op : clear implicits.

(** ** Specification *)
Section Spec.
  Context {T : Type}.

  (** The last command on a callback id adds it. *)
  Definition on_cb (cb : N) (c : dcmd T) : Prop :=
    match c with CallbackAdd _ _ k | CallbackRemove _ _ k => k = cb | _ => False end.
  Definition added_last (cs : list (dcmd T)) (cb : N) : Prop :=
    exists l id ev l', cs = l ++ CallbackAdd id ev cb :: l' /\ forall c, In c l' -> ~ on_cb cb c.

  (** Every callback id is for one element and one event ([owner]), and is not added again after it was removed. *)
  Variable owner : N -> N * T.
  Definition owned (c : dcmd T) : Prop :=
    match c with CallbackAdd id ev cb | CallbackRemove id ev cb => owner cb = (id, ev) | _ => True end.
End Spec.

(** A list of commands as sent: cut into batches, each of them sorted. *)
Inductive sent {T} : list (dcmd T) -> list (dcmd T) -> Prop :=
| sent_nil : sent [] []
| sent_batch b cs out : sent cs out -> sent (b ++ cs) (sort_commands b ++ out).

Section Last.
  Context {T : Type}.

  (** What a command does to [callbacks], whether it throws or not. *)
  Definition after_cb (c : dcmd T) (b : bool) (cb : N) : bool :=
    match c with
    | CallbackAdd _ _ k => if (k =? cb)%N then true else b
    | CallbackRemove _ _ k => if (k =? cb)%N then false else b
    | _ => b
    end.

  Lemma added_snoc (cs : list (dcmd T)) c (cb : N) : added_last (cs ++ [c]) cb <->
    match c with CallbackAdd _ _ k => k = cb \/ added_last cs cb | CallbackRemove _ _ k => k <> cb /\ added_last cs cb | _ => added_last cs cb end.
  Proof.
    assert (Q : forall c, ~ on_cb cb c -> (added_last (cs ++ [c]) cb <-> added_last cs cb)).
    { clear c. intros c NC. split.
      - intros (l & id & ev & l' & E & F). destruct l' as [|c0 l'] using rev_ind.
        + apply app_inj_tail in E. destruct E as [_ ->]. simpl in NC. congruence.
        + rewrite app_comm_cons, app_assoc in E. apply app_inj_tail in E. destruct E as [E ->].
          exists l, id, ev, l'. split; auto. intros d D. apply F. apply in_or_app; auto.
      - intros (l & id & ev & l' & E & F). exists l, id, ev, (l' ++ [c]). split.
        + rewrite E. rewrite <- app_assoc. auto.
        + intros d D. apply in_app_or in D. destruct D as [D|[->|[]]]; auto. }
    destruct c; try (apply Q; simpl; tauto).
    - destruct (N.eq_dec callback cb) as [->|NE].
      + split; [auto|]. intros _. exists cs, id, event, []. split; auto.
      + rewrite Q by (simpl; auto). intuition.
    - destruct (N.eq_dec callback cb) as [->|NE].
      + split; [|tauto]. intros (l & i & ev & l' & E & F). exfalso. destruct l' as [|c0 l'] using rev_ind.
        * apply app_inj_tail in E. destruct E as [_ E]. discriminate.
        * rewrite app_comm_cons, app_assoc in E. apply app_inj_tail in E. destruct E as [_ <-].
          apply (F (CallbackRemove id event cb)); [apply in_or_app; right; left; auto|reflexivity].
      + rewrite Q by (simpl; auto). intuition.
  Qed.

  Lemma added_fold cb (cs : list (dcmd T)) : (fold_left (fun b c => after_cb c b cb) cs false = true) <-> added_last cs cb.
  Proof.
    induction cs as [|c cs IH] using rev_ind.
    - simpl. split; [discriminate|]. intros (l & ? & ? & ? & E & _). destruct l; discriminate.
    - rewrite fold_left_app, added_snoc. simpl. destruct c; simpl; auto.
      + destruct (N.eqb_spec callback cb); [tauto|]. rewrite IH. tauto.
      + destruct (N.eqb_spec callback cb); [subst; split; [discriminate|tauto]|]. rewrite IH. tauto.
  Qed.
End Last.

(** ** The page *)
Section Page.
  Context {T : Type}.
  Variable teqb : T -> T -> bool.
  Hypothesis teqb_spec : forall a b, reflect (a = b) (teqb a b).
  Variable hook : T.
  Variable perm : N -> bool.
  Variable owner : N -> N * T.

  Notation b_step := (b_step teqb hook perm).
  Notation breplay := (breplay teqb hook perm).

  (** Where the listener of a callback id is: the document for the keyboard hook, else its element. *)
  Definition place_of (cb : N) : option N := if teqb (snd (owner cb)) hook then None else Some (fst (owner cb)).
  Definition on_page (s : bdom T) (t : option N) : Prop := match t with None => True | Some x => b_reg s x = true end.

  (** Listeners are where they belong, on objects that exist, and those on the page are in [callbacks]. *)
  Definition good (s : bdom T) : Prop :=
    (forall x, b_reg s x = true -> b_node s x <> None) /\
    forall t ev cb, In (ev, cb) (b_listen s t) ->
      t = place_of cb /\ ev = snd (owner cb) /\ (forall x, t = Some x -> b_node s x <> None) /\
      (on_page s t -> b_cbs s cb = true).

  Lemma listen_detach (s : bdom T) x : b_listen (detach s x) = b_listen s /\ b_cbs (detach s x) = b_cbs s /\
    b_reg (detach s x) = b_reg s /\ b_node (detach s x) = b_node s.
  Proof. unfold detach. destruct (b_par s x); auto. Qed.

  Lemma nupd_at {A} (f : N -> A) k a : nupd f k a k = a.
  Proof. unfold nupd. rewrite N.eqb_refl. auto. Qed.
  Lemma nupd_off {A} (f : N -> A) k a x : x <> k -> nupd f k a x = f x.
  Proof. intros H. unfold nupd. apply N.eqb_neq in H. rewrite H. auto. Qed.
  Lemma oupd_at {A} (f : option N -> A) k a : oupd f k a k = a.
  Proof. unfold oupd. destruct k; auto. rewrite N.eqb_refl. auto. Qed.
  Lemma oupd_off {A} (f : option N -> A) k a x : x <> k -> oupd f k a x = f x.
  Proof. intros H. unfold oupd. destruct x, k; auto; try congruence. destruct (N.eqb_spec n n0); [congruence|auto]. Qed.
  Lemma oeq_dec (a b : option N) : {a = b} + {a <> b}.
  Proof. decide equality. apply N.eq_dec. Qed.

  Definition quiet (c : dcmd T) : Prop := match c with CallbackAdd _ _ _ | CallbackRemove _ _ _ => False | _ => True end.

  (** Commands that do not speak of callbacks. *)
  Lemma step_quiet s c s1 : quiet c -> b_step s c = Some s1 ->
    b_listen s1 = b_listen s /\ b_cbs s1 = b_cbs s /\
    (forall x, b_node s x <> None -> b_node s1 x <> None) /\
    (forall x, b_node s x <> None -> b_reg s1 x = true -> b_reg s x = true) /\
    (forall x, b_reg s1 x = true -> b_reg s x = true \/ b_node s1 x <> None).
  Proof.
    assert (CR : forall id n, b_create perm s id n = Some s1 ->
      b_listen s1 = b_listen s /\ b_cbs s1 = b_cbs s /\ (forall x, b_node s x <> None -> b_node s1 x <> None) /\
      (forall x, b_node s x <> None -> b_reg s1 x = true -> b_reg s x = true) /\
      (forall x, b_reg s1 x = true -> b_reg s x = true \/ b_node s1 x <> None)).
    { unfold b_create. intros id n. destruct (perm id); [intros [= <-]; auto 10|].
      destruct (b_node s id) eqn:E; [discriminate|]. intros [= <-]. simpl. split; [auto|]. split; [auto|]. split; [|split].
      - intros x X. unfold nupd. destruct (x =? id)%N; [discriminate|auto].
      - intros x X. rewrite nupd_off; auto. congruence.
      - intros x. unfold nupd. destruct (x =? id)%N; [right; discriminate|auto]. }
    assert (RM : forall id, b_remove perm s id = Some s1 ->
      b_listen s1 = b_listen s /\ b_cbs s1 = b_cbs s /\ (forall x, b_node s x <> None -> b_node s1 x <> None) /\
      (forall x, b_node s x <> None -> b_reg s1 x = true -> b_reg s x = true) /\
      (forall x, b_reg s1 x = true -> b_reg s x = true \/ b_node s1 x <> None)).
    { unfold b_remove. intros id. destruct (b_get s id); [|discriminate]. intros [= <-].
      match goal with |- context [detach ?a id] => destruct (listen_detach a id) as (-> & -> & -> & ->) end. simpl.
      assert (Q : forall x, (if perm id then b_reg s else nupd (b_reg s) id false) x = true -> b_reg s x = true).
      { intros x. destruct (perm id); auto. unfold nupd. destruct (x =? id)%N; [discriminate|auto]. }
      auto 10. }
    assert (ST : forall id n, Some (set_node s id n) = Some s1 ->
      b_listen s1 = b_listen s /\ b_cbs s1 = b_cbs s /\ (forall x, b_node s x <> None -> b_node s1 x <> None) /\
      (forall x, b_node s x <> None -> b_reg s1 x = true -> b_reg s x = true) /\
      (forall x, b_reg s1 x = true -> b_reg s x = true \/ b_node s1 x <> None)).
    { intros id n [= <-]. simpl. split; [auto|]. split; [auto|]. split; [|auto].
      intros x X. unfold nupd. destruct (x =? id)%N; [discriminate|auto]. }
    assert (PL : forall p ch f, Some (place s p ch f) = Some s1 ->
      b_listen s1 = b_listen s /\ b_cbs s1 = b_cbs s /\ (forall x, b_node s x <> None -> b_node s1 x <> None) /\
      (forall x, b_node s x <> None -> b_reg s1 x = true -> b_reg s x = true) /\
      (forall x, b_reg s1 x = true -> b_reg s x = true \/ b_node s1 x <> None)).
    { intros p ch f [= <-]. unfold place. simpl. destruct (listen_detach s ch) as (-> & -> & -> & ->). auto 10. }
    intros Q. destruct c; try contradiction; simpl; eauto.
    - destruct (b_get s id) as [[| |]|]; try discriminate; eauto.
    - destruct (b_get s id) as [[| |]|]; try discriminate; eauto.
    - destruct (b_get s id) as [[| |]|]; try discriminate; eauto.
    - unfold b_insert. destruct (b_get s parent) as [[| |]|]; try discriminate. destruct (b_get s child); [|discriminate].
      destruct ref as [r|]; [|eauto]. destruct (b_get s r); [|discriminate]. destruct (b_par s r) as [q|]; [|discriminate].
      destruct (q =? parent)%N; [|discriminate]. destruct (r =? child)%N; [intros [= <-]; auto 10|eauto].
    - intros [= <-]. simpl. auto 10.
  Qed.

  Lemma good_quiet s c s1 : good s -> quiet c -> b_step s c = Some s1 -> good s1.
  Proof.
    intros [G1 G2] Q S. destruct (step_quiet s c s1 Q S) as (L & C & N1 & R1 & R2). split.
    - intros x X. destruct (R2 x X); auto.
    - intros t ev cb I. rewrite L in I. destruct (G2 t ev cb I) as (A & B & D & E). split; [auto|]. split; [auto|].
      split; [intros x X; auto|]. intros P. rewrite C. apply E. destruct t as [x|]; simpl in *; auto.
  Qed.

  Lemma place_add id ev cb : owner cb = (id, ev) -> (if teqb ev hook then None else Some id) = place_of cb.
  Proof. intros O. unfold place_of. rewrite O. auto. Qed.

  Lemma good_add s id ev cb s1 : good s -> owner cb = (id, ev) -> b_step s (CallbackAdd id ev cb) = Some s1 -> good s1.
  Proof.
    intros [G1 G2] O. simpl. unfold b_callback_add. destruct (b_cbs s cb) eqn:CB; [intros [= <-]; split; auto|]. cbv zeta.
    rewrite (place_add id ev cb O). intros S.
    assert (E : s1 = BDom (b_node s) (b_reg s) (b_kids s) (b_par s) (b_css s) (nupd (b_cbs s) cb true)
                      (oupd (b_listen s) (place_of cb) (b_listen s (place_of cb) ++ [(ev, cb)])) /\
                (forall x, place_of cb = Some x -> b_node s x <> None)).
    { unfold place_of in *. rewrite O in *. simpl in *. destruct (teqb ev hook); [inversion S; split; auto; discriminate|].
      unfold b_get in S. destruct (b_reg s id); [|discriminate]. destruct (b_node s id) eqn:NN; [|discriminate].
      inversion S; split; auto. intros x [= <-]. congruence. }
    destruct E as [-> NO]. clear S. split; simpl; auto.
    intros t ev2 cb2 I. destruct (oeq_dec t (place_of cb)) as [->|NE].
    - rewrite oupd_at in I. apply in_app_or in I. destruct I as [I|[I|[]]].
      + destruct (G2 _ _ _ I) as (A & B & D & E). split; [auto|]. split; [auto|]. split; [auto|].
        intros P. destruct (N.eq_dec cb2 cb) as [->|X]; [apply nupd_at|rewrite nupd_off; auto].
      + inversion I; subst. rewrite O. split; [auto|]. split; [auto|]. split; [auto|]. intros _. apply nupd_at.
    - rewrite oupd_off in I by auto. destruct (G2 _ _ _ I) as (A & B & D & E). split; [auto|]. split; [auto|]. split; [auto|].
      intros P. destruct (N.eq_dec cb2 cb) as [->|X]; [apply nupd_at|rewrite nupd_off; auto].
  Qed.

  Lemma good_remove s id ev cb s1 : good s -> owner cb = (id, ev) -> b_step s (CallbackRemove id ev cb) = Some s1 -> good s1.
  Proof.
    intros [G1 G2] O. simpl. unfold b_callback_remove. destruct (b_cbs s cb) eqn:CB; [|intros [= <-]; split; auto]. cbv zeta.
    rewrite (place_add id ev cb O). intros S.
    assert (E : s1 = BDom (b_node s) (b_reg s) (b_kids s) (b_par s) (b_css s) (nupd (b_cbs s) cb false)
                      (oupd (b_listen s) (place_of cb)
                        (filter (fun e => negb (teqb ev (fst e) && (snd e =? cb)%N)) (b_listen s (place_of cb))))).
    { destruct (teqb ev hook); [congruence|]. destruct (b_get s id); [congruence|discriminate]. }
    subst s1. clear S. split; simpl; auto.
    intros t ev2 cb2 I.
    assert (IO : In (ev2, cb2) (b_listen s t) /\ (cb2 = cb -> False)).
    { destruct (oeq_dec t (place_of cb)) as [->|NE].
      - rewrite oupd_at in I. apply filter_In in I. destruct I as [I F]. split; auto. intros ->. simpl in F.
        destruct (G2 _ _ _ I) as (_ & B & _). rewrite O in B. simpl in B. subst ev2. rewrite N.eqb_refl, andb_true_r in F.
        destruct (teqb_spec ev ev); [discriminate|congruence].
      - rewrite oupd_off in I by auto. split; auto. intros ->. destruct (G2 _ _ _ I) as (A & _). congruence. }
    destruct IO as [IO NC]. destruct (G2 _ _ _ IO) as (A & B & D & E). split; [auto|]. split; [auto|]. split; [auto|].
    intros P. rewrite nupd_off; auto.
  Qed.

  Lemma good_err s c : good s -> owned owner c -> legal s c -> b_step s c = None -> good (b_err s c).
  Proof.
    intros G O _. assert (G0 := G). destruct G as [G1 G2]. destruct c; simpl; intros S; try exact G0.
    - split; simpl; auto. intros t ev cb I. destruct (G2 _ _ _ I) as (A & B & D & E). split; [auto|]. split; [auto|]. split; [auto|].
      intros P. destruct (N.eq_dec cb callback) as [->|X]; [apply nupd_at|rewrite nupd_off; auto].
    - simpl in O. unfold b_callback_remove in S. destruct (b_cbs s callback) eqn:CB; [|discriminate]. cbv zeta in S.
      split; simpl; auto. intros t ev cb I. destruct (G2 _ _ _ I) as (A & B & D & E). split; [auto|]. split; [auto|]. split; [auto|].
      intros P. destruct (N.eq_dec cb callback) as [->|X]; [|rewrite nupd_off; auto]. exfalso.
      unfold place_of in A. rewrite O in A. simpl in A. destruct (teqb event hook); [discriminate|]. subst t. simpl in P.
      unfold b_get in S. rewrite P in S. specialize (G1 id P). destruct (b_node s id); [discriminate|congruence].
  Qed.

  Lemma cbs_step s c s1 cb : b_step s c = Some s1 -> b_cbs s1 cb = after_cb c (b_cbs s cb) cb.
  Proof.
    intros S. destruct c; try (match type of S with _ s ?c = _ => destruct (step_quiet s c s1 Logic.I S) as (_ & -> & _) end; reflexivity).
    - simpl in S |- *. unfold b_callback_add in S. destruct (b_cbs s callback) eqn:CB.
      + inversion S; subst. destruct (N.eqb_spec callback cb); [congruence|auto].
      + cbv zeta in S. assert (E : b_cbs s1 = nupd (b_cbs s) callback true).
        { destruct (teqb event hook); [inversion S; auto|]. destruct (b_get s id); inversion S; auto. }
        rewrite E. destruct (N.eqb_spec callback cb); [subst; apply nupd_at|apply nupd_off; auto].
    - simpl in S |- *. unfold b_callback_remove in S. destruct (b_cbs s callback) eqn:CB.
      + cbv zeta in S. assert (E : b_cbs s1 = nupd (b_cbs s) callback false).
        { destruct (teqb event hook); [inversion S; auto|]. destruct (b_get s id); inversion S; auto. }
        rewrite E. destruct (N.eqb_spec callback cb); [subst; apply nupd_at|apply nupd_off; auto].
      + inversion S; subst. destruct (N.eqb_spec callback cb); [congruence|auto].
  Qed.

  Lemma cbs_err (s : bdom T) c cb : b_cbs (b_err s c) cb = after_cb c (b_cbs s cb) cb.
  Proof.
    destruct c; simpl; auto; (destruct (N.eqb_spec callback cb); [subst; apply nupd_at|apply nupd_off; auto]).
  Qed.

  Lemma cbs_replay cb cs : forall s errs s1, breplay s cs errs s1 ->
    b_cbs s1 cb = fold_left (fun b c => after_cb c b cb) cs (b_cbs s cb).
  Proof.
    intros s errs s1 R. induction R as [|? ? ? ? ? ? L S R IH|? ? ? ? ? L R IH]; simpl; auto.
    - rewrite IH, (cbs_step _ _ _ cb S). auto.
    - rewrite IH, cbs_err. auto.
  Qed.

  Lemma good_replay cs : Forall (owned owner) cs -> forall s errs s1, good s -> breplay s cs errs s1 -> good s1.
  Proof.
    induction 1 as [|c cs O OS IH]; intros s errs s1 G R; inversion R as [|? ? ? s2 ? ? L S R2|? ? ? ? ? L R2]; subst; auto.
    - apply (IH s2 errs s1); auto. destruct c; try (eapply good_quiet; eauto; exact Logic.I); [eapply good_add; eauto|eapply good_remove; eauto].
    - eapply IH; [|exact R2]. destruct c; try exact G;
        (destruct L as [L|L]; [exfalso; apply L; exact Logic.I|apply good_err; auto; exact Logic.I]).
  Qed.

  (** Nothing listens yet. *)
  Definition untouched (s : bdom T) : Prop :=
    (forall x, b_reg s x = true -> b_node s x <> None) /\ (forall t, b_listen s t = []) /\ (forall cb, b_cbs s cb = false).

  Lemma untouched_good s : untouched s -> good s.
  Proof. intros (A & B & C). split; auto. intros t ev cb. rewrite B. intros []. Qed.

  Lemma page_listens s cs errs s1 : untouched s -> Forall (owned owner) cs -> breplay s cs errs s1 ->
    (forall cb, b_cbs s1 cb = true <-> added_last cs cb) /\
    (forall t ev cb, on_page s1 t -> In (ev, cb) (b_listen s1 t) -> added_last cs cb /\ t = place_of cb /\ ev = snd (owner cb)).
  Proof.
    intros U O R. assert (C : forall cb, b_cbs s1 cb = true <-> added_last cs cb).
    { intros cb. rewrite (cbs_replay cb _ _ _ _ R). destruct U as (_ & _ & U). rewrite U. apply added_fold. }
    split; auto. intros t ev cb P I.
    destruct (good_replay cs O _ _ _ (untouched_good s U) R) as [_ G]. destruct (G _ _ _ I) as (A & B & _ & E).
    split; [apply C; auto|auto].
  Qed.

  (** Conversely, what is in [callbacks] listens, unless adding it threw. *)
  Definition is_add (c : dcmd T) : Prop := match c with CallbackAdd _ _ _ => True | _ => False end.
  Definition hears (s : bdom T) : Prop := forall cb, b_cbs s cb = true -> In (snd (owner cb), cb) (b_listen s (place_of cb)).

  Lemma hears_replay cs : Forall (owned owner) cs -> forall s errs s1, hears s -> breplay s cs errs s1 ->
    Forall (fun c => ~ is_add c) errs -> hears s1.
  Proof.
    induction 1 as [|c cs O OS IH]; intros s errs s1 G R NA; inversion R as [|? ? ? s2 ? ? L S R2|? ? ? ? ? L R2]; subst; auto.
    - apply (IH s2 errs s1); auto. destruct c;
        try (match type of S with _ s ?c = _ => destruct (step_quiet s c s2 Logic.I S) as (E1 & E2 & _) end; unfold hears; rewrite E1, E2; exact G).
      + simpl in S, O. unfold b_callback_add in S. destruct (b_cbs s callback) eqn:CB; [inversion S; subst; auto|]. cbv zeta in S.
        rewrite (place_add _ _ _ O) in S.
        assert (E : s2 = BDom (b_node s) (b_reg s) (b_kids s) (b_par s) (b_css s) (nupd (b_cbs s) callback true)
                      (oupd (b_listen s) (place_of callback) (b_listen s (place_of callback) ++ [(event, callback)]))).
        { destruct (teqb event hook); [congruence|]. destruct (b_get s id); [congruence|discriminate]. }
        subst s2. intros cb. simpl. destruct (N.eq_dec cb callback) as [->|NE].
        * intros _. rewrite oupd_at, O. apply in_or_app. right. left. auto.
        * rewrite nupd_off by auto. intros C. specialize (G cb C). destruct (oeq_dec (place_of cb) (place_of callback)) as [EQ|NQ].
          -- rewrite EQ, oupd_at, <- EQ. apply in_or_app. auto.
          -- rewrite oupd_off; auto.
      + simpl in S, O. unfold b_callback_remove in S. destruct (b_cbs s callback) eqn:CB; [|inversion S; subst; auto]. cbv zeta in S.
        rewrite (place_add _ _ _ O) in S.
        assert (E : s2 = BDom (b_node s) (b_reg s) (b_kids s) (b_par s) (b_css s) (nupd (b_cbs s) callback false)
                      (oupd (b_listen s) (place_of callback)
                        (filter (fun e => negb (teqb event (fst e) && (snd e =? callback)%N)) (b_listen s (place_of callback))))).
        { destruct (teqb event hook); [congruence|]. destruct (b_get s id); [congruence|discriminate]. }
        subst s2. intros cb. simpl. destruct (N.eq_dec cb callback) as [->|NE]; [rewrite nupd_at; discriminate|].
        rewrite nupd_off by auto. intros C. specialize (G cb C). destruct (oeq_dec (place_of cb) (place_of callback)) as [EQ|NQ].
        * rewrite EQ, oupd_at, <- EQ. apply filter_In. split; auto. simpl. apply N.eqb_neq in NE. rewrite NE, andb_false_r. auto.
        * rewrite oupd_off; auto.
    - inversion NA as [|? ? N1 N2]; subst. eapply IH; [|exact R2|exact N2]. destruct c; try exact G; [exfalso; apply N1; exact Logic.I|].
      intros cb. simpl. destruct (N.eq_dec cb callback) as [->|NE]; [rewrite nupd_at; discriminate|]. rewrite nupd_off by auto. apply G.
  Qed.
End Page.

(** ** The elements *)
Section App.
  Context {T : Type}.
  Implicit Types s : app T.

  Definition has_cb (cb : N) (e : elem T) : Prop := In cb (map snd (el_subs e)).

  Record inv (s : app T) : Prop := {
    i_lt : forall c cb, In c (a_cmds s) -> on_cb cb c -> (cb < a_next_cb s)%N;
    i_sub : forall e ev cb, In e (a_elems s) -> In (ev, cb) (el_subs e) -> In (CallbackAdd (el_id e) ev cb) (a_cmds s);
    i_rem : forall id ev cb, In (CallbackRemove id ev cb) (a_cmds s) -> In (CallbackAdd id ev cb) (a_cmds s);
    i_one : forall id ev id' ev' cb, In (CallbackAdd id ev cb) (a_cmds s) -> In (CallbackAdd id' ev' cb) (a_cmds s) -> id = id' /\ ev = ev';
    i_last : forall cb, added_last (a_cmds s) cb <-> In cb (a_store s);
    i_store : forall cb, In cb (a_store s) <-> exists e, In e (a_elems s) /\ has_cb cb e;
    i_ids : NoDup (map el_id (a_elems s)) /\ forall e, In e (a_elems s) -> (el_id e < a_next_id s)%N
  }.

  Lemma find_elem id (l : list (elem T)) e : el_find id l = Some e -> In e l /\ el_id e = id.
  Proof. intros F. apply find_some in F. destruct F as [A B]. apply N.eqb_eq in B. auto. Qed.

  Lemma update_ids id f (l : list (elem T)) : (forall e, el_id (f e) = el_id e) -> map el_id (el_update id f l) = map el_id l.
  Proof. intros H. unfold el_update. rewrite map_map. apply map_ext. intros e. destruct (el_id e =? id)%N; auto. Qed.

  Lemma in_update id f (l : list (elem T)) e : In e (el_update id f l) <-> exists e0, In e0 l /\ e = if (el_id e0 =? id)%N then f e0 else e0.
  Proof. unfold el_update. rewrite in_map_iff. split; intros (e0 & A & B); exists e0; auto. Qed.

  Lemma same_elem (l : list (elem T)) a b : NoDup (map el_id l) -> In a l -> In b l -> el_id a = el_id b -> a = b.
  Proof.
    induction l as [|x l IH]; simpl; [tauto|]. intros D A B E. inversion D as [|? ? D1 D2]; subst.
    destruct A as [->|A], B as [->|B]; auto.
    - exfalso. apply D1. rewrite E. apply in_map; auto.
    - exfalso. apply D1. rewrite <- E. apply in_map; auto.
  Qed.

  Lemma added_more (cs : list (dcmd T)) subs id cb : added_last (cs ++ map (fun p => CallbackRemove id (fst p) (snd p)) subs) cb <->
    added_last cs cb /\ ~ In cb (map snd subs).
  Proof.
    induction subs as [|p subs IH] using rev_ind; simpl; [rewrite app_nil_r; tauto|].
    rewrite map_app, app_assoc. simpl. rewrite (added_snoc (cs ++ map _ subs)), IH, map_app, in_app_iff. simpl. tauto.
  Qed.

  Lemma inv_start : inv start.
  Proof.
    constructor; simpl; try (intros; contradiction).
    - intros cb. split; [|tauto]. intros (l & ? & ? & ? & E & _). destruct l; discriminate.
    - intros cb. split; [tauto|]. intros (? & [] & _).
    - split; [constructor|tauto].
  Qed.

  Lemma in_snoc {A} (l : list A) x y : In x (l ++ [y]) <-> In x l \/ x = y.
  Proof. rewrite in_app_iff. simpl. intuition. Qed.

  Lemma inv_step s o : inv s -> inv (step s o).
  Proof.
    intros [L S R O A ST [ID IL]]. destruct o as [name|id ev|id|id]; simpl.
    - constructor; simpl.
      + intros c cb I. apply in_snoc in I. destruct I as [I| ->]; [eauto|simpl; tauto].
      + intros e ev cb I J. apply in_snoc. apply in_snoc in I. destruct I as [I| ->]; [left; eauto|destruct J].
      + intros id ev cb I. apply in_snoc. apply in_snoc in I. destruct I as [I|I]; [left; eauto|discriminate].
      + intros id ev id' ev' cb I J. apply in_snoc in I, J. destruct I as [I|I], J as [J|J]; try discriminate. eauto.
      + intros cb. rewrite added_snoc. auto.
      + intros cb. rewrite ST. split; intros (e & I & J).
        * exists e. split; auto. apply in_snoc. auto.
        * apply in_snoc in I. destruct I as [I| ->]; [eauto|destruct J].
      + split.
        * rewrite map_app. simpl. apply NoDup_rev in ID. rewrite <- (rev_involutive (map el_id (a_elems s) ++ [a_next_id s])). apply NoDup_rev.
          rewrite rev_app_distr. simpl. constructor; auto. rewrite <- in_rev. intros I. apply in_map_iff in I. destruct I as (e & E & I).
          specialize (IL e I). lia.
        * intros e I. apply in_snoc in I. destruct I as [I| ->]; [specialize (IL e I); lia|simpl; lia].
    - destruct (el_find id (a_elems s)) as [[i [|] subs]|] eqn:F; try (constructor; auto; fail). apply find_elem in F. destruct F as [FI FE]. simpl in FE. subst i.
      assert (FR : forall c, In c (a_cmds s) -> ~ on_cb (a_next_cb s) c) by (intros c I J; specialize (L _ _ I J); lia).
      constructor; simpl.
      + intros c cb I J. apply in_snoc in I. destruct I as [I| ->]; [specialize (L _ _ I J); lia|simpl in J; lia].
      + intros e v cb I J. apply in_snoc. apply in_update in I. destruct I as (e0 & I & E). destruct (N.eqb_spec (el_id e0) id) as [Q|Q]; subst e; simpl in *.
        * apply in_snoc in J. destruct J as [J|J]; [left; eauto|inversion J; subst; right; auto].
        * left; eauto.
      + intros i v cb I. apply in_snoc. apply in_snoc in I. destruct I as [I|I]; [left; eauto|discriminate].
      + intros i v i' v' cb I J. apply in_snoc in I, J. destruct I as [I|I], J as [J|J]; eauto.
        * inversion J; subst. exfalso. apply (FR _ I). reflexivity.
        * inversion I; subst. exfalso. apply (FR _ J). reflexivity.
        * inversion I; inversion J; subst. auto.
      + intros cb. rewrite added_snoc, in_snoc, A. intuition.
      + intros cb. rewrite in_snoc, ST. split.
        * intros [(e & I & J)| ->].
          -- destruct (N.eqb_spec (el_id e) id) as [Q|Q].
             ++ exists (Elem (el_id e) (el_node e) (el_subs e ++ [(ev, a_next_cb s)])). split.
                ** apply in_update. exists e. split; auto. apply N.eqb_eq in Q. rewrite Q. auto.
                ** unfold has_cb in *. simpl. rewrite map_app. apply in_or_app. auto.
             ++ exists e. split; auto. apply in_update. exists e. split; auto. apply N.eqb_neq in Q. rewrite Q. auto.
          -- exists (Elem id true (subs ++ [(ev, a_next_cb s)])). split.
             ++ apply in_update. exists (Elem id true subs). split; auto. simpl. rewrite N.eqb_refl. auto.
             ++ unfold has_cb. simpl. rewrite map_app. apply in_or_app. right. left. auto.
        * intros (e & I & J). apply in_update in I. destruct I as (e0 & I & E). destruct (N.eqb_spec (el_id e0) id) as [Q|Q]; subst e.
          -- unfold has_cb in J. simpl in J. rewrite map_app in J. apply in_app_or in J. destruct J as [J|[J|[]]]; [left; eauto|right; auto].
          -- left; eauto.
      + split; [rewrite update_ids; auto|]. intros e I. apply in_update in I. destruct I as (e0 & I & E).
        destruct (el_id e0 =? id)%N; subst e; simpl; auto.
    - destruct (el_find id (a_elems s)) as [[i [|] subs]|] eqn:F; try (constructor; auto; fail). apply find_elem in F. destruct F as [FI FE]. simpl in FE. subst i.
      constructor; simpl.
      + intros c cb I J. apply in_snoc in I. destruct I as [I| ->]; [eauto|simpl in J; tauto].
      + intros e v cb I J. apply in_snoc. left. apply in_update in I. destruct I as (e0 & I & E). destruct (el_id e0 =? id)%N; subst e; simpl in *; eauto.
      + intros i v cb I. apply in_snoc. apply in_snoc in I. destruct I as [I|I]; [left; eauto|discriminate].
      + intros i v i' v' cb I J. apply in_snoc in I, J. destruct I as [I|I], J as [J|J]; try discriminate; eauto.
      + intros cb. rewrite added_snoc. auto.
      + intros cb. rewrite ST. split; intros (e & I & J).
        * exists (if (el_id e =? id)%N then Elem (el_id e) false (el_subs e) else e). split; [apply in_update; exists e; auto|].
          unfold has_cb in *. destruct (el_id e =? id)%N; auto.
        * apply in_update in I. destruct I as (e0 & I & E). exists e0. split; auto. unfold has_cb in *. destruct (el_id e0 =? id)%N; subst e; auto.
      + split; [rewrite update_ids; auto|]. intros e I. apply in_update in I. destruct I as (e0 & I & E).
        destruct (el_id e0 =? id)%N; subst e; simpl; auto.
    - destruct (el_find id (a_elems s)) as [[i [|] subs]|] eqn:F; try (constructor; auto; fail). apply find_elem in F. destruct F as [FI FE]. simpl in FE. subst i.
      assert (RM : forall c, In c (map (fun p => CallbackRemove id (fst p) (snd p)) subs) -> exists ev cb, c = CallbackRemove id ev cb /\ In (ev, cb) subs).
      { intros c I. apply in_map_iff in I. destruct I as ([v k] & <- & I). exists v, k. auto. }
      assert (EX : forall cb, existsb (fun p => (snd p =? cb)%N) subs = true <-> In cb (map snd subs)).
      { intros cb. rewrite existsb_exists, in_map_iff. split; intros (p & P & Q); exists p; rewrite N.eqb_eq in *; auto. }
      constructor; simpl.
      + intros c cb I J. apply in_app_or in I. destruct I as [I|I]; [eauto|]. destruct (RM c I) as (v & k & -> & K). simpl in J. subst k.
        apply (L (CallbackAdd id v cb)); [exact (S _ _ _ FI K)|reflexivity].
      + intros e v cb I J. apply in_or_app. left. apply filter_In in I. destruct I. eauto.
      + intros i v cb I. apply in_or_app. left. apply in_app_or in I. destruct I as [I|I]; [eauto|]. destruct (RM _ I) as (v0 & k & E & K). inversion E; subst.
        exact (S _ _ _ FI K).
      + intros i v i' v' cb I J. apply in_app_or in I, J.
        destruct I as [I|I]; [|destruct (RM _ I) as (? & ? & ? & _); discriminate].
        destruct J as [J|J]; [|destruct (RM _ J) as (? & ? & ? & _); discriminate]. eauto.
      + intros cb. rewrite added_more, A, filter_In, negb_true_iff, <- EX. destruct (existsb _ subs); intuition congruence.
      + intros cb. rewrite filter_In, negb_true_iff, ST. split.
        * intros [(e & I & J) N]. exists e. split; auto. apply filter_In. split; auto. apply negb_true_iff. apply N.eqb_neq. intros Q.
          assert (e = Elem id false subs) by (eapply same_elem; eauto). subst e. apply EX in J. simpl in J. congruence.
        * intros (e & I & J). apply filter_In in I. destruct I as [I N]. apply negb_true_iff, N.eqb_neq in N. split; [eauto|].
          destruct (existsb _ subs) eqn:X; auto. exfalso. apply EX in X. apply in_map_iff in X. destruct X as ([v k] & E & X). simpl in E. subst k.
          unfold has_cb in J. apply in_map_iff in J. destruct J as ([v2 k] & E & J). simpl in E. subst k.
          destruct (O _ _ _ _ _ (S _ _ _ I J) (S _ _ _ FI X)) as [Q _]. simpl in Q. congruence.
      + split.
        * clear -ID. induction (a_elems s) as [|e l IH]; simpl; [constructor|]. simpl in ID. inversion ID as [|? ? D1 D2]; subst.
          destruct (negb (el_id e =? id)%N); simpl; auto. constructor; auto. intros I. apply D1. apply in_map_iff in I. destruct I as (x & <- & I).
          apply filter_In in I. apply in_map. tauto.
        * intros e I. apply filter_In in I. apply IL. tauto.
  Qed.

  Lemma inv_run l : forall s, inv s -> inv (run s l).
  Proof. induction l; simpl; auto. intros s I. apply IHl. apply inv_step. auto. Qed.

  (** The owner of each callback id. *)
  Definition owner_of (d : T) (cs : list (dcmd T)) (cb : N) : N * T :=
    match find (fun c => match c with CallbackAdd _ _ k => (k =? cb)%N | _ => false end) cs with
    | Some (CallbackAdd id ev _) => (id, ev)
    | _ => (0%N, d)
    end.

  Lemma owner_add d s id ev cb : inv s -> In (CallbackAdd id ev cb) (a_cmds s) -> owner_of d (a_cmds s) cb = (id, ev).
  Proof.
    intros V I. unfold owner_of. destruct (find _ (a_cmds s)) as [c|] eqn:F.
    - apply find_some in F. destruct F as [J K]. destruct c; try discriminate. apply N.eqb_eq in K. subst callback.
      destruct (i_one s V _ _ _ _ _ I J). subst. auto.
    - exfalso. apply (find_none _ _ F) in I. rewrite N.eqb_refl in I. discriminate.
  Qed.

  Lemma inv_owned d s : inv s -> Forall (owned (owner_of d (a_cmds s))) (a_cmds s).
  Proof.
    intros V. apply Forall_forall. intros c I. destruct c; simpl; auto; apply owner_add; auto. apply (i_rem s V). auto.
  Qed.
End App.

(** ** Batches *)
Section Batches.
  Context {T : Type}.

  Lemma sort_app (l dom events : list (dcmd T)) : sort_loop l dom events =
    (dom ++ filter (fun c => negb (is_event c)) l, events ++ filter is_event l).
  Proof.
    revert dom events. induction l as [|c l IH]; intros dom events; simpl; [rewrite !app_nil_r; auto|].
    destruct (is_event c); rewrite IH; simpl; rewrite <- app_assoc; auto.
  Qed.

  Lemma sort_fold cb (l : list (dcmd T)) : forall b, fold_left (fun b c => after_cb c b cb) (sort_commands l) b = fold_left (fun b c => after_cb c b cb) l b.
  Proof.
    intros b. unfold sort_commands. rewrite sort_app. simpl. rewrite fold_left_app.
    assert (E : forall (m : list (dcmd T)) b, fold_left (fun b c => after_cb c b cb) (filter is_event m) b = b).
    { induction m as [|c m IH]; simpl; auto. intros b0. destruct (is_event c) eqn:X; simpl; auto. rewrite IH. destruct c; simpl in *; auto; discriminate. }
    rewrite E. revert b. induction l as [|c l IH]; simpl; auto. intros b. destruct (is_event c) eqn:X; simpl; rewrite IH; auto.
    destruct c; simpl in *; auto; discriminate.
  Qed.

  Lemma sort_in c (l : list (dcmd T)) : In c (sort_commands l) <-> In c l.
  Proof.
    unfold sort_commands. rewrite sort_app. simpl. rewrite in_app_iff, !filter_In. destruct (is_event c); simpl; intuition.
  Qed.

  Lemma sent_fold cb (cs out : list (dcmd T)) : sent cs out -> forall b,
    fold_left (fun b c => after_cb c b cb) out b = fold_left (fun b c => after_cb c b cb) cs b.
  Proof. induction 1; intros b0; auto. rewrite !fold_left_app, sort_fold. auto. Qed.

  Lemma sent_in (cs out : list (dcmd T)) c : sent cs out -> In c out <-> In c cs.
  Proof. induction 1; [tauto|]. rewrite !in_app_iff, sort_in. tauto. Qed.
End Batches.

(** *** C61: whatever elements the application makes and drops, and however the commands are cut into batches: a listener on
    the page belongs to an element that exists and listens to that event; the page keeps no callback of others, nor does
    the store. *)
Theorem C61_only_living {T} teqb (teqb_spec : forall a b : T, reflect (a = b) (teqb a b)) hook perm
    (ops : list (op T)) out errs (s0 s1 : bdom T) :
  let a := run start ops in
  untouched s0 -> sent (a_cmds a) out -> breplay teqb hook perm s0 out errs s1 ->
  (forall t ev cb, on_page s1 t -> In (ev, cb) (b_listen s1 t) ->
     exists e, In e (a_elems a) /\ In (ev, cb) (el_subs e) /\ In cb (a_store a) /\ t = (if teqb ev hook then None else Some (el_id e))) /\
  (forall cb, b_cbs s1 cb = true <-> In cb (a_store a)) /\
  (forall cb, In cb (a_store a) <-> exists e, In e (a_elems a) /\ In cb (map snd (el_subs e))).
Proof.
  intros a U SE R. assert (V : inv a) by (apply inv_run, inv_start).
  set (ow := owner_of hook (a_cmds a)).
  assert (O : Forall (owned ow) out).
  { pose proof (inv_owned hook a V) as Q. rewrite Forall_forall in *. intros c I. apply Q. apply (sent_in _ _ c SE). auto. }
  assert (AL : forall cb, added_last out cb <-> In cb (a_store a)).
  { intros cb. rewrite <- (i_last a V), <- !added_fold, (sent_fold cb _ _ SE). tauto. }
  destruct (page_listens teqb teqb_spec hook perm ow s0 out errs s1 U O R) as [C L].
  split; [|split].
  - intros t ev cb P I. destruct (L t ev cb P I) as (A & E & F).
    assert (ST : In cb (a_store a)) by (apply AL; auto).
    destruct (proj1 (i_store a V cb) ST) as (e & EI & H). exists e. unfold has_cb in H. apply in_map_iff in H. destruct H as ([v k] & K & H). simpl in K. subst k.
    pose proof (owner_add hook a _ _ _ V (i_sub a V _ _ _ EI H)) as OW. fold ow in OW.
    rewrite OW in F. simpl in F. subst v. split; auto. split; auto. split; auto. rewrite E. unfold place_of. rewrite OW. auto.
  - intros cb. rewrite C. apply AL.
  - intros cb. apply (i_store a V).
Qed.

(** And the elements are heard: unless adding a listener threw, every listener of an element that exists is on the page. *)
Theorem C61_living_heard {T} teqb (teqb_spec : forall a b : T, reflect (a = b) (teqb a b)) hook perm
    (ops : list (op T)) out errs (s0 s1 : bdom T) :
  let a := run start ops in
  untouched s0 -> sent (a_cmds a) out -> breplay teqb hook perm s0 out errs s1 -> Forall (fun c => ~ is_add c) errs ->
  forall e ev cb, In e (a_elems a) -> In (ev, cb) (el_subs e) ->
    In (ev, cb) (b_listen s1 (if teqb ev hook then None else Some (el_id e))).
Proof.
  intros a U SE R NA e ev cb EI H. assert (V : inv a) by (apply inv_run, inv_start).
  set (ow := owner_of hook (a_cmds a)).
  assert (O : Forall (owned ow) out).
  { pose proof (inv_owned hook a V) as Q. rewrite Forall_forall in *. intros c I. apply Q. apply (sent_in _ _ c SE). auto. }
  assert (HS : hears teqb hook ow s0) by (intros k K; destruct U as (_ & _ & U); rewrite U in K; discriminate).
  pose proof (hears_replay teqb hook perm ow out O s0 errs s1 HS R NA cb) as G.
  destruct (C61_only_living teqb teqb_spec hook perm ops out errs s0 s1 U SE R) as (_ & C & ST).
  pose proof (owner_add hook a _ _ _ V (i_sub a V _ _ _ EI H)) as OW. fold ow in OW.
  unfold place_of in G. rewrite OW in G. simpl in G. apply G. apply C. apply ST. exists e. split; auto. apply in_map_iff. exists (ev, cb). auto.
Qed.

(** *** Example *)
Module ListenDemo.
  (** Two elements with listeners, one of them (event 100) on the document; the first is dropped, and its [RemoveNode] is
      sent before the rest. *)
  Definition ops : list (op N) := [New 10; On 4 20; On 4 100; New 11; On 5 21; On 5 100; DropNode 4; DropSubs 4]%N.
  Definition perm (x : N) : bool := (x <? 4)%N.
  Definition s0 : bdom N :=
    BDom (fun x => if (x <? 4)%N then Some (BElement 1%N []) else None) perm
         (fun _ => []) (fun _ => None) [] (fun _ => false) (fun _ => []).
  (** Replaying commands that are always legal. *)
  Definition play (s : bdom N) (c : dcmd N) : option (bdom N) := b_step N.eqb 100%N perm s c.
  Fixpoint plays (s : bdom N) (l : list (dcmd N)) : list (dcmd N) * bdom N :=
    match l with
    | [] => ([], s)
    | c :: t => match play s c with
                | Some s1 => plays s1 t
                | None => let '(errs, s2) := plays (b_err s c) t in (c :: errs, s2)
                end
    end.
  Lemma plays_replay l : (forall p c r, ~ In (InsertBefore p c r) l) -> forall s, breplay N.eqb 100%N perm s l (fst (plays s l)) (snd (plays s l)).
  Proof.
    induction l as [|c l IH]; intros NI s; simpl; [constructor|].
    assert (N2 : forall p d r, ~ In (InsertBefore p d r) l) by (intros p d r X; apply (NI p d r); right; auto).
    destruct (play s c) as [s1|] eqn:E.
    - eapply br_ok; [|exact E|auto]. destruct c; try exact Logic.I. exfalso. eapply NI. left. reflexivity.
    - specialize (IH N2 (b_err s c)). destruct (plays (b_err s c) l). eapply br_err; auto.
  Qed.
  Definition cs := a_cmds (run start ops).
  Definition out := sort_commands (firstn 7 cs) ++ sort_commands (skipn 7 cs).
End ListenDemo.

Example C61_case : untouched ListenDemo.s0 /\ sent ListenDemo.cs ListenDemo.out /\
  exists errs s1, breplay N.eqb 100%N ListenDemo.perm ListenDemo.s0 ListenDemo.out errs s1 /\
    errs = [CallbackRemove 4 20 1]%N /\ Forall (fun c => ~ is_add c) errs /\
    map el_id (a_elems (run start ListenDemo.ops)) = [5%N] /\ a_store (run start ListenDemo.ops) = [3; 4]%N /\
    b_listen s1 (Some 5%N) = [(21, 3)]%N /\ b_listen s1 None = [(100, 4)]%N /\
    b_listen s1 (Some 4%N) = [(20, 1)]%N /\ ~ on_page s1 (Some 4%N).
Proof.
  split; [|split].
  - split; [|split; auto]. intros x. unfold ListenDemo.s0, ListenDemo.perm. simpl. destruct (x <? 4)%N; discriminate.
  - unfold ListenDemo.out. rewrite <- (firstn_skipn 7 ListenDemo.cs) at 1. apply sent_batch.
    rewrite <- (app_nil_r (skipn 7 ListenDemo.cs)) at 1. rewrite <- (app_nil_r (sort_commands _)). apply sent_batch. constructor.
  - assert (E : ListenDemo.out = [CreateNode 4 10; CallbackAdd 4 20 1; CallbackAdd 4 100 2; CreateNode 5 11; CallbackAdd 5 21 3;
        CallbackAdd 5 100 4; RemoveNode 4; CallbackRemove 4 20 1; CallbackRemove 4 100 2]%N) by (vm_compute; reflexivity).
    exists (fst (ListenDemo.plays ListenDemo.s0 ListenDemo.out)), (snd (ListenDemo.plays ListenDemo.s0 ListenDemo.out)). split.
    + apply ListenDemo.plays_replay. rewrite E. simpl. intros p c r H. repeat destruct H as [H|H]; try discriminate; auto.
    + rewrite E. assert (EE : fst (ListenDemo.plays ListenDemo.s0 [CreateNode 4 10; CallbackAdd 4 20 1; CallbackAdd 4 100 2; CreateNode 5 11; CallbackAdd 5 21 3;
        CallbackAdd 5 100 4; RemoveNode 4; CallbackRemove 4 20 1; CallbackRemove 4 100 2]%N) = [CallbackRemove 4 20 1]%N) by (vm_compute; reflexivity).
      rewrite EE. split; [reflexivity|]. split; [constructor; [intros []|constructor]|].
      do 5 (split; [vm_compute; reflexivity|]). vm_compute. discriminate.
Qed.
