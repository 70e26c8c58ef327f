(** C59: taking over a page rendered by the server.

    Source: /repo/crates/vertigo/src/driver_module/src_js/api_browser/dom/dom.ts:84-97, 424-478. *)
From Coq Require Import List NArith Bool Lia.
From Verif Require Import DomModel DomSort.
Import ListNotations.

Section Boot.
  Context {T : Type}.
  Variable teqb : T -> T -> bool.
  Variable hook : T.
  Variable perm : N -> bool.
  (** map_nodes.ts:12-18: [get_root_head], [get_root_body]: ids 2 and 3. *)
  Variables head body : N.

  (** dom.ts:84: the document with the flag [initBeforeFirstUpdate]. *)
  Record page := Page { p_init : bool; p_dom : bdom T }.

  (** dom.ts:424-430: [get_node_to_clear] *)
  Definition get_node_to_clear (s : bdom T) (x : N) : list N := b_kids s x.

  (** dom.ts:432-443: [get_to_clear], before the flag is set: head and body. *)
  Definition get_to_clear (p : page) : list N * list N :=
    if p_init p then ([], []) else (get_node_to_clear (p_dom p) head, get_node_to_clear (p_dom p) body).

  (** dom.ts:471-477: [node.remove()] for each *)
  Definition clear (s : bdom T) (l : list N) : bdom T := fold_left detach l s.

  (** dom.ts:445-478: [dom_bulk_update]; the focus (462-469) is not modelled. *)
  Inductive dom_bulk_update (p : page) (cs errs : list (dcmd T)) : page -> Prop :=
  | bulk s1 : breplay teqb hook perm (p_dom p) cs errs s1 ->
      dom_bulk_update p cs errs
        (Page true (clear (clear s1 (snd (get_to_clear p))) (fst (get_to_clear p)))).

  (** ** Specification *)

  (** [old]: the nodes the server sent, with everything below them.  A page with them, and the same without. *)
  Variable old : N -> bool.

  (** Two documents show the same: the same nodes with the same attributes, children and parents, the old ones left out of
      the comparison (they are in no list of children of a node that is not old), the same styles and listeners. *)
  Definition same_shown (s t : bdom T) : Prop :=
    (forall x, old x = false -> b_node s x = b_node t x /\ b_reg s x = b_reg t x /\
                                b_kids s x = b_kids t x /\ b_par s x = b_par t x) /\
    b_css s = b_css t /\ (forall x, b_cbs s x = b_cbs t x) /\
    (forall x, old x = false -> b_listen s (Some x) = b_listen t (Some x)) /\ b_listen s None = b_listen t None.

  (** [with_old s t]: [t] is [s] with nodes of the server in the head and the body, which are empty in [s]. *)
  Record with_old (s t : bdom T) : Prop := {
    wo_node : forall x, old x = false -> b_node t x = b_node s x /\ b_reg t x = b_reg s x /\ b_par t x = b_par s x;
    wo_head : b_kids s head = [] /\ Forall (fun y => old y = true /\ b_par t y = Some head) (b_kids t head);
    wo_body : b_kids s body = [] /\ Forall (fun y => old y = true /\ b_par t y = Some body) (b_kids t body);
    wo_kids : forall x, old x = false -> x <> head -> x <> body -> b_kids t x = b_kids s x;
    wo_new : forall x y, old x = false -> In y (b_kids s x) -> old y = false;
    wo_par : forall x p, old x = false -> b_par s x = Some p -> old p = false;
    wo_rest : b_css t = b_css s /\ (forall x, b_cbs t x = b_cbs s x) /\
              (forall x, old x = false -> b_listen t (Some x) = b_listen s (Some x)) /\ b_listen t None = b_listen s None
  }.

  (** The commands do not name the old nodes: these have no id. *)
  Definition names (c : dcmd T) : list N :=
    match c with
    | CreateNode id _ | CreateText id _ | CreateComment id _ | UpdateText id _ | SetAttr id _ _ | RemoveAttr id _
    | RemoveNode id | RemoveText id | RemoveComment id | CallbackAdd id _ _ | CallbackRemove id _ _ => [id]
    | InsertBefore p c r => p :: c :: match r with Some r => [r] | None => [] end
    | InsertCss _ _ => []
    end.
  Definition avoids (c : dcmd T) : Prop := forall x, In x (names c) -> old x = false.

  (** ** Proofs *)

  (** [t] is [s] with the old nodes [O x] in front of the children of [x]. *)
  Record over (O : N -> list N) (s t : bdom T) : Prop := {
    o_node : forall x, old x = false -> b_node t x = b_node s x /\ b_reg t x = b_reg s x /\ b_par t x = b_par s x;
    o_old : forall x y, In y (O x) -> old y = true /\ b_par t y = Some x;
    o_top : forall x, old x = true -> O x = [];
    o_kids : forall x, old x = false -> b_kids t x = O x ++ b_kids s x;
    o_new : forall x y, old x = false -> In y (b_kids s x) -> old y = false;
    o_par : forall x p, old x = false -> b_par s x = Some p -> old p = false;
    o_rest : b_css t = b_css s /\ (forall x, b_cbs t x = b_cbs s x) /\
             (forall x, old x = false -> b_listen t (Some x) = b_listen s (Some x)) /\ b_listen t None = b_listen s None
  }.

  Lemma nupd_eq {A} (f : N -> A) k a : nupd f k a k = a.
  Proof. unfold nupd. rewrite N.eqb_refl. auto. Qed.
  Lemma nupd_ne {A} (f : N -> A) k a x : x <> k -> nupd f k a x = f x.
  Proof. intros H. unfold nupd. apply N.eqb_neq in H. rewrite H. auto. Qed.
  Lemma nupd_case {A} (f : N -> A) k a x : (x = k /\ nupd f k a x = a) \/ (x <> k /\ nupd f k a x = f x).
  Proof. destruct (N.eq_dec x k); [left; subst; rewrite nupd_eq|right; rewrite nupd_ne]; auto. Qed.

  Lemma out_of_app a b x : out_of (a ++ b) x = out_of a x ++ out_of b x.
  Proof. apply filter_app. Qed.
  Lemma out_of_not l x : ~ In x l -> out_of l x = l.
  Proof.
    induction l as [|y l IH]; simpl; auto. intros H. destruct (N.eqb_spec y x); [tauto|]. simpl. f_equal. auto.
  Qed.
  Lemma in_out_of l x y : In y (out_of l x) <-> In y l /\ y <> x.
  Proof. unfold out_of. rewrite filter_In, negb_true_iff, N.eqb_neq. tauto. Qed.

  Lemma o_not O s t x y : over O s t -> old y = false -> ~ In y (O x).
  Proof. intros H E I. destruct (o_old _ _ _ H _ _ I). congruence. Qed.

  Lemma get_over O s t x : over O s t -> old x = false -> b_get t x = b_get s x.
  Proof. intros H E. unfold b_get. destruct (o_node _ _ _ H x E) as (A & B & _). rewrite A, B. auto. Qed.

  Lemma detach_over O s t x : over O s t -> old x = false -> over O (detach s x) (detach t x).
  Proof.
    intros H E. unfold detach. destruct (o_node _ _ _ H x E) as (_ & _ & P). rewrite P.
    destruct (b_par s x) as [p|] eqn:PX; [|auto]. pose proof (o_par _ _ _ H x p E PX) as EP.
    destruct H as [H1 H2 H2t H3 H4 H5 H6]. constructor; simpl.
    - intros y Y. destruct (H1 y Y) as (A & B & C). split; [auto|]. split; [auto|].
      destruct (nupd_case (b_par t) x None y) as [[-> ->]|[N ->]]; [rewrite nupd_eq|rewrite nupd_ne by auto]; auto.
    - intros y z Z. destruct (H2 y z Z) as [A B]. split; auto. rewrite nupd_ne; auto. congruence.
    - auto.
    - intros y Y. destruct (nupd_case (b_kids t) p (out_of (b_kids t p) x) y) as [[-> ->]|[N ->]].
      + rewrite nupd_eq, H3 by auto. rewrite out_of_app. f_equal. apply out_of_not. intros I. destruct (H2 _ _ I). congruence.
      + rewrite nupd_ne by auto. auto.
    - intros y z Y. destruct (nupd_case (b_kids s) p (out_of (b_kids s p) x) y) as [[-> ->]|[N ->]]; eauto.
      rewrite in_out_of. intros [I _]. eauto.
    - intros y q Y. destruct (nupd_case (b_par s) x None y) as [[-> ->]|[N ->]]; [discriminate|eauto].
    - auto.
  Qed.

  Lemma place_over O s t p c f g : over O s t -> old p = false -> old c = false ->
    (forall l, (forall y, In y l -> old y = false) -> f (O p ++ l) = O p ++ g l /\ (forall y, In y (g l) -> y = c \/ In y l)) ->
    over O (place s p c g) (place t p c f).
  Proof.
    intros H EP EC F. pose proof (detach_over O s t c H EC) as D. unfold place.
    set (s1 := detach s c) in *. set (t1 := detach t c) in *. clearbody s1 t1.
    destruct D as [H1 H2 H2t H3 H4 H5 H6]. constructor; simpl.
    - intros y Y. destruct (H1 y Y) as (A & B & C). do 2 (split; [auto|]).
      destruct (nupd_case (b_par t1) c (Some p) y) as [[-> ->]|[N ->]]; [rewrite nupd_eq|rewrite nupd_ne by auto]; auto.
    - intros y z Z. destruct (H2 y z Z) as [A B]. split; auto. rewrite nupd_ne; auto. congruence.
    - auto.
    - intros y Y. destruct (nupd_case (b_kids t1) p (f (b_kids t1 p)) y) as [[-> ->]|[N ->]].
      + rewrite nupd_eq, H3 by auto. apply F. intros z Z. eauto.
      + rewrite nupd_ne by auto. auto.
    - intros y z Y. destruct (nupd_case (b_kids s1) p (g (b_kids s1 p)) y) as [[-> ->]|[N ->]]; eauto.
      intros I. apply F in I; [|intros; eauto]. destruct I as [->|I]; eauto.
    - intros y q Y. destruct (nupd_case (b_par s1) c (Some p) y) as [[-> ->]|[N ->]]; [congruence|eauto].
    - auto.
  Qed.

  Lemma put_before_over o l r x : ~ In r o -> put_before (o ++ l) r x = o ++ put_before l r x.
  Proof.
    induction o as [|y o IH]; simpl; auto. intros H. destruct (N.eqb_spec y r); [tauto|]. f_equal. auto.
  Qed.
  Lemma in_put_before l r x y : In y (put_before l r x) -> y = x \/ In y l.
  Proof.
    induction l as [|z l IH]; simpl; auto. destruct (z =? r)%N; simpl; [intuition|]. intros [->|I]; [auto|]. apply IH in I. tauto.
  Qed.

  (** Changing what is stored of one node or in the rest of the document. *)
  Lemma fields_over O s t s1 t1 : over O s t ->
    b_kids s1 = b_kids s -> b_kids t1 = b_kids t -> b_par s1 = b_par s -> b_par t1 = b_par t ->
    (forall x, old x = false -> b_node t1 x = b_node s1 x /\ b_reg t1 x = b_reg s1 x) ->
    b_css t1 = b_css s1 -> (forall x, b_cbs t1 x = b_cbs s1 x) ->
    (forall x, old x = false -> b_listen t1 (Some x) = b_listen s1 (Some x)) -> b_listen t1 None = b_listen s1 None ->
    over O s1 t1.
  Proof.
    intros [H1 H2 H2t H3 H4 H5 H6] K1 K2 P1 P2 N C B L1 L2. constructor; rewrite ?K1, ?K2, ?P1, ?P2; auto.
    intros x X. destruct (N x X), (H1 x X) as (_ & _ & ?). auto.
  Qed.

  Definition orel (R : bdom T -> bdom T -> Prop) (a b : option (bdom T)) : Prop :=
    match a, b with Some x, Some y => R x y | None, None => True | _, _ => False end.

  Lemma cb_eq {A} (f g : N -> A) k a : (forall x, f x = g x) -> forall x, nupd f k a x = nupd g k a x.
  Proof. intros H x. unfold nupd. rewrite H. auto. Qed.

  Lemma create_over O s t id n : over O s t -> old id = false ->
    orel (over O) (b_create perm s id n) (b_create perm t id n).
  Proof.
    intros H E. unfold b_create. destruct (perm id); [exact H|]. destruct (o_node _ _ _ H id E) as (A & B & _). rewrite A.
    destruct (b_node s id) eqn:X; [exact Logic.I|]. simpl.
    pose proof (o_rest _ _ _ H) as (R1 & R2 & R3 & R4). apply (fields_over O s t); simpl; auto.
    intros x Y. destruct (o_node _ _ _ H x Y) as (A2 & B2 & _). unfold nupd. destruct (x =? id)%N; auto.
  Qed.

  Lemma remove_over O s t id : over O s t -> old id = false -> orel (over O) (b_remove perm s id) (b_remove perm t id).
  Proof.
    intros H E. unfold b_remove. rewrite (get_over O s t) by auto. destruct (b_get s id); [|exact Logic.I]. simpl.
    apply detach_over; auto. pose proof (o_rest _ _ _ H) as (R1 & R2 & R3 & R4). apply (fields_over O s t); simpl; auto.
    intros x Y. destruct (o_node _ _ _ H x Y) as (A & B & _). split; auto. destruct (perm id); auto.
    unfold nupd. destruct (x =? id)%N; auto.
  Qed.

  Lemma set_over O s t id n : over O s t -> over O (set_node s id n) (set_node t id n).
  Proof.
    intros H. pose proof (o_rest _ _ _ H) as (R1 & R2 & R3 & R4). apply (fields_over O s t); simpl; auto.
    intros x Y. destruct (o_node _ _ _ H x Y) as (A & B & _). unfold nupd. destruct (x =? id)%N; auto.
  Qed.

  Lemma insert_over O s t p c r : over O s t -> old p = false -> old c = false ->
    match r with Some r => old r = false | None => True end ->
    orel (over O) (b_insert s p c r) (b_insert t p c r).
  Proof.
    intros H EP EC ER. unfold b_insert. rewrite !(get_over O s t) by auto.
    destruct (b_get s p) as [[| |]|]; try exact Logic.I. destruct (b_get s c); [|exact Logic.I].
    destruct r as [r|].
    - rewrite (get_over O s t) by auto. destruct (o_node _ _ _ H r ER) as (_ & _ & ->).
      destruct (b_get s r); [|exact Logic.I]. destruct (b_par s r) as [q|]; [|exact Logic.I].
      destruct (q =? p)%N; [|exact Logic.I]. destruct (r =? c)%N; [exact H|].
      apply place_over; auto. intros l L. split; [apply put_before_over; eapply o_not; eauto|intros y; apply in_put_before].
    - apply place_over; auto. intros l L. split; [rewrite app_assoc; auto|]. intros y I. apply in_app_or in I. simpl in I. intuition.
  Qed.

  Lemma callback_over O s t c cb target f : over O s t ->
    match target with Some x => old x = false | None => True end ->
    over O (BDom (b_node s) (b_reg s) (b_kids s) (b_par s) (b_css s) (nupd (b_cbs s) c cb) (oupd (b_listen s) target (f (b_listen s target))))
           (BDom (b_node t) (b_reg t) (b_kids t) (b_par t) (b_css t) (nupd (b_cbs t) c cb) (oupd (b_listen t) target (f (b_listen t target)))).
  Proof.
    intros H E. pose proof (o_rest _ _ _ H) as (R1 & R2 & R3 & R4). apply (fields_over O s t); simpl; auto.
    - intros x Y. destruct (o_node _ _ _ H x Y) as (A & B & _). auto.
    - apply cb_eq; auto.
    - intros x Y. unfold oupd. destruct target as [y|]; auto. destruct (N.eqb_spec x y); [subst; rewrite R3|]; auto.
    - unfold oupd. destruct target as [y|]; auto. rewrite R4; auto.
  Qed.

  Lemma step_over O s t c : over O s t -> avoids c ->
    orel (over O) (b_step teqb hook perm s c) (b_step teqb hook perm t c).
  Proof.
    intros H A. unfold avoids in A. pose proof (o_rest _ _ _ H) as (R1 & R2 & R3 & R4).
    destruct c; simpl names in A; simpl b_step;
      try (apply create_over; auto; apply A; simpl; auto); try (apply remove_over; auto; apply A; simpl; auto).
    - rewrite (get_over O s t) by (auto; apply A; simpl; auto). destruct (b_get s id) as [[| |]|]; try exact Logic.I. apply set_over; auto.
    - rewrite (get_over O s t) by (auto; apply A; simpl; auto). destruct (b_get s id) as [[| |]|]; try exact Logic.I. apply set_over; auto.
    - rewrite (get_over O s t) by (auto; apply A; simpl; auto). destruct (b_get s id) as [[| |]|]; try exact Logic.I. apply set_over; auto.
    - apply insert_over; auto; [apply A; simpl; auto|apply A; simpl; auto|]. destruct ref; auto. apply A; simpl; auto.
    - simpl. apply (fields_over O s t); simpl; auto; [|congruence].
      intros x Y. destruct (o_node _ _ _ H x Y) as (A1 & B1 & _). auto.
    - unfold b_callback_add. rewrite R2. destruct (b_cbs s callback); [exact H|].
      rewrite (get_over O s t) by (auto; apply A; simpl; auto).
      assert (G : over O (BDom (b_node s) (b_reg s) (b_kids s) (b_par s) (b_css s) (nupd (b_cbs s) callback true)
        (oupd (b_listen s) (if teqb event hook then None else Some id) (b_listen s (if teqb event hook then None else Some id) ++ [(event, callback)])))
        (BDom (b_node t) (b_reg t) (b_kids t) (b_par t) (b_css t) (nupd (b_cbs t) callback true)
        (oupd (b_listen t) (if teqb event hook then None else Some id) (b_listen t (if teqb event hook then None else Some id) ++ [(event, callback)])))).
      { apply (callback_over O s t callback true _ (fun l => l ++ [(event, callback)])); auto.
        destruct (teqb event hook); auto. apply A; simpl; auto. }
      cbv zeta. destruct (teqb event hook); [exact G|]. destruct (b_get s id); [exact G|exact Logic.I].
    - unfold b_callback_remove. rewrite R2. destruct (b_cbs s callback); [|exact H].
      rewrite (get_over O s t) by (auto; apply A; simpl; auto).
      set (f := filter (fun e : T * N => negb (teqb event (fst e) && (snd e =? callback)%N))).
      assert (G : over O (BDom (b_node s) (b_reg s) (b_kids s) (b_par s) (b_css s) (nupd (b_cbs s) callback false)
        (oupd (b_listen s) (if teqb event hook then None else Some id) (f (b_listen s (if teqb event hook then None else Some id)))))
        (BDom (b_node t) (b_reg t) (b_kids t) (b_par t) (b_css t) (nupd (b_cbs t) callback false)
        (oupd (b_listen t) (if teqb event hook then None else Some id) (f (b_listen t (if teqb event hook then None else Some id)))))).
      { apply callback_over; auto. destruct (teqb event hook); auto. apply A; simpl; auto. }
      cbv zeta. destruct (teqb event hook); [exact G|]. destruct (b_get s id); [exact G|exact Logic.I].
  Qed.

  Lemma err_over O s t c : over O s t -> over O (b_err s c) (b_err t c).
  Proof.
    intros H. pose proof (o_rest _ _ _ H) as (R1 & R2 & R3 & R4).
    destruct c; simpl; auto; (apply (fields_over O s t); simpl; auto;
      [intros x Y; destruct (o_node _ _ _ H x Y) as (A1 & B1 & _); auto|apply cb_eq; auto]).
  Qed.

  Lemma under_over O s t : over O s t -> forall x y, old x = false -> (under s x y <-> under t x y).
  Proof.
    intros H x y E. split; intros U; revert E.
    - induction U as [|x p y P U IH]; intros E; [constructor|]. apply under_step with p.
      + destruct (o_node _ _ _ H x E) as (_ & _ & ->). auto.
      + apply IH. eapply o_par; eauto.
    - induction U as [|x p y P U IH]; intros E; [constructor|].
      destruct (o_node _ _ _ H x E) as (_ & _ & Q). rewrite Q in P. apply under_step with p; auto.
      apply IH. eapply o_par; eauto.
  Qed.

  Lemma legal_over O s t c : over O s t -> avoids c -> (legal s c <-> legal t c).
  Proof.
    intros H A. destruct c; simpl; try tauto. pose proof (under_over O s t H parent child (A parent (or_introl eq_refl))). tauto.
  Qed.

  Lemma replay_over O cs : Forall avoids cs -> forall s t errs t1, over O s t -> breplay teqb hook perm t cs errs t1 ->
    exists s1, breplay teqb hook perm s cs errs s1 /\ over O s1 t1.
  Proof.
    induction 1 as [|c cs A AS IH]; intros s t errs t1 H R;
      inversion R as [|? ? ? ? ? ? RL RS RR|? ? ? ? ? RL RR]; subst.
    - exists s. split; [constructor|auto].
    - pose proof (step_over O s t c H A) as S. rewrite RS in S. destruct (b_step teqb hook perm s c) as [s2|] eqn:E; [|contradiction].
      destruct (IH _ _ _ _ S RR) as (u1 & R1 & O1). exists u1. split; auto. econstructor; eauto. apply (legal_over O s t c H A); auto.
    - destruct (IH _ _ _ _ (err_over O s t c H) RR) as (u1 & R1 & O1). exists u1. split; auto. apply br_err; auto.
      destruct RL as [L|L]; [left; intros X; apply L; apply (legal_over O s t c H A); auto|right].
      pose proof (step_over O s t c H A) as S. rewrite L in S. destruct (b_step teqb hook perm s c); [contradiction|auto].
  Qed.

  Lemma replay_under O cs : Forall avoids cs -> forall s t errs s1, over O s t -> breplay teqb hook perm s cs errs s1 ->
    exists t1, breplay teqb hook perm t cs errs t1 /\ over O s1 t1.
  Proof.
    induction 1 as [|c cs A AS IH]; intros s t errs t1 H R;
      inversion R as [|? ? ? ? ? ? RL RS RR|? ? ? ? ? RL RR]; subst.
    - exists t. split; [constructor|auto].
    - pose proof (step_over O s t c H A) as S. rewrite RS in S. destruct (b_step teqb hook perm t c) as [s2|] eqn:E; [|contradiction].
      destruct (IH _ _ _ _ S RR) as (u1 & R1 & O1). exists u1. split; auto. econstructor; eauto. apply (legal_over O s t c H A); auto.
    - destruct (IH _ _ _ _ (err_over O s t c H) RR) as (u1 & R1 & O1). exists u1. split; auto. apply br_err; auto.
      destruct RL as [L|L]; [left; intros X; apply L; apply (legal_over O s t c H A); auto|right].
      pose proof (step_over O s t c H A) as S. rewrite L in S. destruct (b_step teqb hook perm t c); [contradiction|auto].
  Qed.

  (** Removing the old nodes. *)
  Lemma detach_old O s t x : over O s t -> old x = true -> over (fun p => out_of (O p) x) s (detach t x).
  Proof.
    intros H E. unfold detach. destruct (b_par t x) as [p|] eqn:P.
    - destruct H as [H1 H2 H2t H3 H4 H5 H6]. constructor; simpl; auto.
      + intros y Y. destruct (H1 y Y) as (A & B & C). do 2 (split; [auto|]). rewrite nupd_ne; auto. congruence.
      + intros y z I. apply in_out_of in I. destruct I as [I N]. destruct (H2 y z I). split; auto. rewrite nupd_ne; auto.
      + intros y Y. rewrite H2t; auto.
      + intros y Y. destruct (nupd_case (b_kids t) p (out_of (b_kids t p) x) y) as [[-> ->]|[N ->]].
        * rewrite H3 by auto. rewrite out_of_app. f_equal. apply out_of_not. intros I. pose proof (H4 _ _ Y I). congruence.
        * rewrite H3 by auto. f_equal. symmetry. apply out_of_not. intros I. destruct (H2 y x I). congruence.
    - assert (N : forall p, out_of (O p) x = O p).
      { intros p. apply out_of_not. intros I. destruct (o_old _ _ _ H p x I). congruence. }
      destruct H as [H1 H2 H2t H3 H4 H5 H6]. constructor; auto.
      + intros y z. rewrite N. apply H2.
      + intros y Y. rewrite N. auto.
      + intros y Y. rewrite N. auto.
  Qed.

  Lemma clear_old l : forall O s t, over O s t -> Forall (fun x => old x = true) l ->
    exists O', over O' s (clear t l) /\ forall p y, In y (O' p) -> In y (O p) /\ ~ In y l.
  Proof.
    induction l as [|x l IH]; intros O s t H F.
    - exists O. split; auto.
    - inversion F; subst. destruct (IH _ _ _ (detach_old O s t x H H2) H3) as (O' & A & B). exists O'. split; [exact A|].
      intros p y I. destruct (B p y I) as [C D]. apply in_out_of in C. simpl. intuition.
  Qed.

  Lemma over_shown s t : over (fun _ => []) s t -> same_shown t s.
  Proof.
    intros [H1 H2 H2t H3 H4 H5 (R1 & R2 & R3 & R4)]. split; [|auto]. intros x X. destruct (H1 x X) as (A & B & C).
    split; [auto|]. split; [auto|]. split; [|auto]. rewrite H3 by auto. reflexivity.
  Qed.

  Lemma over_ext O O' s t : (forall p, O p = O' p) -> over O s t -> over O' s t.
  Proof.
    intros E [H1 H2 H2t H3 H4 H5 H6]. constructor; auto.
    - intros x y. rewrite <- E. apply H2.
    - intros x X. rewrite <- E. auto.
    - intros x X. rewrite <- E. auto.
  Qed.

  Hypothesis roots : head <> body /\ old head = false /\ old body = false.

  Definition olds (t : bdom T) (x : N) : list N := if (x =? head)%N || (x =? body)%N then b_kids t x else [].

  Lemma with_over s t : with_old s t -> over (olds t) s t.
  Proof.
    intros [H1 [H2 H2'] [H3 H3'] H4 H5 H6 H7]. destruct roots as (R1 & R2 & R3). constructor; auto.
    - intros x y. unfold olds. destruct (N.eqb_spec x head); [subst; simpl; apply (proj1 (Forall_forall _ _) H2')|].
      destruct (N.eqb_spec x body); [subst; simpl; apply (proj1 (Forall_forall _ _) H3')|simpl; tauto].
    - intros x X. unfold olds. destruct (N.eqb_spec x head); [congruence|]. destruct (N.eqb_spec x body); [congruence|auto].
    - intros x X. unfold olds. destruct (N.eqb_spec x head); [subst; simpl; rewrite H2, app_nil_r; auto|].
      destruct (N.eqb_spec x body); [subst; simpl; rewrite H3, app_nil_r; auto|simpl; auto].
  Qed.

  Lemma cleared s t s1 t1 : with_old s t -> over (olds t) s1 t1 ->
    same_shown (clear (clear t1 (b_kids t body)) (b_kids t head)) s1.
  Proof.
    intros W H. destruct W as [_ [_ W1] [_ W2] _ _ _ _].
    assert (F1 : Forall (fun x => old x = true) (b_kids t body)) by (eapply Forall_impl; [|exact W2]; simpl; tauto).
    assert (F2 : Forall (fun x => old x = true) (b_kids t head)) by (eapply Forall_impl; [|exact W1]; simpl; tauto).
    destruct (clear_old _ _ _ _ H F1) as (O1 & A1 & B1). destruct (clear_old _ _ _ _ A1 F2) as (O2 & A2 & B2).
    apply over_shown. apply over_ext with O2; auto. intros p.
    destruct (O2 p) as [|y l] eqn:E; auto. exfalso.
    destruct (B2 p y) as [C1 C2]; [rewrite E; left; auto|]. destruct (B1 p y C1) as [D1 D2].
    unfold olds in D1. destruct (N.eqb_spec p head); [subst; simpl in D1; tauto|].
    destruct (N.eqb_spec p body); [subst; simpl in D1; tauto|simpl in D1; tauto].
  Qed.

  (** *** C59: the first update turns a page with nodes of the server into what the commands make of an empty page,
      whatever the server sent and whichever commands throw; and it can always do so when the commands can. *)
  Theorem C59_takes_over s t cs errs p' : with_old s t -> Forall avoids cs ->
    dom_bulk_update (Page false t) cs errs p' ->
    exists s1, breplay teqb hook perm s cs errs s1 /\ same_shown (p_dom p') s1 /\ p_init p' = true.
  Proof.
    intros W A B. inversion B as [t1 R]; subst. simpl in *.
    destruct (replay_over _ cs A _ _ _ _ (with_over s t W) R) as (s1 & R1 & O1).
    exists s1. split; auto. split; auto. eapply cleared; eauto.
  Qed.

  Theorem C59_takes_over_total s t cs errs s1 : with_old s t -> Forall avoids cs ->
    breplay teqb hook perm s cs errs s1 ->
    exists p', dom_bulk_update (Page false t) cs errs p' /\ same_shown (p_dom p') s1 /\ p_init p' = true.
  Proof.
    intros W A R. destruct (replay_under _ cs A _ _ _ _ (with_over s t W) R) as (t1 & R1 & O1).
    exists (Page true (clear (clear t1 (b_kids t body)) (b_kids t head))). split; [|split; auto; simpl; eapply cleared; eauto].
    change (b_kids t body) with (snd (get_to_clear (Page false t))). change (b_kids t head) with (fst (get_to_clear (Page false t))).
    constructor. auto.
  Qed.

  (** Later updates remove nothing besides what the commands remove. *)
  Theorem C59_later s cs errs p' : dom_bulk_update (Page true s) cs errs p' <->
    exists s1, breplay teqb hook perm s cs errs s1 /\ p' = Page true s1.
  Proof.
    split.
    - intros B. inversion B as [s1 R]; subst. exists s1. auto.
    - intros (s1 & R & ->). exact (bulk (Page true s) cs errs s1 R).
  Qed.
End Boot.

(** A page: html 1 with head 2 and body 3; the server sent a title (101) and two nodes for the body (102, 103). *)
Module BootDemo.
  Definition old (x : N) : bool := (100 <? x)%N.
  Definition root (x : N) : bool := (x =? 1)%N || (x =? 2)%N || (x =? 3)%N.
  Definition s0 : bdom N :=
    BDom (fun x => if root x then Some (BElement 1%N []) else None) root
         (fun x => if (x =? 1)%N then [2; 3]%N else [])
         (fun x => if (x =? 2)%N || (x =? 3)%N then Some 1%N else None) [] (fun _ => false) (fun _ => []).
  Definition t0 : bdom N :=
    BDom (fun x => if root x || (x =? 101)%N || (x =? 102)%N || (x =? 103)%N then Some (BElement 1%N []) else None) root
         (fun x => if (x =? 1)%N then [2; 3]%N else if (x =? 2)%N then [101]%N else if (x =? 3)%N then [102; 103]%N else [])
         (fun x => if (x =? 2)%N || (x =? 3)%N then Some 1%N else if (x =? 101)%N then Some 2%N
                   else if (x =? 102)%N || (x =? 103)%N then Some 3%N else None) [] (fun _ => false) (fun _ => []).
  Definition cs : list (dcmd N) :=
    [CreateNode 4 10; InsertBefore 3 4 None; CreateText 5 11; InsertBefore 3 5 (Some 4); InsertCss 7 8]%N.
End BootDemo.

Example C59_case : with_old 2 3 BootDemo.old BootDemo.s0 BootDemo.t0 /\ Forall (avoids BootDemo.old) BootDemo.cs /\
  exists s1, breplay N.eqb 100%N BootDemo.root BootDemo.s0 BootDemo.cs [] s1 /\ b_kids s1 3%N = [5; 4]%N /\
  exists p', dom_bulk_update N.eqb 100%N BootDemo.root 2 3 (Page false BootDemo.t0) BootDemo.cs [] p' /\
             b_kids (p_dom p') 3%N = [5; 4]%N /\ b_kids (p_dom p') 2%N = [].
Proof.
  assert (RT : forall x, BootDemo.old x = false -> (x =? 101)%N = false /\ (x =? 102)%N = false /\ (x =? 103)%N = false).
  { unfold BootDemo.old. intros x X. apply N.ltb_ge in X. repeat split; apply N.eqb_neq; lia. }
  assert (W : with_old 2 3 BootDemo.old BootDemo.s0 BootDemo.t0).
  { constructor; simpl; auto.
    - intros x X. destruct (RT x X) as (-> & -> & ->). rewrite !orb_false_r. repeat split; auto.
    - intros x _ A B. apply N.eqb_neq in A, B. rewrite A, B. auto.
    - intros x y _. destruct (x =? 1)%N; simpl; intuition; subst; reflexivity.
    - intros x p _. destruct ((x =? 2)%N || (x =? 3)%N); [intros [= <-]; reflexivity|discriminate]. }
  assert (A : Forall (avoids BootDemo.old) BootDemo.cs).
  { repeat constructor; intros x X; simpl in X; intuition; subst; reflexivity. }
  split; auto. split; auto.
  destruct (b_run N.eqb 100%N BootDemo.root BootDemo.s0 BootDemo.cs) as [s1|] eqn:R; [|vm_compute in R; discriminate].
  assert (RP : breplay N.eqb 100%N BootDemo.root BootDemo.s0 BootDemo.cs [] s1).
  { apply replay_by_run with (rk := N.to_nat); auto. split; [simpl; intros x p; destruct (N.eqb_spec x 2), (N.eqb_spec x 3); simpl; intros [= <-]; subst; simpl; lia|].
    intros p c r I. simpl in I. repeat (destruct I as [I|I]; [inversion I; subst; simpl; lia|]). contradiction. }
  exists s1. split; auto.
  assert (K : b_kids s1 3%N = [5; 4]%N /\ b_kids s1 2%N = []) by (revert R; vm_compute; intros [= <-]; auto).
  destruct K as [K1 K2]. split; auto.
  destruct (C59_takes_over_total N.eqb 100%N BootDemo.root 2 3 BootDemo.old ltac:(repeat split; discriminate)
    BootDemo.s0 BootDemo.t0 BootDemo.cs [] s1 W A RP) as (p' & B & (S & _) & _).
  exists p'. split; auto. destruct (S 3%N eq_refl) as (_ & _ & -> & _). destruct (S 2%N eq_refl) as (_ & _ & -> & _). auto.
Qed.
