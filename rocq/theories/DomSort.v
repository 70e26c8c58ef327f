(** Sorting the removals of a batch to the end (property C23). *)

From Coq Require Import List NArith Bool Lia.
From Verif Require Import DomModel.
Import ListNotations.

(** ** Specification *)

Section Spec.
  Context {T : Type}.

  (** The nodes a command refers to. *)
  Definition mentions (c : dcmd T) : list N :=
    match c with
    | CreateNode id _ | CreateText id _ | UpdateText id _ | SetAttr id _ _ | RemoveAttr id _
    | RemoveNode id | RemoveText id | CreateComment id _ | RemoveComment id
    | CallbackAdd id _ _ | CallbackRemove id _ _ => [id]
    | InsertBefore p c r => p :: c :: match r with Some r => [r] | None => [] end
    | InsertCss _ _ => []
    end.

  Definition removes (c : dcmd T) (x : N) : Prop :=
    c = RemoveNode x \/ c = RemoveText x \/ c = RemoveComment x.

  Definition unsubscribes (c : dcmd T) : Prop := exists id ev cb, c = CallbackRemove id ev cb.

  (** No command refers to a node after its removal; [exempt] commands may. *)
  Definition no_use_after_removal (exempt : dcmd T -> Prop) (cs : list (dcmd T)) : Prop :=
    forall l c l' x d, cs = l ++ c :: l' -> removes c x -> In d l' -> In x (mentions d) -> exempt d.

  (** The same DOM: nodes, tree, style sheets, registrations, callbacks. *)
  Definition same_tree (s t : bdom T) : Prop :=
    (forall x, b_node s x = b_node t x) /\ (forall x, b_reg s x = b_reg t x) /\
    (forall x, b_kids s x = b_kids t x) /\ (forall x, b_par s x = b_par t x) /\
    b_css s = b_css t /\ (forall x, b_cbs s x = b_cbs t x).
  Definition same_dom (s t : bdom T) : Prop :=
    same_tree s t /\ forall x, b_listen s x = b_listen t x.

  (** A ranking of the nodes with every node ranked after its parent, in the DOM and in the insertions. *)
  Definition ranked (rk : N -> nat) (s : bdom T) (cs : list (dcmd T)) : Prop :=
    (forall x p, b_par s x = Some p -> rk p < rk x) /\
    forall p c r, In (InsertBefore p c r) cs -> rk p < rk c.
End Spec.

(** ** Sorting *)

Lemma sort_loop_filter {T} (l : list (dcmd T)) : forall d e,
  sort_loop l d e = (d ++ filter (fun c => negb (is_event c)) l, e ++ filter is_event l).
Proof.
  induction l as [|c l IH]; simpl; intros.
  - rewrite !app_nil_r; auto.
  - destruct (is_event c) eqn:E; rewrite IH; simpl; rewrite <- ?app_assoc; auto.
Qed.

Lemma sort_filter {T} (l : list (dcmd T)) :
  sort_commands l = filter (fun c => negb (is_event c)) l ++ filter is_event l.
Proof. unfold sort_commands. rewrite sort_loop_filter. auto. Qed.

Section Proofs.
  Context {T : Type}.
  Variable teqb : T -> T -> bool.
  Variable hook : T.
  Variable perm : N -> bool.
  Notation bdom := (bdom T).
  Notation dcmd := (dcmd T).
  Notation step := (b_step teqb hook perm).

  Definition next (s : bdom) (c : dcmd) : bdom :=
    match step s c with Some s1 => s1 | None => b_err s c end.

  (** Equality up to the listeners unless [L]. *)
  Definition eqv (L : bool) (s t : bdom) : Prop :=
    same_tree s t /\ (L = true -> forall x, b_listen s x = b_listen t x).

  Lemma eqv_refl L s : eqv L s s.
  Proof. firstorder. Qed.
  Lemma eqv_sym L s t : eqv L s t -> eqv L t s.
  Proof. intros [(a & b & c & d & e & f) g]. repeat split; auto. intros H x. symmetry; auto. Qed.
  Lemma eqv_trans L s t u : eqv L s t -> eqv L t u -> eqv L s u.
  Proof.
    intros [(a & b & c & d & e & f) g] [(a' & b' & c' & d' & e' & f') g'].
    repeat split; try congruence. intros H x. rewrite (g H), (g' H); auto.
  Qed.
  Lemma eqv_weak s t L : eqv true s t -> eqv L s t.
  Proof. intros [a b]. split; auto. Qed.

  Lemma nupd_eq {A} (f g : N -> A) k a : (forall x, f x = g x) -> forall x, nupd f k a x = nupd g k a x.
  Proof. intros H x. unfold nupd. destruct (x =? k)%N; auto. Qed.
  Lemma oupd_eq {A} (f g : option N -> A) k a : (forall x, f x = g x) -> forall x, oupd f k a x = oupd g k a x.
  Proof. intros H x. unfold oupd. destruct x, k; auto. destruct (n =? n0)%N; auto. Qed.

  Lemma get_eqv L s t x : eqv L s t -> b_get s x = b_get t x.
  Proof. intros [(a & b & _) _]. unfold b_get. rewrite a, b. auto. Qed.

  Definition oeqv L (a b : option bdom) : Prop :=
    match a, b with Some s, Some t => eqv L s t | None, None => True | _, _ => False end.

  Lemma detach_eqv L s t x : eqv L s t -> eqv L (detach s x) (detach t x).
  Proof.
    intros [(a & b & c & d & e & f) g]. unfold detach. rewrite <- d.
    destruct (b_par s x) as [p|]; [|firstorder].
    repeat split; simpl; auto; intros y; unfold nupd; rewrite ?c; destruct (_ =? _)%N; auto.
  Qed.

  Lemma step_eqv L s t c : eqv L s t -> oeqv L (step s c) (step t c).
  Proof.
    intros E. pose proof E as [(a & b & c0 & d & e & f) g].
    assert (G : forall x, b_get s x = b_get t x) by (intros; eapply get_eqv; eauto).
    assert (CR : forall id n, oeqv L (b_create perm s id n) (b_create perm t id n)).
    { intros. unfold b_create. destruct (perm id); [exact E|]. rewrite <- a.
      destruct (b_node s id); simpl; auto. repeat split; simpl; auto; intros y; unfold nupd; destruct (_ =? _)%N; auto. }
    assert (SN : forall id n, eqv L (set_node s id n) (set_node t id n)).
    { intros. repeat split; simpl; auto. intros y; unfold nupd; destruct (_ =? _)%N; auto. }
    assert (RM : forall id, oeqv L (b_remove perm s id) (b_remove perm t id)).
    { intros. unfold b_remove. rewrite <- G. destruct (b_get s id); simpl; auto. apply detach_eqv.
      repeat split; simpl; auto. intros y. destruct (perm id); auto. unfold nupd. destruct (_ =? _)%N; auto. }
    destruct c; simpl; auto; rewrite <- ?G.
    - destruct (b_get s id) as [[]|]; simpl; auto.
    - destruct (b_get s id) as [[]|]; simpl; auto.
    - destruct (b_get s id) as [[]|]; simpl; auto.
    - unfold b_insert. rewrite <- !G.
      destruct (b_get s parent) as [[]|]; simpl; auto. destruct (b_get s child); simpl; auto.
      assert (GO : forall F, eqv L (place s parent child F) (place t parent child F)).
      { intros F. destruct (detach_eqv L s t child E) as [(a1 & b1 & c1 & d1 & e1 & f1) g1].
        repeat split; simpl; auto; intros y; unfold nupd; rewrite ?c1; destruct (_ =? _)%N; auto. }
      destruct ref as [r|]; [|exact (GO _)]. rewrite <- G, <- d.
      destruct (b_get s r); simpl; auto. destruct (b_par s r) as [q|]; simpl; auto.
      destruct (q =? parent)%N; simpl; auto. destruct (r =? child)%N; simpl; auto.
    - repeat split; simpl; auto. rewrite e; auto.
    - unfold b_callback_add. rewrite <- G, <- f. destruct (b_cbs s callback); [exact E|].
      match goal with |- oeqv L (if _ then Some ?A else _) (if _ then Some ?B else _) => assert (X : eqv L A B) end.
      { repeat split; simpl; auto; intros y; [unfold nupd; destruct (_ =? _)%N; auto|].
        intros z. rewrite !g by auto. apply oupd_eq. intros; apply g; auto. }
      destruct (teqb event hook); simpl; auto. destruct (b_get s id); simpl; auto.
    - unfold b_callback_remove. rewrite <- G, <- f. destruct (b_cbs s callback); [|exact E].
      match goal with |- oeqv L (if _ then Some ?A else _) (if _ then Some ?B else _) => assert (X : eqv L A B) end.
      { repeat split; simpl; auto; intros y; [unfold nupd; destruct (_ =? _)%N; auto|].
        intros z. rewrite !g by auto. apply oupd_eq. intros; apply g; auto. }
      destruct (teqb event hook); simpl; auto. destruct (b_get s id); simpl; auto.
  Qed.

  Lemma err_eqv L s t c : eqv L s t -> eqv L (b_err s c) (b_err t c).
  Proof.
    intros E. pose proof E as [(a & b & c0 & d & e & f) g].
    destruct c; simpl; auto; repeat split; simpl; auto; apply nupd_eq; auto.
  Qed.

  Lemma next_eqv L s t c : eqv L s t -> eqv L (next s c) (next t c).
  Proof.
    intros E. pose proof (step_eqv L s t c E) as H. unfold next, oeqv in *.
    destruct (step s c), (step t c); try contradiction; auto. apply err_eqv; auto.
  Qed.

  Lemma none_eqv L s t c : eqv L s t -> (step s c = None <-> step t c = None).
  Proof.
    intros E. pose proof (step_eqv L s t c E) as H. unfold oeqv in *.
    destruct (step s c), (step t c); try contradiction; split; congruence.
  Qed.

  (** ** Removals commute with the other commands *)

  Definition unreg (s : bdom) (id : N) : bdom :=
    BDom (b_node s) (if perm id then b_reg s else nupd (b_reg s) id false) (b_kids s) (b_par s)
         (b_css s) (b_cbs s) (b_listen s).
  Definition rem (s : bdom) (x : N) : bdom := detach (unreg s x) x.

  Lemma out_of_comm l x y : out_of (out_of l x) y = out_of (out_of l y) x.
  Proof.
    unfold out_of. induction l as [|z l IH]; simpl; auto.
    destruct (z =? x)%N eqn:A, (z =? y)%N eqn:B; simpl; rewrite ?A, ?B; simpl; auto. f_equal; auto.
  Qed.
  Lemma out_of_snoc l c x : c <> x -> out_of (l ++ [c]) x = out_of l x ++ [c].
  Proof.
    intros H. unfold out_of. rewrite filter_app. simpl. apply N.eqb_neq in H. rewrite H. auto.
  Qed.
  Lemma out_of_put l r c x : c <> x -> r <> x -> out_of (put_before l r c) x = put_before (out_of l x) r c.
  Proof.
    intros H K. apply N.eqb_neq in H, K. induction l as [|y l IH]; simpl; auto.
    destruct (y =? r)%N eqn:A.
    - simpl. apply N.eqb_eq in A; subst. rewrite H, K. simpl. rewrite N.eqb_refl. auto.
    - simpl. destruct (y =? x)%N eqn:B; simpl; auto. rewrite A. f_equal; auto.
  Qed.

  Lemma rem_node s x y : b_node (rem s x) y = b_node s y.
  Proof. unfold rem, detach. destruct (b_par (unreg s x) x); auto. Qed.
  Lemma rem_reg s x y : y <> x -> b_reg (rem s x) y = b_reg s y.
  Proof.
    intros H. apply N.eqb_neq in H. unfold rem, detach. destruct (b_par (unreg s x) x); simpl;
    destruct (perm x); auto; unfold nupd; rewrite H; auto.
  Qed.
  Lemma rem_get s x y : y <> x -> b_get (rem s x) y = b_get s y.
  Proof. intros H. unfold b_get. rewrite rem_node, rem_reg; auto. Qed.
  Lemma rem_par s x y : y <> x -> b_par (rem s x) y = b_par s y.
  Proof.
    intros H. apply N.eqb_neq in H. unfold rem, detach. simpl. destruct (b_par s x); simpl; auto.
    unfold nupd; rewrite H; auto.
  Qed.
  Lemma rem_cbs s x : b_cbs (rem s x) = b_cbs s.
  Proof. unfold rem, detach. destruct (b_par (unreg s x) x); auto. Qed.
  Lemma rem_listen s x : b_listen (rem s x) = b_listen s.
  Proof. unfold rem, detach. destruct (b_par (unreg s x) x); auto. Qed.
  Lemma rem_css s x : b_css (rem s x) = b_css s.
  Proof. unfold rem, detach. destruct (b_par (unreg s x) x); auto. Qed.

  Lemma remove_rem s x : b_remove perm s x = match b_get s x with Some _ => Some (rem s x) | None => None end.
  Proof. auto. Qed.

  Ltac cases :=
    repeat match goal with
    | H : _ |- context [(?a =? ?b)%N] => destruct (N.eqb_spec a b); subst; simpl
    end; try congruence.

  Lemma detach_kids (s : bdom) x y : b_kids (detach s x) y =
    match b_par s x with Some p => if (y =? p)%N then out_of (b_kids s y) x else b_kids s y | None => b_kids s y end.
  Proof. unfold detach. destruct (b_par s x); simpl; auto. unfold nupd. cases. Qed.
  Lemma detach_par (s : bdom) x y : b_par (detach s x) y = if (y =? x)%N then None else b_par s y.
  Proof. unfold detach. destruct (b_par s x) eqn:E; simpl; auto; unfold nupd; cases. Qed.
  Lemma detach_rest (s : bdom) x : b_node (detach s x) = b_node s /\ b_reg (detach s x) = b_reg s /\
    b_css (detach s x) = b_css s /\ b_cbs (detach s x) = b_cbs s /\ b_listen (detach s x) = b_listen s.
  Proof. unfold detach. destruct (b_par s x); simpl; auto. Qed.

  Lemma place_rem s x p c f : x <> c -> x <> p -> (forall l, out_of (f l) x = f (out_of l x)) ->
    eqv true (place (rem s x) p c f) (rem (place s p c f) x).
  Proof.
    intros H K F.
    destruct (detach_rest (rem s x) c) as (a1 & a2 & a3 & a4 & a5).
    destruct (detach_rest (unreg s x) x) as (b1 & b2 & b3 & b4 & b5).
    destruct (detach_rest s c) as (c1 & c2 & c3 & c4 & c5).
    destruct (detach_rest (unreg (place s p c f) x) x) as (d1 & d2 & d3 & d4 & d5).
    repeat split; unfold place at 1; simpl.
    - intros y. unfold rem in *. rewrite a1, b1, d1. simpl. rewrite c1. auto.
    - intros y. unfold rem in *. rewrite a2, b2, d2. simpl. rewrite c2. auto.
    - intros y. unfold rem at 3. rewrite detach_kids. unfold nupd at 1. rewrite !detach_kids.
      unfold unreg, place; simpl. unfold rem. rewrite (detach_par _ x c), !detach_kids. unfold unreg; simpl.
      unfold nupd. rewrite !detach_par, !detach_kids.
      destruct (b_par s x), (b_par s c); cases; rewrite ?F; auto using out_of_comm; try (f_equal; apply out_of_comm).
    - intros y. unfold rem. rewrite (detach_par (unreg (place s p c f) x)). unfold unreg, place; simpl.
      unfold nupd. rewrite !detach_par; simpl. cases.
    - unfold rem in *. rewrite a3, b3, d3. simpl. rewrite c3. auto.
    - intros y. unfold rem in *. rewrite a4, b4, d4. simpl. rewrite c4. auto.
    - intros _ y. unfold rem in *. rewrite a5, b5, d5. simpl. rewrite c5. auto.
  Qed.

  Lemma commute s x c : is_event c = false -> ~ In x (mentions c) ->
    oeqv true (step (rem s x) c) (match step s c with Some s1 => Some (rem s1 x) | None => None end).
  Proof.
    intros E M.
    assert (CR : forall id n, id <> x -> oeqv true (b_create perm (rem s x) id n)
        (match b_create perm s id n with Some s1 => Some (rem s1 x) | None => None end)).
    { intros id n NE. unfold b_create. destruct (perm id); [apply eqv_refl|]. rewrite rem_node.
      destruct (b_node s id); simpl; auto. unfold rem, detach; simpl.
      destruct (b_par s x); simpl; repeat split; simpl; auto; intros y; unfold nupd; destruct (perm x); cases. }
    assert (SN : forall id n, eqv true (set_node (rem s x) id n) (rem (set_node s id n) x)).
    { intros. unfold rem, detach, set_node; simpl. destruct (b_par s x); simpl; repeat split; simpl; auto. }
    assert (NE : forall y, In y (mentions c) -> y <> x) by (intros y Y ->; auto).
    destruct c; try discriminate; simpl in NE |- *; rewrite ?(rem_get s x id) by auto; auto.
    - destruct (b_get s id) as [[]|]; simpl; auto.
    - destruct (b_get s id) as [[]|]; simpl; auto.
    - destruct (b_get s id) as [[]|]; simpl; auto.
    - unfold b_insert. rewrite (rem_get s x parent), (rem_get s x child) by auto.
      destruct (b_get s parent) as [[]|]; simpl; auto. destruct (b_get s child); simpl; auto.
      assert (CX : child <> x) by auto. assert (PX : parent <> x) by auto.
      destruct ref as [r|].
      + assert (RX : r <> x) by (apply NE; simpl; auto).
        rewrite rem_get, rem_par by auto.
        destruct (b_get s r); simpl; auto. destruct (b_par s r) as [q|]; simpl; auto.
        destruct (q =? parent)%N; simpl; auto. destruct (r =? child)%N; simpl; [apply eqv_refl|].
        apply place_rem; auto. intros; apply out_of_put; auto.
      + apply place_rem; auto. intros; apply out_of_snoc; auto.
    - unfold rem, detach; simpl. destruct (b_par s x); simpl; repeat split; simpl; auto.
    - unfold b_callback_add. rewrite rem_cbs, rem_get by auto.
      destruct (b_cbs s callback); [apply eqv_refl|].
      match goal with |- oeqv true (if _ then Some ?A else _) (match (if _ then Some ?B else _) with _ => _ end) =>
        assert (X : eqv true A (rem B x)) end.
      { unfold rem, detach; simpl. destruct (b_par s x); simpl; repeat split; simpl; auto. }
      destruct (teqb event hook); simpl; auto. destruct (b_get s id); simpl; auto.
    - unfold b_callback_remove. rewrite rem_cbs, rem_get by auto.
      destruct (b_cbs s callback); [|apply eqv_refl].
      match goal with |- oeqv true (if _ then Some ?A else _) (match (if _ then Some ?B else _) with _ => _ end) =>
        assert (X : eqv true A (rem B x)) end.
      { unfold rem, detach; simpl. destruct (b_par s x); simpl; repeat split; simpl; auto. }
      destruct (teqb event hook); simpl; auto. destruct (b_get s id); simpl; auto.
  Qed.

  (** A callback removal may even mention the removed node, up to listeners. *)
  Lemma next_cb_tree s c : unsubscribes c -> eqv false (next s c) (b_err s c) \/
     (eqv false (next s c) s /\ forall id ev cb, c = CallbackRemove id ev cb -> b_cbs s cb = false).
  Proof.
    intros (id & ev & cb & ->). unfold next. simpl. unfold b_callback_remove.
    destruct (b_cbs s cb) eqn:C.
    - left. destruct (teqb ev hook), (b_get s id); simpl; repeat split; simpl; auto; discriminate.
    - right. split; [apply eqv_refl|]. intros ? ? ? [= <- <- <-]; auto.
  Qed.

  Lemma next_cb s id ev cb : eqv false (next s (CallbackRemove id ev cb)) (b_err s (CallbackRemove id ev cb)).
  Proof.
    destruct (next_cb_tree s (CallbackRemove id ev cb)) as [H|[H K]]; auto; [hnf; eauto|].
    eapply eqv_trans; [exact H|]. specialize (K _ _ _ eq_refl).
    repeat split; simpl; auto; try discriminate. intros y. unfold nupd. cases.
  Qed.

  Lemma err_rem s x c : eqv true (b_err (rem s x) c) (rem (b_err s c) x).
  Proof.
    destruct c; try apply eqv_refl; unfold rem, detach; simpl; destruct (b_par s x); simpl; repeat split; simpl; auto.
  Qed.

  Lemma commute_next s x c : is_event c = false -> ~ In x (mentions c) ->
    eqv true (next (rem s x) c) (rem (next s c) x).
  Proof.
    intros E M. pose proof (commute s x c E M) as H. unfold next, oeqv in *.
    destruct (step s c), (step (rem s x) c); try contradiction; auto. apply err_rem.
  Qed.

  Lemma commute_next_cb s x c : unsubscribes c -> eqv false (next (rem s x) c) (rem (next s c) x).
  Proof.
    intros (id & ev & cb & ->).
    eapply eqv_trans; [apply next_cb|]. eapply eqv_trans; [apply eqv_weak, err_rem|].
    apply detach_eqv.
    pose proof (next_cb s id ev cb) as E. apply eqv_sym in E. destruct E as [(a & b & c & d & e & f) g].
    repeat split; simpl; auto; try discriminate. intros y. simpl in b. destruct (perm x); auto.
    apply nupd_eq; auto.
  Qed.

  Lemma get_next s x c : is_event c = false -> b_get s x <> None -> b_get (next s c) x <> None.
  Proof.
    intros E H.
    assert (ERR : b_get (b_err s c) x <> None) by (destruct c; exact H).
    assert (CR : forall id n s1, b_create perm s id n = Some s1 -> b_get s1 x <> None).
    { unfold b_create. intros id n s1. destruct (perm id); [intros [= <-]; auto|].
      destruct (b_node s id); [discriminate|]. intros [= <-]. unfold b_get in *; simpl. unfold nupd. cases; auto. }
    assert (SN : forall id n, b_get (set_node s id n) x <> None).
    { intros id n. unfold b_get, set_node in *; simpl. unfold nupd. cases. destruct (b_reg s id); auto; discriminate. }
    assert (PL : forall p k f, b_get (place s p k f) x <> None).
    { intros p k f. destruct (detach_rest s k) as (c1 & c2 & _). unfold b_get in *; simpl. rewrite c1, c2. auto. }
    unfold next. destruct (step s c) eqn:S; auto.
    destruct c; try discriminate; simpl in S; eauto.
    - destruct (b_get s id) as [[]|]; inversion S; subst; auto.
    - destruct (b_get s id) as [[]|]; inversion S; subst; auto.
    - destruct (b_get s id) as [[]|]; inversion S; subst; auto.
    - unfold b_insert in S. destruct (b_get s parent) as [[]|]; try discriminate.
      destruct (b_get s child); try discriminate. destruct ref as [r|]; [|inversion S; subst; auto].
      destruct (b_get s r); try discriminate. destruct (b_par s r); try discriminate.
      destruct (_ =? parent)%N; try discriminate. destruct (r =? child)%N; inversion S; subst; auto.
    - inversion S; subst; auto.
    - unfold b_callback_add in S. destruct (b_cbs s callback); [inversion S; subst; auto|].
      destruct (teqb event hook); [inversion S; subst; auto|]. destruct (b_get s id); inversion S; subst; auto.
    - unfold b_callback_remove in S. destruct (b_cbs s callback); [|inversion S; subst; auto].
      destruct (teqb event hook); [inversion S; subst; auto|]. destruct (b_get s id); inversion S; subst; auto.
  Qed.

  (** ** Whole batches *)

  (** Only [P] commands throw. *)
  Fixpoint clean (P : dcmd -> Prop) (s : bdom) (cs : list dcmd) : Prop :=
    match cs with
    | [] => True
    | c :: t => (step s c = None -> P c) /\ clean P (next s c) t
    end.
  Notation run s cs := (fold_left next cs s).

  Lemma clean_eqv L P cs : forall s t, eqv L s t -> clean P s cs -> clean P t cs.
  Proof.
    induction cs as [|c cs IH]; simpl; auto. intros s t E [A B]. split.
    - intros N. apply A. eapply none_eqv; eauto.
    - eapply IH; [|exact B]. apply next_eqv; auto.
  Qed.
  Lemma run_eqv L cs : forall s t, eqv L s t -> eqv L (run s cs) (run t cs).
  Proof. induction cs as [|c cs IH]; simpl; auto. intros s t E. apply IH, next_eqv; auto. Qed.
  Lemma clean_app P a b : forall s, clean P s (a ++ b) <-> clean P s a /\ clean P (run s a) b.
  Proof. induction a as [|c a IH]; simpl; intros s; [tauto|]. rewrite IH. tauto. Qed.

  Lemma removes_step (s : bdom) (c : dcmd) x : removes c x -> step s c = b_remove perm s x.
  Proof. intros [->|[->| ->]]; auto. Qed.
  Lemma is_event_removes (c : dcmd) : is_event c = true -> exists x, removes c x.
  Proof. unfold removes. destruct c; try discriminate; eauto. Qed.

  Variable L : bool.
  Variable exempt : dcmd -> Prop.
  Hypothesis exempt_ok : forall c, exempt c -> unsubscribes c /\ L = false.

  Lemma move_last x c : removes c x -> forall fs s, b_get s x <> None ->
    (forall f, In f fs -> is_event f = false /\ (In x (mentions f) -> exempt f)) ->
    clean exempt (rem s x) fs ->
    clean exempt s (fs ++ [c]) /\ eqv L (run (rem s x) fs) (run s (fs ++ [c])).
  Proof.
    intros R. induction fs as [|f fs IH]; intros s G H C; simpl.
    - rewrite (removes_step _ _ _ R), remove_rem. unfold next. rewrite (removes_step _ _ _ R), remove_rem.
      destruct (b_get s x); try congruence. split; [split; [congruence|auto]|apply eqv_refl].
    - destruct C as [C0 C]. destruct (H f (or_introl eq_refl)) as [E M].
      assert (K : exempt f \/ ~ In x (mentions f)).
      { destruct (in_dec N.eq_dec x (mentions f)); auto. }
      assert (Q : eqv L (next (rem s x) f) (rem (next s f) x)).
      { destruct K as [K|K].
        - destruct (exempt_ok f K) as [U ->]. apply commute_next_cb; auto.
        - apply eqv_weak, commute_next; auto. }
      destruct (IH (next s f)) as [I1 I2].
      + apply get_next; auto.
      + intros g I. apply H; simpl; auto.
      + eapply clean_eqv; [exact Q|exact C].
      + split; [split|].
        * destruct K as [K|K]; [auto|]. intros N. apply C0. pose proof (commute s x f E K) as O.
          unfold oeqv in O. rewrite N in O. destruct (step (rem s x) f); [contradiction|auto].
        * exact I1.
        * eapply eqv_trans; [|exact I2]. apply run_eqv. exact Q.
  Qed.

  Lemma nuar_cons (c : dcmd) t : no_use_after_removal exempt (c :: t) -> no_use_after_removal exempt t.
  Proof. intros H l d l' x e -> . apply (H (c :: l) d l' x e). auto. Qed.

  Lemma sort_replay cs : forall s, clean exempt s cs -> no_use_after_removal exempt cs ->
    clean exempt s (sort_commands cs) /\ eqv L (run s cs) (run s (sort_commands cs)).
  Proof.
    setoid_rewrite sort_filter.
    induction cs as [|c cs IH]; intros s C U; simpl; [split; [auto|apply eqv_refl]|].
    destruct C as [C0 C]. destruct (IH _ C (nuar_cons _ _ U)) as [I1 I2].
    destruct (is_event c) eqn:E; simpl.
    - destruct (is_event_removes c E) as [x R].
      assert (G : b_get s x <> None).
      { intros G. assert (X : exempt c) by (apply C0; rewrite (removes_step _ _ _ R), remove_rem, G; auto).
        destruct (exempt_ok c X) as [(? & ? & ? & ->) _]. discriminate. }
      assert (NX : next s c = rem s x).
      { unfold next. rewrite (removes_step _ _ _ R), remove_rem. destruct (b_get s x); congruence. }
      rewrite NX in *. apply clean_app in I1. destruct I1 as [I1 I3].
      destruct (move_last x c R (filter (fun c => negb (is_event c)) cs) s G) as [J1 J2]; auto.
      { intros f F. apply filter_In in F. destruct F as [F1 F2]. split; [destruct (is_event f); auto|].
        intros M. apply (U [] c cs x f); auto. }
      replace (filter (fun c => negb (is_event c)) cs ++ c :: filter is_event cs)
        with ((filter (fun c => negb (is_event c)) cs ++ [c]) ++ filter is_event cs)
        by (rewrite <- app_assoc; auto).
      split.
      + apply clean_app. split; auto. eapply clean_eqv; [exact J2|]. exact I3.
      + eapply eqv_trans; [exact I2|]. rewrite !fold_left_app. apply run_eqv.
        rewrite <- fold_left_app. exact J2.
    - split; [split|]; auto.
  Qed.

  (** ** Legality *)

  Variable rk : N -> nat.

  Lemma ranked_under (s : bdom) x y : (forall x p, b_par s x = Some p -> rk p < rk x) -> under s x y -> rk y <= rk x.
  Proof. intros H. induction 1; auto. apply H in H0. lia. Qed.

  Lemma ranked_legal (s : bdom) (c : dcmd) t : ranked rk s (c :: t) -> legal s c.
  Proof.
    intros [A B]. destruct c; simpl; auto. intros U. apply ranked_under in U; auto.
    specialize (B parent child ref (or_introl eq_refl)). lia.
  Qed.

  Lemma ranked_next s c t : ranked rk s (c :: t) -> ranked rk (next s c) t.
  Proof.
    intros [A B]. split; [|intros; eapply B; right; eauto].
    assert (D : forall s0 : bdom, (forall x p, b_par s0 x = Some p -> rk p < rk x) ->
        forall k x p, b_par (detach s0 k) x = Some p -> rk p < rk x).
    { intros s0 H k x p. rewrite detach_par. destruct (x =? k)%N; [discriminate|]. auto. }
    assert (PL : forall p k f, rk p < rk k -> forall x q, b_par (place s p k f) x = Some q -> rk q < rk x).
    { intros p k f K x q. simpl. unfold nupd. destruct (N.eqb_spec x k); [intros [= <-]; subst; auto|]. apply D; auto. }
    unfold next. destruct (step s c) eqn:S; [|destruct c; exact A].
    assert (CR : forall id n s1, b_create perm s id n = Some s1 -> forall x p, b_par s1 x = Some p -> rk p < rk x).
    { unfold b_create. intros id n s1. destruct (perm id); [intros [= <-]; auto|].
      destruct (b_node s id); [discriminate|]. intros [= <-]. auto. }
    destruct (is_event c) eqn:EV.
    { destruct (is_event_removes c EV) as [x R]. rewrite (removes_step _ _ _ R), remove_rem in S.
      destruct (b_get s x); inversion S; subst. apply D. exact A. }
    destruct c; try discriminate; simpl in S; eauto.
    - destruct (b_get s id) as [[]|]; inversion S; subst; auto.
    - destruct (b_get s id) as [[]|]; inversion S; subst; auto.
    - destruct (b_get s id) as [[]|]; inversion S; subst; auto.
    - specialize (B parent child ref (or_introl eq_refl)).
      unfold b_insert in S. destruct (b_get s parent) as [[]|]; try discriminate.
      destruct (b_get s child); try discriminate. destruct ref as [r|]; [|inversion S; subst; apply PL; auto].
      destruct (b_get s r); try discriminate. destruct (b_par s r); try discriminate.
      destruct (_ =? parent)%N; try discriminate. destruct (r =? child)%N; inversion S; subst; auto.
      apply PL; auto.
    - inversion S; subst; auto.
    - unfold b_callback_add in S. destruct (b_cbs s callback); [inversion S; subst; auto|].
      destruct (teqb event hook); [inversion S; subst; auto|]. destruct (b_get s id); inversion S; subst; auto.
    - unfold b_callback_remove in S. destruct (b_cbs s callback); [|inversion S; subst; auto].
      destruct (teqb event hook); [inversion S; subst; auto|]. destruct (b_get s id); inversion S; subst; auto.
  Qed.

  Lemma replay_clean (P : dcmd -> Prop) cs : forall s errs s1, ranked rk s cs ->
    breplay teqb hook perm s cs errs s1 -> Forall P errs -> clean P s cs /\ s1 = run s cs.
  Proof.
    induction cs as [|c cs IH]; intros s errs s1 RK R F; inversion R; subst; simpl; auto.
    - assert (NX : next s c = s2) by (unfold next; rewrite H3; auto). rewrite NX.
      destruct (IH s2 errs s1) as [A B]; auto.
      { rewrite <- NX. eapply ranked_next; eauto. }
      split; auto. split; auto. congruence.
    - destruct H2 as [H|H]; [exfalso; apply H; eapply ranked_legal; eauto|].
      assert (NX : next s c = b_err s c) by (unfold next; rewrite H; auto). rewrite NX.
      inversion F; subst. destruct (IH (b_err s c) errs0 s1) as [A B]; auto.
      rewrite <- NX. eapply ranked_next; eauto.
  Qed.

  Lemma clean_replay (P : dcmd -> Prop) cs : forall s, ranked rk s cs -> clean P s cs ->
    exists errs, breplay teqb hook perm s cs errs (run s cs) /\ Forall P errs.
  Proof.
    induction cs as [|c cs IH]; intros s RK C; simpl.
    - exists []. split; constructor.
    - destruct C as [C0 C]. destruct (IH (next s c)) as (errs & R & F); [eapply ranked_next; eauto|auto|].
      destruct (step s c) as [s1|] eqn:S.
      + exists errs. split; auto. assert (NX : next s c = s1) by (unfold next; rewrite S; auto).
        rewrite NX in *. econstructor; eauto. eapply ranked_legal; eauto.
      + exists (c :: errs). split; [|constructor; auto]. assert (NX : next s c = b_err s c) by (unfold next; rewrite S; auto).
        rewrite NX in *. constructor; auto.
  Qed.

  Lemma ranked_sort (s : bdom) (cs : list dcmd) : ranked rk s cs -> ranked rk s (sort_commands cs).
  Proof.
    intros [A B]. split; auto. intros p c r I. apply (B p c r). rewrite sort_filter in I.
    apply in_app_or in I. destruct I as [I|I]; apply filter_In in I; tauto.
  Qed.

  Lemma sort_replays s cs errs s1 : ranked rk s cs -> no_use_after_removal exempt cs ->
    breplay teqb hook perm s cs errs s1 -> Forall exempt errs ->
    exists errs2 s2, breplay teqb hook perm s (sort_commands cs) errs2 s2 /\ Forall exempt errs2 /\ eqv L s1 s2.
  Proof.
    intros RK U R F. destruct (replay_clean exempt _ _ _ _ RK R F) as [C ->].
    destruct (sort_replay cs s C U) as [C2 E].
    destruct (clean_replay exempt _ s (ranked_sort _ _ RK) C2) as (errs2 & R2 & F2). eauto 6.
  Qed.
End Proofs.

(** ** Property C23 *)

(** The commands that are not removals come first, the removals last; each group in issue order. *)
Theorem C23_sort_order {T} (cs : list (dcmd T)) : exists kept removals,
  sort_commands cs = kept ++ removals /\
  kept = filter (fun c => negb (is_event c)) cs /\ removals = filter is_event cs /\
  (forall c, In c removals -> exists x, removes c x) /\ (forall c x, In c kept -> ~ removes c x).
Proof.
  do 2 eexists. split; [apply sort_filter|]. split; [reflexivity|]. split; [reflexivity|]. split.
  - intros c I. apply filter_In in I. apply is_event_removes; tauto.
  - intros c x I R. apply filter_In in I. destruct I as [_ I]. destruct R as [->|[->| ->]]; discriminate.
Qed.

(** The property. *)
Definition C23_statement : Prop :=
  forall (T : Type) (teqb : T -> T -> bool) (hook : T) (perm : N -> bool) (s : bdom T) cs s1,
    no_use_after_removal (fun _ => False) cs ->
    breplay teqb hook perm s cs [] s1 ->
    exists s2, breplay teqb hook perm s (sort_commands cs) [] s2 /\ same_dom s1 s2.

(** It holds when the nodes can be ranked with parents before children, in the DOM and in all insertions of
    the batch (vertigo never moves a node to another parent).  Missing: batches that turn the tree around. *)
Theorem C23_same_dom_partial (T : Type) (teqb : T -> T -> bool) (hook : T) (perm : N -> bool) rk (s : bdom T) cs s1 :
  ranked rk s cs ->
  no_use_after_removal (fun _ => False) cs ->
  breplay teqb hook perm s cs [] s1 ->
  exists s2, breplay teqb hook perm s (sort_commands cs) [] s2 /\ same_dom s1 s2.
Proof.
  intros RK U R.
  destruct (sort_replays teqb hook perm true (fun _ => False)) with (rk := rk) (s := s) (cs := cs) (errs := @nil (dcmd T)) (s1 := s1)
    as (errs2 & s2 & R2 & F2 & E); auto; [tauto|].
  destruct errs2; [|inversion F2; contradiction].
  exists s2. split; auto. destruct E as [E1 E2]. split; auto.
Qed.

(** Dropping an element removes its node before it removes its listeners (dom_element.rs), so in issue order
    removing the listeners throws.  Even so the tree, the style sheets and the callbacks are the same; in the
    sorted batch again only removals of listeners can throw. *)
Theorem C23_with_listeners_partial (T : Type) (teqb : T -> T -> bool) (hook : T) (perm : N -> bool) rk (s : bdom T) cs errs s1 :
  ranked rk s cs ->
  no_use_after_removal unsubscribes cs ->
  breplay teqb hook perm s cs errs s1 -> Forall unsubscribes errs ->
  exists errs2 s2, breplay teqb hook perm s (sort_commands cs) errs2 s2 /\ Forall unsubscribes errs2 /\ same_tree s1 s2.
Proof.
  intros RK U R F.
  destruct (sort_replays teqb hook perm false unsubscribes) with (rk := rk) (s := s) (cs := cs) (errs := errs) (s1 := s1)
    as (errs2 & s2 & R2 & F2 & E); auto.
  exists errs2, s2. destruct E; auto.
Qed.

(** ** Examples *)

Module DomDemo.
  Definition step := @b_step N N.eqb 100%N (fun x => (x =? 1)%N).
  (** A document with the permanent node 1 and nothing else. *)
  Definition s0 : bdom N :=
    BDom (fun x => if (x =? 1)%N then Some (BElement 1%N []) else None) (fun x => (x =? 1)%N)
         (fun _ => []) (fun _ => None) [] (fun _ => false) (fun _ => []).
  (** 4 and 5 below 1; 5 is removed; 6 is inserted before 4; text of 6. *)
  Definition cs : list (dcmd N) :=
    [CreateNode 4 10; InsertBefore 1 4 None; CreateText 5 11; InsertBefore 1 5 None; CallbackAdd 4 12 7;
     RemoveText 5; CreateText 6 13; InsertBefore 1 6 (Some 4); UpdateText 6 14]%N.
End DomDemo.

(** Replays of concrete batches whose insertions are legal by a ranking. *)
Lemma replay_by_run {T} teqb hook perm rk (s : bdom T) cs s1 :
  ranked rk s cs -> b_run teqb hook perm s cs = Some s1 -> breplay teqb hook perm s cs [] s1.
Proof.
  revert s. induction cs as [|c cs IH]; simpl; intros s RK R.
  - inversion R; subst. constructor.
  - destruct (b_step teqb hook perm s c) as [s2|] eqn:S; [|discriminate].
    econstructor; eauto; [eapply ranked_legal; eauto|]. apply IH; auto.
    pose proof (ranked_next teqb hook perm rk s c cs RK) as K. unfold next in K. rewrite S in K. exact K.
Qed.

Example C23_example : exists rk s1,
  ranked rk DomDemo.s0 DomDemo.cs /\ no_use_after_removal (fun _ => False) DomDemo.cs /\
  breplay N.eqb 100%N (fun x => (x =? 1)%N) DomDemo.s0 DomDemo.cs [] s1 /\
  b_kids s1 1%N = [6; 4]%N /\ sort_commands DomDemo.cs <> DomDemo.cs.
Proof.
  exists N.to_nat.
  assert (RK : ranked N.to_nat DomDemo.s0 DomDemo.cs).
  { split; [discriminate|]. intros p c r I. simpl in I.
    repeat (destruct I as [I|I]; [inversion I; subst; try (simpl; lia)|]); contradiction. }
  destruct (b_run N.eqb 100%N (fun x => (x =? 1)%N) DomDemo.s0 DomDemo.cs) as [s1|] eqn:R; [|vm_compute in R; discriminate].
  exists s1. split; auto. split; [|split; [eapply replay_by_run; eauto|split]].
  - intros l c l' x d E R0 I M.
    assert (NU : forall k, k < 9 -> match skipn k DomDemo.cs with
       | c :: l' => match c with RemoveText x | RemoveNode x | RemoveComment x =>
           forallb (fun d => negb (existsb (N.eqb x) (mentions d))) l' | _ => true end | [] => true end = true).
    { intros k K. do 9 (destruct k; [reflexivity|]). lia. }
    assert (SK : skipn (length l) DomDemo.cs = c :: l').
    { rewrite E. rewrite skipn_app, skipn_all, PeanoNat.Nat.sub_diag. auto. }
    assert (LN : length l < 9).
    { change 9 with (length DomDemo.cs). rewrite E, app_length. simpl. lia. }
    specialize (NU _ LN). rewrite SK in NU.
    assert (Q : forallb (fun d => negb (existsb (N.eqb x) (mentions d))) l' = true)
      by (destruct R0 as [->|[->| ->]]; auto).
    rewrite forallb_forall in Q. specialize (Q d I). apply negb_true_iff in Q.
    assert (Y : existsb (N.eqb x) (mentions d) = true); [|congruence].
    apply existsb_exists. exists x. split; auto. apply N.eqb_refl.
  - revert R. vm_compute. intros [= <-]. reflexivity.
  - vm_compute. discriminate.
Qed.

Module DomTurn.
  (** 4 below 1, 5 below 4, 6 below 5. *)
  Definition s0 : bdom N :=
    BDom (fun x => if (x =? 1)%N || (x =? 4)%N || (x =? 5)%N || (x =? 6)%N then Some (BElement 1%N []) else None)
         (fun x => (x =? 1)%N || (x =? 4)%N || (x =? 5)%N || (x =? 6)%N)
         (fun x => if (x =? 1)%N then [4]%N else if (x =? 4)%N then [5]%N else if (x =? 5)%N then [6]%N else [])
         (fun x => if (x =? 4)%N then Some 1%N else if (x =? 5)%N then Some 4%N else if (x =? 6)%N then Some 5%N else None)
         [] (fun _ => false) (fun _ => []).
  (** 5 is removed, then 4 is put below 6, which is still below the removed 5. *)
  Definition cs : list (dcmd N) := [RemoveNode 5; InsertBefore 6 4 None]%N.
End DomTurn.

Lemma under_top {T} (s : bdom T) x y : b_par s x = None -> under s x y -> y = x.
Proof. intros H U. inversion U; subst; auto. congruence. Qed.

(** Sorted, the insertion comes first and throws (4 would be put below itself): the DOM differs. *)
Theorem C23_same_dom_refuted : exists (s : bdom N) cs s1,
  no_use_after_removal (fun _ => False) cs /\
  breplay N.eqb 100%N (fun x => (x =? 1)%N) s cs [] s1 /\
  (exists errs s2, breplay N.eqb 100%N (fun x => (x =? 1)%N) s (sort_commands cs) errs s2) /\
  forall errs s2, breplay N.eqb 100%N (fun x => (x =? 1)%N) s (sort_commands cs) errs s2 -> ~ same_dom s1 s2.
Proof.
  assert (IL : ~ legal DomTurn.s0 (InsertBefore 6 4 None)%N).
  { intros L. apply L. apply under_step with 5%N; [reflexivity|]. apply under_step with 4%N; [reflexivity|]. constructor. }
  exists DomTurn.s0, DomTurn.cs. eexists. split; [|split; [|split]].
  - intros l c l' x d E R I M. destruct l as [|c0 [|c1 l]]; inversion E; subst.
    + destruct R as [R|[R|R]]; inversion R; subst. destruct I as [<-|[]]. simpl in M.
      destruct M as [M|[M|[]]]; discriminate.
    + destruct I.
    + destruct l; discriminate.
  - eapply br_ok; [exact I|reflexivity|]. eapply br_ok; [|reflexivity|constructor].
    intros U. inversion U as [|? q ? Q U1]; subst. vm_compute in Q. injection Q as <-.
    apply under_top in U1; [discriminate|reflexivity].
  - do 2 eexists. change (sort_commands DomTurn.cs) with ([InsertBefore 6 4 None; RemoveNode 5]%N : list (dcmd N)).
    eapply br_err; [left; exact IL|]. eapply br_ok; [exact I|reflexivity|constructor].
  - intros errs s2. change (sort_commands DomTurn.cs) with ([InsertBefore 6 4 None; RemoveNode 5]%N : list (dcmd N)). intros R.
    inversion R as [|? ? ? ? ? ? L0|? ? ? errs' ? _ R1]; subst; [contradiction|].
    assert (P : b_par s2 4%N = Some 1%N).
    { inversion R1 as [|? ? ? s3 ? ? _ S1 R2|? ? ? ? ? _ R2]; subst; inversion R2; subst.
      - vm_compute in S1. injection S1 as <-. reflexivity.
      - reflexivity. }
    intros [(_ & _ & _ & D & _) _]. specialize (D 4%N). rewrite P in D. vm_compute in D. discriminate.
Qed.

Corollary C23_statement_refuted : ~ C23_statement.
Proof.
  intros H. destruct C23_same_dom_refuted as (s & cs & s1 & U & R & _ & N).
  destruct (H _ _ _ _ _ _ _ U R) as (s2 & R2 & E). exact (N _ _ R2 E).
Qed.

(** Dropping an element with a listener: the node is removed first, then the listener. *)
Example C23_listeners_example : exists rk s errs s1,
  let cs : list (dcmd N) := [RemoveNode 4; CallbackRemove 4 12 7; InsertCss 1 1]%N in
  ranked rk s cs /\ no_use_after_removal unsubscribes cs /\
  breplay N.eqb 100%N (fun x => (x =? 1)%N) s cs errs s1 /\ Forall unsubscribes errs /\ errs <> [] /\
  ~ no_use_after_removal (fun _ => False) cs.
Proof.
  exists N.to_nat.
  exists (BDom (fun x => if (x =? 1)%N || (x =? 4)%N then Some (BElement 1%N []) else None)
         (fun x => (x =? 1)%N || (x =? 4)%N)
         (fun x => if (x =? 1)%N then [4]%N else [])
         (fun x => if (x =? 4)%N then Some 1%N else None)
         [] (fun x => (x =? 7)%N) (fun x => match x with Some 4%N => [(12, 7)]%N | _ => [] end)).
  do 2 eexists. intros cs. split; [|split; [|split; [|split; [|split]]]].
  - split.
    + intros x p. simpl. destruct (N.eqb_spec x 4); [|discriminate]. intros [= <-]. subst. simpl; lia.
    + intros p c r [I|[I|[I|[]]]]; discriminate.
  - intros l c l' x d E R I M. destruct l as [|c0 [|c1 [|c2 l]]]; inversion E; subst.
    + destruct R as [R|[R|R]]; inversion R; subst. destruct I as [<-|[<-|[]]]; [hnf; eauto|simpl in M; tauto].
    + destruct R as [R|[R|R]]; discriminate.
    + destruct R as [R|[R|R]]; discriminate.
    + destruct l; discriminate.
  - eapply br_ok; [exact I|reflexivity|]. eapply br_err; [right; reflexivity|]. eapply br_ok; [exact I|reflexivity|constructor].
  - constructor; auto. hnf; eauto.
  - discriminate.
  - intros H. apply (H [] (RemoveNode 4%N) [CallbackRemove 4 12 7; InsertCss 1 1]%N 4%N (CallbackRemove 4 12 7)%N); auto.
    + hnf; auto.
    + simpl; auto.
    + simpl; auto.
Qed.

Print Assumptions C23_sort_order.
Print Assumptions C23_same_dom_partial.
Print Assumptions C23_with_listeners_partial.
Print Assumptions C23_same_dom_refuted.
