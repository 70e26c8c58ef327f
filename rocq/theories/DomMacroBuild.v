(** What the calls that make nodes give in the browser. *)
From Coq Require Import String List NArith Bool Lia.
From Verif Require Import CodecModel DomWire DomModel DomMacroModel.
Import ListNotations.
Local Open Scope string_scope.
Local Open Scope list_scope.
Local Open Scope N_scope.

(** The event of [hook_key_down] (dom.ts:399). *)
Definition hook_name : bytes := str "hook_keydown".
(** map_nodes.ts:21-43: html, head and body. *)
Definition perm (x : N) : bool := (x =? 1) || (x =? 2) || (x =? 3).

Section Spec.
  Context {H : Type}.

  (** A tree as it is wanted: names, the attributes in the order they are given, the styles, the classes of suspense, the events with
      their handlers, the children. *)
  Inductive wnode :=
  | WText (t : bytes)
  | WComment (t : bytes)
  | WElement (name : bytes) (attrs : list (bytes * option bytes)) (styles susps : list bytes) (events : list (bytes * H)) (kids : list wnode).

  (** The value an attribute was given last. *)
  Definition last_given (k : bytes) (l : list (bytes * option bytes)) : option bytes :=
    match find (fun e => beq k (fst e)) (rev l) with Some (_, v) => v | None => None end.
  (** The words of the class: the attribute, the style, the suspense, with spaces between. *)
  Definition words (l : list bytes) : option bytes :=
    match l with [] => None | [a] => Some a | [a; b] => Some (a ++ [32] ++ b) | a :: b :: c :: _ => Some (a ++ [32] ++ b ++ [32] ++ c) end.
  (** The value an attribute should have. *)
  Definition wanted (attrs : list (bytes * option bytes)) (styles susps : list bytes) (k : bytes) : option bytes :=
    if beq k (str "class") then
      words (olist (last_given k attrs) ++ olist (hd_error (rev styles)) ++ olist (hd_error (rev susps)))
    else last_given k attrs.

  (** The document: the node [id] and what is below it is the tree; all nodes are in [D].  [hand] gives the handlers of the
      callbacks.  Handlers of [hook_key_down] are called by the document. *)
  Inductive shows (s : bdom bytes) (hand : N -> option H) (D : N -> Prop) : N -> wnode -> Prop :=
  | sh_text id t : D id -> b_get s id = Some (BText t) -> shows s hand D id (WText t)
  | sh_comment id t : D id -> b_get s id = Some (BComment t) -> shows s hand D id (WComment t)
  | sh_element id name a attrs styles susps events kids :
      D id ->
      b_get s id = Some (BElement name a) ->
      (forall k, battr_get beq a k = wanted attrs styles susps k) ->
      Forall2 (fun e ev => fst e = fst ev /\ hand (snd e) = Some (snd ev)) (b_listen s (Some id))
              (filter (fun ev => negb (beq (fst ev) hook_name)) events) ->
      Forall (fun ev => beq (fst ev) hook_name = true -> exists cb, In (hook_name, cb) (b_listen s None) /\ hand cb = Some (snd ev)) events ->
      NoDup (b_kids s id) ->
      Forall (fun x => b_par s x = Some id) (b_kids s id) ->
      Forall2 (shows s hand D) (b_kids s id) kids ->
      shows s hand D id (WElement name attrs styles susps events kids).

  (** What the calls ask for. *)
  Definition call_attrs (c : call H) : list (bytes * option bytes) := match c with CAttr n v => [(n, v)] | _ => [] end.
  Definition call_styles (c : call H) : list bytes := match c with CCss x => [x] | _ => [] end.
  Definition call_susps (c : call H) : list bytes := match c with CSuspense x => [x] | _ => [] end.
  Definition call_events (c : call H) : list (bytes * H) := match c with COn e h => [(e, h)] | _ => [] end.
  (** What a node shows: one that is reactive its content and then its comment. *)
  Fixpoint shown (p : prog H) : list wnode :=
    match p with
    | PText t => [WText t]
    | PElement name calls =>
        [WElement name (flat_map call_attrs calls) (flat_map call_styles calls) (flat_map call_susps calls) (flat_map call_events calls)
                  (flat_map shown_call calls)]
    | PFragment l => flat_map shown l ++ [WComment (str "list dom node")]
    | PValue None => [WComment (str "value element")]
    | PValue (Some p) => shown p ++ [WComment (str "value element")]
    | PList l => flat_map shown l ++ [WComment (str "list element")]
    end
  with shown_call (c : call H) : list wnode :=
    match c with CChild p => shown p | CChildren l => flat_map shown l | _ => [] end.

  (** A node that is not reactive. *)
  Definition plain (p : prog H) : Prop := match p with PText _ | PElement _ _ => True | _ => False end.
  (** In lists and fragments only the first item is reactive (otherwise the order is wrong: C32). *)
  Fixpoint ordered (p : prog H) : Prop :=
    match p with
    | PText _ => True
    | PElement _ calls => (fix all l := match l with [] => True | c :: t => ordered_call c /\ all t end) calls
    | PFragment l | PList l =>
        (fix all l := match l with [] => True | p :: t => ordered p /\ all t end) l /\ Forall plain (tl l)
    | PValue None => True
    | PValue (Some p) => ordered p
    end
  with ordered_call (c : call H) : Prop :=
    match c with
    | CChild p => ordered p
    | CChildren l => (fix all l := match l with [] => True | p :: t => ordered p /\ all t end) l
    | _ => True
    end.

  (** The element is not one of the three the page has anyway, nor a suspense (C38); the class is given once. *)
  Definition own_name (n : bytes) : Prop :=
    n <> str "html" /\ n <> str "head" /\ n <> str "body" /\ n <> str "vertigo-suspense".
  Definition class_once (l : list (bytes * option bytes)) : Prop :=
    (length (filter (fun e => beq (fst e) (str "class")) l) <= 1)%nat.
  Fixpoint ordinary (w : wnode) : Prop :=
    match w with
    | WElement name attrs _ _ _ kids =>
        own_name name /\ class_once attrs /\ (fix all l := match l with [] => True | w :: t => ordinary w /\ all t end) kids
    | _ => True
    end.
End Spec.
Arguments wnode : clear implicits.

(** ** Basic facts *)
Lemma beq_true a b : beq a b = true <-> a = b.
Proof.
  revert b. induction a as [|x a IH]; destruct b as [|y b]; cbn; split; try congruence; try discriminate.
  - intros E. apply andb_true_iff in E. destruct E as [E1 E2]. apply N.eqb_eq in E1. apply IH in E2. congruence.
  - intros E. injection E as -> ->. rewrite N.eqb_refl. cbn. apply IH. reflexivity.
Qed.
Lemma beq_refl a : beq a a = true.
Proof. apply beq_true. reflexivity. Qed.
Lemma beq_false a b : a <> b -> beq a b = false.
Proof. intros N. destruct (beq a b) eqn:E; auto. apply beq_true in E. contradiction. Qed.
Lemma beq_sym a b : beq a b = beq b a.
Proof. destruct (beq a b) eqn:E; symmetry. apply beq_true in E. subst. apply beq_refl. apply beq_false. intros ->. rewrite beq_refl in E. discriminate. Qed.
Lemma obeq_true a b : obeq a b = true -> a = b.
Proof. destruct a, b; cbn; try discriminate; auto. intros E. apply beq_true in E. congruence. Qed.
Lemma battr_get_set l k v k' : battr_get beq (battr_set beq l k v) k' = if beq k' k then Some v else battr_get beq l k'.
Proof.
  induction l as [|[a b] t IH]; cbn.
  - destruct (beq k' k); reflexivity.
  - destruct (beq k a) eqn:E; cbn.
    + apply beq_true in E. subst a. destruct (beq k' k); reflexivity.
    + rewrite IH. destruct (beq k' a) eqn:E2; auto. destruct (beq k' k) eqn:E3; auto.
      apply beq_true in E2, E3. subst. rewrite beq_refl in E. discriminate.
Qed.
Lemma battr_get_del l k k' : battr_get beq (battr_del beq l k) k' = if beq k' k then None else battr_get beq l k'.
Proof.
  induction l as [|[a b] t IH]; cbn; unfold battr_del in *.
  - destruct (beq k' k); reflexivity.
  - cbn. destruct (beq k a) eqn:E; cbn.
    + rewrite IH. apply beq_true in E. subst a. destruct (beq k' k); reflexivity.
    + rewrite IH. destruct (beq k' a) eqn:E2; auto. destruct (beq k' k) eqn:E3; auto.
      apply beq_true in E2, E3. subst. rewrite beq_refl in E. discriminate.
Qed.
Lemma last_given_snoc k l n v : last_given k (l ++ [(n, v)]) = if beq k n then v else last_given k l.
Proof. unfold last_given. rewrite rev_unit. cbn. destruct (beq k n); reflexivity. Qed.
Lemma hd_rev_snoc {A} (l : list A) x : hd_error (rev (l ++ [x])) = Some x.
Proof. rewrite rev_unit. reflexivity. Qed.
Lemma words_join k : get_new_command k = words (olist (k_attr k) ++ olist (k_css k) ++ olist (k_susp k)).
Proof. unfold get_new_command. destruct (k_attr k), (k_css k), (k_susp k); cbn; reflexivity. Qed.

Section Build.
  Context {H : Type}.
  Notation shows := (@shows H).
  Notation bdom := (DomModel.bdom bytes).
  Notation bstep := (b_step beq hook_name perm).
  Notation brep := (breplay beq hook_name perm).
  (** The document at the beginning. *)
  Variable s0 : bdom.

  (** *** Induction *)
  Section Ind.
    Variables (P : prog H -> Prop) (Q : call H -> Prop).
    Hypotheses (ht : forall t, P (PText t)) (he : forall n l, Forall Q l -> P (PElement n l)) (hf : forall l, Forall P l -> P (PFragment l))
      (hv : P (PValue None)) (hv' : forall p, P p -> P (PValue (Some p))) (hl : forall l, Forall P l -> P (PList l))
      (ha : forall n v, Q (CAttr n v)) (ho : forall e h, Q (COn e h)) (hc : forall x, Q (CCss x)) (hs : forall x, Q (CSuspense x))
      (hk : forall p, P p -> Q (CChild p)) (hks : forall l, Forall P l -> Q (CChildren l)).
    Fixpoint prog_ind2 (p : prog H) : P p :=
      match p with
      | PText t => ht t
      | PElement n l => he n l ((fix go l : Forall Q l := match l with [] => Forall_nil _ | c :: t => Forall_cons c (call_ind2 c) (go t) end) l)
      | PFragment l => hf l ((fix go l : Forall P l := match l with [] => Forall_nil _ | c :: t => Forall_cons c (prog_ind2 c) (go t) end) l)
      | PValue None => hv
      | PValue (Some p) => hv' p (prog_ind2 p)
      | PList l => hl l ((fix go l : Forall P l := match l with [] => Forall_nil _ | c :: t => Forall_cons c (prog_ind2 c) (go t) end) l)
      end
    with call_ind2 (c : call H) : Q c :=
      match c with
      | CAttr n v => ha n v
      | COn e h => ho e h
      | CCss x => hc x
      | CSuspense x => hs x
      | CChild p => hk p (prog_ind2 p)
      | CChildren l => hks l ((fix go l : Forall P l := match l with [] => Forall_nil _ | c :: t => Forall_cons c (prog_ind2 c) (go t) end) l)
      end.
  End Ind.
  Section WInd.
    Variable P : wnode H -> Prop.
    Hypotheses (ht : forall t, P (WText t)) (hc : forall t, P (WComment t))
      (he : forall n a s u e l, Forall P l -> P (WElement n a s u e l)).
    Fixpoint wnode_ind2 (w : wnode H) : P w :=
      match w with
      | WText t => ht t
      | WComment t => hc t
      | WElement n a s u e l =>
          he n a s u e l ((fix go l : Forall P l := match l with [] => Forall_nil _ | c :: t => Forall_cons c (wnode_ind2 c) (go t) end) l)
      end.
  End WInd.

  (** *** States *)
  Definition same (s s' : bdom) (x : N) : Prop :=
    b_node s' x = b_node s x /\ b_reg s' x = b_reg s x /\ b_kids s' x = b_kids s x /\ b_par s' x = b_par s x /\
    b_listen s' (Some x) = b_listen s (Some x).
  Definition absent (s : bdom) (x : N) : Prop :=
    b_node s x = None /\ b_reg s x = false /\ b_kids s x = [] /\ b_par s x = None /\ b_listen s (Some x) = [].
  Definition grown (s s' : bdom) (x : N) : Prop :=
    b_node s' x = b_node s x /\ b_reg s' x = b_reg s x /\ b_kids s' x = b_kids s x /\ b_listen s' (Some x) = b_listen s (Some x) /\
    (forall q, b_par s x = Some q -> b_par s' x = Some q).
  Lemma same_refl s x : same s s x.
  Proof. repeat split. Qed.
  Lemma same_trans s1 s2 s3 x : same s1 s2 x -> same s2 s3 x -> same s1 s3 x.
  Proof. intros (A & B & C & D & E) (A' & B' & C' & D' & E'). repeat split; congruence. Qed.
  Lemma same_sym s1 s2 x : same s1 s2 x -> same s2 s1 x.
  Proof. intros (A & B & C & D & E). repeat split; congruence. Qed.
  Lemma same_grown s1 s2 x : same s1 s2 x -> grown s1 s2 x.
  Proof. intros (A & B & C & D & E). repeat split; auto. intros q. congruence. Qed.
  Lemma same_get s1 s2 x : same s1 s2 x -> b_get s2 x = b_get s1 x.
  Proof. intros (A & B & _). unfold b_get. rewrite A, B. reflexivity. Qed.
  Lemma grown_get s1 s2 x : grown s1 s2 x -> b_get s2 x = b_get s1 x.
  Proof. intros (A & B & _). unfold b_get. rewrite A, B. reflexivity. Qed.

  Record Inv (w : bworld H) (s : bdom) : Prop := {
    i_run : brep s0 (w_q w) [] s;
    i_abs : forall x, w_next w <= x -> absent s x;
    i_next : 4 <= w_next w;
    i_cb : forall cb, w_cb w <= cb -> b_cbs s cb = false /\ w_hand w cb = None
  }.
  (** Handlers and listeners of the document stay. *)
  Definition later (w : bworld H) (s : bdom) (w1 : bworld H) (s1 : bdom) : Prop :=
    (forall cb h, w_hand w cb = Some h -> w_hand w1 cb = Some h) /\ incl (b_listen s None) (b_listen s1 None).
  Lemma later_refl w s : later w s w s.
  Proof. split; auto. intros x. auto. Qed.
  Lemma later_trans w s w1 s1 w2 s2 : later w s w1 s1 -> later w1 s1 w2 s2 -> later w s w2 s2.
  Proof. intros [A B] [C D]. split; auto. eapply incl_tran; eauto. Qed.

  Lemma brep_snoc q s c s' : brep s0 q [] s -> legal s c -> bstep s c = Some s' -> brep s0 (q ++ [c]) [] s'.
  Proof.
    intros R L S. remember (@nil (dcmd bytes)) as e eqn:E. induction R; cbn.
    - eapply br_ok; eauto. subst. constructor.
    - eapply br_ok; eauto.
    - discriminate.
  Qed.

  Lemma shows_element s h D id n attrs st u ev (kids : list (wnode H)) : shows s h D id (WElement n attrs st u ev kids) ->
    D id /\ (exists a, b_get s id = Some (BElement n a) /\ forall k, battr_get beq a k = wanted attrs st u k) /\
    Forall2 (fun e ev => fst e = fst ev /\ h (snd e) = Some (snd ev)) (b_listen s (Some id)) (filter (fun ev => negb (beq (fst ev) hook_name)) ev) /\
    Forall (fun ev => beq (fst ev) hook_name = true -> exists cb, In (hook_name, cb) (b_listen s None) /\ h cb = Some (snd ev)) ev /\
    NoDup (b_kids s id) /\ Forall (fun x => b_par s x = Some id) (b_kids s id) /\ Forall2 (shows s h D) (b_kids s id) kids.
  Proof. intros S. inversion S; subst. eauto 12. Qed.
  Lemma shows_frame s s' h h' D (w : wnode H) : forall id, shows s h D id w ->
    (forall x, D x -> grown s s' x) -> (forall cb y, h cb = Some y -> h' cb = Some y) -> incl (b_listen s None) (b_listen s' None) ->
    shows s' h' D id w.
  Proof.
    induction w as [t|t|n a st u ev kids IH] using wnode_ind2; intros id S G Hh Hd.
    - inversion S; subst. constructor; auto. rewrite (grown_get _ _ _ (G id ltac:(auto))). auto.
    - inversion S; subst. constructor; auto. rewrite (grown_get _ _ _ (G id ltac:(auto))). auto.
    - apply shows_element in S. destruct S as (Di & (at_ & E1 & E2) & E3 & E4 & E5 & E6 & E7).
      pose proof (G _ Di) as (A & B & C & L & _).
      apply (sh_element _ _ _ _ _ at_); auto.
      + unfold b_get in *. rewrite A, B. auto.
      + rewrite L. clear -E3 Hh. induction E3 as [|x y l l' [X Y] F IH]; constructor; auto.
      + eapply Forall_impl; [|exact E4]. cbn. intros e X Y. destruct (X Y) as (cb & I & J). exists cb. auto.
      + rewrite C. auto.
      + rewrite C. rewrite Forall_forall in *. intros x I. destruct (G x) as (_ & _ & _ & _ & Q); auto.
        assert (exists w, shows s h D x w) as [w W].
        { clear -E7 I. induction E7 as [|y w l l' X F IH]; destruct I; subst; eauto. }
        inversion W; auto.
      + rewrite C. clear -E7 IH G Hh Hd. induction E7; constructor; inversion IH; subst; auto.
  Qed.
  Lemma shows_mono s h (D D' : N -> Prop) (w : wnode H) : forall id, shows s h D id w -> (forall x, D x -> D' x) -> shows s h D' id w.
  Proof.
    induction w as [t|t|n a st u ev kids IH] using wnode_ind2; intros id S G.
    1,2: inversion S; subst; constructor; auto.
    apply shows_element in S. destruct S as (Di & (at_ & E1 & E2) & E3 & E4 & E5 & E6 & E7).
    apply (sh_element _ _ _ _ _ at_); auto. clear -E7 IH G. induction E7; constructor; inversion IH; subst; auto.
  Qed.
  Lemma shows_all_mono s h (D D' : N -> Prop) l (ws : list (wnode H)) : Forall2 (shows s h D) l ws -> (forall x, D x -> D' x) -> Forall2 (shows s h D') l ws.
  Proof. intros F G. induction F; constructor; auto. eapply shows_mono; eauto. Qed.
  Lemma shows_all_frame s s' h h' D l (ws : list (wnode H)) : Forall2 (shows s h D) l ws ->
    (forall x, D x -> grown s s' x) -> (forall cb y, h cb = Some y -> h' cb = Some y) -> incl (b_listen s None) (b_listen s' None) ->
    Forall2 (shows s' h' D) l ws.
  Proof. intros F G Hh Hd. induction F; constructor; auto. eapply shows_frame; eauto. Qed.
  Lemma shows_in s h D id (w : wnode H) : shows s h D id w -> D id.
  Proof. intros S. inversion S; auto. Qed.
  Lemma shows_get s h D id (w : wnode H) : shows s h D id w -> b_get s id <> None.
  Proof. intros S. inversion S; congruence. Qed.

  (** *** Putting nodes somewhere *)
  Definition inr (lo hi x : N) : Prop := lo <= x /\ x < hi.
  (** A place for nodes: an element, its children. *)
  Record site (w : bworld H) (s : bdom) (P : N) (l : list N) : Prop := {
    t_elem : exists n a, b_get s P = Some (BElement n a);
    t_up : forall y, under s P y -> y < w_next w;
    t_kids : b_kids s P = l;
    t_nodup : NoDup l;
    t_in : forall x, In x l -> x < w_next w /\ b_par s x = Some P /\ b_get s x <> None
  }.
  (** It has nothing to do with certain nodes. *)
  Definition clear (s : bdom) (P : N) (l : list N) (lo hi : N) : Prop :=
    (forall y, under s P y -> ~ inr lo hi y) /\ (forall x, In x l -> ~ inr lo hi x).
  Definition before (ref : option N) (tl : list N) : Prop := match ref with None => tl = [] | Some r => exists t, tl = r :: t end.

  Lemma put_before_split a r t c : ~ In r a -> put_before (a ++ r :: t) r c = a ++ c :: r :: t.
  Proof.
    induction a as [|x a IH]; cbn; intros I.
    - rewrite N.eqb_refl. reflexivity.
    - destruct (N.eqb_spec x r); [exfalso; auto|]. rewrite IH; auto.
  Qed.

  Lemma insert_step w s P a tl ref c : site w s P (a ++ tl) -> before ref tl -> b_get s c <> None -> b_par s c = None -> ~ under s P c ->
    exists s', bstep s (InsertBefore P c ref) = Some s' /\ legal s (InsertBefore P c ref) /\
      (forall x, b_node s' x = b_node s x) /\ (forall x, b_reg s' x = b_reg s x) /\ (forall x, b_listen s' x = b_listen s x) /\
      (forall x, b_cbs s' x = b_cbs s x) /\
      (forall x, b_kids s' x = if (x =? P) then a ++ c :: tl else b_kids s x) /\
      (forall x, b_par s' x = if (x =? c) then Some P else b_par s x).
  Proof.
    intros T B G Pn U. destruct (t_elem _ _ _ _ T) as (n & at_ & E).
    destruct (b_get s c) as [cn|] eqn:Ec; [|congruence].
    assert (Pl : forall f, f (a ++ tl) = a ++ c :: tl -> exists s', Some (place s P c f) = Some s' /\
      (forall x, b_node s' x = b_node s x) /\ (forall x, b_reg s' x = b_reg s x) /\ (forall x, b_listen s' x = b_listen s x) /\
      (forall x, b_cbs s' x = b_cbs s x) /\
      (forall x, b_kids s' x = if (x =? P) then a ++ c :: tl else b_kids s x) /\
      (forall x, b_par s' x = if (x =? c) then Some P else b_par s x)).
    { intros f F. eexists. split; [reflexivity|]. unfold place, detach. rewrite Pn. cbn. unfold nupd. rewrite (t_kids _ _ _ _ T), F. repeat split. }
    cbn. unfold b_insert. rewrite E, Ec. destruct ref as [r|]; cbn in B.
    - destruct B as [t ->].
      assert (I : In r (a ++ r :: t)) by (apply in_or_app; right; left; reflexivity).
      destruct (t_in _ _ _ _ T r I) as (R1 & R2 & R3). destruct (b_get s r); [|congruence]. rewrite R2, N.eqb_refl.
      destruct (N.eqb_spec r c) as [->|Nc]; [congruence|].
      destruct (Pl (fun l => put_before l r c)) as (s' & S & Rest).
      + apply put_before_split. pose proof (NoDup_remove_2 _ _ _ (t_nodup _ _ _ _ T)) as X. intros Y. apply X. apply in_or_app. auto.
      + exists s'. split; auto.
    - subst tl. destruct (Pl (fun l => l ++ [c])) as (s' & S & Rest).
      + rewrite app_nil_r. reflexivity.
      + exists s'. split; auto.
  Qed.

  Lemma under_keep (s s' : bdom) P : (forall y, under s P y -> b_par s' y = b_par s y) -> forall y, under s' P y -> under s P y.
  Proof.
    intros K y U. assert (G : forall z, under s P z -> under s' z y -> under s P y).
    { intros z A B. induction B as [x|x p y E B IH]; auto. apply IH; auto. rewrite (K _ A) in E.
      clear -A E. induction A; [eapply under_step; eauto; constructor|]. eapply under_step; eauto. }
    apply (G P); auto. constructor.
  Qed.

  (** What mounting a node does: its nodes come, in order, to where they are put; the last of them is its own. *)
  Record mounted (w1 : bworld H) (s1 : bdom) (lo hi P : N) (a tl : list N) (id : N) (ws : list (wnode H)) (w2 : bworld H) (s2 : bdom)
    (ids : list N) : Prop := {
    m_inv : Inv w2 s2;
    m_next : w_next w1 <= w_next w2;
    m_later : later w1 s1 w2 s2;
    m_same : forall x, x < w_next w1 -> x <> P -> ~ inr lo hi x -> same s1 s2 x;
    m_P : b_node s2 P = b_node s1 P /\ b_reg s2 P = b_reg s1 P /\ b_par s2 P = b_par s1 P /\ b_listen s2 (Some P) = b_listen s1 (Some P);
    m_kids : b_kids s2 P = a ++ ids ++ tl;
    m_nodup : NoDup (a ++ ids ++ tl);
    m_own : exists pre, ids = pre ++ [id];
    m_D : forall x, In x ids -> inr lo hi x \/ inr (w_next w1) (w_next w2) x;
    m_par : forall x, In x ids -> b_par s2 x = Some P;
    m_shows : Forall2 (shows s2 (w_hand w2) (fun x => inr lo hi x \/ inr (w_next w1) (w_next w2) x)) ids ws
  }.
  Definition mountable (w : bworld H) (s : bdom) (lo hi : N) (d : dnode H) (ws : list (wnode H)) : Prop :=
    lo <= fst d /\ fst d < hi /\
    forall w1 s1 P a tl ref, Inv w1 s1 -> later w s w1 s1 -> hi <= w_next w1 -> (forall x, inr lo hi x -> same s s1 x) ->
      site w1 s1 P (a ++ tl) -> clear s1 P (a ++ tl) lo hi -> before ref tl ->
      exists s2 ids, mounted w1 s1 lo hi P a tl (fst d) ws (snd d P ref w1) s2 ids.

  Lemma mountable_later w s w' s' lo hi d ws : mountable w s lo hi d ws -> later w s w' s' -> (forall x, inr lo hi x -> same s s' x) ->
    mountable w' s' lo hi d ws.
  Proof.
    intros (A & B & M) L S. split; [|split]; auto. intros w1 s1 P a tl ref I L1 Hi S1 T C Bf.
    apply M; auto. eapply later_trans; eauto. intros x X. eapply same_trans; eauto.
  Qed.

  Lemma NoDup_mid (a ids tl : list N) : NoDup (a ++ tl) -> NoDup ids -> (forall x, In x ids -> ~ In x (a ++ tl)) -> NoDup (a ++ ids ++ tl).
  Proof.
    intros N1 N2 D. induction a as [|x a IH]; cbn in *.
    - revert D N2. induction ids as [|y ids IH]; cbn; auto. intros D N2. inversion N2 as [|? ? Q1 Q2]; subst. constructor.
      + intros I. apply in_app_or in I. destruct I as [I|I]; [contradiction|]. exact (D y (or_introl eq_refl) I).
      + apply IH; auto.
    - inversion N1 as [|? ? Q1 Q2]; subst. constructor.
      + intros I. apply in_app_or in I. destruct I as [I|I]; [apply Q1; apply in_or_app; auto|].
        apply in_app_or in I. destruct I as [I|I]; [exact (D x I (or_introl eq_refl))|apply Q1; apply in_or_app; auto].
      + apply IH; auto. intros y I J. apply (D y); auto.
  Qed.

  (** The first command of a mount. *)
  Lemma insert_ok w1 s1 P a tl ref c lo hi : Inv w1 s1 -> site w1 s1 P (a ++ tl) -> clear s1 P (a ++ tl) lo hi -> before ref tl ->
    inr lo hi c -> hi <= w_next w1 -> b_get s1 c <> None -> b_par s1 c = None ->
    exists s2, Inv (emit w1 (InsertBefore P c ref)) s2 /\
      (forall x, b_listen s2 x = b_listen s1 x) /\ (forall x, b_node s2 x = b_node s1 x) /\ (forall x, b_reg s2 x = b_reg s1 x) /\
      (forall x, b_kids s2 x = if (x =? P) then a ++ c :: tl else b_kids s1 x) /\
      (forall x, b_par s2 x = if (x =? c) then Some P else b_par s1 x) /\
      site (emit w1 (InsertBefore P c ref)) s2 P (a ++ c :: tl) /\
      (forall y, under s2 P y -> under s1 P y).
  Proof.
    intros I T [C1 C2] B Rc Hi G Pn.
    assert (U : ~ under s1 P c) by (intros U; apply (C1 _ U); auto).
    destruct (insert_step _ _ _ _ _ _ _ T B G Pn U) as (s2 & S & L & E1 & E2 & E3 & E4 & E5 & E6).
    exists s2.
    assert (Nc : c <> P) by (intros ->; apply U; constructor).
    assert (Uk : forall y, under s2 P y -> under s1 P y).
    { apply under_keep. intros y Uy. rewrite E6. destruct (N.eqb_spec y c) as [->|]; auto. contradiction. }
    split; [|repeat split; auto].
    - constructor; cbn.
      + eapply brep_snoc; eauto. apply (i_run _ _ I).
      + intros x X. destruct (i_abs _ _ I x X) as (A1 & A2 & A3 & A4 & A5). unfold absent. rewrite E1, E2, E3, E5, E6.
        assert (x <> c) by (destruct Rc; lia). assert (x <> P) by (intros ->; pose proof (t_up _ _ _ _ T P (under_refl _ _)); lia).
        destruct (N.eqb_spec x P); [contradiction|]. destruct (N.eqb_spec x c); [contradiction|]. auto.
      + apply (i_next _ _ I).
      + intros cb X. rewrite E4. apply (i_cb _ _ I cb X).
    - destruct (t_elem _ _ _ _ T) as (n & at_ & E). exists n, at_. unfold b_get in *. rewrite E1, E2. auto.
    - intros y Uy. apply (t_up _ _ _ _ T). auto.
    - rewrite E5, N.eqb_refl. reflexivity.
    - apply (NoDup_mid a [c] tl). apply (t_nodup _ _ _ _ T). constructor; auto. constructor. intros x [<-|[]] J. apply (C2 _ J). auto.
    - apply in_app_or in H0. cbn in H0. cbn. destruct H0 as [J|[<-|J]]; [|destruct Rc; lia|];
        apply (t_in _ _ _ _ T); apply in_or_app; auto.
    - rewrite E6. destruct (N.eqb_spec x c); auto. apply in_app_or in H0. cbn in H0. destruct H0 as [J|[J|J]]; [|congruence|];
        apply (t_in _ _ _ _ T); apply in_or_app; auto.
    - unfold b_get. rewrite E1, E2. fold (b_get s1 x). apply in_app_or in H0. cbn in H0. destruct H0 as [J|[<-|J]]; auto;
        apply (t_in _ _ _ _ T); apply in_or_app; auto.
  Qed.

  (** A node that is not reactive. *)
  Lemma plain_mountable w s lo hi id wn : inr lo hi id -> shows s (w_hand w) (inr lo hi) id wn -> b_par s id = None ->
    mountable w s lo hi (id, plain_mount id) [wn].
  Proof.
    intros R S Pn. split; [apply R|split; [apply R|]]. cbn. intros w1 s1 P a tl ref I L Hi Sm T C B.
    pose proof (Sm _ R) as Sid.
    destruct (insert_ok w1 s1 P a tl ref id lo hi I T C B R Hi) as (s2 & I2 & E3 & E1 & E2 & E5 & E6 & T2 & _).
    { rewrite (same_get _ _ _ Sid). eapply shows_get; eauto. }
    { destruct Sid as (_ & _ & _ & X & _). congruence. }
    assert (NP : ~ inr lo hi P) by (apply (proj1 C); apply under_refl).
    exists s2, [id]. constructor; auto; cbn.
    - lia.
    - split; auto. rewrite E3. intros x; auto.
    - intros x X NPx Rx. unfold same. rewrite E1, E2, E3, E5, E6. destruct (N.eqb_spec x P); [contradiction|].
      destruct (N.eqb_spec x id) as [->|]; [contradiction|]. auto.
    - rewrite E1, E2, E3, E6. destruct (N.eqb_spec P id) as [->|]; [contradiction|]. auto.
    - rewrite E5, N.eqb_refl. reflexivity.
    - apply (t_nodup _ _ _ _ T2).
    - exists []. reflexivity.
    - intros x [<-|[]]. auto.
    - intros x [<-|[]]. rewrite E6, N.eqb_refl. reflexivity.
    - constructor; auto. eapply shows_mono; [eapply shows_frame; [exact S| | |]|].
      + intros x X. destruct (Sm x X) as (A1 & A2 & A3 & A4 & A5). unfold grown. rewrite E1, E2, E3, E5, E6.
        destruct (N.eqb_spec x P) as [->|]; [contradiction|]. repeat split; auto. intros q Q.
        destruct (N.eqb_spec x id) as [->|]; congruence.
      + apply L.
      + rewrite E3. apply L.
      + cbn. auto.
  Qed.

  Lemma Forall2_in_l {A B} (R : A -> B -> Prop) l l' x : Forall2 R l l' -> In x l -> exists y, R x y /\ In y l'.
  Proof. intros F. induction F as [|a b l l' X F IH]; intros I; destruct I; subst. exists b; cbn; auto. destruct IH as (y & Y & Z); auto. exists y; cbn; auto. Qed.
  Lemma Forall2_len {A B} (R : A -> B -> Prop) l l' : Forall2 R l l' -> length l = length l'.
  Proof. intros F. induction F; cbn; congruence. Qed.

  Lemma mounted_up w1 s1 lo hi P a tl id ws w2 s2 ids : site w1 s1 P (a ++ tl) -> clear s1 P (a ++ tl) lo hi ->
    mounted w1 s1 lo hi P a tl id ws w2 s2 ids -> forall y, under s2 P y -> under s1 P y.
  Proof.
    intros T [C1 C2] M. apply under_keep. intros y U. destruct (N.eq_dec y P) as [->|N]. apply (m_P _ _ _ _ _ _ _ _ _ _ _ _ M).
    apply (m_same _ _ _ _ _ _ _ _ _ _ _ _ M); auto. apply (t_up _ _ _ _ T _ U).
  Qed.
  Lemma mounted_site w1 s1 lo hi P a tl id ws w2 s2 ids : site w1 s1 P (a ++ tl) -> clear s1 P (a ++ tl) lo hi -> hi <= w_next w1 ->
    mounted w1 s1 lo hi P a tl id ws w2 s2 ids -> site w2 s2 P (a ++ ids ++ tl).
  Proof.
    intros T C Hi M. pose proof (m_next _ _ _ _ _ _ _ _ _ _ _ _ M) as Nx. pose proof (m_P _ _ _ _ _ _ _ _ _ _ _ _ M) as (P1 & P2 & P3 & P4).
    constructor.
    - destruct (t_elem _ _ _ _ T) as (n & at_ & E). exists n, at_. unfold b_get in *. rewrite P1, P2. auto.
    - intros y U. pose proof (t_up _ _ _ _ T y (mounted_up _ _ _ _ _ _ _ _ _ _ _ _ T C M y U)). lia.
    - apply (m_kids _ _ _ _ _ _ _ _ _ _ _ _ M).
    - apply (m_nodup _ _ _ _ _ _ _ _ _ _ _ _ M).
    - intros x I. assert (J : In x (a ++ tl) \/ In x ids).
      { apply in_app_or in I. destruct I as [I|I]; [left; apply in_or_app; auto|]. apply in_app_or in I. destruct I; auto. left. apply in_or_app. auto. }
      destruct J as [J|J].
      + destruct (t_in _ _ _ _ T x J) as (A & B & G). split; [lia|]. destruct (N.eq_dec x P) as [->|N].
        * rewrite P3. split; auto. unfold b_get in *. rewrite P1, P2. auto.
        * pose proof (m_same _ _ _ _ _ _ _ _ _ _ _ _ M x A N (proj2 C x J)) as S. split. destruct S as (_ & _ & _ & X & _). congruence.
          rewrite (same_get _ _ _ S). auto.
      + split; [destruct (m_D _ _ _ _ _ _ _ _ _ _ _ _ M x J) as [[X Y]|[X Y]]; lia|]. split. apply (m_par _ _ _ _ _ _ _ _ _ _ _ _ M x J).
        destruct (Forall2_in_l _ _ _ _ (m_shows _ _ _ _ _ _ _ _ _ _ _ _ M) J) as (wn & S & _). eapply shows_get; eauto.
  Qed.

  (** *** A new node *)
  Lemma fresh_ok w s n c : Inv w s -> (forall t, b_step beq hook_name perm t (c (w_next w)) = b_create perm t (w_next w) n) ->
    (forall t, legal t (c (w_next w))) ->
    exists s', Inv (emit (next_id w) (c (w_next w))) s' /\ b_get s' (w_next w) = Some n /\ b_kids s' (w_next w) = [] /\
      b_par s' (w_next w) = None /\ b_listen s' (Some (w_next w)) = [] /\ (forall x, x <> w_next w -> same s s' x) /\
      b_listen s' None = b_listen s None.
  Proof.
    intros I St L. destruct (i_abs _ _ I (w_next w)) as (A1 & A2 & A3 & A4 & A5); [lia|]. pose proof (i_next _ _ I) as N4.
    assert (E : exists s', b_create perm s (w_next w) n = Some s' /\ (forall x, b_node s' x = (if (x =? w_next w) then Some n else b_node s x)) /\
      (forall x, b_reg s' x = if (x =? w_next w) then true else b_reg s x) /\ (forall x, b_kids s' x = b_kids s x) /\
      (forall x, b_par s' x = b_par s x) /\ (forall x, b_cbs s' x = b_cbs s x) /\ (forall x, b_listen s' x = b_listen s x)).
    { unfold b_create. assert (Pf : perm (w_next w) = false).
      { unfold perm. destruct (N.eqb_spec (w_next w) 1), (N.eqb_spec (w_next w) 2), (N.eqb_spec (w_next w) 3); cbn; lia || reflexivity. }
      rewrite Pf, A1. eexists. split; [reflexivity|]. repeat split. }
    destruct E as (s' & E & E1 & E2 & E3 & E4 & E5 & E6). exists s'. split; [|repeat split].
    - constructor; cbn.
      + eapply brep_snoc; [apply (i_run _ _ I)|apply L|]. rewrite St. auto.
      + intros x X. assert (w_next w <= x) as X' by lia. destruct (i_abs _ _ I x X') as (B1 & B2 & B3 & B4 & B5).
        unfold absent. rewrite E1, E2, E3, E4, E6. destruct (N.eqb_spec x (w_next w)); [lia|]. auto.
      + lia.
      + intros cb X. rewrite E5. apply (i_cb _ _ I cb X).
    - unfold b_get. rewrite E1, E2, N.eqb_refl. reflexivity.
    - rewrite E3. auto.
    - rewrite E4. auto.
    - rewrite E6. auto.
    - rewrite E1. destruct (N.eqb_spec x (w_next w)); congruence.
    - rewrite E2. destruct (N.eqb_spec x (w_next w)); congruence.
    - apply E3.
    - apply E4.
    - apply E6.
    - apply E6.
  Qed.

  (** *** An element and its calls *)
  Record making (w : bworld H) (s : bdom) (P lo : N) (name : bytes) (at_ : list (bytes * option bytes)) (st su : list bytes)
    (ev : list (bytes * H)) (kw : list (wnode H)) (k : cls) (D : N -> Prop) : Prop := {
    g_D : forall x, D x -> inr lo (w_next w) x;
    g_P : P < lo;
    g_lo : lo <= w_next w;
    g_up : forall y, under s P y -> y < lo;
    g_node : exists a, b_get s P = Some (BElement name a) /\ forall x, battr_get beq a x = wanted at_ st su x;
    g_k : k_attr k = last_given (str "class") at_ /\ k_css k = hd_error (rev st) /\ k_susp k = hd_error (rev su) /\
          k_last k = wanted at_ st su (str "class");
    g_listen : Forall2 (fun e ev => fst e = fst ev /\ w_hand w (snd e) = Some (snd ev)) (b_listen s (Some P))
                       (filter (fun ev => negb (beq (fst ev) hook_name)) ev);
    g_hooks : Forall (fun ev => beq (fst ev) hook_name = true -> exists cb, In (hook_name, cb) (b_listen s None) /\ w_hand w cb = Some (snd ev)) ev;
    g_nodup : NoDup (b_kids s P);
    g_par : Forall (fun x => b_par s x = Some P) (b_kids s P);
    g_shows : Forall2 (shows s (w_hand w) D) (b_kids s P) kw
  }.
  (** What a call changes: the element and what is new. *)
  Definition moved (w : bworld H) (s : bdom) (w' : bworld H) (s' : bdom) (P lo : N) : Prop :=
    w_next w <= w_next w' /\ later w s w' s' /\ (forall x, x < lo -> x <> P -> same s s' x) /\ b_par s' P = b_par s P /\ b_reg s' P = b_reg s P.
  Lemma moved_trans w s w1 s1 w2 s2 P lo : moved w s w1 s1 P lo -> moved w1 s1 w2 s2 P lo -> moved w s w2 s2 P lo.
  Proof.
    intros (A & B & C & D & E) (A' & B' & C' & D' & E'). split; [lia|]. split; [eapply later_trans; eauto|]. split; [|split; congruence].
    intros x X Y. eapply same_trans; eauto.
  Qed.

  Lemma making_in w s P lo name at_ st su ev kw k D : making w s P lo name at_ st su ev kw k D ->
    forall x, In x (b_kids s P) -> D x /\ inr lo (w_next w) x.
  Proof. intros G x I. destruct (Forall2_in_l _ _ _ _ (g_shows _ _ _ _ _ _ _ _ _ _ _ _ G) I) as (wn & S & _). pose proof (shows_in _ _ _ _ _ S) as X. split; auto. apply (g_D _ _ _ _ _ _ _ _ _ _ _ _ G). auto. Qed.
  Lemma making_site w s P lo name at_ st su ev kw k D : making w s P lo name at_ st su ev kw k D -> site w s P (b_kids s P ++ []).
  Proof.
    intros G. rewrite app_nil_r. constructor; auto.
    - destruct (g_node _ _ _ _ _ _ _ _ _ _ _ _ G) as (a & E & _). eauto.
    - intros y U. pose proof (g_up _ _ _ _ _ _ _ _ _ _ _ _ G y U). pose proof (g_lo _ _ _ _ _ _ _ _ _ _ _ _ G). lia.
    - apply (g_nodup _ _ _ _ _ _ _ _ _ _ _ _ G).
    - intros x I. destruct (making_in _ _ _ _ _ _ _ _ _ _ _ _ G x I) as [_ []]. split; auto. split.
      + pose proof (g_par _ _ _ _ _ _ _ _ _ _ _ _ G) as F. rewrite Forall_forall in F. auto.
      + destruct (Forall2_in_l _ _ _ _ (g_shows _ _ _ _ _ _ _ _ _ _ _ _ G) I) as (wn & S & _). eapply shows_get; eauto.
  Qed.

  Lemma making_later w s w1 s1 P lo name at_ st su ev kw k D : making w s P lo name at_ st su ev kw k D ->
    w_next w <= w_next w1 -> later w s w1 s1 -> (forall x, x < w_next w -> same s s1 x) -> making w1 s1 P lo name at_ st su ev kw k D.
  Proof.
    intros G Nx L S. pose proof (g_P _ _ _ _ _ _ _ _ _ _ _ _ G) as gP. pose proof (g_lo _ _ _ _ _ _ _ _ _ _ _ _ G) as glo.
    assert (SP : same s s1 P) by (apply S; lia). pose proof SP as (P1 & P2 & P3 & P4 & P5).
    destruct L as [L1 L2]. constructor; auto; try lia.
    - intros x X. destruct (g_D _ _ _ _ _ _ _ _ _ _ _ _ G x X). split; lia.
    - intros y U. apply (g_up _ _ _ _ _ _ _ _ _ _ _ _ G). revert y U. apply under_keep. intros y U.
      pose proof (g_up _ _ _ _ _ _ _ _ _ _ _ _ G y U). apply S. lia.
    - destruct (g_node _ _ _ _ _ _ _ _ _ _ _ _ G) as (a & E & F). exists a. rewrite (same_get _ _ _ SP). auto.
    - apply (g_k _ _ _ _ _ _ _ _ _ _ _ _ G).
    - rewrite P5. pose proof (g_listen _ _ _ _ _ _ _ _ _ _ _ _ G) as F. clear -F L1. induction F as [|x y l l' [X Y] F IH]; constructor; auto.
    - eapply Forall_impl; [|apply (g_hooks _ _ _ _ _ _ _ _ _ _ _ _ G)]. cbn. intros e X Y. destruct (X Y) as (cb & I & J). exists cb. auto.
    - rewrite P3. apply (g_nodup _ _ _ _ _ _ _ _ _ _ _ _ G).
    - rewrite P3. pose proof (g_par _ _ _ _ _ _ _ _ _ _ _ _ G) as F. rewrite Forall_forall in *. intros x I.
      destruct (making_in _ _ _ _ _ _ _ _ _ _ _ _ G x I) as [_ [_ X]]. destruct (S x X) as (_ & _ & _ & Y & _). rewrite Y. auto.
    - rewrite P3. pose proof (g_shows _ _ _ _ _ _ _ _ _ _ _ _ G) as F.
      assert (Sh : forall x wn, shows s (w_hand w) D x wn -> shows s1 (w_hand w1) D x wn).
      { intros x wn Q. eapply shows_frame; [exact Q| | |]; auto.
        intros y Y. apply same_grown. apply S. apply (g_D _ _ _ _ _ _ _ _ _ _ _ _ G). auto. }
      clear -F Sh. induction F; constructor; auto.
  Qed.

  (** The element gets a child. *)
  Lemma child_ok w s P lo name at_ st su ev kw k D d ws lo' hi' : Inv w s -> making w s P lo name at_ st su ev kw k D ->
    mountable w s lo' hi' d ws -> lo <= lo' -> hi' <= w_next w -> (forall x, D x -> ~ inr lo' hi' x) ->
    exists s', let w' := snd d P None w in Inv w' s' /\
      making w' s' P lo name at_ st su ev (kw ++ ws) k (fun x => D x \/ inr lo' hi' x \/ inr (w_next w) (w_next w') x) /\ moved w s w' s' P lo /\
      (forall x, x < w_next w -> x <> P -> ~ inr lo' hi' x -> same s s' x).
  Proof.
    intros I G (_ & _ & M) Lo Hi Nk.
    pose proof (g_P _ _ _ _ _ _ _ _ _ _ _ _ G) as gP. pose proof (g_lo _ _ _ _ _ _ _ _ _ _ _ _ G) as glo. pose proof (g_D _ _ _ _ _ _ _ _ _ _ _ _ G) as gD.
    assert (T : site w s P (b_kids s P ++ [])) by (eapply making_site; eauto).
    assert (C : clear s P (b_kids s P ++ []) lo' hi').
    { split. intros y U [A B]. pose proof (g_up _ _ _ _ _ _ _ _ _ _ _ _ G y U). lia. rewrite app_nil_r.
      intros x J. apply Nk. apply (making_in _ _ _ _ _ _ _ _ _ _ _ _ G x J). }
    destruct (M w s P (b_kids s P) [] None I (later_refl _ _) Hi (fun x _ => same_refl s x) T C eq_refl) as (s' & ids & Q).
    pose proof (mounted_up _ _ _ _ _ _ _ _ _ _ _ _ T C Q) as Up.
    destruct Q as [q1 q2 q3 q4 q5 q6 q7 q8 q9 q10 q11]. rewrite app_nil_r in q6, q7.
    destruct q5 as (P1 & P2 & P3 & P4). destruct q3 as [L1 L2].
    exists s'. cbn. split; [exact q1|]. split; [|split; auto].
    - constructor; auto; try lia.
      + intros x [X|[[X Y]|[X Y]]]; [destruct (gD x X)| |]; split; lia.
      + intros y U. apply (g_up _ _ _ _ _ _ _ _ _ _ _ _ G). auto.
      + destruct (g_node _ _ _ _ _ _ _ _ _ _ _ _ G) as (a & E & F). exists a. split; auto. unfold b_get in *. rewrite P1, P2. auto.
      + apply (g_k _ _ _ _ _ _ _ _ _ _ _ _ G).
      + rewrite P4. pose proof (g_listen _ _ _ _ _ _ _ _ _ _ _ _ G) as F. clear -F L1. induction F as [|x y l l' [X Y] F IH]; constructor; auto.
      + eapply Forall_impl; [|apply (g_hooks _ _ _ _ _ _ _ _ _ _ _ _ G)]. cbn. intros e X Y. destruct (X Y) as (cb & J & K). exists cb. auto.
      + rewrite q6. auto.
      + rewrite q6. apply Forall_app. split; [|apply Forall_forall; auto].
        pose proof (g_par _ _ _ _ _ _ _ _ _ _ _ _ G) as F. rewrite Forall_forall in *. intros x J.
        destruct (making_in _ _ _ _ _ _ _ _ _ _ _ _ G x J) as [Dx [X Y]]. destruct (q4 x Y) as (_ & _ & _ & Z & _); [lia|auto|]. rewrite Z. auto.
      + rewrite q6. apply Forall2_app.
        * pose proof (g_shows _ _ _ _ _ _ _ _ _ _ _ _ G) as F.
          assert (Sh : forall x wn, shows s (w_hand w) D x wn ->
            shows s' (w_hand (snd d P None w)) (fun x => D x \/ inr lo' hi' x \/ inr (w_next w) (w_next (snd d P None w)) x) x wn).
          { intros x wn Q. eapply shows_mono; [eapply shows_frame; [exact Q| | |]|]; auto. intros y Y. apply same_grown.
            destruct (gD y Y). apply q4; auto. lia. }
          clear -F Sh. induction F; constructor; auto.
        * clear -q11. induction q11; constructor; auto. eapply shows_mono; [exact H0|]. cbn. tauto.
    - split; [exact q2|]. split; [split; auto|]. split; [|auto]. intros x X Y. apply q4; auto; [lia|]. intros [A B]. lia.
  Qed.

  (** A command that changes the attributes of the element. *)
  Lemma attr_ok w s P lo name at_ st su ev kw k D c a a' at' st' su' k' : Inv w s -> making w s P lo name at_ st su ev kw k D ->
    b_get s P = Some (BElement name a) ->
    b_step beq hook_name perm s c = Some (set_node s P (BElement name a')) -> legal s c ->
    (forall x, battr_get beq a' x = wanted at' st' su' x) ->
    (k_attr k' = last_given (str "class") at' /\ k_css k' = hd_error (rev st') /\ k_susp k' = hd_error (rev su') /\
     k_last k' = wanted at' st' su' (str "class")) ->
    exists s', Inv (emit w c) s' /\ making (emit w c) s' P lo name at' st' su' ev kw k' D /\ moved w s (emit w c) s' P lo.
  Proof.
    intros I G E St L Wa Wk. exists (set_node s P (BElement name a')).
    pose proof (g_P _ _ _ _ _ _ _ _ _ _ _ _ G) as gP. pose proof (g_lo _ _ _ _ _ _ _ _ _ _ _ _ G) as glo. pose proof (g_D _ _ _ _ _ _ _ _ _ _ _ _ G) as gD.
    assert (Rg : b_reg s P = true) by (unfold b_get in E; destruct (b_reg s P); congruence).
    assert (Sm : forall x, x <> P -> same s (set_node s P (BElement name a')) x).
    { intros x X. unfold same. cbn. unfold nupd. destruct (N.eqb_spec x P); [contradiction|]. auto. }
    split; [|split].
    - constructor; cbn.
      + eapply brep_snoc; eauto. apply (i_run _ _ I).
      + intros x X. unfold absent. cbn. unfold nupd. destruct (N.eqb_spec x P); [lia|]. apply (i_abs _ _ I x X).
      + apply (i_next _ _ I).
      + apply (i_cb _ _ I).
    - constructor; auto; cbn.
      + intros y U. apply (g_up _ _ _ _ _ _ _ _ _ _ _ _ G). revert y U. apply under_keep. intros y U. reflexivity.
      + exists a'. split; auto. unfold b_get. cbn. unfold nupd. rewrite Rg, N.eqb_refl. reflexivity.
      + apply (g_listen _ _ _ _ _ _ _ _ _ _ _ _ G).
      + apply (g_hooks _ _ _ _ _ _ _ _ _ _ _ _ G).
      + apply (g_nodup _ _ _ _ _ _ _ _ _ _ _ _ G).
      + apply (g_par _ _ _ _ _ _ _ _ _ _ _ _ G).
      + pose proof (g_shows _ _ _ _ _ _ _ _ _ _ _ _ G) as F.
        assert (Sh : forall x wn, shows s (w_hand w) D x wn -> shows (set_node s P (BElement name a')) (w_hand w) D x wn).
        { intros x wn Q. eapply shows_frame; [exact Q| | |]; auto. intros y Y. apply same_grown. apply Sm. destruct (gD y Y). lia. cbn. intros y; auto. }
        clear -F Sh. induction F; constructor; auto.
    - split; [cbn; lia|]. split; [split; auto; intros y; auto|]. split; auto.
  Qed.

  (** The class is brought up to date. *)
  Lemma refresh_ok w s P lo name at_ st su ev kw k D at' st' su' k' : Inv w s -> making w s P lo name at_ st su ev kw k D ->
    k_attr k' = last_given (str "class") at' -> k_css k' = hd_error (rev st') -> k_susp k' = hd_error (rev su') -> k_last k' = k_last k ->
    (forall x, x <> str "class" -> wanted at' st' su' x = wanted at_ st su x) ->
    (get_new_command k' = None -> k_last k = None) ->
    exists s', let r := refresh_dom P k' w in Inv (snd r) s' /\ making (snd r) s' P lo name at' st' su' ev kw (fst r) D /\
      moved w s (snd r) s' P lo.
  Proof.
    intros I G K1 K2 K3 K4 Wo Wn.
    assert (Nw : get_new_command k' = wanted at' st' su' (str "class")).
    { rewrite words_join. unfold wanted. rewrite K1, K2, K3. replace (beq (str "class") (str "class")) with true by reflexivity. reflexivity. }
    destruct (g_node _ _ _ _ _ _ _ _ _ _ _ _ G) as (a & E & F). destruct (g_k _ _ _ _ _ _ _ _ _ _ _ _ G) as (Q1 & Q2 & Q3 & Q4).
    unfold refresh_dom. rewrite K4. destruct (obeq (k_last k) (get_new_command k')) eqn:Ob.
    - apply obeq_true in Ob. exists s. cbn. split; auto. split; [|repeat split; auto; try lia; intros y; auto].
      destruct G. constructor; auto.
      + exists a. split; auto. intros x. rewrite F. destruct (beq x (str "class")) eqn:B.
        * apply beq_true in B. subst x. congruence.
        * symmetry. apply Wo. intros ->. discriminate.
      + repeat split; auto. congruence.
    - destruct (get_new_command k') as [v|] eqn:Gn.
      + apply (attr_ok w s P lo name at_ st su ev kw k D _ a (battr_set beq a (str "class") v)); auto.
        * cbn. rewrite E. reflexivity.
        * exact Logic.I.
        * intros x. rewrite battr_get_set. destruct (beq x (str "class")) eqn:B.
          -- apply beq_true in B. subst x. auto.
          -- rewrite F. symmetry. apply Wo. intros ->. discriminate.
      + rewrite (Wn eq_refl) in Ob. discriminate.
  Qed.

  (** A listener. *)
  Lemma listener_ok w s P lo name at_ st su ev kw k D e h : Inv w s -> making w s P lo name at_ st su ev kw k D ->
    exists s', let w' := add_event_listener P e h w in Inv w' s' /\ making w' s' P lo name at_ st su (ev ++ [(e, h)]) kw k D /\
      moved w s w' s' P lo.
  Proof.
    intros I G.
    pose proof (g_P _ _ _ _ _ _ _ _ _ _ _ _ G) as gP. pose proof (g_lo _ _ _ _ _ _ _ _ _ _ _ _ G) as glo. pose proof (g_D _ _ _ _ _ _ _ _ _ _ _ _ G) as gD.
    destruct (g_node _ _ _ _ _ _ _ _ _ _ _ _ G) as (a & E & F).
    destruct (i_cb _ _ I (w_cb w)) as [C1 C2]; [lia|].
    set (w' := add_event_listener P e h w).
    assert (X : exists s', b_step beq hook_name perm s (CallbackAdd P e (w_cb w)) = Some s' /\ (forall x, b_node s' x = b_node s x) /\
      (forall x, b_reg s' x = b_reg s x) /\ (forall x, b_kids s' x = b_kids s x) /\ (forall x, b_par s' x = b_par s x) /\
      (forall x, b_cbs s' x = if (x =? w_cb w) then true else b_cbs s x) /\
      b_listen s' (Some P) = b_listen s (Some P) ++ (if beq e hook_name then [] else [(e, w_cb w)]) /\
      (forall x, x <> P -> b_listen s' (Some x) = b_listen s (Some x)) /\
      b_listen s' None = b_listen s None ++ (if beq e hook_name then [(e, w_cb w)] else [])).
    { unfold b_step, b_callback_add. rewrite C1. destruct (beq e hook_name) eqn:B.
      - eexists. split; [reflexivity|]. cbn. rewrite !app_nil_r. repeat split.
      - unfold b_get in *. cbn. destruct (b_reg s P); [|discriminate]. rewrite E. eexists. split; [reflexivity|]. cbn.
        rewrite !app_nil_r, N.eqb_refl. repeat split. intros x X. destruct (N.eqb_spec x P); [contradiction|reflexivity]. }
    destruct X as (s' & S & E1 & E2 & E3 & E4 & E5 & E6 & E7 & E8). exists s'. cbn zeta.
    assert (Hg : forall cb y, w_hand w cb = Some y -> w_hand w' cb = Some y).
    { intros cb y Y. unfold w'. cbn. unfold nupd. destruct (N.eqb_spec cb (w_cb w)); congruence. }
    assert (Hn : w_hand w' (w_cb w) = Some h) by (unfold w'; cbn; unfold nupd; rewrite N.eqb_refl; reflexivity).
    assert (Lg : incl (b_listen s None) (b_listen s' None)) by (rewrite E8; intros y Y; apply in_or_app; auto).
    split; [|split].
    - constructor.
      + unfold w'. cbn. eapply brep_snoc; eauto. apply (i_run _ _ I). exact Logic.I.
      + cbn. intros x X. unfold absent. rewrite E1, E2, E3, E4, E7 by lia. apply (i_abs _ _ I x X).
      + apply (i_next _ _ I).
      + unfold w'. cbn. intros cb X. rewrite E5. unfold nupd. destruct (N.eqb_spec cb (w_cb w)); [lia|]. apply (i_cb _ _ I). lia.
    - constructor; auto.
      + intros y U. apply (g_up _ _ _ _ _ _ _ _ _ _ _ _ G). revert y U. apply under_keep. auto.
      + exists a. split; auto. unfold b_get in *. rewrite E1, E2. auto.
      + apply (g_k _ _ _ _ _ _ _ _ _ _ _ _ G).
      + rewrite E6, filter_app. apply Forall2_app.
        * pose proof (g_listen _ _ _ _ _ _ _ _ _ _ _ _ G) as Q. clear -Q Hg. induction Q as [|x y l l' [X Y] Q IH]; constructor; auto.
        * cbn [filter fst]. destruct (beq e hook_name); cbn [negb]; constructor; auto.
      + apply Forall_app. split.
        * eapply Forall_impl; [|apply (g_hooks _ _ _ _ _ _ _ _ _ _ _ _ G)]. cbv beta. intros e0 X Y. destruct (X Y) as (cb & J & K). exists cb. auto.
        * constructor; auto. cbv beta; cbn [fst snd]. intros B. exists (w_cb w). rewrite E8, B. split; auto. apply in_or_app. right. left. apply beq_true in B. congruence.
      + rewrite E3. apply (g_nodup _ _ _ _ _ _ _ _ _ _ _ _ G).
      + rewrite E3. eapply Forall_impl; [|apply (g_par _ _ _ _ _ _ _ _ _ _ _ _ G)]. cbn. intros x. rewrite E4. auto.
      + rewrite E3. pose proof (g_shows _ _ _ _ _ _ _ _ _ _ _ _ G) as Q.
        assert (Sh : forall x wn, shows s (w_hand w) D x wn -> shows s' (w_hand w') D x wn).
        { intros x wn Z. eapply shows_frame; [exact Z| | |]; auto. intros y Y. destruct (gD y Y). unfold grown. rewrite E1, E2, E3, E4, E7 by lia. auto. }
        clear -Q Sh. induction Q; constructor; auto.
    - split; [cbn; lia|]. split; [split; auto|]. split; [|auto]. intros x X Y. unfold same. rewrite E1, E2, E3, E4, E7; auto.
  Qed.

  (** *** Several nodes that are not yet mounted *)
  Inductive ready (w : bworld H) (s : bdom) : N -> list (dnode H) -> list (prog H) -> N -> Prop :=
  | r_nil lo : ready w s lo [] [] lo
  | r_cons lo mid hi d p ds ps : mountable w s lo mid d (shown p) -> ready w s mid ds ps hi -> ready w s lo (d :: ds) (p :: ps) hi.
  Lemma ready_le w s lo ds ps hi : ready w s lo ds ps hi -> lo <= hi.
  Proof. intros R. induction R as [|lo mid hi d p ds ps (A & B & _) R IH]; lia. Qed.
  Lemma ready_later w s w' s' lo ds ps hi : ready w s lo ds ps hi -> later w s w' s' -> (forall x, inr lo hi x -> same s s' x) -> ready w' s' lo ds ps hi.
  Proof.
    intros R L. induction R as [|lo mid hi d p ds ps M R IH]; intros S; [constructor|].
    pose proof (ready_le _ _ _ _ _ _ R) as Le. destruct M as (A & B & M).
    econstructor.
    - eapply mountable_later; [split; [exact A|split; [exact B|exact M]]|auto|]. intros x [X Y]. apply S. split; lia.
    - apply IH. intros x [X Y]. apply S. split; lia.
  Qed.

  Definition built (p : prog H) (w : bworld H) (s : bdom) (r : dnode H * bworld H) : Prop :=
    exists s', Inv (snd r) s' /\ w_next w <= w_next (snd r) /\ later w s (snd r) s' /\ (forall x, x < w_next w -> same s s' x) /\
      mountable (snd r) s' (w_next w) (w_next (snd r)) (fst r) (shown p).
  Definition good (p : prog H) : Prop := forall w s, Inv w s -> built p w s (exec p w).

  Lemma exec_all_ok ps : Forall good ps -> forall w s, Inv w s ->
    exists s', let r := exec_all ps w in Inv (snd r) s' /\ w_next w <= w_next (snd r) /\ later w s (snd r) s' /\ (forall x, x < w_next w -> same s s' x) /\
      ready (snd r) s' (w_next w) (fst r) ps (w_next (snd r)).
  Proof.
    induction ps as [|p ps IH]; intros F w s I.
    - exists s. cbn. split; auto. split; [lia|]. split; [apply later_refl|]. split; [intros; apply same_refl|constructor].
    - inversion F as [|? ? F1 F2]; subst. destruct (F1 w s I) as (s1 & I1 & N1 & L1 & S1 & M1). cbn. destruct (exec p w) as [d w1]. cbn in *.
      destruct (IH F2 w1 s1 I1) as (s2 & I2 & N2 & L2 & S2 & R2). destruct (exec_all ps w1) as [ds w2]. cbn in *.
      exists s2. split; auto. split; [lia|]. split; [eapply later_trans; eauto|]. split.
      + intros x X. eapply same_trans; [apply S1; auto|apply S2; lia].
      + econstructor; [|exact R2]. eapply mountable_later; eauto. intros x [X Y]. apply S2. auto.
  Qed.

  (** All of them become children of an element. *)
  Lemma children_ok P lo name at_ st su ev k : forall ds ps lo' hi' w s kw D, Inv w s -> making w s P lo name at_ st su ev kw k D ->
    ready w s lo' ds ps hi' -> lo <= lo' -> hi' <= w_next w -> (forall x, D x -> ~ inr lo' hi' x) ->
    exists s' D', let w' := fold_left (fun w d => snd d P None w) ds w in Inv w' s' /\
      making w' s' P lo name at_ st su ev (kw ++ flat_map shown ps) k D' /\ moved w s w' s' P lo.
  Proof.
    induction ds as [|d ds IH]; intros ps lo' hi' w s kw D I G R Lo Hi Dj; inversion R as [|? mid ? ? p ? ps' M R']; subst; cbn.
    - exists s, D. rewrite app_nil_r. split; auto. split; auto. split; [lia|]. split; [apply later_refl|]. split; auto. intros; apply same_refl.
    - pose proof (ready_le _ _ _ _ _ _ R') as Le. pose proof M as (M1 & M2 & _).
      pose proof (g_P _ _ _ _ _ _ _ _ _ _ _ _ G) as gP.
      destruct (child_ok w s P lo name at_ st su ev kw k D d (shown p) lo' mid I G M Lo) as (s1 & I1 & G1 & Mv & Sm).
      + lia.
      + intros x X [Y Z]. apply (Dj x X). split; lia.
      + destruct Mv as (Nx & Lt & Sl & Pr & Rg).
        destruct (IH ps' mid hi' (snd d P None w) s1 _ _ I1 G1) as (s2 & D2 & I2 & G2 & Mv2).
        * eapply ready_later; eauto. intros x [X Y]. apply Sm; try lia. intros [A B]. lia.
        * lia.
        * lia.
        * intros x [X|[[X Y]|[X Y]]] [A B]; try lia. apply (Dj x X). split; lia.
        * exists s2, D2. split; auto. rewrite <- app_assoc in G2. split; auto. eapply moved_trans; [|exact Mv2]. repeat split; auto; apply Lt || apply Sl; auto.
  Qed.

  Lemma making_D w s P lo name at_ st su ev kw k (D D' : N -> Prop) : making w s P lo name at_ st su ev kw k D -> (forall x, D x -> D' x) ->
    (forall x, D' x -> inr lo (w_next w) x) -> making w s P lo name at_ st su ev kw k D'.
  Proof.
    intros G A B. destruct G. constructor; auto. clear -g_shows0 A. induction g_shows0; constructor; auto. eapply shows_mono; eauto.
  Qed.
  Lemma class_once_app (a b : list (bytes * option bytes)) : class_once (a ++ b) -> class_once a.
  Proof. unfold class_once. rewrite filter_app, app_length. lia. Qed.
  Lemma class_once_new (a : list (bytes * option bytes)) v : class_once (a ++ [(str "class", v)]) -> last_given (str "class") a = None.
  Proof.
    unfold class_once, last_given. rewrite filter_app, app_length. intros L. rewrite <- (rev_involutive a) in L. set (r := rev a) in *. clearbody r. clear a.
    assert (E : filter (fun e => beq (fst e) (str "class")) r = []).
    { destruct (filter (fun e => beq (fst e) (str "class")) r) as [|e l] eqn:E; auto. exfalso.
      assert (J : In e (filter (fun e => beq (fst e) (str "class")) (rev r))).
      { apply filter_In. assert (J : In e (filter (fun e => beq (fst e) (str "class")) r)) by (rewrite E; left; auto). apply filter_In in J.
        rewrite <- in_rev. auto. }
      destruct (filter (fun e => beq (fst e) (str "class")) (rev r)); [contradiction|].
      replace (filter (fun e => beq (fst e) (str "class")) [(str "class", v)]) with [(str "class", v)] in L by reflexivity. cbn [length] in L. lia. }
    clear L. induction r as [|[n x] r IH]; auto. cbn [filter fst] in E. cbn [find fst]. rewrite beq_sym. destruct (beq n (str "class")); [discriminate|auto].
  Qed.

  Definition goodc (c : call H) : Prop := forall w s P lo name at_ st su ev kw k, Inv w s ->
    making w s P lo name at_ st su ev kw k (inr lo (w_next w)) -> class_once (at_ ++ call_attrs c) ->
    exists s', let r := exec_call c P k w in Inv (snd r) s' /\
      making (snd r) s' P lo name (at_ ++ call_attrs c) (st ++ call_styles c) (su ++ call_susps c) (ev ++ call_events c) (kw ++ shown_call c) (fst r)
             (inr lo (w_next (snd r))) /\
      moved w s (snd r) s' P lo.

  Lemma refresh_next P k (w : bworld H) : w_next (snd (refresh_dom P k w)) = w_next w.
  Proof. unfold refresh_dom. destruct (obeq _ _); reflexivity. Qed.

  Lemma attr_good n v : goodc (CAttr n v).
  Proof.
    intros w s P lo name at_ st su ev kw k I G O. cbn [exec_call call_attrs call_styles call_susps call_events shown_call] in *. rewrite !app_nil_r.
    destruct (g_k _ _ _ _ _ _ _ _ _ _ _ _ G) as (K1 & K2 & K3 & K4). unfold set_attr_value.
    destruct (beq n (str "class")) eqn:B.
    - apply beq_true in B. subst n. pose proof (class_once_new _ _ O) as Nn.
      cbn zeta. rewrite refresh_next. apply (refresh_ok w s P lo name at_ st su ev kw k _ (at_ ++ [(str "class", v)]) st su (Cls v (k_css k) (k_susp k) (k_last k))); auto.
      + rewrite last_given_snoc. reflexivity.
      + intros x X. unfold wanted. rewrite (beq_false _ _ X), last_given_snoc, (beq_false _ _ X). reflexivity.
      + intros Gn. rewrite K4. rewrite words_join in Gn. cbn in Gn. unfold wanted. replace (beq (str "class") (str "class")) with true by reflexivity.
        rewrite Nn, <- K2, <- K3. destruct v, (k_css k), (k_susp k); try discriminate. reflexivity.
    - assert (Cn : beq (str "class") n = false) by (rewrite beq_sym; auto).
      destruct (g_node _ _ _ _ _ _ _ _ _ _ _ _ G) as (a & E & F). cbn zeta. cbn [fst snd].
      assert (Wc : wanted (at_ ++ [(n, v)]) st su (str "class") = wanted at_ st su (str "class")).
      { unfold wanted. rewrite last_given_snoc, Cn. reflexivity. }
      assert (Wx : forall x, wanted (at_ ++ [(n, v)]) st su x = if beq x n then v else wanted at_ st su x).
      { intros x. destruct (beq x (str "class")) eqn:Bx.
        - apply beq_true in Bx. subst x. rewrite Cn. auto.
        - unfold wanted. rewrite Bx, last_given_snoc. reflexivity. }
      assert (Kk : k_attr k = last_given (str "class") (at_ ++ [(n, v)]) /\ k_css k = hd_error (rev st) /\ k_susp k = hd_error (rev su) /\
                   k_last k = wanted (at_ ++ [(n, v)]) st su (str "class")).
      { rewrite last_given_snoc, Cn, Wc. auto. }
      destruct v as [x|].
      + apply (attr_ok w s P lo name at_ st su ev kw k _ _ a (battr_set beq a n x)); auto.
        * cbn [b_step]. rewrite E. reflexivity.
        * exact Logic.I.
        * intros y. rewrite battr_get_set, F, Wx. reflexivity.
      + apply (attr_ok w s P lo name at_ st su ev kw k _ _ a (battr_del beq a n)); auto.
        * cbn [b_step]. rewrite E. reflexivity.
        * exact Logic.I.
        * intros y. rewrite battr_get_del, F, Wx. reflexivity.
  Qed.
  Lemma on_good e h : goodc (COn e h).
  Proof.
    intros w s P lo name at_ st su ev kw k I G O. cbn [exec_call call_attrs call_styles call_susps call_events shown_call] in *. rewrite !app_nil_r. cbn zeta. cbn [fst snd].
    apply (listener_ok w s P lo name at_ st su ev kw k _ e h); auto.
  Qed.
  Lemma css_good x : goodc (CCss x).
  Proof.
    intros w s P lo name at_ st su ev kw k I G O. cbn [exec_call call_attrs call_styles call_susps call_events shown_call] in *. rewrite !app_nil_r.
    destruct (g_k _ _ _ _ _ _ _ _ _ _ _ _ G) as (K1 & K2 & K3 & K4). cbn zeta. rewrite refresh_next.
    apply (refresh_ok w s P lo name at_ st su ev kw k _ at_ (st ++ [x]) su (Cls (k_attr k) (Some x) (k_susp k) (k_last k))); auto.
    - rewrite hd_rev_snoc. reflexivity.
    - intros y Y. unfold wanted. rewrite (beq_false _ _ Y). reflexivity.
    - intros Gn. rewrite words_join in Gn. cbn in Gn. destruct (k_attr k), (k_susp k); discriminate.
  Qed.
  Lemma susp_good x : goodc (CSuspense x).
  Proof.
    intros w s P lo name at_ st su ev kw k I G O. cbn [exec_call call_attrs call_styles call_susps call_events shown_call] in *. rewrite !app_nil_r.
    destruct (g_k _ _ _ _ _ _ _ _ _ _ _ _ G) as (K1 & K2 & K3 & K4). cbn zeta. rewrite refresh_next.
    apply (refresh_ok w s P lo name at_ st su ev kw k _ at_ st (su ++ [x]) (Cls (k_attr k) (k_css k) (Some x) (k_last k))); auto.
    - rewrite hd_rev_snoc. reflexivity.
    - intros y Y. unfold wanted. rewrite (beq_false _ _ Y). reflexivity.
    - intros Gn. rewrite words_join in Gn. cbn in Gn. destruct (k_attr k), (k_css k); discriminate.
  Qed.
  Lemma exec_child_eq p id k (w : bworld H) : exec_call (CChild p) id k w = let '((_, m), w1) := exec p w in (k, m id None w1).
  Proof. reflexivity. Qed.
  Lemma exec_children_eq l id k (w : bworld H) :
    exec_call (CChildren l) id k w = let '(nodes, w1) := exec_all l w in (k, fold_left (fun w d => snd d id None w) nodes w1).
  Proof. reflexivity. Qed.
  Lemma moved_frame w s w' s' P lo : lo <= w_next w -> w_next w <= w_next w' -> later w s w' s' -> (forall x, x < w_next w -> same s s' x) -> P < lo ->
    moved w s w' s' P lo.
  Proof. intros A B C D E. split; auto. split; auto. split. intros; apply D; lia. destruct (D P) as (_ & X & _ & Y & _); auto. lia. Qed.

  Lemma child_good p : good p -> goodc (CChild p).
  Proof.
    intros Gp w s P lo name at_ st su ev kw k I G O. rewrite ?exec_child_eq, ?exec_children_eq. cbn [call_attrs call_styles call_susps call_events shown_call] in *. rewrite !app_nil_r.
    pose proof (g_P _ _ _ _ _ _ _ _ _ _ _ _ G) as gP. pose proof (g_lo _ _ _ _ _ _ _ _ _ _ _ _ G) as glo.
    destruct (Gp w s I) as (s1 & I1 & N1 & L1 & S1 & M1). destruct (exec p w) as [[i m] w1]. cbn [fst snd] in *.
    pose proof (making_later _ _ w1 s1 _ _ _ _ _ _ _ _ _ _ G N1 L1 S1) as G1.
    destruct (child_ok w1 s1 P lo name at_ st su ev kw k _ (i, m) (shown p) (w_next w) (w_next w1) I1 G1 M1) as (s2 & I2 & G2 & Mv & _).
    - auto.
    - lia.
    - intros x [X Y] [A B]. lia.
    - cbn [fst snd] in *. exists s2. split; auto. split.
      + eapply making_D; eauto. intros x [[X Y]|[[X Y]|[X Y]]]; split; destruct Mv; lia.
      + eapply moved_trans; [|exact Mv]. apply moved_frame; auto.
  Qed.
  Lemma children_good l : Forall good l -> goodc (CChildren l).
  Proof.
    intros Gp w s P lo name at_ st su ev kw k I G O. rewrite ?exec_child_eq, ?exec_children_eq. cbn [call_attrs call_styles call_susps call_events shown_call] in *. rewrite !app_nil_r.
    pose proof (g_P _ _ _ _ _ _ _ _ _ _ _ _ G) as gP. pose proof (g_lo _ _ _ _ _ _ _ _ _ _ _ _ G) as glo.
    destruct (exec_all_ok l Gp w s I) as (s1 & I1 & N1 & L1 & S1 & R1). destruct (exec_all l w) as [ds w1]. cbn [fst snd] in *.
    pose proof (making_later _ _ w1 s1 _ _ _ _ _ _ _ _ _ _ G N1 L1 S1) as G1.
    destruct (children_ok P lo name at_ st su ev k ds l (w_next w) (w_next w1) w1 s1 kw _ I1 G1 R1) as (s2 & D2 & I2 & G2 & Mv).
    - auto.
    - lia.
    - intros x [X Y] [A B]. lia.
    - exists s2. split; auto. split.
      + eapply making_D; eauto; apply (g_D _ _ _ _ _ _ _ _ _ _ _ _ G2).
      + eapply moved_trans; [|exact Mv]. apply moved_frame; auto.
  Qed.

  Lemma calls_ok l : Forall goodc l -> forall w s P lo name at_ st su ev kw k, Inv w s ->
    making w s P lo name at_ st su ev kw k (inr lo (w_next w)) -> class_once (at_ ++ flat_map call_attrs l) ->
    exists s', let r := exec_calls P l k w in Inv (snd r) s' /\
      making (snd r) s' P lo name (at_ ++ flat_map call_attrs l) (st ++ flat_map call_styles l) (su ++ flat_map call_susps l) (ev ++ flat_map call_events l)
             (kw ++ flat_map shown_call l) (fst r) (inr lo (w_next (snd r))) /\
      moved w s (snd r) s' P lo.
  Proof.
    induction l as [|c l IH]; intros F w s P lo name at_ st su ev kw k I G O; cbn [exec_calls flat_map] in *.
    - rewrite !app_nil_r. exists s. cbn. split; auto. split; auto. split; [lia|]. split; [apply later_refl|]. split; auto. intros; apply same_refl.
    - inversion F as [|? ? F1 F2]; subst. rewrite app_assoc in O.
      destruct (F1 w s P lo name at_ st su ev kw k I G (class_once_app _ _ O)) as (s1 & I1 & G1 & M1).
      destruct (exec_call c P k w) as [k1 w1]. cbn [fst snd] in *.
      destruct (IH F2 w1 s1 P lo name _ _ _ _ _ k1 I1 G1 O) as (s2 & I2 & G2 & M2).
      exists s2. cbn zeta in *. split; auto. rewrite !app_assoc. split; auto. eapply moved_trans; eauto.
  Qed.

  Lemma exec_calls_eq P l : forall k (w : bworld H),
    (fix go (l : list (call H)) (k : cls) (w : bworld H) {struct l} : cls * bworld H :=
          match l with
          | [] => (k, w)
          | c :: t => let '(k1, w1) := exec_call c P k w in go t k1 w1
          end) l k w = exec_calls P l k w.
  Proof. induction l as [|c l IH]; intros k w; auto. cbn [exec_calls]. destruct (exec_call c P k w) as [k1 w1]. apply IH. Qed.
  Lemma exec_element_eq name calls (w : bworld H) :
    exec (PElement name calls) w =
    let '(id, w1) := from_name name w in
    ((id, plain_mount id), snd (exec_calls id calls (Cls None None None None) (emit w1 (CreateNode id name)))).
  Proof.
    destruct (from_name name w) as [id w1] eqn:E.
    transitivity ((id, @plain_mount H id), snd ((fix go (l : list (call H)) (k : cls) (w : bworld H) {struct l} : cls * bworld H :=
          match l with
          | [] => (k, w)
          | c :: t => let '(k1, w1) := exec_call c id k w in go t k1 w1
          end) calls (Cls None None None None) (emit w1 (CreateNode id name)))).
    - cbn [exec]. rewrite E. match goal with |- (let '(_, w3) := ?x in _) = _ => destruct x eqn:X end. cbn [exec_call] in *.
      match goal with |- _ = (_, snd ?y) => replace y with (c, b) end. reflexivity.
    - rewrite exec_calls_eq. reflexivity.
  Qed.

  (** *** Every node *)
  Lemma text_good t : good (PText t).
  Proof.
    intros w s I. destruct (fresh_ok w s (BText t) (fun i => CreateText i t) I) as (s' & I' & G1 & G2 & G3 & G4 & S & L); try (intros; reflexivity || exact Logic.I).
    exists s'. cbn in *. split; auto. split; [lia|]. split; [split; auto; rewrite L; intros x; auto|]. split.
    - intros x X. apply S. lia.
    - apply plain_mountable; auto. split; lia. constructor; auto. split; lia.
  Qed.
  Lemma element_good name calls : own_name name -> class_once (flat_map call_attrs calls) -> Forall goodc calls -> good (PElement name calls).
  Proof.
    intros (O1 & O2 & O3 & _) On F w s I.
    destruct (fresh_ok w s (BElement name []) (fun i => CreateNode i name) I) as (s1 & I1 & G1 & G2 & G3 & G4 & S & L); try (intros; reflexivity || exact Logic.I).
    assert (E : exec (PElement name calls) w = ((w_next w, plain_mount (w_next w)),
      snd (exec_calls (w_next w) calls (Cls None None None None) (emit (next_id w) (CreateNode (w_next w) name))))).
    { rewrite exec_element_eq. unfold from_name. rewrite !beq_false by auto. reflexivity. }
    rewrite E. clear E.
    assert (G : making (emit (next_id w) (CreateNode (w_next w) name)) s1 (w_next w) (w_next w + 1) name [] [] [] [] [] (Cls None None None None)
                       (inr (w_next w + 1) (w_next (emit (next_id w) (CreateNode (w_next w) name))))).
    { constructor; auto; try (cbn; lia); try (rewrite ?G2, ?G4; constructor; auto; fail).
      - intros y U. inversion U; subst. lia. congruence.
      - exists []. split; auto. intros x. unfold wanted. destruct (beq x (str "class")); reflexivity.
    }
    destruct (calls_ok calls F _ s1 _ _ name [] [] [] [] [] _ I1 G On) as (s2 & I2 & Gm & Mv). cbn zeta in *.
    set (w2 := snd (exec_calls (w_next w) calls (Cls None None None None) (emit (next_id w) (CreateNode (w_next w) name)))) in *.
    destruct Mv as (N2 & L2 & S2 & P2 & R2). cbn [w_next emit next_id] in N2.
    exists s2. cbn [fst snd]. split; auto. split; [lia|]. split; [|split].
    - eapply later_trans; [|exact L2]. split; auto. rewrite L. intros x; auto.
    - intros x X. eapply same_trans; [apply S; lia|apply S2; lia].
    - cbn [app] in Gm.
      change (shown (PElement name calls)) with [WElement name (flat_map call_attrs calls) (flat_map call_styles calls) (flat_map call_susps calls)
        (flat_map call_events calls) (flat_map shown_call calls)]. apply plain_mountable; [split; lia| |congruence].
      destruct (g_node _ _ _ _ _ _ _ _ _ _ _ _ Gm) as (a & E & Fa).
      apply (sh_element _ _ _ _ _ a); auto.
      + split; lia.
      + apply (g_listen _ _ _ _ _ _ _ _ _ _ _ _ Gm).
      + apply (g_hooks _ _ _ _ _ _ _ _ _ _ _ _ Gm).
      + apply (g_nodup _ _ _ _ _ _ _ _ _ _ _ _ Gm).
      + apply (g_par _ _ _ _ _ _ _ _ _ _ _ _ Gm).
      + eapply shows_all_mono; [apply (g_shows _ _ _ _ _ _ _ _ _ _ _ _ Gm)|]. intros z [X Y]. split; lia.
  Qed.

  (** *** Nodes that are put one before the other *)
  Record part (w1 : bworld H) (s1 : bdom) (lo hi P : N) (a tl : list N) (ws : list (wnode H)) (w2 : bworld H) (s2 : bdom)
    (ids : list N) (D : N -> Prop) : Prop := {
    p_inv : Inv w2 s2;
    p_next : w_next w1 <= w_next w2;
    p_later : later w1 s1 w2 s2;
    p_same : forall x, x < w_next w1 -> x <> P -> ~ inr lo hi x -> same s1 s2 x;
    p_P : b_node s2 P = b_node s1 P /\ b_reg s2 P = b_reg s1 P /\ b_par s2 P = b_par s1 P /\ b_listen s2 (Some P) = b_listen s1 (Some P);
    p_site : site w2 s2 P (a ++ ids ++ tl);
    p_up : forall y, under s2 P y -> under s1 P y;
    p_D : forall x, D x -> inr lo hi x \/ inr (w_next w1) (w_next w2) x;
    p_shows : Forall2 (shows s2 (w_hand w2) D) ids ws
  }.
  Lemma part_mounted w1 s1 lo hi P a tl ws w2 s2 ids (D : N -> Prop) id : part w1 s1 lo hi P a tl ws w2 s2 ids D -> (exists pre, ids = pre ++ [id]) ->
    mounted w1 s1 lo hi P a tl id ws w2 s2 ids.
  Proof.
    intros [q1 q2 q3 q4 q5 q6 q7 q8 q9] O. constructor; auto.
    - apply (t_kids _ _ _ _ q6).
    - apply (t_nodup _ _ _ _ q6).
    - intros x J. destruct (Forall2_in_l _ _ _ _ q9 J) as (wn & S & _). apply q8. eapply shows_in; eauto.
    - intros x J. apply (t_in _ _ _ _ q6). apply in_or_app. right. apply in_or_app. auto.
    - eapply shows_all_mono; eauto.
  Qed.

  Lemma part_step w1 s1 lo hi P a tl ws w2 s2 prev rest (D : N -> Prop) w2' s2' lo' hi' d ws' :
    clear s1 P (a ++ tl) lo hi -> site w1 s1 P (a ++ tl) -> hi <= w_next w1 ->
    part w1 s1 lo hi P a tl ws w2 s2 (prev :: rest) D ->
    Inv w2' s2' -> w_next w2 <= w_next w2' -> later w2 s2 w2' s2' -> (forall x, x < w_next w2 -> same s2 s2' x) ->
    mountable w2' s2' lo' hi' d ws' -> hi' <= w_next w2' -> (forall x, inr lo' hi' x -> ~ D x) ->
    (forall x, inr lo' hi' x -> inr lo hi x \/ inr (w_next w1) (w_next w2') x) ->
    exists s3 ids, let w3 := snd d P (Some prev) w2' in
      part w1 s1 lo hi P a tl (ws' ++ ws) w3 s3 (ids ++ prev :: rest) (fun x => D x \/ inr lo' hi' x \/ inr (w_next w2') (w_next w3) x) /\
      (exists pre, ids = pre ++ [fst d]) /\ length ids = length ws' /\ w_next w2' <= w_next w3 /\ later w2 s2 w3 s3 /\
      (forall x, x < w_next w2 -> x <> P -> ~ inr lo' hi' x -> same s2 s3 x).
  Proof.
    intros [C1 C2] T1 Hi1 Q I' N' L' S' (M1 & M2 & M) Hi Dj Sub.
    pose proof Q as [q1 q2 q3 q4 q5 q6 q7 q8 q9].
    assert (XP : P < w_next w1) by (apply (t_up _ _ _ _ T1); apply under_refl).
    assert (SP : same s2 s2' P) by (apply S'; lia).
    assert (Up : forall y, under s2' P y -> under s1 P y).
    { intros y U. apply q7. revert y U. apply under_keep. intros y U. apply S'. pose proof (t_up _ _ _ _ T1 y (q7 _ U)). lia. }
    assert (T : site w2' s2' P (a ++ (prev :: rest) ++ tl)).
    { constructor.
      - destruct (t_elem _ _ _ _ q6) as (n & at_ & E). exists n, at_. rewrite (same_get _ _ _ SP). auto.
      - intros y U. pose proof (t_up _ _ _ _ T1 y (Up _ U)). lia.
      - destruct SP as (_ & _ & X & _). rewrite X. apply (t_kids _ _ _ _ q6).
      - apply (t_nodup _ _ _ _ q6).
      - intros x J. destruct (t_in _ _ _ _ q6 x J) as (A & B & G). pose proof (S' x A) as Sx. split; [lia|].
        rewrite (same_get _ _ _ Sx). destruct Sx as (_ & _ & _ & X & _). split; congruence. }
    assert (C : clear s2' P (a ++ (prev :: rest) ++ tl) lo' hi').
    { split.
      - intros y U R. destruct (Sub y R) as [X|[X Y]]; [apply (C1 y (Up _ U)); auto|]. pose proof (t_up _ _ _ _ T1 y (Up _ U)). lia.
      - intros x J R. assert (K : In x (a ++ tl) \/ In x (prev :: rest)).
        { apply in_app_or in J. destruct J as [J|J]; [left; apply in_or_app; auto|]. apply in_app_or in J. destruct J; auto. left. apply in_or_app. auto. }
        destruct K as [K|K].
        + destruct (Sub x R) as [X|[X Y]]; [apply (C2 x K); auto|]. destruct (t_in _ _ _ _ T1 x K). lia.
        + destruct (Forall2_in_l _ _ _ _ q9 K) as (wn & S & _). apply (Dj x R). eapply shows_in; eauto. }
    destruct (M w2' s2' P a ((prev :: rest) ++ tl) (Some prev) I' (later_refl _ _) Hi (fun x _ => same_refl s2' x) T C) as (s3 & ids & Mt).
    { exists (rest ++ tl). reflexivity. }
    pose proof (mounted_up _ _ _ _ _ _ _ _ _ _ _ _ T C Mt) as Up3.
    pose proof (mounted_site _ _ _ _ _ _ _ _ _ _ _ _ T C Hi Mt) as T3.
    destruct Mt as [m1 m2 m3 m4 m5 m6 m7 m8 m9 m10 m11].
    exists s3, ids. cbn zeta. split; [|split; [auto|split; [eapply Forall2_len; eauto|split; [exact m2|split; [eapply later_trans; eauto|]]]]].
    - constructor; auto.
      + lia.
      + eapply later_trans; [exact q3|]. eapply later_trans; eauto.
      + intros x X Y Z. eapply same_trans; [apply q4; auto|]. eapply same_trans; [apply S'; lia|]. apply m4; auto; [lia|].
        intros R. destruct (Sub x R) as [W|[W _]]; [contradiction|lia].
      + destruct q5 as (A & B & E & F), m5 as (A' & B' & E' & F'), SP as (A'' & B'' & _ & E'' & F''). repeat split; congruence.
      + replace (a ++ (ids ++ prev :: rest) ++ tl) with (a ++ ids ++ (prev :: rest) ++ tl) by (rewrite <- !app_assoc; reflexivity). exact T3.
      + intros x [X|[X|[X Y]]].
        * destruct (q8 x X) as [Y|[Y Z]]; auto. right. split; lia.
        * destruct (Sub x X) as [Y|[Y Z]]; auto. right. split; lia.
        * right. split; lia.
      + apply Forall2_app.
        * eapply shows_all_mono; eauto.
        * eapply shows_all_mono; [eapply shows_all_frame; [exact q9| | |]|]; try (destruct L', m3; auto; fail).
          -- intros x Dx. apply same_grown. assert (x < w_next w2) by (destruct (q8 x Dx) as [[X Y]|[X Y]]; lia).
             eapply same_trans; [apply S'; auto|]. apply m4; [lia| |].
             ++ intros ->. destruct (q8 _ Dx) as [X|[X Y]]; [|lia]. apply (C1 P (under_refl _ _)). auto.
             ++ intros R. apply (Dj x R Dx).
          -- destruct L', m3. eapply incl_tran; eauto.
    - intros x X Y Z. eapply same_trans; [apply S'; auto|]. apply m4; auto. lia.
  Qed.

  (** The comment of a reactive node. *)
  Lemma comment_part w1 s1 lo hi P a tl ref c t : Inv w1 s1 -> site w1 s1 P (a ++ tl) -> clear s1 P (a ++ tl) lo hi -> before ref tl ->
    inr lo hi c -> hi <= w_next w1 -> b_get s1 c = Some (BComment t) -> b_par s1 c = None ->
    exists s2, part w1 s1 lo hi P a tl [WComment t] (emit w1 (InsertBefore P c ref)) s2 [c] (fun x => x = c) /\
      (forall x, x <> P -> x <> c -> same s1 s2 x) /\ later w1 s1 (emit w1 (InsertBefore P c ref)) s2.
  Proof.
    intros I T C B R Hi G Pn.
    destruct (insert_ok w1 s1 P a tl ref c lo hi I T C B R Hi) as (s2 & I2 & E3 & E1 & E2 & E5 & E6 & T2 & U2); auto.
    { congruence. }
    assert (NP : ~ inr lo hi P) by (apply (proj1 C); apply under_refl).
    assert (Sm : forall x, x <> P -> x <> c -> same s1 s2 x).
    { intros x X Y. unfold same. rewrite E1, E2, E3, E5, E6. destruct (N.eqb_spec x P); [contradiction|]. destruct (N.eqb_spec x c); [contradiction|]. auto. }
    assert (L : later w1 s1 (emit w1 (InsertBefore P c ref)) s2) by (split; auto; rewrite E3; intros x; auto).
    exists s2. split; [|split; auto]. constructor; auto; cbn.
    - lia.
    - intros x X Y Z. apply Sm; auto. intros ->. contradiction.
    - rewrite E1, E2, E3, E6. destruct (N.eqb_spec P c) as [->|]; [contradiction|]. auto.
    - intros x ->. auto.
    - constructor; auto. constructor; auto. unfold b_get in *. rewrite E1, E2. auto.
  Qed.

  Lemma comment_good p t (m : N -> mount H) :
    (forall w, exec p w = let '(id, w1) := fresh w (fun i => CreateComment i t) in ((id, m id), w1)) ->
    (forall w s w1 s1 P a tl ref, Inv w1 s1 -> later w s w1 s1 -> w_next w + 1 <= w_next w1 ->
      site w1 s1 P (a ++ tl) -> clear s1 P (a ++ tl) (w_next w) (w_next w + 1) -> before ref tl ->
      b_get s1 (w_next w) = Some (BComment t) -> b_par s1 (w_next w) = None ->
      exists s2 ids, mounted w1 s1 (w_next w) (w_next w + 1) P a tl (w_next w) (shown p) (m (w_next w) P ref w1) s2 ids) ->
    good p.
  Proof.
    intros E M w s I. unfold built. rewrite E. unfold fresh.
    destruct (fresh_ok w s (BComment t) (fun i => CreateComment i t) I) as (s' & I' & G1 & G2 & G3 & G4 & S & L); try (intros; reflexivity || exact Logic.I).
    exists s'. cbn [fst snd]. split; auto. cbn [emit next_id w_next]. split; [lia|].
    assert (Lt : later w s (emit (next_id w) (CreateComment (w_next w) t)) s') by (split; auto; rewrite L; intros x; auto).
    split; auto. split; [intros x X; apply S; lia|].
    split; [cbn; lia|]. split; [cbn; lia|]. cbn [fst snd].
    intros w1 s1 P a tl ref I1 L1 Hi Sm T C B.
    assert (R : inr (w_next w) (w_next w + 1) (w_next w)) by (split; lia).
    apply (M w s w1 s1 P a tl ref); auto.
    - eapply later_trans; eauto.
    - rewrite (same_get _ _ _ (Sm _ R)). auto.
    - destruct (Sm _ R) as (_ & _ & _ & X & _). congruence.
  Qed.

  Lemma value_none_good : good (PValue None).
  Proof.
    apply (comment_good _ value_text (fun id parent before w => emit w (InsertBefore parent id before))); [reflexivity|].
    intros w s w1 s1 P a tl ref I L Hi T C B G Pn.
    destruct (comment_part w1 s1 _ _ P a tl ref (w_next w) value_text I T C B) as (s2 & Q & _); auto. split; lia.
    exists s2, [w_next w]. eapply part_mounted; [exact Q|]. exists []. reflexivity.
  Qed.
  Lemma value_good p : good p -> good (PValue (Some p)).
  Proof.
    intros Gp. apply (comment_good _ value_text (fun id parent before w =>
      let w1 := emit w (InsertBefore parent id before) in let '((_, m), w2) := exec p w1 in m parent (Some id) w2)); [reflexivity|].
    intros w s w1 s1 P a tl ref I L Hi T C B G Pn. cbv beta zeta.
    destruct (comment_part w1 s1 _ _ P a tl ref (w_next w) value_text I T C B) as (s2 & Q & _ & L2); auto. split; lia.
    destruct (Gp _ s2 (p_inv _ _ _ _ _ _ _ _ _ _ _ _ Q)) as (s3 & I3 & N3 & L3 & S3 & M3).
    destruct (exec p (emit w1 (InsertBefore P (w_next w) ref))) as [d w3]. cbn [fst snd] in *. cbn [emit w_next] in *.
    destruct (part_step w1 s1 _ _ P a tl _ _ s2 (w_next w) [] _ w3 s3 (w_next w1) (w_next w3) d (shown p) C T Hi Q I3 N3 L3 S3 M3) as (s4 & ids & Q4 & O & _).
    - lia.
    - intros x [X Y] ->. lia.
    - intros x X. auto.
    - destruct d as [i m]. cbn [fst snd] in *. exists s4, (ids ++ [w_next w]). eapply part_mounted; [exact Q4|]. exists ids. reflexivity.
  Qed.

  Lemma plain_shown (p : prog H) : plain p -> length (shown p) = 1%nat.
  Proof. destruct p as [t|n l|l|o|l]; cbn [plain]; intros X; try contradiction; reflexivity. Qed.

  (** *** Fragments *)
  Fixpoint frag_run (parent prev : N) (l : list (dnode H)) (w : bworld H) : N * bworld H :=
    match l with [] => (prev, w) | d :: t => frag_run parent (fst d) t (snd d parent (Some prev) w) end.
  Lemma frag_run_mount P l : forall prev w, frag_mount P prev l w = snd (frag_run P prev l w).
  Proof. induction l as [|[i m] l IH]; intros prev w; cbn; auto. Qed.
  Lemma frag_run_snoc P l d : forall prev w, frag_run P prev (l ++ [d]) w =
    let '(q, w1) := frag_run P prev l w in (fst d, snd d P (Some q) w1).
  Proof. induction l as [|x l IH]; intros prev w; cbn; auto. Qed.

  Lemma frag_part w s lo hi P a tl w1 s1 : clear s1 P (a ++ tl) lo hi -> site w1 s1 P (a ++ tl) -> hi <= w_next w1 ->
    forall ds ps lo' hi', ready w s lo' ds ps hi' -> Forall plain ps -> lo <= lo' -> hi' <= hi ->
    forall ws w2 s2 prev rest (D : N -> Prop), part w1 s1 lo hi P a tl ws w2 s2 (prev :: rest) D ->
    later w s w2 s2 -> (forall x, inr lo' hi' x -> same s s2 x) -> (forall x, inr lo' hi' x -> ~ D x) ->
    exists s3 rest' (D' : N -> Prop), let r := frag_run P prev (rev ds) w2 in
      part w1 s1 lo hi P a tl (flat_map shown ps ++ ws) (snd r) s3 (fst r :: rest') D' /\ (exists pre, fst r :: rest' = pre ++ prev :: rest) /\
      later w2 s2 (snd r) s3 /\ (forall x, D' x -> D x \/ inr lo' hi' x \/ w_next w2 <= x) /\ w_next w2 <= w_next (snd r) /\
      (forall x, x < w_next w2 -> x <> P -> ~ inr lo' hi' x -> same s2 s3 x).
  Proof.
    intros C T Hi. induction ds as [|d ds IH]; intros ps lo' hi' R Pl Lo Hi' ws w2 s2 prev rest D Q L Sm Dj; inversion R as [|? mid ? ? p ? ps' M R']; subst.
    - exists s2, rest, D. cbn. split; auto. split; [exists []; reflexivity|]. split; [apply later_refl|]. split; auto. split; [lia|]. intros; apply same_refl.
    - inversion Pl as [|? ? Pp Pl']; subst. pose proof (ready_le _ _ _ _ _ _ R') as Le. pose proof M as (M1 & M2 & _).
      destruct (IH ps' mid hi' R' Pl' ltac:(lia) Hi' ws w2 s2 prev rest D Q L) as (s3 & r3 & D3 & Q3 & O3 & L3 & D3s & N3 & S3).
      { intros x [X Y]. apply Sm. split; lia. }
      { intros x [X Y]. apply Dj. split; lia. }
      cbn [rev flat_map]. rewrite frag_run_snoc. destruct (frag_run P prev (rev ds) w2) as [q w3]. cbn [fst snd] in *. cbn zeta in *.
      pose proof (p_inv _ _ _ _ _ _ _ _ _ _ _ _ Q3) as I3. pose proof (p_next _ _ _ _ _ _ _ _ _ _ _ _ Q) as N2.
      assert (NP : forall x, inr lo' mid x -> x <> P).
      { intros x [X Y] ->. apply (proj1 C P (under_refl _ _)). split; lia. }
      destruct (part_step w1 s1 lo hi P a tl _ w3 s3 q r3 D3 w3 s3 lo' mid d (shown p) C T Hi Q3 I3 ltac:(lia) (later_refl _ _) (fun x _ => same_refl s3 x))
        as (s4 & ids & Q4 & (pre & O4) & Len & N4 & L4 & S4).
      + eapply mountable_later; [exact M|eapply later_trans; eauto|]. intros x X. eapply same_trans; [apply Sm; destruct X; split; lia|].
        destruct X. apply S3; [lia|apply NP; split; auto|intros []; lia].
      + lia.
      + intros x [X Y] Z. destruct (D3s x Z) as [A|[[A B]|A]]; [|lia|lia]. apply (Dj x); auto. split; lia.
      + intros x [X Y]. left. split; lia.
      + rewrite (plain_shown _ Pp) in Len. subst ids. rewrite app_length in Len. cbn in Len. destruct pre; [|cbn in Len; lia]. cbn [app] in *.
        exists s4, (q :: r3), (fun x => D3 x \/ inr lo' mid x \/ inr (w_next w3) (w_next (snd d P (Some q) w3)) x). cbn zeta in *.
        split; [rewrite <- app_assoc; exact Q4|]. split; [|split; [eapply later_trans; eauto|split; [|split]]].
        * destruct O3 as (pre & ->). exists (fst d :: pre). reflexivity.
        * intros x [X|[[X Y]|[X Y]]]; [destruct (D3s x X) as [A|[[A B]|A]]; auto| |].
          -- right. left. split; lia.
          -- right. left. split; lia.
          -- right. right. lia.
        * lia.
        * intros x X Y Z. eapply same_trans; [apply S3; auto; intros [A B]; apply Z; split; lia|]. apply S4; auto; [lia|]. intros [A B]. apply Z. split; lia.
  Qed.

  Lemma exec_fragment_eq l (w : bworld H) : exec (PFragment l) w =
    let '(nodes, w1) := exec_all l w in
    let '(id, w2) := fresh w1 (fun i => CreateComment i frag_text) in
    ((id, fun parent before w => frag_mount parent id (rev nodes) (emit w (InsertBefore parent id before))), w2).
  Proof. reflexivity. Qed.

  Lemma fragment_good l : Forall good l -> Forall plain (tail l) -> good (PFragment l).
  Proof.
    intros F Pl w s I. unfold built. rewrite exec_fragment_eq.
    destruct (exec_all_ok l F w s I) as (s1 & I1 & N1 & L1 & S1 & R1). destruct (exec_all l w) as [ds w1]. cbn [fst snd] in *. cbn zeta in *.
    unfold fresh.
    destruct (fresh_ok w1 s1 (BComment frag_text) (fun i => CreateComment i frag_text) I1) as (s2 & I2 & G1 & G2 & G3 & G4 & S2 & L2); try (intros; reflexivity || exact Logic.I).
    set (w2 := emit (next_id w1) (CreateComment (w_next w1) frag_text)) in *.
    assert (E2 : w_next w2 = w_next w1 + 1) by reflexivity.
    assert (Lt : later w1 s1 w2 s2) by (split; auto; rewrite L2; intros x; auto).
    assert (R2 : ready w2 s2 (w_next w) ds l (w_next w1)).
    { eapply ready_later; eauto. intros x [X Y]. apply S2. lia. }
    exists s2. split; auto. split; [cbn [fst snd]; lia|]. split; [eapply later_trans; eauto|]. split.
    { intros x X. eapply same_trans; [apply S1; auto|apply S2; lia]. }
    split; [cbn [fst]; lia|]. split; [cbn [fst snd]; lia|]. cbn [fst snd].
    intros w3 s3 P a tl ref I3 L3 Hi Sm T C B.
    assert (Rc : inr (w_next w) (w_next w2) (w_next w1)) by (split; lia).
    destruct (comment_part w3 s3 _ _ P a tl ref (w_next w1) frag_text I3 T C B Rc Hi) as (s4 & Q & S4 & L4).
    { rewrite (same_get _ _ _ (Sm _ Rc)). auto. }
    { destruct (Sm _ Rc) as (_ & _ & _ & X & _). congruence. }
    set (w4 := emit w3 (InsertBefore P (w_next w1) ref)) in *.
    assert (NP : forall x, inr (w_next w) (w_next w2) x -> x <> P).
    { intros x X ->. apply (proj1 C P (under_refl _ _)). auto. }
    assert (S24 : forall x, inr (w_next w) (w_next w1) x -> same s2 s4 x).
    { intros x [X Y]. eapply same_trans; [apply Sm; split; lia|]. apply S4; [|lia]. apply NP. split; lia. }
    rewrite frag_run_mount.
    change (shown (PFragment l)) with (flat_map shown l ++ [WComment frag_text]).
    destruct l as [|p l'].
    - assert (ds = []) by (inversion R2; auto). subst ds. exists s4, [w_next w1]. eapply part_mounted; [exact Q|]. exists []. reflexivity.
    - inversion R2 as [|? mid ? d ? ds' ? M R']; subst. cbn [tail] in Pl.
      pose proof (ready_le _ _ _ _ _ _ R') as Le. pose proof M as (M1 & M2 & _).
      destruct (frag_part w2 s2 _ _ P a tl w3 s3 C T Hi ds' l' mid (w_next w1) R' Pl ltac:(lia) ltac:(lia) _ _ _ _ _ _ Q)
        as (s5 & r5 & D5 & Q5 & (pre & O5) & L5 & D5s & N5 & S5).
      { eapply later_trans; eauto. }
      { intros x [X Y]. apply S24. split; lia. }
      { intros x [X Y] ->. lia. }
      cbn [rev]. rewrite frag_run_snoc. fold w4. destruct (frag_run P (w_next w1) (rev ds') w4) as [q w5]. cbn [fst snd] in *. cbn zeta in *.
      pose proof (p_inv _ _ _ _ _ _ _ _ _ _ _ _ Q5) as I5.
      assert (E4 : w_next w4 = w_next w3) by reflexivity.
      destruct (part_step w3 s3 _ _ P a tl _ w5 s5 q r5 D5 w5 s5 (w_next w) mid d (shown p) C T Hi Q5 I5 ltac:(lia) (later_refl _ _) (fun x _ => same_refl s5 x))
        as (s6 & ids & Q6 & _).
      + eapply mountable_later; [exact M|eapply later_trans; [exact L3|eapply later_trans; eauto]|]. intros x [X Y].
        eapply same_trans; [apply S24; split; lia|]. apply S5; [lia|apply NP; split; lia|intros []; lia].
      + lia.
      + intros x [X Y] Z. destruct (D5s x Z) as [A|[[A A']|A]]; lia.
      + intros x [X Y]. left. split; lia.
      + exists s6, (ids ++ q :: r5). eapply part_mounted.
        * cbn [flat_map]. rewrite <- app_assoc. exact Q6.
        * rewrite O5. exists (ids ++ pre). rewrite <- app_assoc. reflexivity.
  Qed.

  (** *** Lists *)
  Lemma exec_down_cons id parent p l (w : bworld H) : exec_down id parent (p :: l) w =
    let '(prev, w1) := exec_down id parent l w in let '((i, m), w2) := exec p w1 in (i, m parent (Some prev) w2).
  Proof. reflexivity. Qed.
  Lemma exec_list_eq l (w : bworld H) : exec (PList l) w =
    let '(id, w1) := fresh w (fun i => CreateComment i list_text) in
    ((id, fun parent before w => snd (exec_down id parent l (emit w (InsertBefore parent id before)))), w1).
  Proof. reflexivity. Qed.
  Lemma list_part lo hi P a tl w1 s1 : clear s1 P (a ++ tl) lo hi -> site w1 s1 P (a ++ tl) -> hi <= w_next w1 ->
    forall ps, Forall good ps -> Forall plain ps ->
    forall ws w2 s2 prev rest (D : N -> Prop), part w1 s1 lo hi P a tl ws w2 s2 (prev :: rest) D ->
    exists s3 rest' (D' : N -> Prop), let r := exec_down prev P ps w2 in
      part w1 s1 lo hi P a tl (flat_map shown ps ++ ws) (snd r) s3 (fst r :: rest') D' /\ (exists pre, fst r :: rest' = pre ++ prev :: rest).
  Proof.
    intros C T Hi. induction ps as [|p ps IH]; intros F Pl ws w2 s2 prev rest D Q.
    - exists s2, rest, D. cbn. split; auto. exists []. reflexivity.
    - inversion F as [|? ? Fp F']; subst. inversion Pl as [|? ? Pp Pl']; subst.
      destruct (IH F' Pl' ws w2 s2 prev rest D Q) as (s3 & r3 & D3 & Q3 & O3). rewrite exec_down_cons. cbn [flat_map].
      destruct (exec_down prev P ps w2) as [q w3]. cbn [fst snd] in *. cbn zeta in *.
      destruct (Fp w3 s3 (p_inv _ _ _ _ _ _ _ _ _ _ _ _ Q3)) as (s4 & I4 & N4 & L4 & S4 & M4).
      destruct (exec p w3) as [[i m] w4]. cbn [fst snd] in *.
      pose proof (p_next _ _ _ _ _ _ _ _ _ _ _ _ Q3) as N3.
      destruct (part_step w1 s1 lo hi P a tl _ w3 s3 q r3 D3 w4 s4 (w_next w3) (w_next w4) (i, m) (shown p) C T Hi Q3 I4 N4 L4 S4 M4)
        as (s5 & ids & Q5 & (pre & O5) & Len & _).
      + lia.
      + intros x [X Y] Z. destruct (p_D _ _ _ _ _ _ _ _ _ _ _ _ Q3 x Z) as [[A B]|[A B]]; lia.
      + intros x [X Y]. right. split; lia.
      + rewrite (plain_shown _ Pp) in Len. subst ids. rewrite app_length in Len. cbn in Len. destruct pre; [|cbn in Len; lia]. cbn [app fst snd] in *.
        eexists s5, (q :: r3), _. cbn zeta in *. split; [rewrite <- app_assoc; exact Q5|].
        destruct O3 as (pre & ->). exists (i :: pre). reflexivity.
  Qed.
  Lemma list_good l : Forall good l -> Forall plain (tail l) -> good (PList l).
  Proof.
    intros F Pl. apply (comment_good _ list_text (fun id parent before w => snd (exec_down id parent l (emit w (InsertBefore parent id before)))));
      [intros; apply exec_list_eq|].
    intros w s w1 s1 P a tl ref I L Hi T C B G Pn.
    destruct (comment_part w1 s1 _ _ P a tl ref (w_next w) list_text I T C B) as (s2 & Q & _ & L2); auto. split; lia.
    change (shown (PList l)) with (flat_map shown l ++ [WComment list_text]).
    destruct l as [|p l'].
    - exists s2, [w_next w]. eapply part_mounted; [exact Q|]. exists []. reflexivity.
    - inversion F as [|? ? Fp F']; subst. cbn [tail] in Pl.
      destruct (list_part _ _ P a tl w1 s1 C T Hi l' F' Pl _ _ _ _ _ _ Q) as (s3 & r3 & D3 & Q3 & (pre & O3)). rewrite exec_down_cons. cbn [flat_map].
      destruct (exec_down (w_next w) P l' (emit w1 (InsertBefore P (w_next w) ref))) as [q w3]. cbn [fst snd] in *. cbn zeta in *.
      destruct (Fp w3 s3 (p_inv _ _ _ _ _ _ _ _ _ _ _ _ Q3)) as (s4 & I4 & N4 & L4 & S4 & M4).
      destruct (exec p w3) as [[i m] w4]. cbn [fst snd] in *.
      pose proof (p_next _ _ _ _ _ _ _ _ _ _ _ _ Q3) as N3.
      destruct (part_step w1 s1 _ _ P a tl _ w3 s3 q r3 D3 w4 s4 (w_next w3) (w_next w4) (i, m) (shown p) C T Hi Q3 I4 N4 L4 S4 M4)
        as (s5 & ids & Q5 & _).
      + lia.
      + intros x [X Y] Z. destruct (p_D _ _ _ _ _ _ _ _ _ _ _ _ Q3 x Z) as [[A A']|[A A']]; lia.
      + intros x [X Y]. right. split; lia.
      + exists s5, (ids ++ q :: r3). eapply part_mounted; [rewrite <- app_assoc; exact Q5|].
        rewrite O3. exists (ids ++ pre). rewrite <- app_assoc. reflexivity.
  Qed.

  (** *** Everything together *)
  Lemma ordinary_all (l : list (wnode H)) :
    (fix all l := match l with [] => True | w :: t => ordinary w /\ all t end) l <-> Forall ordinary l.
  Proof. induction l as [|x l IH]; split; intros X; auto; [destruct X|inversion X; subst; split; auto]; [constructor; auto|]; tauto. Qed.
  Lemma ordered_all (l : list (prog H)) : (fix all l := match l with [] => True | p :: t => ordered p /\ all t end) l <-> Forall ordered l.
  Proof. induction l as [|x l IH]; split; intros X; auto; [destruct X|inversion X; subst; split; auto]; [constructor; auto|]; tauto. Qed.
  Lemma ordered_calls_all (l : list (call H)) : (fix all l := match l with [] => True | p :: t => ordered_call p /\ all t end) l <-> Forall ordered_call l.
  Proof. induction l as [|x l IH]; split; intros X; auto; [destruct X|inversion X; subst; split; auto]; [constructor; auto|]; tauto. Qed.
  Lemma Forall_flat {A B} (Q : B -> Prop) (f : A -> list B) l : Forall Q (flat_map f l) -> Forall (fun x => Forall Q (f x)) l.
  Proof. induction l as [|x l IH]; cbn; intros X; auto. apply Forall_app in X. destruct X. constructor; auto. Qed.
  Lemma Forall_mp {A} (P Q R : A -> Prop) l : Forall (fun x => P x -> Q x -> R x) l -> Forall P l -> Forall Q l -> Forall R l.
  Proof. intros X. induction X; intros Y Z; auto. inversion Y; inversion Z; subst. constructor; auto. Qed.

  Theorem all_good : forall p : prog H, ordered p -> Forall ordinary (shown p) -> good p.
  Proof.
    apply (prog_ind2 (fun p => ordered p -> Forall ordinary (shown p) -> good p)
      (fun c => ordered_call c -> Forall ordinary (shown_call c) -> goodc c)).
    - intros t _ _. apply text_good.
    - intros n l F O W.
      change (Forall ordinary [WElement n (flat_map call_attrs l) (flat_map call_styles l) (flat_map call_susps l) (flat_map call_events l) (flat_map shown_call l)]) in W.
      apply Forall_inv in W. destruct W as (W1 & W2 & W3). apply ordinary_all in W3. apply Forall_flat in W3. apply (proj1 (ordered_calls_all l)) in O.
      apply element_good; [auto|auto|]. exact (Forall_mp _ _ _ _ F O W3).
    - intros l F [O Pl] W. apply ordered_all in O. change (Forall ordinary (flat_map shown l ++ [WComment frag_text])) in W.
      apply Forall_app in W. destruct W as [W _]. apply Forall_flat in W. apply fragment_good; [|auto]. exact (Forall_mp _ _ _ _ F O W).
    - intros _ _. apply value_none_good.
    - intros p G O W. change (Forall ordinary (shown p ++ [WComment value_text])) in W. apply Forall_app in W. destruct W as [W _].
      apply value_good; auto.
    - intros l F [O Pl] W. apply ordered_all in O. change (Forall ordinary (flat_map shown l ++ [WComment list_text])) in W.
      apply Forall_app in W. destruct W as [W _]. apply Forall_flat in W. apply list_good; [|auto]. exact (Forall_mp _ _ _ _ F O W).
    - intros n v _ _. apply attr_good.
    - intros e h _ _. apply on_good.
    - intros x _ _. apply css_good.
    - intros x _ _. apply susp_good.
    - intros p G O W. apply child_good; auto.
    - intros l F O W. apply (proj1 (ordered_all l)) in O. change (Forall ordinary (flat_map shown l)) in W. apply Forall_flat in W.
      apply children_good. exact (Forall_mp _ _ _ _ F O W).
  Qed.
End Build.
