(** Attributes, texts and handlers that follow reactive values: C80. *)
From Coq Require Import List NArith Bool Lia.
From Verif Require Import DomModel BindModel.
Import ListNotations.
Local Open Scope N_scope.

(** ** Vocabulary: what an application has made and dropped *)

Section Spec.
  Context {T St H : Type}.
  (** A node of the application. *)
  Inductive item :=
  | IsElement (name : T) (attrs : list (T * source T St)) (hs : list (T * hsource St H))
  | IsText (f : T + (St -> T)).
  (** The nodes are numbered from [n] on as they are made; [live] are those there already.  Only nodes
      that are there are dropped. *)
  Fixpoint lawful (n : N) (live : N -> option item) (l : list (step T St H)) : Prop :=
    match l with
    | [] => True
    | NewElement name attrs hs :: l =>
        lawful (n + 1) (fun i => if i =? n then Some (IsElement name attrs hs) else live i) l
    | NewText f :: l => lawful (n + 1) (fun i => if i =? n then Some (IsText f) else live i) l
    | DropElement id :: l =>
        (exists name attrs hs, live id = Some (IsElement name attrs hs)) /\
        lawful n (fun i => if i =? id then None else live i) l
    | DropText id :: l =>
        (exists f, live id = Some (IsText f)) /\ lawful n (fun i => if i =? id then None else live i) l
    | _ :: l => lawful n live l
    end.
  (** The node with a number, after a sequence of steps. *)
  Fixpoint made (n : N) (live : N -> option item) (l : list (step T St H)) : N -> option item :=
    match l with
    | [] => live
    | NewElement name attrs hs :: l =>
        made (n + 1) (fun i => if i =? n then Some (IsElement name attrs hs) else live i) l
    | NewText f :: l => made (n + 1) (fun i => if i =? n then Some (IsText f) else live i) l
    | DropElement id :: l | DropText id :: l => made n (fun i => if i =? id then None else live i) l
    | _ :: l => made n live l
    end.
  (** How many nodes were made. *)
  Fixpoint count (l : list (step T St H)) : N :=
    match l with
    | [] => 0
    | NewElement _ _ _ :: l | NewText _ :: l => 1 + count l
    | _ :: l => count l
    end.
  (** The value an attribute is bound to, when the values of the application are [s]. *)
  Definition value (x : source T St) (s : St) : option T :=
    match x with Fixed v => Some v | Bound f => Some (f s) | BoundOpt f => f s end.
  (** The text a text node is bound to. *)
  Definition text (f : T + (St -> T)) (s : St) : T := match f with inl v => v | inr f => f s end.
  (** The function a handler is bound to. *)
  Definition handler (h : hsource St H) (s : St) : H := match h with HBasic f => f | HComputed f => f s end.
  (** The values of the application after a sequence of steps that began with [s]. *)
  Fixpoint values (s : St) (l : list (step T St H)) : St :=
    match l with
    | [] => s
    | Change s :: l => values s l
    | _ :: l => values s l
    end.
End Spec.
Arguments item : clear implicits.

(** A document without nodes of the application: ids from 4 on are unknown (dom_id.rs:3-6). *)
Definition blank {T} (d : bdom T) : Prop :=
  forall id, 4 <= id -> b_node d id = None /\ b_reg d id = false /\ b_par d id = None.
(** html, head and body (map_nodes.ts:21-41). *)
Definition builtin (id : N) : bool := id <? 4.

(** ** Replay, node by node *)

Lemma Forall2_impl' {A B} (P Q : A -> B -> Prop) l1 l2 :
  (forall a b, P a b -> Q a b) -> Forall2 P l1 l2 -> Forall2 Q l1 l2.
Proof. intros F X. induction X; constructor; auto. Qed.

Section Proofs.
  Context {T St H : Type}.
  Variable teqb : T -> T -> bool.
  Hypothesis teqb_eq : forall a b, teqb a b = true <-> a = b.
  Variable hook cls empty : T.

  Lemma teqb_refl a : teqb a a = true.
  Proof. apply teqb_eq; reflexivity. Qed.
  Lemma teqb_neq a b : a <> b -> teqb a b = false.
  Proof. intro n. destruct (teqb a b) eqn:E; auto. apply teqb_eq in E. contradiction. Qed.
  Lemma teqb_false a b : teqb a b = false -> a <> b.
  Proof. intros E ->. rewrite teqb_refl in E. discriminate. Qed.

  Lemma get_set (l : list (T * T)) k v n :
    battr_get teqb (battr_set teqb l k v) n = if teqb n k then Some v else battr_get teqb l n.
  Proof.
    induction l as [|[k' v'] t IH]; simpl; [reflexivity|].
    destruct (teqb k k') eqn:E; simpl.
    - apply teqb_eq in E. subst k'. destruct (teqb n k); reflexivity.
    - rewrite IH. destruct (teqb n k') eqn:E1; [|reflexivity].
      apply teqb_eq in E1. subst k'. rewrite teqb_neq; [reflexivity|].
      apply teqb_false in E. congruence.
  Qed.
  Lemma get_del (l : list (T * T)) k n :
    battr_get teqb (battr_del teqb l k) n = if teqb n k then None else battr_get teqb l n.
  Proof.
    induction l as [|[k' v'] t IH]; simpl.
    - destruct (teqb n k); reflexivity.
    - destruct (teqb k k') eqn:E; simpl.
      + apply teqb_eq in E. subst k'. rewrite IH. destruct (teqb n k); reflexivity.
      + rewrite IH. destruct (teqb n k') eqn:E1; [|reflexivity].
        apply teqb_eq in E1. subst k'. rewrite teqb_neq; [reflexivity|].
        apply teqb_false in E. congruence.
  Qed.

  (** The node a command is about. *)
  Definition cid (c : dcmd T) : option N :=
    match c with
    | CreateNode id _ | CreateText id _ | UpdateText id _ | SetAttr id _ _ | RemoveAttr id _
    | RemoveNode id | RemoveText id => Some id
    | _ => None
    end.
  Definition about (id : N) (c : dcmd T) : bool := match cid c with Some i => i =? id | None => false end.

  Definition nst := (option (bnode T) * bool)%type.
  Definition nstep (st : nst) (c : dcmd T) : option nst :=
    match c, st with
    | CreateNode _ name, (None, _) => Some (Some (BElement name []), true)
    | CreateText _ v, (None, _) => Some (Some (BText v), true)
    | UpdateText _ v, (Some (BText _), true) => Some (Some (BText v), true)
    | SetAttr _ n v, (Some (BElement name a), true) => Some (Some (BElement name (battr_set teqb a n v)), true)
    | RemoveAttr _ n, (Some (BElement name a), true) => Some (Some (BElement name (battr_del teqb a n)), true)
    | RemoveNode _, (Some x, true) | RemoveText _, (Some x, true) => Some (Some x, false)
    | _, _ => None
    end.
  Fixpoint nrun (st : nst) (l : list (dcmd T)) : option nst :=
    match l with
    | [] => Some st
    | c :: l => match nstep st c with Some st => nrun st l | None => None end
    end.
  Lemma nrun_app l1 : forall st l2,
    nrun st (l1 ++ l2) = match nrun st l1 with Some st => nrun st l2 | None => None end.
  Proof.
    induction l1 as [|c l1 IH]; simpl; intros st l2; [reflexivity|].
    destruct (nstep st c); auto.
  Qed.

  Notation brun := (b_run teqb hook builtin).

  Definition off (d : bdom T) (id : N) : nst := (b_node d id, b_reg d id).

  Lemma step_node d c id st :
    cid c = Some id -> 4 <= id -> (forall i, 4 <= i -> b_par d i = None) ->
    nstep (off d id) c = Some st ->
    exists d', b_step teqb hook builtin d c = Some d' /\ off d' id = st /\
               (forall i, i <> id -> off d' i = off d i) /\
               (forall i, 4 <= i -> b_par d' i = None).
  Proof.
    intros E G P R. unfold off in R.
    assert (B : builtin id = false) by (apply N.ltb_ge; exact G).
    destruct c; simpl in E; try discriminate; injection E as ->; simpl in R |- *;
      unfold b_create, b_remove, b_get, set_node in *; rewrite ?B.
    all: destruct (b_node d id) as [[]|] eqn:En; destruct (b_reg d id) eqn:Er; try discriminate;
      injection R as <-; unfold detach; simpl; rewrite ?(P id G);
      (eexists; split; [reflexivity|]; split; [|split]; simpl;
       [unfold off; simpl; unfold nupd; rewrite ?N.eqb_refl, ?Er, ?En; reflexivity
       |intros i ni; unfold off; simpl; unfold nupd; apply N.eqb_neq in ni; rewrite ?ni; reflexivity
       |exact P]).
  Qed.

  Lemma run_nodes l : forall d,
    (forall c, In c l -> exists id, cid c = Some id /\ 4 <= id) ->
    (forall i, 4 <= i -> b_par d i = None) ->
    (forall id, 4 <= id -> nrun (off d id) (filter (about id) l) <> None) ->
    exists d', brun d l = Some d' /\
      (forall id, 4 <= id -> nrun (off d id) (filter (about id) l) = Some (off d' id)).
  Proof.
    induction l as [|c l IH]; intros d C P R.
    - exists d. split; [reflexivity|]. intros. reflexivity.
    - destruct (C c (or_introl eq_refl)) as (id & E & G).
      assert (A : about id c = true) by (unfold about; rewrite E; apply N.eqb_refl).
      pose proof (R id G) as Ri. simpl in Ri. rewrite A in Ri. simpl in Ri.
      destruct (nstep (off d id) c) as [st|] eqn:Es; [|contradiction].
      destruct (step_node d c id st E G P Es) as (d1 & S1 & O1 & O2 & P1).
      assert (Q : forall i, 4 <= i -> nrun (off d i) (filter (about i) (c :: l)) = nrun (off d1 i) (filter (about i) l)).
      { intros i Gi. simpl. destruct (N.eq_dec i id) as [->|ni].
        - rewrite A. simpl. rewrite Es, O1. reflexivity.
        - replace (about i c) with false.
          + rewrite (O2 i ni). reflexivity.
          + unfold about. rewrite E. symmetry. apply N.eqb_neq. congruence. }
      destruct (IH d1) as (d' & B & F).
      + intros c' I. apply C. right. exact I.
      + exact P1.
      + intros i Gi. rewrite <- (Q i Gi). apply R. exact Gi.
      + exists d'. split.
        * simpl. rewrite S1. exact B.
        * intros i Gi. rewrite (Q i Gi). apply F. exact Gi.
  Qed.

  (** ** Sorting does not matter *)

  (** Removals come last. *)
  Fixpoint elast (l : list (dcmd T)) : bool :=
    match l with [] => true | c :: t => if is_event c then forallb is_event t else elast t end.
  Definition quiet (l : list (dcmd T)) : bool := forallb (fun c => negb (is_event c)) l.

  Lemma elast_events l : forallb is_event l = true -> elast l = true.
  Proof.
    destruct l as [|c l]; simpl; [reflexivity|]. intro E. apply andb_prop in E. destruct E as [E1 E2].
    rewrite E1. exact E2.
  Qed.
  Lemma elast_suffix a b : elast (a ++ b) = true -> elast b = true.
  Proof.
    induction a as [|c a IH]; simpl; [auto|].
    destruct (is_event c); auto. rewrite forallb_app. intro E. apply andb_prop in E.
    apply elast_events, E.
  Qed.
  Lemma elast_quiet a e : quiet a = true -> is_event e = true -> elast (a ++ [e]) = true.
  Proof.
    unfold quiet. induction a as [|c a IH]; simpl; intros Q E.
    - rewrite E. reflexivity.
    - apply andb_prop in Q. destruct Q as [Q1 Q2]. destruct (is_event c); [discriminate|]. auto.
  Qed.
  Lemma quiet_elast a : quiet a = true -> elast a = true.
  Proof.
    unfold quiet. induction a as [|c a IH]; simpl; intro Q; [reflexivity|].
    apply andb_prop in Q. destruct Q as [Q1 Q2]. destruct (is_event c); [discriminate|]. auto.
  Qed.
  Lemma elast_split l :
    elast l = true -> filter (fun c => negb (is_event c)) l ++ filter is_event l = l.
  Proof.
    induction l as [|c l IH]; simpl; [reflexivity|].
    destruct (is_event c) eqn:E; simpl; intro L.
    - assert (X : filter (fun c => negb (is_event c)) l = [] /\ filter is_event l = l).
      { clear IH. induction l as [|d l IH]; simpl in *; [split; reflexivity|].
        apply andb_prop in L. destruct L as [L1 L2]. rewrite L1. simpl.
        destruct (IH L2) as [-> ->]. split; reflexivity. }
      destruct X as [-> ->]. reflexivity.
    - f_equal. apply IH. exact L.
  Qed.
  Lemma sort_loop_spec (l : list (dcmd T)) : forall d e,
    sort_loop l d e = (d ++ filter (fun c => negb (is_event c)) l, e ++ filter is_event l).
  Proof.
    induction l as [|c l IH]; simpl; intros d e.
    - rewrite !app_nil_r. reflexivity.
    - destruct (is_event c); simpl; rewrite IH, <- app_assoc; reflexivity.
  Qed.
  Lemma filter_comm {A} (f g : A -> bool) l : filter f (filter g l) = filter g (filter f l).
  Proof.
    induction l as [|x l IH]; simpl; [reflexivity|].
    destruct (g x) eqn:G; simpl; destruct (f x) eqn:F; simpl; rewrite ?G, ?IH; reflexivity.
  Qed.
  Lemma sort_about id (l : list (dcmd T)) :
    elast (filter (about id) l) = true -> filter (about id) (sort_commands l) = filter (about id) l.
  Proof.
    intro L. unfold sort_commands. rewrite sort_loop_spec. simpl.
    rewrite filter_app, (filter_comm (about id)), (filter_comm (about id) is_event).
    apply elast_split. exact L.
  Qed.

  (** ** The invariant *)

  (** All commands about a node, in the order in which the browser gets them. *)
  Definition cmds (q : queue T) : list (dcmd T) := concat (q_sent q) ++ q_cmds q.
  Definition hist (q : queue T) (id : N) : list (dcmd T) := filter (about id) (cmds q).

  Lemma hist_add q c id : hist (q_add q c) id = hist q id ++ (if about id c then [c] else []).
  Proof.
    unfold hist, cmds. simpl. rewrite app_assoc, filter_app. simpl.
    destruct (about id c); reflexivity.
  Qed.
  Lemma hist_flush q id : elast (hist q id) = true -> hist (q_flush_inner q) id = hist q id.
  Proof.
    unfold hist, cmds, q_flush_inner. intro L. rewrite filter_app in L. apply elast_suffix in L.
    destruct (q_cmds q) as [|c l] eqn:E; [rewrite E; reflexivity|].
    cbn [q_sent q_cmds]. rewrite concat_app, !filter_app. cbn [concat].
    rewrite !app_nil_r, sort_about; [|exact L]. reflexivity.
  Qed.

  Definition shown (a : list (T * T)) (c : @clsm T) (n : T) : option T :=
    if teqb n cls then cm_last c else battr_get teqb a n.

  Definition targets1 (x : T * source T St) : list (@target T St H) :=
    match snd x with
    | Fixed _ => []
    | Bound f => [ToAttr (fst x) (fun s => Some (f s))]
    | BoundOpt f => [ToAttr (fst x) f]
    end.
  Definition targets (attrs : list (T * source T St)) := flat_map targets1 attrs.
  Definition htargets1 (x : T * hsource St H) : list (@target T St H) :=
    match snd x with HBasic _ => [] | HComputed f => [ToHandler f] end.
  Definition htargets (hs : list (T * hsource St H)) := flat_map htargets1 hs.

  Notation sub := (@sub T St H).
  Notation hentry := (N * T * @hcell H)%type.
  Notation world := (world T St H).

  Definition hok (s : St) (pend : list N) (ss : list sub) (id : N) (x : T * hsource St H) (e : hentry) : Prop :=
    fst (fst e) = id /\ snd (fst e) = fst x /\
    match snd x, snd e with
    | HBasic f, HFun g => g = f
    | HComputed f, HCell k c =>
        exists sb, In sb ss /\ sb_key sb = k /\ sb_to sb = ToHandler f /\ (In k pend \/ c = Some (f s))
    | _, _ => False
    end.

  Record AOk (s : St) (pend : list N) (attrs : list (T * source T St)) (a : list (T * T)) (ss : list sub)
             (c : @clsm T) : Prop := {
    ao_none : forall n, ~ In n (map fst attrs) -> shown a c n = None;
    ao_cls : ~ In cls (map fst attrs) -> battr_get teqb a cls = None;
    ao_fixed : forall n v, In (n, Fixed v) attrs -> shown a c n = Some v;
    ao_sub : forall sb n f, In sb ss -> sb_to sb = ToAttr n f ->
        sb_prev sb = Some (shown a c n) /\ (In (sb_key sb) pend \/ shown a c n = f s)
  }.
  Record EOk (s : St) (pend : list N) (id : N) (name : T) (attrs : list (T * source T St))
             (hs : list (T * hsource St H)) (h : list (dcmd T)) (ss : list sub) (c : @clsm T)
             (hd : list hentry) : Prop := {
    eo_quiet : quiet h = true;
    eo_run : exists a, nrun (None, false) h = Some (Some (BElement name a), true) /\
        match cm_last c with
        | None => battr_get teqb a cls = None \/ battr_get teqb a cls = Some empty
        | Some v => battr_get teqb a cls = Some v
        end /\
        (NoDup (map fst attrs) -> AOk s pend attrs a ss c);
    eo_subs : map sb_to ss = targets attrs ++ htargets hs;
    eo_hand : Forall2 (hok s pend ss id) hs hd
  }.
  Record TOk (s : St) (pend : list N) (f : T + (St -> T)) (h : list (dcmd T)) (ss : list sub)
             (hd : list hentry) : Prop := {
    to_quiet : quiet h = true;
    to_run : exists v, nrun (None, false) h = Some (Some (BText v), true) /\
       match f with
       | inl v0 => v = v0 /\ ss = []
       | inr f => exists sb, ss = [sb] /\ sb_to sb = ToText f /\ sb_prev sb = Some (Some v) /\
                             (In (sb_key sb) pend \/ v = f s)
       end;
    to_hand : hd = []
  }.
  Record Dead (h : list (dcmd T)) (ss : list sub) (hd : list hentry) : Prop := {
    de_last : elast h = true;
    de_run : exists n, nrun (None, false) h = Some (n, false);
    de_subs : ss = [];
    de_hand : hd = []
  }.
  Definition Fresh (h : list (dcmd T)) (ss : list sub) (hd : list hentry) : Prop := h = [] /\ ss = [] /\ hd = [].

  Definition subs_of (l : list sub) (id : N) : list sub := filter (fun s => sb_id s =? id) l.
  Definition hand_of (l : list hentry) (id : N) : list hentry := filter (fun e => fst (fst e) =? id) l.

  Definition IOk (s : St) (pend : list N) (next id : N) (it : option (item T St H)) (h : list (dcmd T))
             (ss : list sub) (c : @clsm T) (hd : list hentry) : Prop :=
    match it with
    | Some (IsElement name attrs hs) => 4 <= id < next /\ EOk s pend id name attrs hs h ss c hd
    | Some (IsText f) => 4 <= id < next /\ TOk s pend f h ss hd
    | None => if (4 <=? id) && (id <? next) then Dead h ss hd else Fresh h ss hd
    end.

  Record Inv (live : N -> option (item T St H)) (w : world) : Prop := {
    v_item : forall id, IOk (w_s w) (w_pend w) (w_next w) id (live id) (hist (w_q w) id)
                            (subs_of (w_subs w) id) (w_class w id) (hand_of (w_hand w) id);
    v_cmds : forall c, In c (cmds (w_q w)) -> exists id, cid c = Some id /\ 4 <= id;
    v_next : 4 <= w_next w;
    v_keys : NoDup (map sb_key (w_subs w));
    v_key : forall sb, In sb (w_subs w) -> sb_key sb < w_keys w
  }.

  Lemma iok_elast s pend next id it h ss c hd : IOk s pend next id it h ss c hd -> elast h = true.
  Proof.
    unfold IOk. destruct it as [[name attrs hs|f]|].
    - intros [_ E]. apply quiet_elast, E.
    - intros [_ E]. apply quiet_elast, E.
    - destruct (_ && _); [intro E; apply E|]. intros [-> _]. reflexivity.
  Qed.
  Lemma iok_run s pend next id it h ss c hd : IOk s pend next id it h ss c hd -> nrun (None, false) h <> None.
  Proof.
    unfold IOk. destruct it as [[name attrs hs|f]|].
    - intros [_ E]. destruct (eo_run _ _ _ _ _ _ _ _ _ _ E) as (a & -> & _). discriminate.
    - intros [_ E]. destruct (to_run _ _ _ _ _ _ E) as (a & -> & _). discriminate.
    - destruct (_ && _).
      + intro E. destruct (de_run _ _ _ E) as (n & ->). discriminate.
      + intros [-> _]. discriminate.
  Qed.

  (** *** Sending *)
  Lemma inv_queue live w q :
    Inv live w -> (forall id, hist q id = hist (w_q w) id) ->
    (forall c, In c (cmds q) -> In c (cmds (w_q w))) -> Inv live (set_q w q).
  Proof.
    intros [I C N K L] E S. constructor; simpl; auto.
    intro id. rewrite E. apply I.
  Qed.
  Lemma in_sort c (l : list (dcmd T)) : In c (sort_commands l) -> In c l.
  Proof.
    unfold sort_commands. rewrite sort_loop_spec. simpl. rewrite in_app_iff, !filter_In. tauto.
  Qed.
  Lemma inv_flush_inner live w q0 :
    Inv live w -> cmds q0 = cmds (w_q w) -> Inv live (set_q w (q_flush_inner q0)).
  Proof.
    intros I E. apply inv_queue; [exact I| |].
    - intro id. rewrite hist_flush.
      + unfold hist. rewrite E. reflexivity.
      + unfold hist. rewrite E. exact (iok_elast _ _ _ _ _ _ _ _ _ (v_item _ _ I id)).
    - intros c. rewrite <- E. unfold cmds, q_flush_inner.
      destruct (q_cmds q0) as [|x l] eqn:El; [rewrite El; auto|].
      cbn [q_sent q_cmds]. rewrite concat_app, !in_app_iff. cbn [concat]. rewrite app_nil_r.
      intros [[X|X]|[]]; [left; exact X|]. right. apply in_sort in X. exact X.
  Qed.
  Lemma inv_flush live w : Inv live w -> Inv live (set_q w (q_flush (w_q w))).
  Proof.
    intro I. unfold q_flush. destruct (q_state (w_q w)).
    - apply inv_queue; auto.
    - apply inv_flush_inner; auto.
  Qed.
  Lemma inv_up live w q : Inv live w -> q_up (w_q w) = Some q -> Inv live (set_q w q).
  Proof.
    intros I E. unfold q_up in E. destruct (q_state (w_q w)).
    - destruct (_ <? _); [|discriminate]. injection E as <-. apply inv_queue; auto.
    - injection E as <-. apply inv_queue; auto.
  Qed.
  Lemma inv_down live w q : Inv live w -> q_down (w_q w) = Some q -> Inv live (set_q w q).
  Proof.
    intros I E. unfold q_down in E. destruct (q_state (w_q w)) as [n|].
    - destruct (n =? 0); [discriminate|]. destruct (_ =? 0); injection E as <-.
      + apply inv_flush_inner; [exact I|reflexivity].
      + apply inv_queue; auto.
    - injection E as <-. apply inv_queue; auto.
  Qed.

  (** *** Setting an attribute *)
  Definition crel (a : list (T * T)) (c : @clsm T) : Prop :=
    match cm_last c with
    | None => battr_get teqb a cls = None \/ battr_get teqb a cls = Some empty
    | Some v => battr_get teqb a cls = Some v
    end.

  Lemma oeqb_eq a b : oeqb teqb a b = true <-> a = b.
  Proof.
    destruct a, b; simpl; split; intro E; try discriminate; auto.
    - apply teqb_eq in E. congruence.
    - apply teqb_eq. congruence.
  Qed.

  (** Nothing but the commands and the class of one node changes. *)
  Record Only (id : N) (w w1 : world) : Prop := {
    on_s : w_s w1 = w_s w; on_next : w_next w1 = w_next w; on_keys : w_keys w1 = w_keys w;
    on_subs : w_subs w1 = w_subs w; on_pend : w_pend w1 = w_pend w; on_hand : w_hand w1 = w_hand w;
    on_hist : forall i, i <> id -> hist (w_q w1) i = hist (w_q w) i;
    on_class : forall i, i <> id -> w_class w1 i = w_class w i;
    on_cmds : forall c, In c (cmds (w_q w1)) -> In c (cmds (w_q w)) \/ cid c = Some id
  }.

  Lemma only_emit id (w : world) c : cid c = Some id -> Only id w (emit w c).
  Proof.
    intro E. constructor; try reflexivity.
    - intros i n. unfold emit, set_q. simpl. rewrite hist_add. unfold about. rewrite E.
      replace (id =? i) with false by (symmetry; apply N.eqb_neq; congruence). apply app_nil_r.
    - unfold emit, set_q. simpl. intros c'. unfold cmds. simpl. rewrite app_assoc, in_app_iff. simpl.
      intros [X|[<-|[]]]; [left; exact X|right; exact E].
  Qed.
  Lemma hist_emit id (w : world) c : cid c = Some id -> hist (w_q (emit w c)) id = hist (w_q w) id ++ [c].
  Proof.
    intro E. unfold emit, set_q. simpl. rewrite hist_add. unfold about. rewrite E, N.eqb_refl. reflexivity.
  Qed.
  Lemma quiet_snoc h c : quiet h = true -> is_event c = false -> quiet (h ++ [c]) = true.
  Proof. unfold quiet. intros Q E. rewrite forallb_app, Q. simpl. rewrite E. reflexivity. Qed.

  Lemma set_attr_only id n v w : Only id w (set_attr_value teqb cls empty w id n v).
  Proof.
    unfold set_attr_value, class_refresh. destruct (teqb n cls).
    - destruct (oeqb teqb (cm_last (w_class w id)) v).
      + constructor; try reflexivity.
        * intros i ni. simpl. unfold nupd. apply N.eqb_neq in ni. rewrite ni. reflexivity.
        * simpl. auto.
      + match goal with |- Only _ _ (emit ?w1 ?c) => destruct (only_emit id w1 c eq_refl) end.
        constructor; auto.
        intros i ni. simpl. unfold nupd. apply N.eqb_neq in ni. rewrite ni. reflexivity.
    - destruct v; apply only_emit; reflexivity.
  Qed.

  Lemma set_attr_node id n v (w : world) name a :
    let w1 := set_attr_value teqb cls empty w id n v in
    quiet (hist (w_q w) id) = true ->
    nrun (None, false) (hist (w_q w) id) = Some (Some (BElement name a), true) ->
    crel a (w_class w id) ->
    quiet (hist (w_q w1) id) = true /\
    exists a1, nrun (None, false) (hist (w_q w1) id) = Some (Some (BElement name a1), true) /\
      crel a1 (w_class w1 id) /\
      shown a1 (w_class w1 id) n = v /\
      (n <> cls -> battr_get teqb a1 cls = battr_get teqb a cls) /\
      (forall n', n' <> n -> shown a1 (w_class w1 id) n' = shown a (w_class w id) n').
  Proof.
    intros w1 Q R C. unfold w1, set_attr_value, class_refresh. destruct (teqb n cls) eqn:En.
    - apply teqb_eq in En. subst n. destruct (oeqb teqb (cm_last (w_class w id)) v) eqn:Eo.
      + apply oeqb_eq in Eo. split; [exact Q|]. exists a. split; [exact R|]. simpl. unfold nupd, crel, shown.
        rewrite N.eqb_refl. simpl. rewrite teqb_refl. split; [exact C|]. split; [exact Eo|]. split; [congruence|].
        intros n' ni. rewrite (teqb_neq _ _ ni). reflexivity.
      + rewrite hist_emit by reflexivity. split; [apply quiet_snoc; [exact Q|reflexivity]|].
        rewrite nrun_app. simpl w_q. rewrite R. simpl.
        eexists. split; [reflexivity|]. unfold nupd, crel, shown. rewrite N.eqb_refl. simpl.
        rewrite teqb_refl. split; [|split; [reflexivity|split; [congruence|]]].
        * destruct v; rewrite get_set, teqb_refl; [reflexivity|right; reflexivity].
        * intros n' ni. rewrite (teqb_neq _ _ ni), get_set, (teqb_neq _ _ ni). reflexivity.
    - assert (N' : cls <> n) by (intros <-; rewrite teqb_refl in En; discriminate).
      destruct v as [v|]; rewrite hist_emit by reflexivity;
        (split; [apply quiet_snoc; [exact Q|reflexivity]|]);
        rewrite nrun_app, R; simpl; (eexists; split; [reflexivity|]); unfold crel, shown in *;
        rewrite En, ?get_set, ?get_del, ?teqb_refl, ?(teqb_neq _ _ N');
        (split; [exact C|]); (split; [reflexivity|]); (split; [reflexivity|]);
        intros n' ni; rewrite ?get_set, ?get_del, (teqb_neq _ _ ni); reflexivity.
  Qed.

  (** *** Frames *)
  Definition upd (live : N -> option (item T St H)) (id : N) (it : option (item T St H)) :=
    fun i => if i =? id then it else live i.

  Lemma inv_ext live live' w : (forall i, live i = live' i) -> Inv live w -> Inv live' w.
  Proof. intros E [I C N K L]. constructor; auto. intro id. rewrite <- E. apply I. Qed.

  Lemma hok_mono s p p' ss ss' id x e :
    (forall sb, In sb ss -> In (sb_key sb) p -> In (sb_key sb) p') ->
    (forall sb, In sb ss -> In sb ss') -> hok s p ss id x e -> hok s p' ss' id x e.
  Proof.
    intros M I (E1 & E2 & E3). split; [exact E1|]. split; [exact E2|].
    destruct (snd x), (snd e); auto. destruct E3 as (sb & X1 & X2 & X3 & X4).
    exists sb. split; [auto|]. split; [exact X2|]. split; [exact X3|].
    destruct X4 as [X4|X4]; [left|right; exact X4]. rewrite <- X2 in *. apply M; auto.
  Qed.
  Lemma iok_pend s p p' next next' id it h ss c hd :
    (forall sb, In sb ss -> In (sb_key sb) p -> In (sb_key sb) p') ->
    next <= next' -> (4 <= next' - 1 -> id = next' - 1 -> next' = next) -> next' <= next + 1 ->
    IOk s p next id it h ss c hd -> IOk s p' next' id it h ss c hd.
  Proof.
    intros M L1 L2 L3. unfold IOk. destruct it as [[name attrs hs|f]|].
    - intros [B E]. split; [lia|]. destruct E as [E1 (a & E2 & E3 & E4) E5 E6]. constructor; auto.
      + exists a. split; [exact E2|]. split; [exact E3|]. intro D. destruct (E4 D) as [A1 A0 A2 A3].
        constructor; auto. intros sb n f I1 I2. destruct (A3 sb n f I1 I2) as [B1 [B2|B2]]; auto.
      + eapply Forall2_impl'; [|exact E6]. intros x e. apply hok_mono; auto.
    - intros [B E]. split; [lia|]. destruct E as [E1 (a & E2 & E3) E4]. constructor; auto.
      exists a. split; [exact E2|]. destruct f; [exact E3|]. destruct E3 as (sb & -> & X1 & X2 & X3).
      exists sb. split; [reflexivity|]. split; [exact X1|]. split; [exact X2|].
      destruct X3 as [X3|X3]; [left; apply M; simpl; auto|right; exact X3].
    - replace ((4 <=? id) && (id <? next')) with ((4 <=? id) && (id <? next)); [auto|].
      destruct (4 <=? id) eqn:E4; simpl; [|reflexivity].
      apply N.leb_le in E4.
      destruct (id <? next) eqn:E1, (id <? next') eqn:E2; auto;
        rewrite ?N.ltb_lt, ?N.ltb_ge in *; lia.
  Qed.

  Lemma inv_frame live w w' id it :
    Inv live w -> 4 <= id -> w_s w' = w_s w ->
    (forall i, i <> id -> hist (w_q w') i = hist (w_q w) i /\ subs_of (w_subs w') i = subs_of (w_subs w) i /\
                          w_class w' i = w_class w i /\ hand_of (w_hand w') i = hand_of (w_hand w) i) ->
    (forall sb, In sb (w_subs w) -> sb_id sb <> id -> In (sb_key sb) (w_pend w) -> In (sb_key sb) (w_pend w')) ->
    (w_next w' = w_next w \/ (w_next w' = w_next w + 1 /\ id = w_next w)) ->
    (forall c, In c (cmds (w_q w')) -> In c (cmds (w_q w)) \/ cid c = Some id) ->
    NoDup (map sb_key (w_subs w')) -> (forall sb, In sb (w_subs w') -> sb_key sb < w_keys w') ->
    IOk (w_s w') (w_pend w') (w_next w') id it (hist (w_q w') id) (subs_of (w_subs w') id) (w_class w' id)
        (hand_of (w_hand w') id) ->
    Inv (upd live id it) w'.
  Proof.
    intros I G Es F P N C K L O. constructor; auto.
    - intro i. unfold upd. destruct (N.eq_dec i id) as [->|ni].
      + rewrite N.eqb_refl. exact O.
      + replace (i =? id) with false by (symmetry; apply N.eqb_neq; exact ni).
        destruct (F i ni) as (-> & -> & -> & ->). rewrite Es.
        apply iok_pend with (p := w_pend w) (next := w_next w); [| | | |apply I].
        * intros sb X. apply filter_In in X. destruct X as [X1 X2]. apply N.eqb_eq in X2.
          apply P; [exact X1|congruence].
        * lia.
        * intros _ X. destruct N as [N|[N1 N2]]; [exact N|]. lia.
        * lia.
    - intros c X. destruct (C c X) as [Y|Y]; [apply (v_cmds _ _ I c Y)|].
      exists id. auto.
    - pose proof (v_next _ _ I). lia.
  Qed.

  (** *** Names *)
  Definition tname (t : @target T St H) : list T := match t with ToAttr n _ => [n] | _ => [] end.

  Lemma targets_app a b : targets (a ++ b) = targets a ++ targets b.
  Proof. unfold targets. rewrite flat_map_app. reflexivity. Qed.
  Lemma htargets_app a b : htargets (a ++ b) = htargets a ++ htargets b.
  Proof. unfold htargets. rewrite flat_map_app. reflexivity. Qed.
  Lemma htargets_names hs : flat_map tname (htargets hs) = [].
  Proof.
    induction hs as [|[e [h|f]] hs IH]; simpl; auto.
  Qed.
  Lemma targets_in attrs n f : In (ToAttr n f) (targets attrs) ->
    exists x, In (n, x) attrs /\ (forall v, x <> Fixed v) /\ forall s, f s = value x s.
  Proof.
    unfold targets. rewrite in_flat_map. intros ([n' x] & I & J).
    destruct x; simpl in J; try contradiction; destruct J as [J|[]]; injection J as <- <-;
      (eexists; split; [exact I|split; [discriminate|reflexivity]]).
  Qed.
  Lemma targets_names attrs : NoDup (map fst attrs) -> NoDup (flat_map tname (targets attrs)).
  Proof.
    induction attrs as [|[n x] attrs IH]; simpl; intro D; [constructor|].
    inversion D as [|? ? D1 D2]; subst. rewrite flat_map_app.
    assert (X : ~ In n (flat_map tname (targets attrs))).
    { intro Y. apply in_flat_map in Y. destruct Y as (t & Y1 & Y2).
      destruct t as [n' f'| |]; simpl in Y2; try contradiction. destruct Y2 as [<-|[]].
      apply targets_in in Y1. destruct Y1 as (x' & Z & _). apply D1. exact (in_map fst _ _ Z). }
    destruct x; simpl; auto; constructor; auto.
  Qed.
  Lemma sub_name ss attrs hs sb n f :
    map sb_to ss = targets attrs ++ htargets hs -> In sb ss -> sb_to sb = ToAttr n f ->
    exists x, In (n, x) attrs /\ (forall v, x <> Fixed v) /\ forall s, f s = value x s.
  Proof.
    intros E I Et. apply (in_map sb_to) in I. rewrite E, Et, in_app_iff in I. destruct I as [I|I].
    - apply targets_in. exact I.
    - exfalso. assert (X : In n (flat_map tname (htargets hs))).
      { apply in_flat_map. exists (ToAttr n f). split; [exact I|left; reflexivity]. }
      rewrite htargets_names in X. destruct X.
  Qed.
  Lemma in_pair_inj {A B} (l : list (A * B)) n x y :
    NoDup (map fst l) -> In (n, x) l -> In (n, y) l -> x = y.
  Proof.
    induction l as [|[n' z] l IH]; simpl; intros D I J; [contradiction|].
    inversion D as [|? ? D1 D2]; subst.
    destruct I as [I|I], J as [J|J].
    - congruence.
    - injection I as -> ->. elim D1. exact (in_map fst _ _ J).
    - injection J as -> ->. elim D1. exact (in_map fst _ _ I).
    - auto.
  Qed.
  Lemma NoDup_app_l {A} (a b : list A) : NoDup (a ++ b) -> NoDup a.
  Proof.
    induction a as [|x a IH]; simpl; intro D; [constructor|]. inversion D as [|? ? D1 D2]; subst.
    constructor; [|auto]. intro X. apply D1. apply in_app_iff. left. exact X.
  Qed.
  Lemma NoDup_snoc {A} (a : list A) x : NoDup (a ++ [x]) -> ~ In x a.
  Proof.
    intros D X. apply NoDup_remove_2 in D. apply D. rewrite app_nil_r. exact X.
  Qed.
  Lemma NoDup_add {A} (a : list A) x : NoDup a -> ~ In x a -> NoDup (a ++ [x]).
  Proof.
    induction a as [|y a IH]; simpl; intros D N; [constructor; auto; constructor|].
    inversion D as [|? ? D1 D2]; subst. constructor.
    - rewrite in_app_iff. simpl. intros [X|[X|[]]]; [auto|]. apply N. left. congruence.
    - apply IH; auto.
  Qed.

  (** *** Making an element *)
  Lemma subs_snoc l x id :
    subs_of (l ++ [x]) id = subs_of l id ++ (if sb_id x =? id then [x] else []).
  Proof. unfold subs_of. rewrite filter_app. simpl. destruct (_ =? _); reflexivity. Qed.
  Lemma hand_snoc l x id :
    hand_of (l ++ [x]) id = hand_of l id ++ (if fst (fst x) =? id then [x] else []).
  Proof. unfold hand_of. rewrite filter_app. simpl. destruct (_ =? _); reflexivity. Qed.

  Lemma add_attr_inv live w id name attrs x :
    Inv live w -> live id = Some (IsElement name attrs []) ->
    Inv (upd live id (Some (IsElement name (attrs ++ [x]) []))) (add_attr teqb cls empty w id x).
  Proof.
    intros I E. pose proof (v_item _ _ I id) as O. rewrite E in O. simpl in O.
    destruct O as [B [Q (a & R & C & A) S X]].
    destruct x as [n x].
    assert (V : exists t, let w1 := set_attr_value teqb cls empty w id n (value x (w_s w)) in
              add_attr teqb cls empty w id (n, x) =
              World (w_s w1) (w_next w1) (match t with None => w_keys w1 | Some _ => w_keys w1 + 1 end)
                (w_subs w1 ++ match t with None => [] | Some t => [Sub (w_keys w) id t (Some (value x (w_s w)))] end)
                (w_pend w1) (w_class w1) (w_hand w1) (w_q w1) /\
              match t with
              | None => exists v, x = Fixed v
              | Some t => exists f, t = ToAttr n f /\ targets1 (n, x) = [t] /\ (forall s, f s = value x s) /\
                                    forall v, x <> Fixed v
              end).
    { destruct x as [v|f|f].
      - exists None. simpl. rewrite app_nil_r. split; [|eauto].
        change (add_attr teqb cls empty w id (n, Fixed v)) with (set_attr_value teqb cls empty w id n (Some v)).
        destruct (set_attr_value teqb cls empty w id n (Some v)). reflexivity.
      - exists (Some (ToAttr n (fun s => Some (f s)))). split; [reflexivity|].
        exists (fun s => Some (f s)). split; [reflexivity|]. split; [reflexivity|].
        split; [reflexivity|discriminate].
      - exists (Some (ToAttr n f)). split; [reflexivity|].
        exists f. split; [reflexivity|]. split; [reflexivity|]. split; [reflexivity|discriminate]. }
    destruct V as (t & -> & V). remember (set_attr_value teqb cls empty w id n (value x (w_s w))) as w1 eqn:Ew.
    pose proof (set_attr_only id n (value x (w_s w)) w) as ON. rewrite <- Ew in ON. destruct ON.
    pose proof (set_attr_node id n (value x (w_s w)) w name a Q R C) as SN.
    cbv zeta in SN. rewrite <- Ew in SN. destruct SN as (Q1 & a1 & R1 & C1 & Sn & Sc & So).
    assert (SS : subs_of (w_subs w1 ++ match t with None => [] | Some t => [Sub (w_keys w) id t (Some (value x (w_s w)))] end) id
              = subs_of (w_subs w) id ++ match t with None => [] | Some t => [Sub (w_keys w) id t (Some (value x (w_s w)))] end).
    { rewrite on_subs0. destruct t; [|rewrite !app_nil_r; reflexivity]. rewrite subs_snoc. simpl.
      rewrite N.eqb_refl. reflexivity. }
    apply inv_frame with (w := w); simpl; auto.
    - lia.
    - intros i ni. split; [auto|]. split; [|split; [auto|rewrite on_hand0; reflexivity]].
      rewrite on_subs0. destruct t; [|rewrite app_nil_r; reflexivity]. rewrite subs_snoc. simpl.
      replace (id =? i) with false by (symmetry; apply N.eqb_neq; congruence). apply app_nil_r.
    - intros. rewrite on_pend0. assumption.
    - rewrite on_subs0. destruct t; simpl; [|rewrite app_nil_r; apply I].
      rewrite map_app. simpl. apply NoDup_add; [apply I|]. intro Y. apply in_map_iff in Y.
      destruct Y as (sb & Y1 & Y2). apply (v_key _ _ I) in Y2. lia.
    - intros sb. rewrite on_subs0, on_keys0, in_app_iff. intros [Y|Y].
      + apply (v_key _ _ I) in Y. destruct t; lia.
      + destruct t; [|destruct Y]. destruct Y as [<-|[]]. simpl. lia.
    - split; [lia|]. rewrite on_s0, on_pend0, on_hand0, SS. constructor.
      + exact Q1.
      + exists a1. split; [exact R1|]. split; [exact C1|]. intro D. rewrite map_app in D. simpl in D.
        pose proof (NoDup_snoc _ _ D) as Nn. apply NoDup_app_l in D. destruct (A D) as [A1 A0 A2 A3].
        constructor.
        * intros n'. rewrite map_app, in_app_iff. simpl. intro Z. rewrite So; [apply A1|]; intuition congruence.
        * rewrite map_app, in_app_iff. simpl. intro Z. rewrite Sc; [apply A0|]; intuition congruence.
        * intros n' v Z. rewrite in_app_iff in Z. destruct Z as [Z|[Z|[]]].
          -- rewrite So; [apply A2; exact Z|]. intros ->. apply Nn. exact (in_map fst _ _ Z).
          -- injection Z as -> ->. exact Sn.
        * intros sb n' f Z Zt. apply in_app_iff in Z. destruct Z as [Z|Z].
          -- destruct (sub_name _ _ _ _ _ _ S Z Zt) as (x' & Z1 & _).
             rewrite So; [apply A3; auto|]. intros ->. apply Nn. exact (in_map fst _ _ Z1).
          -- destruct t as [t|]; [|destruct Z]. destruct Z as [<-|[]]. simpl in Zt |- *. destruct V as (f' & -> & _ & V & _).
             injection Zt as -> ->. rewrite Sn. split; [reflexivity|]. right. symmetry. apply V.
      + rewrite map_app, S, targets_app. simpl. rewrite !app_nil_r. f_equal. destruct t as [t|].
        * destruct V as (f & -> & -> & _). reflexivity.
        * destruct V as (v & ->). reflexivity.
      + eapply Forall2_impl'; [|exact X]. intros y e. apply hok_mono; [auto|].
        intros sb Y. apply in_app_iff. left. exact Y.
  Qed.

  Lemma put_hand (l : list hentry) k h i : hand_of (put_handler l k h) i = put_handler (hand_of l i) k h.
  Proof.
    induction l as [|[[j ev] c] l IH]; simpl; [reflexivity|].
    destruct c as [g|k' c]; simpl.
    - destruct (j =? i); simpl; rewrite IH; reflexivity.
    - destruct (k' =? k) eqn:Ek; simpl; destruct (j =? i); simpl; rewrite ?Ek, IH; reflexivity.
  Qed.
  Lemma put_same (l : list hentry) key h :
    (forall e k c, In e l -> snd e = HCell k c -> k <> key) -> put_handler l key h = l.
  Proof.
    induction l as [|e l IH]; simpl; intro N; [reflexivity|].
    rewrite IH by (intros; eapply N; eauto). f_equal.
    destruct (snd e) as [|k c] eqn:E; [reflexivity|].
    rewrite (proj2 (N.eqb_neq k key)); [reflexivity|]. eapply N; eauto.
  Qed.
  Lemma Forall2_in_r {A B} (P : A -> B -> Prop) l1 l2 b :
    Forall2 P l1 l2 -> In b l2 -> exists a, In a l1 /\ P a b.
  Proof.
    induction 1; simpl; [contradiction|]. intros [<-|J]; [eauto|].
    destruct (IHForall2 J) as (z & Z1 & Z2). eauto.
  Qed.
  Lemma hand_keys live w : Inv live w -> forall i e k c,
    In e (hand_of (w_hand w) i) -> snd e = HCell k c -> exists sb, In sb (subs_of (w_subs w) i) /\ sb_key sb = k.
  Proof.
    intros I i e k c J E. pose proof (v_item _ _ I i) as O. unfold IOk in O.
    destruct (live i) as [[name attrs hs|f]|].
    - destruct O as [_ O]. destruct (Forall2_in_r _ _ _ _ (eo_hand _ _ _ _ _ _ _ _ _ _ O) J) as (x & _ & _ & _ & X).
      rewrite E in X. destruct (snd x); [contradiction|]. destruct X as (sb & X1 & X2 & _). eauto.
    - destruct O as [_ O]. rewrite (to_hand _ _ _ _ _ _ O) in J. destruct J.
    - destruct (_ && _).
      + rewrite (de_hand _ _ _ O) in J. destruct J.
      + destruct O as (_ & _ & O). rewrite O in J. destruct J.
  Qed.

  Lemma add_handler_inv live w id name attrs hs x :
    Inv live w -> live id = Some (IsElement name attrs hs) ->
    Inv (upd live id (Some (IsElement name attrs (hs ++ [x])))) (add_handler teqb cls empty w id x).
  Proof.
    intros I E. pose proof (v_item _ _ I id) as O. rewrite E in O. simpl in O.
    destruct O as [B [Q (a & R & C & A) S X]].
    destruct x as [ev [h|f]]; unfold add_handler; simpl.
    - apply inv_frame with (w := w); simpl; auto; try apply I.
      + lia.
      + intros i ni. repeat split. rewrite hand_snoc. simpl.
        replace (id =? i) with false by (symmetry; apply N.eqb_neq; congruence). apply app_nil_r.
      + split; [lia|]. constructor; auto.
        * exists a. auto.
        * rewrite htargets_app. simpl. rewrite app_nil_r. exact S.
        * rewrite hand_snoc. simpl. rewrite N.eqb_refl. apply Forall2_app; [exact X|].
          constructor; [|constructor]. repeat split; reflexivity.
    - unfold subscribe. simpl. unfold set_hand. simpl.
      assert (PH : forall i, i <> id -> hand_of (put_handler (w_hand w ++ [(id, ev, HCell (w_keys w) None)]) (w_keys w) (f (w_s w))) i
                   = hand_of (w_hand w) i).
      { intros i ni. rewrite put_hand, hand_snoc. simpl.
        replace (id =? i) with false by (symmetry; apply N.eqb_neq; congruence). rewrite app_nil_r.
        apply put_same. intros e k c Y1 Y2 ->. destruct (hand_keys _ _ I _ _ _ _ Y1 Y2) as (sb & Z1 & Z2).
        apply filter_In in Z1. destruct Z1 as [Z1 _]. apply (v_key _ _ I) in Z1. lia. }
      assert (PI : hand_of (put_handler (w_hand w ++ [(id, ev, HCell (w_keys w) None)]) (w_keys w) (f (w_s w))) id
                   = hand_of (w_hand w) id ++ [(id, ev, HCell (w_keys w) (Some (f (w_s w))))]).
      { rewrite put_hand, hand_snoc. simpl. rewrite N.eqb_refl. unfold put_handler at 1. rewrite map_app. simpl.
        rewrite N.eqb_refl. f_equal.
        apply put_same. intros e k c Y1 Y2 ->. destruct (hand_keys _ _ I _ _ _ _ Y1 Y2) as (sb & Z1 & Z2).
        apply filter_In in Z1. destruct Z1 as [Z1 _]. apply (v_key _ _ I) in Z1. lia. }
      apply inv_frame with (w := w); simpl; auto; try apply I.
      + lia.
      + intros i ni. split; [reflexivity|]. split; [|split; [reflexivity|]].
        * rewrite subs_snoc. simpl.
          replace (id =? i) with false by (symmetry; apply N.eqb_neq; congruence). apply app_nil_r.
        * apply PH. exact ni.
      + rewrite map_app. simpl. apply NoDup_add; [apply I|]. intro Y. apply in_map_iff in Y.
        destruct Y as (sb & Y1 & Y2). apply (v_key _ _ I) in Y2. lia.
      + intros sb. rewrite in_app_iff. intros [Y|[<-|[]]]; simpl; [|lia]. apply (v_key _ _ I) in Y. lia.
      + split; [lia|]. rewrite subs_snoc, PI. simpl. rewrite N.eqb_refl. constructor; auto.
        * exists a. split; [exact R|]. split; [exact C|]. intro D. destruct (A D) as [A1 A0 A2 A3].
          constructor; auto. intros sb n g Y. apply in_app_iff in Y. destruct Y as [Y|[<-|[]]]; [eauto|]. discriminate.
        * rewrite map_app, S, htargets_app. simpl. rewrite app_assoc. reflexivity.
        * apply Forall2_app.
          -- eapply Forall2_impl'; [|exact X]. intros y e. apply hok_mono; [auto|].
             intros sb Y. apply in_app_iff. left. exact Y.
          -- constructor; [|constructor]. split; [reflexivity|]. split; [reflexivity|]. simpl.
             eexists. split; [apply in_app_iff; right; left; reflexivity|]. split; [reflexivity|].
             split; [reflexivity|]. right. reflexivity.
  Qed.

  Lemma attrs_inv xs : forall live w id name pre,
    Inv live w -> live id = Some (IsElement name pre []) ->
    Inv (upd live id (Some (IsElement name (pre ++ xs) []))) (fold_left (fun w a => add_attr teqb cls empty w id a) xs w).
  Proof.
    induction xs as [|x xs IH]; intros live w id name pre I E; simpl.
    - rewrite app_nil_r. eapply inv_ext; [|exact I]. intro i. unfold upd.
      destruct (i =? id) eqn:Ei; [|reflexivity]. apply N.eqb_eq in Ei. subst i. exact E.
    - eapply inv_ext; [|apply IH with (name := name) (pre := pre ++ [x]); [apply add_attr_inv; eauto|]].
      + intro i. unfold upd. rewrite <- app_assoc. simpl. destruct (i =? id); reflexivity.
      + unfold upd. rewrite N.eqb_refl. reflexivity.
  Qed.
  Lemma handlers_inv xs : forall live w id name attrs pre,
    Inv live w -> live id = Some (IsElement name attrs pre) ->
    Inv (upd live id (Some (IsElement name attrs (pre ++ xs))))
        (fold_left (fun w h => add_handler teqb cls empty w id h) xs w).
  Proof.
    induction xs as [|x xs IH]; intros live w id name attrs pre I E; simpl.
    - rewrite app_nil_r. eapply inv_ext; [|exact I]. intro i. unfold upd.
      destruct (i =? id) eqn:Ei; [|reflexivity]. apply N.eqb_eq in Ei. subst i. exact E.
    - eapply inv_ext; [|apply IH with (name := name) (attrs := attrs) (pre := pre ++ [x]);
                        [apply add_handler_inv; eauto|]].
      + intro i. unfold upd. rewrite <- app_assoc. simpl. destruct (i =? id); reflexivity.
      + unfold upd. rewrite N.eqb_refl. reflexivity.
  Qed.

  (** A number that was not given yet. *)
  Lemma fresh_next live w : Inv live w ->
    live (w_next w) = None /\ hist (w_q w) (w_next w) = [] /\ subs_of (w_subs w) (w_next w) = [] /\
    hand_of (w_hand w) (w_next w) = [].
  Proof.
    intro I. pose proof (v_item _ _ I (w_next w)) as O. unfold IOk in O.
    destruct (live (w_next w)) as [[name attrs hs|f]|]; [lia|lia|].
    rewrite N.ltb_irrefl, andb_false_r in O. destruct O as (O1 & O2 & O3). auto.
  Qed.

  Lemma new_element_inv live w name attrs hs :
    Inv live w -> Inv (upd live (w_next w) (Some (IsElement name attrs hs))) (new_element teqb cls empty w name attrs hs).
  Proof.
    intro I. destruct (fresh_next _ _ I) as (F1 & F2 & F3 & F4).
    unfold new_element. set (id := w_next w) in *.
    set (w1 := set_class (emit (next_id w) (CreateNode id name)) id (Clsm None None)).
    assert (I1 : Inv (upd live id (Some (IsElement name [] []))) w1).
    { destruct (only_emit id (next_id w) (CreateNode id name) eq_refl) as [_ _ _ _ _ _ OH OC OS].
      pose proof (hist_emit id (next_id w) (CreateNode id name) eq_refl) as OE.
      apply inv_frame with (w := w); simpl; auto; try apply I.
      - intros i ni. split; [exact (OH i ni)|]. split; [reflexivity|]. split; [|reflexivity].
        unfold nupd. apply N.eqb_neq in ni. rewrite ni. reflexivity.
      - unfold id. split; [pose proof (v_next _ _ I); lia|]. fold id.
        change (w_q (emit (next_id w) (CreateNode id name))) with (w_q w1) in OE. simpl in OE. rewrite F2 in OE.
        simpl in OE. rewrite F3, F4. constructor.
        + change (hist (q_add (w_q w) (CreateNode id name)) id) with (hist (w_q w1) id). unfold w1; simpl. rewrite OE. reflexivity.
        + exists []. rewrite OE. simpl. split; [reflexivity|]. unfold nupd. rewrite N.eqb_refl. simpl.
          split; [left; reflexivity|]. intros _. constructor.
          * intros n _. unfold shown. simpl. destruct (teqb n cls); reflexivity.
          * reflexivity.
          * intros n v [].
          * intros sb n f [].
        + reflexivity.
        + constructor. }
    assert (I2 : Inv (upd live id (Some (IsElement name attrs [])))
                     (fold_left (fun w a => add_attr teqb cls empty w id a) attrs w1)).
    { eapply inv_ext; [|apply attrs_inv with (name := name) (pre := []); [exact I1|]].
      - intro i. unfold upd. simpl. destruct (i =? id); reflexivity.
      - unfold upd. rewrite N.eqb_refl. reflexivity. }
    eapply inv_ext; [|apply handlers_inv with (name := name) (attrs := attrs) (pre := []); [exact I2|]].
    - intro i. unfold upd. simpl. destruct (i =? id); reflexivity.
    - unfold upd. rewrite N.eqb_refl. reflexivity.
  Qed.

  Lemma new_text_inv live w f :
    Inv live w -> Inv (upd live (w_next w) (Some (IsText f))) (new_text teqb cls empty w f).
  Proof.
    intro I. destruct (fresh_next _ _ I) as (F1 & F2 & F3 & F4).
    unfold new_text. set (id := w_next w) in *. destruct f as [v|f].
    - destruct (only_emit id (next_id w) (CreateText id v) eq_refl) as [_ _ _ _ _ _ OH OC OS].
      pose proof (hist_emit id (next_id w) (CreateText id v) eq_refl) as OE. simpl in OE. rewrite F2 in OE.
      apply inv_frame with (w := w); simpl; auto; try apply I.
      unfold id. split; [pose proof (v_next _ _ I); lia|]. fold id. rewrite OE, F3, F4. constructor; auto.
      exists v. split; [reflexivity|]. split; reflexivity.
    - unfold subscribe. simpl.
      assert (OE : hist (q_add (q_add (w_q w) (CreateText id empty)) (UpdateText id (f (w_s w)))) id =
                   [CreateText id empty; UpdateText id (f (w_s w))]).
      { rewrite !hist_add. unfold about. simpl. rewrite N.eqb_refl, F2. reflexivity. }
      apply inv_frame with (w := w); simpl; auto; try apply I.
      + intros i ni. split; [|split; [|split; reflexivity]].
        * rewrite !hist_add. unfold about. simpl.
          replace (id =? i) with false by (symmetry; apply N.eqb_neq; congruence). rewrite !app_nil_r. reflexivity.
        * rewrite subs_snoc. simpl.
          replace (id =? i) with false by (symmetry; apply N.eqb_neq; congruence). apply app_nil_r.
      + intros c. unfold cmds. simpl. rewrite !app_assoc, !in_app_iff. simpl.
        intros [[X|[<-|[]]]|[<-|[]]]; auto.
      + rewrite map_app. simpl. apply NoDup_add; [apply I|]. intro Y. apply in_map_iff in Y.
        destruct Y as (sb & Y1 & Y2). apply (v_key _ _ I) in Y2. lia.
      + intros sb. rewrite in_app_iff. intros [Y|[<-|[]]]; simpl; [|lia]. apply (v_key _ _ I) in Y. lia.
      + unfold id. split; [pose proof (v_next _ _ I); lia|]. fold id. rewrite OE, subs_snoc, F3, F4. simpl.
        rewrite N.eqb_refl. constructor; auto.
        exists (f (w_s w)). split; [reflexivity|]. eexists. split; [reflexivity|]. simpl. auto.
  Qed.

  Lemma NoDup_map_filter {A B} (g : A -> B) p (l : list A) : NoDup (map g l) -> NoDup (map g (filter p l)).
  Proof.
    induction l as [|x l IH]; simpl; intro D; [constructor|]. inversion D as [|? ? D1 D2]; subst.
    destruct (p x); simpl; auto. constructor; auto. intro X. apply D1. apply in_map_iff in X.
    destruct X as (y & <- & Y). apply filter_In in Y. apply in_map. apply Y.
  Qed.
  Lemma filter_out {A} (p q : A -> bool) l : (forall x, q x = true -> p x = true) -> filter q (filter p l) = filter q l.
  Proof.
    intro F. induction l as [|x l IH]; simpl; [reflexivity|].
    destruct (p x) eqn:P; simpl; [rewrite IH; reflexivity|]. rewrite IH.
    destruct (q x) eqn:Q; [|reflexivity]. rewrite (F x Q) in P. discriminate.
  Qed.
  Lemma filter_none {A} (p q : A -> bool) l : (forall x, q x = true -> p x = false) -> filter q (filter p l) = [].
  Proof.
    intro F. induction l as [|x l IH]; simpl; [reflexivity|].
    destruct (p x) eqn:P; simpl; auto. destruct (q x) eqn:Q; auto. rewrite (F x Q) in P. discriminate.
  Qed.

  Lemma drop_inv live w id (b : bool) :
    Inv live w ->
    match live id with Some (IsElement _ _ _) => b = false | Some (IsText _) => b = true | None => False end ->
    Inv (upd live id None) (drop_node w id b).
  Proof.
    intros I E. pose proof (v_item _ _ I id) as O.
    assert (X : 4 <= id < w_next w /\ quiet (hist (w_q w) id) = true /\
                exists n, nrun (None, false) (hist (w_q w) id) = Some (Some n, true)).
    { unfold IOk in O. destruct (live id) as [[name attrs hs|f]|]; [| |contradiction].
      - destruct O as [O1 [O2 (a & O3 & _) _ _]]. eauto.
      - destruct O as [O1 [O2 (a & O3 & _) _]]. eauto. }
    destruct X as (B & Q & n & R). unfold drop_node. set (c := if b then RemoveText id else RemoveNode id).
    assert (Ec : cid c = Some id) by (unfold c; destruct b; reflexivity).
    assert (Ev : is_event c = true) by (unfold c; destruct b; reflexivity).
    destruct (only_emit id w c Ec) as [_ _ _ _ _ _ OH OC OS].
    pose proof (hist_emit id w c Ec) as OE.
    apply inv_frame with (w := w); simpl; auto; try apply I.
    - lia.
    - intros i ni. split; [exact (OH i ni)|]. split; [|split; [reflexivity|]].
      + apply filter_out. intros x Y. apply N.eqb_eq in Y. apply negb_true_iff, N.eqb_neq. congruence.
      + apply filter_out. intros x Y. apply N.eqb_eq in Y. apply negb_true_iff, N.eqb_neq. congruence.
    - apply NoDup_map_filter, I.
    - intros sb Y. apply filter_In in Y. apply (v_key _ _ I), Y.
    - replace ((4 <=? id) && (id <? w_next w)) with true.
      2:{ symmetry. apply andb_true_iff. split; [apply N.leb_le|apply N.ltb_lt]; lia. }
      constructor.
      + simpl in OE. rewrite OE. apply elast_quiet; auto.
      + exists (Some n). simpl in OE. rewrite OE, nrun_app, R. unfold c. destruct b; reflexivity.
      + apply filter_none. intros x Y. rewrite Y. reflexivity.
      + apply filter_none. intros x Y. rewrite Y. reflexivity.
  Qed.

  Lemma change_inv live w s :
    Inv live w -> Inv live (World s (w_next w) (w_keys w) (w_subs w) (map sb_key (w_subs w)) (w_class w) (w_hand w) (w_q w)).
  Proof.
    intro I. constructor; simpl; try apply I. intro id. pose proof (v_item _ _ I id) as O.
    assert (P : forall sb, In sb (subs_of (w_subs w) id) -> In (sb_key sb) (map sb_key (w_subs w))).
    { intros sb X. apply filter_In in X. apply in_map, X. }
    unfold IOk in *. destruct (live id) as [[name attrs hs|f]|]; [| |exact O].
    - destruct O as [B [O1 (a & O2 & O3 & O4) O5 O6]]. split; [exact B|]. constructor; auto.
      + exists a. split; [exact O2|]. split; [exact O3|]. intro D. destruct (O4 D) as [A1 A0 A2 A3].
        constructor; auto. intros sb n f X1 X2. destruct (A3 sb n f X1 X2) as [Y _]. auto.
      + eapply Forall2_impl'; [|exact O6]. intros x e (E1 & E2 & E3). split; [exact E1|]. split; [exact E2|].
        destruct (snd x), (snd e); auto. destruct E3 as (sb & X1 & <- & X3 & _).
        exists sb. split; [exact X1|]. split; [reflexivity|]. split; [exact X3|]. left. exact (P sb X1).
    - destruct O as [B [O1 (a & O2 & O3) O4]]. split; [exact B|]. constructor; auto.
      exists a. split; [exact O2|]. destruct f; [exact O3|]. destruct O3 as (sb & X1 & X2 & X3 & _).
      exists sb. split; [exact X1|]. split; [exact X2|]. split; [exact X3|]. left. apply P. rewrite X1. left. reflexivity.
  Qed.

  (** *** Refreshing a subscription *)
  Lemma refresh_spec k after : forall (w : world) before,
    (exists a1 sb a2, after = a1 ++ sb :: a2 /\ sb_key sb = k /\
       refresh teqb cls empty w before after k =
       let w1 := fst (deliver teqb cls empty w sb) in
       World (w_s w1) (w_next w1) (w_keys w1)
             ((before ++ a1) ++ Sub (sb_key sb) (sb_id sb) (sb_to sb) (snd (deliver teqb cls empty w sb)) :: a2)
             (w_pend w1) (w_class w1) (w_hand w1) (w_q w1)) \/
    ((forall sb, In sb after -> sb_key sb <> k) /\ refresh teqb cls empty w before after k = w).
  Proof.
    induction after as [|sb after IH]; intros w before; simpl.
    - right. split; [contradiction|reflexivity].
    - destruct (sb_key sb =? k) eqn:E.
      + apply N.eqb_eq in E. left. exists [], sb, after. split; [reflexivity|]. split; [exact E|].
        rewrite app_nil_r. destruct (deliver teqb cls empty w sb). reflexivity.
      + apply N.eqb_neq in E. destruct (IH w (before ++ [sb])) as [(a1 & s1 & a2 & X1 & X2 & X3)|[X1 X2]].
        * left. exists (sb :: a1), s1, a2. rewrite X1. split; [reflexivity|]. split; [exact X2|].
          rewrite <- X1, X3. cbv zeta. rewrite <- (app_assoc before [sb]). reflexivity.
        * right. split; [|exact X2]. intros s1 [<-|Y]; auto.
  Qed.

  Lemma subs_split a sb b id : sb_id sb = id -> subs_of (a ++ sb :: b) id = subs_of a id ++ sb :: subs_of b id.
  Proof. intro E. unfold subs_of. rewrite filter_app. simpl. rewrite E, N.eqb_refl. reflexivity. Qed.
  Lemma subs_other a sb b id : sb_id sb <> id -> subs_of (a ++ sb :: b) id = subs_of a id ++ subs_of b id.
  Proof. intro E. unfold subs_of. rewrite filter_app. simpl. apply N.eqb_neq in E. rewrite E. reflexivity. Qed.
  Lemma key_inj (l : list sub) x y : NoDup (map sb_key l) -> In x l -> In y l -> sb_key x = sb_key y -> x = y.
  Proof.
    induction l as [|z l IH]; simpl; intros D I J E; [contradiction|]. inversion D as [|? ? D1 D2]; subst.
    destruct I as [<-|I], J as [<-|J]; auto.
    - elim D1. rewrite E. apply in_map. exact J.
    - elim D1. rewrite <- E. apply in_map. exact I.
  Qed.

  Lemma attr_names_apart a sb b attrs hs n f :
    map sb_to (a ++ sb :: b) = targets attrs ++ htargets hs -> NoDup (map fst attrs) -> sb_to sb = ToAttr n f ->
    forall s2 n2 f2, In s2 (a ++ b) -> sb_to s2 = ToAttr n2 f2 -> n2 <> n.
  Proof.
    intros E D Et s2 n2 f2 J Et2 ->.
    assert (X : NoDup (flat_map tname (map sb_to (a ++ sb :: b)))).
    { rewrite E, flat_map_app, htargets_names, app_nil_r. apply targets_names. exact D. }
    rewrite map_app, flat_map_app in X. simpl in X. rewrite Et in X. simpl in X.
    apply NoDup_remove_2 in X. apply X. rewrite <- flat_map_app, <- map_app.
    apply in_flat_map. exists (ToAttr n f2). split; [|left; reflexivity]. rewrite <- Et2. apply in_map. exact J.
  Qed.

  Lemma refresh_inv live w k t :
    Inv live w -> w_pend w = k :: t ->
    Inv live (refresh teqb cls empty (World (w_s w) (w_next w) (w_keys w) (w_subs w) t (w_class w) (w_hand w) (w_q w))
                      [] (w_subs w) k).
  Proof.
    intros I P.
    set (w0 := World (w_s w) (w_next w) (w_keys w) (w_subs w) t (w_class w) (w_hand w) (w_q w)).
    destruct (refresh_spec k (w_subs w) w0 []) as [(a1 & sb & a2 & X1 & X2 & X3)|[X1 X2]].
    2:{ rewrite X2. constructor; simpl; try apply I. intro id. apply iok_pend with (p := w_pend w) (next := w_next w);
          [|lia|lia|lia|apply I]. intros sb J. apply filter_In in J. destruct J as [J _]. rewrite P. simpl.
        intros [Y|Y]; [|exact Y]. elim (X1 sb J). symmetry. exact Y. }
    rewrite X3. cbv zeta. simpl app. clear X3. set (id := sb_id sb).
    assert (PP : forall s2, In s2 (w_subs w) -> s2 <> sb -> In (sb_key s2) (w_pend w) -> In (sb_key s2) t).
    { intros s2 J N. rewrite P. simpl. intros [Y|Y]; [|exact Y]. elim N.
      apply (key_inj (w_subs w)); [apply I|exact J| |congruence]. rewrite X1. apply in_app_iff. right. left. reflexivity. }
    assert (SI : In sb (w_subs w)) by (rewrite X1; apply in_app_iff; right; left; reflexivity).
    assert (SB : subs_of (w_subs w) id = subs_of a1 id ++ sb :: subs_of a2 id)
      by (rewrite X1; apply subs_split; reflexivity).
    pose proof (v_item _ _ I id) as O.
    assert (ND : NoDup (map sb_key (subs_of a1 id ++ sb :: subs_of a2 id))).
    { rewrite <- SB. apply NoDup_map_filter, I. }
    assert (PQ : forall s2, In s2 (subs_of a1 id ++ subs_of a2 id) -> In (sb_key s2) (w_pend w) -> In (sb_key s2) t).
    { intros s2 J. apply PP.
      - assert (Y : In s2 (subs_of (w_subs w) id)).
        { rewrite SB. apply in_app_iff in J. apply in_app_iff. simpl. tauto. }
        apply filter_In in Y. apply Y.
      - intros ->. rewrite map_app in ND. simpl in ND. apply NoDup_remove_2 in ND. apply ND.
        rewrite <- map_app. apply in_map. exact J. }
    set (w1 := fst (deliver teqb cls empty w0 sb)). set (p1 := snd (deliver teqb cls empty w0 sb)).
    assert (KK : forall p, map sb_key (a1 ++ Sub (sb_key sb) (sb_id sb) (sb_to sb) p :: a2) = map sb_key (w_subs w)).
    { intro p. rewrite X1, !map_app. reflexivity. }
    assert (LL : forall p s2, In s2 (a1 ++ Sub (sb_key sb) (sb_id sb) (sb_to sb) p :: a2) -> sb_key s2 < w_keys w).
    { intros p s2 Y. apply (in_map sb_key) in Y. rewrite KK in Y. apply in_map_iff in Y.
      destruct Y as (s3 & <- & Y). apply (v_key _ _ I). exact Y. }
    assert (G : 4 <= id).
    { unfold IOk in O. destruct (live id) as [[name attrs hs|f]|]; [apply O|apply O|].
      rewrite SB in O. destruct (_ && _).
      - pose proof (de_subs _ _ _ O) as Z. destruct (subs_of a1 id); discriminate.
      - destruct O as (_ & O & _). destruct (subs_of a1 id); discriminate. }
    assert (FR : forall p w2,
       w_s w2 = w_s w -> w_next w2 = w_next w -> w_keys w2 = w_keys w -> w_pend w2 = t ->
       (forall i, i <> id -> hist (w_q w2) i = hist (w_q w) i) ->
       (forall i, i <> id -> w_class w2 i = w_class w i) ->
       (forall i, i <> id -> hand_of (w_hand w2) i = hand_of (w_hand w) i) ->
       (forall c, In c (cmds (w_q w2)) -> In c (cmds (w_q w)) \/ cid c = Some id) ->
       IOk (w_s w) t (w_next w) id (live id) (hist (w_q w2) id)
           (subs_of a1 id ++ Sub (sb_key sb) (sb_id sb) (sb_to sb) p :: subs_of a2 id) (w_class w2 id)
           (hand_of (w_hand w2) id) ->
       Inv live (World (w_s w2) (w_next w2) (w_keys w2)
                       (a1 ++ Sub (sb_key sb) (sb_id sb) (sb_to sb) p :: a2) (w_pend w2) (w_class w2) (w_hand w2) (w_q w2))).
    { intros p w2 Y1 Y2 Y3 Y4 Y5 Y6 Y7 Y8 Y9.
      apply inv_ext with (live := upd live id (live id)).
      { intro i. unfold upd. destruct (i =? id) eqn:Ei; [|reflexivity]. apply N.eqb_eq in Ei. subst i. reflexivity. }
      apply inv_frame with (w := w); simpl; auto.
      - intros i ni. split; [auto|]. split; [|auto]. rewrite X1. rewrite !subs_other; auto.
      - intros s2 J N Z. rewrite Y4. apply PP; auto. intros ->. apply N. reflexivity.
      - rewrite KK. apply I.
      - rewrite Y3. apply LL.
      - rewrite Y1, Y2, Y4, subs_split by reflexivity. exact Y9. }
    apply FR; clear FR.
    1-4: unfold w1, deliver; destruct (sb_to sb) as [n f|f|f]; simpl; try reflexivity;
         destruct (sb_prev sb) as [q|]; try destruct (oeqb teqb q _); simpl; try reflexivity;
         destruct (set_attr_only (sb_id sb) n (f (w_s w)) w0); simpl in *; congruence.
    - intros i ni. unfold w1, deliver. destruct (sb_to sb) as [n f|f|f]; simpl; [| |reflexivity].
      + destruct (match sb_prev sb with Some p => oeqb teqb p (f (w_s w)) | None => false end); simpl; [reflexivity|].
        apply (on_hist _ _ _ (set_attr_only (sb_id sb) n (f (w_s w)) w0)). exact ni.
      + destruct (match sb_prev sb with Some p => oeqb teqb p (Some (f (w_s w))) | None => false end); simpl; [reflexivity|].
        apply (on_hist _ _ _ (only_emit (sb_id sb) w0 (UpdateText (sb_id sb) (f (w_s w))) eq_refl)). exact ni.
    - intros i ni. unfold w1, deliver. destruct (sb_to sb) as [n f|f|f]; simpl; [| |reflexivity].
      + destruct (match sb_prev sb with Some p => oeqb teqb p (f (w_s w)) | None => false end); simpl; [reflexivity|].
        apply (on_class _ _ _ (set_attr_only (sb_id sb) n (f (w_s w)) w0)). exact ni.
      + destruct (match sb_prev sb with Some p => oeqb teqb p (Some (f (w_s w))) | None => false end); reflexivity.
    - intros i ni. unfold w1, deliver. destruct (sb_to sb) as [n f|f|f]; simpl.
      + destruct (match sb_prev sb with Some p => oeqb teqb p (f (w_s w)) | None => false end); simpl; [reflexivity|].
        rewrite (on_hand _ _ _ (set_attr_only (sb_id sb) n (f (w_s w)) w0)). reflexivity.
      + destruct (match sb_prev sb with Some p => oeqb teqb p (Some (f (w_s w))) | None => false end); reflexivity.
      + rewrite put_hand. apply put_same. intros e k' c Y1 Y2 ->.
        destruct (hand_keys _ _ I _ _ _ _ Y1 Y2) as (s2 & Z1 & Z2). apply filter_In in Z1. destruct Z1 as [Z1 Z3].
        apply N.eqb_eq in Z3. apply ni. rewrite <- Z3. unfold id. f_equal.
        apply (key_inj (w_subs w)); auto. apply I.
    - unfold w1, deliver. destruct (sb_to sb) as [n f|f|f]; simpl; auto.
      + destruct (match sb_prev sb with Some p => oeqb teqb p (f (w_s w)) | None => false end); simpl; auto.
        apply (on_cmds _ _ _ (set_attr_only (sb_id sb) n (f (w_s w)) w0)).
      + destruct (match sb_prev sb with Some p => oeqb teqb p (Some (f (w_s w))) | None => false end); simpl; auto.
        apply (on_cmds _ _ _ (only_emit (sb_id sb) w0 (UpdateText (sb_id sb) (f (w_s w))) eq_refl)).
    - unfold IOk in *. destruct (live id) as [[name attrs hs|g]|].
      + destruct O as [B [Q (a & R & C & A) S X]]. split; [exact B|]. rewrite SB in A, S, X.
        assert (S' : forall p, map sb_to (subs_of a1 id ++ Sub (sb_key sb) (sb_id sb) (sb_to sb) p :: subs_of a2 id)
                     = targets attrs ++ htargets hs).
        { intro p. rewrite <- S, !map_app. reflexivity. }
        destruct (sb_to sb) as [n f|f|f] eqn:Et.
        * assert (HM : forall p, Forall2 (hok (w_s w) t (subs_of a1 id ++ Sub (sb_key sb) (sb_id sb) (ToAttr n f) p :: subs_of a2 id) id)
                                 hs (hand_of (w_hand w) id)).
          { intro p. eapply Forall2_impl'; [|exact X]. intros x e (E1 & E2 & E3). split; [exact E1|]. split; [exact E2|].
            destruct (snd x) as [h|g], (snd e) as [h'|k' c]; auto. destruct E3 as (s2 & Z1 & Z2 & Z3 & Z4).
            assert (Z5 : In s2 (subs_of a1 id ++ subs_of a2 id)).
            { apply in_app_iff in Z1. apply in_app_iff. destruct Z1 as [Z1|[<-|Z1]]; auto.
              rewrite Et in Z3. discriminate. }
            exists s2. split; [apply in_app_iff in Z5; apply in_app_iff; simpl; tauto|].
            split; [exact Z2|]. split; [exact Z3|]. destruct Z4 as [Z4|Z4]; [left|right; exact Z4].
            rewrite <- Z2 in *. apply PQ; auto. }
          assert (EP : p1 = Some (f (w_s w))).
          { unfold p1, deliver. rewrite Et. simpl. destruct (sb_prev sb) as [q|]; [destruct (oeqb teqb q _)|]; reflexivity. }
          rewrite EP.
          destruct (match sb_prev sb with Some p => oeqb teqb p (f (w_s w)) | None => false end) eqn:Ep.
          -- assert (W1 : w1 = w0).
             { unfold w1, deliver. rewrite Et. simpl. rewrite Ep. reflexivity. }
             rewrite W1. simpl. constructor; auto.
             exists a. split; [exact R|]. split; [exact C|]. intro D. destruct (A D) as [A1 A0 A2 A3].
             constructor; auto. intros s2 n2 f2 J Et2. apply in_app_iff in J.
             destruct J as [J|[<-|J]].
             ++ destruct (A3 s2 n2 f2) as [Z1 Z2]; [apply in_app_iff; auto|exact Et2|]. split; [exact Z1|].
                destruct Z2 as [Z2|Z2]; [left|right; exact Z2]. apply PQ; [apply in_app_iff; auto|exact Z2].
             ++ simpl in Et2 |- *. injection Et2 as <- <-.
                destruct (A3 sb n f) as [Z1 _]; [apply in_app_iff; right; left; reflexivity|exact Et|].
                rewrite Z1 in Ep. apply oeqb_eq in Ep. rewrite Ep. auto.
             ++ destruct (A3 s2 n2 f2) as [Z1 Z2]; [apply in_app_iff; simpl; auto|exact Et2|]. split; [exact Z1|].
                destruct Z2 as [Z2|Z2]; [left|right; exact Z2]. apply PQ; [apply in_app_iff; auto|exact Z2].
          -- assert (W1 : w1 = set_attr_value teqb cls empty w0 id n (f (w_s w))).
             { unfold w1, deliver. rewrite Et. simpl. rewrite Ep. reflexivity. }
             rewrite W1. pose proof (set_attr_node id n (f (w_s w)) w0 name a Q R C) as SN.
             cbv zeta in SN. destruct SN as (Q1 & a' & R1 & C1 & Sn & Sc & So).
             rewrite (on_hand _ _ _ (set_attr_only id n (f (w_s w)) w0)).
             constructor; auto.
             exists a'. split; [exact R1|]. split; [exact C1|]. intro D. destruct (A D) as [A1 A0 A2 A3].
             destruct (sub_name _ _ _ sb n f S) as (x & Nx & Fx & Vx); [apply in_app_iff; right; left; reflexivity|exact Et|].
             constructor.
             ++ intros n' Z. rewrite So; [apply A1; exact Z|]. intros ->. apply Z. exact (in_map fst _ _ Nx).
             ++ intro Z. rewrite Sc; [apply A0; exact Z|]. intros ->. apply Z. exact (in_map fst _ _ Nx).
             ++ intros n' v Z. rewrite So; [apply A2; exact Z|]. intros ->.
                apply (Fx v). exact (in_pair_inj _ _ _ _ D Nx Z).
             ++ intros s2 n2 f2 J Et2.
                assert (JJ : s2 = Sub (sb_key sb) (sb_id sb) (ToAttr n f) (Some (f (w_s w))) \/
                             In s2 (subs_of a1 id ++ subs_of a2 id)).
                { apply in_app_iff in J. simpl in J. rewrite in_app_iff. destruct J as [J|[J|J]]; auto. }
                destruct JJ as [->|JJ].
                ** simpl in Et2 |- *. injection Et2 as <- <-. rewrite Sn. auto.
                ** rewrite So by exact (attr_names_apart _ _ _ _ _ _ _ S D Et _ _ _ JJ Et2).
                   destruct (A3 s2 n2 f2) as [Z1 Z2]; [|exact Et2|].
                   { apply in_app_iff in JJ. apply in_app_iff. simpl. tauto. }
                   split; [exact Z1|]. destruct Z2 as [Z2|Z2]; [left|right; exact Z2]. apply PQ; auto.
        * exfalso. assert (Y : In (ToText f) (targets attrs ++ htargets hs)).
          { rewrite <- S, <- Et. apply in_map, in_app_iff. right. left. reflexivity. }
          apply in_app_iff in Y. destruct Y as [Y|Y]; apply in_flat_map in Y; destruct Y as ([n x] & _ & Y);
            destruct x; simpl in Y; try contradiction; destruct Y as [Y|[]]; discriminate.
        * assert (EP : Sub (sb_key sb) (sb_id sb) (ToHandler f) p1 = sb).
          { unfold p1, deliver. rewrite Et. simpl. rewrite <- Et. destruct sb. reflexivity. }
          rewrite EP. assert (W1 : w1 = set_hand w0 (put_handler (w_hand w) (sb_key sb) (f (w_s w)))).
          { unfold w1, deliver. rewrite Et. reflexivity. }
          rewrite W1. simpl. rewrite put_hand. constructor; auto.
          -- exists a. split; [exact R|]. split; [exact C|]. intro D. destruct (A D) as [A1 A0 A2 A3].
             constructor; auto. intros s2 n2 f2 J Et2.
             destruct (A3 s2 n2 f2 J Et2) as [Z1 Z2]. split; [exact Z1|].
             destruct Z2 as [Z2|Z2]; [left|right; exact Z2]. apply PQ; [|exact Z2].
             apply in_app_iff in J. apply in_app_iff. destruct J as [J|[<-|J]]; auto. rewrite Et in Et2. discriminate.
          -- unfold put_handler. clear Q R C A S S'. induction X as [|x e hs' hd' X1' X2' IH]; simpl; constructor; [|exact IH].
             destruct X1' as (E1 & E2 & E3). destruct x as [ev [h|g]], e as [[i ev'] [h'|k' c]]; simpl in *; try contradiction.
             ++ repeat split; simpl; auto.
             ++ destruct E3 as (s2 & Z1 & Z2 & Z3 & Z4).
                destruct (k' =? sb_key sb) eqn:Ek.
                ** apply N.eqb_eq in Ek. subst k'.
                   assert (s2 = sb).
                   { apply (key_inj (subs_of a1 id ++ sb :: subs_of a2 id)); auto. apply in_app_iff. right. left. reflexivity. }
                   subst s2. rewrite Et in Z3. injection Z3 as <-.
                   split; [exact E1|]. split; [exact E2|]. simpl. exists sb. repeat split; auto.
                ** apply N.eqb_neq in Ek. split; [exact E1|]. split; [exact E2|]. simpl. exists s2.
                   split; [exact Z1|]. split; [exact Z2|]. split; [exact Z3|].
                   destruct Z4 as [Z4|Z4]; [left|right; exact Z4]. rewrite <- Z2 in Z4 |- *. apply PQ; [|exact Z4].
                   apply in_app_iff in Z1. apply in_app_iff. destruct Z1 as [Z1|[Z1|Z1]]; auto. subst s2. congruence.
      + destruct O as [B [Q (v & R & X) HD]]. split; [exact B|].
        destruct g as [v0|g].
        * exfalso. rewrite SB in X. destruct X as [_ X]. destruct (subs_of a1 id); discriminate.
        * destruct X as (s2 & Z1 & Z2 & Z3 & Z4). rewrite SB in Z1.
          destruct (subs_of a1 id) as [|y l1] eqn:L1; [|destruct l1; discriminate].
          simpl in Z1. injection Z1 as -> ->.
          assert (EP : p1 = Some (Some (g (w_s w)))).
          { unfold p1, deliver. rewrite Z2, Z3. simpl. destruct (teqb v _); reflexivity. }
          rewrite EP. simpl.
          assert (W1 : w1 = if teqb v (g (w_s w)) then w0 else emit w0 (UpdateText id (g (w_s w)))).
          { unfold w1, deliver. rewrite Z2, Z3. simpl. destruct (teqb v _); reflexivity. }
          rewrite W1. destruct (teqb v (g (w_s w))) eqn:Ev.
          -- apply teqb_eq in Ev. constructor; auto. exists v. split; [exact R|].
             eexists. split; [reflexivity|]. simpl. rewrite Ev. auto.
          -- assert (HE : hist (w_q (emit w0 (UpdateText id (g (w_s w))))) id = hist (w_q w) id ++ [UpdateText id (g (w_s w))])
               by (apply (hist_emit id w0); reflexivity).
             constructor.
             ++ rewrite HE. apply quiet_snoc; auto.
             ++ exists (g (w_s w)). rewrite HE, nrun_app, R. split; [reflexivity|].
                eexists. split; [reflexivity|]. simpl. auto.
             ++ exact HD.
      + exfalso. rewrite SB in O. destruct (_ && _).
        * pose proof (de_subs _ _ _ O) as Z. destruct (subs_of a1 id); discriminate.
        * destruct O as (_ & O & _). destruct (subs_of a1 id); discriminate.
  Qed.

  (** ** Runs *)
  Definition same (w w1 : world) : Prop := w_s w1 = w_s w /\ w_next w1 = w_next w.
  Lemma same_deliver w sb : same w (fst (deliver teqb cls empty w sb)).
  Proof.
    unfold deliver. destruct (sb_to sb) as [n f|f|f]; simpl.
    - destruct (match sb_prev sb with Some p => oeqb teqb p (f (w_s w)) | None => false end); simpl.
      + split; reflexivity.
      + destruct (set_attr_only (sb_id sb) n (f (w_s w)) w). split; assumption.
    - destruct (match sb_prev sb with Some p => oeqb teqb p (Some (f (w_s w))) | None => false end); split; reflexivity.
    - split; reflexivity.
  Qed.
  Lemma same_subscribe w id t : same w (subscribe teqb cls empty w id t).
  Proof.
    unfold subscribe. pose proof (same_deliver w (Sub (w_keys w) id t None)) as X.
    destruct (deliver teqb cls empty w (Sub (w_keys w) id t None)). exact X.
  Qed.
  Lemma same_attr w id x : same w (add_attr teqb cls empty w id x).
  Proof.
    unfold add_attr. destruct (snd x).
    - destruct (set_attr_only id (fst x) (Some v) w). split; assumption.
    - apply same_subscribe.
    - apply same_subscribe.
  Qed.
  Lemma same_handler w id x : same w (add_handler teqb cls empty w id x).
  Proof.
    unfold add_handler. destruct (snd x); [split; reflexivity|].
    pose proof (same_subscribe (set_hand w (w_hand w ++ [(id, fst x, HCell (w_keys w) None)])) id (ToHandler f)) as X.
    exact X.
  Qed.
  Lemma same_fold {A} (g : world -> A -> world) l : (forall w x, same w (g w x)) -> forall w, same w (fold_left g l w).
  Proof.
    intro G. induction l as [|x l IH]; intro w; simpl; [split; reflexivity|].
    destruct (IH (g w x)) as [E1 E2], (G w x) as [E3 E4]. split; congruence.
  Qed.

  Definition next_of (w : world) (a : step T St H) : N :=
    match a with NewElement _ _ _ | NewText _ => w_next w + 1 | _ => w_next w end.
  Definition s_of (w : world) (a : step T St H) : St := match a with Change s => s | _ => w_s w end.
  Notation do1 := (do_step teqb cls empty).
  Notation runs := (run teqb cls empty).

  Lemma step_same w a : w_s (do1 w a) = s_of w a /\ w_next (do1 w a) = next_of w a.
  Proof.
    destruct a; simpl; try (split; reflexivity).
    - unfold new_element.
      match goal with |- w_s (fold_left ?g hs ?w2) = _ /\ _ => destruct (same_fold g hs) with (w := w2) as [E1 E2] end.
      { intros. apply same_handler. }
      rewrite E1, E2.
      match goal with |- w_s (fold_left ?g attrs ?w2) = _ /\ _ => destruct (same_fold g attrs) with (w := w2) as [E3 E4] end.
      { intros. apply same_attr. }
      rewrite E3, E4. split; reflexivity.
    - unfold new_text. destruct f as [v|f]; [split; reflexivity|].
      match goal with |- w_s (subscribe _ _ _ ?w2 ?i ?t) = _ /\ _ => exact (same_subscribe w2 i t) end.
    - destruct (w_pend w) as [|k t]; [split; reflexivity|].
      match goal with |- w_s (refresh _ _ _ ?w2 _ _ _) = _ /\ _ =>
        destruct (refresh_spec k (w_subs w) w2 []) as [(a1 & sb & a2 & _ & _ & ->)|[_ ->]]; [|split; reflexivity];
        cbv zeta; simpl; exact (same_deliver w2 sb)
      end.
    - destruct (w_pend w); split; reflexivity.
    - destruct (q_up (w_q w)); split; reflexivity.
    - destruct (q_down (w_q w)); split; reflexivity.
  Qed.

  Lemma run_inv l : forall live w, lawful (w_next w) live l -> Inv live w ->
    Inv (made (w_next w) live l) (runs w l) /\ w_s (runs w l) = values (w_s w) l /\
    w_next (runs w l) = w_next w + count l.
  Proof.
    induction l as [|a l IH]; intros live w L I.
    - split; [exact I|]. split; [reflexivity|]. simpl. lia.
    - destruct (step_same w a) as [E1 E2].
      assert (S : exists live1, Inv live1 (do1 w a) /\ lawful (w_next (do1 w a)) live1 l /\
                  made (w_next w) live (a :: l) = made (w_next (do1 w a)) live1 l).
      { rewrite E2. destruct a; simpl in L |- *.
        - eexists. split; [apply new_element_inv; exact I|]. split; [exact L|reflexivity].
        - eexists. split; [apply new_text_inv; exact I|]. split; [exact L|reflexivity].
        - destruct L as [(name & attrs & hs & E) L]. eexists. split; [apply drop_inv; [exact I|rewrite E; reflexivity]|].
          split; [exact L|reflexivity].
        - destruct L as [(f & E) L]. eexists. split; [apply drop_inv; [exact I|rewrite E; reflexivity]|].
          split; [exact L|reflexivity].
        - eexists. split; [apply change_inv; exact I|]. split; [exact L|reflexivity].
        - exists live. split; [|split; [exact L|reflexivity]]. destruct (w_pend w) as [|k t] eqn:P; [exact I|].
          apply refresh_inv; assumption.
        - exists live. split; [|split; [exact L|reflexivity]]. destruct (w_pend w) as [|k t] eqn:P; [|exact I].
          apply inv_flush. exact I.
        - exists live. split; [|split; [exact L|reflexivity]]. destruct (q_up (w_q w)) as [q|] eqn:P; [|exact I].
          apply inv_up; assumption.
        - exists live. split; [|split; [exact L|reflexivity]]. destruct (q_down (w_q w)) as [q|] eqn:P; [|exact I].
          apply inv_down; assumption. }
      destruct S as (live1 & S1 & S2 & S3).
      destruct (IH live1 (do1 w a) S2 S1) as (R1 & R2 & R3).
      change (runs w (a :: l)) with (runs (do1 w a) l).
      split; [|split].
      + rewrite S3. exact R1.
      + rewrite R2, E1. destruct a; reflexivity.
      + rewrite R3, E2. destruct a; cbn [count next_of]; lia.
  Qed.

  Definition nothing : N -> option (item T St H) := fun _ => None.

  Lemma start_inv s0 : Inv nothing (start s0).
  Proof.
    constructor; simpl.
    - intro id. unfold IOk, nothing. simpl.
      replace ((4 <=? id) && (id <? 4)) with false.
      + repeat split.
      + destruct (4 <=? id) eqn:E; [|reflexivity]. simpl. symmetry. apply N.ltb_ge, N.leb_le. exact E.
    - intros c [].
    - lia.
    - constructor.
    - intros sb [].
  Qed.

  (** What the browser shows. *)
  Notation page w d0 d := (b_run teqb hook builtin d0 (concat (q_sent (w_q w))) = Some d).

  Lemma shows l s0 d0 :
    lawful 4 nothing l -> blank d0 ->
    let w := runs (start s0) l in
    exists d, page w d0 d /\
      (q_cmds (w_q w) = [] -> forall id, 4 <= id -> nrun (None, false) (hist (w_q w) id) = Some (off d id)) /\
      Inv (made 4 nothing l) w /\ w_s w = values s0 l /\ w_next w = 4 + count l.
  Proof.
    intros L B w. destruct (run_inv l nothing (start s0) L (start_inv s0)) as (I & S & N).
    fold w in I, S, N. simpl in S, N.
    assert (I' := I). destruct I' as [VI VC _ _ _].
    destruct (run_nodes (concat (q_sent (w_q w))) d0) as (d & D1 & D2).
    - intros c X. apply VC. unfold cmds. apply in_app_iff. left. exact X.
    - intros i G. apply B. exact G.
    - intros id G. unfold off. destruct (B id G) as (-> & -> & _).
      specialize (VI id). apply iok_run in VI. unfold hist, cmds in VI. rewrite filter_app, nrun_app in VI.
      destruct (nrun (None, false) (filter (about id) (concat (q_sent (w_q w))))); [discriminate|exact VI].
    - exists d. split; [exact D1|]. split; [|auto].
      intros Q id G. specialize (D2 id G). unfold off in D2 at 1. destruct (B id G) as (E1 & E2 & _).
      rewrite E1, E2 in D2. unfold hist, cmds. rewrite Q, app_nil_r. exact D2.
  Qed.

  (** ** Theorems *)

  (** No command of a bound node fails in the browser. *)
  Theorem C80_no_errors l s0 d0 :
    lawful 4 nothing l -> blank d0 -> exists d, page (runs (start s0) l) d0 d.
  Proof. intros L B. destruct (shows l s0 d0 L B) as (d & D & _). eauto. Qed.

  (** When the last transaction is over and its commands were sent, every attribute of every element has the
      value it was given or is bound to, computed from the current values of the application; it is absent
      if that is [None], and so are the attributes that were never given.  The names of the attributes of
      an element are different; a class is there if it is bound to one, and else is absent or empty. *)
  Theorem C80_attributes_partial l s0 d0 d id name attrs hs :
    lawful 4 nothing l -> blank d0 -> page (runs (start s0) l) d0 d ->
    w_pend (runs (start s0) l) = [] -> q_cmds (w_q (runs (start s0) l)) = [] ->
    made 4 nothing l id = Some (IsElement name attrs hs) -> NoDup (map fst attrs) ->
    exists a, b_get d id = Some (BElement name a) /\
      (forall n x, In (n, x) attrs -> n <> cls -> battr_get teqb a n = value x (values s0 l)) /\
      (forall n, ~ In n (map fst attrs) -> battr_get teqb a n = None) /\
      (forall x, In (cls, x) attrs ->
         match value x (values s0 l) with
         | Some v => battr_get teqb a cls = Some v
         | None => battr_get teqb a cls = None \/ battr_get teqb a cls = Some empty
         end).
  Proof.
    intros L B D P Q M ND. destruct (shows l s0 d0 L B) as (d' & D' & O & I & S & _).
    rewrite D in D'. injection D' as <-. specialize (O Q).
    pose proof (v_item _ _ I id) as V. rewrite M in V. simpl in V. destruct V as [G [_ (a & R & C & A) SS _]].
    specialize (A ND). destruct A as [A1 A0 A2 A3].
    rewrite O in R by lia. unfold off in R. injection R as R1 R2.
    exists a. split; [unfold b_get; rewrite R2; exact R1|].
    assert (SH : forall n x, In (n, x) attrs -> shown a (w_class (runs (start s0) l) id) n = value x (values s0 l)).
    { intros n x J. rewrite <- S. destruct x as [v|f|f]; [apply A2; exact J| |].
      - assert (Y : In (ToAttr n (fun s => Some (f s))) (map sb_to (subs_of (w_subs (runs (start s0) l)) id))).
        { rewrite SS. apply in_app_iff. left. apply in_flat_map. exists (n, Bound f). split; [exact J|left; reflexivity]. }
        apply in_map_iff in Y. destruct Y as (sb & Y1 & Y2). destruct (A3 _ _ _ Y2 Y1) as [_ [Z|Z]]; [|exact Z].
        rewrite P in Z. destruct Z.
      - assert (Y : In (ToAttr n f) (map sb_to (subs_of (w_subs (runs (start s0) l)) id))).
        { rewrite SS. apply in_app_iff. left. apply in_flat_map. exists (n, BoundOpt f). split; [exact J|left; reflexivity]. }
        apply in_map_iff in Y. destruct Y as (sb & Y1 & Y2). destruct (A3 _ _ _ Y2 Y1) as [_ [Z|Z]]; [|exact Z].
        rewrite P in Z. destruct Z. }
    split; [|split].
    - intros n x J Nc. rewrite <- (SH n x J). unfold shown. rewrite (teqb_neq _ _ Nc). reflexivity.
    - intros n J. destruct (teqb n cls) eqn:E.
      + apply teqb_eq in E. subst n. apply A0. exact J.
      + rewrite <- (A1 n J). unfold shown. rewrite E. reflexivity.
    - intros x J. rewrite <- (SH cls x J). unfold shown. rewrite teqb_refl. exact C.
  Qed.

  (** Likewise every text. *)
  Theorem C80_texts l s0 d0 d id f :
    lawful 4 nothing l -> blank d0 -> page (runs (start s0) l) d0 d ->
    w_pend (runs (start s0) l) = [] -> q_cmds (w_q (runs (start s0) l)) = [] ->
    made 4 nothing l id = Some (IsText f) ->
    b_get d id = Some (BText (text f (values s0 l))).
  Proof.
    intros L B D P Q M. destruct (shows l s0 d0 L B) as (d' & D' & O & I & S & _).
    rewrite D in D'. injection D' as <-. specialize (O Q).
    pose proof (v_item _ _ I id) as V. rewrite M in V. simpl in V. destruct V as [G [_ (v & R & X) _]].
    rewrite O in R by lia. unfold off in R. injection R as R1 R2.
    unfold b_get. rewrite R2, R1. f_equal. f_equal. rewrite <- S. destruct f as [v0|f]; simpl.
    - apply X.
    - destruct X as (sb & _ & _ & _ & [Z|Z]); [|exact Z]. rewrite P in Z. destruct Z.
  Qed.

  (** What was dropped is gone. *)
  Theorem C80_gone l s0 d0 d id :
    lawful 4 nothing l -> blank d0 -> page (runs (start s0) l) d0 d ->
    q_cmds (w_q (runs (start s0) l)) = [] -> 4 <= id < 4 + count l ->
    made 4 nothing l id = None -> b_get d id = None.
  Proof.
    intros L B D Q G M. destruct (shows l s0 d0 L B) as (d' & D' & O & I & _ & N).
    rewrite D in D'. injection D' as <-. specialize (O Q).
    pose proof (v_item _ _ I id) as V. rewrite M in V. simpl in V. rewrite N in V.
    replace ((4 <=? id) && (id <? 4 + count l)) with true in V.
    2:{ symmetry. apply andb_true_iff. split; [apply N.leb_le|apply N.ltb_lt]; lia. }
    destruct (de_run _ _ _ V) as (n & R). rewrite O in R by lia. unfold off in R. injection R as R1 R2.
    unfold b_get. rewrite R2. reflexivity.
  Qed.

  (** An event calls, for each handler of the element for that event and in their order, the function it is
      bound to, computed from the current values. *)
  Theorem C80_handlers l s0 id name attrs hs ev :
    lawful 4 nothing l -> w_pend (runs (start s0) l) = [] ->
    made 4 nothing l id = Some (IsElement name attrs hs) ->
    fires teqb (runs (start s0) l) id ev =
    map (fun h => Some (handler (snd h) (values s0 l))) (filter (fun h => teqb (fst h) ev) hs).
  Proof.
    intros L P M. destruct (run_inv l nothing (start s0) L (start_inv s0)) as (I & S & N).
    simpl in S, N. set (w := runs (start s0) l) in *.
    pose proof (v_item _ _ I id) as V. simpl in V. rewrite M in V. simpl in V. destruct V as [_ [_ _ _ X]].
    rewrite S, P in X. unfold fires.
    assert (E : filter (fun e => (fst (fst e) =? id) && teqb (snd (fst e)) ev) (w_hand w)
                = filter (fun e => teqb (snd (fst e)) ev) (hand_of (w_hand w) id)).
    { clear. unfold hand_of. induction (w_hand w) as [|e l' IH]; simpl; [reflexivity|].
      destruct (fst (fst e) =? id); simpl; rewrite IH; reflexivity. }
    rewrite E. clear E M. induction X as [|x e hs' hd' (X1 & X2 & X3) X' IH]; simpl; [reflexivity|].
    rewrite X2. destruct (teqb (fst x) ev); [|exact IH]. simpl. rewrite IH. f_equal.
    destruct (snd x) as [h|f], (snd e) as [h'|k c]; simpl; try contradiction.
    - congruence.
    - destruct X3 as (sb & _ & _ & _ & [[]|X3]). exact X3.
  Qed.

  (** The conditions are met again and again: from every point on, once the first page was sent, the running
      transaction comes to its end, after which no command is left. *)
  Theorem C80_settles (l : list (step T St H)) s0 :
    q_state (w_q (runs (start s0) l)) = Ready ->
    exists n, let w := runs (start s0) (l ++ repeat Refresh n ++ [Flush]) in
    w_pend w = [] /\ q_cmds (w_q w) = [].
  Proof.
    intro R.
    assert (A : forall n, runs (start s0) (l ++ repeat Refresh n ++ [Flush])
                          = do1 (fold_left do1 (repeat Refresh n) (runs (start s0) l)) Flush).
    { intro n. unfold run. rewrite !fold_left_app. reflexivity. }
    set (w := runs (start s0) l) in *. clearbody w.
    assert (X : forall n (w : world), length (w_pend w) = n -> q_state (w_q w) = Ready ->
                exists m, w_pend (fold_left do1 (repeat Refresh m) w) = [] /\
                          q_state (w_q (fold_left do1 (repeat Refresh m) w)) = Ready).
    { clear. induction n as [|n IH]; intros w E R.
      - exists 0%nat. simpl. destruct (w_pend w); [auto|discriminate].
      - assert (Y : length (w_pend (do1 w Refresh)) = n /\ q_state (w_q (do1 w Refresh)) = Ready).
        { simpl. destruct (w_pend w) as [|k t] eqn:P; [discriminate|]. simpl in E. injection E as E.
          match goal with |- length (w_pend (refresh _ _ _ ?w2 _ _ _)) = _ /\ _ =>
            assert (Z : forall sb, w_pend (fst (deliver teqb cls empty w2 sb)) = t /\
                                   q_state (w_q (fst (deliver teqb cls empty w2 sb))) = Ready);
            [|destruct (refresh_spec k (w_subs w) w2 []) as [(a1 & sb & a2 & _ & _ & ->)|[_ ->]];
              [cbv zeta; simpl; destruct (Z sb) as [-> ->]; auto|simpl; auto]]
          end.
          intro sb. unfold deliver. destruct (sb_to sb) as [nm f|f|f]; simpl; [| |auto].
          - destruct (match sb_prev sb with Some p => oeqb teqb p (f (w_s w)) | None => false end); simpl; [auto|].
            unfold set_attr_value, class_refresh. simpl.
            destruct (teqb nm cls); [destruct (oeqb teqb _ _); simpl; auto|].
            destruct (f (w_s w)); simpl; auto.
          - destruct (match sb_prev sb with Some p => oeqb teqb p (Some (f (w_s w))) | None => false end); simpl; auto. }
        destruct Y as [Y1 Y2]. destruct (IH _ Y1 Y2) as (m & M1 & M2). exists (S m). simpl. auto. }
    destruct (X _ w eq_refl R) as (m & M1 & M2). exists m. cbv zeta. rewrite A. simpl. rewrite M1. simpl.
    split; [exact M1|]. unfold q_flush. rewrite M2. unfold q_flush_inner.
    destruct (q_cmds (w_q (fold_left do1 (repeat Refresh m) w))) eqn:Q; [exact Q|reflexivity].
  Qed.
End Proofs.

(** ** Witnesses and examples *)

(** A link whose address and title follow the values, a text, and a click handler. Names: 0 is "class", 1 the
    empty string; the others stand for any strings. *)
Module BindDemo.
  Definition a_name : N := 10.
  Definition href : N := 11.
  Definition title : N := 12.
  Definition lang : N := 13.
  Definition click : N := 14.
  Definition link : step N N N :=
    NewElement a_name
      [(lang, Fixed 20); (href, Bound (fun s => 100 + s)); (0, BoundOpt (fun s => if s =? 0 then None else Some (50 + s)));
       (title, BoundOpt (fun s => if s <? 2 then None else Some (30 + s)))]
      [(click, HBasic 7); (click, HComputed (fun s => 200 + s))].
  Definition doc : bdom N :=
    BDom (fun _ => None) (fun _ => false) (fun _ => []) (fun _ => None) [] (fun _ => false) (fun _ => []).
  Definition story : list (step N N N) :=
    [FetchUp; link; NewText (inr (fun s => 60 + s)); NewText (inl 9); FetchDown;
     Change 3; Refresh; Refresh; DropText 6; link; Refresh; Refresh; Refresh; Flush;
     Change 2; Refresh; Refresh; Refresh; Refresh; Refresh; Refresh; Refresh; Refresh; Refresh; Flush].
  (** Two sources for one attribute. *)
  Definition twice : list (step N N N) :=
    [FetchUp; NewElement a_name [(title, Bound (fun s => 40 + s)); (title, Fixed 5)] []; FetchDown;
     Change 1; Refresh; Flush].
  (** A class bound to a value that becomes [None]. *)
  Definition undressed : list (step N N N) :=
    [FetchUp; NewElement a_name [(0, BoundOpt (fun s => if s =? 0 then Some 8 else None))] []; FetchDown;
     Change 1; Refresh; Flush].
End BindDemo.
Import BindDemo.

Lemma doc_blank : blank doc.
Proof. repeat split. Qed.

Example C80_attributes_example :
  lawful 4 nothing story /\ w_pend (run N.eqb 0 1 (start 0) story) = [] /\
  q_cmds (w_q (run N.eqb 0 1 (start 0) story)) = [] /\
  (exists name attrs hs, made 4 nothing story 4 = Some (IsElement name attrs hs) /\ NoDup (map fst attrs)) /\
  made 4 nothing story 6 = None /\ count story = 4 /\ values 0 story = 2 /\
  exists d, b_run N.eqb 99 builtin doc (concat (q_sent (w_q (run N.eqb 0 1 (start 0) story)))) = Some d /\
    b_get d 4 = Some (BElement a_name [(lang, 20); (href, 102); (0, 52); (title, 32)]) /\
    b_get d 5 = Some (BText 62) /\ b_get d 6 = None /\
    b_get d 7 = Some (BElement a_name [(lang, 20); (href, 102); (0, 52); (title, 32)]) /\
    fires N.eqb (run N.eqb 0 1 (start 0) story) 4 click = [Some 7; Some 202].
Proof.
  split; [|split; [vm_compute; reflexivity|split; [vm_compute; reflexivity|split]]].
  - cbn. repeat split. exists (inl 9). reflexivity.
  - eexists _, _, _. split; [vm_compute; reflexivity|].
    repeat (constructor; [simpl; unfold lang, href, title; intuition discriminate|]). constructor.
  - split; [vm_compute; reflexivity|]. split; [vm_compute; reflexivity|]. split; [vm_compute; reflexivity|].
    eexists. split; [vm_compute; reflexivity|]. repeat split; vm_compute; reflexivity.
Qed.

Example C80_settles_example :
  q_state (w_q (run N.eqb 0 1 (start 0) (firstn 6 story))) = Ready /\
  w_pend (run N.eqb 0 1 (start 0) (firstn 6 story)) <> [].
Proof. split; [vm_compute; reflexivity|]. vm_compute. discriminate. Qed.

(** The property in full: whatever an attribute was given last is what it shows. *)
Definition C80_statement : Prop :=
  forall (l : list (step N N N)) s0 d0 d id name pre n x hs,
    lawful 4 nothing l -> blank d0 ->
    b_run N.eqb 99 builtin d0 (concat (q_sent (w_q (run N.eqb 0 1 (start s0) l)))) = Some d ->
    w_pend (run N.eqb 0 1 (start s0) l) = [] -> q_cmds (w_q (run N.eqb 0 1 (start s0) l)) = [] ->
    made 4 nothing l id = Some (IsElement name (pre ++ [(n, x)]) hs) ->
    exists a, b_get d id = Some (BElement name a) /\ battr_get N.eqb a n = value x (values s0 l).

(** False if an attribute is given twice: the source that changes later overwrites the one given later. *)
Theorem C80_given_twice_refuted : ~ C80_statement.
Proof.
  intro S.
  destruct (S twice 0 doc _ 4 a_name [(title, Bound (fun s => 40 + s))] title (Fixed 5) [] I doc_blank
              eq_refl eq_refl eq_refl eq_refl) as (a & E & G).
  assert (X : Some (BElement a_name a) = Some (BElement a_name [(title, 41)])) by (rewrite <- E; reflexivity).
  injection X as ->. discriminate.
Qed.

(** And for a class that becomes [None]: it stays, empty. *)
Theorem C80_class_refuted : ~ C80_statement.
Proof.
  intro S.
  destruct (S undressed 0 doc _ 4 a_name [] 0 (BoundOpt (fun s => if s =? 0 then Some 8 else None)) [] I doc_blank
              eq_refl eq_refl eq_refl eq_refl) as (a & E & G).
  assert (X : Some (BElement a_name a) = Some (BElement a_name [(0, 1)])) by (rewrite <- E; reflexivity).
  injection X as ->. discriminate.
Qed.
