(** C27: the server builds the same tree as the browser. *)

From Coq Require Import List NArith Bool Lia.
From Verif Require Import MapModel SsrModel SsrList DomModel.
Import ListNotations.

Section Ssr.
  Context {T : Type}.
  Variable teqb : T -> T -> bool.
  Hypothesis teqb_spec : forall a b, reflect (a = b) (teqb a b).
  Variable hook : T.
  (** The names of the three elements every document has. *)
  Variables html_name head_name body_name : T.

  Notation bdom := (bdom T).
  Notation dcmd := (dcmd T).
  Notation elements := (elements T).
  Notation html := (html T).

  (** ** Specification *)

  (** dom_id.rs:3-5: the ids of html, head, body. *)
  Definition special (x : N) : bool := (x =? 1)%N || (x =? 2)%N || (x =? 3)%N.
  Definition special_name (x : N) : T := if (x =? 1)%N then html_name else if (x =? 2)%N then head_name else body_name.

  (** The document at the start: html with head and body. *)
  Definition doc0 : bdom := BDom
    (fun x => if special x then Some (BElement (special_name x) []) else None)
    special
    (fun x => if (x =? 1)%N then [2; 3]%N else [])
    (fun x => if (x =? 2)%N || (x =? 3)%N then Some 1%N else None)
    [] (fun _ => false) (fun _ => []).

  (** The command the server receives for a command (see C25); [RemoveAttr] never arrives. *)
  Definition s_of (c : dcmd) : list (scmd T) :=
    match c with
    | CreateNode id n => [SCreateNode id n]
    | CreateText id v => [SCreateText id v]
    | UpdateText id v => [SUpdateText id v]
    | SetAttr id n v => [SSetAttr id n v]
    | RemoveAttr _ _ => []
    | RemoveNode id => [SRemoveNode id]
    | RemoveText id => [SRemoveText id]
    | InsertBefore p c r => [SInsertBefore p r c]
    | InsertCss s v => [SInsertCss s v]
    | CreateComment id v => [SCreateComment id v]
    | RemoveComment id => [SRemoveComment id]
    | CallbackAdd id _ _ => [SCallbackAdd id]
    | CallbackRemove id _ _ => [SCallbackRemove id]
    end.

  (** What the commands may do with html, head and body: they are created (once, with their names) before they
      are used, and never removed; html is not inserted anywhere; head and body are used as references only when
      they have been inserted ([cr]: created, [mt]: inserted).  Moreover no attribute is removed and no
      node inserted before itself. *)
  Fixpoint disciplined (cr mt : N -> bool) (cs : list dcmd) : Prop :=
    match cs with
    | [] => True
    | c :: t =>
        match c with
        | CreateNode id n => if special id then cr id = false /\ n = special_name id /\ disciplined (nupd cr id true) mt t
                             else disciplined cr mt t
        | CreateText id _ | CreateComment id _ | RemoveNode id | RemoveText id | RemoveComment id =>
            special id = false /\ disciplined cr mt t
        | UpdateText id _ | SetAttr id _ _ => (special id = true -> cr id = true) /\ disciplined cr mt t
        | RemoveAttr _ _ => False
        | InsertBefore p c r =>
            (special p = true -> cr p = true) /\ (special c = true -> cr c = true /\ c <> 1%N) /\
            match r with Some r => (special r = true -> mt r = true) /\ r <> c | None => True end /\
            disciplined cr (nupd mt c true) t
        | InsertCss _ _ | CallbackAdd _ _ _ | CallbackRemove _ _ _ => disciplined cr mt t
        end
    end.
  Definition nothing : N -> bool := fun _ => false.

  (** The tree below a node of the browser, cut off at depth [fuel]. *)
  Fixpoint b_tree (fuel : nat) (cut : html) (b : bdom) (id : N) : html :=
    match fuel with
    | O => cut
    | S f =>
        match b_node b id with
        | Some (BElement name attr) => HElement name attr (map (b_tree f cut b) (b_kids b id))
        | Some (BText t) => HText t
        | Some (BComment t) => HComment t
        | None => cut
        end
    end.

  (** Equal trees; attributes are compared by name, as in the DOM. *)
  Inductive same : html -> html -> Prop :=
  | same_refl h : same h h
  | same_element n a1 a2 k1 k2 : (forall k, battr_get teqb a1 k = battr_get teqb a2 k) -> Forall2 same k1 k2 ->
      same (HElement n a1 k1) (HElement n a2 k2).

  (** ** Proof *)

  Definition ghostly (mt : N -> bool) (y : N) : bool := special y && negb (mt y).
  Definition vis (mt : N -> bool) (l : list N) : list N := filter (fun y => negb (ghostly mt y)) l.
  Definition live (b : bdom) (cr : N -> bool) (x : N) : Prop := b_reg b x = true /\ (special x = true -> cr x = true).

  Definition attrs (om : omap T) (a : list (T * T)) : Prop :=
    exists l, omap_iter teqb om = Some l /\ forall k, battr_get teqb l k = battr_get teqb a k.

  Definition node_ok (mt : N -> bool) (kids : list N) (n : bnode T) (sn : snode T) : Prop :=
    match n, sn with
    | BText t, SText t' => t = t'
    | BComment t, SComment t' => t = t'
    | BElement name a, SElement name' om ks => name = name' /\ attrs om a /\ rep ks (vis mt kids)
    | _, _ => False
    end.

  Record agree (ex : option N) (cr mt : N -> bool) (s : elements) (b : bdom) : Prop := {
    ag_node : forall x, live b cr x -> exists n sn, b_node b x = Some n /\ hget (e_all s) x = Some sn /\ node_ok mt (b_kids b x) n sn;
    ag_dead : forall x, ~ live b cr x -> hget (e_all s) x = None;
    ag_par : forall x, live b cr x -> Some x <> ex -> hget (e_parent s) x = if ghostly mt x then None else b_par b x;
    ag_tree : forall x p, b_par b x = Some p <-> In x (b_kids b p);
    ag_nodup : forall p, NoDup (b_kids b p);
    ag_reg : forall x p, In x (b_kids b p) -> b_reg b x = true;
    ag_elem : forall p x, In x (b_kids b p) -> exists n a, b_node b p = Some (BElement n a);
    ag_css : e_css s = b_css b;
    ag_special : forall x, special x = true -> b_reg b x = true /\ exists a, b_node b x = Some (BElement (special_name x) a);
    ag_fresh : forall x, special x = true -> cr x = false -> vis mt (b_kids b x) = [] /\ b_node b x = Some (BElement (special_name x) []);
    ag_mt : forall x, mt x = true -> special x = true -> cr x = true /\ x <> 1%N;
    ag_one : b_par b 1 = None;
    ag_known : forall x, b_reg b x = true -> b_node b x <> None;
    ag_pnone : forall x, ~ live b cr x -> hget (e_parent s) x = None;
    ag_unreg : forall x, b_node b x = None -> b_par b x = None /\ b_kids b x = []
  }.

  Lemma vis_app mt a c : vis mt (a ++ c) = vis mt a ++ vis mt c.
  Proof. apply filter_app. Qed.

  Lemma filter_comm {A} (f g : A -> bool) l : filter f (filter g l) = filter g (filter f l).
  Proof.
    induction l as [|x l IH]; simpl; auto. destruct (g x) eqn:G, (f x) eqn:F; simpl; rewrite ?F, ?G, IH; auto.
  Qed.

  Lemma vis_out mt l x : vis mt (out_of l x) = l_remove (vis mt l) x.
  Proof. unfold vis, out_of, l_remove. apply filter_comm. Qed.

  Lemma vis_ext mt mt' l : (forall x, In x l -> ghostly mt x = ghostly mt' x) -> vis mt l = vis mt' l.
  Proof.
    unfold vis. intros H. induction l as [|x l IH]; simpl; auto. rewrite (H x) by (simpl; auto).
    rewrite IH; [auto|]. intros y I. apply H. simpl. auto.
  Qed.

  Lemma vis_in mt l x : In x (vis mt l) <-> In x l /\ ghostly mt x = false.
  Proof. unfold vis. rewrite filter_In, negb_true_iff. tauto. Qed.

  Lemma out_in l x y : In y (out_of l x) <-> In y l /\ y <> x.
  Proof. apply l_remove_In. Qed.

  Lemma put_in l r x y : In r l -> (In y (put_before l r x) <-> y = x \/ In y l).
  Proof.
    induction l as [|z l IH]; simpl; [tauto|]. destruct (N.eqb_spec z r).
    - simpl. intuition.
    - intros [E|I]; [congruence|]. simpl. rewrite IH by auto. tauto.
  Qed.

  Lemma put_nodup l r x : NoDup l -> ~ In x l -> NoDup (put_before l r x).
  Proof.
    induction l as [|z l IH]; simpl; intros ND NI; auto. inversion ND; subst. destruct (z =? r)%N.
    - constructor; auto.
    - constructor; [|apply IH; auto]. intros I.
      assert (X : forall l, In z (put_before l r x) -> z = x \/ In z l).
      { clear. induction l as [|y l IH]; simpl; auto. destruct (y =? r)%N; simpl; intuition. }
      apply X in I. destruct I; [subst; apply NI; auto|contradiction].
  Qed.

  Lemma put_flat l r x : NoDup l -> In r l ->
    put_before l r x = flat_map (fun y => if (y =? r)%N then [x; y] else [y]) l.
  Proof.
    induction l as [|z l IH]; simpl; intros ND I; [tauto|]. inversion ND; subst. destruct (N.eqb_spec z r).
    - subst. simpl. do 2 f_equal. clear - H1. induction l as [|y l IH]; simpl in *; auto.
      destruct (N.eqb_spec y r); [subst; tauto|]. simpl. rewrite <- IH; auto.
    - simpl. f_equal. destruct I; [congruence|auto].
  Qed.

  Lemma vis_put mt l r x : NoDup l -> In r l -> ghostly mt r = false -> ghostly mt x = false ->
    vis mt (put_before l r x) = flat_map (fun y => if (y =? r)%N then [x; y] else [y]) (vis mt l).
  Proof.
    intros ND I GR GX. rewrite put_flat by auto. clear ND I. induction l as [|z l IH]; simpl; auto.
    destruct (N.eqb_spec z r).
    - subst. simpl. rewrite GR, GX. simpl. rewrite N.eqb_refl. simpl. rewrite IH. auto.
    - simpl. destruct (ghostly mt z); simpl; auto. destruct (N.eqb_spec z r); [congruence|]. simpl. rewrite IH. auto.
  Qed.

  Lemma nupd_eq {A} (f : N -> A) k a x : nupd f k a x = if (x =? k)%N then a else f x.
  Proof. reflexivity. Qed.

  (** Attributes. *)
  Lemma iter_set om l k v : omap_iter teqb om = Some l ->
    omap_iter teqb (omap_set teqb om k v) = Some (filter (fun e => negb (teqb k (fst e))) l ++ [(k, v)]).
  Proof.
    intros H. apply (iter_spec teqb) in H as [A H]. apply (iter_spec teqb). unfold omap_set.
    rewrite (tget_set teqb teqb_spec), (teqb_refl teqb teqb_spec). cbn [o_order o_data]. split.
    - rewrite map_app. simpl. f_equal. rewrite <- A. clear. induction l as [|[x y] l IH]; simpl; auto.
      destruct (teqb k x); simpl; congruence.
    - intros e I. rewrite (tget_set teqb teqb_spec). apply in_app_iff in I as [I|[<-|[]]]; [|simpl; rewrite (teqb_refl teqb teqb_spec); auto].
      apply filter_In in I as [I Q]. destruct (teqb_spec (fst e) k) as [E1|]; auto.
      rewrite E1, (teqb_refl teqb teqb_spec) in Q. discriminate.
  Qed.

  Lemma get_bset a k v k' : battr_get teqb (battr_set teqb a k v) k' = if teqb k' k then Some v else battr_get teqb a k'.
  Proof.
    induction a as [|[x y] a IH]; simpl; auto. destruct (teqb_spec k x); simpl.
    - subst. destruct (teqb_spec k' x); auto.
    - rewrite IH. destruct (teqb_spec k' x); auto. subst. destruct (teqb_spec x k); congruence.
  Qed.

  Lemma get_filter l k v k' : battr_get teqb (filter (fun e => negb (teqb k (fst e))) l ++ [(k, v)]) k' =
    if teqb k' k then Some v else battr_get teqb l k'.
  Proof.
    induction l as [|[x y] l IH]; simpl; auto. destruct (teqb_spec k x); simpl.
    - subst. rewrite IH. destruct (teqb_spec k' x); auto.
    - rewrite IH. destruct (teqb_spec k' x); auto. subst. destruct (teqb_spec x k); congruence.
  Qed.

  Lemma attrs_set om a k v : attrs om a -> attrs (omap_set teqb om k v) (battr_set teqb a k v).
  Proof.
    intros (l & I & G). exists (filter (fun e => negb (teqb k (fst e))) l ++ [(k, v)]). split; [apply iter_set; auto|].
    intros k'. rewrite get_filter, get_bset, G. auto.
  Qed.

  Lemma attrs_new : attrs omap_new [].
  Proof. exists []. split; auto. Qed.

  (** The start. *)
  Lemma agree0 : agree None nothing nothing elements_new doc0.
  Proof.
    assert (SP : forall x, special x = true -> x = 1%N \/ x = 2%N \/ x = 3%N).
    { intros x. unfold special. rewrite !orb_true_iff, !N.eqb_eq. tauto. }
    constructor; simpl.
    - intros x [A B]. simpl in A. specialize (B A). discriminate.
    - auto.
    - intros x [A B]. simpl in A. specialize (B A). discriminate.
    - intros x p. destruct (N.eqb_spec x 2), (N.eqb_spec x 3), (N.eqb_spec p 1); subst; simpl; try (split; [discriminate|]); intuition congruence.
    - intros p. destruct (p =? 1)%N; [|constructor]. constructor; [|constructor; [|constructor]]; simpl; intuition discriminate.
    - intros x p. destruct (p =? 1)%N; simpl; [|tauto]. intros [<-|[<-|[]]]; reflexivity.
    - intros p x. destruct (N.eqb_spec p 1); [|intros []]. subst. simpl. eauto.
    - auto.
    - intros x H. rewrite H. eauto.
    - intros x H _. rewrite H. split; auto. destruct (x =? 1)%N; reflexivity.
    - discriminate.
    - auto.
    - intros x H. rewrite H. discriminate.
    - auto.
    - intros x. destruct (special x) eqn:E; [discriminate|]. intros _. unfold special in E. apply orb_false_iff in E as [E1 E3]. apply orb_false_iff in E1 as [E1 E2].
      rewrite E1, E2, E3. auto.
  Qed.

  (** Leaving the parent. *)
  Lemma detach_facts (b : bdom) x : (forall y p, b_par b y = Some p <-> In y (b_kids b p)) ->
    (forall y, b_kids (detach b x) y = out_of (b_kids b y) x) /\
    (forall y, b_par (detach b x) y = if (y =? x)%N then None else b_par b y) /\
    b_node (detach b x) = b_node b /\ b_reg (detach b x) = b_reg b /\ b_css (detach b x) = b_css b.
  Proof.
    intros TR. unfold detach. destruct (b_par b x) as [p|] eqn:P; simpl.
    - split; [|split; [|auto]].
      + intros y. rewrite nupd_eq. destruct (N.eqb_spec y p); [subst; auto|].
        symmetry. apply (l_remove_notin (b_kids b y) x). intros I. apply TR in I. congruence.
      + intros y. rewrite nupd_eq. auto.
    - split; [|split; [|auto]].
      + intros y. symmetry. apply (l_remove_notin (b_kids b y) x). intros I. apply TR in I. congruence.
      + intros y. destruct (N.eqb_spec y x); subst; auto.
  Qed.

  Lemma detach_agree cr mt s b x : agree None cr mt s b -> live b cr x ->
    exists s1, s_remove_from_parent s x = Some s1 /\ agree (Some x) cr mt s1 (detach b x) /\ e_parent s1 = e_parent s.
  Proof.
    intros A L. pose proof A as [ND DE PA TR NO RE EL CS SP FR MT ON KN PN UN].
    destruct (detach_facts b x TR) as (DK & DP & DN & DR & DC).
    assert (LV : forall y, live (detach b x) cr y <-> live b cr y) by (intros y; unfold live; rewrite DR; tauto).
    assert (AG : forall s1, e_parent s1 = e_parent s -> e_css s1 = e_css s ->
        (forall y, live b cr y -> exists n sn, b_node b y = Some n /\ hget (e_all s1) y = Some sn /\ node_ok mt (out_of (b_kids b y) x) n sn) ->
        (forall y, ~ live b cr y -> hget (e_all s1) y = None) -> agree (Some x) cr mt s1 (detach b x)).
    { intros s1 E1 E2 H1 H2. constructor.
      - intros y. rewrite LV, DN, DK. apply H1.
      - intros y. rewrite LV. apply H2.
      - intros y. rewrite LV, E1, DP. intros Ly NE. rewrite PA; auto; [|discriminate]. destruct (N.eqb_spec y x); [subst; congruence|auto].
      - intros y p. rewrite DP, DK, out_in. destruct (N.eqb_spec y x); [subst; split; [discriminate|tauto]|]. rewrite TR. tauto.
      - intros p. rewrite DK. apply NoDup_filter. auto.
      - intros y p. rewrite DK, DR, out_in. intros [I _]. eapply RE; eauto.
      - intros p y. rewrite DK, DN, out_in. intros [I _]. eapply EL; eauto.
      - rewrite DC, E2. auto.
      - rewrite DR, DN. auto.
      - intros y S C. rewrite DK, DN, vis_out. destruct (FR y S C) as [V N]. rewrite V. auto.
      - auto.
      - rewrite DP. destruct (1 =? x)%N; auto.
      - rewrite DR, DN. auto.
      - intros y. rewrite LV, E1. apply PN.
      - intros y. rewrite DN, DP, DK. intros H. destruct (UN y H) as [U1 U2]. rewrite U1, U2. destruct (y =? x)%N; auto. }
    unfold s_remove_from_parent. rewrite (PA x L) by discriminate.
    assert (keep : (forall y, live b cr y -> ~ In x (vis mt (b_kids b y))) -> agree (Some x) cr mt s (detach b x)).
    { intros NI. apply AG; auto. intros y Ly. destruct (ND y Ly) as (n & sn & H1 & H2 & H3). exists n, sn. split; auto. split; auto.
      destruct n, sn; simpl in *; auto. destruct H3 as (E1 & E2 & E3). rewrite vis_out, l_remove_notin; auto. }
    destruct (ghostly mt x) eqn:G.
    - exists s. split; auto. split; auto. apply keep. intros y _ I. apply vis_in in I. destruct I. congruence.
    - destruct (b_par b x) as [p|] eqn:P.
      + destruct (hget (e_all s) p) as [sn|] eqn:Ep.
        * assert (Lp : live b cr p).
          { destruct (b_reg b p) eqn:R1; [|rewrite DE in Ep by (unfold live; rewrite R1; intuition discriminate); discriminate].
            split; auto. intros S. destruct (cr p) eqn:C; auto. rewrite DE in Ep; [discriminate|]. intros [_ X]. rewrite (X S) in C. discriminate. }
          destruct (ND p Lp) as (n & sn' & N1 & N2 & N3). rewrite Ep in N2. inversion N2; subst sn'. clear N2.
          apply TR in P. destruct (EL p x P) as (nm & a & N4). rewrite N1 in N4. inversion N4; subst n. clear N4.
          destruct sn as [name om ks|t|t]; simpl in N3; try contradiction. destruct N3 as (E1 & E2 & E3). subst name.
          destruct (remove_rep ks _ x E3) as (ks' & RM & RP). rewrite RM. eexists. split; [reflexivity|]. split; auto.
          apply AG; auto; cbn [e_parent e_all e_css].
          -- intros y Ly. rewrite hget_set. destruct (N.eqb_spec y p).
             ++ subst y. exists (BElement nm a), (SElement nm om ks'). split; auto. split; auto. simpl. rewrite vis_out. auto.
             ++ destruct (ND y Ly) as (n' & sn' & H1 & H2 & H3). exists n', sn'. split; auto. split; auto.
                replace (out_of (b_kids b y) x) with (b_kids b y); auto. symmetry. apply (l_remove_notin (b_kids b y) x).
                intros I. apply TR in I. apply TR in P. congruence.
          -- intros y Ly. rewrite hget_set. destruct (N.eqb_spec y p); [subst; contradiction|]. apply DE; auto.
        * exists s. split; auto. split; auto. apply keep. intros y Ly I. apply vis_in in I. destruct I as [I _]. apply TR in I.
          assert (y = p) by congruence. subst y. destruct (ND p Ly) as (n & sn & _ & H & _). congruence.
      + exists s. split; auto. split; auto. apply keep. intros y _ I. apply vis_in in I. destruct I as [I _]. apply TR in I. congruence.
  Qed.

  (** Creating. *)
  Lemma create_agree cr mt s b id n sn : agree None cr mt s b -> special id = false -> node_ok mt [] n sn -> b_node b id = None ->
    agree None cr mt (s_create s id sn)
      (BDom (nupd (b_node b) id (Some n)) (nupd (b_reg b) id true) (b_kids b) (b_par b) (b_css b) (b_cbs b) (b_listen b)).
  Proof.
    intros [ND DE PA TR NO RE EL CS SP FR MT ON KN PN UN] NS OK FRE.
    assert (NR : b_reg b id = false). { destruct (b_reg b id) eqn:E; auto. destruct (KN id E FRE). }
    assert (NOK : forall x p, In x (b_kids b p) -> x <> id). { intros x p I E. subst. apply RE in I. congruence. }
    destruct (UN id FRE) as [UP UK].
    constructor; unfold s_create; cbn [e_parent e_all e_css b_node b_reg b_kids b_par b_css].
    - intros x [A B]. cbn [b_reg] in A. rewrite nupd_eq in A. rewrite nupd_eq. rewrite hget_set. destruct (N.eqb_spec x id).
      + subst. exists n, sn. rewrite UK. auto.
      + apply ND. split; auto.
    - intros x H. rewrite hget_set. destruct (N.eqb_spec x id).
      + subst. destruct H. split; cbn [b_reg]; [rewrite nupd_eq, N.eqb_refl; auto|congruence].
      + apply DE. intros [A B]. apply H. split; auto. cbn [b_reg]. rewrite nupd_eq. destruct (N.eqb_spec x id); auto.
    - intros x [A B] _. cbn [b_reg] in A. rewrite nupd_eq in A. destruct (N.eqb_spec x id).
      + subst. unfold ghostly. rewrite NS, UP. simpl. apply PN. intros [X _]. congruence.
      + apply PA; [split; auto|discriminate].
    - auto.
    - auto.
    - intros x p I. rewrite nupd_eq. destruct (N.eqb_spec x id); auto. eapply RE; eauto.
    - intros p x I. rewrite nupd_eq. destruct (N.eqb_spec p id); [|eapply EL; eauto]. subst. rewrite UK in I. destruct I.
    - auto.
    - intros x S. rewrite !nupd_eq. destruct (N.eqb_spec x id); [congruence|]. auto.
    - intros x S C. rewrite nupd_eq. destruct (N.eqb_spec x id); [congruence|]. auto.
    - auto.
    - auto.
    - intros x. rewrite !nupd_eq. destruct (N.eqb_spec x id); [discriminate|]. auto.
    - intros x H. apply PN. intros [A B]. apply H. split; auto. cbn [b_reg]. rewrite nupd_eq. destruct (x =? id)%N; auto.
    - intros x. rewrite nupd_eq. destruct (N.eqb_spec x id); [discriminate|]. auto.
  Qed.

  (** The first creation of html, head or body. *)
  Lemma create_special cr mt s b id : agree None cr mt s b -> special id = true -> cr id = false ->
    agree None (nupd cr id true) mt (s_create s id (SElement (special_name id) omap_new children_new)) b.
  Proof.
    intros [ND DE PA TR NO RE EL CS SP FR MT ON KN PN UN] S C.
    destruct (FR id S C) as [V NO1]. destruct (SP id S) as [RG _].
    assert (MI : mt id = false). { destruct (mt id) eqn:M; auto. destruct (MT id M S). congruence. }
    assert (LV : forall x, live b (nupd cr id true) x -> x <> id -> live b cr x).
    { intros x [A B] NE. split; auto. intros S1. specialize (B S1). rewrite nupd_eq in B. destruct (N.eqb_spec x id); congruence. }
    assert (LV2 : forall x, ~ live b (nupd cr id true) x -> x <> id /\ ~ live b cr x).
    { intros x H. split.
      - intros ->. apply H. split; auto. rewrite nupd_eq, N.eqb_refl. auto.
      - intros [A B]. apply H. split; auto. intros S1. rewrite nupd_eq. destruct (x =? id)%N; auto. }
    constructor; unfold s_create, set_node; cbn [e_parent e_all e_css b_node b_reg b_kids b_par b_css]; try assumption.
    - intros x L. rewrite hget_set. destruct (N.eqb_spec x id); [|auto]. subst. exists (BElement (special_name id) []), (SElement (special_name id) omap_new children_new).
      split; auto. split; auto. simpl. rewrite V. split; auto. split; [apply attrs_new|apply rep_new].
    - intros x H. apply LV2 in H as [NE H]. rewrite hget_set. destruct (N.eqb_spec x id); [contradiction|auto].
    - intros x L _. destruct (N.eqb_spec x id); [|apply PA; [auto|discriminate]]. subst. unfold ghostly. rewrite S, MI. simpl.
      apply PN. intros [_ X]. rewrite (X S) in C. discriminate.
    - intros x S1 C1. rewrite nupd_eq in C1. destruct (x =? id)%N; [discriminate|auto].
    - intros x M1 S1. destruct (MT x M1 S1). rewrite nupd_eq. destruct (x =? id)%N; auto.
    - intros x H. apply LV2 in H as [_ H]. auto.
  Qed.

  (** Changing a node in place. *)
  Lemma update_agree cr mt s b id n n' sn' : agree None cr mt s b -> live b cr id ->
    b_node b id = Some n -> node_ok mt (b_kids b id) n' sn' ->
    (forall name a, n = BElement name a -> exists a', n' = BElement name a') ->
    agree None cr mt (s_create s id sn') (set_node b id n').
  Proof.
    intros [ND DE PA TR NO RE EL CS SP FR MT ON KN PN UN] L BN OK SH.
    assert (LV : forall x, live (set_node b id n') cr x <-> live b cr x) by (intros; unfold live; simpl; tauto).
    constructor; unfold s_create, set_node; cbn [e_parent e_all e_css b_node b_reg b_kids b_par b_css]; try assumption.
    - intros x H. rewrite hget_set. rewrite nupd_eq. destruct (N.eqb_spec x id); [|auto]. subst. eauto.
    - intros x H. rewrite hget_set. destruct (N.eqb_spec x id); [subst; contradiction|auto].
    - intros p x I. rewrite nupd_eq. destruct (N.eqb_spec p id); [|eauto]. subst. destruct (EL id x I) as (nm & a & E).
      rewrite BN in E. inversion E; subst. destruct (SH _ _ eq_refl) as (a' & ->). eauto.
    - intros x S. destruct (SP x S) as (R & a & E). split; auto. rewrite nupd_eq. destruct (N.eqb_spec x id); [|eauto]. subst.
      rewrite BN in E. inversion E; subst. destruct (SH _ _ eq_refl) as (a' & ->). eauto.
    - intros x S C. rewrite nupd_eq. destruct (N.eqb_spec x id); [|auto]. subst. destruct L as [_ L]. rewrite (L S) in C. discriminate.
    - intros x. rewrite nupd_eq. destruct (N.eqb_spec x id); [discriminate|auto].
    - intros x. rewrite nupd_eq. destruct (N.eqb_spec x id); [discriminate|auto].
  Qed.

  (** Removing. *)
  Lemma remove_agree cr mt s b x b' : agree None cr mt s b -> special x = false -> b_remove special b x = Some b' ->
    exists s', s_remove s x = Some s' /\ agree None cr mt s' b'.
  Proof.
    intros A NS H. unfold b_remove, b_get in H. destruct (b_reg b x) eqn:R; [|discriminate].
    destruct (b_node b x) as [nx|] eqn:BX; [|discriminate]. rewrite NS in H. inversion H; subst b'. clear H.
    assert (L : live b cr x) by (split; congruence).
    destruct (detach_agree cr mt s b x A L) as (s1 & E & A1 & EP). unfold s_remove. rewrite E. eexists. split; [reflexivity|].
    destruct (detach_facts b x (ag_tree _ _ _ _ _ A)) as (DK & DP & DN & DR & DC).
    set (s1b := BDom (b_node b) (nupd (b_reg b) x false) (b_kids b) (b_par b) (b_css b) (b_cbs b) (b_listen b)).
    destruct (detach_facts s1b x (ag_tree _ _ _ _ _ A)) as (EK & EPa & EN & ER & EC).
    assert (PX : b_par (detach b x) x = None) by (rewrite DP, N.eqb_refl; auto).
    destruct A1 as [ND DE PA TR NO RE EL CS SP FR MT ON KN PN UN].
    assert (NX : forall p, ~ In x (b_kids (detach b x) p)). { intros p I. apply TR in I. congruence. }
    assert (LV : forall y, live (detach s1b x) cr y -> y <> x /\ live (detach b x) cr y).
    { intros y [X1 X2]. rewrite ER in X1. unfold s1b in X1. cbn [b_reg] in X1. rewrite nupd_eq in X1. destruct (N.eqb_spec y x); [discriminate|].
      split; auto. split; auto. rewrite DR. auto. }
    assert (LV2 : forall y, ~ live (detach s1b x) cr y -> y <> x -> ~ live (detach b x) cr y).
    { intros y H1 H2 [X1 X2]. apply H1. split; auto. rewrite ER. unfold s1b. cbn [b_reg]. rewrite nupd_eq. destruct (N.eqb_spec y x); [contradiction|]. rewrite <- DR. auto. }
    assert (KE : forall y, b_kids (detach s1b x) y = b_kids (detach b x) y) by (intros; rewrite EK, DK; auto).
    assert (PE : forall y, b_par (detach s1b x) y = b_par (detach b x) y) by (intros; rewrite EPa, DP; auto).
    assert (NE : b_node (detach s1b x) = b_node (detach b x)) by (rewrite EN, DN; auto).
    constructor; cbn [e_parent e_all e_css].
    - intros y Ly. apply LV in Ly as [Y Ly]. rewrite hget_del, KE, NE. destruct (N.eqb_spec y x); [contradiction|]. auto.
    - intros y Ly. rewrite hget_del. destruct (N.eqb_spec y x); auto.
    - intros y Ly _. apply LV in Ly as [Y Ly]. rewrite hget_del, PE. destruct (N.eqb_spec y x); [contradiction|]. apply PA; congruence.
    - intros y p. rewrite PE, KE. auto.
    - intros p. rewrite KE. auto.
    - intros y p. rewrite KE. intros I. rewrite ER. unfold s1b. cbn [b_reg]. rewrite nupd_eq. destruct (N.eqb_spec y x); [subst; destruct (NX _ I)|].
      rewrite <- DR. eauto.
    - intros p y. rewrite KE, NE. eauto.
    - rewrite EC. rewrite CS, DC. auto.
    - intros y S. rewrite NE, ER. unfold s1b. cbn [b_reg]. rewrite nupd_eq. destruct (N.eqb_spec y x); [congruence|]. rewrite <- DR. auto.
    - intros y S C. rewrite KE, NE. auto.
    - auto.
    - rewrite PE. auto.
    - intros y. rewrite NE, ER. unfold s1b. cbn [b_reg]. rewrite nupd_eq. destruct (N.eqb_spec y x); [discriminate|]. rewrite <- DR. auto.
    - intros y Ly. rewrite hget_del. destruct (N.eqb_spec y x); auto.
    - intros y. rewrite NE, PE, KE. auto.
  Qed.

  (** Inserting. *)
  Lemma place_agree cr mt s b p c r f : agree None cr mt s b -> live b cr p -> live b cr c -> p <> c ->
    (exists n a, b_node b p = Some (BElement n a)) -> c <> 1%N ->
    match r with Some r => In r (b_kids b p) /\ r <> c /\ ghostly mt r = false | None => True end ->
    (f = fun l => match r with Some r => put_before l r c | None => l ++ [c] end) ->
    exists s', s_insert s p r c = Some s' /\ agree None cr (nupd mt c true) s' (place b p c f).
  Proof.
    intros A Lp Lc PC (pn & pa & BP) C1 HR EF.
    destruct (detach_agree cr mt s b c A Lc) as (s1 & E & A1 & EPA). unfold s_insert. rewrite E.
    destruct (detach_facts b c (ag_tree _ _ _ _ _ A)) as (DK & DP & DN & DR & DC).
    set (d := detach b c) in *. unfold place. fold d.
    destruct A1 as [ND DE PA TR NO RE EL CS SP FR MT ON KN PN UN].
    assert (LV : forall y, live d cr y <-> live b cr y) by (intros y; unfold live; rewrite DR; tauto).
    assert (NC : forall q, ~ In c (b_kids d q)). { intros q. rewrite DK, out_in. tauto. }
    destruct (ND p (proj2 (LV p) Lp)) as (n & sn & H1 & H2 & H3). rewrite DN, BP in H1. inversion H1; subst n. clear H1.
    rewrite H2. destruct sn as [name om ks|t|t]; simpl in H3; try contradiction. destruct H3 as (-> & AT & RP).
    assert (RI : match r with Some r => In r (vis mt (b_kids d p)) /\ r <> c | None => True end).
    { destruct r as [r|]; auto. destruct HR as (X1 & X2 & X3). split; auto. apply vis_in. rewrite DK, out_in. auto. }
    destruct (insert_rep ks _ r c RP RI) as (ks' & IE & RP'). rewrite IE. eexists. split; [reflexivity|].
    set (mt' := nupd mt c true).
    assert (GC : ghostly mt' c = false). { unfold ghostly, mt'. rewrite nupd_eq, N.eqb_refl, andb_false_r. auto. }
    assert (GO : forall y, y <> c -> ghostly mt' y = ghostly mt y).
    { intros y Y. unfold ghostly, mt'. rewrite nupd_eq. destruct (N.eqb_spec y c); [contradiction|auto]. }
    assert (VE : forall q, vis mt' (b_kids d q) = vis mt (b_kids d q)).
    { intros q. apply vis_ext. intros y I. apply GO. intros ->. apply (NC q I). }
    assert (RP2 : rep ks' (vis mt' (f (b_kids d p)))).
    { replace (vis mt' (f (b_kids d p))) with (l_insert (vis mt (b_kids d p)) r c); auto.
      subst f. unfold l_insert. rewrite l_remove_notin by (rewrite vis_in; intros [X _]; apply (NC p X)).
      destruct r as [r|].
      - destruct HR as (X1 & X2 & X3). destruct RI as [X4 _]. apply vis_in in X4 as [X4 _]. rewrite vis_put; auto; [|rewrite GO; auto]. rewrite VE. auto.
      - rewrite vis_app, VE. simpl. unfold vis at 2. simpl. rewrite GC. auto. }
    assert (FI : forall y, In y (f (b_kids d p)) <-> y = c \/ In y (b_kids d p)).
    { intros y. subst f. destruct r as [r|].
      - apply put_in. rewrite DK, out_in. tauto.
      - rewrite in_app_iff. simpl. intuition. }
    assert (FN : NoDup (f (b_kids d p))).
    { subst f. destruct r as [r|]; [apply put_nodup; auto|]. apply NoDup_swap. simpl. constructor; auto. }
    assert (LV' : forall y, live (BDom (b_node d) (b_reg d) (nupd (b_kids d) p (f (b_kids d p))) (nupd (b_par d) c (Some p))
        (b_css d) (b_cbs d) (b_listen d)) cr y <-> live b cr y) by (intros y; unfold live; simpl; rewrite DR; tauto).
    constructor; cbn [b_node b_reg b_kids b_par b_css e_parent e_all e_css].
    - intros y Ly. apply LV' in Ly. rewrite hget_set, nupd_eq. destruct (N.eqb_spec y p).
      + subst y. exists (BElement name pa), (SElement name om ks'). rewrite DN. split; auto. split; auto. simpl. auto.
      + destruct (ND y (proj2 (LV y) Ly)) as (n1 & sn1 & X1 & X2 & X3). exists n1, sn1. split; auto. split; auto.
        destruct n1, sn1; simpl in *; auto. rewrite VE. auto.
    - intros y Ly. rewrite LV' in Ly. rewrite hget_set. destruct (N.eqb_spec y p); [subst; contradiction|]. apply DE. rewrite LV. auto.
    - intros y Ly _. apply LV' in Ly. rewrite hget_set, nupd_eq. destruct (N.eqb_spec y c).
      + subst. rewrite GC. auto.
      + rewrite GO by auto. apply PA; [apply LV; auto|congruence].
    - intros y q. rewrite !nupd_eq. destruct (N.eqb_spec q p).
      + subst q. rewrite FI. destruct (N.eqb_spec y c); [subst; tauto|]. rewrite TR. intuition congruence.
      + destruct (N.eqb_spec y c); [|apply TR]. subst. split; [congruence|]. intros X. destruct (NC _ X).
    - intros q. rewrite nupd_eq. destruct (q =? p)%N; auto.
    - intros y q. rewrite nupd_eq. destruct (N.eqb_spec q p); [|eauto]. rewrite FI. intros [->|X]; [|eauto]. rewrite DR. apply Lc.
    - intros q y. rewrite nupd_eq. destruct (N.eqb_spec q p); [|eauto]. subst. rewrite DN. eauto.
    - auto.
    - auto.
    - intros y S C. rewrite nupd_eq. destruct (N.eqb_spec y p).
      + subst. destruct Lp as [_ Lp]. rewrite (Lp S) in C. discriminate.
      + rewrite VE. auto.
    - intros y M S. unfold mt' in M. rewrite nupd_eq in M. destruct (N.eqb_spec y c); [|auto]. subst. split; auto. apply Lc. auto.
    - rewrite nupd_eq. destruct (N.eqb_spec 1 c); [congruence|auto].
    - auto.
    - intros y Ly. rewrite LV' in Ly. rewrite hget_set. destruct (N.eqb_spec y c); [subst; contradiction|]. apply PN. rewrite LV. auto.
    - intros y X. rewrite !nupd_eq. destruct (UN y X) as [U1 U2]. destruct (N.eqb_spec y c).
      + subst. exfalso. eapply KN; [|exact X]. rewrite DR. apply Lc.
      + split; auto. destruct (N.eqb_spec y p); [subst; rewrite DN in X; congruence|auto].
  Qed.

  (** The states after one command. *)
  Definition next_cr (cr : N -> bool) (c : dcmd) : N -> bool :=
    match c with CreateNode id _ => if special id then nupd cr id true else cr | _ => cr end.
  Definition next_mt (mt : N -> bool) (c : dcmd) : N -> bool :=
    match c with InsertBefore _ x _ => nupd mt x true | _ => mt end.

  Lemma step_agree cr mt s b c t b' : agree None cr mt s b -> disciplined cr mt (c :: t) -> legal b c ->
    b_step teqb hook special b c = Some b' ->
    exists s', s_feed teqb s (s_of c) = Some s' /\ agree None (next_cr cr c) (next_mt mt c) s' b' /\
      disciplined (next_cr cr c) (next_mt mt c) t.
  Proof.
    intros A D LG H.
    assert (one : forall x, (match s_step teqb s x with None => None | Some s1 => Some s1 end) = s_step teqb s x)
      by (intros; destruct (s_step teqb s x); auto).
    assert (CB : forall b1, (b_node b1, b_reg b1, b_kids b1, b_par b1, b_css b1) = (b_node b, b_reg b, b_kids b, b_par b, b_css b) ->
      agree None cr mt s b1).
    { intros [n1 r1 k1 p1 c1 x1 y1] E. simpl in E. inversion E; subst. destruct A. constructor; auto. }
    destruct c; cbn [s_of s_feed next_cr next_mt]; rewrite ?one; cbn [s_step]; simpl in D, H.
    - (* CreateNode *) eexists. split; [reflexivity|]. unfold b_create in H. destruct (special id) eqn:S.
      + destruct D as (D1 & -> & D2). inversion H; subst b'. split; auto. apply create_special; auto.
      + destruct (b_node b id) eqn:B; [discriminate|]. inversion H; subst b'. split; auto. apply create_agree; auto.
        simpl. split; auto. split; [apply attrs_new|apply rep_new].
    - destruct D as [S D]. unfold b_create in H. rewrite S in H. destruct (b_node b id) eqn:B; [discriminate|]. inversion H; subst b'.
      eexists. split; [reflexivity|]. split; auto. apply create_agree; simpl; auto.
    - (* UpdateText *) destruct D as [S D]. unfold b_get in H. destruct (b_reg b id) eqn:R; [|discriminate].
      destruct (b_node b id) as [[| |]|] eqn:B; try discriminate. inversion H; subst b'.
      eexists. split; [reflexivity|]. split; auto. eapply update_agree; eauto; [split; auto| |]; simpl; auto. discriminate.
    - (* SetAttr *) destruct D as [S D]. unfold b_get in H. destruct (b_reg b id) eqn:R; [|discriminate].
      destruct (b_node b id) as [[nm a| |]|] eqn:B; try discriminate. inversion H; subst b'.
      assert (L : live b cr id) by (split; auto). destruct (ag_node _ _ _ _ _ A id L) as (n1 & sn & X1 & X2 & X3).
      rewrite B in X1. inversion X1; subst n1. destruct sn as [nm' om ks|q|q]; simpl in X3; try contradiction. destruct X3 as (-> & X3 & X4).
      unfold s_set_attr. rewrite X2. eexists. split; [reflexivity|]. split; auto.
      apply (update_agree cr mt s b id (BElement nm' a) _ (SElement nm' (omap_set teqb om name value) ks)); auto.
      + simpl. split; auto. split; auto. apply attrs_set. auto.
      + intros ? ? Q. inversion Q; subst. eauto.
    - contradiction.
    - destruct D as [S D]. destruct (remove_agree _ _ _ _ _ _ A S H) as (s' & E & A'). eauto.
    - destruct D as [S D]. destruct (remove_agree _ _ _ _ _ _ A S H) as (s' & E & A'). eauto.
    - (* InsertBefore *) destruct D as (D1 & D2 & D3 & D4). unfold b_insert, b_get in H. simpl in LG.
      destruct (b_reg b parent) eqn:RP; [|discriminate]. destruct (b_node b parent) as [[pn pa| |]|] eqn:BP; try discriminate.
      destruct (b_reg b child) eqn:RC; [|discriminate]. destruct (b_node b child) eqn:BC; [|discriminate].
      assert (PC : parent <> child). { intros ->. apply LG. constructor. }
      assert (C1 : child <> 1%N). { intros ->. destruct D2 as [_ D2]; [reflexivity|]. congruence. }
      assert (Lp : live b cr parent) by (split; auto).
      assert (Lc : live b cr child) by (split; auto; intros S; apply D2; auto).
      destruct ref as [r|].
      + destruct D3 as [D3 NR]. destruct (b_reg b r) eqn:RR; [|discriminate]. destruct (b_node b r) eqn:BR; [|discriminate].
        destruct (b_par b r) as [q|] eqn:PR; [|discriminate]. destruct (N.eqb_spec q parent); [|discriminate]. subst q.
        destruct (N.eqb_spec r child); [contradiction|]. inversion H; subst b'.
        destruct (place_agree cr mt s b parent child (Some r) (fun l => put_before l r child)) as (s' & E & A'); eauto.
        split; [apply (ag_tree _ _ _ _ _ A); auto|]. split; auto. unfold ghostly. destruct (special r) eqn:SR; auto. rewrite D3; auto.
      + inversion H; subst b'.
        destruct (place_agree cr mt s b parent child None (fun l => l ++ [child])) as (s' & E & A'); eauto.
    - inversion H; subst b'. eexists. split; [reflexivity|]. split; auto. destruct A. constructor; simpl; auto. congruence.
    - destruct D as [S D]. unfold b_create in H. rewrite S in H. destruct (b_node b id) eqn:B; [discriminate|]. inversion H; subst b'.
      eexists. split; [reflexivity|]. split; auto. apply create_agree; simpl; auto.
    - destruct D as [S D]. destruct (remove_agree _ _ _ _ _ _ A S H) as (s' & E & A'). eauto.
    - exists s. split; auto. split; auto. apply CB. unfold b_callback_add in H. destruct (b_cbs b callback); [congruence|].
      destruct (teqb event hook); [inversion H; auto|]. destruct (b_get b id); inversion H; auto.
    - exists s. split; auto. split; auto. apply CB. unfold b_callback_remove in H. destruct (b_cbs b callback); [|congruence].
      destruct (teqb event hook); [inversion H; auto|]. destruct (b_get b id); inversion H; auto.
  Qed.

  Lemma feed_app s xs ys : s_feed teqb s (xs ++ ys) = match s_feed teqb s xs with None => None | Some s1 => s_feed teqb s1 ys end.
  Proof. revert s. induction xs as [|x xs IH]; intros s; simpl; auto. destruct (s_step teqb s x); auto. Qed.

  Definition mounted (cs : list dcmd) (x : N) : Prop := exists p r, In (InsertBefore p x r) cs.

  Lemma run_agree b cs es b' : breplay teqb hook special b cs es b' -> es = [] -> forall cr mt s, agree None cr mt s b -> disciplined cr mt cs ->
    exists s' cr' mt', s_feed teqb s (flat_map s_of cs) = Some s' /\ agree None cr' mt' s' b' /\
      (forall x, mt x = true \/ mounted cs x -> mt' x = true) /\
      (forall x, cr x = true \/ special x = true /\ (exists n, In (CreateNode x n) cs) -> cr' x = true).
  Proof.
    induction 1 as [b|b c t b1 errs b2 LG ST _ IH|]; intros EE cr mt s0 A D.
    - exists s0, cr, mt. split; auto. split; auto. split.
      + intros x [E|(p & r & [])]; auto.
      + intros x [E|(_ & n & [])]; auto.
    - destruct (step_agree _ _ _ _ _ _ _ A D LG ST) as (s1 & F & A1 & D1).
      destruct (IH EE _ _ _ A1 D1) as (s2 & cr2 & mt2 & F2 & A2 & M2 & C2). exists s2, cr2, mt2.
      cbn [flat_map]. rewrite feed_app, F. split; auto. split; auto. split.
      + intros x H. apply M2. destruct H as [H|(p & r & [H|H])].
        * left. destruct c; cbn [next_mt]; auto. rewrite nupd_eq. destruct (x =? child)%N; auto.
        * left. subst c. cbn [next_mt]. rewrite nupd_eq, N.eqb_refl. auto.
        * right. exists p, r. auto.
      + intros x H. apply C2. destruct H as [H|(S & n & [H|H])].
        * left. destruct c; cbn [next_cr]; auto. destruct (special id); auto. rewrite nupd_eq. destruct (x =? id)%N; auto.
        * left. subst c. cbn [next_cr]. rewrite S, nupd_eq, N.eqb_refl. auto.
        * right. eauto.
    - discriminate.
  Qed.

  Lemma tree_agree cr mt s b cut missing : agree None cr mt s b -> mt 2%N = true -> mt 3%N = true ->
    forall fuel x, live b cr x -> exists h, s_tree teqb fuel cut missing s x = Some h /\ same h (b_tree fuel cut b x).
  Proof.
    intros A M2 M3.
    assert (VI : forall p, vis mt (b_kids b p) = b_kids b p).
    { intros p. unfold vis. assert (X : forall x, In x (b_kids b p) -> ghostly mt x = false).
      { intros x I. unfold ghostly, special. destruct (N.eqb_spec x 1).
        - subst. apply (ag_tree _ _ _ _ _ A) in I. rewrite (ag_one _ _ _ _ _ A) in I. discriminate.
        - destruct (N.eqb_spec x 2); [subst; rewrite M2; auto|]. destruct (N.eqb_spec x 3); [subst; rewrite M3; auto|]. auto. }
      revert X. generalize (b_kids b p). induction l as [|y l IH]; simpl; auto. intros X. rewrite X by auto. simpl. rewrite IH; auto. }
    assert (LK : forall x p, In x (b_kids b p) -> live b cr x).
    { intros x p I. split; [eapply ag_reg; eauto|]. intros S. assert (mt x = true /\ x <> 1%N) as [M _].
      { revert S. unfold special. intros S.
        destruct (N.eqb_spec x 1); [subst; apply (ag_tree _ _ _ _ _ A) in I; rewrite (ag_one _ _ _ _ _ A) in I; discriminate|].
        destruct (N.eqb_spec x 2); [subst; auto|]. destruct (N.eqb_spec x 3); [subst; auto|]. discriminate. }
      apply (ag_mt _ _ _ _ _ A x M S). }
    induction fuel as [|f IH]; intros x L; simpl; [eexists; split; [reflexivity|constructor]|].
    destruct (ag_node _ _ _ _ _ A x L) as (n & sn & X1 & X2 & X3). rewrite X1, X2.
    destruct n as [nm a|q|q], sn as [nm' om ks|q'|q']; simpl in X3; try contradiction; subst; try (eexists; split; [reflexivity|constructor]).
    destruct X3 as (-> & (l & IT & G) & RP). rewrite (rep_childs _ _ RP), IT, VI.
    assert (K : exists hs, oseq (map (s_tree teqb f cut missing s) (b_kids b x)) = Some hs /\ Forall2 same hs (map (b_tree f cut b) (b_kids b x))).
    { assert (Y : forall y, In y (b_kids b x) -> live b cr y) by eauto. revert Y. generalize (b_kids b x). induction l0 as [|y l0 IH0]; simpl; intros Y.
      - exists []. auto.
      - destruct (IH y (Y y (or_introl eq_refl))) as (h & E & S). destruct IH0 as (hs & E2 & S2); auto. rewrite E, E2. exists (h :: hs). auto. }
    destruct K as (hs & E & S). rewrite E. eexists. split; [reflexivity|]. constructor; auto.
  Qed.

  (** ** Theorem *)

  (** If the browser replays a batch of commands without errors, and the commands create and insert html, head
      and body, then the server accepts the commands, collects the same style rules, and its tree below html
      (and below any other node that exists) is the document of the browser.
      Missing with respect to the full claim: batches with [RemoveAttr], batches using html, head and body otherwise. *)
  Theorem C27_same_tree_partial cs b : breplay teqb hook special doc0 cs [] b ->
    disciplined nothing nothing cs -> (exists n, In (CreateNode 1 n) cs) -> mounted cs 2 -> mounted cs 3 ->
    exists s, s_feed teqb elements_new (flat_map s_of cs) = Some s /\ e_css s = b_css b /\
      forall x, b_reg b x = true -> forall fuel cut missing,
        exists h, s_tree teqb fuel cut missing s x = Some h /\ same h (b_tree fuel cut b x).
  Proof.
    intros R D C1 M2 M3. destruct (run_agree _ _ _ _ R eq_refl _ _ _ agree0 D) as (s & cr & mt & F & A & M & C).
    exists s. split; auto. split; [apply (ag_css _ _ _ _ _ A)|]. intros x RX fuel cut missing.
    assert (m2 : mt 2%N = true) by (apply M; auto). assert (m3 : mt 3%N = true) by (apply M; auto).
    apply (tree_agree cr mt); auto. split; auto. intros S. unfold special in S.
    destruct (N.eqb_spec x 1); [subst; apply C; right; split; auto|].
    destruct (N.eqb_spec x 2); [subst; apply (ag_mt _ _ _ _ _ A); auto|].
    destruct (N.eqb_spec x 3); [subst; apply (ag_mt _ _ _ _ _ A); auto|]. discriminate.
  Qed.
End Ssr.

(** ** Replaying with checks, for examples *)

Section Check.
  Context {T : Type}.
  Variable teqb : T -> T -> bool.
  Variable hook : T.
  Variable perm : N -> bool.

  (** [y] is not above [x], found within [fuel] steps. *)
  Fixpoint apart (fuel : nat) (s : bdom T) (x y : N) : bool :=
    match fuel with
    | O => false
    | S f => negb (x =? y)%N && match b_par s x with None => true | Some p => apart f s p y end
    end.
  Lemma apart_spec fuel s x y : apart fuel s x y = true -> ~ under s x y.
  Proof.
    revert x. induction fuel as [|f IH]; simpl; [discriminate|]. intros x H U. apply andb_true_iff in H as [H1 H2].
    inversion U as [|? p ? P U1]; subst; [rewrite N.eqb_refl in H1; discriminate|]. rewrite P in H2. apply (IH p); auto.
  Qed.

  Fixpoint checked (fuel : nat) (s : bdom T) (cs : list (dcmd T)) : bool :=
    match cs with
    | [] => true
    | c :: t =>
        match c with InsertBefore p x _ => apart fuel s p x | _ => true end &&
        match b_step teqb hook perm s c with Some s1 => checked fuel s1 t | None => false end
    end.
  Lemma checked_replay fuel cs : forall s, checked fuel s cs = true -> exists b, breplay teqb hook perm s cs [] b.
  Proof.
    induction cs as [|c t IH]; intros s H; [eexists; constructor|]. cbn [checked] in H. apply andb_true_iff in H as [H1 H2].
    destruct (b_step teqb hook perm s c) as [s1|] eqn:E; [|discriminate]. destruct (IH _ H2) as (b & B). exists b.
    eapply br_ok; eauto. destruct c; simpl; auto. apply (apart_spec fuel). auto.
  Qed.
End Check.

(** ** A case, and what the restrictions exclude *)

(** Strings are numbers here: 11, 12, 13 are "html", "head", "body". *)
Module SsrDemo.
  Definition cs : list (dcmd N) :=
    [ CreateNode 1 11; CreateNode 2 12; InsertBefore 1 2 None; CreateNode 3 13; SetAttr 3 20 21; CreateNode 4 14; CreateText 5 30;
      InsertBefore 4 5 None; SetAttr 4 20 21; SetAttr 4 20 22; InsertBefore 3 4 None; CreateComment 6 31;
      InsertBefore 3 6 (Some 4); InsertCss 40 41; CreateText 7 32; InsertBefore 3 7 (Some 4); UpdateText 5 33; CallbackAdd 4 50 9;
      InsertBefore 3 7 (Some 6); InsertBefore 1 3 None; RemoveComment 6 ]%N.

  (** The premises of [C27_same_tree_partial] hold. *)
  Example C27_case : (exists b, breplay N.eqb 0%N special (doc0 11 12 13)%N cs [] b) /\
    disciplined 11%N 12%N 13%N nothing nothing cs /\ (exists n, In (CreateNode 1%N n) cs) /\ mounted cs 2 /\ mounted cs 3.
  Proof.
    split; [|split; [|split; [|split]]].
    - apply (checked_replay N.eqb 0%N special 9). vm_compute. reflexivity.
    - cbv. repeat split; try (intros; discriminate); auto.
    - exists 11%N. simpl. auto.
    - exists 1%N, None. simpl. tauto.
    - exists 1%N, None. simpl. tauto.
  Qed.

  (** And the tree they agree on. *)
  Example C27_case_tree :
    match s_feed N.eqb elements_new (flat_map s_of cs) with
    | Some s => s_tree N.eqb 9 (HText 0%N) (HText 0%N) s 1
    | None => None
    end = Some (HElement 11 [] [HElement 12 [] []; HElement 13 [(20, 21)] [HText 32; HElement 14 [(20, 22)] [HText 33]]])%N.
  Proof. vm_compute. reflexivity. Qed.
End SsrDemo.

(** The server panics on a command the browser accepts: inserting a node before itself
    (element_children.rs:70-72: [assert]; the browser leaves the node in place). *)
Definition self_insert : list (dcmd N) :=
  [CreateNode 1 11; CreateNode 2 12; InsertBefore 1 2 None; InsertBefore 1 2 (Some 2)]%N.
Theorem C27_self_insert_refuted : exists cs : list (dcmd N),
  b_run N.eqb 0%N special (doc0 11 12 13)%N cs <> None /\ s_feed N.eqb elements_new (flat_map s_of cs) = None.
Proof. exists self_insert. split; [cbv; discriminate|reflexivity]. Qed.
