(** C32, what happens after the mount: the reactive nodes of a mounted fragment or list get new values. *)

From Coq Require Import List NArith Bool Arith Lia Permutation.
From Verif Require Import DomModel DomSort RenderModel RenderProps RenderList RenderNest.
Import ListNotations.

(** ** Model *)

Section Later.
  Context {S : Type}.
  Variable mark : S.

  (** /repo/crates/vertigo/src/render/dom_value.rs:17-29: the node with the number [i] of a mounted fragment or list is a [render_value] and its value changes: the
      new node is inserted before the comment of the value, the old one dropped.  [None]: that node is no value. *)
  Fixpoint change (parent : N) (l : list (rnode S)) (i : nat) (new : option (rnode S)) : option (list (rnode S) * list (dcmd S)) :=
    match l, i with
    | RValue c old :: t, O => Some (RValue c new :: t, on_value mark parent c old new)
    | x :: t, Datatypes.S j => match change parent t j new with Some (t1, cs) => Some (x :: t1, cs) | None => None end
    | _, _ => None
    end.
  (** /repo/crates/vertigo/src/render/dom_value.rs:17-29: changes one after the other. *)
  Fixpoint changes (parent : N) (l : list (rnode S)) (us : list (nat * option (rnode S))) : option (list (rnode S) * list (dcmd S)) :=
    match us with
    | [] => Some (l, [])
    | (i, new) :: r =>
        match change parent l i new with
        | Some (l1, c1) => match changes parent l1 r with Some (l2, c2) => Some (l2, c1 ++ c2) | None => None end
        | None => None
        end
    end.

  (** /repo/crates/vertigo/src/driver_module/dom.rs:223-235 with dom/dom_comment.rs:40-46 and render/dom_value.rs:14-31: the comment of a mounted value is inserted
      again (a list moves it, render/dom_list.rs:203-213): the mount callback makes a new subscription, which renders the value anew and inserts it; then the old
      subscription is dropped with the node it kept. *)
  Definition move (parent comment before : N) (old new : option (rnode S)) : list (dcmd S) :=
    InsertBefore parent comment (Some before) :: on_value mark parent comment old new.
End Later.

(** ** Specification *)

Section History.
  Context {S : Type}.
  Variable mark : S.
  Variable P : N.
  Notation rnode := (rnode S).
  Notation krun := (krun P).

  (** The node number [i] had a new value since the mount. *)
  Definition changed (us : list (nat * option rnode)) (i : nat) : bool := existsb (fun u => fst u =? i) us.
  (** What nodes that did not change show stands before all nodes, the last node's first; [i] is the number of the first of [l]. *)
  Fixpoint astray (t : nat -> bool) (i : nat) (l : list rnode) : list N :=
    match l with [] => [] | x :: r => astray t (Datatypes.S i) r ++ (if t i then [] else content x) end.
  (** Then come the nodes, those that changed with what they show before them. *)
  Fixpoint settled (t : nat -> bool) (i : nat) (l : list rnode) : list N :=
    match l with [] => [] | x :: r => (if t i then content x else []) ++ r_id x :: settled t (Datatypes.S i) r end.

  (** ** Proofs *)

  Lemma astray_app t l1 l2 : forall i, astray t i (l1 ++ l2) = astray t (i + length l1) l2 ++ astray t i l1.
  Proof.
    induction l1 as [|x l1 IH]; intros i; cbn [app astray length]; [rewrite Nat.add_0_r, app_nil_r; auto|].
    rewrite IH, <- app_assoc. replace (Datatypes.S i + length l1) with (i + Datatypes.S (length l1)) by lia. auto.
  Qed.
  Lemma settled_app t l1 l2 : forall i, settled t i (l1 ++ l2) = settled t i l1 ++ settled t (i + length l1) l2.
  Proof.
    induction l1 as [|x l1 IH]; intros i; cbn [app settled length]; [rewrite Nat.add_0_r; auto|].
    rewrite IH, <- app_assoc. replace (Datatypes.S i + length l1) with (i + Datatypes.S (length l1)) by lia. auto.
  Qed.
  Lemma astray_ext t t1 l : forall i, (forall j, i <= j < i + length l -> t j = t1 j) -> astray t i l = astray t1 i l.
  Proof.
    induction l as [|x l IH]; intros i H; cbn [astray length] in *; auto. rewrite (H i) by lia. f_equal. apply IH. intros j L. apply H. lia.
  Qed.
  Lemma settled_ext t t1 l : forall i, (forall j, i <= j < i + length l -> t j = t1 j) -> settled t i l = settled t1 i l.
  Proof.
    induction l as [|x l IH]; intros i H; cbn [settled length] in *; auto. rewrite (H i) by lia. do 2 f_equal. apply IH. intros j L. apply H. lia.
  Qed.
  Lemma nothing_changed l : forall i, astray (fun _ => false) i l ++ settled (fun _ => false) i l = concat (rev (map content l)) ++ map r_id l.
  Proof.
    intros i. f_equal.
    - revert i. induction l as [|x l IH]; intros i; cbn [astray map rev]; auto. rewrite concat_app, IH. simpl. rewrite app_nil_r. auto.
    - revert i. induction l as [|x l IH]; intros i; cbn [settled map]; auto. simpl. f_equal. auto.
  Qed.

  (** A change picks one node. *)
  Lemma change_split l : forall i new l1 cs, change mark P l i new = Some (l1, cs) ->
    exists a c old b, l = a ++ RValue c old :: b /\ length a = i /\ l1 = a ++ RValue c new :: b /\ cs = on_value mark P c old new.
  Proof.
    induction l as [|x l IH]; intros i new l1 cs E; [destruct i; discriminate|].
    destruct i as [|i].
    - destruct x as [? ?|? ?|? ?|c old|? ?]; try discriminate. cbn [change] in E. injection E as <- <-. exists [], c, old, l. auto.
    - assert (E1 : match change mark P l i new with Some (t1, cs0) => Some (x :: t1, cs0) | None => None end = Some (l1, cs)) by (destruct x; exact E).
      destruct (change mark P l i new) as [[t1 c1]|] eqn:E2; [|discriminate]. injection E1 as <- <-.
      destruct (IH _ _ _ _ E2) as (a & c & old & b & A1 & A2 & A3 & A4). exists (x :: a), c, old, b. subst. auto.
  Qed.

  Lemma value_run2 k pre mid post comment old new : kids k = pre ++ oids old ++ mid ++ comment :: post -> tidy k -> incl (oids old) (known k) ->
    increasing (bound k) (omade new) ->
    exists k1, krun k (on_value mark P comment old new) = Some k1 /\ kids k1 = pre ++ mid ++ oids new ++ comment :: post /\ tidy k1 /\ incl (oids new) (known k1) /\
      (forall x, In x (known k) -> ~ In x (oids old) -> In x (known k1)) /\ bound k1 = after (bound k) (omade new).
  Proof.
    intros K T KN I. unfold on_value. rewrite krun_app.
    assert (A : exists k0, krun k (match new with Some x => build mark x ++ insert mark P x comment | None => [] end) = Some k0 /\
      kids k0 = pre ++ oids old ++ mid ++ oids new ++ comment :: post /\ tidy k0 /\ incl (known k) (known k0) /\ incl (oids new) (known k0) /\ bound k0 = after (bound k) (omade new)).
    { destruct new as [r|]; cbn [oids omade] in *.
      - destruct (build_mount mark P r k (pre ++ oids old ++ mid) comment post) as (k1 & A1 & A2 & A3 & A4 & A5 & A6); auto; [apply mounts_all|rewrite K, <- !app_assoc; auto|].
        exists k1. split; auto. unfold ids. split; [rewrite A2, <- !app_assoc; auto|]. split; auto. split; auto. split; auto.
        intros x J. apply A6. eapply Permutation_in; [apply content_ids|auto].
      - exists k. split; auto. split; auto. split; auto. split; [apply incl_refl|]. split; [intros x []|auto]. }
    destruct A as (k0 & A1 & A2 & [A3 A3b] & A4 & A5 & A6). rewrite A1. destruct old as [r|]; cbn [oids] in *.
    - assert (ND := A3). rewrite A2 in ND.
      destruct (drops_run P (drop_rnode r) k0 (dids r)) as (k1 & B1 & B2 & B3 & B4); [apply drop_removes| | |].
      + eapply Permutation_NoDup; [symmetry; apply dids_ids|]. apply RenderNest.nodup_parts in ND as (_ & ND & _). apply RenderNest.nodup_parts in ND as (ND & _). auto.
      + intros x J. apply A4, KN. eapply Permutation_in; [apply dids_ids|auto].
      + exists k1. split; auto. rewrite A2, filter_out in B2 by (auto; apply dids_ids). split; auto. split; [split|].
        * rewrite B2. apply RenderNest.nodup_parts in ND as (N1 & N2 & N3). apply RenderNest.nodup_parts in N2 as (_ & N4 & _). apply RenderNest.nodup_parts. split; auto. split; auto.
          intros x J1 J2. apply (N3 x J1). apply in_app_iff. auto.
        * rewrite B3. intros x J. apply A3b. rewrite B2 in J. rewrite A2. rewrite !in_app_iff in *. tauto.
        * split; [|split; [|congruence]].
          { intros x J. apply B4; auto. intros J2. eapply Permutation_in in J2; [|apply dids_ids].
            apply RenderNest.nodup_parts in ND as (_ & ND & _). apply RenderNest.nodup_parts in ND as (_ & _ & D). apply (D x J2). rewrite !in_app_iff. auto. }
          { intros x J1 J2. apply B4; [apply A4; auto|]. intros J3. apply J2. eapply Permutation_in; [apply dids_ids|auto]. }
    - exists k0. cbn [RenderProps.krun]. split; [auto|]. split; [auto|]. split; [split; auto|]. split; [auto|]. split; [intros x J _; apply A4; auto|auto].
  Qed.

  Lemma content_value c o : content (RValue c o : rnode) = oids o.
  Proof. destruct o; reflexivity. Qed.

  (** The state: what the children are, and that everything shown is known. *)
  Definition standing (k : kst) (pre post : list N) (t : nat -> bool) (l : list rnode) : Prop :=
    kids k = pre ++ astray t 0 l ++ settled t 0 l ++ post /\ tidy k /\ incl (flat_map content l) (known k).

  Lemma change_run k pre post t l i new l1 cs : standing k pre post t l -> change mark P l i new = Some (l1, cs) -> increasing (bound k) (omade new) ->
    exists k1, krun k cs = Some k1 /\ standing k1 pre post (fun j => t j || (i =? j)) l1 /\ bound k1 = after (bound k) (omade new).
  Proof.
    intros (K & T & KN) E I. destruct (change_split _ _ _ _ _ E) as (a & c & old & b & -> & L & -> & ->).
    set (t1 := fun j => t j || (i =? j)).
    assert (T1 : t1 i = true) by (unfold t1; rewrite Nat.eqb_refl, orb_true_r; auto).
    assert (EA : astray t1 0 a = astray t 0 a /\ settled t1 0 a = settled t 0 a).
    { split; [apply astray_ext|apply settled_ext]; intros j J; unfold t1; assert (i =? j = false) as -> by (apply Nat.eqb_neq; lia); apply orb_false_r. }
    assert (EB : astray t1 (Datatypes.S i) b = astray t (Datatypes.S i) b /\ settled t1 (Datatypes.S i) b = settled t (Datatypes.S i) b).
    { split; [apply astray_ext|apply settled_ext]; intros j J; unfold t1; assert (i =? j = false) as -> by (apply Nat.eqb_neq; lia); apply orb_false_r. }
    destruct EA as [EA1 EA2], EB as [EB1 EB2].
    rewrite astray_app, settled_app in K. cbn [Nat.add astray settled r_id] in K. rewrite L in K. rewrite content_value in K.
    (* the content of the value stands in one of two places *)
    assert (W : exists p m, kids k = p ++ oids old ++ m ++ c :: settled t (Datatypes.S i) b ++ post /\
                            p ++ m = pre ++ astray t (Datatypes.S i) b ++ astray t 0 a ++ settled t 0 a).
    { destruct (t i).
      - exists (pre ++ astray t (Datatypes.S i) b ++ astray t 0 a ++ settled t 0 a), []. rewrite app_nil_r. split; auto. rewrite K. rewrite app_nil_r, <- !app_assoc. auto.
      - exists (pre ++ astray t (Datatypes.S i) b), (astray t 0 a ++ settled t 0 a). rewrite K, <- !app_assoc. auto. }
    destruct W as (p & m & W1 & W2).
    assert (KO : incl (oids old) (known k)). { intros x J. apply KN. rewrite flat_map_app, in_app_iff. right. cbn [flat_map]. rewrite content_value, in_app_iff. auto. }
    destruct (value_run2 _ _ _ _ _ _ _ W1 T KO I) as (k1 & R1 & R2 & R3 & R4 & R5 & R6).
    exists k1. split; auto. split; [|auto]. split; [|split; auto].
    - rewrite R2, app_assoc, W2, astray_app, settled_app. cbn [Nat.add astray settled r_id]. rewrite L, T1, content_value, EA1, EA2, EB1, EB2, app_nil_r, <- !app_assoc. auto.
    - assert (ND : NoDup (kids k)) by apply T. rewrite W1 in ND. apply RenderNest.nodup_parts in ND as (_ & ND & D0). apply RenderNest.nodup_parts in ND as (_ & _ & D1).
      assert (SUB : forall x u j l, In x (flat_map (@content S) l) -> In x (astray u j l) \/ In x (settled u j l)).
      { clear. intros x u j l. revert j. induction l as [|y l IH]; intros j; cbn [flat_map astray settled]; [intros []|]. rewrite in_app_iff. rewrite !in_app_iff.
        intros [J|J]; [destruct (u j); auto|]. destruct (IH (Datatypes.S j) J) as [Q|Q]; [auto|right; right; right; auto]. }
      assert (OTHER : forall x, In x (flat_map (@content S) a) \/ In x (flat_map (@content S) b) -> ~ In x (oids old)).
      { intros x J1 J2.
        assert (Q : In x (p ++ m) \/ In x (settled t (Datatypes.S i) b)).
        { rewrite W2. rewrite !in_app_iff. destruct J1 as [J1|J1]; [apply (SUB x t 0) in J1|apply (SUB x t (Datatypes.S i)) in J1]; tauto. }
        rewrite in_app_iff in Q. destruct Q as [[Q|Q]|Q].
        - apply (D0 x Q). rewrite in_app_iff. auto.
        - apply (D1 x J2). rewrite in_app_iff. auto.
        - apply (D1 x J2). rewrite in_app_iff. right. right. rewrite in_app_iff. auto. }
      intros x J. rewrite flat_map_app, in_app_iff in J. cbn [flat_map] in J. rewrite content_value, in_app_iff in J. destruct J as [J|[J|J]]; [| auto |];
        (apply R5; [apply KN; rewrite flat_map_app, in_app_iff; cbn [flat_map]; rewrite in_app_iff; auto|apply OTHER; auto]).
  Qed.

  Lemma changes_run us : forall k pre post t l l1 cs, standing k pre post t l -> changes mark P l us = Some (l1, cs) -> increasing (bound k) (flat_map (fun u => omade (snd u)) us) ->
    exists k1, krun k cs = Some k1 /\ standing k1 pre post (fun j => t j || changed us j) l1.
  Proof.
    induction us as [|[i new] us IH]; intros k pre post t l l1 cs H E I; cbn [changes] in E.
    - injection E as <- <-. exists k. split; auto. destruct H as (H1 & H2 & H3). split; auto. rewrite H1.
      rewrite (astray_ext t (fun j => t j || changed [] j)), (settled_ext t (fun j => t j || changed [] j)); auto; intros j _; cbn; rewrite orb_false_r; auto.
    - destruct (change mark P l i new) as [[l2 c1]|] eqn:E1; [|discriminate]. destruct (changes mark P l2 us) as [[l3 c2]|] eqn:E2; [|discriminate]. injection E as <- <-.
      cbn [flat_map snd] in I. apply increasing_app in I as [I1 I2]. destruct (change_run _ _ _ _ _ _ _ _ _ H E1 I1) as (k1 & R1 & R2 & R3).
      destruct (IH _ _ _ _ _ _ _ R2 E2) as (k2 & Q1 & Q2); [rewrite R3; auto|]. exists k2. split; [rewrite krun_app, R1; auto|].
      destruct Q2 as (Q2 & Q3 & Q4). split; auto. rewrite Q2.
      rewrite (astray_ext _ (fun j => t j || changed ((i, new) :: us) j)), (settled_ext _ (fun j => t j || changed ((i, new) :: us) j)); auto;
        intros j _; cbn [changed existsb fst]; unfold changed; rewrite orb_assoc; auto.
  Qed.

  Variable teqb : S -> S -> bool.
  Variable hook : S.
  Variable perm : N -> bool.

  (** *** C32 *)

  (** A fragment or list [r] of the nodes [l] is mounted before the node [before]; then values among its nodes change, in any order, any number of times.  Where
      everything stands afterwards, exactly: what the nodes that never changed show is still where the mount put it (before all nodes), what a node that changed shows
      stands directly before it. *)
  Theorem C32_history s k r l pre before post us l1 cs : (r = RFrag (r_id r) l \/ r = RListOf (r_id r) l) ->
    view perm P s k -> tidy k -> kids k = pre ++ before :: post ->
    increasing (bound k) (bids r ++ mids r ++ flat_map (fun u => omade (snd u)) us) -> changes mark P l us = Some (l1, cs) ->
    exists s1, breplay teqb hook perm s (build mark r ++ insert mark P r before ++ cs) [] s1 /\
      b_kids s1 P = pre ++ astray (changed us) 0 l1 ++ settled (changed us) 0 l1 ++ r_id r :: before :: post.
  Proof.
    intros R V T K I E. rewrite app_assoc in I. apply increasing_app in I as [I1 I2].
    destruct (build_mount mark P r k pre before post (mounts_all mark P r) K T I1) as (k1 & A1 & A2 & A3 & A4 & A5 & A6).
    assert (C : content r = concat (rev (map content l)) ++ map r_id l) by (destruct R as [-> | ->]; reflexivity).
    assert (ST : standing k1 pre (r_id r :: before :: post) (fun _ => false) l).
    { split; [rewrite A2, C, <- (nothing_changed l 0), <- !app_assoc; auto|]. split; auto. intros x J. apply A6. eapply Permutation_in; [apply content_ids|].
      rewrite C, !in_app_iff. left. left. apply in_flat_map in J as (y & J1 & J2). apply in_concat. exists (content y). split; auto. apply -> in_rev. apply in_map. auto. }
    destruct (changes_run us _ _ _ _ _ _ _ ST E) as (k2 & B1 & B2 & _); [rewrite A3; auto|].
    destruct (run_view teqb hook perm P (build mark r ++ insert mark P r before ++ cs) s k k2 V) as (s1 & Q1 & Q2).
    { rewrite app_assoc, krun_app, A1. auto. }
    exists s1. split; auto. rewrite (v_kids _ _ _ _ Q2), B2. cbn [orb]. auto.
  Qed.

  (** The order is the right one as soon as every node but the first that shows something has changed at least once. *)
  Theorem C32_settles s k r l pre before post us l1 cs : (r = RFrag (r_id r) l \/ r = RListOf (r_id r) l) ->
    view perm P s k -> tidy k -> kids k = pre ++ before :: post ->
    increasing (bound k) (bids r ++ mids r ++ flat_map (fun u => omade (snd u)) us) -> changes mark P l us = Some (l1, cs) ->
    Forall calm l1 -> (forall i x, nth_error l1 (Datatypes.S i) = Some x -> bare x \/ In (Datatypes.S i) (map fst us)) ->
    exists s1, breplay teqb hook perm s (build mark r ++ insert mark P r before ++ cs) [] s1 /\
      b_kids s1 P = pre ++ flat_map (fun x => in_order x ++ [r_id x]) l1 ++ r_id r :: before :: post.
  Proof.
    intros R V T K I E C H. destruct (C32_history _ _ _ _ _ _ _ _ _ _ R V T K I E) as (s1 & B & Q). exists s1. split; auto. rewrite Q. f_equal. rewrite app_assoc. f_equal.
    clear - C H mark P teqb hook perm.
    assert (TAIL : forall l i, Forall calm l -> (forall j x, nth_error l j = Some x -> bare x \/ changed us (i + j) = true) ->
      astray (changed us) i l = [] /\ settled (changed us) i l = flat_map (fun x => in_order x ++ [r_id x]) l).
    { induction l as [|x l IH]; intros i CL HL; cbn [astray settled flat_map]; auto. inversion CL as [|? ? C1 C2]; subst.
      destruct (IH (Datatypes.S i)) as [-> ->]; auto. { intros j y J. replace (Datatypes.S i + j) with (i + Datatypes.S j) by lia. apply HL. auto. }
      rewrite <- (calm_order mark P teqb perm x C1). destruct (HL 0 x eq_refl) as [Y|Y].
      - destruct (bare_content mark P teqb perm _ Y) as [-> _]. destruct (changed us i); auto.
      - rewrite Nat.add_0_r in Y. rewrite Y. split; auto. rewrite <- app_assoc. auto. }
    destruct l1 as [|x l]; auto. inversion C as [|? ? C1 C2]; subst.
    destruct (TAIL l 1 C2) as [T1 T2].
    { intros j y J. destruct (H j y J) as [Y|Y]; auto. right. unfold changed. apply existsb_exists. apply in_map_iff in Y as (u & U1 & U2). exists u. split; auto. apply Nat.eqb_eq. auto. }
    cbn [astray settled flat_map]. rewrite T1, T2, <- (calm_order mark P teqb perm x C1). destruct (changed us 0); cbn [app]; rewrite <- app_assoc; auto.
  Qed.

  (** *** Moving *)

  (** The list without some of its members. *)
  Definition without (ds l : list N) : list N := filter (fun y => negb (inb y ds)) l.

  Lemma without_none ds l : (forall x, In x l -> ~ In x ds) -> without ds l = l.
  Proof.
    unfold without. induction l as [|x l IH]; intros H; cbn [filter]; auto. destruct (inb x ds) eqn:E; [apply inb_spec in E; destruct (H x); auto; left; auto|].
    cbn [negb]. f_equal. apply IH. intros y J. apply H. right. auto.
  Qed.
  Lemma without_in ds l x : In x (without ds l) <-> In x l /\ ~ In x ds.
  Proof. unfold without. rewrite filter_In, negb_true_iff, <- not_true_iff_false, inb_spec. tauto. Qed.
  Lemma without_perm ds1 ds2 l : Permutation ds1 ds2 -> without ds1 l = without ds2 l.
  Proof.
    intros Q. unfold without. apply filter_ext. intros x. f_equal. apply eq_true_iff_eq. rewrite !inb_spec. split; apply Permutation_in; [auto|symmetry; auto].
  Qed.
  Lemma without_nil l : without [] l = l.
  Proof. apply without_none. intros x _ []. Qed.

  Lemma value_run3 k a b comment old new : kids k = a ++ comment :: b -> tidy k -> incl (oids old) (known k) -> incl (oids old) (kids k) -> NoDup (oids old) -> ~ In comment (oids old) ->
    increasing (bound k) (omade new) ->
    exists k1, krun k (on_value mark P comment old new) = Some k1 /\ kids k1 = without (oids old) a ++ oids new ++ comment :: without (oids old) b.
  Proof.
    intros K T KN KI NDO NC I. unfold on_value. rewrite krun_app.
    assert (A : exists k0, krun k (match new with Some x => build mark x ++ insert mark P x comment | None => [] end) = Some k0 /\
      kids k0 = a ++ oids new ++ comment :: b /\ tidy k0 /\ incl (known k) (known k0)).
    { destruct new as [r|]; cbn [oids omade] in *.
      - destruct (build_mount mark P r k a comment b) as (k1 & A1 & A2 & A3 & A4 & A5 & A6); auto; [apply mounts_all|].
        exists k1. split; auto. unfold ids. split; [rewrite A2, <- !app_assoc; auto|]. split; auto.
      - exists k. split; auto. split; auto. split; auto. apply incl_refl. }
    destruct A as (k0 & A1 & A2 & [A3 A3b] & A4). rewrite A1. destruct old as [r|]; cbn [oids] in *.
    - destruct (drops_run P (drop_rnode r) k0 (dids r)) as (k1 & B1 & B2 & _); [apply drop_removes| | |].
      + eapply Permutation_NoDup; [symmetry; apply dids_ids|]. auto.
      + intros x J. apply A4, KN. eapply Permutation_in; [apply dids_ids|auto].
      + exists k1. split; auto. rewrite B2. change (without (dids r) (kids k0) = without (ids r) a ++ oids new ++ comment :: without (ids r) b).
        rewrite (without_perm _ _ _ (dids_ids r)), A2. unfold without at 1. rewrite !filter_app. fold (without (ids r) a). f_equal.
        assert (ON : without (ids r) (oids new) = oids new).
        { apply without_none. intros x J1 J2. apply KI in J2. rewrite K in J2. rewrite A2 in A3. apply RenderNest.nodup_parts in A3 as (_ & N2 & N3).
          apply RenderNest.nodup_parts in N2 as (_ & _ & N4). apply in_app_iff in J2 as [J2|J2]; [apply (N3 x J2), in_app_iff; auto|apply (N4 x J1); auto]. }
        fold (without (ids r) (oids new)). rewrite ON. f_equal. cbn [filter]. destruct (inb comment (ids r)) eqn:Ic; [apply inb_spec in Ic; contradiction|]. reflexivity.
    - exists k0. split; auto. rewrite A2, !without_nil. auto.
  Qed.

  (** A mounted value whose comment is inserted again before another node [before] (as a list does with the nodes it moves): what it shows now stands before the
      comment, the comment before [before]; what it showed is gone, wherever it stood, every other node stays where it was. *)
  Theorem C32_moved s k a b comment before old new : view perm P s k -> tidy k -> kids k = a ++ before :: b -> In comment (known k) -> comment <> before ->
    ~ In before (oids old) -> ~ In comment (oids old) -> NoDup (oids old) -> incl (oids old) (known k) -> incl (oids old) (kids k) -> increasing (bound k) (omade new) ->
    exists s1, breplay teqb hook perm s (move mark P comment before old new) [] s1 /\
      b_kids s1 P = without (comment :: oids old) a ++ oids new ++ comment :: before :: without (comment :: oids old) b /\
      forall x, In x (oids old) -> b_get s1 x = None.
  Proof.
    intros V [T1 T2] K C NE NB NC ND KN KI I.
    assert (BK : ~ In before a /\ ~ In before b).
    { rewrite K in T1. apply RenderNest.nodup_parts in T1 as (_ & T3 & T4). inversion T3; subst. split; auto. intros J. apply (T4 _ J). left. auto. }
    set (a0 := out_of a comment). set (b0 := out_of b comment).
    set (k0 := Kst (a0 ++ comment :: before :: b0) (known k) (bound k)).
    assert (CB : (comment < bound k)%N) by (destruct (v_known _ _ _ _ V comment C) as (_ & _ & L & _); auto).
    assert (ST : kstep P k (InsertBefore P comment (Some before) : dcmd S) = Some k0).
    { cbn [kstep]. rewrite N.eqb_refl, (proj2 (inb_spec comment (known k)) C). assert (inb before (kids k) = true) as -> by (apply inb_spec; rewrite K, in_app_iff; right; left; auto).
      assert ((before =? comment)%N = false) as -> by (apply N.eqb_neq; auto). cbn [andb negb]. unfold k0. do 2 f_equal. rewrite K. unfold out_of. rewrite filter_app. cbn [filter].
      assert ((before =? comment)%N = false) as -> by (apply N.eqb_neq; auto). cbn [negb]. fold (out_of a comment) (out_of b comment). fold a0 b0.
      assert (NA : ~ In before a0) by (unfold a0; rewrite out_of_in; tauto). clearbody a0. clear - NA. induction a0 as [|x a0 IH]; cbn [app put_before].
      - rewrite N.eqb_refl. auto.
      - assert ((x =? before)%N = false) as -> by (apply N.eqb_neq; intros ->; apply NA; left; auto). f_equal. apply IH. intros J. apply NA. right. auto. }
    assert (KK : kids k0 = a0 ++ comment :: before :: b0) by reflexivity.
    assert (TD : tidy k0).
    { split; cbn [k0 kids bound].
      - rewrite K in T1. apply RenderNest.nodup_parts in T1 as (N1 & N2 & N3). inversion N2 as [|? ? N4 N5]; subst. apply RenderNest.nodup_parts.
        split; [apply NoDup_filter; auto|]. split.
        + constructor; [intros [J|J]; [congruence|unfold b0 in J; apply out_of_in in J; tauto]|]. constructor; [unfold b0; rewrite out_of_in; tauto|]. apply NoDup_filter. auto.
        + intros x J. unfold a0 in J. apply out_of_in in J as [J1 J2]. intros [J3|[J3|J3]]; [congruence|subst; tauto|]. unfold b0 in J3. apply out_of_in in J3 as [J3 _].
          apply (N3 x J1). right. auto.
      - intros x J. apply in_app_iff in J as [J|[<-|[<-|J]]]; auto.
        + apply T2. rewrite K. unfold a0 in J. apply out_of_in in J. apply in_app_iff. tauto.
        + apply T2. rewrite K. apply in_app_iff. right. left. auto.
        + apply T2. rewrite K. unfold b0 in J. apply out_of_in in J. apply in_app_iff. right. right. tauto. }
    destruct (value_run3 k0 a0 (before :: b0) comment old new KK TD KN) as (k1 & R1 & R2); auto.
    { intros x J. assert (J1 := KI x J). cbn [k0 kids]. rewrite K in J1. assert (x <> comment) by (intros ->; auto).
      rewrite in_app_iff in *. destruct J1 as [J1|[J1|J1]].
      - left. unfold a0. apply out_of_in. auto.
      - right. right. left. auto.
      - right. right. right. unfold b0. apply out_of_in. auto. }
    destruct (run_nodes teqb hook perm P (move mark P comment before old new) s k k1 V) as (s1 & Q1 & Q2 & _ & _ & _ & Q3 & _).
    { unfold move. cbn [RenderProps.krun]. rewrite ST. auto. }
    exists s1. split; auto. split.
    - rewrite (v_kids _ _ _ _ Q2), R2. assert (W : forall l, without (oids old) (out_of l comment) = without (comment :: oids old) l).
      { clear. intros l. unfold without, out_of. induction l as [|x l IH]; cbn [filter]; auto. unfold inb at 2. cbn [existsb]. fold (inb x (oids old)).
        destruct (N.eqb_spec x comment); cbn [negb orb filter]; [auto|]. destruct (inb x (oids old)); cbn [negb]; congruence. }
      unfold a0, b0. rewrite W. do 3 f_equal. rewrite <- W. unfold without at 1. cbn [filter].
      destruct (inb before (oids old)) eqn:E; [apply inb_spec in E; contradiction|]. reflexivity.
    - intros x J. destruct old as [r|]; [|destruct J]. cbn [oids] in J. eapply Permutation_in in J; [|symmetry; apply dids_ids].
      assert (Q : In (Some x) (map (@removes S) (drop_rnode r))) by (rewrite drop_removes; apply in_map; auto).
      apply in_map_iff in Q as (c & C1 & C2). unfold b_get. rewrite (Q3 c x); auto. unfold move, on_value. right. apply in_app_iff. auto.
  Qed.
End History.

(** ** Examples: the fragment of [C32_refuted]: a text 10, a value showing 20, a text 30 *)

(** The value becomes 40: its text is now where it belongs.  Then it shows nothing. *)
Example C32_later_case : exists l1 cs l2 cs2,
  changes 51%N 1 [RText 4 10; RValue 5 (Some (RText 8 20)); RText 6 30]%N [(1, Some (RText 9 40%N))] = Some (l1, cs) /\
  changes 51%N 1 [RText 4 10; RValue 5 (Some (RText 8 20)); RText 6 30]%N [(1, Some (RText 9 40%N)); (1, None)] = Some (l2, cs2) /\
  increasing 4 (bids NestDemo.frag ++ mids NestDemo.frag ++ [9%N]) /\ Forall calm l1 /\ changes 51%N 1 l1 [(0, None)] = None /\
  (exists s1, NestDemo.replay ListDemo.s0 (build 51%N NestDemo.frag ++ insert 51%N 1 NestDemo.frag 2 ++ cs) [] s1 /\
    NestDemo.see s1 = ([4; 9; 5; 6; 7; 2; 3], [Some 10; Some 40; Some 30; Some 52])%N) /\
  (exists s1, NestDemo.replay ListDemo.s0 (build 51%N NestDemo.frag ++ insert 51%N 1 NestDemo.frag 2 ++ cs2) [] s1 /\
    NestDemo.see s1 = ([4; 5; 6; 7; 2; 3], [Some 10; Some 30; Some 52])%N).
Proof.
  do 4 eexists. split; [reflexivity|]. split; [reflexivity|]. split; [cbv; repeat split; discriminate|]. split; [repeat constructor|]. split; [reflexivity|].
  split; apply (brun_sees N.eqb 100%N (fun _ => false) 9 ListDemo.s0); vm_compute; reflexivity.
Qed.
(** Two values of a list: only the second changes; what the first shows stays before everything, which is right for the first. *)
Example C32_settles_case : exists l1 cs, changes 51%N 1 [RValue 7 (Some (RText 8 10)); RValue 5 (Some (RText 6 20))]%N [(1, Some (RText 9 30%N))] = Some (l1, cs) /\
  (forall i x, nth_error l1 (Datatypes.S i) = Some x -> bare x \/ In (Datatypes.S i) [1]) /\
  (exists s1, NestDemo.replay ListDemo.s0 (build 51%N NestDemo.lst ++ insert 51%N 1 NestDemo.lst 2 ++ cs) [] s1 /\
    NestDemo.see s1 = ([8; 7; 9; 5; 4; 2; 3], [Some 10; Some 30; Some 52])%N).
Proof.
  do 2 eexists. split; [reflexivity|]. split; [|apply (brun_sees N.eqb 100%N (fun _ => false) 9 ListDemo.s0); vm_compute; reflexivity].
  intros [|i] x H; [right; left; auto|]. destruct i; discriminate.
Qed.
(** A value with the text 10 is mounted before the comment 2 and moved before the text 3: it shows a new text. *)
Example C32_moved_case : increasing 6 (omade (Some (RText 6 10%N))) /\ exists s1,
  NestDemo.replay ListDemo.s0 ((build 51%N (RValue 4 (Some (RText 5 10%N))) ++ insert 51%N 1 (RValue 4 (Some (RText 5 10%N))) 2)
    ++ move 51%N 1 4 3 (Some (RText 5 10%N)) (Some (RText 6 10%N))) [] s1 /\
  NestDemo.see s1 = ([2; 6; 4; 3], [Some 10; Some 52])%N.
Proof. split; [cbv; repeat split; discriminate|]. apply (brun_sees N.eqb 100%N (fun _ => false) 9 ListDemo.s0); vm_compute; reflexivity. Qed.
(** And before the move the hypotheses of [C32_moved] hold: the value is mounted. *)
Example C32_moved_ready : exists (s : bdom N) k, view (fun _ => false) 1%N s k /\ tidy k /\ kids k = [5; 4; 2]%N ++ 3%N :: [] /\ In 4%N (known k) /\
  incl (oids (Some (RText 5 10%N))) (known k) /\ incl (oids (Some (RText 5 10%N))) (kids k) /\ increasing (bound k) (omade (Some (RText 6 10%N))).
Proof.
  destruct (build_mount 51%N 1%N (RValue 4 (Some (RText 5 10%N))) NestDemo.k0 [] 2%N [3%N]) as (k1 & A1 & A2 & A3 & A4 & A5 & A6);
    [apply mounts_all|reflexivity|exact NestDemo.tidy0|cbv; repeat split; discriminate|].
  destruct (run_view N.eqb 100%N (fun _ => false) 1%N _ _ _ _ NestDemo.view0 A1) as (s1 & _ & V). exists s1, k1. split; [exact V|]. split; [exact A4|]. split; [exact A2|].
  split; [apply A6; left; auto|]. split; [intros x [<-|[]]; apply A6; right; left; auto|]. split; [intros x [<-|[]]; rewrite A2; left; auto|]. rewrite A3. cbv. repeat split; discriminate.
Qed.
