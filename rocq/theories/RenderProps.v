(** What lists, values and fragments show: the children of one element, seen from the commands. *)

From Coq Require Import List NArith Bool Lia Permutation.
From Verif Require Import DomModel RenderModel.
Import ListNotations.

(** ** The children of one element *)

(** The children of the element [P], the nodes created so far (and not removed), the first unused id. *)
Record kst := Kst { kids : list N; known : list N; bound : N }.

Definition inb (x : N) (l : list N) : bool := existsb (N.eqb x) l.

Lemma inb_spec x l : inb x l = true <-> In x l.
Proof. unfold inb. rewrite existsb_exists. split; [intros (y & I & E); apply N.eqb_eq in E; subst; auto|intros I; exists x; split; auto; apply N.eqb_refl]. Qed.

Lemma out_of_in l x y : In y (out_of l x) <-> In y l /\ y <> x.
Proof. unfold out_of. rewrite filter_In. destruct (N.eqb_spec y x); simpl; intuition congruence. Qed.

Lemma out_of_notin l x : ~ In x l -> out_of l x = l.
Proof. unfold out_of. induction l as [|y l IH]; simpl; auto. intros H. destruct (N.eqb_spec y x); [subst; tauto|]. simpl. rewrite IH; tauto. Qed.

Lemma out_of_app a b x : out_of (a ++ b) x = out_of a x ++ out_of b x.
Proof. apply filter_app. Qed.

Lemma put_before_in l r x y : In y (put_before l r x) <-> In y l \/ (y = x /\ In r l).
Proof. induction l as [|z l IH]; simpl; [tauto|]. destruct (N.eqb_spec z r); simpl; [subst; intuition|]. rewrite IH. intuition congruence. Qed.

Section Bridge.
  Context {S : Type}.
  Variable teqb : S -> S -> bool.
  Variable hook : S.
  Variable perm : N -> bool.
  Variable P : N.

  Definition kstep (k : kst) (c : dcmd S) : option kst :=
    match c with
    | CreateNode id _ | CreateText id _ | CreateComment id _ =>
        if (bound k <=? id)%N then Some (Kst (kids k) (id :: known k) (id + 1)) else None
    | InsertBefore p c (Some r) =>
        if (p =? P)%N && inb c (known k) && inb r (kids k) && negb (r =? c)%N
        then Some (Kst (put_before (out_of (kids k) c) r c) (known k) (bound k)) else None
    | RemoveNode id | RemoveText id | RemoveComment id =>
        if inb id (known k) then Some (Kst (out_of (kids k) id) (out_of (known k) id) (bound k)) else None
    | _ => None
    end.

  Fixpoint krun (k : kst) (cs : list (dcmd S)) : option kst :=
    match cs with [] => Some k | c :: t => match kstep k c with Some k1 => krun k1 t | None => None end end.

  Lemma krun_app k cs1 cs2 : krun k (cs1 ++ cs2) = match krun k cs1 with Some k1 => krun k1 cs2 | None => None end.
  Proof. revert k. induction cs1 as [|c t IH]; intros k; simpl; auto. destruct (kstep k c); auto. Qed.

  (** The document and the view of [P]'s children. *)
  Record view (s : bdom S) (k : kst) : Prop := {
    v_parent : exists n a, b_get s P = Some (BElement n a);
    v_fresh_parent : (P < bound k)%N;
    v_kids : b_kids s P = kids k;
    v_kid : forall x, In x (kids k) -> b_get s x <> None /\ b_par s x = Some P;
    v_known : forall x, In x (known k) -> b_get s x <> None /\ perm x = false /\ (x < bound k)%N /\ (~ In x (kids k) -> b_par s x = None);
    v_above : forall x, under s P x -> ~ In x (known k) /\ (x < bound k)%N;
    v_fresh : forall x, (bound k <= x)%N -> b_node s x = None /\ b_reg s x = false /\ perm x = false /\ b_par s x = None /\ ~ In x (kids k)
  }.

  (** Changing the parent of a node that is not above [P] changes nothing above [P]. *)
  Lemma under_same (s s1 : bdom S) x : (forall y, under s P y -> b_par s1 y = b_par s y) -> under s1 P x -> under s P x.
  Proof.
    intros H U. assert (G : forall a, under s1 a x -> under s P a -> under s P x).
    { clear U. induction 1 as [z|z p z2 Q U IH]; auto. intros A. apply IH. clear IH. rewrite (H z A) in Q.
      clear - A Q. induction A as [w|w q w2 QQ A IH]; [eapply under_step; [eauto|constructor]|eapply under_step; eauto]. }
    apply G with (a := P); auto. constructor.
  Qed.

  Lemma step_view s k c k1 : view s k -> kstep k c = Some k1 -> exists s1, legal s c /\ b_step teqb hook perm s c = Some s1 /\ view s1 k1.
  Proof.
    intros V E.
    assert (create : forall id n, (bound k <= id)%N -> k1 = Kst (kids k) (id :: known k) (id + 1) ->
              exists s1, b_create perm s id n = Some s1 /\ view s1 k1).
    { intros id n L ->. destruct (v_fresh _ _ V id L) as (F1 & F2 & F3 & F4 & F5). unfold b_create. rewrite F3, F1. eexists; split; [reflexivity|].
      destruct V as [V1 V2 V3 V4 V5 V6 V7]. constructor; cbn [kids known bound b_node b_reg b_kids b_par b_get].
      - destruct V1 as (nm & a & G). exists nm, a. unfold b_get in *. cbn. unfold nupd. destruct (N.eqb_spec P id); [lia|]. auto.
      - lia.
      - auto.
      - intros x I. destruct (V4 x I) as [G Q]. split; auto. unfold b_get in *. cbn. unfold nupd. destruct (N.eqb_spec x id); [discriminate|]. auto.
      - intros x [<-|I].
        + split; [|split; [auto|split; [lia|auto]]]. unfold b_get. cbn. unfold nupd. rewrite N.eqb_refl. discriminate.
        + destruct (V5 x I) as (G & Q1 & Q2 & Q3). split; [|split; [auto|split; [lia|auto]]].
          unfold b_get in *. cbn. unfold nupd. destruct (N.eqb_spec x id); [discriminate|]. auto.
      - intros x U. apply (under_same s) in U; [|auto]. destruct (V6 x U) as [U1 U2]. split; [|lia]. intros [<-|I]; [lia|auto].
      - intros x L1. destruct (V7 x) as (A1 & A2 & A3 & A4 & A5); [lia|]. unfold nupd. destruct (N.eqb_spec x id); [lia|]. auto. }
    assert (remove : forall id, inb id (known k) = true -> k1 = Kst (out_of (kids k) id) (out_of (known k) id) (bound k) ->
              exists s1, b_remove perm s id = Some s1 /\ view s1 k1).
    { intros id I ->. apply inb_spec in I. destruct (v_known _ _ V id I) as (G & Q1 & Q2 & Q3). unfold b_remove. destruct (b_get s id) as [n|] eqn:GE; [|congruence].
      rewrite Q1. eexists; split; [reflexivity|].
      assert (NP : id <> P). { intros ->. destruct (v_above _ _ V P (under_refl _ _)). auto. }
      set (s1 := BDom (b_node s) (nupd (b_reg s) id false) (b_kids s) (b_par s) (b_css s) (b_cbs s) (b_listen s)).
      assert (PAR : forall y, b_par (detach s1 id) y = if (y =? id)%N then None else b_par s y).
      { intros y. unfold detach. cbn. destruct (b_par s id) as [q|] eqn:PE; cbn; [unfold nupd; destruct (y =? id)%N; auto|].
        destruct (N.eqb_spec y id); [subst; auto|auto]. }
      assert (REG : b_reg (detach s1 id) = nupd (b_reg s) id false) by (unfold detach; cbn; destruct (b_par s id); auto).
      assert (NOD : b_node (detach s1 id) = b_node s) by (unfold detach; cbn; destruct (b_par s id); auto).
      assert (KID : b_kids (detach s1 id) P = out_of (kids k) id).
      { unfold detach. cbn. rewrite <- (v_kids _ _ V). destruct (b_par s id) as [q|] eqn:PE; cbn.
        - unfold nupd. destruct (N.eqb_spec P q); [subst; auto|]. symmetry. apply out_of_notin. rewrite (v_kids _ _ V).
          intros J. destruct (v_kid _ _ V id J). congruence.
        - symmetry. apply out_of_notin. rewrite (v_kids _ _ V). intros J. destruct (v_kid _ _ V id J). congruence. }
      assert (GET : forall x, x <> id -> b_get (detach s1 id) x = b_get s x).
      { intros x NE. unfold b_get. rewrite REG, NOD. unfold nupd. destruct (N.eqb_spec x id); [congruence|auto]. }
      destruct V as [V1 V2 V3 V4 V5 V6 V7]. constructor; cbn [kids known bound].
      - rewrite GET by auto. auto.
      - auto.
      - auto.
      - intros x J. apply out_of_in in J as [J NE]. rewrite GET, PAR by auto. destruct (N.eqb_spec x id); [congruence|]. auto.
      - intros x J. apply out_of_in in J as [J NE]. rewrite GET, PAR by auto. destruct (N.eqb_spec x id); [congruence|].
        destruct (V5 x J) as (B1 & B2 & B3 & B4). split; [auto|split; [auto|split; [auto|]]]. intros NI. apply B4. intros J2. apply NI. apply out_of_in. auto.
      - intros x U. apply (under_same s) in U.
        + destruct (V6 x U) as [U1 U2]. split; auto. intros J. apply out_of_in in J. tauto.
        + intros y UY. rewrite PAR. destruct (N.eqb_spec y id); auto. subst. destruct (V6 id UY). contradiction.
      - intros x L. destruct (V7 x L) as (A1 & A2 & A3 & A4 & A5). rewrite NOD, REG, PAR. unfold nupd. destruct (N.eqb_spec x id); [lia|].
        split; [auto|split; [auto|split; [auto|split; [auto|]]]]. intros J. apply out_of_in in J. tauto. }
    destruct c; cbn [kstep] in E; try discriminate.
    - destruct (N.leb_spec (bound k) id); inversion E; subst. destruct (create id (BElement name []) H eq_refl) as (s1 & E1 & V1). exists s1. simpl. auto.
    - destruct (N.leb_spec (bound k) id); inversion E; subst. destruct (create id (BText value) H eq_refl) as (s1 & E1 & V1). exists s1. simpl. auto.
    - destruct (inb id (known k)) eqn:I; inversion E; subst. destruct (remove id I eq_refl) as (s1 & E1 & V1). exists s1. simpl. auto.
    - destruct (inb id (known k)) eqn:I; inversion E; subst. destruct (remove id I eq_refl) as (s1 & E1 & V1). exists s1. simpl. auto.
    - destruct ref as [r|]; [|discriminate]. destruct ((parent =? P)%N && inb child (known k) && inb r (kids k) && negb (r =? child)%N) eqn:C; inversion E; subst k1; clear E.
      apply andb_true_iff in C as [C C4]. apply andb_true_iff in C as [C C3]. apply andb_true_iff in C as [C1 C2].
      apply N.eqb_eq in C1. subst parent. apply inb_spec in C2, C3. destruct (N.eqb_spec r child) as [|NE]; [discriminate|]. clear C4.
      destruct (v_known _ _ V child C2) as (G & Q1 & Q2 & Q3). destruct (v_kid _ _ V r C3) as [GR PR].
      assert (NP : child <> P). { intros ->. destruct (v_above _ _ V P (under_refl _ _)). auto. }
      destruct (v_parent _ _ V) as (nm & a & GP).
      exists (place s P child (fun l => put_before l r child)). split; [|split].
      + simpl. intros U. destruct (v_above _ _ V _ U). auto.
      + cbn [b_step]. unfold b_insert. rewrite GP, PR. destruct (b_get s child); [|congruence]. destruct (b_get s r); [|congruence].
        rewrite N.eqb_refl. destruct (N.eqb_spec r child); [congruence|auto].
      + assert (PAR : forall y, b_par (place s P child (fun l => put_before l r child)) y = if (y =? child)%N then Some P else b_par s y).
        { intros y. unfold place. cbn. unfold nupd. destruct (N.eqb_spec y child); auto. unfold detach. destruct (b_par s child); cbn; auto.
          unfold nupd. destruct (N.eqb_spec y child); [congruence|auto]. }
        assert (REG : b_reg (place s P child (fun l => put_before l r child)) = b_reg s) by (unfold place, detach; cbn; destruct (b_par s child); auto).
        assert (NOD : b_node (place s P child (fun l => put_before l r child)) = b_node s) by (unfold place, detach; cbn; destruct (b_par s child); auto).
        assert (GET : forall x, b_get (place s P child (fun l => put_before l r child)) x = b_get s x) by (intros x; unfold b_get; rewrite REG, NOD; auto).
        assert (KID : b_kids (place s P child (fun l => put_before l r child)) P = put_before (out_of (kids k) child) r child).
        { unfold place. cbn. unfold nupd. rewrite N.eqb_refl. f_equal. unfold detach. rewrite <- (v_kids _ _ V).
          destruct (b_par s child) as [q|] eqn:PE; cbn.
          - unfold nupd. destruct (N.eqb_spec P q); [subst; auto|]. symmetry. apply out_of_notin. rewrite (v_kids _ _ V).
            intros J. destruct (v_kid _ _ V _ J). congruence.
          - symmetry. apply out_of_notin. rewrite (v_kids _ _ V). intros J. destruct (v_kid _ _ V _ J). congruence. }
        destruct V as [V1 V2 V3 V4 V5 V6 V7]. constructor; cbn [kids known bound].
        * rewrite GET. eauto.
        * auto.
        * auto.
        * intros x J. rewrite GET, PAR. apply put_before_in in J as [J|[-> _]].
          -- apply out_of_in in J as [J NE2]. destruct (N.eqb_spec x child); [congruence|auto].
          -- rewrite N.eqb_refl. auto.
        * intros x J. rewrite GET, PAR. destruct (V5 x J) as (B1 & B2 & B3 & B4). split; [auto|split; [auto|split; [auto|]]].
          intros NI. destruct (N.eqb_spec x child).
          -- subst. exfalso. apply NI. apply put_before_in. right. split; auto. apply out_of_in. auto.
          -- apply B4. intros J2. apply NI. apply put_before_in. left. apply out_of_in. auto.
        * intros x U. apply (under_same s) in U; [auto|]. intros y UY. rewrite PAR. destruct (N.eqb_spec y child); auto. subst. destruct (V6 child UY). contradiction.
        * intros x L. destruct (V7 x L) as (A1 & A2 & A3 & A4 & A5). rewrite NOD, REG, PAR. destruct (N.eqb_spec x child); [lia|].
          split; [auto|split; [auto|split; [auto|split; [auto|]]]]. intros J. apply put_before_in in J as [J|[-> _]]; [apply out_of_in in J; tauto|lia].
    - destruct (N.leb_spec (bound k) id); inversion E; subst. destruct (create id (BComment value) H eq_refl) as (s1 & E1 & V1). exists s1. simpl. auto.
    - destruct (inb id (known k)) eqn:I; inversion E; subst. destruct (remove id I eq_refl) as (s1 & E1 & V1). exists s1. simpl. auto.
  Qed.

  (** Commands that run on the list of children are replayed by the browser without error, with the same children. *)
  Lemma run_view cs : forall s k k1, view s k -> krun k cs = Some k1 -> exists s1, breplay teqb hook perm s cs [] s1 /\ view s1 k1.
  Proof.
    induction cs as [|c t IH]; intros s k k1 V E; cbn [krun] in E; [inversion E; subst; exists s; split; [constructor|auto]|].
    destruct (kstep k c) as [k2|] eqn:E1; [|discriminate]. destruct (step_view _ _ _ _ V E1) as (s2 & L & B & V2).
    destruct (IH _ _ _ V2 E) as (s3 & R & V3). exists s3. split; auto. eapply br_ok; eauto.
  Qed.

  (** What the commands do to the nodes themselves. *)
  Definition creates (c : dcmd S) : option (N * bnode S) :=
    match c with
    | CreateNode id name => Some (id, BElement name [])
    | CreateText id v => Some (id, BText v)
    | CreateComment id v => Some (id, BComment v)
    | _ => None
    end.
  Definition removes (c : dcmd S) : option N :=
    match c with RemoveNode id | RemoveText id | RemoveComment id => Some id | _ => None end.

  Lemma breplay_app (s s1 s2 : bdom S) cs1 cs2 e1 e2 : breplay teqb hook perm s cs1 e1 s1 -> breplay teqb hook perm s1 cs2 e2 s2 -> breplay teqb hook perm s (cs1 ++ cs2) (e1 ++ e2) s2.
  Proof. intros H. induction H; simpl; intros R; auto; [eapply br_ok; eauto|eapply br_err; eauto]. Qed.

  Lemma detach_node (s : bdom S) x : b_node (detach s x) = b_node s.
  Proof. unfold detach. destruct (b_par s x); auto. Qed.
  Lemma detach_reg (s : bdom S) x : b_reg (detach s x) = b_reg s.
  Proof. unfold detach. destruct (b_par s x); auto. Qed.

  Lemma step_nodes s k c k1 s1 : view s k -> kstep k c = Some k1 -> b_step teqb hook perm s c = Some s1 ->
    (bound k <= bound k1)%N /\
    (forall x n, b_node s x = Some n -> b_node s1 x = Some n) /\
    (forall id n, creates c = Some (id, n) -> b_node s1 id = Some n) /\
    (forall x, (x < bound k)%N -> b_reg s x = false -> b_reg s1 x = false) /\
    (forall x, removes c = Some x -> (x < bound k)%N /\ b_reg s1 x = false) /\
    (forall x, In x (known k) -> removes c <> Some x -> In x (known k1)).
  Proof.
    intros V E B.
    assert (CR : forall id n, (bound k <= id)%N -> b_create perm s id n = Some s1 -> s1 = BDom (nupd (b_node s) id (Some n)) (nupd (b_reg s) id true) (b_kids s) (b_par s) (b_css s) (b_cbs s) (b_listen s) /\ b_node s id = None).
    { intros id n L Q. destruct (v_fresh _ _ V id L) as (F1 & F2 & F3 & F4 & F5). unfold b_create in Q. rewrite F3, F1 in Q. inversion Q. auto. }
    assert (RM : forall id, inb id (known k) = true -> b_remove perm s id = Some s1 -> b_node s1 = b_node s /\ b_reg s1 = nupd (b_reg s) id false /\ (id < bound k)%N).
    { intros id J Q. apply inb_spec in J. destruct (v_known _ _ V id J) as (G & Q1 & Q2 & _). unfold b_remove in Q. destruct (b_get s id); [|discriminate].
      inversion Q. rewrite detach_node, detach_reg, Q1. auto. }
    destruct c; cbn [kstep b_step] in E, B; try discriminate.
    1,2,6: destruct (N.leb_spec (bound k) id) as [L|]; inversion E; subst k1; destruct (CR _ _ L B) as [-> F]; cbn [b_node b_reg bound known creates removes];
      (split; [lia|]); (split; [intros x n Q; unfold nupd; destruct (N.eqb_spec x id); [congruence|auto]|]);
      (split; [intros id0 n0 Q; inversion Q; subst; unfold nupd; rewrite N.eqb_refl; auto|]);
      (split; [intros x LT Q; unfold nupd; destruct (N.eqb_spec x id); [lia|auto]|]);
      (split; [intros x Q; discriminate|]); intros x Q _; right; auto.
    1,2,4: destruct (inb id (known k)) eqn:J; inversion E; subst k1; destruct (RM _ J B) as (R1 & R2 & R3); rewrite R1, R2; cbn [bound known creates removes];
      (split; [lia|]); (split; [auto|]); (split; [intros; discriminate|]);
      (split; [intros x LT Q; unfold nupd; destruct (N.eqb_spec x id); auto|]);
      (split; [intros x Q; inversion Q; subst; split; auto; unfold nupd; rewrite N.eqb_refl; auto|]); intros x Q NE; apply out_of_in; split; auto; congruence.
    destruct ref as [r|]; [|discriminate]. destruct ((parent =? P)%N && inb child (known k) && inb r (kids k) && negb (r =? child)%N) eqn:C; inversion E; subst k1; clear E.
    assert (SAME : b_node s1 = b_node s /\ b_reg s1 = b_reg s).
    { unfold b_insert in B. destruct (b_get s parent) as [[| |]|]; try discriminate. destruct (b_get s child); try discriminate. destruct (b_get s r); try discriminate.
      destruct (b_par s r) as [q|]; try discriminate. destruct (q =? parent)%N; try discriminate. destruct (r =? child)%N; inversion B; auto.
      unfold place. cbn. rewrite detach_node, detach_reg. auto. }
    destruct SAME as [-> ->]. cbn [bound known creates removes]. split; [lia|]. split; auto. split; [intros; discriminate|]. split; auto. split; [intros; discriminate|auto].
  Qed.

  Lemma run_nodes cs : forall s k k1, view s k -> krun k cs = Some k1 -> exists s1, breplay teqb hook perm s cs [] s1 /\ view s1 k1 /\
    (forall x n, b_node s x = Some n -> b_node s1 x = Some n) /\
    (forall c id n, In c cs -> creates c = Some (id, n) -> b_node s1 id = Some n) /\
    (forall x, (x < bound k)%N -> b_reg s x = false -> b_reg s1 x = false) /\
    (forall c x, In c cs -> removes c = Some x -> b_reg s1 x = false) /\
    (forall x, In x (known k) -> (forall c, In c cs -> removes c <> Some x) -> In x (known k1)).
  Proof.
    induction cs as [|c t IH]; intros s k k1 V E; cbn [krun] in E; [inversion E; subst; exists s; split; [constructor|]; split; auto; split; auto; split; [intros ? ? ? []|]; split; auto; split; [intros ? ? []|auto]|].
    destruct (kstep k c) as [k2|] eqn:E1; [|discriminate]. destruct (step_view _ _ _ _ V E1) as (s2 & L & B & V2).
    destruct (step_nodes _ _ _ _ _ V E1 B) as (A0 & A1 & A2 & A3 & A4 & A5).
    destruct (IH _ _ _ V2 E) as (s3 & R & V3 & H1 & H2 & H3 & H4 & H5). exists s3. split; [eapply br_ok; eauto|]. split; auto.
    split; [auto|]. split; [intros c0 id n [->|J] Q; [apply H1; eapply A2; eauto|eapply H2; eauto]|].
    split; [intros x LT Q; apply H3; [lia|auto]|]. split.
    - intros c0 x [->|J] Q; [|eapply H4; eauto]. destruct (A4 _ Q) as [LT RG]. apply H3; [lia|auto].
    - intros x J NR. apply H5; [apply A5; auto; apply NR; left; auto|]. intros c0 J0. apply NR. right. auto.
  Qed.

  (** *** Computing a replay, for examples *)
  Fixpoint apart (fuel : nat) (s : bdom S) (x y : N) : bool :=
    match fuel with
    | O => false
    | Datatypes.S f => negb (x =? y)%N && match b_par s x with None => true | Some p => apart f s p y end
    end.
  Lemma apart_spec fuel s x y : apart fuel s x y = true -> ~ under s x y.
  Proof.
    revert x. induction fuel as [|f IH]; simpl; [discriminate|]. intros x H U. apply andb_true_iff in H as [H1 H2].
    inversion U as [|? p ? PP U1]; subst; [rewrite N.eqb_refl in H1; discriminate|]. rewrite PP in H2. apply (IH p); auto.
  Qed.

  Fixpoint brun (fuel : nat) (s : bdom S) (cs : list (dcmd S)) : option (bdom S) :=
    match cs with
    | [] => Some s
    | c :: t =>
        if match c with InsertBefore p x _ => apart fuel s p x | _ => true end
        then match b_step teqb hook perm s c with Some s1 => brun fuel s1 t | None => None end else None
    end.
  Lemma brun_replay fuel cs : forall s s1, brun fuel s cs = Some s1 -> breplay teqb hook perm s cs [] s1.
  Proof.
    induction cs as [|c t IH]; intros s s1 H; cbn [brun] in H; [inversion H; constructor|].
    destruct (match c with InsertBefore p x _ => apart fuel s p x | _ => true end) eqn:A; [|discriminate].
    destruct (b_step teqb hook perm s c) as [s2|] eqn:E; [|discriminate]. eapply br_ok; eauto. destruct c; simpl; auto. apply (apart_spec fuel). auto.
  Qed.
  (** What [f] sees in the document after the commands. *)
  Lemma brun_sees {A : Type} fuel s cs (f : bdom S -> A) v : option_map f (brun fuel s cs) = Some v -> exists s1, breplay teqb hook perm s cs [] s1 /\ f s1 = v.
  Proof. intros H. destruct (brun fuel s cs) as [s1|] eqn:E; [|discriminate]. exists s1. split; [apply (brun_replay fuel); auto|]. simpl in H. congruence. Qed.
End Bridge.
