(** C32: what fragments and lists of reactive nodes show.  C33: what a reactive value shows. *)

From Coq Require Import List NArith Bool Lia Permutation.
From Verif Require Import DomModel DomSort RenderModel RenderProps RenderList.
Import ListNotations.

Section Nest.
  Context {S : Type}.
  Variable mark : S.
  Variable P : N.
  Notation rnode := (rnode S).
  Notation krun := (krun P).
  Notation build := (build mark).
  Notation insert := (insert mark P).
  Notation insert_items := (insert_items mark P).

  Lemma rnode_induction (Q : rnode -> Prop) :
    (forall i n, Q (RElement i n)) -> (forall i t, Q (RText i t)) -> (forall i l, Forall Q l -> Q (RFrag i l)) ->
    (forall i, Q (RValue i None)) -> (forall i x, Q x -> Q (RValue i (Some x))) -> (forall i l, Forall Q l -> Q (RListOf i l)) -> forall r, Q r.
  Proof.
    intros H1 H2 H3 H4 H5 H6. fix F 1. intros [i n|i t|i l|i [x|]|i l].
    - apply H1.
    - apply H2.
    - apply H3. induction l as [|x l IH]; constructor; [apply F|exact IH].
    - apply H5. apply F.
    - apply H4.
    - apply H6. induction l as [|x l IH]; constructor; [apply F|exact IH].
  Qed.

  (** *** Where the nodes end up *)

  (** What stands before a mounted node because of it: nothing for elements and texts. *)
  Fixpoint content (r : rnode) : list N :=
    match r with
    | RElement _ _ | RText _ _ | RValue _ None => []
    | RValue _ (Some x) => content x ++ [r_id x]
    | RFrag _ l | RListOf _ l => concat (rev (map content l)) ++ map r_id l
    end.

  (** What should stand before it: its nodes in order, each preceded by what belongs to it. *)
  Fixpoint in_order (r : rnode) : list N :=
    match r with
    | RElement _ _ | RText _ _ | RValue _ None => []
    | RValue _ (Some x) => in_order x ++ [r_id x]
    | RFrag _ l | RListOf _ l => flat_map (fun x => in_order x ++ [r_id x]) l
    end.

  (** The ids, in the order in which the nodes are made: before the mount, at the mount. *)
  Fixpoint bids (r : rnode) : list N :=
    match r with RFrag i l => flat_map bids l ++ [i] | _ => [r_id r] end.
  Fixpoint mids (r : rnode) : list N :=
    match r with
    | RElement _ _ | RText _ _ | RValue _ None => []
    | RValue _ (Some x) => bids x ++ mids x
    | RFrag _ l => concat (rev (map mids l))
    | RListOf _ l => concat (rev (map (fun x => bids x ++ mids x) l))
    end.

  Fixpoint increasing (b : N) (l : list N) : Prop := match l with [] => True | x :: t => (b <= x)%N /\ increasing (x + 1) t end.
  Fixpoint after (b : N) (l : list N) : N := match l with [] => b | x :: t => after (x + 1) t end.

  Lemma increasing_app b l1 l2 : increasing b (l1 ++ l2) <-> increasing b l1 /\ increasing (after b l1) l2.
  Proof. revert b. induction l1 as [|x l1 IH]; intros b; simpl; [tauto|]. rewrite IH. tauto. Qed.
  Lemma after_app b l1 l2 : after b (l1 ++ l2) = after (after b l1) l2.
  Proof. revert b. induction l1 as [|x l1 IH]; intros b; simpl; auto. Qed.
  Lemma after_le b l : increasing b l -> (b <= after b l)%N.
  Proof. revert b. induction l as [|x l IH]; intros b; simpl; [lia|]. intros [H1 H2]. apply IH in H2. lia. Qed.
  Lemma increasing_ge b l x : increasing b l -> In x l -> (b <= x)%N /\ (x < after b l)%N.
  Proof.
    revert b. induction l as [|y l IH]; intros b; simpl; [tauto|]. intros [H1 H2] [->|I].
    - apply after_le in H2. lia.
    - destruct (IH _ H2 I). lia.
  Qed.
  Lemma increasing_nodup b l : increasing b l -> NoDup l.
  Proof.
    revert b. induction l as [|y l IH]; intros b; simpl; [constructor|]. intros [H1 H2]. constructor; eauto. intros I. destruct (increasing_ge _ _ _ H2 I). lia.
  Qed.

  (** *** Making nodes *)
  Lemma build_run r : forall k, increasing (bound k) (bids r) ->
    krun k (build r) = Some (Kst (kids k) (rev (bids r) ++ known k) (after (bound k) (bids r))).
  Proof.
    induction r as [i n|i t|i l IH|i|i x IH|i l IH] using rnode_induction; intros k H; cbn [RenderModel.build bids r_id] in *;
      try (simpl in H; destruct H as [H _]; cbn [RenderProps.krun kstep]; apply N.leb_le in H; rewrite H; reflexivity).
    apply increasing_app in H as [H1 H2]. rewrite krun_app.
    assert (A : krun k (flat_map build l) = Some (Kst (kids k) (rev (flat_map bids l) ++ known k) (after (bound k) (flat_map bids l)))).
    { clear H2. revert k H1. induction IH as [|x l Q _ IH2]; intros k H1; cbn [flat_map RenderProps.krun] in *; [destruct k; reflexivity|].
      apply increasing_app in H1 as [H1 H2]. rewrite krun_app, (Q k H1). rewrite IH2; cbn [kids known bound]; auto. f_equal. f_equal.
      - rewrite rev_app_distr, app_assoc. auto.
      - rewrite after_app. auto. }
    rewrite A. simpl in H2. destruct H2 as [H2 _]. apply N.leb_le in H2. cbn [RenderProps.krun kstep bound]. rewrite H2. cbn [kids known]. f_equal. f_equal.
    - rewrite rev_app_distr. auto.
    - rewrite after_app. auto.
  Qed.

  Lemma insert_unfold r before : insert r before = InsertBefore P (r_id r) (Some before) ::
    match r with
    | RElement _ _ | RText _ _ => []
    | RFrag c l => fst (insert_items false l c)
    | RValue c None => []
    | RValue c (Some x) => build x ++ insert x c
    | RListOf c l => fst (insert_items true l c)
    end.
  Proof.
    destruct r as [i n|i t|i l|i [x|]|i l]; auto.
    - cbn [RenderModel.insert r_id]. f_equal. f_equal. induction l as [|x l IH]; [auto|]. cbn [RenderModel.insert_items]. rewrite <- IH. auto.
    - cbn [RenderModel.insert r_id]. f_equal. f_equal. induction l as [|x l IH]; [auto|]. cbn [RenderModel.insert_items]. rewrite <- IH. auto.
  Qed.

  (** *** Mounting *)
  Lemma concat_rev {A : Type} (ls : list (list A)) : Permutation (concat (rev ls)) (concat ls).
  Proof.
    induction ls as [|l ls IH]; simpl; auto. rewrite concat_app. simpl. rewrite app_nil_r.
    etransitivity; [apply Permutation_app_comm|]. apply Permutation_app_head. auto.
  Qed.

  Lemma concat_map2 (f g : rnode -> list N) l : Permutation (concat (map (fun x => f x ++ g x) l)) (concat (map f l) ++ concat (map g l)).
  Proof.
    induction l as [|x l IH]; simpl; auto. rewrite IH. rewrite <- !app_assoc. apply Permutation_app_head. rewrite !app_assoc.
    apply Permutation_app_tail. apply Permutation_app_comm.
  Qed.

  Lemma content_ids r : Permutation (content r ++ [r_id r]) (bids r ++ mids r).
  Proof.
    assert (L : forall l, Forall (fun r => Permutation (content r ++ [r_id r]) (bids r ++ mids r)) l ->
              Permutation (concat (map content l) ++ map r_id l) (concat (map (fun x => bids x ++ mids x) l))).
    { intros l H. etransitivity; [|apply (Permutation_refl (concat (map (fun x => bids x ++ mids x) l)))].
      assert (E : concat (map (fun x : rnode => [r_id x]) l) = map r_id l) by (clear; induction l; simpl; congruence).
      rewrite <- E, <- concat_map2. induction H as [|x l H _ IH]; simpl; auto. rewrite H. apply Permutation_app_head.
      apply IH. clear. induction l; simpl; congruence. }
    induction r as [i n|i t|i l IH|i|i x IH|i l IH] using rnode_induction; cbn [content bids mids r_id]; auto.
    - rewrite concat_rev. etransitivity; [apply Permutation_app_tail, L, IH|]. rewrite concat_map2, concat_rev, flat_map_concat_map, <- !app_assoc.
      apply Permutation_app_head. apply Permutation_app_comm.
    - etransitivity; [apply Permutation_app_comm|]. simpl. apply perm_skip. auto.
    - rewrite !concat_rev. etransitivity; [apply Permutation_app_comm|]. simpl. apply perm_skip. apply L, IH.
  Qed.

  Lemma nodup_parts {A : Type} (a b : list A) : NoDup (a ++ b) <-> NoDup a /\ NoDup b /\ (forall x, In x a -> ~ In x b).
  Proof.
    induction a as [|y a IH]; simpl.
    - split; [intros H; split; [constructor|split; [auto|intros x []]]|tauto].
    - rewrite !NoDup_cons_iff, IH, in_app_iff. split.
      + intros (H1 & H2 & H3 & H4). split; [tauto|]. split; auto. intros x [<-|I]; auto.
      + intros ((H1 & H2) & H3 & H4). split; [|split; [auto|split; [auto|intros x I; apply H4; auto]]]. intros [I|I]; auto. apply (H4 y); auto.
  Qed.

  Lemma put_at l r x R : ~ In r l -> put_before (l ++ r :: R) r x = l ++ x :: r :: R.
  Proof. induction l as [|y l IH]; simpl; intros H; [rewrite N.eqb_refl; auto|]. destruct (N.eqb_spec y r); [subst; tauto|]. rewrite IH; tauto. Qed.

  (** The nodes made before the mount are there but not mounted. *)
  Definition ready (k : kst) (b : list N) : Prop := incl b (known k) /\ NoDup b /\ (forall x, In x b -> ~ In x (kids k) /\ (x < bound k)%N).
  Definition tidy (k : kst) : Prop := NoDup (kids k) /\ forall x, In x (kids k) -> (x < bound k)%N.

  Definition mounts (r : rnode) : Prop := forall k pre before post, kids k = pre ++ before :: post -> tidy k -> ready k (bids r) -> increasing (bound k) (mids r) ->
    exists kn, krun k (insert r before) = Some (Kst (pre ++ content r ++ r_id r :: before :: post) kn (after (bound k) (mids r))) /\
      incl (known k) kn /\ incl (mids r) kn.

  (** After the mount. *)
  Lemma tidy_after k pre before post r kn : kids k = pre ++ before :: post -> tidy k -> ready k (bids r) -> increasing (bound k) (mids r) ->
    tidy (Kst (pre ++ content r ++ r_id r :: before :: post) kn (after (bound k) (mids r))).
  Proof.
    intros K [T1 T2] (R1 & R2 & R3) I. unfold tidy. cbn [kids bound].
    assert (Q : Permutation (pre ++ content r ++ r_id r :: before :: post) ((bids r ++ mids r) ++ kids k)).
    { change (r_id r :: before :: post) with ([r_id r] ++ before :: post). rewrite (app_assoc (content r)). rewrite (content_ids r), K.
      rewrite !app_assoc. apply Permutation_app_tail. rewrite <- app_assoc. apply Permutation_app_comm. }
    split.
    - eapply Permutation_NoDup; [symmetry; exact Q|]. apply nodup_parts. split; [|split; [auto|]].
      + apply nodup_parts. split; auto. split; [eapply increasing_nodup; eauto|]. intros x J1 J2. destruct (R3 x J1) as [_ L]. destruct (increasing_ge _ _ _ I J2). lia.
      + intros x J. rewrite in_app_iff in J. destruct J as [J|J]; [apply (R3 x J)|]. intros J2. apply T2 in J2. destruct (increasing_ge _ _ _ I J). lia.
    - intros x J. eapply Permutation_in in J; [|exact Q]. pose proof (after_le _ _ I). rewrite !in_app_iff in J. destruct J as [[J|J]|J].
      + destruct (R3 x J). lia.
      + destruct (increasing_ge _ _ _ I J). lia.
      + apply T2 in J. lia.
  Qed.

  Lemma first_of l c post : exists R, map r_id l ++ c :: post = (match l with [] => c | x :: _ => r_id (S := S) x end) :: R.
  Proof. destruct l; simpl; eauto. Qed.
  Lemma items_prev make l c : snd (insert_items make l c) = match l with [] => c | x :: _ => r_id x end.
  Proof. destruct l as [|x l]; auto. cbn [RenderModel.insert_items]. destruct (insert_items make l c); auto. Qed.

  Lemma items_false l c : Forall mounts l -> forall k pre post, kids k = pre ++ c :: post -> tidy k -> ready k (flat_map bids l) -> increasing (bound k) (concat (rev (map mids l))) ->
    exists k1, krun k (fst (insert_items false l c)) = Some k1 /\ kids k1 = pre ++ concat (rev (map content l)) ++ map r_id l ++ c :: post /\
      bound k1 = after (bound k) (concat (rev (map mids l))) /\ tidy k1 /\ incl (known k) (known k1) /\ incl (concat (map mids l)) (known k1).
  Proof.
    induction 1 as [|x l MX _ IH]; intros k pre post K T R I.
    - exists k. simpl. split; auto. split; auto. split; auto. split; auto. split; [apply incl_refl|intros y []].
    - cbn [RenderModel.insert_items]. pose proof (items_prev false l c) as PV. destruct (insert_items false l c) as [cs prev] eqn:EI. cbn [fst snd] in *.
      cbn [map rev] in I. rewrite concat_app in I. simpl in I. rewrite app_nil_r in I. apply increasing_app in I as [I1 I2].
      destruct R as (R1 & R2 & R3). cbn [flat_map] in *. apply nodup_parts in R2 as (R2 & R4 & R5).
      destruct (IH k pre post) as (k1 & A1 & A2 & A3 & A4 & A5 & A6); auto.
      { split; [intros y J; apply R1, in_app_iff; auto|]. split; auto. intros y J. apply R3. apply in_app_iff. auto. }
      destruct (first_of l c post) as (RR & FE). rewrite <- PV in FE. rewrite FE, app_assoc in A2.
      assert (RX : ready k1 (bids x)).
      { split; [intros y J; apply A5, R1, in_app_iff; auto|]. split; auto. intros y J. destruct (R3 y) as [C1 C2]; [apply in_app_iff; auto|]. split.
        * rewrite A2, <- app_assoc, <- FE. intros D.
          assert (Q : Permutation (pre ++ concat (rev (map content l)) ++ map r_id l ++ c :: post) ((concat (map bids l) ++ concat (map mids l)) ++ kids k)).
          { rewrite K, concat_rev. rewrite <- concat_map2.
            assert (E : concat (map (fun x : rnode => [r_id x]) l) = map r_id l) by (clear; induction l; simpl; congruence).
            rewrite (app_assoc (concat _)), <- E, <- concat_map2, !app_assoc. apply Permutation_app_tail.
            etransitivity; [apply Permutation_app_comm|]. apply Permutation_app_tail. clear. induction l as [|z l IH]; simpl; auto. rewrite IH. apply Permutation_app_tail. apply content_ids. }
          eapply Permutation_in in D; [|exact Q]. rewrite !in_app_iff in D. destruct D as [[D|D]|D]; auto.
          -- rewrite <- flat_map_concat_map in D. apply (R5 y); auto.
          -- eapply Permutation_in in D; [|symmetry; apply concat_rev]. destruct (increasing_ge _ _ y I1 D). lia.
        * rewrite A3. pose proof (after_le _ _ I1). lia. }
      assert (IX : increasing (bound k1) (mids x)) by (rewrite A3; auto).
      destruct (MX k1 (pre ++ concat (rev (map content l))) prev RR) as (kn & B1 & B2 & B3); auto.
      exists (Kst ((pre ++ concat (rev (map content l))) ++ content x ++ r_id x :: prev :: RR) kn (after (bound k1) (mids x))).
      rewrite krun_app, A1. split; [exact B1|]. cbn [kids bound known]. split.
      * cbn [map rev]. rewrite concat_app. simpl. rewrite app_nil_r, FE, <- !app_assoc. auto.
      * split; [cbn [map rev]; rewrite concat_app; simpl; rewrite app_nil_r, after_app, A3; auto|]. split; [eapply tidy_after; eauto|].
        split; [intros y J; auto|]. simpl. intros y J. apply in_app_iff in J as [J|J]; auto.
  Qed.

  (** A node is made and mounted. *)
  Lemma build_mount r k pre before post : mounts r -> kids k = pre ++ before :: post -> tidy k -> increasing (bound k) (bids r ++ mids r) ->
    exists k1, krun k (build r ++ insert r before) = Some k1 /\ kids k1 = pre ++ content r ++ r_id r :: before :: post /\
      bound k1 = after (bound k) (bids r ++ mids r) /\ tidy k1 /\ incl (known k) (known k1) /\ incl (bids r ++ mids r) (known k1).
  Proof.
    intros M K [T1 T2] I. apply increasing_app in I as [I1 I2]. rewrite krun_app, build_run by auto.
    set (k0 := Kst (kids k) (rev (bids r) ++ known k) (after (bound k) (bids r))).
    pose proof (after_le _ _ I1) as LE.
    assert (T0 : tidy k0). { split; auto. cbn [kids bound k0]. intros x J. apply T2 in J. lia. }
    assert (R0 : ready k0 (bids r)).
    { split; [intros x J; cbn; apply in_app_iff; left; apply -> in_rev; auto|]. split; [eapply increasing_nodup; eauto|]. cbn [kids bound k0]. intros x J.
      destruct (increasing_ge _ _ _ I1 J). split; auto. intros D. apply T2 in D. lia. }
    destruct (M k0 pre before post) as (kn & B1 & B2 & B3); auto.
    exists (Kst (pre ++ content r ++ r_id r :: before :: post) kn (after (bound k0) (mids r))). split; [exact B1|]. cbn [kids bound known k0]. split; auto.
    split; [rewrite after_app; auto|]. split; [apply (tidy_after k0); auto|]. split.
    - intros x J. apply B2. cbn. apply in_app_iff. auto.
    - intros x J. apply in_app_iff in J as [J|J]; auto. apply B2. cbn. apply in_app_iff. left. apply -> in_rev. auto.
  Qed.

  Lemma items_true l c : Forall mounts l -> forall k pre post, kids k = pre ++ c :: post -> tidy k -> increasing (bound k) (concat (rev (map (fun x => bids x ++ mids x) l))) ->
    exists k1, krun k (fst (insert_items true l c)) = Some k1 /\ kids k1 = pre ++ concat (rev (map content l)) ++ map r_id l ++ c :: post /\
      bound k1 = after (bound k) (concat (rev (map (fun x => bids x ++ mids x) l))) /\ tidy k1 /\ incl (known k) (known k1) /\
      incl (concat (map (fun x => bids x ++ mids x) l)) (known k1).
  Proof.
    induction 1 as [|x l MX _ IH]; intros k pre post K T I.
    - exists k. simpl. split; auto. split; auto. split; auto. split; auto. split; [apply incl_refl|intros y []].
    - cbn [RenderModel.insert_items]. pose proof (items_prev true l c) as PV. destruct (insert_items true l c) as [cs prev] eqn:EI. cbn [fst snd] in *.
      cbn [map rev] in I. rewrite concat_app in I. cbn [concat] in I. rewrite app_nil_r in I. apply increasing_app in I as [I1 I2].
      destruct (IH k pre post) as (k1 & A1 & A2 & A3 & A4 & A5 & A6); auto.
      destruct (first_of l c post) as (RR & FE). rewrite <- PV in FE. rewrite FE, app_assoc in A2.
      destruct (build_mount x k1 (pre ++ concat (rev (map content l))) prev RR) as (k2 & B1 & B2 & B3 & B4 & B5 & B6); auto; [rewrite A3; auto|].
      exists k2. rewrite krun_app, A1. split; [exact B1|]. split.
      + rewrite B2. cbn [map rev]. rewrite concat_app. simpl. rewrite app_nil_r, FE, <- !app_assoc. auto.
      + split; [cbn [map rev]; rewrite concat_app; cbn [concat]; rewrite app_nil_r, after_app, B3, A3; auto|]. split; auto.
        split; [intros y J; auto|]. cbn [map concat]. intros y J. apply in_app_iff in J as [J|J]; auto.
  Qed.

  Lemma kst_eta k : k = Kst (kids k) (known k) (bound k).
  Proof. destruct k; auto. Qed.

  (** Every node can be mounted; where its nodes end up. *)
  Lemma mounts_all : forall r, mounts r.
  Proof.
    assert (ST : forall r k pre before post, kids k = pre ++ before :: post -> tidy k -> ready k (bids r) ->
      exists k1, kstep P k (InsertBefore P (r_id r) (Some before) : dcmd S) = Some k1 /\ kids k1 = pre ++ r_id r :: before :: post /\ known k1 = known k /\ bound k1 = bound k /\ tidy k1).
    { intros r k pre before post K [T1 T2] (R1 & R2 & R3).
      assert (IB : In (r_id r) (bids r)) by (destruct r; simpl; auto; rewrite in_app_iff; simpl; auto).
      destruct (R3 _ IB) as [NI LT]. exists (Kst (pre ++ r_id r :: before :: post) (known k) (bound k)). split.
      - cbn [kstep]. rewrite N.eqb_refl, (proj2 (inb_spec _ _) (R1 _ IB)), (proj2 (inb_spec before (kids k))) by (rewrite K, in_app_iff; simpl; auto).
        destruct (N.eqb_spec before (r_id r)) as [Q|]; [destruct NI; rewrite K, in_app_iff; simpl; auto|]. simpl. f_equal. f_equal.
        rewrite out_of_notin by auto. rewrite K. apply put_at. rewrite K in T1. apply NoDup_remove_2 in T1. intros J. apply T1. apply in_app_iff. auto.
      - split; auto. split; auto. split; auto. split; cbn [kids bound].
        + rewrite K in T1, NI. apply (NoDup_Add (Add_app (r_id r) pre (before :: post))). auto.
        + intros x J. rewrite in_app_iff in J. simpl in J. destruct J as [J|[<-|J]]; auto; apply T2; rewrite K, in_app_iff; auto. }
    intros r. induction r as [i n|i t|i l IH|i|i x IH|i l IH] using rnode_induction; intros k pre before post K T R I;
      destruct (ST _ _ _ _ _ K T R) as (k1 & S1 & S2 & S3 & S4 & S5); rewrite insert_unfold; cbn [RenderProps.krun]; rewrite S1; cbn [r_id] in *; cbn [mids] in *.
    1,2,4: exists (known k); split; [rewrite (kst_eta k1), S2, S3, S4; reflexivity|split; [apply incl_refl|intros y []]].
    - (* a fragment *)
      destruct (items_false l i IH k1 pre (before :: post)) as (k2 & A1 & A2 & A3 & A4 & A5 & A6); auto.
      + destruct R as (R1 & R2 & R3). cbn [bids] in *. apply nodup_parts in R2 as (R2 & R4 & R5). split; [intros y J; rewrite S3; apply R1, in_app_iff; auto|].
        split; auto. intros y J. destruct (R3 y) as [C1 C2]; [apply in_app_iff; auto|]. rewrite S4. split; auto. rewrite S2. intros D. rewrite K in C1. rewrite in_app_iff in *. simpl in *.
        destruct D as [D|[D|D]]; auto. subst. apply (R5 y); simpl; auto.
      + rewrite S4. auto.
      + exists (known k2). split; [rewrite A1, (kst_eta k2), A2, A3, S4; cbn [content]; rewrite <- !app_assoc; reflexivity|]. split; [rewrite <- S3; auto|].
        intros y J. apply A6. eapply Permutation_in; [apply concat_rev|auto].
    - (* a value *)
      destruct (build_mount x k1 pre i (before :: post)) as (k2 & A1 & A2 & A3 & A4 & A5 & A6); auto; [rewrite S4; auto|].
      exists (known k2). split; [rewrite A1, (kst_eta k2), A2, A3, S4; cbn [content]; rewrite <- !app_assoc; reflexivity|]. split; [rewrite <- S3; auto|auto].
    - (* a list *)
      destruct (items_true l i IH k1 pre (before :: post)) as (k2 & A1 & A2 & A3 & A4 & A5 & A6); auto; [rewrite S4; auto|].
      exists (known k2). split; [rewrite A1, (kst_eta k2), A2, A3, S4; cbn [content]; rewrite <- !app_assoc; reflexivity|]. split; [rewrite <- S3; auto|].
      intros y J. apply A6. eapply Permutation_in; [apply concat_rev|auto].
  Qed.

  (** *** Dropping *)
  Definition ids (r : rnode) : list N := content r ++ [r_id r].

  Fixpoint dids (r : rnode) : list N :=
    match r with
    | RElement i _ | RText i _ | RValue i None => [i]
    | RFrag i l | RListOf i l => i :: flat_map dids l
    | RValue i (Some x) => i :: dids x
    end.

  Lemma drop_removes r : map (@removes S) (drop_rnode r) = map Some (dids r).
  Proof.
    assert (L : forall l, Forall (fun r => map (@removes S) (drop_rnode r) = map Some (dids r)) l -> map (@removes S) (flat_map drop_rnode l) = map Some (flat_map dids l)).
    { induction 1 as [|x l H _ IH]; simpl; auto. rewrite !map_app. congruence. }
    induction r as [i n|i t|i l IH|i|i x IH|i l IH] using rnode_induction; cbn [drop_rnode dids map removes]; auto; f_equal; auto.
  Qed.

  Lemma dids_ids r : Permutation (dids r) (ids r).
  Proof.
    unfold ids.
    assert (L : forall l, Forall (fun r => Permutation (dids r) (content r ++ [r_id r])) l -> Permutation (flat_map dids l) (concat (rev (map content l)) ++ map r_id l)).
    { intros l H. rewrite concat_rev.
      assert (E : concat (map (fun x : rnode => [r_id x]) l) = map r_id l) by (clear; induction l; simpl; congruence).
      rewrite <- E, <- concat_map2. clear E. induction H as [|x l H _ IH]; cbn [map concat flat_map]; auto. rewrite H. apply Permutation_app_head. auto. }
    induction r as [i n|i t|i l IH|i|i x IH|i l IH] using rnode_induction; cbn [dids content r_id]; auto.
    - etransitivity; [|apply Permutation_app_comm]. simpl. apply perm_skip. auto.
    - etransitivity; [|apply Permutation_app_comm]. simpl. apply perm_skip. auto.
    - etransitivity; [|apply Permutation_app_comm]. simpl. apply perm_skip. auto.
  Qed.

  Lemma drops_run cs : forall k ds, map (@removes S) cs = map Some ds -> NoDup ds -> incl ds (known k) ->
    exists k1, krun k cs = Some k1 /\ kids k1 = filter (fun y => negb (inb y ds)) (kids k) /\ bound k1 = bound k /\ (forall x, In x (known k) -> ~ In x ds -> In x (known k1)).
  Proof.
    induction cs as [|c cs IH]; intros k ds E ND KN; destruct ds as [|d ds]; try discriminate; simpl in E.
    - exists k. simpl. split; auto. split; [|auto]. clear. induction (kids k); simpl; congruence.
    - inversion E as [[E1 E2]]. inversion ND as [|? ? N1 N2]; subst.
      set (k1 := Kst (out_of (kids k) d) (out_of (known k) d) (bound k)).
      assert (ST : kstep P k c = Some k1).
      { assert (J : inb d (known k) = true) by (apply inb_spec, KN; left; auto). destruct c; simpl in E1; try discriminate; inversion E1; subst; cbn [kstep]; rewrite J; auto. }
      destruct (IH k1 ds) as (k2 & A1 & A2 & A3 & A4); auto.
      { intros x J. cbn. apply out_of_in. split; [apply KN; right; auto|]. intros ->. auto. }
      exists k2. cbn [RenderProps.krun]. rewrite ST. split; auto. split; [|split; auto].
      + rewrite A2. cbn [kids k1]. unfold out_of. clear. induction (kids k) as [|y l IH]; simpl; auto.
        destruct (N.eqb_spec y d); simpl; rewrite IH; auto.
      + intros x J NI. apply A4; [cbn; apply out_of_in; split; auto; intros ->; apply NI; left; auto|]. intros J2. apply NI. right. auto.
  Qed.

  Lemma filter_out (a b c ds : list N) : NoDup (a ++ b ++ c) -> Permutation ds b -> filter (fun y => negb (inb y ds)) (a ++ b ++ c) = a ++ c.
  Proof.
    intros ND Q. apply nodup_parts in ND as (_ & ND & D1). apply nodup_parts in ND as (_ & _ & D2). rewrite !filter_app.
    assert (KEEP : forall l, (forall x, In x l -> ~ In x b) -> filter (fun y => negb (inb y ds)) l = l).
    { induction l as [|x l IH]; intros H; simpl; auto. destruct (inb x ds) eqn:E.
      - apply inb_spec in E. destruct (H x); [left; auto|]. eapply Permutation_in; eauto.
      - simpl. f_equal. apply IH. intros y J. apply H. right. auto. }
    rewrite (KEEP a), (KEEP c).
    - f_equal. replace (filter _ b) with (@nil N); auto. clear - Q.
      assert (H : forall l, incl l b -> filter (fun y => negb (inb y ds)) l = []).
      { induction l as [|x l IH]; intros H; simpl; auto. rewrite (proj2 (inb_spec x ds)); [simpl; apply IH; intros y J; apply H; right; auto|].
        eapply Permutation_in; [symmetry; exact Q|]. apply H. left. auto. }
      symmetry. apply H, incl_refl.
    - intros x J1 J2. apply (D2 x); auto.
    - intros x J1 J2. apply (D1 x J1), in_app_iff. auto.
  Qed.

  (** *** One value *)
  Definition oids (o : option rnode) : list N := match o with Some r => ids r | None => [] end.
  Definition omade (o : option rnode) : list N := match o with Some r => bids r ++ mids r | None => [] end.

  Lemma value_run k pre post comment old new : kids k = pre ++ oids old ++ comment :: post -> tidy k -> incl (oids old) (known k) -> increasing (bound k) (omade new) ->
    exists k1, krun k (on_value mark P comment old new) = Some k1 /\ kids k1 = pre ++ oids new ++ comment :: post /\ tidy k1 /\ incl (oids new) (known k1) /\
      bound k1 = after (bound k) (omade new).
  Proof.
    intros K T KN I. unfold on_value. rewrite krun_app.
    assert (A : exists k0, krun k (match new with Some x => build x ++ insert x comment | None => [] end) = Some k0 /\
      kids k0 = pre ++ oids old ++ oids new ++ comment :: post /\ tidy k0 /\ incl (known k) (known k0) /\ incl (oids new) (known k0) /\ bound k0 = after (bound k) (omade new)).
    { destruct new as [r|]; cbn [oids omade] in *.
      - destruct (build_mount r k (pre ++ oids old) comment post) as (k1 & A1 & A2 & A3 & A4 & A5 & A6); auto; [apply mounts_all|rewrite K, <- app_assoc; auto|].
        exists k1. split; auto. unfold ids. split; [rewrite A2, <- !app_assoc; auto|]. split; auto. split; auto. split; auto.
        intros x J. apply A6. eapply Permutation_in; [apply content_ids|auto].
      - exists k. split; auto. split; auto. split; auto. split; [apply incl_refl|]. split; [intros x []|auto]. }
    destruct A as (k0 & A1 & A2 & [A3 A3b] & A4 & A5 & A6). rewrite A1. destruct old as [r|]; cbn [oids] in *.
    - assert (ND := A3). rewrite A2 in ND.
      destruct (drops_run (drop_rnode r) k0 (dids r)) as (k1 & B1 & B2 & B3 & B4); [apply drop_removes| | |].
      + eapply Permutation_NoDup; [symmetry; apply dids_ids|]. apply nodup_parts in ND as (_ & ND & _). apply nodup_parts in ND as (ND & _). auto.
      + intros x J. apply A4, KN. eapply Permutation_in; [apply dids_ids|auto].
      + exists k1. split; auto. rewrite A2, filter_out in B2 by (auto; apply dids_ids). split; auto. split; [split|].
        * rewrite B2. apply nodup_parts in ND as (N1 & N2 & N3). apply nodup_parts in N2 as (_ & N4 & _). apply nodup_parts. split; auto. split; auto.
          intros x J1 J2. apply (N3 x J1). apply in_app_iff. auto.
        * rewrite B3. intros x J. apply A3b. rewrite B2 in J. rewrite A2. rewrite !in_app_iff in *. tauto.
        * split; [|congruence]. intros x J. apply B4; auto. intros J2. eapply Permutation_in in J2; [|apply dids_ids].
          apply nodup_parts in ND as (_ & ND & _). apply nodup_parts in ND as (_ & _ & D). apply (D x J2), in_app_iff. auto.
    - exists k0. cbn [RenderProps.krun]. split; auto. split; auto. split; [split; auto|]. auto.
  Qed.

  Lemma values_run vs : forall k pre post comment old, kids k = pre ++ oids old ++ comment :: post -> tidy k -> incl (oids old) (known k) ->
    increasing (bound k) (flat_map omade vs) ->
    exists k1, krun k (on_values mark P comment old vs) = Some k1 /\ kids k1 = pre ++ oids (last vs old) ++ comment :: post /\ tidy k1.
  Proof.
    induction vs as [|v vs IH]; intros k pre post comment old K T KN I; [exists k; auto|]. cbn [flat_map] in I. apply increasing_app in I as [I1 I2].
    destruct (value_run _ _ _ _ _ _ K T KN I1) as (k1 & A1 & A2 & A3 & A4 & A5). cbn [on_values]. rewrite krun_app, A1.
    destruct (IH k1 pre post comment v) as (k2 & B1 & B2 & B3); auto; [rewrite A5; auto|]. exists k2. split; auto. split; auto.
    rewrite B2. f_equal. f_equal. f_equal. destruct vs as [|w vs]; auto. change (last (v :: w :: vs) old) with (last (w :: vs) old).
    clear. revert w. induction vs as [|x vs IH]; intros w; auto. apply IH.
  Qed.

  Lemma values_removed vs : forall comment old o x, In o (removelast (old :: vs)) -> In x (oids o) -> exists c, In c (on_values mark P comment old vs) /\ removes c = Some x.
  Proof.
    induction vs as [|v vs IH]; intros comment old o x I J; [destruct I|]. change (removelast (old :: v :: vs)) with (old :: removelast (v :: vs)) in I.
    cbn [on_values]. destruct I as [->|I].
    - destruct o as [r|]; [|destruct J]. cbn [oids] in J. eapply Permutation_in in J; [|symmetry; apply dids_ids].
      assert (Q : In (Some x) (map (@removes S) (drop_rnode r))) by (rewrite drop_removes; apply in_map; auto).
      apply in_map_iff in Q as (c & Q1 & Q2). exists c. split; auto. unfold on_value. rewrite !in_app_iff. auto.
    - destruct (IH comment v o x I J) as (c & Q1 & Q2). exists c. rewrite in_app_iff. auto.
  Qed.

  (** *** C33 *)
  Variable teqb : S -> S -> bool.
  Variable hook : S.
  Variable perm : N -> bool.

  (** The marker [comment] of a value stands among the children of [P]; before it what the node [old] rendered for the value
      consists of; the ids from [next] on are unused. *)
  Record value_mounted (s : bdom S) (pre post : list N) (comment : N) (old : option rnode) (next : N) : Prop := {
    vm_view : view perm P s (Kst (pre ++ oids old ++ comment :: post) (oids old) next);
    vm_nodup : NoDup (pre ++ oids old ++ comment :: post);
    vm_lt : forall x, In x (pre ++ oids old ++ comment :: post) -> (x < next)%N
  }.

  (** After any sequence of values the marker is preceded by what the node of the last one consists of and nothing else; everything that
      belonged to earlier ones is gone.  The ids of the nodes are the ones the counter gives. *)
  Theorem C33_shows s pre post comment old next vs : value_mounted s pre post comment old next -> increasing next (flat_map omade vs) ->
    exists s1, breplay teqb hook perm s (on_values mark P comment old vs) [] s1 /\
      b_kids s1 P = pre ++ oids (last vs old) ++ comment :: post /\
      forall o x, In o (removelast (old :: vs)) -> In x (oids o) -> b_get s1 x = None.
  Proof.
    intros [V ND LT] I. destruct (values_run vs (Kst (pre ++ oids old ++ comment :: post) (oids old) next) pre post comment old eq_refl (conj ND LT) (incl_refl _) I) as (k1 & A1 & A2 & A3).
    destruct (run_nodes teqb hook perm P _ _ _ _ V A1) as (s1 & B & V1 & _ & _ & _ & N4 & _). exists s1. split; auto. split; [rewrite (v_kids _ _ _ _ V1); auto|].
    intros o x J1 J2. destruct (values_removed vs comment old o x J1 J2) as (c & Q1 & Q2). unfold b_get. rewrite (N4 _ _ Q1 Q2). auto.
  Qed.

  (** *** C32 *)

  (** Where the nodes of a mounted node end up, exactly. *)
  Theorem C32_exact s k r pre before post : view perm P s k -> tidy k -> kids k = pre ++ before :: post -> increasing (bound k) (bids r ++ mids r) ->
    exists s1, breplay teqb hook perm s (build r ++ insert r before) [] s1 /\ b_kids s1 P = pre ++ content r ++ r_id r :: before :: post.
  Proof.
    intros V T K I. destruct (build_mount r k pre before post (mounts_all r) K T I) as (k1 & A1 & A2 & _).
    destruct (run_view teqb hook perm P _ _ _ _ V A1) as (s1 & B & V1). exists s1. split; auto. rewrite (v_kids _ _ _ _ V1). auto.
  Qed.

  (** A node that shows nothing but itself. *)
  Definition bare (r : rnode) : Prop := match r with RElement _ _ | RText _ _ | RValue _ None | RFrag _ [] | RListOf _ [] => True | _ => False end.

  (** Only the first node of a fragment or list is reactive, at every level. *)
  Fixpoint calm (r : rnode) : Prop :=
    match r with
    | RElement _ _ | RText _ _ | RValue _ None | RFrag _ [] | RListOf _ [] => True
    | RValue _ (Some x) => calm x
    | RFrag _ (x :: t) | RListOf _ (x :: t) => calm x /\ Forall bare t
    end.

  Lemma bare_content r : bare r -> content r = [] /\ in_order r = [].
  Proof. destruct r as [i n|i t|i [|x l]|i [x|]|i [|x l]]; simpl; tauto. Qed.
  Lemma content_bare r : content r = [] -> bare r.
  Proof.
    destruct r as [i n|i t|i [|x l]|i [x|]|i [|x l]]; cbn [content bare]; auto; intros H; apply app_eq_nil in H as [_ H]; discriminate.
  Qed.

  Lemma bare_list t : Forall bare t -> concat (rev (map content t)) = [] /\ flat_map (fun x => in_order x ++ [r_id x]) t = map r_id t.
  Proof.
    induction 1 as [|x t B _ [IH1 IH2]]; simpl; auto. rewrite concat_app, IH1, IH2. destruct (bare_content _ B) as [-> ->]. auto.
  Qed.

  Lemma calm_order : forall r, calm r -> content r = in_order r.
  Proof.
    assert (L : forall x t, content x = in_order x -> Forall bare t ->
      concat (rev (map content (x :: t))) ++ map r_id (x :: t) = flat_map (fun x => in_order x ++ [r_id x]) (x :: t)).
    { intros x t E B. destruct (bare_list t B) as [B1 B2]. cbn [map rev flat_map]. rewrite concat_app, B1, B2. simpl. rewrite app_nil_r, E, <- app_assoc. auto. }
    intros r. induction r as [i n|i t|i l IH|i|i x IH|i l IH] using rnode_induction; cbn [calm]; intros H; auto.
    - destruct l as [|x t]; auto. destruct H as [H1 H2]. inversion IH; subst. apply L; auto.
    - cbn [content in_order]. rewrite IH; auto.
    - destruct l as [|x t]; auto. destruct H as [H1 H2]. inversion IH; subst. apply L; auto.
  Qed.

  (** Part of C32: if, at every level, only the first node of a fragment or list is reactive, the nodes stand in order. *)
  Theorem C32_in_order_partial s k r pre before post : calm r -> view perm P s k -> tidy k -> kids k = pre ++ before :: post -> increasing (bound k) (bids r ++ mids r) ->
    exists s1, breplay teqb hook perm s (build r ++ insert r before) [] s1 /\ b_kids s1 P = pre ++ in_order r ++ r_id r :: before :: post.
  Proof. intros C V T K I. destruct (C32_exact _ _ _ _ _ _ V T K I) as (s1 & B & Q). exists s1. split; auto. rewrite Q, calm_order; auto. Qed.

  Lemma split_unique {A : Type} (x : A) a b c d : NoDup (a ++ x :: b) -> a ++ x :: b = c ++ x :: d -> a = c.
  Proof.
    revert c. induction a as [|y a IH]; intros [|z c] ND E; auto.
    - simpl in E. inversion E; subst. inversion ND as [|? ? H _]; subst. destruct H. rewrite in_app_iff. simpl. auto.
    - simpl in E. inversion E; subst. simpl in ND. inversion ND as [|? ? H _]; subst. destruct H. rewrite in_app_iff. simpl. auto.
    - simpl in *. inversion E; subst. inversion ND; subst. f_equal. eapply IH; eauto.
  Qed.

  (** And only then: a fragment or list whose nodes are right by themselves is right iff the nodes after the first one are bare. *)
  Theorem C32_only_then x t : content x = in_order x -> NoDup (content (RFrag 0 (x :: t))) ->
    (content (RFrag 0 (x :: t)) = in_order (RFrag 0 (x :: t)) <-> Forall bare t).
  Proof.
    intros EX ND. split.
    - intros E. cbn [content in_order flat_map map rev] in E, ND. rewrite concat_app in E, ND. simpl in E, ND. rewrite app_nil_r in E, ND. rewrite <- app_assoc in E, ND.
      rewrite (app_assoc (in_order x)) in E || idtac. rewrite <- !app_assoc in E. simpl in E. rewrite app_assoc in ND. rewrite (app_assoc (concat _)) in E.
      pose proof (split_unique _ _ _ _ _ ND E) as Q. rewrite <- EX in Q. apply (f_equal (@length N)) in Q. rewrite app_length in Q.
      assert (Z : concat (rev (map content t)) = []) by (apply length_zero_iff_nil; lia).
      apply Forall_forall. intros y J. apply content_bare. destruct (content y) as [|e l] eqn:EY; auto.
      assert (IN : In e (concat (rev (map content t)))). { apply in_concat. exists (content y). split; [apply -> in_rev; apply in_map; auto|rewrite EY; left; auto]. }
      rewrite Z in IN. destruct IN.
    - intros B. cbn [content in_order]. destruct (bare_list t B) as [B1 B2]. cbn [map rev flat_map]. rewrite concat_app, B1, B2. simpl. rewrite app_nil_r, EX, <- app_assoc. auto.
  Qed.
End Nest.

(** ** Examples: the element 1 contains the comment 2 and the text 3 *)

Module NestDemo.
  Notation replay := (@breplay N N.eqb 100%N (fun _ => false)).
  Definition k0 : kst := Kst [2; 3]%N [] 4%N.
  Lemma view0 : view (fun _ => false) 1%N ListDemo.s0 k0.
  Proof. apply (m_view _ _ _ _ _ _ _ _ _ _ ListDemo.mount0). Qed.
  Lemma tidy0 : tidy k0.
  Proof. split; [constructor; [intros [Q|[]]; discriminate|constructor; [intros []|constructor]]|intros x [<-|[<-|[]]]; reflexivity]. Qed.
  (** The children of 1 and the texts among them. *)
  Definition see (s : bdom N) : list N * list (option N) :=
    (b_kids s 1%N, filter (fun o => match o with Some _ => true | None => false end)
       (map (fun x => match b_get s x with Some (BText t) => Some t | _ => None end) (b_kids s 1%N))).
  (** A fragment: a reactive value showing the text 20, then the texts 10 and 30. *)
  Definition good : rnode N := RFrag 7 [RValue 4 (Some (RText 8 20)); RText 5 10; RText 6 30]%N.
  (** A fragment: a text 10, a reactive value showing the text 20, a text 30. *)
  Definition frag : rnode N := RFrag 7 [RText 4 10; RValue 5 (Some (RText 8 20)); RText 6 30]%N.
  (** A list of two reactive values, showing the texts 10 and 20. *)
  Definition lst : rnode N := RListOf 4 [RValue 7 (Some (RText 8 10)); RValue 5 (Some (RText 6 20))]%N.
  (** A value: first a text 10, then the list above, then nothing, then a text 30. *)
  Definition vs : list (option (rnode N)) :=
    [Some (RText 4 10); Some (RListOf 5 [RValue 8 (Some (RText 9 10)); RValue 6 (Some (RText 7 20))]); None; Some (RText 10 30)]%N.
End NestDemo.

Example C32_case : calm NestDemo.good /\ view (fun _ => false) 1%N ListDemo.s0 NestDemo.k0 /\ tidy NestDemo.k0 /\
  increasing 4 (bids NestDemo.good ++ mids NestDemo.good) /\
  exists s1, NestDemo.replay ListDemo.s0 (build 51%N NestDemo.good ++ insert 51%N 1 NestDemo.good 2) [] s1 /\
    NestDemo.see s1 = ([8; 4; 5; 6; 7; 2; 3], [Some 20; Some 10; Some 30; Some 52])%N.
Proof.
  split; [repeat constructor|]. split; [exact NestDemo.view0|]. split; [exact NestDemo.tidy0|]. split; [cbv; repeat split; discriminate|].
  apply (brun_sees N.eqb 100%N (fun _ => false) 9 ListDemo.s0). vm_compute. reflexivity.
Qed.

(** C32 fails: the text 20 of the reactive value stands before the text 10. *)
Theorem C32_refuted : view (fun _ => false) 1%N ListDemo.s0 NestDemo.k0 /\ tidy NestDemo.k0 /\ increasing 4 (bids NestDemo.frag ++ mids NestDemo.frag) /\
  in_order NestDemo.frag = [4; 8; 5; 6]%N /\
  exists s1, NestDemo.replay ListDemo.s0 (build 51%N NestDemo.frag ++ insert 51%N 1 NestDemo.frag 2) [] s1 /\
    NestDemo.see s1 = ([8; 4; 5; 6; 7; 2; 3], [Some 20; Some 10; Some 30; Some 52])%N.
Proof.
  split; [exact NestDemo.view0|]. split; [exact NestDemo.tidy0|]. split; [cbv; repeat split; discriminate|]. split; [reflexivity|].
  apply (brun_sees N.eqb 100%N (fun _ => false) 9 ListDemo.s0). vm_compute. reflexivity.
Qed.

(** C32 fails for lists: the two values show their texts in the wrong order. *)
Theorem C32_list_refuted : view (fun _ => false) 1%N ListDemo.s0 NestDemo.k0 /\ tidy NestDemo.k0 /\ increasing 4 (bids NestDemo.lst ++ mids NestDemo.lst) /\
  in_order NestDemo.lst = [8; 7; 6; 5]%N /\
  exists s1, NestDemo.replay ListDemo.s0 (build 51%N NestDemo.lst ++ insert 51%N 1 NestDemo.lst 2) [] s1 /\
    NestDemo.see s1 = ([6; 8; 7; 5; 4; 2; 3], [Some 20; Some 10; Some 52])%N.
Proof.
  split; [exact NestDemo.view0|]. split; [exact NestDemo.tidy0|]. split; [cbv; repeat split; discriminate|]. split; [reflexivity|].
  apply (brun_sees N.eqb 100%N (fun _ => false) 9 ListDemo.s0). vm_compute. reflexivity.
Qed.

Example C33_case : value_mounted 1%N (fun _ => false) ListDemo.s0 [] [3%N] 2%N None 4%N /\ increasing 4 (flat_map omade NestDemo.vs) /\
  (exists s1, NestDemo.replay ListDemo.s0 (on_values 51%N 1 2 None NestDemo.vs) [] s1 /\ NestDemo.see s1 = ([10; 2; 3], [Some 30; Some 52])%N) /\
  (exists s1, NestDemo.replay ListDemo.s0 (on_values 51%N 1 2 None (firstn 2 NestDemo.vs)) [] s1 /\ NestDemo.see s1 = ([7; 9; 8; 6; 5; 2; 3], [Some 20; Some 10; Some 52])%N).
Proof.
  split; [|split; [cbv; repeat split; discriminate|split]].
  - destruct NestDemo.tidy0. constructor; auto. exact NestDemo.view0.
  - apply (brun_sees N.eqb 100%N (fun _ => false) 9 ListDemo.s0). vm_compute. reflexivity.
  - apply (brun_sees N.eqb 100%N (fun _ => false) 9 ListDemo.s0). vm_compute. reflexivity.
Qed.
