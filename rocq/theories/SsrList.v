(** C26 and C28: the circular child list and the attribute map of the server. *)

From Coq Require Import List NArith PeanoNat Bool Lia Permutation.
From Verif Require Import MapModel SsrModel.
Import ListNotations.

(** ** Specification *)

(** Operations on a child list; on plain lists. *)
Inductive lop := LInsert (ref : option N) (child : N) | LRemove (id : N).

Definition l_remove (l : list N) (x : N) : list N := filter (fun y => negb (y =? x)%N) l.

Definition l_insert (l : list N) (ref : option N) (x : N) : list N :=
  match ref with
  | None => l_remove l x ++ [x]
  | Some r => flat_map (fun y => if (y =? r)%N then [x; y] else [y]) (l_remove l x)
  end.

Definition l_step (l : list N) (o : lop) : list N :=
  match o with LInsert r x => l_insert l r x | LRemove x => l_remove l x end.

(** The reference is a current child different from the inserted one. *)
Fixpoint l_valid (l : list N) (ops : list lop) : Prop :=
  match ops with
  | [] => True
  | o :: t =>
      match o with
      | LInsert (Some r) x => In r l /\ r <> x
      | _ => True
      end /\ l_valid (l_step l o) t
  end.

(** The same operations on the model. *)
Fixpoint c_run (c : children) (ops : list lop) : option children :=
  match ops with
  | [] => Some c
  | o :: t =>
      match (match o with LInsert r x => children_insert c r x | LRemove x => children_remove c x end) with
      | None => None
      | Some c1 => c_run c1 t
      end
  end.

(** For every key of a list of assignments its last one, in the order of the list. *)
Fixpoint last_writes {T} (teqb : T -> T -> bool) (l : list (T * T)) : list (T * T) :=
  match l with
  | [] => []
  | (k, v) :: t =>
      if existsb (fun e => teqb k (fst e)) t then last_writes teqb t else (k, v) :: last_writes teqb t
  end.

(** ** Rings *)

Definition linkR (m : hmap cnode) (a b : N) : Prop := exists n, hget m a = Some n /\ c_right n = b.
Definition linkL (m : hmap cnode) (b a : N) : Prop := exists n, hget m b = Some n /\ c_left n = a.

Fixpoint seg (m : hmap cnode) (a : N) (l : list N) (b : N) : Prop :=
  match l with
  | [] => linkR m a b /\ linkL m b a
  | x :: t => linkR m a x /\ linkL m x a /\ seg m x t b
  end.

Definition ring (m : hmap cnode) (l : list N) : Prop :=
  match l with [] => True | x :: t => seg m x t x end.

Lemma seg_app m a l x l' b : seg m a (l ++ x :: l') b <-> seg m a l x /\ seg m x l' b.
Proof. revert a; induction l as [|y l IH]; intros a; simpl; [tauto|]. rewrite IH. tauto. Qed.

Lemma ring_rot m l1 l2 : ring m (l1 ++ l2) -> ring m (l2 ++ l1).
Proof.
  destruct l1 as [|x l1]; [rewrite app_nil_r; auto|]. destruct l2 as [|y l2]; [rewrite app_nil_r; auto|].
  simpl. rewrite !seg_app. tauto.
Qed.

Lemma seg_frame m m' l : forall a b, seg m a l b ->
  (forall x y, In x (a :: l) -> linkR m x y -> linkR m' x y) ->
  (forall x y, In x (l ++ [b]) -> linkL m x y -> linkL m' x y) -> seg m' a l b.
Proof.
  induction l as [|x l IH]; simpl; intros a b H R L.
  - destruct H. split; auto.
  - destruct H as (A & B & C). split; [|split]; auto.
Qed.

Lemma rev_case {A} (l : list A) : l = [] \/ exists l' z, l = l' ++ [z].
Proof. destruct l using rev_ind; eauto. Qed.

(** [rep c l]: the structure [c] represents the list [l]. *)
Record rep (c : children) (l : list N) : Prop := {
  r_wf : hwf (c_nodes c);
  r_nd : NoDup l;
  r_dom : forall k, hget (c_nodes c) k <> None <-> In k l;
  r_first : c_first c = hd_error l;
  r_ring : ring (c_nodes c) l
}.

Lemma rep_new : rep children_new [].
Proof. constructor; simpl; auto; try constructor. tauto. intros []. Qed.

Lemma childs_S f m a : childs_loop (S f) m a =
  match hget m a with
  | None => None
  | Some n => match childs_loop f m (c_right n) with None => None | Some (l, e) => Some (a :: l, e) end
  end.
Proof. reflexivity. Qed.

Lemma seg_childs m : forall l a b, seg m a l b ->
  childs_loop (S (length l)) m a = Some (a :: l, b).
Proof.
  induction l as [|x l IH]; intros a b H; rewrite childs_S; destruct H as [(n & -> & <-) H]; auto.
  destruct H as [_ H]. apply IH in H. simpl length. rewrite H. auto.
Qed.

Lemma rep_childs c l : rep c l -> childs c = Some l.
Proof.
  intros [W ND D F R]. unfold childs.
  pose proof (hlen _ _ W ND D) as LEN.
  destruct l as [|x l].
  - destruct (c_nodes c); [auto|discriminate].
  - destruct (c_nodes c) as [|e m] eqn:Q; [discriminate|]. rewrite <- Q in *. simpl in F. rewrite F, LEN.
    simpl length. rewrite (seg_childs _ _ _ _ R), N.eqb_refl. auto.
Qed.

Lemma in_split_first (x : N) l : In x l -> NoDup l -> exists l1 l2, l = l1 ++ x :: l2 /\ ~ In x (l1 ++ l2).
Proof.
  intros I ND. apply in_split in I as (l1 & l2 & ->). exists l1, l2. split; auto.
  apply NoDup_remove_2; auto.
Qed.

Lemma l_remove_notin l x : ~ In x l -> l_remove l x = l.
Proof.
  unfold l_remove. induction l as [|y l IH]; simpl; auto. intros H.
  destruct (N.eqb_spec y x) as [->|N]; [exfalso; auto|]. simpl. rewrite IH; auto.
Qed.

Lemma l_remove_split l1 l2 x : ~ In x (l1 ++ l2) -> l_remove (l1 ++ x :: l2) x = l1 ++ l2.
Proof.
  intros H. unfold l_remove. rewrite filter_app. simpl. rewrite N.eqb_refl. simpl.
  fold (l_remove l1 x) (l_remove l2 x). rewrite !l_remove_notin; auto; intros I; apply H, in_app_iff; auto.
Qed.

Lemma l_remove_In l x y : In y (l_remove l x) <-> In y l /\ y <> x.
Proof.
  unfold l_remove. rewrite filter_In. destruct (N.eqb_spec y x); simpl; intuition congruence.
Qed.

Lemma ring_dom m l : ring m l -> forall x, In x l -> exists n, hget m x = Some n.
Proof.
  destruct l as [|a l]; [intros _ x []|]. simpl.
  assert (B : forall l a b, seg m a l b -> forall x, In x (a :: l) -> exists n, hget m x = Some n).
  { clear. induction l as [|y l IH]; intros a b H x I.
    - destruct I as [<-|[]]. destruct H as [(n & H & _) _]; eauto.
    - destruct H as ((n & H & _) & _ & S). destruct I as [<-|I]; eauto. }
  intros H; eapply B; eauto.
Qed.

Lemma NoDup_swap (l1 l2 : list N) : NoDup (l1 ++ l2) -> NoDup (l2 ++ l1).
Proof.
  intros H. eapply Permutation_NoDup; [apply Permutation_app_comm|exact H].
Qed.

(** Links after an update. *)
Lemma linkR_set m k n x y : linkR (hset m k n) x y <-> (x = k /\ c_right n = y) \/ (x <> k /\ linkR m x y).
Proof.
  unfold linkR. rewrite hget_set. destruct (N.eqb_spec x k) as [->|N].
  - split; [intros (n' & Q & <-); inversion Q; auto|]. intros [[_ <-]|[Q _]]; [eauto|congruence].
  - split; [auto|]. intros [[Q _]|[_ Q]]; [congruence|auto].
Qed.

Lemma linkL_set m k n x y : linkL (hset m k n) x y <-> (x = k /\ c_left n = y) \/ (x <> k /\ linkL m x y).
Proof.
  unfold linkL. rewrite hget_set. destruct (N.eqb_spec x k) as [->|N].
  - split; [intros (n' & Q & <-); inversion Q; auto|]. intros [[_ <-]|[Q _]]; [eauto|congruence].
  - split; [auto|]. intros [[Q _]|[_ Q]]; [congruence|auto].
Qed.

Lemma linkR_del m k x y : x <> k -> linkR m x y -> linkR (hdel m k) x y.
Proof. unfold linkR. intros N. rewrite hget_del. destruct (N.eqb_spec x k); [congruence|auto]. Qed.

Lemma linkL_del m k x y : x <> k -> linkL m x y -> linkL (hdel m k) x y.
Proof. unfold linkL. intros N. rewrite hget_del. destruct (N.eqb_spec x k); [congruence|auto]. Qed.

(** Removing. *)
Lemma remove_rep c l x : rep c l -> exists c', children_remove c x = Some c' /\ rep c' (l_remove l x).
Proof.
  intros [W ND D F R]. unfold children_remove.
  destruct (hget (c_nodes c) x) as [n|] eqn:G.
  2:{ exists c. split; auto. rewrite l_remove_notin; [constructor; auto|]. rewrite <- D, G. tauto. }
  assert (I : In x l) by (apply D; congruence).
  destruct (in_split_first x l I ND) as (l1 & l2 & -> & NI).
  rewrite (l_remove_split l1 l2 x NI).
  assert (R' : ring (c_nodes c) (x :: l2 ++ l1)) by (apply (ring_rot _ l1 (x :: l2)); auto).
  set (m0 := hdel (c_nodes c) x).
  assert (W0 : hwf m0) by (apply hwf_del; auto).
  assert (D' : forall k, In k (l2 ++ l1) <-> In k (l1 ++ x :: l2) /\ k <> x).
  { intros k. rewrite !in_app_iff. simpl. split.
    - intros H. split; [tauto|]. intros ->. apply NI, in_app_iff. tauto.
    - intuition congruence. }
  assert (ND' : NoDup (l1 ++ l2)) by (apply NoDup_remove_1 in ND; auto).
  assert (ND2 : NoDup (x :: l2 ++ l1)).
  { constructor; [rewrite in_app_iff in *; tauto|]. apply NoDup_swap; auto. }
  remember (l2 ++ l1) as t eqn:Et.
  assert (FIN : forall m', hwf m' -> (forall k, hget m' k <> None <-> hget m0 k <> None) -> ring m' t ->
    rep (Children (match c_first c with
                   | Some f => if (f =? x)%N then hd_error t else Some f
                   | None => None end) m') (l1 ++ l2)).
  { intros m' W' DM RM. constructor; auto; simpl.
    - intros k. rewrite DM. unfold m0. rewrite hget_del.
      assert (E1 : In k (l1 ++ l2) <-> In k t) by (subst t; rewrite !in_app_iff; tauto).
      rewrite E1, D', <- D. destruct (N.eqb_spec k x) as [->|N]; [|intuition congruence].
      split; [congruence|]. intros [_ []]; auto.
    - rewrite F. destruct l1 as [|y l1]; simpl.
      + rewrite N.eqb_refl. subst t. rewrite app_nil_r. auto.
      + destruct (N.eqb_spec y x) as [->|N]; auto. exfalso. apply NI. left; auto.
    - subst t. apply (ring_rot _ l2 l1); auto. }
  simpl in R'. inversion ND2 as [|? ? NX NT]; subst x0 l.
  destruct t as [|y t].
  - destruct R' as [(n1 & Q1 & RX) (n2 & Q2 & LX)]. rewrite G in Q1, Q2.
    inversion Q1; inversion Q2; subst n1 n2. rewrite LX, RX, N.eqb_refl.
    eexists. split; [reflexivity|].
    assert (l1 = [] /\ l2 = []) as [-> ->] by (destruct l2; [destruct l1; [auto|discriminate]|discriminate]).
    simpl in *. rewrite F, N.eqb_refl in FIN. apply FIN; auto; tauto.
  - destruct (rev_case t) as [->|(t' & z & ->)].
    + destruct R' as ((n1 & Q1 & RX) & LY & (RY & (n2 & Q2 & LX))). rewrite G in Q1, Q2.
      inversion Q1; inversion Q2; subst n1 n2. rewrite LX, RX.
      assert (y <> x) by (intros ->; apply NX; left; auto).
      destruct (N.eqb_spec y x); [congruence|].
      destruct RY as (ny & GY & _).
      assert (GY0 : hget m0 y = Some ny).
      { unfold m0. rewrite hget_del. destruct (N.eqb_spec y x); congruence. }
      rewrite GY0. rewrite hget_set, N.eqb_refl. eexists. split; [reflexivity|]. apply FIN.
      * apply hwf_set, hwf_set; auto.
      * intros k. rewrite !hget_set. destruct (N.eqb_spec k y) as [->|]; [|tauto]. rewrite GY0. split; congruence.
      * simpl. rewrite linkR_set, linkL_set. simpl. auto 6.
    + simpl in R'. destruct R' as (LXY & LYX & R'). rewrite seg_app in R'.
      destruct R' as (S & RZ & LX).
      destruct LXY as (n1 & Q1 & RX), LX as (n2 & Q2 & LX). rewrite G in Q1, Q2.
      inversion Q1; inversion Q2; subst n1 n2. rewrite LX, RX.
      assert (z <> x) by (intros ->; apply NX; right; apply in_app_iff; right; left; auto).
      assert (y <> x) by (intros ->; apply NX; left; auto).
      apply NoDup_cons_iff in NT as [NY NT'].
      assert (y <> z) by (intros ->; apply NY, in_app_iff; right; left; auto).
      assert (NZ : ~ In z t') by (apply NoDup_remove_2 in NT'; rewrite app_nil_r in NT'; auto).
      destruct (N.eqb_spec z x); [congruence|].
      destruct LYX as (ny & GY & _), RZ as (nz & GZ & _).
      assert (GY0 : hget m0 y = Some ny).
      { unfold m0. rewrite hget_del. destruct (N.eqb_spec y x); congruence. }
      assert (GZ0 : hget m0 z = Some nz).
      { unfold m0. rewrite hget_del. destruct (N.eqb_spec z x); congruence. }
      rewrite GY0, hget_set. destruct (N.eqb_spec z y); [congruence|]. rewrite GZ0.
      eexists. split; [reflexivity|]. apply FIN.
      * apply hwf_set, hwf_set; auto.
      * intros k. rewrite !hget_set. destruct (N.eqb_spec k z) as [->|]; [rewrite GZ0; split; congruence|].
        destruct (N.eqb_spec k y) as [->|]; [|tauto]. rewrite GY0. split; congruence.
      * clear I. simpl. rewrite seg_app. split.
        -- eapply seg_frame; [exact S| |].
           ++ intros a b I. rewrite !linkR_set. simpl. intros L.
              right. split; [intros ->; destruct I; [congruence|auto]|].
              destruct (N.eq_dec a y) as [->|]; [left; split; auto|right; split; auto].
              ** destruct L as (n0' & L & <-). congruence.
              ** apply linkR_del; auto. intros ->. apply NX. destruct I as [->|I]; [left; auto|right].
                 apply in_app_iff; auto.
           ++ intros a b I. rewrite !linkL_set. simpl. intros L.
              assert (a <> y) by (intros ->; auto).
              destruct (N.eq_dec a z) as [->|]; [left; split; auto|right; split; auto].
              ** destruct L as (n0' & L & <-). congruence.
              ** right. split; auto. apply linkL_del; auto. intros ->. apply NX. right; auto.
        -- split; [rewrite linkR_set; simpl; auto|]. rewrite !linkL_set. simpl. right. split; [auto|]. left; auto.
Qed.

(** Inserting. *)
Lemma insert_on_left_ring m r t x : ring m (r :: t) -> NoDup (x :: r :: t) -> hwf m ->
  exists m', insert_on_left m r x = Some m' /\ hwf m' /\ ring m' (r :: t ++ [x]) /\
    (forall k, hget m' k <> None <-> k = x \/ hget m k <> None).
Proof.
  intros R ND W. inversion ND as [|? ? NX ND']; subst. inversion ND' as [|? ? NR NT]; subst.
  assert (XR : x <> r) by (intros ->; apply NX; left; auto).
  unfold insert_on_left. destruct (rev_case t) as [->|(t' & z & ->)]; simpl in R.
  - destruct R as [(n1 & G & RX) (n2 & G2 & LX)]. rewrite G in G2. inversion G2; subst n2. rewrite G, LX.
    rewrite hget_set, N.eqb_refl. eexists. split; [reflexivity|]. split; [auto using hwf_set|]. split.
    + simpl. rewrite !linkR_set, !linkL_set. simpl. intuition auto.
    + intros k. rewrite !hget_set. destruct (N.eqb_spec k x); [intuition congruence|].
      destruct (N.eqb_spec k r) as [->|]; [rewrite G|]; intuition congruence.
  - apply seg_app in R as [S [RZ LR]].
    assert (RZN : r <> z) by (intros ->; apply NR, in_app_iff; right; left; auto).
    assert (XZ : x <> z) by (intros ->; apply NX; right; apply in_app_iff; right; left; auto).
    assert (NZ : ~ In z t') by (apply NoDup_remove_2 in NT; rewrite app_nil_r in NT; auto).
    destruct LR as (nr & G & LR). rewrite G, LR, hget_set.
    destruct RZ as (nz & GZ & _). destruct (N.eqb_spec z r); [congruence|]. rewrite GZ.
    eexists. split; [reflexivity|]. split; [auto using hwf_set|]. split.
    + change (seg (hset (hset (hset m r (CNode x (c_right nr))) z (CNode (c_left nz) x)) x (CNode z r)) r
        ((t' ++ [z]) ++ [x]) r). rewrite <- app_assoc. simpl. rewrite seg_app. split; [|simpl].
      * eapply seg_frame; [exact S| |].
        -- intros a b I L. rewrite !linkR_set. simpl.
           right. split; [intros ->; apply NX; destruct I as [->|I]; [left; auto|right; apply in_app_iff; auto]|].
           right. split; [intros ->; destruct I; [congruence|auto]|].
           destruct (N.eq_dec a r) as [->|]; [left|right]; split; auto.
           destruct L as (n0 & L & <-). congruence.
        -- intros a b I L. rewrite !linkL_set. simpl.
           right. split; [intros ->; apply NX; right; auto|].
           destruct (N.eq_dec a z) as [->|]; [left; split; auto; destruct L as (n0' & L & <-); congruence|].
           right. split; auto. right. split; auto. intros ->. auto.
      * rewrite !linkR_set, !linkL_set. simpl. intuition auto.
    + intros k. rewrite !hget_set. destruct (N.eqb_spec k x); [intuition congruence|].
      destruct (N.eqb_spec k z) as [->|]; [rewrite GZ; intuition congruence|].
      destruct (N.eqb_spec k r) as [->|]; [rewrite G|]; intuition congruence.
Qed.

Lemma flat_split l1 l2 r x : ~ In r (l1 ++ l2) ->
  flat_map (fun y => if (y =? r)%N then [x; y] else [y]) (l1 ++ r :: l2) = l1 ++ x :: r :: l2.
Proof.
  assert (B : forall l, ~ In r l -> flat_map (fun y => if (y =? r)%N then [x; y] else [y]) l = l).
  { induction l as [|y l IH]; simpl; auto. intros H. destruct (N.eqb_spec y r) as [->|]; [tauto|].
    simpl. rewrite IH; auto. }
  intros H. rewrite flat_map_app. simpl. rewrite N.eqb_refl. simpl.
  rewrite !B; auto; intros I; apply H, in_app_iff; auto.
Qed.

Lemma insert_rep c l r x : rep c l -> match r with Some r => In r l /\ r <> x | None => True end ->
  exists c', children_insert c r x = Some c' /\ rep c' (l_insert l r x).
Proof.
  intros H V. unfold children_insert, l_insert.
  assert (OE : oid_eqb r (Some x) = false).
  { destruct r as [r|]; auto. simpl. destruct (N.eqb_spec r x); tauto. }
  rewrite OE. destruct (remove_rep c l x H) as (c1 & -> & H1).
  assert (NX : ~ In x (l_remove l x)) by (rewrite l_remove_In; tauto).
  assert (VR : match r with Some r => In r (l_remove l x) | None => True end).
  { destruct r; auto. apply l_remove_In; auto. }
  revert H1 NX VR. generalize (l_remove l x). clear c H V OE l. intros l [W ND D F R] NX VR.
  destruct r as [r|].
  - destruct (in_split_first r l VR ND) as (l1 & l2 & -> & NI).
    rewrite (flat_split l1 l2 r x NI).
    assert (R' : ring (c_nodes c1) (r :: l2 ++ l1)) by (apply (ring_rot _ l1 (r :: l2)); auto).
    assert (ND2 : NoDup (x :: r :: l2 ++ l1)).
    { constructor; [|apply (NoDup_swap l1 (r :: l2)); auto].
      intros I. apply NX. apply in_app_iff. destruct I as [->|I]; [right; left; auto|].
      apply in_app_iff in I as [I|I]; [right; right; auto|auto]. }
    destruct (insert_on_left_ring _ _ _ _ R' ND2 W) as (m' & -> & W' & RM & DM).
    eexists. split; [reflexivity|]. constructor; simpl; auto.
    + apply (NoDup_swap (x :: r :: l2) l1). simpl. auto.
    + intros k. rewrite DM, D, !in_app_iff. simpl. intuition.
    + rewrite F. destruct l1 as [|y l1]; simpl; [rewrite N.eqb_refl; auto|].
      destruct (N.eqb_spec y r) as [->|]; auto. exfalso; apply NI; left; auto.
    + apply (ring_rot _ (x :: r :: l2) l1). apply (ring_rot _ (r :: l2 ++ l1) [x]). simpl.
      rewrite <- app_assoc in *. auto.
  - destruct l as [|y l]; rewrite F; simpl hd_error; cbv iota.
    + destruct (c_nodes c1) as [|[k n] m] eqn:Q.
      2:{ exfalso. assert (J : hget ((k, n) :: m) k <> None) by (simpl; rewrite N.eqb_refl; discriminate).
          apply D in J. destruct J. }
      eexists. split; [reflexivity|]. constructor; simpl; auto.
      * apply (hwf_set [] x); constructor.
      * repeat constructor; auto.
      * intros k. destruct (N.eqb_spec k x); intuition congruence.
      * unfold linkR, linkL. simpl. rewrite N.eqb_refl. split; eexists; split; eauto.
    + assert (ND2 : NoDup (x :: y :: l)) by (constructor; auto).
      destruct (insert_on_left_ring _ _ _ _ R ND2 W) as (m' & -> & W' & RM & DM).
      eexists. split; [reflexivity|]. constructor; auto.
      * apply (NoDup_swap [x] (y :: l)); auto.
      * intros k. simpl. rewrite DM, D, in_app_iff. simpl. intuition.
Qed.

(** ** C26 *)

Theorem C26_child_list ops : l_valid [] ops ->
  exists c, c_run children_new ops = Some c /\ childs c = Some (fold_left l_step ops []) /\
    NoDup (fold_left l_step ops []).
Proof.
  assert (B : forall ops c l, rep c l -> l_valid l ops ->
    exists c', c_run c ops = Some c' /\ rep c' (fold_left l_step ops l)).
  { clear. induction ops as [|o ops IH]; intros c l H V; simpl; [eauto|].
    destruct V as [V0 V]. destruct o as [r x|x]; simpl in V.
    - destruct (insert_rep c l r x H V0) as (c1 & -> & H1). eauto.
    - destruct (remove_rep c l x H) as (c1 & -> & H1). eauto. }
  intros V. destruct (B ops _ _ rep_new V) as (c & X & H). exists c.
  split; auto. split; [apply rep_childs; auto|apply H].
Qed.

(** The specification means what the words say: the child is directly before the reference, or last, all
    others keep their order. *)
Lemma l_insert_before l r x : NoDup l -> In r l -> r <> x ->
  exists l1 l2, l_insert l (Some r) x = l1 ++ x :: r :: l2 /\ l_remove l x = l1 ++ r :: l2.
Proof.
  intros ND I N. assert (I' : In r (l_remove l x)) by (apply l_remove_In; auto).
  assert (ND' : NoDup (l_remove l x)) by (apply NoDup_filter; auto).
  destruct (in_split_first r _ I' ND') as (l1 & l2 & Q & NI). exists l1, l2. simpl.
  rewrite Q, flat_split; auto.
Qed.

Example C26_example :
  let ops := [LInsert None 4; LInsert None 5; LInsert (Some 5) 6; LInsert (Some 4) 7; LInsert (Some 7) 5;
              LRemove 4; LInsert None 7]%N in
  l_valid [] ops /\ fold_left l_step ops [] = [5; 6; 7]%N.
Proof. simpl. intuition; discriminate. Qed.

(** ** C28 *)

Section Attributes.
  Context {T : Type}.
  Variable teqb : T -> T -> bool.
  Hypothesis teqb_spec : forall a b, reflect (a = b) (teqb a b).

  Lemma teqb_refl a : teqb a a = true.
  Proof. destruct (teqb_spec a a); congruence. Qed.

  Definition assign (ws : list (T * T)) : omap T :=
    fold_left (fun m w => omap_set teqb m (fst w) (snd w)) ws omap_new.

  Lemma last_writes_snoc l k v :
    last_writes teqb (l ++ [(k, v)]) =
    filter (fun e => negb (teqb k (fst e))) (last_writes teqb l) ++ [(k, v)].
  Proof.
    induction l as [|[k' v'] l IH]; [reflexivity|]. simpl. rewrite existsb_app. simpl. rewrite orb_false_r.
    destruct (existsb (fun e => teqb k' (fst e)) l) eqn:Q; simpl; [rewrite IH; auto|].
    destruct (teqb_spec k' k) as [->|N]; simpl.
    - rewrite teqb_refl. simpl. rewrite IH; auto.
    - destruct (teqb_spec k k'); [congruence|]. simpl. rewrite IH; auto.
  Qed.

  Lemma tget_set m k v k' : tget teqb (tset teqb m k v) k' = if teqb k' k then Some v else tget teqb m k'.
  Proof.
    simpl. destruct (teqb_spec k' k) as [->|N]; auto.
    induction m as [|[x a] m IH]; simpl; auto. destruct (teqb_spec k x) as [->|N']; simpl.
    - rewrite IH. destruct (teqb_spec k' x); congruence.
    - rewrite IH; auto.
  Qed.

  Lemma iter_eq m : omap_iter teqb m =
    fold_right (fun key acc => match tget teqb (o_data m) key, acc with
                               | Some v, Some l => Some ((key, v) :: l) | _, _ => None end) (Some []) (o_order m).
  Proof. reflexivity. Qed.

  Lemma iter_spec data : forall order l, fold_right (fun key acc => match tget teqb data key, acc with
      | Some v, Some l => Some ((key, v) :: l) | _, _ => None end) (Some []) order = Some l <->
    map fst l = order /\ (forall e, In e l -> tget teqb data (fst e) = Some (snd e)).
  Proof.
    induction order as [|k order IH]; intros l; simpl.
    - split; [intros Q; inversion Q; simpl; tauto|]. intros [Q _]. destruct l; [auto|discriminate].
    - split.
      + destruct (tget teqb data k) as [v|] eqn:G; [|discriminate].
        destruct (fold_right _ _ order) as [l'|] eqn:X; [|discriminate]. intros Q. inversion Q; subst. simpl.
        destruct (proj1 (IH l') eq_refl) as [A B]. split; [congruence|]. intros e [<-|I]; auto.
      + intros [Q H]. destruct l as [|[k' v] l]; [discriminate|]. simpl in Q. inversion Q; subst.
        change k with (fst (k, v)) at 1. rewrite (H (k, v)) by (left; auto). rewrite (proj2 (IH l)); auto. split; auto.
        intros e I; apply H; right; auto.
  Qed.

  (** After any sequence of assignments [get_iter] yields each attribute once, with its last value, in the
      order of the last assignments. *)
  Theorem C28_attributes ws :
    omap_iter teqb (assign ws) = Some (last_writes teqb ws) /\ NoDup (map fst (last_writes teqb ws)).
  Proof.
    assert (B : forall ws, omap_iter teqb (assign ws) = Some (last_writes teqb ws)).
    { induction ws0 as [|[k v] ws0 IH] using rev_ind; [reflexivity|].
      unfold assign. rewrite fold_left_app. fold (assign ws0). simpl.
      rewrite last_writes_snoc. revert IH. generalize (assign ws0) (last_writes teqb ws0). intros m l IH.
      apply iter_spec in IH as [A IH]. apply iter_spec. unfold omap_set. rewrite tget_set, teqb_refl. cbn [o_order o_data].
      split.
      - rewrite map_app. simpl. f_equal. rewrite <- A. clear. induction l as [|[x y] l IH]; simpl; auto.
        destruct (teqb k x); simpl; congruence.
      - intros e I. rewrite tget_set. apply in_app_iff in I as [I|[<-|[]]]; [|simpl; rewrite teqb_refl; auto].
        apply filter_In in I as [I Q]. destruct (teqb_spec (fst e) k) as [E1|]; auto.
        rewrite E1, teqb_refl in Q. discriminate. }
    split; auto. clear B. induction ws as [|[k v] ws IH]; simpl; [constructor|].
    destruct (existsb _ ws) eqn:Q; auto. simpl. constructor; auto. intros I.
    apply in_map_iff in I as ([k' v'] & <- & I). simpl in Q.
    assert (J : existsb (fun e => teqb k' (fst e)) ws = true); [|congruence].
    apply existsb_exists. clear - I teqb_spec. revert I.
    induction ws as [|[a b] ws IH]; simpl; [tauto|].
    destruct (existsb (fun e => teqb a (fst e)) ws); intros I.
    - destruct (IH I) as (x & X1 & X2); eauto.
    - destruct I as [I|I]; [inversion I; subst; exists (k', v'); simpl; rewrite teqb_refl; auto|].
      destruct (IH I) as (x & X1 & X2); eauto.
  Qed.
End Attributes.

Example C28_example :
  last_writes N.eqb [(1, 10); (2, 20); (1, 11); (3, 30); (2, 21)]%N = [(1, 11); (3, 30); (2, 21)]%N /\
  omap_iter N.eqb (assign N.eqb [(1, 10); (2, 20); (1, 11); (3, 30); (2, 21)]%N) =
    Some [(1, 11); (3, 30); (2, 21)]%N.
Proof. split; reflexivity. Qed.

Print Assumptions C26_child_list.
Print Assumptions C28_attributes.
