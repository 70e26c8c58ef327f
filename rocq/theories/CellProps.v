(** C106: no code sees a reference that another one may change under it.

    The specification is the rule of the Rust reference (behavior considered undefined: breaking the pointer aliasing rules): while a [&mut T] is in use there is no
    other reference to the same place, while a [&T] is in use there is no [&mut T].  It reads the references a run makes and gives up, in order. *)
From Coq Require Import List NArith Bool.
From Verif Require Import CellModel.
Import ListNotations.
Local Open Scope list_scope.

(** ** Specification *)

(** A reference is made; the last one is given up. *)
Inductive event := Open (k : kind) (c : N) | Close.
(** What a run does. *)
Fixpoint run1 (a : act) : list event := match a with Acc k c body => Open k c :: flat_map run1 body ++ [Close] end.
Definition run (p : code) : list event := flat_map run1 p.
(** Two references to one place. *)
Definition compatible (k k1 : kind) : Prop := k = Shared /\ k1 = Shared.
(** The references in use allow a list of events. *)
Inductive allowed : list (kind * N) -> list event -> Prop :=
| al_nil : allowed [] []
| al_open refs k c t : (forall k1, In (k1, c) refs -> compatible k k1) -> allowed ((k, c) :: refs) t -> allowed refs (Open k c :: t)
| al_close r refs t : allowed refs t -> allowed (r :: refs) (Close :: t).
Definition sound (p : code) : Prop := allowed [] (run p).

(** Somewhere in the code there is an access of the kind [k] to the cell [c]. *)
Inductive accesses (k : kind) (c : N) : code -> Prop :=
| ac_here b p q : accesses k c (p ++ Acc k c b :: q)
| ac_in k1 c1 b p q : accesses k c b -> accesses k c (p ++ Acc k1 c1 b :: q).
Definition leaves (c : N) (p : code) : Prop := forall k, ~ accesses k c p.
Definition reads (c : N) (p : code) : Prop := ~ accesses Mut c p.

(** Programs of the application in which clone, eq, drop and what the library calls while it holds a reference leave the cell of that reference alone (clone may read
    it).  No such condition on closures: those of [change], of computed values, of subscribers, of [AutoMap], of listeners, of connected values, of callbacks.  The one
    registered for one call keeps its own cell apart from the store. *)
Inductive fair : code -> Prop :=
| fa_nil : fair []
| fa_app p q : fair p -> fair q -> fair (p ++ q)
| fa_get c clone : fair clone -> reads c clone -> fair (value_get c clone)
| fa_set c drop refreshed : fair drop -> leaves c drop -> fair refreshed -> fair (value_set c drop refreshed)
| fa_compare c eq drop refreshed : fair eq -> leaves c eq -> fair drop -> leaves c drop -> fair refreshed -> fair (value_compare c eq drop refreshed)
| fa_change c clone f drop refreshed : fair clone -> reads c clone -> fair f -> fair drop -> leaves c drop -> fair refreshed -> fair (value_change c clone f drop refreshed)
| fa_hit c clone : fair clone -> reads c clone -> fair (computed_hit c clone)
| fa_miss c compute clone drop : fair compute -> fair clone -> fair drop -> leaves c drop -> fair (computed_miss c compute clone drop)
| fa_clear c drop : fair drop -> leaves c drop -> fair (computed_clear c drop)
| fa_sub prev box read clone eq drop call dropped : fair read -> fair clone -> fair eq -> leaves prev eq -> fair drop -> leaves prev drop -> fair call ->
    fair dropped -> leaves box dropped -> fair (subscriber prev box read clone eq drop call dropped)
| fa_sub_all box read call dropped : fair read -> fair call -> fair dropped -> leaves box dropped -> fair (subscriber_all box read call dropped)
| fa_value c render dropped : fair render -> fair dropped -> leaves c dropped -> fair (value_run c render dropped)
| fa_marker c mount dropped : fair mount -> fair dropped -> leaves c dropped -> fair (marker_mount c mount dropped)
| fa_task c poll dropped : fair poll -> leaves c poll -> fair dropped -> leaves c dropped -> fair (task_run c poll dropped)
| fa_list c reorder : fair reorder -> leaves c reorder -> fair (list_run c reorder)
| fa_map_hit c eq clone : fair eq -> reads c eq -> fair clone -> reads c clone -> fair (map_hit c eq clone)
| fa_map_miss c eq create clone drop : fair eq -> leaves c eq -> fair create -> fair clone -> fair drop -> fair (map_miss c eq create clone drop)
| fa_trigger c callbacks : fair callbacks -> fair (emitter_trigger c callbacks)
| fa_unlisten c dropped : fair dropped -> fair (emitter_drop c dropped)
| fa_connect c d connect dropped : fair connect -> fair dropped -> fair (connect_value c d connect dropped)
| fa_disconnect c dropped : fair dropped -> fair (disconnect_value c dropped)
| fa_call c f : fair f -> fair (callback_call c f)
| fa_once c d f dropped : c <> d -> fair f -> fair dropped -> fair (callback_once c d f dropped)
| fa_class cls : fair (set_class cls)
| fa_event susp called : fair (refresh_paths called) -> leaves susp (refresh_paths called) -> fair (suspense_event susp called)
| fa_unsuspense cls susp called : fair (refresh_paths called) -> leaves susp (refresh_paths called) -> leaves cls (remove_layer_callback susp called) ->
    fair (clear_suspense_attr cls susp (Some called)).

(** ** Proofs *)

Lemma act_ind2 (P : act -> Prop) : (forall k c body, Forall P body -> P (Acc k c body)) -> forall a, P a.
Proof.
  intros H. fix F 1. intros [k c body]. apply H. induction body as [|a t IH]; constructor; [apply F|exact IH].
Qed.

(** The same rule on trees. *)
Inductive calm : list (kind * N) -> code -> Prop :=
| ca_nil refs : calm refs []
| ca_cons refs k c body t : (forall k1, In (k1, c) refs -> compatible k k1) -> calm ((k, c) :: refs) body -> calm refs t -> calm refs (Acc k c body :: t).

Lemma calm_app refs p q : calm refs (p ++ q) <-> calm refs p /\ calm refs q.
Proof.
  induction p as [|[k c b] t IH]; cbn; [split; [intros H; split; [constructor|exact H]|intros (_ & H); exact H]|]. split.
  - intros H. inversion H as [|r1 k1 c1 b1 t1 A B C]; subst. apply IH in C as (C1 & C2). split; [constructor|]; auto.
  - intros (H & Q). inversion H as [|r1 k1 c1 b1 t1 A B C]; subst. constructor; auto. apply IH. auto.
Qed.

Lemma run1_iff a : forall refs t, allowed refs (run1 a ++ t) <-> calm refs [a] /\ allowed refs t.
Proof.
  induction a as [k c body IH] using act_ind2. intros refs t. cbn [run1].
  assert (forall refs t, allowed refs (flat_map run1 body ++ t) <-> calm refs body /\ allowed refs t) as B.
  { clear - IH. induction IH as [|a l Ha Hl IHl]; intros refs t; cbn [flat_map app].
    - split; [intros H; split; [constructor|exact H]|intros (_ & H); exact H].
    - rewrite <- app_assoc, Ha, IHl. change (a :: l) with ([a] ++ l). rewrite calm_app. tauto. }
  cbn [app]. rewrite <- app_assoc. cbn [app]. split.
  - intros H. inversion H as [|r1 k1 c1 t1 C A|]; subst. apply B in A as (A1 & A2). inversion A2; subst. split; [|assumption]. constructor; auto. constructor.
  - intros (H & A). inversion H as [|r1 k1 c1 b1 t1 C1 C2 C3]; subst. constructor; auto. apply B. split; auto. constructor. exact A.
Qed.
Lemma run_iff p : forall refs t, allowed refs (run p ++ t) <-> calm refs p /\ allowed refs t.
Proof.
  induction p as [|a p IH]; intros refs t; cbn.
  - split; [intros H; split; [constructor|exact H]|intros (_ & H); exact H].
  - rewrite <- app_assoc, run1_iff. change (flat_map run1 p) with (run p). rewrite IH. change (a :: p) with ([a] ++ p). rewrite calm_app. tauto.
Qed.
Lemma sound_iff p : sound p <-> calm [] p.
Proof. unfold sound. rewrite <- (app_nil_r (run p)), run_iff. split; [tauto|]. intros H. split; [exact H|constructor]. Qed.

Lemma accesses_app k c p q : accesses k c (p ++ q) <-> accesses k c p \/ accesses k c q.
Proof.
  split.
  - intros H. remember (p ++ q) as l eqn:E. destruct H as [b x y|k1 c1 b x y H].
    + symmetry in E. apply app_eq_app in E as (z & [(-> & E)|(-> & E)]).
      * destruct z as [|e z]; cbn in E; [right; rewrite <- E; apply (ac_here k c b [] y)|]. injection E as <- ->. left. constructor.
      * right. rewrite E. constructor.
    + symmetry in E. apply app_eq_app in E as (z & [(-> & E)|(-> & E)]).
      * destruct z as [|e z]; cbn in E; [right; rewrite <- E; apply (ac_in k c k1 c1 b [] y H)|]. injection E as <- ->. left. constructor. exact H.
      * right. rewrite E. constructor. exact H.
  - intros [H|H]; destruct H as [b x y|k1 c1 b x y H].
    + rewrite <- app_assoc. cbn. constructor.
    + rewrite <- app_assoc. cbn. constructor. exact H.
    + rewrite app_assoc. constructor.
    + rewrite app_assoc. constructor. exact H.
Qed.
Lemma accesses_one k c k1 c1 b : accesses k c [Acc k1 c1 b] <-> (k1 = k /\ c1 = c) \/ accesses k c b.
Proof.
  split.
  - intros H. remember [Acc k1 c1 b] as l eqn:E. destruct H as [b2 x y|k2 c2 b2 x y H]; destruct x as [|e x]; cbn in E; try (injection E as E1 E2; destruct x; discriminate).
    + injection E as -> -> -> ->. auto.
    + injection E as -> -> -> ->. auto.
  - intros [(-> & ->)|H]; [apply (ac_here k c b [] [])|apply (ac_in k c k1 c1 b [] []); exact H].
Qed.

(** What holds of the references in use for a piece of code. *)
Definition free (refs : list (kind * N)) (p : code) : Prop := forall k c, In (k, c) refs -> accesses Mut c p -> False.
Definition quiet (refs : list (kind * N)) (p : code) : Prop := forall c, In (Mut, c) refs -> leaves c p.
Definition good (refs : list (kind * N)) (p : code) : Prop := free refs p /\ quiet refs p.
Lemma good_app refs p q : good refs (p ++ q) <-> good refs p /\ good refs q.
Proof.
  unfold good, free, quiet, leaves. split.
  - intros (F & Q). split; (split; [intros k c I1 A; apply (F k c I1)|intros c I1 k A; apply (Q c I1 k)]); apply accesses_app; auto.
  - intros ((F1 & Q1) & (F2 & Q2)). split.
    + intros k c I1 A. apply accesses_app in A as [A|A]; eauto.
    + intros c I1 k A. apply accesses_app in A as [A|A]; eauto. exact (Q1 c I1 k A). exact (Q2 c I1 k A).
Qed.
Lemma good_one refs k c b : good refs [Acc k c b] -> (forall k1, In (k1, c) refs -> compatible k k1) /\ good refs b.
Proof.
  intros (F & Q). split; [|split].
  - intros k1 I1. destruct k.
    + destruct k1; [split; auto|]. exfalso. apply (Q c I1 Shared). apply accesses_one. auto.
    + exfalso. apply (F k1 c I1). apply accesses_one. auto.
  - intros k1 c1 I1 A. apply (F k1 c1 I1). apply accesses_one. auto.
  - intros c1 I1 k1 A. apply (Q c1 I1 k1). apply accesses_one. auto.
Qed.
Lemma calm_one refs k c b : good refs [Acc k c b] -> (good ((k, c) :: refs) b -> calm ((k, c) :: refs) b) ->
  reads c b -> (k = Mut -> leaves c b) -> calm refs [Acc k c b].
Proof.
  intros G H R L. destruct (good_one _ _ _ _ G) as (C & (F & Q)). constructor; [exact C| |constructor]. apply H. split.
  - intros k1 c1 [E|I1] A; [injection E as <- <-; exact (R A)|exact (F k1 c1 I1 A)].
  - intros c1 [E|I1]; [injection E as -> <-; auto|auto].
Qed.
Lemma leaves_reads c p : leaves c p -> reads c p.
Proof. intros L. apply L. Qed.
Lemma leaves_app c p q : leaves c p -> leaves c q -> leaves c (p ++ q).
Proof. intros A B k H. apply accesses_app in H as [H|H]; [exact (A k H)|exact (B k H)]. Qed.
Lemma reads_app c p q : reads c p -> reads c q -> reads c (p ++ q).
Proof. intros A B H. apply accesses_app in H as [H|H]; auto. Qed.
Lemma leaves_nil c : leaves c [].
Proof. intros k H. remember [] as l eqn:E. destruct H as [b x y|k1 c1 b x y H]; destruct x; discriminate. Qed.

Lemma calm_short refs k c p : good refs (Acc k c [] :: p) -> (good refs p -> calm refs p) -> calm refs (Acc k c [] :: p).
Proof.
  intros G H. apply (good_app refs [Acc k c []] p) in G as (G1 & G2). apply (calm_app refs [Acc k c []] p). split; [|auto].
  apply calm_one; auto; [constructor|apply leaves_reads|intros _]; apply leaves_nil.
Qed.

Lemma fair_calm p : fair p -> forall refs, good refs p -> calm refs p.
Proof.
  assert (N0 : forall refs, calm refs []) by constructor.
  induction 1; intros refs G;
    unfold value_change, value_set, value_compare, computed_miss, computed_hit, computed_clear, subscriber, subscriber_all, value_run, marker_mount, task_run, callback_once, callback_call, connect_value, disconnect_value, emitter_trigger, emitter_drop, list_run, map_hit, map_miss, suspense_event, clear_suspense_attr,
      value_get, set_and_check, value_mut_get, value_mut_set, value_mut_map, value_mut_change, set_class, value_mut_change in *;
    repeat match goal with
    | G : good _ (_ ++ _) |- _ => apply good_app in G as (? & ?)
    | |- calm _ (_ ++ _) => apply calm_app; split
    end; auto;
    try (apply calm_one; auto using leaves_reads, leaves_app, reads_app, leaves_nil; try discriminate; intros G1;
         repeat match goal with G : good _ (_ ++ _) |- _ => apply good_app in G as (? & ?) | |- calm _ (_ ++ _) => apply calm_app; split end; auto).
  - apply calm_short; auto.
  - apply calm_short; auto.
  - apply calm_short; auto.
  - apply accesses_one in G1 as [(_ & E)|A]; [congruence|exact (leaves_nil _ _ A)].
  - intros k A. apply accesses_one in A as [(_ & E)|A]; [congruence|exact (leaves_nil _ _ A)].
  - unfold remove_layer_callback in *. apply calm_one; auto using leaves_reads.
Qed.

(** *** C106, the part that holds.  Full statement: every program is sound.  Proved for fair programs; missing are those whose clone, eq, drop, hash, or code called for a
    list, touch the cell they are called for, and the attribute vertigo-suspense; both refuted below. *)
Theorem C106_fair_partial p : fair p -> sound p.
Proof.
  intros F. apply sound_iff. apply fair_calm; [exact F|]. split; [intros k c []|intros c []].
Qed.

(** Closures are called without a reference: whatever they do with the same cell is judged on its own. *)
Theorem C106_closures c clone f drop refreshed compute create eq : fair clone -> reads c clone -> fair drop -> leaves c drop -> fair refreshed -> fair eq -> leaves c eq ->
  (sound (value_change c clone f drop refreshed) <-> sound f) /\
  (sound (computed_miss c compute clone drop) <-> sound compute) /\
  (sound (map_miss c eq create clone drop) <-> sound create) /\
  (sound (value_run c f drop) <-> sound f) /\
  (forall read call, sound read -> (sound (subscriber_all c read call drop) <-> sound call)) /\
  (forall callbacks, sound (emitter_trigger c callbacks) <-> sound callbacks) /\
  (forall d connect, sound (connect_value d c connect drop) <-> sound connect) /\
  (forall g, sound (callback_call c g) <-> sound g).
Proof.
  intros Fc Rc Fd Ld Fr Fe Le. pose proof (C106_fair_partial _ (fa_get c clone Fc Rc)) as S1. pose proof (C106_fair_partial _ (fa_set c drop refreshed Fd Ld Fr)) as S2.
  pose proof (C106_fair_partial _ (fa_clear c drop Fd Ld)) as S3. pose proof (C106_fair_partial _ (fa_map_miss c eq [] clone drop Fe Le fa_nil Fc Fd)) as S4.
  pose proof (C106_fair_partial _ Fc) as S5. pose proof (C106_fair_partial _ (fa_hit c [] fa_nil (leaves_reads _ _ (leaves_nil c)))) as S6.
  unfold value_change, computed_miss, map_miss, computed_clear, computed_hit, value_run, subscriber_all, value_mut_set, value_mut_change in *.
  assert (forall k d q, calm [] (Acc k d [] :: q) <-> calm [] q) as Sq.
  { intros k d q. split; [intros H; inversion H; auto|intros H; constructor; [intros k1 []|constructor|exact H]]. }
  assert (forall k d, calm [] [Acc k d []] <-> True) as St.
  { intros k d. rewrite Sq. split; auto. constructor. }
  pose proof (C106_fair_partial _ Fd) as S7.
  split; [|split; [|split; [|split; [|split; [intros read call Sr|split; [|split]]]]]]; rewrite ?sound_iff in *;
    unfold emitter_trigger, connect_value, callback_call; try (rewrite ?calm_app in *; tauto).
  - intros callbacks. rewrite !sound_iff. apply Sq.
  - intros d connect. rewrite !sound_iff in *. rewrite !calm_app, !St. tauto.
  - intros g. rewrite !sound_iff, calm_app, St. tauto.
Qed.

(** The attribute vertigo-suspense: whenever it is set to a function, the callback that the library calls at once makes a second [&mut] to the class of the element while
    the first one is in use. *)
Theorem C106_suspense_refuted : forall cls susp css called previous, ~ sound (set_suspense_attr cls susp css called previous).
Proof.
  intros cls susp css called previous S0. apply sound_iff in S0. unfold set_suspense_attr, value_mut_change, set_layer_callback, suspense_callback in S0.
  inversion S0 as [|r k c b t _ S1 _]; subst. cbn [app] in S1. inversion S1 as [|r k c b t _ S2 _]; subst.
  rewrite !calm_app in S2. destruct S2 as ((_ & S2) & _). unfold value_mut_change in S2. inversion S2 as [|r k c b t C _ _]; subst.
  destruct (C Mut) as (E & _); [right; left; reflexivity|discriminate].
Qed.
(** A clone that sets the value it is a clone of; a drop that reads it; a comparison that reads it. *)
Theorem C106_hooks_refuted : forall c p,
  (accesses Mut c p -> ~ sound (value_get c p)) /\
  (forall k refreshed, accesses k c p -> ~ sound (value_set c p refreshed)) /\
  (forall k drop refreshed, accesses k c p -> ~ sound (value_compare c p drop refreshed)).
Proof.
  assert (forall k c p, accesses k c p -> forall refs k1, In (k1, c) refs -> calm refs p -> compatible k k1) as G.
  { intros k c p A. induction A as [b x y|k2 c2 b x y A IH]; intros refs k1 I1 H; apply calm_app in H as (_ & H); inversion H; subst; auto.
    apply (IH ((k2, c2) :: refs)); auto. right. exact I1. }
  assert (forall k k1 c p, accesses k c p -> calm [] [Acc k1 c p] -> compatible k k1) as G1.
  { intros k k1 c p A H. inversion H; subst. apply (G k c p A [(k1, c)]); auto. left. reflexivity. }
  intros c p. split; [|split].
  - intros A S0. apply sound_iff in S0. destruct (G1 _ _ _ _ A S0). discriminate.
  - intros k refreshed A S0. apply sound_iff in S0. apply calm_app in S0 as (S0 & _). destruct (G1 _ _ _ _ A S0). discriminate.
  - intros k drop refreshed A S0. apply sound_iff in S0. apply calm_app in S0 as (S0 & _).
    assert (accesses k c (p ++ drop)) as A1 by (apply accesses_app; auto). destruct (G1 _ _ _ _ A1 S0). discriminate.
Qed.

(** ** Examples *)

(** A value (cell 1) is changed by a function that reads and sets it; an item of a map (cell 2) is made by a function that uses the map; the item's drop reads the value. *)
Example C106_fair_case :
  let f := value_get 1 [] ++ value_set 1 [] [] in
  let create := map_hit 2 [] [] ++ map_miss 2 [] [] [] (value_get 1 []) in
  let p := value_change 1 [] f [] [] ++ map_miss 2 [] create [] (value_get 1 []) in
  fair p /\ accesses Mut 1 p /\ accesses Shared 2 p.
Proof.
  assert (forall c, leaves c []) as L by exact leaves_nil. assert (forall c, reads c []) as R by (intros c; apply leaves_reads; apply L).
  intros f create p. split; [|split].
  - repeat (first [apply fa_app | apply fa_change | apply fa_map_miss | apply fa_map_hit | apply fa_get | apply fa_set | apply fa_nil]; auto).
  - apply accesses_app. left. apply (ac_here Mut 1 [] (value_get 1 [] ++ value_get 1 []) _).
  - apply accesses_app. right. apply (ac_here Shared 2 [] [] _).
Qed.
(** A value whose drop reads the value, in safe Rust: for instance a [Value<Option<Rc<DropResource>>>] with a resource that reads it, when it is set to [None]. *)
Example C106_drop_case : accesses Shared 1 (value_get 1 []) /\ ~ sound (value_set 1 (value_get 1 []) []).
Proof.
  assert (accesses Shared 1 (value_get 1 [])) as A by (apply (ac_here Shared 1 [] [] [])). split; [exact A|].
  apply (proj1 (proj2 (C106_hooks_refuted 1 (value_get 1 []))) Shared). exact A.
Qed.
(** A change whose function gives an element a suspense attribute, and one whose function changes the value again. *)
Example C106_closures_case :
  ~ sound (value_change 1 [] (set_suspense_attr 2 3 [] [] None) (value_get 4 []) []) /\
  sound (value_change 1 [] (value_change 1 [] [] [] []) (value_get 4 []) []).
Proof.
  assert (forall c, leaves c []) as L by exact leaves_nil. assert (forall c, reads c []) as R by (intros c; apply leaves_reads; apply L).
  assert (leaves 1 (value_get 4 [])) as L4.
  { intros k H. apply accesses_one in H as [(_ & E)|H]; [discriminate|]. exact (L 1%N k H). }
  pose proof (fa_get 4 [] fa_nil (R 4%N)) as F4.
  split.
  - intros H. apply (proj1 (C106_closures 1 [] (set_suspense_attr 2 3 [] [] None) (value_get 4 []) [] [] [] [] fa_nil (R 1%N) F4 L4 fa_nil fa_nil (L 1%N))) in H.
    exact (C106_suspense_refuted _ _ _ _ _ H).
  - apply (proj1 (C106_closures 1 [] (value_change 1 [] [] [] []) (value_get 4 []) [] [] [] [] fa_nil (R 1%N) F4 L4 fa_nil fa_nil (L 1%N))).
    apply (proj1 (C106_closures 1 [] [] [] [] [] [] [] fa_nil (R 1%N) fa_nil (L 1%N) fa_nil fa_nil (L 1%N))). constructor.
Qed.
