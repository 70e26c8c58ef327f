(** C38 for the elements of a program, and C55: what an element registered for
    its suspense attribute is released when the element is dropped (refuted:
    the registered closure keeps alive the object whose drop would remove it). *)
From Coq Require Import NArith PeanoNat List Bool Lia Sorted.
From Verif Require Import SuspenseModel SuspenseProps.
Import ListNotations.
Local Open Scope N_scope.
Local Open Scope list_scope.

(** ** Programs *)

(** Was [x] created? *)
Fixpoint made (past : list ecall) (x : N) : bool :=
  match past with
  | [] => false
  | ENew y _ :: r => (y =? x) || made r x
  | _ :: r => made r x
  end.

(** Was [x] created, and not dropped? *)
Fixpoint alive (past : list ecall) (x : N) : bool :=
  match past with
  | [] => false
  | ENew y _ :: r => (y =? x) || alive r x
  | EDrop y :: r => if y =? x then false else alive r x
  | _ :: r => alive r x
  end.

(** What Rust lets a program do: ids are fresh (dom/dom_id.rs), and an element
    is used only while it is owned, hence dropped once. *)
Fixpoint lawful (past : list ecall) : Prop :=
  match past with
  | [] => True
  | ENew x _ :: r => made r x = false /\ lawful r
  | EAttach x _ :: r => alive r x = true /\ lawful r
  | ESuspense x _ :: r => alive r x = true /\ lawful r
  | EDrop x :: r => alive r x = true /\ lawful r
  end.

(** The callback of the layer [x] is still in the driver's map. *)
Definition held (s : estate) (x : N) : bool := is_some (mget x (s_cb (e_susp s))).

(** ** The callbacks in the map *)

Lemma refresh_held : forall s s' x, s_refresh s = Some s' ->
  is_some (mget x (s_cb s')) = is_some (mget x (s_cb s)).
Proof.
  intros s s' x; unfold s_refresh.
  destruct (np_refresh (s_conn s) (s_susp s)) as [susp|]; [|discriminate].
  destruct (np_refresh (s_conn s) (s_layer s)) as [layer|]; [|discriminate].
  pose proof (refresh_subs_get (s_conn s) susp (s_cb s) x) as G.
  destruct (refresh_subs (s_conn s) susp (s_cb s)) as [cbs calls]; cbn [fst] in G.
  intros [= <-]; cbn [s_cb]; rewrite G; destruct (mget x (s_cb s)); [|reflexivity].
  destruct (conn_parent (s_conn s) x); reflexivity.
Qed.

Lemma call_held : forall s o s' x, s_call s o = Some s' ->
  is_some (mget x (s_cb s')) =
  match o with
  | Layer l => if l =? x then true else is_some (mget x (s_cb s))
  | Unlayer l => if l =? x then false else is_some (mget x (s_cb s))
  | _ => is_some (mget x (s_cb s))
  end.
Proof.
  intros s o s' x H; destruct o as [y|y p|y|l|l]; cbn [s_call] in H.
  - unfold set_node_suspense in H; destruct (np_insert _ _ _); [|discriminate].
    rewrite (refresh_held _ _ _ H); reflexivity.
  - rewrite (refresh_held _ _ _ H); reflexivity.
  - unfold s_remove in H; destruct (np_remove (s_susp s) y); destruct (np_remove (s_layer s) y).
    destruct (_ || _); [rewrite (refresh_held _ _ _ H); reflexivity|injection H as <-; reflexivity].
  - unfold set_layer_callback in H; destruct (np_insert _ _ _); [|discriminate].
    rewrite (refresh_held _ _ _ H); cbn [s_cb]; rewrite mget_mset, N.eqb_sym; destruct (l =? x); reflexivity.
  - unfold remove_layer_callback in H; destruct (np_remove (s_layer s) l) as [q []].
    + rewrite (refresh_held _ _ _ H); cbn [s_cb]; rewrite mget_mdel, N.eqb_sym; destruct (l =? x); reflexivity.
    + injection H as <-; cbn [s_cb]; rewrite mget_mdel, N.eqb_sym; destruct (l =? x); reflexivity.
Qed.

(** ** The reference counts *)

Definition flag (b : bool) : nat := if b then 1 else 0.

Record einv (past : list ecall) (s : estate) : Prop := {
  ei_none : forall x, mget x (e_class s) = None -> held s x = false /\ alive past x = false;
  ei_some : forall x c, mget x (e_class s) = Some c ->
    made past x = true /\ e_refs c = (flag (alive past x) + flag (held s x))%nat /\
    (0 < e_refs c)%nat /\ (held s x = true -> e_drop c = true)
}.

(** [class_release] with the owner or the closure gone, other elements kept. *)
Lemma release_other : forall s x s' y, class_release s x = Some s' -> y <> x ->
  mget y (e_class s') = mget y (e_class s) /\ held s' y = held s y.
Proof.
  intros s x s' y H Ne; apply N.eqb_neq in Ne; unfold class_release in H.
  destruct (mget x (e_class s)) as [c|]; [|injection H as <-; auto].
  destruct (e_refs c) as [|[|n]]; [injection H as <-; auto| |].
  - destruct (e_drop c).
    + destruct (remove_layer_callback (e_susp s) x) as [ss|] eqn:E; [|discriminate].
      injection H as <-; cbn [e_class]; unfold held; cbn [e_susp]; rewrite mget_mdel, Ne.
      rewrite (call_held _ (Unlayer x) _ y E), N.eqb_sym, Ne; auto.
    + injection H as <-; cbn [e_class]; rewrite mget_mdel, Ne; auto.
  - injection H as <-; cbn [e_class]; rewrite mget_mset, Ne; auto.
Qed.

(** Elements other than the one an operation is about. *)
Lemma ecall_other : forall s o s' y, e_call s o = Some s' ->
  match o with ENew x _ => x | EAttach x _ => x | ESuspense x _ => x | EDrop x => x end <> y ->
  mget y (e_class s') = mget y (e_class s) /\ held s' y = held s y.
Proof.
  assert (DL : forall s x s' y, drop_layer s x = Some s' -> y <> x ->
    mget y (e_class s') = mget y (e_class s) /\ held s' y = held s y).
  { intros s x s' y H Ne; unfold drop_layer in H.
    destruct (remove_layer_callback (e_susp s) x) as [ss|] eqn:E; [|discriminate].
    pose proof (call_held _ (Unlayer x) _ y E) as K; cbn beta iota in K.
    rewrite N.eqb_sym in K; rewrite (proj2 (N.eqb_neq y x) Ne) in K.
    destruct (mget x (s_cb (e_susp s))).
    - destruct (release_other _ _ _ y H Ne) as [A B]; rewrite A, B; unfold held; cbn [e_susp e_class]; auto.
    - injection H as <-; unfold held; cbn [e_susp e_class]; auto. }
  intros s o s' y H Ne; destruct o as [x b|x p|x b|x]; cbn [e_call] in H.
  - unfold element_new in H. destruct b.
    + destruct (set_node_suspense (e_susp s) x) as [ss|] eqn:E; [|discriminate]. injection H as <-.
      unfold held; cbn [e_susp e_class]; rewrite mget_mset, N.eqb_sym, (proj2 (N.eqb_neq x y) Ne).
      rewrite (call_held _ (Loader x) _ y E); auto.
    + injection H as <-; unfold held; cbn [e_susp e_class]; rewrite mget_mset, N.eqb_sym, (proj2 (N.eqb_neq x y) Ne); auto.
  - destruct (set_parent (e_susp s) x p) as [ss|] eqn:E; [|discriminate]. injection H as <-.
    unfold held; cbn [e_susp e_class]; rewrite (call_held _ (Attach x p) _ y E); auto.
  - assert (Ne' : y <> x) by congruence. pose proof (proj2 (N.eqb_neq y x) Ne') as Nb.
    destruct b; [unfold set_suspense_some in H|unfold set_suspense_none in H];
      (destruct (mget x (e_class s)) as [c|]; [|injection H as <-; auto]).
    + destruct (set_layer_callback (e_susp s) x) as [ss|] eqn:E; [|discriminate].
      pose proof (call_held _ (Layer x) _ y E) as K; cbn beta iota in K; rewrite N.eqb_sym, Nb in K.
      destruct (e_drop c).
      * destruct (DL _ _ _ y H Ne') as [A B]; rewrite A, B; unfold held; cbn [e_susp e_class]; rewrite mget_mset, Nb; auto.
      * injection H as <-; unfold held; cbn [e_susp e_class]; rewrite mget_mset, Nb; auto.
    + destruct (e_drop c).
      * destruct (DL _ _ _ y H Ne') as [A B]; rewrite A, B; unfold held; cbn [e_susp e_class]; rewrite mget_mset, Nb; auto.
      * injection H as <-; unfold held; cbn [e_susp e_class]; rewrite mget_mset, Nb; auto.
  - unfold element_drop in H; destruct (s_remove (e_susp s) x) as [ss|] eqn:E; [|discriminate].
    assert (Ne' : y <> x) by congruence.
    destruct (release_other _ _ _ y H Ne') as [A B]; rewrite A, B; unfold held; cbn [e_susp e_class].
    rewrite (call_held _ (Remove x) _ y E); auto.
Qed.

(** What one operation does to the element it is about. *)
Lemma ecall_self : forall past s o s' x, einv past s -> lawful (o :: past) -> e_call s o = Some s' ->
  match o with ENew x _ => x | EAttach x _ => x | ESuspense x _ => x | EDrop x => x end = x ->
  match o with
  | ENew _ _ => mget x (e_class s') = Some (EClass 1 false) /\ held s' x = false
  | EAttach _ _ => mget x (e_class s') = mget x (e_class s) /\ held s' x = held s x
  | ESuspense _ true => exists c, mget x (e_class s) = Some c /\
      held s' x = negb (e_drop c) /\ mget x (e_class s') = Some (EClass (1 + flag (negb (e_drop c))) true)
  | ESuspense _ false => exists c, mget x (e_class s) = Some c /\
      held s' x = false /\ mget x (e_class s') = Some (EClass 1 false)
  | EDrop _ =>
      held s' x = held s x /\
      if held s x then mget x (e_class s') = Some (EClass 1 true) else mget x (e_class s') = None
  end.
Proof.
  intros past s o s' x [En Es] W H E.
  assert (RM : forall ss ss' y, remove_layer_callback ss y = Some ss' -> is_some (mget y (s_cb ss')) = false).
  { intros ss ss' y R; rewrite (call_held _ (Unlayer y) _ y R), N.eqb_refl; reflexivity. }
  destruct o as [y b|y p|y b|y]; cbn beta iota in E; subst y; cbn [e_call lawful] in H, W; destruct W as [W _].
  - assert (N0 : held s x = false).
    { destruct (mget x (e_class s)) as [c|] eqn:M; [|apply En; exact M].
      destruct (Es _ _ M) as (A & _); congruence. }
    unfold element_new in H; destruct b.
    + destruct (set_node_suspense (e_susp s) x) as [ss|] eqn:Q; [|discriminate]. injection H as <-.
      unfold held in *; cbn [e_susp e_class]; rewrite mget_mset, N.eqb_refl, (call_held _ (Loader x) _ x Q); auto.
    + injection H as <-; unfold held in *; cbn [e_susp e_class]; rewrite mget_mset, N.eqb_refl; auto.
  - destruct (set_parent (e_susp s) x p) as [ss|] eqn:Q; [|discriminate]. injection H as <-.
    unfold held; cbn [e_susp e_class]; rewrite (call_held _ (Attach x p) _ x Q); auto.
  - destruct (mget x (e_class s)) as [c|] eqn:M; [|destruct (En _ M); congruence].
    destruct (Es _ _ M) as (_ & Rf & Pos & Dr); rewrite W in Rf; cbn [flag] in Rf.
    destruct b; [unfold set_suspense_some in H|unfold set_suspense_none in H]; rewrite M in H; exists c;
      (split; [reflexivity|]).
    + destruct (set_layer_callback (e_susp s) x) as [ss|] eqn:Q; [|discriminate].
      pose proof (call_held _ (Layer x) _ x Q) as K; cbn beta iota in K; rewrite N.eqb_refl in K.
      unfold held in Rf, Dr.
      destruct (e_drop c) eqn:Dc; cbn [negb flag].
      * unfold drop_layer in H; cbn [e_susp e_class] in H.
        destruct (mget x (s_cb ss)) as [v|] eqn:Mv; [|discriminate].
        destruct (remove_layer_callback ss x) as [s2|] eqn:R; [|discriminate].
        pose proof (RM _ _ _ R) as Fr.
        unfold class_release in H; cbn [e_class] in H; rewrite mget_mset, N.eqb_refl in H; cbn [e_refs e_drop] in H.
        assert (R2 : (if match mget x (s_cb (e_susp s)) with Some _ => true | None => false end
                      then e_refs c else S (e_refs c)) = 2%nat).
        { unfold is_some in Rf; destruct (mget x (s_cb (e_susp s))); cbn [flag] in Rf; lia. }
        rewrite R2 in H; injection H as <-. unfold held; cbn [e_susp e_class]; rewrite Fr.
        split; [reflexivity|]. rewrite mget_mset, N.eqb_refl; reflexivity.
      * injection H as <-; unfold held; cbn [e_susp e_class]; rewrite K; split; [reflexivity|].
        rewrite mget_mset, N.eqb_refl; do 2 f_equal.
        unfold is_some in Rf, Dr; destruct (mget x (s_cb (e_susp s))) as [v|]; [specialize (Dr eq_refl); discriminate|].
        cbn [flag] in Rf; rewrite Rf; reflexivity.
    + unfold held in Rf, Dr.
      destruct (e_drop c) eqn:Dc.
      * unfold drop_layer in H; cbn [e_susp e_class] in H.
        destruct (remove_layer_callback (e_susp s) x) as [s2|] eqn:R; [|discriminate].
        pose proof (RM _ _ _ R) as Fr.
        destruct (mget x (s_cb (e_susp s))) as [v|] eqn:Mv; cbn [is_some flag] in Rf.
        -- unfold class_release in H; cbn [e_class] in H; rewrite mget_mset, N.eqb_refl in H; cbn [e_refs e_drop] in H.
           rewrite Rf in H; cbn [Nat.add] in H; injection H as <-.
           unfold held; cbn [e_susp e_class]; rewrite Fr, mget_mset, N.eqb_refl; auto.
        -- injection H as <-; unfold held; cbn [e_susp e_class]; rewrite Fr, mget_mset, N.eqb_refl, Rf; auto.
      * injection H as <-; unfold held; cbn [e_susp e_class]; rewrite mget_mset, N.eqb_refl.
        destruct (mget x (s_cb (e_susp s))) as [v|]; [specialize (Dr eq_refl); discriminate|].
        cbn [is_some flag] in Rf; rewrite Rf; auto.
  - destruct (mget x (e_class s)) as [c|] eqn:M; [|destruct (En _ M); congruence].
    destruct (Es _ _ M) as (_ & Rf & Pos & Dr); rewrite W in Rf; cbn [flag] in Rf.
    unfold element_drop in H; destruct (s_remove (e_susp s) x) as [ss|] eqn:Q; [|discriminate].
    pose proof (call_held _ (Remove x) _ x Q) as K; cbn beta iota in K.
    unfold class_release in H; cbn [e_class e_susp] in H; rewrite M in H.
    unfold held in *; destruct (is_some (mget x (s_cb (e_susp s)))) eqn:Hd; cbn [flag] in Rf; rewrite Rf in H; cbn [Nat.add] in H.
    + injection H as <-; cbn [e_susp e_class]; rewrite K, mget_mset, N.eqb_refl, (Dr eq_refl); auto.
    + destruct (e_drop c).
      * destruct (remove_layer_callback ss x) as [s2|] eqn:R; [|discriminate]. injection H as <-.
        cbn [e_susp e_class]; rewrite (RM _ _ _ R), mget_mdel, N.eqb_refl; auto.
      * injection H as <-; cbn [e_susp e_class]; rewrite K, mget_mdel, N.eqb_refl; auto.
Qed.

Lemma einv_step : forall past s o s', einv past s -> lawful (o :: past) -> e_call s o = Some s' -> einv (o :: past) s'.
Proof.
  intros past s o s' I W H.
  set (x := match o with ENew x _ => x | EAttach x _ => x | ESuspense x _ => x | EDrop x => x end).
  assert (Oth : forall y, x <> y -> mget y (e_class s') = mget y (e_class s) /\ held s' y = held s y /\
                made (o :: past) y = made past y /\ alive (o :: past) y = alive past y).
  { intros y Ne; destruct (ecall_other _ _ _ y H Ne) as [A B]; split; [exact A|]; split; [exact B|].
    subst x; destruct o as [x b|x p|x b|x]; cbn [made alive]; try (split; reflexivity);
      rewrite (proj2 (N.eqb_neq x y) Ne); split; reflexivity. }
  pose proof (ecall_self _ _ _ _ x I W H eq_refl) as Self.
  destruct I as [En Es].
  constructor.
  - intros y M; destruct (N.eq_dec x y) as [<-|Ne].
    + subst x; destruct o as [x b|x p|x [|]|x]; cbn beta iota in Self; cbn [alive lawful] in *; destruct W as [W _].
      * destruct Self; congruence.
      * destruct Self as [A B]; rewrite B; rewrite A in M; exact (En _ M).
      * destruct Self as (c & _ & _ & A); congruence.
      * destruct Self as (c & _ & _ & A); congruence.
      * destruct Self as [A B]; rewrite N.eqb_refl; destruct (held s x); [congruence|auto].
    + destruct (Oth y Ne) as (A & B & C & D); rewrite A in M; rewrite B, D; exact (En _ M).
  - intros y c M; destruct (N.eq_dec x y) as [<-|Ne].
    + subst x; destruct o as [x b|x p|x [|]|x]; cbn beta iota in Self; cbn [alive made lawful] in *; destruct W as [W _].
      * destruct Self as [A B]; rewrite A in M; injection M as <-; rewrite B, N.eqb_refl; cbn; repeat split; auto; discriminate.
      * destruct Self as [A B]; rewrite B; rewrite A in M; exact (Es _ _ M).
      * destruct Self as (d & A & B & C); rewrite C in M; injection M as <-; rewrite B, W; destruct (Es _ _ A) as (Md & _).
        cbn [e_refs e_drop flag]; repeat split; auto; lia.
      * destruct Self as (d & A & B & C); rewrite C in M; injection M as <-; rewrite B, W; destruct (Es _ _ A) as (Md & _).
        cbn [e_refs e_drop flag]; repeat split; auto; try lia; discriminate.
      * destruct Self as [A B]; rewrite N.eqb_refl, A; destruct (held s x); [|congruence].
        rewrite B in M; injection M as <-; cbn [e_refs e_drop flag].
        destruct (mget x (e_class s)) as [d|] eqn:Md; [destruct (Es _ _ Md); repeat split; auto|destruct (En _ Md); congruence].
    + destruct (Oth y Ne) as (A & B & C & D); rewrite A in M; rewrite B, C, D; exact (Es _ _ M).
Qed.

Lemma e_calls_app : forall a b s, e_calls s (a ++ b) = match e_calls s a with Some s => e_calls s b | None => None end.
Proof.
  induction a as [|o a IH]; intros b s; cbn [app e_calls]; [reflexivity|].
  destruct (e_call s o); [apply IH|reflexivity].
Qed.

Lemma lawful_tail : forall o past, lawful (o :: past) -> lawful past.
Proof. intros [] past; cbn [lawful]; tauto. Qed.

Lemma einv_run : forall os s, lawful (rev os) -> e_calls e_new os = Some s -> einv (rev os) s.
Proof.
  induction os as [|o os IH] using rev_ind; intros s W H.
  - injection H as <-; constructor; [intros x _; split; reflexivity|intros x c M; discriminate].
  - rewrite rev_app_distr in W |- *; cbn [rev app] in W |- *.
    rewrite e_calls_app in H; destruct (e_calls e_new os) as [s1|]; [|discriminate]. cbn [e_calls] in H.
    destruct (e_call s1 o) as [s2|] eqn:E; [|discriminate]. injection H as <-.
    eapply einv_step; [apply IH; [exact (lawful_tail _ _ W)|reflexivity]|exact W|exact E].
Qed.

(** ** C55 *)

(** Once the callback of a layer is in the driver's map, nothing takes it out
    but another call of [suspense] on that element: in particular not the drop
    of the element. *)
Theorem C55_kept : forall os more s s' x,
  lawful (rev (os ++ more)) ->
  e_calls e_new os = Some s -> e_calls s more = Some s' ->
  held s x = true ->
  (forall on, ~ In (ESuspense x on) more) ->
  held s' x = true.
Proof.
  intros os more; revert os; induction more as [|o more IH]; intros os s s' x W H H' Hd Ni.
  - injection H' as <-; exact Hd.
  - cbn [e_calls] in H'; destruct (e_call s o) as [s1|] eqn:E; [|discriminate].
    assert (W' : lawful (rev ((os ++ [o]) ++ more))) by (rewrite <- app_assoc; exact W).
    assert (Wo : lawful (o :: rev os)).
    { rewrite rev_app_distr in W'; revert W'; generalize (rev more) as ms; rewrite rev_app_distr; cbn [rev app].
      induction ms as [|m ms IHm]; [auto|]. cbn [app]; intros Wm; apply IHm; exact (lawful_tail _ _ Wm). }
    apply (IH (os ++ [o]) s1 s' x W').
    + rewrite e_calls_app, H; cbn [e_calls]; rewrite E; reflexivity.
    + exact H'.
    + pose proof (einv_run _ _ (lawful_tail _ _ Wo) H) as I.
      destruct (N.eq_dec (match o with ENew x _ => x | EAttach x _ => x | ESuspense x _ => x | EDrop x => x end) x) as [Ex|Ne].
      * pose proof (ecall_self _ _ _ _ _ I Wo E Ex) as Self.
        destruct o as [y b|y p|y b|y]; cbn beta iota in Ex, Self; subst y; cbn [lawful] in Wo.
        -- destruct I as [En Es]; destruct (mget x (e_class s)) as [c|] eqn:M.
           ++ destruct (Es _ _ M); destruct Wo; congruence.
           ++ destruct (En _ M); congruence.
        -- destruct Self; congruence.
        -- exfalso; apply (Ni b); left; reflexivity.
        -- destruct Self; congruence.
      * destruct (ecall_other _ _ _ x E Ne) as [_ ->]; exact Hd.
    + intros on Hin; apply (Ni on); right; exact Hin.
Qed.

(** Hence the property fails for every element that set the attribute once:
    creating such elements and dropping them leaves a callback behind for
    each. *)
Theorem C55_refuted : exists os s x,
  lawful (rev os) /\ e_calls e_new os = Some s /\ made (rev os) x = true /\ alive (rev os) x = false /\
  held s x = true.
Proof.
  exists [ENew 1 false; ENew 2 false; ESuspense 2 true; EAttach 2 1; EDrop 1; EDrop 2]. eexists. exists 2.
  split; [cbn; tauto|]. split; [vm_compute; reflexivity|]. repeat split.
Qed.

(** [n] elements created and dropped one after the other: [n] callbacks are
    left. *)
Definition round (n : nat) : list ecall :=
  flat_map (fun i => [ENew (N.of_nat i) false; ESuspense (N.of_nat i) true; EDrop (N.of_nat i)]) (seq 0 n).

Theorem C55_grows : forall n s, e_calls e_new (round n) = Some s ->
  forall i, (i < n)%nat -> held s (N.of_nat i) = true.
Proof.
  assert (Md : forall n x, made (rev (round n)) x = (x <? N.of_nat n)).
  { induction n as [|n IH]; intros x; [destruct x; reflexivity|].
    unfold round in *; rewrite seq_S, flat_map_app, rev_app_distr; cbn [flat_map rev app made Nat.add]; rewrite IH.
    destruct (N.of_nat n =? x) eqn:E, (x <? N.of_nat n) eqn:L1, (x <? N.of_nat (S n)) eqn:L2; cbn; auto;
      rewrite ?N.ltb_lt, ?N.ltb_ge, ?N.eqb_eq, ?N.eqb_neq in *; lia. }
  assert (W : forall n, lawful (rev (round n))).
  { induction n as [|n IH]; [exact Logic.I|].
    pose proof (Md n (N.of_nat n)) as F; rewrite N.ltb_irrefl in F.
    unfold round in *; rewrite seq_S, flat_map_app, rev_app_distr; cbn [flat_map rev app lawful alive Nat.add].
    rewrite N.eqb_refl; cbn; auto. }
  assert (Sub : forall n x on, In (ESuspense x on) (round n) -> x < N.of_nat n).
  { intros n x on H; unfold round in H; apply in_flat_map in H; destruct H as (i & Hi & H).
    apply in_seq in Hi; cbn [In] in H; destruct H as [H|[H|[H|[]]]]; try discriminate. injection H as <- _; lia. }
  induction n as [|n IH]; intros s H i Hi; [lia|].
  assert (R : round (S n) = round n ++ [ENew (N.of_nat n) false; ESuspense (N.of_nat n) true; EDrop (N.of_nat n)]).
  { unfold round; rewrite seq_S, flat_map_app; cbn [flat_map Nat.add app]; reflexivity. }
  pose proof (W (S n)) as WS; rewrite R in H, WS.
  destruct (Nat.eq_dec i n) as [->|Ne].
  - (* the last one *)
    change [ENew (N.of_nat n) false; ESuspense (N.of_nat n) true; EDrop (N.of_nat n)]
      with ([ENew (N.of_nat n) false; ESuspense (N.of_nat n) true] ++ [EDrop (N.of_nat n)]) in H, WS.
    rewrite app_assoc in H, WS; rewrite e_calls_app in H.
    destruct (e_calls e_new (round n ++ _)) as [s1|] eqn:E1; [|discriminate].
    apply (C55_kept _ _ _ _ (N.of_nat n) WS E1 H).
    + rewrite e_calls_app in E1; destruct (e_calls e_new (round n)) as [s0|] eqn:E0; [|discriminate].
      cbn [e_calls] in E1; destruct (e_call s0 (ENew (N.of_nat n) false)) as [sa|] eqn:Ea; [|discriminate].
      destruct (e_call sa (ESuspense (N.of_nat n) true)) as [sb|] eqn:Eb; [|discriminate]. injection E1 as <-.
      assert (Wa : lawful (ESuspense (N.of_nat n) true :: ENew (N.of_nat n) false :: rev (round n))).
      { rewrite rev_app_distr in WS; cbn [rev app] in WS; rewrite rev_app_distr in WS; cbn [rev app] in WS.
        exact (lawful_tail _ _ WS). }
      pose proof (einv_run _ _ (W n) E0) as I0.
      pose proof (ecall_self _ _ _ _ _ I0 (lawful_tail _ _ Wa) Ea eq_refl) as S0; cbn beta iota in S0.
      pose proof (einv_step _ _ _ _ I0 (lawful_tail _ _ Wa) Ea) as I1.
      destruct (ecall_self _ _ _ _ _ I1 Wa Eb eq_refl) as (c & M & Hd & _).
      destruct S0 as [M' _]; rewrite M' in M; injection M as <-; exact Hd.
    + intros on [Q|[]]; discriminate.
  - rewrite e_calls_app in H; destruct (e_calls e_new (round n)) as [s0|] eqn:E0; [|discriminate].
    apply (C55_kept _ _ _ _ (N.of_nat i) WS E0 H); [apply IH; [reflexivity|lia]|].
    intros on [Q|[Q|[Q|[]]]]; try discriminate. injection Q as Q _; lia.
Qed.

Example C55_case : exists s, e_calls e_new (round 40) = Some s /\ length (s_cb (e_susp s)) = 40%nat.
Proof. eexists; split; vm_compute; reflexivity. Qed.

(** ** C38 for elements *)

(** The calls a program makes when no element calls [suspense] twice. *)
Definition calls_of (o : ecall) : list call :=
  match o with
  | ENew x true => [Loader x]
  | ENew x false => []
  | EAttach x p => [Attach x p]
  | ESuspense x _ => [Layer x]
  | EDrop x => [Remove x]
  end.

(** No element calls [suspense] twice, and none with [None]. *)
Fixpoint once (past : list ecall) : Prop :=
  match past with
  | [] => True
  | ESuspense x on :: r => on = true /\ (forall b, ~ In (ESuspense x b) r) /\ once r
  | _ :: r => once r
  end.

Lemma drop_flag : forall os s, lawful (rev os) -> once (rev os) -> e_calls e_new os = Some s ->
  forall x c, mget x (e_class s) = Some c -> e_drop c = true -> held s x = true /\ exists b, In (ESuspense x b) (rev os).
Proof.
  induction os as [|o os IH] using rev_ind; intros s W On H x c M D.
  - injection H as <-; discriminate.
  - pose proof H as H0; rewrite e_calls_app in H; destruct (e_calls e_new os) as [s1|] eqn:E1; [|discriminate].
    cbn [e_calls] in H; destruct (e_call s1 o) as [s2|] eqn:E; [|discriminate]. injection H as <-.
    rewrite rev_app_distr in W, On |- *; cbn [rev app] in W, On |- *.
    assert (On1 : once (rev os)) by (destruct o; cbn [once] in On; tauto).
    pose proof (lawful_tail _ _ W) as W1.
    specialize (IH s1 W1 On1 eq_refl x).
    destruct (N.eq_dec (match o with ENew x _ => x | EAttach x _ => x | ESuspense x _ => x | EDrop x => x end) x) as [Ex|Ne].
    + pose proof (ecall_self _ _ _ _ _ (einv_run _ _ W1 E1) W E Ex) as Self.
      destruct o as [y b|y p|y b|y]; cbn beta iota in Ex, Self; subst y.
      * destruct Self as [A _]; rewrite A in M; injection M as <-; discriminate.
      * destruct Self as [A B]; rewrite A in M; rewrite B; destruct (IH _ M D) as (Hd & b & I); split; [exact Hd|].
        exists b; right; exact I.
      * cbn [once] in On; destruct On as (-> & Ni & _). destruct Self as (d & Md & Hd & _).
        split; [|exists true; left; reflexivity].
        destruct (e_drop d) eqn:Dd; [|exact Hd]. destruct (IH _ Md Dd) as (_ & b & I); exfalso; exact (Ni b I).
      * destruct Self as [A B]; destruct (held s1 x) eqn:Hx; [|congruence]. split; [congruence|].
        pose proof (einv_run _ _ W1 E1) as [En Es].
        destruct (mget x (e_class s1)) as [d|] eqn:Md; [|destruct (En _ Md); congruence].
        destruct (Es _ _ Md) as (_ & _ & _ & Dr). destruct (IH _ eq_refl (Dr Hx)) as (_ & b & I).
        exists b; right; exact I.
    + destruct (ecall_other _ _ _ x E Ne) as [A B]; rewrite A in M; rewrite B.
      destruct (IH _ M D) as (Hd & b & I); split; [exact Hd|]. exists b; right; exact I.
Qed.

(** Such a program makes exactly these calls. *)
Theorem C38_calls_of : forall os s, lawful (rev os) -> once (rev os) -> e_calls e_new os = Some s ->
  s_calls s_new (flat_map calls_of os) = Some (e_susp s).
Proof.
  induction os as [|o os IH] using rev_ind; intros s W On H.
  - injection H as <-; reflexivity.
  - rewrite e_calls_app in H; destruct (e_calls e_new os) as [s1|] eqn:E1; [|discriminate].
    cbn [e_calls] in H; destruct (e_call s1 o) as [s2|] eqn:E; [|discriminate]. injection H as <-.
    rewrite rev_app_distr in W, On; cbn [rev app] in W, On.
    assert (On1 : once (rev os)) by (destruct o; cbn [once] in On; tauto).
    pose proof (lawful_tail _ _ W) as W1.
    rewrite flat_map_app, s_calls_app, (IH s1 W1 On1 eq_refl); cbn [flat_map]; rewrite app_nil_r.
    pose proof (drop_flag _ _ W1 On1 E1) as DF. pose proof (einv_run _ _ W1 E1) as [En Es].
    destruct o as [x b|x p|x b|x]; cbn [e_call calls_of lawful once] in *.
    + unfold element_new in E; destruct b; cbn [s_calls s_call].
      * destruct (set_node_suspense (e_susp s1) x); [|discriminate]. injection E as <-; reflexivity.
      * injection E as <-; reflexivity.
    + cbn [s_calls s_call]; destruct (set_parent (e_susp s1) x p); [|discriminate]. injection E as <-; reflexivity.
    + destruct On as (-> & Ni & _); unfold set_suspense_some in E; cbn [s_calls s_call].
      destruct (mget x (e_class s1)) as [c|] eqn:M; [|destruct (En _ M); destruct W; congruence].
      destruct (set_layer_callback (e_susp s1) x); [|discriminate].
      destruct (e_drop c) eqn:D; [destruct (DF _ _ M D) as (_ & b & I); exfalso; exact (Ni b I)|].
      injection E as <-; reflexivity.
    + unfold element_drop in E; cbn [s_calls s_call].
      destruct (s_remove (e_susp s1) x) as [ss|]; [|discriminate].
      unfold class_release in E; cbn [e_class e_susp] in E.
      destruct (mget x (e_class s1)) as [c|] eqn:M; [|injection E as <-; reflexivity].
      destruct (Es _ _ M) as (_ & Rf & _ & _); destruct W as [W _]; rewrite W in Rf.
      destruct (e_drop c) eqn:D.
      * destruct (DF _ _ M D) as (Hd & _); rewrite Hd in Rf; cbn [flag Nat.add] in Rf; rewrite Rf in E.
        injection E as <-; reflexivity.
      * destruct (e_refs c) as [|[|k]]; injection E as <-; reflexivity.
Qed.

(** C38 for a layer that set its attribute once: missing is the rest of
    [C38_partial], and elements that set it again ([C38_twice_refuted]). *)
Theorem C38_elements_partial : forall os s x p,
  lawful (rev os) -> once (rev os) -> e_calls e_new os = Some s ->
  settled (rev (flat_map calls_of os)) ->
  In (ESuspense x true) os ->
  parent_of (rev (flat_map calls_of os)) x = Some p ->
  exists b, told (s_log (e_susp s)) x = Some b /\
            (b = true <-> loading (rev (flat_map calls_of os)) p).
Proof.
  intros os s x p W On H St Hin P.
  apply (C38_partial (flat_map calls_of os) (e_susp s) x p); try assumption.
  - exact (C38_calls_of _ _ W On H).
  - assert (NU : forall l, ~ In (Unlayer l) (rev (flat_map calls_of os))).
    { intros l I; apply in_rev in I; apply in_flat_map in I; destruct I as (o & _ & I).
      destruct o as [? []| | |]; cbn in I; intuition discriminate. }
    assert (I : In (Layer x) (rev (flat_map calls_of os))).
    { rewrite <- in_rev; apply in_flat_map; exists (ESuspense x true); split; [exact Hin|left; reflexivity]. }
    revert NU I; generalize (rev (flat_map calls_of os)) as past.
    induction past as [|o past IHp]; intros NU I; [destruct I|].
    assert (NU' : forall l, ~ In (Unlayer l) past) by (intros l J; apply (NU l); right; exact J).
    destruct I as [->|I]; [cbn [subscribed]; rewrite N.eqb_refl; reflexivity|].
    specialize (IHp NU' I); destruct o; cbn [subscribed]; try exact IHp.
    + destruct (l =? x); [reflexivity|exact IHp].
    + exfalso; apply (NU l); left; reflexivity.
Qed.

(** The attribute is set twice; the layer is told nothing any more. *)
Theorem C38_twice_refuted : exists os s x p,
  lawful (rev os) /\ e_calls e_new os = Some s /\ settled (rev (flat_map calls_of os)) /\
  In (ESuspense x true) os /\ (forall on, In (ESuspense x on) os -> on = true) /\
  alive (rev os) x = true /\ parent_of (rev (flat_map calls_of os)) x = Some p /\
  loading (rev (flat_map calls_of os)) p /\ told (s_log (e_susp s)) x = Some false.
Proof.
  set (os := [ENew 1 false; ENew 2 false; ESuspense 2 true; ESuspense 2 true; EAttach 2 1; ENew 3 true; EAttach 3 1]).
  exists os. eexists. exists 2, 1. split; [cbn; tauto|]. split; [vm_compute; reflexivity|].
  assert (G : forall y, gone (rev (flat_map calls_of os)) y = false).
  { intros y; cbn [os flat_map calls_of app rev gone]. destruct (3 =? y); [reflexivity|]. destruct (2 =? y); reflexivity. }
  split; [intros x y _ _; apply G|]. split; [cbn; auto|].
  split; [cbn; intros on; intros [Q|[Q|[Q|[Q|[Q|[Q|[Q|[]]]]]]]]; congruence|].
  split; [reflexivity|]. split; [reflexivity|].
  split; [exists 3; split; [reflexivity|]; eapply upto_up; [reflexivity|constructor]|reflexivity].
Qed.

(** A layer set once, beside a loading element that comes and goes. *)
Example C38_elements_case :
  let os := [ENew 1 false; ENew 2 false; ESuspense 2 true; EAttach 2 1; ENew 3 true; EAttach 3 1; EDrop 3;
             ENew 5 false; ENew 4 true; EAttach 4 5; EAttach 5 1] in
  exists s, lawful (rev os) /\ once (rev os) /\ e_calls e_new os = Some s /\
  settled (rev (flat_map calls_of os)) /\ In (ESuspense 2 true) os /\
  parent_of (rev (flat_map calls_of os)) 2 = Some 1 /\
  s_log (e_susp s) = [(2, false); (2, true); (2, false); (2, true)].
Proof.
  intros os; eexists. split; [cbn; tauto|].
  split; [cbn; split; [reflexivity|]; split; [|exact Logic.I]; intros b [Q|[Q|[]]]; discriminate|].
  split; [vm_compute; reflexivity|]. split; [|split; [cbn; auto|split; reflexivity]].
  intros x y L U; cbn [os flat_map calls_of app rev loader] in L.
  assert (x = 4) by (destruct (4 =? x) eqn:E; [apply N.eqb_eq in E; congruence|]; destruct (3 =? x); discriminate).
  subst x; inversion U as [|a b c E U1]; subst; [reflexivity|]. cbn in E; injection E as <-.
  inversion U1 as [|a b c E U2]; subst; [reflexivity|]. cbn in E; injection E as <-.
  inversion U2 as [|a b c E U3]; subst; [reflexivity|]. cbn in E; discriminate.
Qed.
