(** C38: a suspense layer is told that something is loading exactly while a
    node <vertigo-suspense/> is mounted below the layer's parent.

    The layer is an element with the attribute [vertigo-suspense]; it lies
    beside the content it covers (demo/app/src/app/render.rs 166), so the
    boundary it watches is its parent.  The specification below is written
    over the calls the program made, newest first, and does not use the
    model. *)
From Coq Require Import NArith PeanoNat List Bool Lia Sorted Setoid.
From Verif Require Import SuspenseModel.
Import ListNotations.
Local Open Scope N_scope.
Local Open Scope list_scope.

(** ** Specification *)

(** The parent a node has now: the one of its last insertion, unless it was
    removed since. *)
Fixpoint parent_of (past : list call) (x : N) : option N :=
  match past with
  | [] => None
  | Attach y p :: r => if y =? x then Some p else parent_of r x
  | Remove y :: r => if y =? x then None else parent_of r x
  | _ :: r => parent_of r x
  end.

(** Is [x] a <vertigo-suspense/> that was created and not removed? *)
Fixpoint loader (past : list call) (x : N) : bool :=
  match past with
  | [] => false
  | Loader y :: r => if y =? x then true else loader r x
  | Remove y :: r => if y =? x then false else loader r x
  | _ :: r => loader r x
  end.

(** Was [x] removed, and not inserted again since? *)
Fixpoint gone (past : list call) (x : N) : bool :=
  match past with
  | [] => false
  | Attach y _ :: r => if y =? x then false else gone r x
  | Remove y :: r => if y =? x then true else gone r x
  | _ :: r => gone r x
  end.

(** Has the layer [l] set its callback, and not dropped it since? *)
Fixpoint subscribed (past : list call) (l : N) : bool :=
  match past with
  | [] => false
  | Layer y :: r => if y =? l then true else subscribed r l
  | Unlayer y :: r => if y =? l then false else subscribed r l
  | _ :: r => subscribed r l
  end.

(** [y] is [x] or one of the nodes above it. *)
Inductive upto (f : N -> option N) : N -> N -> Prop :=
| upto_here x : upto f x x
| upto_up x p y : f x = Some p -> upto f p y -> upto f x y.

(** Something is loading below [p]. *)
Definition loading (past : list call) (p : N) : Prop :=
  exists x, loader past x = true /\ upto (parent_of past) x p.

(** No loading node lies below (or is) a removed one.  While an element is
    being dropped it is removed before its children; at the end of the drop
    this holds again: see [C38_settled_after_drop]. *)
Definition settled (past : list call) : Prop :=
  forall x y, loader past x = true -> upto (parent_of past) x y -> gone past y = false.

(** The value the callback of [l] received last. *)
Fixpoint told (log : list (N * bool)) (l : N) : option bool :=
  match log with
  | [] => None
  | (k, v) :: r =>
      match told r l with
      | Some w => Some w
      | None => if k =? l then Some v else None
      end
  end.

(** The number of nodes above [x]. *)
Inductive depth (f : N -> option N) : N -> nat -> Prop :=
| depth_top x : f x = None -> depth f x 0
| depth_up x p n : f x = Some p -> depth f p n -> depth f x (S n).

(** ** Maps *)

Lemma mget_mset : forall {A} (m : list (N * A)) k v x,
  mget x (mset k v m) = if x =? k then Some v else mget x m.
Proof.
  induction m as [|[a w] m IH]; intros k v x; cbn [mset mget]; [reflexivity|].
  destruct (k =? a) eqn:Ka; [apply N.eqb_eq in Ka; subst a; cbn [mget]; destruct (x =? k); reflexivity|].
  destruct (k <? a); cbn [mget]; [reflexivity|].
  rewrite IH; destruct (x =? a) eqn:Xa; [|reflexivity].
  apply N.eqb_eq in Xa; subst; rewrite N.eqb_sym, Ka; reflexivity.
Qed.

Lemma mget_mdel : forall {A} (m : list (N * A)) k x,
  mget x (mdel k m) = if x =? k then None else mget x m.
Proof.
  induction m as [|[a w] m IH]; intros k x; cbn; [destruct (x =? k); reflexivity|].
  unfold mdel in IH |- *; cbn; destruct (k =? a) eqn:Ka; cbn.
  - rewrite IH; apply N.eqb_eq in Ka; subst; destruct (x =? a); reflexivity.
  - rewrite IH; destruct (x =? a) eqn:Xa; [|reflexivity].
    apply N.eqb_eq in Xa; subst; rewrite N.eqb_sym, Ka; reflexivity.
Qed.

Definition ordered {A} (m : list (N * A)) : Prop := StronglySorted N.lt (map fst m).

Lemma mset_keys : forall {A} (m : list (N * A)) k v x,
  In x (map fst (mset k v m)) -> x = k \/ In x (map fst m).
Proof.
  induction m as [|[a w] m IH]; intros k v x; cbn [mset map In fst]; [intuition|].
  destruct (k =? a) eqn:Ka; [cbn [map In fst]; apply N.eqb_eq in Ka; subst; intuition|].
  destruct (k <? a); cbn [map In fst]; [intuition|].
  intros [H|H]; [auto|]; destruct (IH _ _ _ H); auto.
Qed.

Lemma mset_ordered : forall {A} (m : list (N * A)) k v, ordered m -> ordered (mset k v m).
Proof.
  unfold ordered; induction m as [|[a w] m IH]; intros k v O; cbn [mset].
  { cbn; repeat constructor. }
  cbn [map fst] in O; apply StronglySorted_inv in O; destruct O as [O F].
  destruct (k =? a) eqn:Ka.
  { apply N.eqb_eq in Ka; subst; cbn [map fst]; constructor; auto. }
  destruct (k <? a) eqn:La; cbn [map fst].
  - apply N.ltb_lt in La; constructor; [constructor; auto|].
    constructor; [exact La|]. rewrite Forall_forall in F |- *; intros y Hy; specialize (F y Hy); lia.
  - apply N.ltb_ge in La; apply N.eqb_neq in Ka.
    constructor; [apply IH; exact O|].
    rewrite Forall_forall in F |- *; intros y Hy.
    destruct (mset_keys _ _ _ _ Hy) as [->|Hy']; [lia|exact (F y Hy')].
Qed.

Lemma mdel_keys : forall {A} (m : list (N * A)) k x, In x (map fst (mdel k m)) -> In x (map fst m).
Proof.
  intros A m k x H; apply in_map_iff in H; destruct H as ([a v] & <- & H).
  apply filter_In in H; apply in_map; tauto.
Qed.

Lemma mdel_ordered : forall {A} (m : list (N * A)) k, ordered m -> ordered (mdel k m).
Proof.
  unfold ordered; induction m as [|[a w] m IH]; intros k O; [exact O|].
  cbn [map fst] in O; apply StronglySorted_inv in O; destruct O as [O F].
  unfold mdel; cbn [filter fst]; destruct (negb (k =? a)); [|apply IH; exact O].
  cbn [map fst]; constructor; [apply IH; exact O|].
  rewrite Forall_forall in F |- *; intros y Hy; apply F; exact (mdel_keys _ _ _ Hy).
Qed.

Lemma ordered_notin : forall {A} (m : list (N * A)) a v, ordered ((a, v) :: m) -> mget a m = None.
Proof.
  intros A m a v O; unfold ordered in O; cbn [map fst] in O; apply StronglySorted_inv in O.
  destruct O as [_ F]; revert F; induction m as [|[b w] m IH]; intros F; [reflexivity|].
  cbn [map fst] in F; inversion F; subst; cbn [mget].
  destruct (a =? b) eqn:E; [apply N.eqb_eq in E; lia|auto].
Qed.

Lemma mget_in : forall {A} (m : list (N * A)) x v, ordered m -> (mget x m = Some v <-> In (x, v) m).
Proof.
  induction m as [|[a w] m IH]; intros x v O; cbn [mget In]; [split; [discriminate|tauto]|].
  pose proof (ordered_notin _ _ _ O) as Na.
  assert (O' : ordered m) by (unfold ordered in O |- *; cbn [map fst] in O; apply StronglySorted_inv in O; tauto).
  destruct (x =? a) eqn:E.
  - apply N.eqb_eq in E; subst; split; [intros [= ->]; auto|].
    intros [[= ->]|H]; [reflexivity|]. apply IH in H; auto; congruence.
  - apply N.eqb_neq in E; rewrite IH by exact O'; split; [auto|].
    intros [[= -> ->]|H]; [contradiction|exact H].
Qed.

(** ** Paths *)

Lemma path_loop_in : forall n c x acc P,
  path_loop n c x acc = Some P ->
  forall y, In y P <-> In y acc \/ exists p, conn_parent c x = Some p /\ upto (conn_parent c) p y.
Proof.
  induction n as [|n IH]; intros c x acc P; cbn [path_loop]; [discriminate|].
  destruct (conn_parent c x) as [p|] eqn:E.
  - intros H y; rewrite (IH _ _ _ _ H y); cbn [In]; split.
    + intros [[<-|H']|(q & Eq & U)]; [right; exists p; split; [reflexivity|constructor]|auto|].
      right; exists p; split; [reflexivity|]. eapply upto_up; eauto.
    + intros [H'|(q & [= <-] & U)]; [auto|]. inversion U; subst; [auto|].
      right; eauto.
  - intros [= <-] y; split; [auto|]. intros [H|(q & ? & _)]; [exact H|discriminate].
Qed.

Lemma calculate_path_in : forall c x P,
  calculate_path c x = Some P -> forall y, In y P <-> upto (conn_parent c) x y.
Proof.
  unfold calculate_path; intros c x P H y; rewrite (path_loop_in _ _ _ _ _ H y); cbn [In]; split.
  - intros [[<-|[]]|(p & E & U)]; [constructor|eapply upto_up; eauto].
  - intros U; inversion U; subst; [auto|right; eauto].
Qed.

Lemma path_loop_depth : forall n c x acc d,
  depth (conn_parent c) x d -> (d < n)%nat -> exists P, path_loop n c x acc = Some P.
Proof.
  intros n c x acc d H; revert n acc; induction H as [x E|x p d E H IH]; intros n acc L.
  - destruct n; [lia|]; cbn [path_loop]; rewrite E; eauto.
  - destruct n; [lia|]; cbn [path_loop]; rewrite E; apply IH; lia.
Qed.

Lemma path_loop_deep : forall n c x acc d,
  depth (conn_parent c) x d -> (n <= d)%nat -> path_loop n c x acc = None.
Proof.
  intros n c x acc d H; revert n acc; induction H as [x E|x p d E H IH]; intros n acc L.
  - destruct n; [reflexivity|lia].
  - destruct n; [reflexivity|]; cbn [path_loop]; rewrite E; apply IH; lia.
Qed.

Definition good_paths (c : conn) (np : npaths) : Prop :=
  ordered (np_paths np) /\ np_all np = calculate_all_nodes (np_paths np) /\
  forall x P, mget x (np_paths np) = Some P -> calculate_path c x = Some P.

Definition has (np : npaths) (x : N) : bool :=
  match mget x (np_paths np) with Some _ => true | None => false end.

Lemma refresh_each_keys : forall c ps qs, refresh_each c ps = Some qs -> map fst qs = map fst ps.
Proof.
  induction ps as [|[x p] ps IH]; intros qs; cbn [refresh_each]; [intros [= <-]; reflexivity|].
  destruct (calculate_path c x); [|discriminate].
  destruct (refresh_each c ps); [|discriminate]. intros [= <-]; cbn; f_equal; auto.
Qed.

Lemma refresh_each_get : forall c ps qs, refresh_each c ps = Some qs ->
  forall x, mget x qs = match mget x ps with Some _ => calculate_path c x | None => None end.
Proof.
  induction ps as [|[a p] ps IH]; intros qs; cbn [refresh_each]; [intros [= <-]; reflexivity|].
  destruct (calculate_path c a) eqn:E; [|discriminate].
  destruct (refresh_each c ps); [|discriminate]. intros [= <-] x; cbn [mget].
  destruct (x =? a) eqn:X; [apply N.eqb_eq in X; subst; auto|apply IH; reflexivity].
Qed.

Lemma np_refresh_good : forall c np np', ordered (np_paths np) -> np_refresh c np = Some np' ->
  good_paths c np' /\ forall x, has np' x = has np x.
Proof.
  intros c np np' O; unfold np_refresh; destruct (refresh_each c (np_paths np)) as [qs|] eqn:E; [|discriminate].
  intros [= <-]; pose proof (refresh_each_get _ _ _ E) as G; unfold good_paths, has; cbn [np_paths np_all].
  split; [split; [|split]|].
  - unfold ordered; rewrite (refresh_each_keys _ _ _ E); exact O.
  - reflexivity.
  - intros x P; rewrite G; destruct (mget x (np_paths np)); congruence.
  - intros x; rewrite G; destruct (mget x (np_paths np)) as [P|] eqn:M; [|reflexivity].
    destruct (calculate_path c x) eqn:C; [reflexivity|]. exfalso.
    assert (I : In x (map fst (np_paths np))).
    { apply mget_in in M; [|exact O]. change x with (fst (x, P)); apply in_map; exact M. }
    rewrite <- (refresh_each_keys _ _ _ E) in I; apply in_map_iff in I; destruct I as ([k Q] & Hk & I).
    cbn in Hk; subst k. apply mget_in in I.
    + rewrite G, M in I; congruence.
    + unfold ordered; rewrite (refresh_each_keys _ _ _ E); exact O.
Qed.

Lemma np_remove_spec : forall np x np' b, ordered (np_paths np) -> np_remove np x = (np', b) ->
  ordered (np_paths np') /\ b = has np x /\
  (forall y, mget y (np_paths np') = if y =? x then None else mget y (np_paths np)) /\
  (b = false -> np_all np' = np_all np) /\
  (np_all np = calculate_all_nodes (np_paths np) -> b = true -> np_all np' = calculate_all_nodes (np_paths np')).
Proof.
  intros np x np' b O; unfold np_remove, has; destruct (mget x (np_paths np)) as [P|]; intros [= <- <-];
    cbn [np_paths np_all]; repeat split; auto using mdel_ordered; intros; try congruence; apply mget_mdel.
Qed.

Lemma np_insert_spec : forall c np x np', ordered (np_paths np) -> np_insert c np x = Some np' ->
  ordered (np_paths np') /\ (forall y, has np' y = if y =? x then true else has np y).
Proof.
  intros c np x np' O; unfold np_insert; destruct (calculate_path c x); [|discriminate].
  intros [= <-]; unfold has; cbn [np_paths]; split; [apply mset_ordered; exact O|].
  intros y; rewrite mget_mset; destruct (y =? x); reflexivity.
Qed.

Lemma contains_spec : forall c np p, good_paths c np ->
  (np_contains np p = true <-> exists x, has np x = true /\ upto (conn_parent c) x p).
Proof.
  intros c np p (O & A & G); unfold np_contains; rewrite existsb_exists; split.
  - intros (y & Hy & E); apply N.eqb_eq in E; subst y; rewrite A in Hy; unfold calculate_all_nodes in Hy.
    apply in_flat_map in Hy; destruct Hy as ([x P] & I & Hp); cbn [snd] in Hp.
    apply mget_in in I; [|exact O]. exists x; split; [unfold has; rewrite I; reflexivity|].
    apply (calculate_path_in _ _ _ (G _ _ I)); exact Hp.
  - intros (x & Hx & U); unfold has in Hx; destruct (mget x (np_paths np)) as [P|] eqn:M; [|discriminate].
    exists p; split; [|apply N.eqb_refl]. rewrite A; unfold calculate_all_nodes; apply in_flat_map.
    exists (x, P); split; [apply mget_in; assumption|]. cbn [snd].
    apply (calculate_path_in _ _ _ (G _ _ M)); exact U.
Qed.

(** ** Subscribers *)

Lemma told_app : forall a b l,
  told (a ++ b) l = match told b l with Some v => Some v | None => told a l end.
Proof.
  induction a as [|[k v] a IH]; intros b l; cbn [app told]; [destruct (told b l); reflexivity|].
  rewrite IH; destruct (told b l); reflexivity.
Qed.

Lemma refresh_subs_keys : forall c susp cbs, map fst (fst (refresh_subs c susp cbs)) = map fst cbs.
Proof.
  induction cbs as [|[l b] cbs IH]; [reflexivity|]; cbn [refresh_subs].
  destruct (refresh_subs c susp cbs) as [r calls]; cbn [fst] in IH.
  destruct (conn_parent c l); [|cbn; f_equal; exact IH].
  destruct (Bool.eqb _ _); cbn; f_equal; exact IH.
Qed.

Lemma refresh_subs_get : forall c susp cbs l,
  mget l (fst (refresh_subs c susp cbs)) =
  match mget l cbs with
  | None => None
  | Some b => match conn_parent c l with Some p => Some (np_contains susp p) | None => Some b end
  end.
Proof.
  induction cbs as [|[k b] cbs IH]; intros l; [reflexivity|]; cbn [refresh_subs mget].
  destruct (refresh_subs c susp cbs) as [r calls]; cbn [fst] in IH; specialize (IH l).
  destruct (l =? k) eqn:E.
  - apply N.eqb_eq in E; subst k; destruct (conn_parent c l) as [p|]; [|cbn; rewrite N.eqb_refl; reflexivity].
    destruct (Bool.eqb b (np_contains susp p)) eqn:B; cbn [fst mget]; rewrite N.eqb_refl; [|reflexivity].
    apply eqb_prop in B; congruence.
  - destruct (conn_parent c k); [|cbn [fst mget]; rewrite E; exact IH].
    destruct (Bool.eqb _ _); cbn [fst mget]; rewrite E; exact IH.
Qed.

(** What a layer is told by one refresh: at most one value, and one that
    differs from the value it has. *)
Lemma refresh_subs_calls : forall c susp cbs l, ordered cbs ->
  filter (fun e => fst e =? l) (snd (refresh_subs c susp cbs)) =
  match mget l cbs, conn_parent c l with
  | Some b, Some p =>
      if Bool.eqb b (np_contains susp p) then [] else [(l, np_contains susp p)]
  | _, _ => []
  end.
Proof.
  induction cbs as [|[k b] cbs IH]; intros l O; [reflexivity|]; cbn [refresh_subs mget].
  pose proof (ordered_notin _ _ _ O) as Nk.
  assert (O' : ordered cbs) by (unfold ordered in O |- *; cbn [map fst] in O; apply StronglySorted_inv in O; tauto).
  specialize (IH l O'). destruct (refresh_subs c susp cbs) as [r calls]; cbn [snd] in IH.
  destruct (l =? k) eqn:E.
  - apply N.eqb_eq in E; subst k; rewrite Nk in IH.
    destruct (conn_parent c l) as [p|]; [|exact IH].
    destruct (Bool.eqb b (np_contains susp p)); cbn [snd]; [exact IH|].
    cbn [filter fst]; rewrite N.eqb_refl, IH; reflexivity.
  - rewrite N.eqb_sym in E.
    destruct (conn_parent c k); [|exact IH].
    destruct (Bool.eqb _ _); cbn [snd]; [exact IH|]. cbn [filter fst]; rewrite E; exact IH.
Qed.

Lemma told_filter : forall log l, told log l = told (filter (fun e => fst e =? l) log) l.
Proof.
  induction log as [|[k v] log IH]; intros l; [reflexivity|]; cbn [filter fst told].
  destruct (k =? l) eqn:E; cbn [told]; rewrite ?E, IH; [reflexivity|].
  destruct (told (filter _ log) l); reflexivity.
Qed.

(** ** The invariant *)

Definition is_some {A} (o : option A) : bool := match o with Some _ => true | None => false end.

(** [c0] is the connection at the last refresh of the paths. *)
Record inv (past : list call) (s : sstate) (c0 : conn) : Prop := {
  inv_conn : forall x, conn_parent (s_conn s) x = parent_of past x;
  inv_susp : good_paths c0 (s_susp s);
  inv_layer : ordered (np_paths (s_layer s));
  inv_loader : forall x, has (s_susp s) x = loader past x;
  inv_kept : forall x p, parent_of past x = Some p -> conn_parent c0 x = Some p;
  inv_lost : forall x p, conn_parent c0 x = Some p -> parent_of past x = None -> gone past x = true;
  inv_cb : ordered (s_cb s);
  inv_sub : forall l, is_some (mget l (s_cb s)) = subscribed past l;
  inv_told : forall l b, mget l (s_cb s) = Some b -> told (s_log s) l = Some b;
  inv_value : forall l b p, mget l (s_cb s) = Some b -> conn_parent c0 l = Some p ->
              b = np_contains (s_susp s) p
}.

(** A refresh restores the invariant from a weaker one. *)
Lemma refresh_inv : forall past s s',
  (forall x, conn_parent (s_conn s) x = parent_of past x) ->
  ordered (np_paths (s_susp s)) -> ordered (np_paths (s_layer s)) ->
  (forall x, has (s_susp s) x = loader past x) ->
  ordered (s_cb s) ->
  (forall l, is_some (mget l (s_cb s)) = subscribed past l) ->
  (forall l b, mget l (s_cb s) = Some b -> told (s_log s) l = Some b) ->
  s_refresh s = Some s' -> inv past s' (s_conn s').
Proof.
  intros past s s' Hc Os Ol Hl Oc Hs Ht; unfold s_refresh.
  destruct (np_refresh (s_conn s) (s_susp s)) as [susp|] eqn:Es; [|discriminate].
  destruct (np_refresh (s_conn s) (s_layer s)) as [layer|] eqn:El; [|discriminate].
  destruct (np_refresh_good _ _ _ Os Es) as [Gs Ks]; destruct (np_refresh_good _ _ _ Ol El) as [Gl _].
  pose proof (refresh_subs_get (s_conn s) susp (s_cb s)) as G.
  pose proof (fun l => refresh_subs_calls (s_conn s) susp (s_cb s) l Oc) as C.
  pose proof (refresh_subs_keys (s_conn s) susp (s_cb s)) as K.
  destruct (refresh_subs (s_conn s) susp (s_cb s)) as [cbs calls]; cbn [fst snd] in *.
  intros [= <-]; constructor; cbn [s_conn s_susp s_layer s_cb s_log]; try assumption.
  - apply Gl.
  - intros x; rewrite Ks; apply Hl.
  - intros x p H; rewrite Hc; exact H.
  - intros x p H H'; rewrite Hc in H; congruence.
  - unfold ordered; rewrite K; exact Oc.
  - intros l; rewrite G, <- Hs; destruct (mget l (s_cb s)); [|reflexivity].
    destruct (conn_parent (s_conn s) l); reflexivity.
  - intros l b; rewrite G, told_app, (told_filter calls), C.
    destruct (mget l (s_cb s)) as [v|] eqn:M; [|discriminate].
    destruct (conn_parent (s_conn s) l) as [p|].
    + intros [= <-]; destruct (Bool.eqb v (np_contains susp p)) eqn:B; cbn [told].
      * apply eqb_prop in B; rewrite <- B; apply Ht; exact M.
      * rewrite N.eqb_refl; reflexivity.
    + intros [= <-]; cbn [told]; apply Ht; exact M.
  - intros l b p; rewrite G; destruct (mget l (s_cb s)); [|discriminate].
    intros H E; rewrite E in H; congruence.
Qed.

Lemma inv_step : forall past s c0 o s', inv past s c0 -> s_call s o = Some s' ->
  exists c1, inv (o :: past) s' c1.
Proof.
  intros past s c0 o s' [Hc Gs Ol Hl Kp Ls Oc Hs Ht Hv] H; destruct o as [x|x p|x|l|l]; cbn [s_call] in H.
  - unfold set_node_suspense in H; destruct (np_insert (s_conn s) (s_susp s) x) as [np|] eqn:E; [|discriminate].
    destruct (np_insert_spec _ _ _ _ (proj1 Gs) E) as [O' K'].
    exists (s_conn s'); eapply refresh_inv; [..|exact H]; cbn; auto.
    intros y; rewrite K', Hl, (N.eqb_sym x y); destruct (y =? x); reflexivity.
  - unfold set_parent in H.
    exists (s_conn s'); eapply refresh_inv; [..|exact H]; cbn; auto; [|apply Gs].
    intros y; unfold conn_parent, conn_set_parent, conn_remove; rewrite mget_mset, mget_mdel, N.eqb_sym.
    destruct (x =? y); [reflexivity|apply Hc].
  - unfold s_remove in H.
    destruct (np_remove (s_susp s) x) as [susp bs] eqn:Es; destruct (np_remove (s_layer s) x) as [layer bl] eqn:El.
    destruct (np_remove_spec _ _ _ _ (proj1 Gs) Es) as (Os' & Bs & Ms & As & As').
    destruct (np_remove_spec _ _ _ _ Ol El) as (Ol' & Bl & Ml & _ & _).
    assert (Hc' : forall y, conn_parent (conn_remove (s_conn s) x) y = parent_of (Remove x :: past) y).
    { intros y; unfold conn_parent, conn_remove; rewrite mget_mdel; cbn [parent_of]; rewrite N.eqb_sym.
      destruct (x =? y); [reflexivity|apply Hc]. }
    assert (Hl' : forall y, has susp y = loader (Remove x :: past) y).
    { intros y; unfold has; rewrite Ms; cbn [loader]; rewrite N.eqb_sym; destruct (x =? y); [reflexivity|apply Hl]. }
    destruct (bs || bl) eqn:B.
    + exists (s_conn s'); eapply refresh_inv; [..|exact H]; cbn [s_conn s_susp s_layer s_cb s_log]; auto.
    + injection H as <-; apply orb_false_elim in B; destruct B as [-> ->].
      assert (SP : forall y, mget y (np_paths susp) = mget y (np_paths (s_susp s))).
      { intros y; rewrite Ms; destruct (y =? x) eqn:Y; [|reflexivity]; apply N.eqb_eq in Y; subst y.
        unfold has in Bs; destruct (mget x (np_paths (s_susp s))); [discriminate|reflexivity]. }
      assert (PP : np_paths susp = np_paths (s_susp s)).
      { unfold np_remove in Es; unfold has in Bs; destruct (mget x (np_paths (s_susp s))) eqn:M; [discriminate|].
        injection Es as <-; cbn [np_paths]; clear - M; revert M; unfold mdel.
        induction (np_paths (s_susp s)) as [|[a v] m IH]; cbn [mget filter fst]; [reflexivity|].
        destruct (x =? a); [discriminate|]; cbn [negb]; intros M; f_equal; auto. }
      exists c0; constructor; cbn [s_conn s_susp s_layer s_cb s_log]; auto.
      * destruct Gs as (O1 & A1 & G1); split; [|split]; rewrite ?PP; auto. rewrite As, A1; auto.
      * intros y p; cbn [parent_of]; destruct (x =? y); [discriminate|apply Kp].
      * intros y p Hy; cbn [parent_of gone]; destruct (x =? y); [reflexivity|apply Ls with p; exact Hy].
      * intros l b p M E; rewrite (Hv l b p M E); unfold np_contains; rewrite As; reflexivity.
  - unfold set_layer_callback in H.
    destruct (np_insert (s_conn s) (s_layer s) l) as [np|] eqn:E; [|discriminate].
    destruct (np_insert_spec _ _ _ _ Ol E) as [O' K'].
    exists (s_conn s'); eapply refresh_inv; [..|exact H]; cbn [s_conn s_susp s_layer s_cb s_log]; auto.
    + apply Gs.
    + apply mset_ordered; exact Oc.
    + intros k; rewrite mget_mset; cbn [subscribed]; rewrite N.eqb_sym; destruct (l =? k); [reflexivity|apply Hs].
    + intros k b; rewrite mget_mset, told_app; cbn [told]; rewrite N.eqb_sym; destruct (l =? k) eqn:K; [tauto|apply Ht].
  - unfold remove_layer_callback in H.
    destruct (np_remove (s_layer s) l) as [layer bl] eqn:El.
    destruct (np_remove_spec _ _ _ _ Ol El) as (Ol' & Bl & Ml & _ & _).
    assert (Hs' : forall k, is_some (mget k (mdel l (s_cb s))) = subscribed (Unlayer l :: past) k).
    { intros k; rewrite mget_mdel; cbn [subscribed]; rewrite N.eqb_sym; destruct (l =? k); [reflexivity|apply Hs]. }
    assert (Ht' : forall k b, mget k (mdel l (s_cb s)) = Some b -> told (s_log s) k = Some b).
    { intros k b; rewrite mget_mdel; destruct (k =? l); [discriminate|apply Ht]. }
    destruct bl.
    + exists (s_conn s'); eapply refresh_inv; [..|exact H]; cbn [s_conn s_susp s_layer s_cb s_log];
        auto using mdel_ordered. apply Gs.
    + injection H as <-; exists c0; constructor; cbn [s_conn s_susp s_layer s_cb s_log]; auto using mdel_ordered.
      intros k b p; rewrite mget_mdel; destruct (k =? l); [discriminate|apply Hv].
Qed.

Lemma s_calls_app : forall a b s, s_calls s (a ++ b) = match s_calls s a with Some s => s_calls s b | None => None end.
Proof.
  induction a as [|o a IH]; intros b s; cbn [app s_calls]; [reflexivity|].
  destruct (s_call s o); [apply IH|reflexivity].
Qed.

Lemma inv_new : inv [] s_new [].
Proof.
  constructor; try (intros; reflexivity || discriminate); unfold good_paths, ordered; cbn; repeat split; try constructor.
  intros; discriminate.
Qed.

Lemma inv_run : forall os s, s_calls s_new os = Some s -> exists c0, inv (rev os) s c0.
Proof.
  induction os as [|o os IH] using rev_ind; intros s H.
  - injection H as <-; exists []; apply inv_new.
  - rewrite s_calls_app in H; destruct (s_calls s_new os) as [s1|]; [|discriminate].
    destruct (IH _ eq_refl) as [c0 I]; cbn [s_calls] in H.
    destruct (s_call s1 o) as [s2|] eqn:E; [|discriminate]. injection H as <-.
    rewrite rev_app_distr; exact (inv_step _ _ _ _ _ I E).
Qed.

Lemma inv_loading : forall past s c0 p, inv past s c0 -> settled past ->
  (np_contains (s_susp s) p = true <-> loading past p).
Proof.
  intros past s c0 p I S; rewrite (contains_spec c0) by apply I.
  assert (Q : forall x, (forall y, upto (parent_of past) x y -> gone past y = false) ->
              (upto (conn_parent c0) x p <-> upto (parent_of past) x p)).
  { intros x F; split; intros U; revert F.
    - induction U as [x|x q y E U IH]; intros F; [constructor|].
      destruct (parent_of past x) as [r|] eqn:P.
      + pose proof (inv_kept _ _ _ I _ _ P) as P'; assert (r = q) by congruence; subst r.
        eapply upto_up; [exact P|]. apply IH; intros y' U'; apply F; eapply upto_up; eauto.
      + pose proof (inv_lost _ _ _ I _ _ E P) as G; rewrite F in G by constructor; discriminate.
    - induction U as [x|x q y E U IH]; intros F; [constructor|].
      eapply upto_up; [exact (inv_kept _ _ _ I _ _ E)|]. apply IH; intros y' U'; apply F; eapply upto_up; eauto. }
  split; intros (x & L & U); exists x.
  - rewrite (inv_loader _ _ _ I) in L; split; [exact L|]. apply Q; [intros y; apply S; exact L|exact U].
  - rewrite (inv_loader _ _ _ I); split; [exact L|]. apply Q; [intros y; apply S; exact L|exact U].
Qed.

(** ** C38 *)

(** A layer that has a parent has been told, last, whether something is
    loading below that parent.  What is missing: states that are not
    [settled] (see [C38_stale_refuted]), trees so deep that the program
    panics ([C38_depth_refuted]; then there is no [s]), and layers without a
    parent ([C38_unattached_refuted]). *)
Theorem C38_partial : forall os s l p,
  s_calls s_new os = Some s ->
  settled (rev os) ->
  subscribed (rev os) l = true ->
  parent_of (rev os) l = Some p ->
  exists b, told (s_log s) l = Some b /\ (b = true <-> loading (rev os) p).
Proof.
  intros os s l p R S L P; destruct (inv_run _ _ R) as [c0 I].
  rewrite <- (inv_sub _ _ _ I) in L; destruct (mget l (s_cb s)) as [b|] eqn:M; [|discriminate].
  exists b; split; [exact (inv_told _ _ _ I _ _ M)|].
  rewrite (inv_value _ _ _ I _ _ _ M (inv_kept _ _ _ I _ _ P)).
  exact (inv_loading _ _ _ p I S).
Qed.

(** Removing nodes together with everything below them, in any order, as the
    drop of an element does, leaves a settled state settled. *)
Theorem C38_settled_after_drop : forall past xs,
  settled past ->
  (forall a b, parent_of past a = Some b -> In b xs -> In a xs) ->
  settled (rev (map Remove xs) ++ past).
Proof.
  intros past xs S Cl.
  assert (Par : forall ys x, parent_of (rev (map Remove ys) ++ past) x =
    if existsb (N.eqb x) ys then None else parent_of past x).
  { induction ys as [|y ys IH] using rev_ind; intros x; [reflexivity|].
    rewrite map_app, rev_app_distr, existsb_app; cbn [map rev app parent_of existsb].
    rewrite IH, orb_false_r, N.eqb_sym; destruct (x =? y); [rewrite orb_true_r; reflexivity|].
    rewrite orb_false_r; reflexivity. }
  assert (Ld : forall ys x, loader (rev (map Remove ys) ++ past) x =
    if existsb (N.eqb x) ys then false else loader past x).
  { induction ys as [|y ys IH] using rev_ind; intros x; [reflexivity|].
    rewrite map_app, rev_app_distr, existsb_app; cbn [map rev app loader existsb].
    rewrite IH, orb_false_r, N.eqb_sym; destruct (x =? y); [rewrite orb_true_r; reflexivity|].
    rewrite orb_false_r; reflexivity. }
  assert (Go : forall ys x, gone (rev (map Remove ys) ++ past) x =
    if existsb (N.eqb x) ys then true else gone past x).
  { induction ys as [|y ys IH] using rev_ind; intros x; [reflexivity|].
    rewrite map_app, rev_app_distr, existsb_app; cbn [map rev app gone existsb].
    rewrite IH, orb_false_r, N.eqb_sym; destruct (x =? y); [rewrite orb_true_r; reflexivity|].
    rewrite orb_false_r; reflexivity. }
  assert (Mem : forall x, existsb (N.eqb x) xs = true <-> In x xs).
  { intros x; rewrite existsb_exists; split.
    - intros (y & H & E); apply N.eqb_eq in E; subst; exact H.
    - intros H; exists x; split; [exact H|apply N.eqb_refl]. }
  intros x y L U; rewrite Ld in L; destruct (existsb (N.eqb x) xs) eqn:X; [discriminate|].
  assert (U' : upto (parent_of past) x y /\ ~ In y xs).
  { clear L; revert X; induction U as [x|x q y E U IH]; intros X.
    - split; [constructor|]. intros H; apply Mem in H; congruence.
    - rewrite Par, X in E. destruct (existsb (N.eqb q) xs) eqn:Qx.
      + exfalso; apply Mem in Qx; pose proof (Cl _ _ E Qx) as H; apply Mem in H; congruence.
      + destruct (IH eq_refl) as [U1 Ny]; split; [eapply upto_up; eauto|exact Ny]. }
  destruct U' as [U' Ny]; rewrite Go; destruct (existsb (N.eqb y) xs) eqn:Y; [apply Mem in Y; contradiction|].
  exact (S _ _ L U').
Qed.

(** A callback is called when it is set and when the value changes, and not
    otherwise: the values a layer is told by a call other than its own
    [Layer] are at most one, the opposite of what it was told last. *)
Theorem C38_changes : forall os o s s' l,
  s_calls s_new os = Some s -> s_call s o = Some s' -> o <> Layer l ->
  exists calls, s_log s' = s_log s ++ calls /\
    (filter (fun e => fst e =? l) calls = [] \/
     exists v, filter (fun e => fst e =? l) calls = [(l, v)] /\ told (s_log s) l = Some (negb v)).
Proof.
  assert (R : forall s s', s_refresh s = Some s' ->
    (forall l b, mget l (s_cb s) = Some b -> told (s_log s) l = Some b) -> ordered (s_cb s) ->
    exists calls, s_log s' = s_log s ++ calls /\ forall l : N,
      (filter (fun e => fst e =? l) calls = [] \/
       exists v, filter (fun e => fst e =? l) calls = [(l, v)] /\ told (s_log s) l = Some (negb v))).
  { intros s s' H Ht Oc; revert H; unfold s_refresh.
    destruct (np_refresh (s_conn s) (s_susp s)) as [susp|]; [|discriminate].
    destruct (np_refresh (s_conn s) (s_layer s)) as [layer|]; [|discriminate].
    pose proof (fun l => refresh_subs_calls (s_conn s) susp (s_cb s) l Oc) as C.
    destruct (refresh_subs (s_conn s) susp (s_cb s)) as [cbs calls]; cbn [fst snd] in *.
    intros [= <-]; exists calls; split; [reflexivity|]. intros l; rewrite C.
    destruct (mget l (s_cb s)) as [b|] eqn:M; [|auto]. destruct (conn_parent (s_conn s) l) as [p|]; [|auto].
    destruct (Bool.eqb b (np_contains susp p)) eqn:B; [auto|]. right; exists (np_contains susp p); split; [reflexivity|].
    rewrite (Ht _ _ M); f_equal; destruct b, (np_contains susp p); cbn in B |- *; congruence. }
  intros os o s s' l Rn H Ne; destruct (inv_run _ _ Rn) as [c0 [Hc Gs Ol Hl Kp Ls Oc Hs Ht Hv]].
  destruct o as [x|x p|x|k|k]; cbn [s_call] in H.
  - unfold set_node_suspense in H; destruct (np_insert (s_conn s) (s_susp s) x) as [np|]; [|discriminate].
    destruct (R _ _ H Ht Oc) as (calls & E & F); exists calls; split; [exact E|apply F].
  - destruct (R _ _ H Ht Oc) as (calls & E & F); exists calls; split; [exact E|apply F].
  - unfold s_remove in H; destruct (np_remove (s_susp s) x) as [susp bs]; destruct (np_remove (s_layer s) x) as [layer bl].
    destruct (bs || bl).
    + destruct (R _ _ H Ht Oc) as (calls & E & F); exists calls; split; [exact E|apply F].
    + injection H as <-; exists []; cbn; rewrite app_nil_r; auto.
  - unfold set_layer_callback in H; destruct (np_insert (s_conn s) (s_layer s) k) as [np|]; [|discriminate].
    assert (Kl : k <> l) by congruence; apply N.eqb_neq in Kl.
    destruct (R _ _ H) as (calls & E & F).
    + cbn [s_cb s_log]; intros j b; rewrite mget_mset, told_app; cbn [told]; rewrite N.eqb_sym.
      destruct (k =? j); [tauto|apply Ht].
    + cbn [s_cb]; apply mset_ordered; exact Oc.
    + cbn [s_log] in E, F; exists ((k, np_contains (s_susp s) k) :: calls); split; [rewrite E, <- app_assoc; reflexivity|].
      cbn [filter fst]; rewrite Kl; destruct (F l) as [F'|(v & F' & T)]; [auto|right; exists v; split; [exact F'|]].
      rewrite told_app in T; cbn [told] in T; rewrite Kl in T; exact T.
  - unfold remove_layer_callback in H; destruct (np_remove (s_layer s) k) as [layer bl].
    destruct bl; [|injection H as <-; exists []; cbn; rewrite app_nil_r; auto].
    destruct (R _ _ H) as (calls & E & F); [| |exists calls; split; [exact E|apply F]].
    + cbn [s_cb s_log]; intros j b; rewrite mget_mdel; destruct (j =? k); [discriminate|apply Ht].
    + cbn [s_cb]; apply mdel_ordered; exact Oc.
Qed.

(** No panic in trees in which no node ever has 500 others above it. *)
Theorem C38_total : forall os,
  (forall n x, exists d, depth (parent_of (rev (firstn n os))) x d /\ (d < 500)%nat) ->
  exists s, s_calls s_new os = Some s.
Proof.
  assert (D : forall (f g : N -> option N) x d, (forall x, f x = g x) -> depth f x d -> depth g x d).
  { intros f g x d E H; induction H; [apply depth_top; congruence|eapply depth_up; [rewrite <- E; eauto|auto]]. }
  assert (P : forall c, (forall x, exists d, depth (conn_parent c) x d /\ (d < 500)%nat) ->
              forall x, exists Q, calculate_path c x = Some Q).
  { intros c H x; destruct (H x) as (d & Hd & L); exact (path_loop_depth _ _ _ [x] _ Hd L). }
  assert (RE : forall c, (forall x, exists Q, calculate_path c x = Some Q) -> forall np, exists np', np_refresh c np = Some np').
  { intros c H np; unfold np_refresh.
    assert (X : exists ps, refresh_each c (np_paths np) = Some ps).
    { induction (np_paths np) as [|[x q] m [ps IH]]; cbn [refresh_each]; [eauto|].
      destruct (H x) as [Q ->]; rewrite IH; eauto. }
    destruct X as [ps ->]; eauto. }
  assert (RS : forall s, (forall x, exists Q, calculate_path (s_conn s) x = Some Q) -> exists s', s_refresh s = Some s').
  { intros s H; unfold s_refresh; destruct (RE _ H (s_susp s)) as [a ->]; destruct (RE _ H (s_layer s)) as [b ->].
    destruct (refresh_subs (s_conn s) a (s_cb s)); eauto. }
  intros os; induction os as [|o os IH] using rev_ind; intros H; [eexists; reflexivity|].
  destruct IH as [s Hs].
  { intros n x; destruct (Nat.le_gt_cases (length os) n) as [L|L].
    - destruct (H (length os) x) as (d & Hd); exists d.
      rewrite firstn_all2 by lia. rewrite firstn_app, firstn_all2, Nat.sub_diag in Hd by lia.
      cbn [firstn] in Hd; rewrite app_nil_r in Hd; exact Hd.
    - destruct (H n x) as (d & Hd); exists d.
      rewrite firstn_app in Hd; replace (n - length os)%nat with 0%nat in Hd by lia.
      cbn [firstn] in Hd; rewrite app_nil_r in Hd; exact Hd. }
  rewrite s_calls_app, Hs; cbn [s_calls].
  destruct (inv_run _ _ Hs) as [c0 I].
  assert (Now : forall x, exists Q, calculate_path (s_conn s) x = Some Q).
  { apply P; intros x; destruct (H (length os) x) as (d & Hd & L); exists d; split; [|exact L].
    rewrite firstn_app, firstn_all, Nat.sub_diag in Hd; cbn [firstn] in Hd; rewrite app_nil_r in Hd.
    eapply D; [|exact Hd]; intros y; symmetry; apply I. }
  assert (Next : forall c, (forall x, conn_parent c x = parent_of (o :: rev os) x) ->
                 forall x, exists Q, calculate_path c x = Some Q).
  { intros c E; apply P; intros x; destruct (H (length (os ++ [o])) x) as (d & Hd & L); exists d; split; [|exact L].
    rewrite firstn_all, rev_app_distr in Hd; cbn [rev app] in Hd.
    eapply D; [|exact Hd]; intros y; symmetry; apply E. }
  assert (X : exists s', s_call s o = Some s').
  { destruct o as [x|x p|x|l|l]; cbn [s_call].
    - unfold set_node_suspense, np_insert; destruct (Now x) as [Q ->]; apply RS; exact Now.
    - unfold set_parent; apply RS, Next; cbn [s_conn parent_of]; intros y.
      unfold conn_parent, conn_set_parent, conn_remove; rewrite mget_mset, mget_mdel, N.eqb_sym.
      destruct (x =? y); [reflexivity|apply I].
    - unfold s_remove; destruct (np_remove (s_susp s) x) as [susp bs]; destruct (np_remove (s_layer s) x) as [layer bl].
      destruct (bs || bl); [|eauto]. apply RS, Next; cbn [s_conn parent_of]; intros y.
      unfold conn_parent, conn_remove; rewrite mget_mdel, N.eqb_sym; destruct (x =? y); [reflexivity|apply I].
    - unfold set_layer_callback, np_insert; destruct (Now l) as [Q ->]; apply RS; exact Now.
    - unfold remove_layer_callback; destruct (np_remove (s_layer s) l) as [layer bl].
      destruct bl; [apply RS; exact Now|eauto]. }
  destruct X as [s' ->]; eauto.
Qed.

(** ** Where it fails *)

(** A plain node is removed while a loading node is still below it: the layer
    keeps showing although nothing is loading below its parent. *)
Theorem C38_stale_refuted : exists os s l p,
  s_calls s_new os = Some s /\ subscribed (rev os) l = true /\ parent_of (rev os) l = Some p /\
  told (s_log s) l = Some true /\ ~ loading (rev os) p.
Proof.
  set (os := [Layer 4; Attach 4 1; Loader 3; Attach 3 2; Attach 2 1; Remove 2]).
  exists os. eexists. exists 4, 1. split; [vm_compute; reflexivity|].
  split; [reflexivity|]. split; [reflexivity|]. split; [reflexivity|].
  intros (x & L & U). assert (x = 3).
  { cbn [os rev app loader] in L. destruct (2 =? x); [discriminate|]. destruct (3 =? x) eqn:E; [|discriminate].
    apply N.eqb_eq in E; congruence. }
  subst x. inversion U as [|a b c E U1]; subst. cbn in E; injection E as <-.
  inversion U1 as [|a b c E U2]; subst. cbn in E; discriminate.
Qed.

(** The number of nodes [0 .. n] in a chain, each inside the next. *)
Definition chain (n : nat) : list call :=
  map (fun i => Attach (N.of_nat i) (N.of_nat (S i))) (seq 0 n).

(** A loading node inside 500 elements: the program panics. *)
Theorem C38_depth_refuted : exists os, s_calls s_new (Loader 0 :: os) = None /\
  (forall x, exists d, depth (parent_of (rev (Loader 0 :: os))) x d /\ (d <= 500)%nat).
Proof.
  exists (chain 500); split; [vm_compute; reflexivity|].
  assert (Q : forall n x, parent_of (rev (Loader 0 :: chain n)) x =
              if x <? N.of_nat n then Some (x + 1) else None).
  { intros n x; cbn [rev]. induction n as [|n IH]; [destruct x; reflexivity|].
    unfold chain in *; rewrite seq_S, map_app, rev_app_distr; cbn [map rev app parent_of Nat.add].
    rewrite IH. destruct (N.of_nat n =? x) eqn:E.
    - apply N.eqb_eq in E; subst x. replace (N.of_nat n <? N.of_nat (S n)) with true by (symmetry; apply N.ltb_lt; lia).
      f_equal; lia.
    - apply N.eqb_neq in E; destruct (x <? N.of_nat n) eqn:L1, (x <? N.of_nat (S n)) eqn:L2; auto;
        rewrite ?N.ltb_lt, ?N.ltb_ge in *; lia. }
  assert (D : forall k x, (N.of_nat 500 <= x + N.of_nat k)%N -> exists d,
              depth (parent_of (rev (Loader 0 :: chain 500))) x d /\ (d <= k)%nat).
  { induction k as [|k IH]; intros x Hx.
    - exists 0%nat; split; [|lia]. apply depth_top; rewrite Q.
      destruct (x <? N.of_nat 500) eqn:L; [apply N.ltb_lt in L; lia|reflexivity].
    - destruct (x <? N.of_nat 500) eqn:L.
      + destruct (IH (x + 1)) as (d & Hd & Ld); [lia|]. exists (S d); split; [|lia].
        eapply depth_up; [rewrite Q, L; reflexivity|exact Hd].
      + exists 0%nat; split; [|lia]. apply depth_top; rewrite Q, L; reflexivity. }
  intros x; apply D; lia.
Qed.

(** A layer that is not inserted yet looks below itself, not below its parent,
    and keeps that value when it is taken out of the tree. *)
Theorem C38_unattached_refuted : exists os s l,
  s_calls s_new os = Some s /\ subscribed (rev os) l = true /\ settled (rev os) /\
  told (s_log s) l = Some true /\ ~ (exists p, loading (rev os) p).
Proof.
  exists [Layer 4; Attach 4 1; Loader 3; Attach 3 1; Remove 4; Remove 3]. eexists. exists 4.
  split; [vm_compute; reflexivity|]. split; [reflexivity|].
  assert (L : forall x, loader (rev [Layer 4; Attach 4 1; Loader 3; Attach 3 1; Remove 4; Remove 3]) x = false).
  { intros x; cbn [rev app loader]. destruct (3 =? x); [reflexivity|]. destruct (4 =? x); reflexivity. }
  split; [intros x y H; rewrite L in H; discriminate|].
  split; [vm_compute; reflexivity|]. intros (p & x & H & _); rewrite L in H; discriminate.
Qed.

(** Two layers, nested boundaries, a loading node that comes and goes. *)
Example C38_case :
  let os := [Layer 10; Attach 10 1; Attach 2 1; Layer 20; Attach 20 2; Loader 3; Attach 3 2; Remove 3;
             Loader 5; Attach 5 1] in
  exists s, s_calls s_new os = Some s /\ settled (rev os) /\
    subscribed (rev os) 10 = true /\ parent_of (rev os) 10 = Some 1 /\ loading (rev os) 1 /\
    subscribed (rev os) 20 = true /\ parent_of (rev os) 20 = Some 2 /\ ~ loading (rev os) 2 /\
    s_log s = [(10, false); (20, false); (10, true); (20, true); (10, false); (20, false); (10, true)].
Proof.
  intros os; eexists; split; [vm_compute; reflexivity|].
  assert (L : forall x, loader (rev os) x = true -> x = 5).
  { intros x; cbn [os rev app loader]. destruct (5 =? x) eqn:E; [intros _; apply N.eqb_eq in E; congruence|].
    destruct (3 =? x); discriminate. }
  assert (U : forall y, upto (parent_of (rev os)) 5 y -> y = 5 \/ y = 1).
  { intros y H; inversion H as [|a b c E H1]; subst; [auto|]. cbn in E; injection E as <-.
    inversion H1 as [|a b c E H2]; subst; [auto|]. cbn in E; discriminate. }
  split; [intros x y Hx Hy; rewrite (L x Hx) in Hy; destruct (U _ Hy) as [-> | ->]; reflexivity|].
  split; [reflexivity|]. split; [reflexivity|].
  split; [exists 5; split; [reflexivity|]; eapply upto_up; [reflexivity|constructor]|].
  split; [reflexivity|]. split; [reflexivity|]. split; [|reflexivity].
  intros (x & Hx & Hy); rewrite (L x Hx) in Hy; destruct (U _ Hy); discriminate.
Qed.

(** A whole subtree is dropped, parent first: node 2 with the loading node 3 in
    it, beside the layer 4. *)
Example C38_drop_case :
  let past := rev [Layer 4; Attach 4 1; Attach 2 1; Loader 3; Attach 3 2] in
  settled past /\ (forall a b, parent_of past a = Some b -> In b [2; 3] -> In a [2; 3]) /\
  loading past 1 /\
  exists s, s_calls s_new (rev past ++ [Remove 2; Remove 3]) = Some s /\ told (s_log s) 4 = Some false.
Proof.
  intros past.
  assert (L : forall x, loader past x = true -> x = 3).
  { intros x; cbn [past rev app loader]. destruct (3 =? x) eqn:E; [intros _; apply N.eqb_eq in E; congruence|discriminate]. }
  assert (G : forall x, gone past x = false).
  { intros x; cbn [past rev app gone]. destruct (3 =? x); [reflexivity|]. destruct (2 =? x); [reflexivity|].
    destruct (4 =? x); reflexivity. }
  split; [intros x y _ _; apply G|]. split.
  - intros a b; cbn [past rev app parent_of]. destruct (3 =? a) eqn:E3; [apply N.eqb_eq in E3; cbn; auto|].
    destruct (2 =? a) eqn:E2; [apply N.eqb_eq in E2; cbn; auto|].
    destruct (4 =? a); [|discriminate]. intros [= <-] [H|[H|[]]]; discriminate.
  - split; [exists 3; split; [reflexivity|]; eapply upto_up; [reflexivity|]; eapply upto_up; [reflexivity|constructor]|].
    eexists; split; vm_compute; reflexivity.
Qed.

(** The trees of [C38_case] are shallow at every moment. *)
Example C38_total_case :
  let os := [Layer 10; Attach 10 1; Attach 2 1; Loader 3; Attach 3 2; Remove 3] in
  forall n x, exists d, depth (parent_of (rev (firstn n os))) x d /\ (d < 500)%nat.
Proof.
  intros os n x.
  assert (B : forall k y, (exists d, depth (parent_of (rev (firstn k os))) y d /\ (d <= 2)%nat)).
  { assert (F1 : forall k, parent_of (rev (firstn k os)) 1 = None)
      by (intros k; do 7 (destruct k as [|k]; [reflexivity|]); destruct k; reflexivity).
    assert (F2 : forall k, parent_of (rev (firstn k os)) 2 = None \/ parent_of (rev (firstn k os)) 2 = Some 1)
      by (intros k; do 7 (destruct k as [|k]; [auto|]); destruct k; auto).
    assert (D1 : forall k, depth (parent_of (rev (firstn k os))) 1 0) by (intros; apply depth_top, F1).
    assert (D2 : forall k, exists d, depth (parent_of (rev (firstn k os))) 2 d /\ (d <= 1)%nat).
    { intros k; destruct (F2 k) as [E|E]; [exists 0%nat; split; [apply depth_top; exact E|lia]|].
      exists 1%nat; split; [eapply depth_up; [exact E|apply D1]|lia]. }
    intros k y.
    assert (F : parent_of (rev (firstn k os)) y = None \/ parent_of (rev (firstn k os)) y = Some 1 \/
                parent_of (rev (firstn k os)) y = Some 2).
    { do 7 (destruct k as [|k]; [cbn; repeat match goal with |- context [if ?b then _ else _] => destruct b end; auto|]).
      destruct k; cbn; repeat match goal with |- context [if ?b then _ else _] => destruct b end; auto. }
    destruct F as [E|[E|E]].
    - exists 0%nat; split; [apply depth_top; exact E|lia].
    - exists 1%nat; split; [eapply depth_up; [exact E|apply D1]|lia].
    - destruct (D2 k) as (d & Hd & Ld); exists (S d); split; [eapply depth_up; [exact E|exact Hd]|lia]. }
  destruct (B n x) as (d & Hd & Ld); exists d; split; [exact Hd|]. eapply Nat.le_lt_trans; [exact Ld|].
  apply Nat.ltb_lt; reflexivity.
Qed.
