(** C08 (what a set invalidates) and C56 (a subscription owns what its callback returned). *)

From Coq Require Import List NArith Bool Lia Arith Relations.
From Verif Require Import GraphModel GraphSpec GraphProofs ReactModel ReactSpec ReactBase ReactInv ReactExec
  ReactRel ReactFacts ReactOwn ReactProps.
Import ListNotations.
Import Demo.

(** ** C08 *)

(** Setting a value inside a transaction, at any point of any run: the computeds that depend on the value
    in the graph of that moment lose their cache, all other caches stay, and exactly the subscriptions that
    depend on it are added to those to be refreshed. *)
Theorem C08_set_invalidates {V} (E : @env V) rank vs h s0 f0 before s f id v s' :
  well_founded_env E rank -> run E vs h s0 ->
  exec E f0 (TCmds before) (set_tx (Modification 1 []) s0) = Ok s ->
  exec E f (TCmds [CSet id v]) s = Ok s' ->
  (forall n, gkind n = KComputed -> dependents (child (graph_of s)) id n -> cache s' n = None) /\
  (forall n, ~ dependents (child (graph_of s)) id n -> cache s' n = cache s n) /\
  exists cs cs', tx s = Modification 1 cs /\ tx s' = Modification 1 cs' /\
    forall n, In n cs' <-> In n cs \/ (gkind n = KClient /\ dependents (child (graph_of s)) id n).
Proof.
  intros WF R XP X. destruct (run_gi E rank WF vs h s0 R) as (G & TI & RN & FR).
  assert (G0 : GI E rank (set_tx (Modification 1 []) s0)).
  { apply GIx_tx; auto; simpl; [split; [lia|split; [constructor|auto]]|]. rewrite RN. intros _ _ ? []. }
  destruct (struct_cmds E rank WF f0 _ _ s G0 XP) as [T0 S0].
  unfold same_tx in S0. simpl in S0. destruct S0 as (cs & TS & _).
  pose proof (t_gi _ _ _ _ _ _ _ _ T0) as GS.
  destruct f as [|f]; [discriminate|]. cbn [exec] in X.
  destruct (negb (is_value id)); [discriminate|].
  assert (U : up s = Ok (set_tx (Modification 2 cs) s)) by (unfold up; rewrite TS; auto).
  rewrite U in X. cbn [obind] in X. set (s1 := set_tx (Modification 2 cs) s) in *.
  destruct (report_set id _) as [s2| |] eqn:RP; try discriminate. cbn [obind] in X.
  destruct (exec E f TEnd s2) as [s3| |] eqn:X3; try discriminate. cbn [obind] in X.
  destruct f as [|f]; [discriminate|]. cbn [exec] in X. inversion X; subst s3. clear X.
  destruct (up_ok E rank none True False s s1 GS U) as (T01 & _).
  pose proof (t_gi _ _ _ _ _ _ _ _ T01) as G1.
  assert (GV : GI E rank (set_vals (upd (vals s1) id v) s1)) by (apply GIx_vals; auto).
  destruct (report_set_ok E rank id _ s2 2 cs GV eq_refl RP)
    as (deps & cs' & GD & CS & SO & T2 & C1 & C2 & C3 & _ & EQ).
  assert (S' : s' = set_tx (Modification 1 cs') s2).
  { cbn [exec] in X3. unfold down in X3. rewrite T2 in X3. simpl in X3. inversion X3; auto. }
  destruct (get_all_deps_spec (graph_of s) id) as (r & GD' & _ & IFF).
  simpl in GD. rewrite GD' in GD. inversion GD; subst r. clear GD.
  subst s'. simpl. split; [|split].
  - intros n K D. apply C1; auto. apply IFF; auto.
  - intros n D. rewrite C2; auto. rewrite IFF; auto.
  - exists cs, cs'. split; auto. split; auto. intros n. rewrite CS, IFF. tauto.
Qed.
Print Assumptions C08_set_invalidates.

(** [set_value_and_compare] with an equal value invalidates nothing and schedules nothing. *)
Theorem C08_equal_set_is_silent {V} (E : @env V) rank vs h s0 f0 before s f id v s' :
  well_founded_env E rank -> run E vs h s0 ->
  exec E f0 (TCmds before) (set_tx (Modification 1 []) s0) = Ok s ->
  e_eqb E (vals s id) v = true ->
  exec E f (TCmds [CSetCompare id v]) s = Ok s' ->
  (forall n, cache s' n = cache s n) /\ tx s' = tx s /\ log s' = log s.
Proof.
  intros WF R XP EQ X. destruct (run_gi E rank WF vs h s0 R) as (G & TI & RN & FR).
  assert (G0 : GI E rank (set_tx (Modification 1 []) s0)).
  { apply GIx_tx; auto; simpl; [split; [lia|split; [constructor|auto]]|]. rewrite RN. intros _ _ ? []. }
  destruct (struct_cmds E rank WF f0 _ _ s G0 XP) as [T0 S0].
  unfold same_tx in S0. simpl in S0. destruct S0 as (cs & TS & _).
  destruct f as [|f]; [discriminate|]. cbn [exec] in X.
  destruct (negb (is_value id)); [discriminate|].
  assert (U : up s = Ok (set_tx (Modification 2 cs) s)) by (unfold up; rewrite TS; auto).
  rewrite U in X. cbn [obind] in X. change (vals (set_tx (Modification 2 cs) s)) with (vals s) in X.
  rewrite EQ in X. cbn [obind] in X.
  destruct f as [|f]; [discriminate|]. cbn [exec] in X. unfold down in X. simpl in X.
  inversion X; subst. simpl. auto.
Qed.
Print Assumptions C08_equal_set_is_silent.

(** The hypotheses are met in the middle of a transaction that has already set another value; the set
    invalidates the computeds on the way to subscription 10 and leaves the others. *)
Example C08_set_example :
  let h := [CSub k10; CSub k11; CSub k12] in
  let mid := match exec demo 100 (TCmds [CSet v7 3%N]) (set_tx (Modification 1 []) (final demo h)) with
             | Ok s => s | _ => init ones end in
  let aft := match exec demo 100 (TCmds [CSet v1 9%N]) mid with Ok s => s | _ => init ones end in
  let same := match exec demo 100 (TCmds [CSetCompare v1 1%N]) mid with Ok s => s | _ => init ones end in
  ends demo h = true /\
  exec demo 100 (TCmds [CSet v7 3%N]) (set_tx (Modification 1 []) (final demo h)) = Ok mid /\
  exec demo 100 (TCmds [CSet v1 9%N]) mid = Ok aft /\
  exec demo 100 (TCmds [CSetCompare v1 1%N]) mid = Ok same /\
  tx mid = Modification 1 [k11] /\ tx aft = Modification 1 [k10; k11; k12] /\ tx same = tx mid /\
  map (cache mid) [c3; c4; c5; c8] = [Some 2%N; Some 2%N; Some 2%N; None] /\
  map (cache aft) [c3; c4; c5; c8] = [None; None; None; None].
Proof.
  cbv zeta. split; [vm_compute; reflexivity|]. split; [vm_compute; reflexivity|].
  split; [vm_compute; reflexivity|]. split; [vm_compute; reflexivity|]. split; [vm_compute; reflexivity|].
  split; [vm_compute; reflexivity|]. split; [vm_compute; reflexivity|]. split; vm_compute; reflexivity.
Qed.

(** ** C56 *)

(** In any run, when a callback is called again, or its subscription is dropped, the subscriptions that the
    resource returned by its previous call owned (and that existed by then) are dropped: at the end of the run
    none of them is alive. *)
Theorem C56_released_is_dropped {V} (E : @env V) rank vs h s l2 e l1 c v earlier r :
  well_founded_env E rank -> run E vs h s ->
  log s = l2 ++ e :: l1 -> ends_call c e ->
  delivered c l1 = v :: earlier -> In r (s_res (e_sub E c) v) ->
  delivered r l1 <> [] ->
  live s r = false.
Proof.
  intros WF R L EC D I DR. apply (run_own E rank WF vs h s R r l1); auto.
  exists l2, e, c, v, earlier. auto.
Qed.
Print Assumptions C56_released_is_dropped.

(** A subscription that the application never drops itself is dropped only after a call that returned it is
    over. *)
Theorem C56_dropped_only_if_released {V} (E : @env V) rank vs h s r l2 l1 :
  well_founded_env E rank -> run E vs h s ->
  Forall (spares r) h -> (forall c v, Forall (spares r) (s_call (e_sub E c) v)) ->
  log s = l2 ++ EDrop r :: l1 ->
  exists l3 e l0 c v earlier, l1 = l3 ++ e :: l0 /\ ends_call c e /\
    delivered c l0 = v :: earlier /\ In r (s_res (e_sub E c) v).
Proof.
  intros WF R SH SC L. destruct (run_keep E rank WF r SC vs h s R SH l2 l1 L) as (l0 & l3 & e & c & v & w & H).
  exists l3, e, l0, c, v, w. auto.
Qed.
Print Assumptions C56_dropped_only_if_released.

Module OwnDemo.
  Local Open Scope N_scope.
  (** A callback that subscribes to [c3] with a new subscription at every call and returns it. *)
  Definition inner (v : N) : gid := GId KClient (20 + v).
  Definition subs (c : gid) : @sub N :=
    match gnum c with
    | 10 => Sub c5 true (fun v => [CSub (inner v)]) (fun v => [inner v])
    | _ => Sub c3 true (fun _ => []) (fun _ => [])
    end.
  Definition odemo : @env N := Env comp subs (fun v => gid_eqb v v1) N.eqb.

  Lemma odemo_wf : well_founded_env odemo rank.
  Proof.
    split; [exact (proj1 demo_wf)|].
    intros [k n]. simpl. unfold subs. cbn [gnum].
    destruct n as [|p]; simpl; auto. do 4 (try (destruct p as [p|p|]; simpl; auto)).
  Qed.

  Definition is_end (c : gid) (e : @event N) : bool :=
    match e with EDeliver c' _ _ _ => gid_eqb c' c | EDrop c' => gid_eqb c' c | _ => false end.

  (** The log up to (excluding) the newest event that ends a call of [c]. *)
  Fixpoint before_end (c : gid) (l : list (@event N)) : list (@event N) :=
    match l with
    | [] => []
    | e :: t => if is_end c e then t else before_end c t
    end.

  (** Both calls: the first resource is dropped by the second call, the second with the subscription; while
      the subscription lives, its last resource lives. *)
  Example C56_example :
    let h := [CSub k10; CSet v1 5] in
    let h' := h ++ [CDrop k10] in
    ends odemo h = true /\ ends odemo h' = true /\
    delivered k10 (log (final odemo h)) = [10; 2] /\
    delivered k10 (before_end k10 (log (final odemo h))) = [2] /\
    delivered (inner 2) (before_end k10 (log (final odemo h))) <> [] /\
    live (final odemo h) (inner 2) = false /\ live (final odemo h) (inner 10) = true /\
    delivered k10 (before_end k10 (log (final odemo h'))) = [10; 2] /\
    delivered (inner 10) (before_end k10 (log (final odemo h'))) <> [] /\
    live (final odemo h') (inner 10) = false /\
    Forall (spares (inner 2)) h' /\ (forall c v, Forall (spares (inner 2)) (s_call (e_sub odemo c) v)).
  Proof.
    cbv zeta. split; [vm_compute; reflexivity|]. split; [vm_compute; reflexivity|].
    split; [vm_compute; reflexivity|]. split; [vm_compute; reflexivity|]. split; [vm_compute; discriminate|].
    split; [vm_compute; reflexivity|]. split; [vm_compute; reflexivity|]. split; [vm_compute; reflexivity|].
    split; [vm_compute; discriminate|]. split; [vm_compute; reflexivity|]. split.
    - repeat constructor. discriminate.
    - intros [k n] v. simpl. unfold subs. cbn [gnum].
      destruct n as [|p]; simpl; auto. do 4 (try (destruct p as [p|p|]; simpl; auto)). repeat constructor.
  Qed.
End OwnDemo.
