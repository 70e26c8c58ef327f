(** Properties C42 (AutoMap), C48 (public paths), C49 (KEY=value), C50 (watch script). *)

From Coq Require Import String List NArith Bool Lia.
From Verif Require Import CodecModel MapModel DomWire SmallModel.
Import ListNotations.
Local Open Scope string_scope.
Local Open Scope list_scope.
Local Open Scope nat_scope.

Lemma nodup_join {A} (a b : list A) : NoDup a -> NoDup b -> (forall x, In x a -> In x b -> False) -> NoDup (a ++ b).
Proof.
  induction a as [|x a IH]; simpl; intros NA NB D; auto. inversion NA; subst. constructor.
  - rewrite in_app_iff. intros [I|I]; eauto.
  - apply IH; eauto.
Qed.

(** ** C42 *)

Section AutoMap.
  Context {V : Type}.
  Notation gtree := (gtree V).
  Notation cprog := (cprog V).

  (** The creations in a log, and the answers of all gets. *)
  Fixpoint made (t : gtree) : list (N * V) :=
    match t with
    | Hit _ _ => []
    | Made k v inner => flat_map made inner ++ [(k, v)]
    end.
  Fixpoint answers (t : gtree) : list (N * V) :=
    match t with
    | Hit k v => [(k, v)]
    | Made k v inner => flat_map answers inner ++ [(k, v)]
    end.

  (** Every key is created at most once, and every get returns what was created for the key. *)
  Definition memo_table (log : list gtree) : Prop :=
    NoDup (map fst (flat_map made log)) /\
    (forall k v, In (k, v) (flat_map answers log) -> In (k, v) (flat_map made log)).

  (** No creation of a key happens during a creation of the same key. *)
  Inductive nonreentrant : gtree -> Prop :=
  | nr_hit k v : nonreentrant (Hit k v)
  | nr_made k v inner : Forall nonreentrant inner -> ~ In k (map fst (flat_map made inner)) -> nonreentrant (Made k v inner).

  (** One exec: given entries [m], the creations of the log extend [m]; the entries are exactly those. *)
  Definition known (m : hmap V) (l : list (N * V)) (m' : hmap V) : Prop :=
    forall k v, hget m' k = Some v <-> hget m k = Some v \/ In (k, v) l.

  Definition good (m m' : hmap V) (ms ans : list (N * V)) : Prop :=
    (forall k, In k (map fst ms) -> hget m k = None) /\ NoDup (map fst ms) /\ known m ms m' /\
    (forall k v, In (k, v) ans -> hget m' k = Some v).

  Lemma good_trans m m1 m2 a x b y : good m m1 a x -> good m1 m2 b y -> good m m2 (a ++ b) (x ++ y).
  Proof.
    intros (A & B & C & D) (A' & B' & C' & D').
    assert (up : forall k v, hget m1 k = Some v -> hget m2 k = Some v) by (intros k v H; apply C'; auto).
    assert (fresh : forall k, In k (map fst b) -> hget m k = None).
    { intros k I. destruct (hget m k) eqn:E; auto. assert (X : hget m1 k = Some v) by (apply C; auto). rewrite (A' k I) in X. discriminate. }
    split; [|split; [|split]].
    - intros k. rewrite map_app, in_app_iff. intros [I|I]; auto.
    - rewrite map_app. apply nodup_join; auto. intros k I J.
      apply in_map_iff in I. destruct I as ([k' v] & E & I). simpl in E. subst k'.
      assert (X : hget m1 k = Some v) by (apply C; auto). rewrite (A' k J) in X. discriminate.
    - intros k v. rewrite (C' k v), (C k v), in_app_iff. tauto.
    - intros k v. rewrite in_app_iff. intros [I|I]; auto.
  Qed.

  Variable create : N -> N -> cprog.

  Lemma run_good f :
    (forall n m k n' m' v t, am_get create f n m k = Some (n', m', v, t) -> nonreentrant t ->
       good m m' (made t) (answers t) /\ In (k, v) (answers t)) /\
    (forall n m p n' m' v ts, am_prog create f n m p = Some (n', m', v, ts) -> Forall nonreentrant ts ->
       good m m' (flat_map made ts) (flat_map answers ts)).
  Proof.
    induction f as [|f [IHg IHp]]; [split; simpl; intros; discriminate|]. split.
    - intros n m k n' m' v t. simpl. destruct (hget m k) as [x|] eqn:E.
      + intros [= <- <- <- <-] _. simpl. split; [|auto]. split; [intros j []|]. split; [constructor|]. split.
        * intros j w. simpl. tauto.
        * intros j w [[= <- <-]|[]]. auto.
      + destruct (am_prog create f (n + 1) m (create n k)) as [[[[n1 m1] x] inner]|] eqn:P; [|discriminate].
        intros [= <- <- <- <-] NR. inversion NR as [|? ? ? F NI]; subst. apply IHp in P; auto.
        destruct P as (A & B & C & D). simpl. split; [|apply in_app_iff; simpl; auto].
        assert (E1 : hget m1 k = None).
        { destruct (hget m1 k) as [y|] eqn:Y; auto. apply C in Y. destruct Y as [Y|Y]; [congruence|].
          destruct NI. apply in_map_iff. exists (k, y). auto. }
        apply (good_trans m m1 (hset m1 k x) (flat_map made inner) (flat_map answers inner) [(k, x)] [(k, x)]).
        * split; [auto|split; auto].
        * split; [|split; [|split]].
          -- intros j [<-|[]]. auto.
          -- simpl. constructor; [intros []|constructor].
          -- intros j w. rewrite hget_set. simpl. destruct (N.eqb_spec j k).
             ++ subst. split; [intros [= ->]; auto|]. intros [X|[[= ->]|[]]]; congruence.
             ++ split; auto. intros [X|[[= -> ->]|[]]]; congruence.
          -- intros j w [[= <- <-]|[]]. rewrite hget_set, N.eqb_refl. auto.
    - intros n m p n' m' v ts. simpl. destruct p as [x|k c].
      + intros [= <- <- <- <-] _. simpl. split; [intros j []|]. split; [constructor|]. split; [intros j w; simpl; tauto|intros j w []].
      + destruct (am_get create f n m k) as [[[[n1 m1] x] t]|] eqn:G; [|discriminate].
        destruct (am_prog create f n1 m1 (c x)) as [[[[n2 m2] y] ts']|] eqn:P; [|discriminate].
        intros [= <- <- <- <-] F. inversion F; subst. simpl. eapply good_trans; [eapply IHg; eauto|eapply IHp; eauto].
  Qed.

  (** Without re-entrant creation of a key (whatever state the create function has). *)
  Theorem C42_memo_partial : forall fuel ks log, am_run create fuel 0 [] ks = Some log -> Forall nonreentrant log -> memo_table log.
  Proof.
    intros fuel ks log.
    assert (G : forall ks n m log, am_run create fuel n m ks = Some log -> Forall nonreentrant log ->
       exists m', good m m' (flat_map made log) (flat_map answers log)).
    { clear. induction ks as [|k ks IH]; intros n m log; simpl.
      - intros [= <-] _. exists m. split; [intros j []|]. split; [constructor|]. split; [intros j w; simpl; tauto|intros j w []].
      - destruct (am_get create fuel n m k) as [[[[n1 m1] x] t]|] eqn:E; [|discriminate].
        destruct (am_run create fuel n1 m1 ks) as [log'|] eqn:R; [|discriminate]. intros [= <-] F. inversion F; subst.
        destruct (IH _ _ _ R) as [m' H']; auto. exists m'. simpl. eapply good_trans; [eapply run_good; eauto|auto]. }
    intros R F. destruct (G _ _ _ _ R F) as (m' & A & B & C & D). split; auto.
    intros k v I. apply D in I. apply C in I. destruct I as [I|I]; auto. discriminate.
  Qed.

  (** The gets a program may make satisfy [P] (whatever they return). *)
  Inductive gets_only (P : N -> Prop) : cprog -> Prop :=
  | go_ret v : gets_only P (Ret v)
  | go_get k c : P k -> (forall v, gets_only P (c v)) -> gets_only P (Get k c).

  Lemma ranked_low (rank : N -> nat) f :
    (forall n k, gets_only (fun j => rank j < rank k) (create n k)) ->
    (forall n m k n' m' v t, am_get create f n m k = Some (n', m', v, t) ->
       nonreentrant t /\ forall j, In j (map fst (made t)) -> rank j <= rank k) /\
    (forall n m p n' m' v ts b, am_prog create f n m p = Some (n', m', v, ts) -> gets_only (fun j => rank j < b) p ->
       Forall nonreentrant ts /\ forall j, In j (map fst (flat_map made ts)) -> rank j < b).
  Proof.
    intros R. induction f as [|f [IHg IHp]]; [split; simpl; intros; discriminate|]. split.
    - intros n m k n' m' v t. simpl. destruct (hget m k) as [x|] eqn:E.
      + intros [= <- <- <- <-]. split; [constructor|intros j []].
      + destruct (am_prog create f (n + 1) m (create n k)) as [[[[n1 m1] x] inner]|] eqn:P; [|discriminate].
        intros [= <- <- <- <-]. apply (IHp _ _ _ _ _ _ _ (rank k)) in P; auto. destruct P as [F L]. split.
        * constructor; auto. intros I. apply L in I. lia.
        * intros j. simpl. rewrite map_app, in_app_iff. simpl. intros [I|[<-|[]]]; [apply L in I|]; lia.
    - intros n m p n' m' v ts b. simpl. destruct p as [x|k c].
      + intros [= <- <- <- <-] _. split; [constructor|intros j []].
      + destruct (am_get create f n m k) as [[[[n1 m1] x] t]|] eqn:G; [|discriminate].
        destruct (am_prog create f n1 m1 (c x)) as [[[[n2 m2] y] ts']|] eqn:P; [|discriminate].
        intros [= <- <- <- <-] GO. inversion GO; subst. apply IHg in G. apply (IHp _ _ _ _ _ _ _ b) in P; auto.
        destruct G as [G1 G2], P as [P1 P2]. split; [constructor; auto|].
        intros j. simpl. rewrite map_app, in_app_iff. intros [I|I]; auto. apply G2 in I. lia.
  Qed.

  (** A create function (with or without state) that only gets keys before its own in some order. *)
  Theorem C42_ranked : forall (rank : N -> nat), (forall n k, gets_only (fun j => rank j < rank k) (create n k)) ->
    forall fuel ks log, am_run create fuel 0 [] ks = Some log -> memo_table log.
  Proof.
    intros rank R fuel ks log E. apply (C42_memo_partial fuel ks); auto.
    revert E. generalize 0%N, (@nil (N * V)). revert log. induction ks as [|k ks IH]; simpl; intros log n m.
    - intros [= <-]. constructor.
    - destruct (am_get create fuel n m k) as [[[[n1 m1] x] t]|] eqn:E; [|discriminate].
      destruct (am_run create fuel n1 m1 ks) as [log'|] eqn:Q; [|discriminate]. intros [= <-].
      constructor; [|eapply IH; eauto]. eapply (proj1 (ranked_low rank fuel R)); eauto.
  Qed.

  (** *** A create function without state *)

  Hypothesis stateless : forall n n' k, create n k = create n' k.

  (** Evaluation without a map, and its depth. *)
  Inductive eval_k : nat -> N -> V -> Prop :=
  | ek n k v : eval_p n (create 0 k) v -> eval_k (S n) k v
  with eval_p : nat -> cprog -> V -> Prop :=
  | ep_ret v : eval_p 0 (Ret v) v
  | ep_get a b k c x v : eval_k a k x -> eval_p b (c x) v -> eval_p (S (Nat.max a b)) (Get k c) v.
  Scheme eval_k_ind' := Induction for eval_k Sort Prop
    with eval_p_ind' := Induction for eval_p Sort Prop.
  Combined Scheme eval_ind from eval_k_ind', eval_p_ind'.

  Lemma eval_det : (forall n k v, eval_k n k v -> forall n' v', eval_k n' k v' -> n = n' /\ v = v') /\
    (forall n p v, eval_p n p v -> forall n' v', eval_p n' p v' -> n = n' /\ v = v').
  Proof.
    apply (eval_ind (fun n k v _ => forall n' v', eval_k n' k v' -> n = n' /\ v = v')
                    (fun n p v _ => forall n' v', eval_p n' p v' -> n = n' /\ v = v')).
    - intros n k v _ IH n' v' H. inversion H; subst. destruct (IH _ _ H0). subst. auto.
    - intros v n' v' H. inversion H; subst. auto.
    - intros a b k c x v _ IH1 _ IH2 n' v' H. inversion H; subst. 
      match goal with Q : eval_k _ k _ |- _ => destruct (IH1 _ _ Q); subst end.
      match goal with Q : eval_p _ (c _) _ |- _ => destruct (IH2 _ _ Q); subst end. auto.
  Qed.

  Definition consistent (m : hmap V) : Prop := forall k v, hget m k = Some v -> exists n, eval_k n k v.

  Lemma stateless_low f :
    (forall n m k n' m' v t, am_get create f n m k = Some (n', m', v, t) -> consistent m ->
       nonreentrant t /\ consistent m' /\ exists h, eval_k h k v /\ forall j, In j (map fst (made t)) -> exists a w, eval_k a j w /\ a <= h) /\
    (forall n m p n' m' v ts, am_prog create f n m p = Some (n', m', v, ts) -> consistent m ->
       Forall nonreentrant ts /\ consistent m' /\
       exists h, eval_p h p v /\ forall j, In j (map fst (flat_map made ts)) -> exists a w, eval_k a j w /\ a <= h).
  Proof.
    induction f as [|f [IHg IHp]]; [split; simpl; intros; discriminate|]. split.
    - intros n m k n' m' v t. simpl. destruct (hget m k) as [x|] eqn:E.
      + intros [= <- <- <- <-] C. split; [constructor|]. split; auto. destruct (C _ _ E) as [h H]. exists h. split; auto. intros j [].
      + destruct (am_prog create f (n + 1) m (create n k)) as [[[[n1 m1] x] inner]|] eqn:P; [|discriminate].
        intros [= <- <- <- <-] C. apply IHp in P; auto. destruct P as (F & C1 & h & H & L).
        rewrite (stateless n 0 k) in H.
        assert (EK : eval_k (S h) k x) by (constructor; auto).
        split; [|split].
        * constructor; auto. intros I. destruct (L _ I) as (a & w & Ha & LE).
          destruct (proj1 eval_det _ _ _ EK _ _ Ha). lia.
        * intros j w. rewrite hget_set. destruct (N.eqb_spec j k); [intros [= <-]; subst; eauto|apply C1].
        * exists (S h). split; auto. intros j. simpl. rewrite map_app, in_app_iff. simpl. intros [I|[<-|[]]]; [|eauto].
          destruct (L _ I) as (a & w & Ha & LE). exists a, w. split; auto.
    - intros n m p n' m' v ts. simpl. destruct p as [x|k c].
      + intros [= <- <- <- <-] C. split; [constructor|]. split; auto. exists 0. split; [constructor|intros j []].
      + destruct (am_get create f n m k) as [[[[n1 m1] x] t]|] eqn:G; [|discriminate].
        destruct (am_prog create f n1 m1 (c x)) as [[[[n2 m2] y] ts']|] eqn:P; [|discriminate].
        intros [= <- <- <- <-] C. apply IHg in G; auto. destruct G as (NR & C1 & a & Ha & La).
        apply IHp in P; auto. destruct P as (F & C2 & b & Hb & Lb).
        split; [constructor; auto|]. split; auto. exists (S (Nat.max a b)). split; [econstructor; eauto|].
        intros j. simpl. rewrite map_app, in_app_iff. intros [I|I].
        * destruct (La _ I) as (a' & w & H & LE). exists a', w. split; auto. lia.
        * destruct (Lb _ I) as (a' & w & H & LE). exists a', w. split; auto. lia.
  Qed.

  (** The full property for a create function without state. *)
  Theorem C42_stateless_partial : forall fuel ks log, am_run create fuel 0 [] ks = Some log -> memo_table log.
  Proof.
    intros fuel ks log E. apply (C42_memo_partial fuel ks); auto.
    assert (C : consistent []) by (intros k v H; discriminate H).
    revert E C. generalize 0%N, (@nil (N * V)). revert log. induction ks as [|k ks IH]; simpl; intros log n m.
    - intros [= <-]. constructor.
    - destruct (am_get create fuel n m k) as [[[[n1 m1] x] t]|] eqn:E; [|discriminate].
      destruct (am_run create fuel n1 m1 ks) as [log'|] eqn:Q; [|discriminate]. intros [= <-] C.
      apply (proj1 (stateless_low fuel)) in E; auto. destruct E as (NR & C1 & _). constructor; auto. eapply IH; eauto.
  Qed.
End AutoMap.

(** The statement for all create functions. *)
Definition C42_statement : Prop := forall V (create : N -> N -> cprog V) fuel ks log,
  am_run create fuel 0 [] ks = Some log -> memo_table log.

(** A create function that gets its own key on the first call only: both calls create, the inner get returns the
    inner value, all later ones the outer value. *)
Theorem C42_statement_refuted : ~ C42_statement.
Proof.
  intros H.
  pose (create := fun n (k : N) => if (n =? 0)%N then Get k (fun v => Ret (v + 1)%N) else Ret 5%N).
  specialize (H N create 10 [7%N; 7%N] [Made 7 6%N [Made 7 5%N []]; Hit 7 6%N] eq_refl). destruct H as [H _].
  simpl in H. inversion H as [|? ? NI _]. apply NI. simpl. auto.
Qed.

(** fibonacci: create(k) = get(k-1) + get(k-2) *)
Example C42_example :
  let create := fun (_ k : N) => if (k <? 2)%N then Ret k else Get (k - 1) (fun a => Get (k - 2) (fun b => Ret (a + b)%N)) in
  exists log, am_run create 40 0 [] [10%N; 9%N] = Some log /\ In (10%N, 55%N) (flat_map answers log) /\
    length (flat_map made log) = 11 /\ (forall n n' k, create n k = create n' k) /\
    (forall n k, gets_only (fun j => N.to_nat j < N.to_nat k) (create n k)).
Proof.
  cbv zeta. eexists. split; [vm_compute; reflexivity|]. split; [vm_compute; tauto|]. split; [reflexivity|]. split; auto.
  intros n k. destruct (N.ltb_spec k 2); [constructor|]. constructor; [lia|]. intros a. constructor; [lia|]. intros b. constructor.
Qed.

(** ** C49 *)

Lemma find_some c s i : find_at c s = Some i <-> exists a b, s = a ++ c :: b /\ length a = i /\ ~ In c a.
Proof.
  revert i. induction s as [|x s IH]; intros i; simpl.
  - split; [discriminate|]. intros ([|? ?] & b & E & _); discriminate.
  - destruct (N.eqb_spec x c).
    + subst. split.
      * intros [= <-]. exists [], s. repeat split; auto.
      * intros ([|y a] & b & E & L & NI); [simpl in L; congruence|]. inversion E; subst. destruct NI. simpl. auto.
    + split.
      * destruct (find_at c s) as [j|]; [|discriminate]. intros [= <-]. destruct (proj1 (IH j) eq_refl) as (a & b & -> & L & NI).
        exists (x :: a), b. split; auto. split; [simpl; congruence|]. intros [E|E]; auto.
      * intros ([|y a] & b & E & L & NI); inversion E; subst; [congruence|].
        rewrite (proj2 (IH (length a))); auto. exists a, b. repeat split; auto. intros X; apply NI; simpl; auto.
Qed.

Lemma find_none c s : find_at c s = None <-> ~ In c s.
Proof.
  induction s as [|x s IH]; simpl; [split; auto|]. destruct (N.eqb_spec x c).
  - split; [discriminate|]. intros H; destruct H; auto.
  - destruct (find_at c s); simpl; split; try discriminate.
    + intros H. destruct IH as [_ IH]. discriminate IH. tauto.
    + intros _ [E|E]; auto. apply (proj1 IH); auto.
    + auto.
Qed.

(** Key and value are what is before and after the first '='; without one it fails. *)
Theorem C49_first_equals : forall T U (parse_t : bytes -> option T) (parse_u : bytes -> option U) s,
  (forall k v, s = k ++ 61%N :: v -> ~ In 61%N k ->
     parse_key_val parse_t parse_u s = match parse_t k, parse_u v with Some t, Some u => Some (t, u) | _, _ => None end) /\
  (~ In 61%N s -> parse_key_val parse_t parse_u s = None).
Proof.
  intros T U pt pu s. split.
  - intros k v -> NI. unfold parse_key_val. rewrite (proj2 (find_some _ _ (length k))) by (exists k, v; auto).
    rewrite firstn_app, PeanoNat.Nat.sub_diag, firstn_all. simpl. rewrite app_nil_r.
    rewrite skipn_app. replace (length k + 1 - length k) with 1 by lia. rewrite skipn_all2 by lia. reflexivity.
  - intros NI. unfold parse_key_val. rewrite (proj2 (find_none _ _)); auto.
Qed.

(** For texts (String: FromStr never fails). *)
Theorem C49_strings : forall s, (parse_key_val Some Some s = None <-> ~ In 61%N s) /\
  (forall k v, parse_key_val Some Some s = Some (k, v) <-> s = k ++ 61%N :: v /\ ~ In 61%N k).
Proof.
  intros s. split.
  - split; [|apply C49_first_equals]. unfold parse_key_val. destruct (find_at 61 s) eqn:E; [discriminate|]. intros _. apply find_none. auto.
  - intros k v. split.
    + intros H. unfold parse_key_val in H. destruct (find_at 61 s) as [i|] eqn:E; [|discriminate].
      destruct (proj1 (find_some _ _ _) E) as (a & b & -> & <- & NI).
      pose proof (proj1 (C49_first_equals bytes bytes Some Some (a ++ 61%N :: b)) a b eq_refl NI) as X.
      unfold parse_key_val in X. rewrite E in X. rewrite X in H. inversion H; subst. auto.
    + intros [E NI]. rewrite (proj1 (C49_first_equals bytes bytes Some Some s) k v E NI). auto.
Qed.

Example C49_example : parse_key_val Some Some (str "KEY=a=b") = Some (str "KEY", str "a=b") /\
  parse_key_val Some Some (str "KEY") = None /\ ~ In 61%N (str "KEY").
Proof. split; [reflexivity|]. split; [reflexivity|]. vm_compute. intuition discriminate. Qed.

(** ** C48 *)

Lemma strip_some pat s r : strip_prefix pat s = Some r <-> s = pat ++ r.
Proof.
  revert s. induction pat as [|p pat IH]; intros s; simpl; [split; congruence|].
  destruct s as [|c s]; [split; discriminate|]. destruct (N.eqb_spec p c).
  - subst. rewrite IH. split; [intros ->; auto|intros [= ->]; auto].
  - split; [discriminate|congruence].
Qed.

(** The mount point is the directory part: everything before the last '/'; without one there is none. *)
Theorem C48_base_dir : forall path,
  (forall dir file, path = dir ++ slash :: file -> ~ In slash file -> get_base_dir path = Some dir) /\
  (~ In slash path -> get_base_dir path = None).
Proof.
  assert (NE : forall c s, split_at c s <> []).
  { intros c s. destruct s as [|x s]; simpl; [discriminate|]. destruct (x =? c)%N; [discriminate|]. destruct (split_at c s); discriminate. }
  assert (A : forall file, ~ In slash file -> split_at slash file = [file]).
  { induction file as [|x f IH]; simpl; auto. intros NI. destruct (N.eqb_spec x slash); [destruct NI; auto|]. rewrite IH; auto. }
  assert (B : forall dir file, ~ In slash file -> split_at slash (dir ++ slash :: file) = split_at slash dir ++ [file]).
  { induction dir as [|x d IH]; intros file NI.
    - simpl. rewrite A; auto.
    - simpl. rewrite IH by auto. destruct (x =? slash)%N; auto. destruct (split_at slash d) eqn:E; [destruct (NE slash d); auto|]. auto. }
  assert (J : forall s, join [slash] (split_at slash s) = s).
  { induction s as [|x s IH]; simpl; auto. destruct (N.eqb_spec x slash).
    - subst. simpl. destruct (split_at slash s) eqn:E; [destruct (NE slash s); auto|]. rewrite <- E in *. simpl in IH. rewrite IH. auto.
    - destruct (split_at slash s) as [|h r] eqn:E; [destruct (NE slash s); auto|]. destruct r; simpl in *; congruence. }
  intros path. split.
  - intros dir file -> NI. unfold get_base_dir. rewrite B by auto. rewrite removelast_last.
    destruct (split_at slash dir) eqn:E; [destruct (NE slash dir); auto|]. rewrite <- E, J. destruct (split_at slash dir); auto.
  - intros NI. unfold get_base_dir. rewrite A by auto. auto.
Qed.

(** A path below the mount point maps to the same relative path; one that does not start with the mount point
    is rejected. *)
Theorem C48_prefix : forall public dest path,
  (forall rest, path = public ++ slash :: rest -> replace_prefix public dest path = Some (dest ++ slash :: rest)) /\
  ((forall rest, path <> public ++ rest) -> replace_prefix public dest path = None) /\
  (forall file, replace_prefix public dest path = Some file -> exists rest, path = public ++ rest /\ file = dest ++ rest).
Proof.
  intros public dest path. unfold replace_prefix. split; [|split].
  - intros rest E. rewrite (proj2 (strip_some public path (slash :: rest))); auto.
  - intros H. destruct (strip_prefix public path) eqn:E; auto. apply strip_some in E. destruct (H _ E).
  - intros file. destruct (strip_prefix public path) eqn:E; [|discriminate]. intros [= <-]. apply strip_some in E. eauto.
Qed.

(** "Any other path is rejected" is false: the prefix need not end at a path component. *)
Theorem C48_component_refuted : exists public dest path file, replace_prefix public dest path = Some file /\
  path <> public /\ forall rest, path <> public ++ slash :: rest.
Proof.
  exists (str "/build"), (str "out"), (str "/build2/x"), (str "out2/x"). split; [reflexivity|]. split; [discriminate|].
  intros rest. vm_compute. discriminate.
Qed.

Example C48_example : get_base_dir (str "/build/app.wasm") = Some (str "/build") /\
  replace_prefix (str "/build") (str "out") (str "/build/app.wasm") = Some (str "out/app.wasm").
Proof. split; reflexivity. Qed.

(** ** C50 *)

Lemma contains_iff pat s : contains pat s = true <-> exists a b, s = a ++ pat ++ b.
Proof.
  induction s as [|c s IH]; simpl.
  - destruct (strip_prefix pat []) as [r|] eqn:E; split; try discriminate; auto.
    + intros _. apply strip_some in E. exists [], r. auto.
    + intros ([|? ?] & b & X); [|discriminate]. simpl in X. apply strip_some in X. congruence.
  - destruct (strip_prefix pat (c :: s)) as [r|] eqn:E.
    + split; auto. intros _. apply strip_some in E. exists [], r. auto.
    + rewrite IH. split.
      * intros (a & b & ->). exists (c :: a), b. auto.
      * intros ([|y a] & b & X); [simpl in X; apply strip_some in X; congruence|]. inversion X; subst. eauto.
Qed.

Lemma replace_skip pat by_ s b : replace_go pat by_ (length s) (s ++ b) = replace_go pat by_ 0 b.
Proof. induction s as [|x s IH]; [reflexivity|exact IH]. Qed.

Lemma replace_none pat by_ s : contains pat s = false -> replace pat by_ s = s.
Proof.
  unfold replace. induction s as [|c s IH]; simpl; auto. destruct (strip_prefix pat (c :: s)); [discriminate|]. intros H. f_equal. auto.
Qed.

Lemma replace_first p0 pat by_ a b : (forall a' b', a ++ (p0 :: pat) ++ b = a' ++ (p0 :: pat) ++ b' -> length a <= length a') ->
  replace (p0 :: pat) by_ (a ++ (p0 :: pat) ++ b) = a ++ by_ ++ replace (p0 :: pat) by_ b.
Proof.
  unfold replace. induction a as [|x a IH]; intros H.
  - change ([] ++ (p0 :: pat) ++ b) with (p0 :: (pat ++ b)). cbn [replace_go].
    rewrite (proj2 (strip_some (p0 :: pat) (p0 :: (pat ++ b)) b)) by reflexivity.
    replace (length (p0 :: pat) - 1) with (length pat) by (simpl; lia). rewrite replace_skip. reflexivity.
  - change ((x :: a) ++ (p0 :: pat) ++ b) with (x :: (a ++ (p0 :: pat) ++ b)). cbn [replace_go].
    destruct (strip_prefix (p0 :: pat) (x :: (a ++ (p0 :: pat) ++ b))) as [r|] eqn:E.
    + apply strip_some in E. specialize (H [] r). rewrite <- app_comm_cons in H. specialize (H E). simpl in H. lia.
    + rewrite IH; [reflexivity|]. intros a' b' X. specialize (H (x :: a') b'). simpl in H. specialize (H ltac:(f_equal; exact X)). lia.
Qed.

Lemma replace_once pat by_ a b : pat <> [] -> (forall a' b', a ++ pat ++ b = a' ++ pat ++ b' -> length a <= length a') ->
  replace pat by_ (a ++ pat ++ b) = a ++ by_ ++ replace pat by_ b.
Proof. destruct pat; [congruence|]. intros _. apply replace_first. Qed.

(** What is added. *)
Definition watch_script (watch start : bytes) : bytes :=
  str "<script>" ++ newline :: watch ++ newline :: start ++ newline :: str "</script>".

(** Only successful HTML responses are changed, and status and type never. *)
Theorem C50_only_html : forall watch start r, let r' := add_watch_script watch start r in
  r_status r' = r_status r /\ r_type r' = r_type r /\
  (~ (200 <= r_status r < 300)%N \/ r_type r = Plain -> r' = r).
Proof.
  intros watch start r. cbv zeta. unfold add_watch_script.
  destruct (is_success (r_status r) && match r_type r with Html => true | Plain => false end) eqn:E.
  - destruct (contains body_end (r_body r)); (split; [reflexivity|]; split; [reflexivity|]);
      (apply andb_true_iff in E; destruct E as [E1 E2]; unfold is_success in E1; apply andb_true_iff in E1; destruct E1 as [E1 E3];
       apply N.leb_le in E1; apply N.ltb_lt in E3; intros [X|X]; [tauto|rewrite X in E2; discriminate]).
  - auto.
Qed.

(** A document with one "</body>": the script is inserted before it (followed by two line ends) and nothing else
    changes.  Without one it is appended. *)
Theorem C50_inserted_partial : forall watch start status, (200 <= status < 300)%N ->
  (forall a b, (forall a' b', a ++ body_end ++ b = a' ++ body_end ++ b' -> a = a') ->
     r_body (add_watch_script watch start (Response status Html (a ++ body_end ++ b))) =
     a ++ watch_script watch start ++ newline :: newline :: body_end ++ b) /\
  (forall s, (forall a b, s <> a ++ body_end ++ b) ->
     r_body (add_watch_script watch start (Response status Html s)) = s ++ newline :: watch_script watch start).
Proof.
  intros watch start status S.
  assert (OK : is_success status = true).
  { unfold is_success. rewrite (proj2 (N.leb_le _ _)), (proj2 (N.ltb_lt _ _)) by lia. auto. }
  split.
  - intros a b U. unfold add_watch_script. cbn [r_status r_type r_body]. rewrite OK. cbn [andb].
    rewrite (proj2 (contains_iff _ _)) by eauto. cbn [r_body].
    rewrite replace_once; [|discriminate|].
    2:{ intros a' b' E. apply U in E. subst. lia. }
    f_equal.
    rewrite replace_none.
    2:{ destruct (contains _ b) eqn:C; auto. apply contains_iff in C. destruct C as (x & y & ->).
      specialize (U (a ++ body_end ++ x) y). rewrite <- !app_assoc in U. specialize (U eq_refl).
      apply (f_equal (@length N)) in U. rewrite !app_length in U. unfold body_end in U. simpl in U. lia. }
    unfold watch_script. cbn [join skipn]. 
    repeat (rewrite <- ?app_assoc; rewrite <- ?app_comm_cons). reflexivity.
  - intros s H. unfold add_watch_script. cbn [r_status r_type r_body]. rewrite OK. cbn [andb].
    destruct (contains body_end s) eqn:C; [apply contains_iff in C; destruct C as (a & b & E); destruct (H _ _ E)|].
    reflexivity.
Qed.

(** "Exactly once" is false if "</body>" occurs more often, e.g. in an inline script: every occurrence gets a copy. *)
Theorem C50_once_refuted : exists s a b c, let S := watch_script [] [] in
  r_body (add_watch_script [] [] (Response 200 Html s)) = a ++ S ++ b ++ S ++ c.
Proof.
  exists (str "<body><script>x = '</body>';</script></body>"), (str "<body><script>x = '"),
    (newline :: newline :: str "</body>';</script>"), (newline :: newline :: str "</body>").
  vm_compute. reflexivity.
Qed.

Example C50_example : forall a' b', str "<body><p>hi</p>" ++ body_end ++ str "</html>" = a' ++ body_end ++ b' -> str "<body><p>hi</p>" = a'.
Proof.
  assert (G : forall s a b, s = a ++ body_end ++ b -> forall n, length a = n ->
     strip_prefix body_end (skipn n s) = Some b) .
  { intros s a b -> n <-. rewrite skipn_app, skipn_all, PeanoNat.Nat.sub_diag. simpl app. apply strip_some. reflexivity. }
  intros a' b' E. pose proof (G _ _ _ E (length a') eq_refl) as X.
  assert (L : length a' <= 29).
  { apply (f_equal (@length N)) in E. rewrite (app_length a') in E. change (length (str "<body><p>hi</p>" ++ body_end ++ str "</html>")) with 29 in E. lia. }
  assert (A : a' = firstn (length a') (str "<body><p>hi</p>" ++ body_end ++ str "</html>")).
  { rewrite E, firstn_app, firstn_all, PeanoNat.Nat.sub_diag. simpl. rewrite app_nil_r. auto. }
  remember (length a') as n. clear - X L A. 
  do 30 (destruct n as [|n]; [vm_compute in X; (discriminate X || (rewrite A; reflexivity))|]). lia.
Qed.
