(** Websockets: what the application is told (C69), what is sent (C70), dropping (C71), reconnecting (C72).  What is said is
    said of what happened, newest first; its vocabulary is at the top of WebsocketInv.v. *)
From Coq Require Import List Arith NArith Bool Lia.
From Verif Require Import CodecModel WebsocketModel WebsocketInv.
Import ListNotations.
Local Open Scope nat_scope.

Section Websocket.
  Variable valid : bytes -> bool.
  Variable app : list obs -> list action.
  Notation resume := (resume valid app). Notation step := (step valid app). Notation run := (run valid app).
  Notation grows := (grows valid). Notation good := (good valid). Notation inv := (inv valid).

  (** ** From the way the log grows *)
  Definition fact (o : obs) (b : list obs) : Prop :=
    match o with
    | OAsk id _ => forall h, ~ In (OAsk id h) b
    | OCreated id k h => dropped id b = false /\ In (OAsk id h) b /\ valid h = true /\ forall j, mine j k b = false
    | OOpen k => ended k b = false
    | OTold id _ => dropped id b = false
    | ODrop id => dropped id b = false
    | OSent k t => exists id b', b = OSend id t :: b' /\ on_line id k b'
    | OThrow => False
    | _ => True
    end.
  Lemma quiet_fact o m : quiet valid o m -> fact o m.
  Proof. destruct o; cbn; tauto. Qed.
  Lemma facts base l : grows base l -> base = [] -> forall a o b, l = a ++ o :: b -> fact o b.
  Proof.
    induction 1 as [l|l m o G IH Q|l m id n G IH D NN E|l m id k t G IH O U|l m id t G IH O]; intros B a x b EQ; subst.
    - destruct a; discriminate.
    - destruct a as [|y a]; injection EQ as <- EQ; [subst; apply quiet_fact; auto|eauto].
    - assert (X : forall a, ODrop id :: m = a ++ x :: b -> fact x b).
      { intros [|y c] Y; injection Y as <- Y; [subst; exact D|eauto]. }
      destruct NN as [->|(k & -> & _)]; [eauto|]. destruct a as [|y a]; injection EQ as <- EQ; [exact I|eauto].
    - destruct a as [|y [|z a]].
      + injection EQ as <- <-. cbn. eauto.
      + injection EQ as <- <- <-. exact I.
      + injection EQ as <- <- EQ. eauto.
    - destruct a as [|y a]; injection EQ as <- EQ; [exact I|eauto].
  Qed.
  Lemma sends base l : grows base l -> base = [] -> forall a id t k b, l = a ++ OSend id t :: b -> on_line id k b -> exists a', a = a' ++ [OSent k t].
  Proof.
    assert (C : forall (x : obs) a (o : obs), (exists a', a = a' ++ [o]) -> exists a', x :: a = a' ++ [o]) by (intros x a o (a' & ->); exists (x :: a'); auto).
    induction 1 as [l|l m o G IH Q|l m i n G IH D NN E|l m i j s G IH O U|l m i s G IH O]; intros B a id t k b EQ OL; subst.
    - destruct a; discriminate.
    - destruct a as [|y a]; [injection EQ as -> ->; contradiction|injection EQ as <- EQ; eauto].
    - assert (X : forall a, ODrop i :: m = a ++ OSend id t :: b -> exists a', a = a' ++ [OSent k t]).
      { intros [|y c] Y; [discriminate|]. injection Y as <- Y. eauto. }
      destruct NN as [->|(j & -> & _)]; [eauto|]. destruct a as [|y a]; [discriminate|]. injection EQ as <- EQ. eauto.
    - destruct a as [|y [|z a]]; [discriminate| |].
      + injection EQ as <- -> -> ->. rewrite (U k OL). exists []. auto.
      + injection EQ as <- <- EQ. eauto.
    - destruct a as [|y a]; [injection EQ as -> -> ->; destruct (O k OL)|injection EQ as <- EQ; eauto].
  Qed.
  Lemma dropped_app id a b : dropped id (a ++ b) = dropped id a || dropped id b.
  Proof. apply existsb_app. Qed.
  Lemma mine_app id k a b : mine id k (a ++ b) = mine id k a || mine id k b.
  Proof. apply existsb_app. Qed.
  Lemma ended_app k a b : ended k (a ++ b) = ended k a || ended k b.
  Proof. apply existsb_app. Qed.
  Lemma opened_app k a b : opened k (a ++ b) = opened k a || opened k b.
  Proof. apply existsb_app. Qed.
  Lemma mine_in id k l : mine id k l = true <-> exists h, In (OCreated id k h) l.
  Proof.
    unfold mine. rewrite existsb_exists. split.
    - intros (o & IN & E). destruct o; try discriminate. apply andb_true_iff in E. rewrite !Nat.eqb_eq in E. destruct E as (-> & ->). eauto.
    - intros (h & IN). exists (OCreated id k h). rewrite !Nat.eqb_refl. auto.
  Qed.
  Lemma closes base l : grows base l -> base = [] -> forall a id k b, l = a ++ ODrop id :: b -> mine id k b = true -> opened k b = true -> ended k l = true.
  Proof.
    assert (C : forall (o : obs) k l, ended k l = true -> ended k (o :: l) = true) by (intros; unfold ended in *; cbn [existsb]; rewrite H; apply orb_true_r).
    induction 1 as [l|l m o G IH Q|l m i n G IH D NN E|l m i j s G IH O U|l m i s G IH O]; intros B a id k b EQ M OP; subst.
    - destruct a; discriminate.
    - destruct a as [|y a]; [injection EQ as -> ->; contradiction|injection EQ as <- EQ]. apply C. eauto.
    - assert (X : forall c n, ODrop i :: m = c ++ ODrop id :: b -> (c = [] -> ended k (n ++ m) = true) -> ended k (n ++ ODrop i :: m) = true).
      { intros c n0 Y Z. rewrite ended_app. apply orb_true_iff. destruct c as [|y c].
        - specialize (Z eq_refl). rewrite ended_app in Z. apply orb_true_iff in Z. destruct Z as [Z|Z]; auto.
        - injection Y as <- Y. right. apply C. eauto. }
      destruct NN as [->|(j & -> & _)].
      + apply (X a []); auto. intros ->. injection EQ as -> ->. auto.
      + destruct a as [|y a]; [discriminate|]. injection EQ as <- EQ. apply (X a [OClose j]); auto. intros ->. injection EQ as -> ->. auto.
    - destruct a as [|y [|z a]]; [discriminate|discriminate|]. injection EQ as <- <- EQ. apply C, C. eauto.
    - destruct a as [|y a]; [discriminate|]. injection EQ as <- EQ. apply C. eauto.
  Qed.
  Lemma suffix l l' : grows l l' -> exists a, l' = a ++ l.
  Proof.
    induction 1 as [l|l m o G (a & ->) Q|l m id n G (a & ->) D NN E|l m id k t G (a & ->) O U|l m id t G (a & ->) O].
    - exists []; auto.
    - exists (o :: a); auto.
    - exists (n ++ ODrop id :: a). rewrite <- app_assoc. auto.
    - exists (OSent k t :: OSend id t :: a); auto.
    - exists (OSend id t :: a); auto.
  Qed.
  Lemma after a o b l : grows [] l -> l = a ++ o :: b -> forall x, In x a -> exists c d, a = c ++ x :: d /\ fact x (d ++ o :: b).
  Proof.
    intros G E x IN. apply in_split in IN. destruct IN as (c & d & ->). exists c, d. split; auto. apply (facts [] l G eq_refl c). rewrite E, <- app_assoc. auto.
  Qed.
  Lemma drop_seen id d b : dropped id (d ++ ODrop id :: b) = true.
  Proof. rewrite dropped_app. cbn. rewrite Nat.eqb_refl. apply orb_true_r. Qed.

  Lemma good_log es w : run es start = Some w -> good w /\ grows [] (w_log w).
  Proof. intros E. apply (run_good valid app es start w (start_good valid) E). Qed.

  (** ** C69 *)
  (** Whenever the page is idle, the callback has been handed exactly what it should. *)
  Theorem C69_told es w id : run es start = Some w -> w_queue w = [] -> told id (w_log w) = expected id (w_log w).
  Proof.
    intros E Q. destruct (good_log es w E) as (((S & R & F) & _) & _). destruct (nth_error (w_regs w) id) as [r|] eqn:N.
    - destruct (R id r N) as (_ & _ & _ & _ & _ & _ & PC). unfold pc_ok in PC. rewrite Q in PC. cbn [count_occ] in PC. destruct (r_pc r).
      + destruct PC as (s & _ & _ & _ & _ & _ & [(_ & _ & X)|[(X & _)|(X & _)]]); [auto|discriminate|discriminate].
      + destruct PC as (s & _ & _ & _ & _ & _ & _ & [(_ & _ & X)|(X & _)]); [auto|discriminate].
      + destruct PC as (_ & X & _). auto.
      + destruct PC as (_ & X & _). auto.
      + destruct PC as (_ & X & _). auto.
    - apply nth_error_None in N. destruct (F id N) as (_ & _ & _ & _ & _ & T & X). congruence.
  Qed.
  (** Between two microtasks it may still have to be handed one message, the last. *)
  Theorem C69_at_once es w id : run es start = Some w -> exists rest, expected id (w_log w) = told id (w_log w) ++ rest /\ length rest <= 1.
  Proof.
    intros E. destruct (good_log es w E) as (((S & R & F) & _) & _).
    assert (Z : expected id (w_log w) = told id (w_log w) -> exists rest, expected id (w_log w) = told id (w_log w) ++ rest /\ length rest <= 1).
    { intros X. exists []. rewrite app_nil_r. auto. }
    destruct (nth_error (w_regs w) id) as [r|] eqn:N.
    - destruct (R id r N) as (_ & _ & _ & _ & _ & _ & PC). unfold pc_ok in PC. destruct (r_pc r).
      + destruct PC as (s & _ & _ & _ & _ & _ & [(_ & _ & X)|[(_ & _ & X)|(_ & _ & _ & X)]]); auto. eexists; split; [exact X|]. destruct (dropped id (w_log w)); cbn; auto.
      + destruct PC as (s & _ & _ & _ & _ & _ & _ & [(_ & _ & X)|(_ & _ & _ & X)]); auto. eexists; split; [exact X|]. destruct (dropped id (w_log w)); cbn; auto.
      + destruct PC as (_ & X & _). auto.
      + destruct PC as (_ & X & _). auto.
      + destruct PC as (_ & X & _). auto.
    - apply nth_error_None in N. destruct (F id N) as (_ & _ & _ & _ & _ & T & X). apply Z. congruence.
  Qed.
  (** The messages are those of connections one after the other. *)
  Theorem C69_session es w id : run es start = Some w -> exists b, session (told id (w_log w)) b.
  Proof.
    intros E. destruct (good_log es w E) as (((S & R & F) & _) & _). destruct (nth_error (w_regs w) id) as [r|] eqn:N.
    - destruct (R id r N) as (_ & X & _). exact X.
    - apply nth_error_None in N. destruct (F id N) as (_ & _ & _ & _ & _ & T & _). rewrite T. exists false. constructor.
  Qed.
  (** Nothing is handed to it any more once the resource is dropped. *)
  Theorem C69_silent es w id a b m : run es start = Some w -> w_log w = a ++ ODrop id :: b -> ~ In (OTold id m) a.
  Proof.
    intros E L IN. destruct (good_log es w E) as (_ & G). destruct (after a _ b _ G L _ IN) as (c & d & _ & X). cbn in X. rewrite drop_seen in X. discriminate.
  Qed.

  (** ** C70 *)
  (** A text that is sent while the websocket is on line leaves at once, on the socket that is open; no text leaves otherwise;
      sending does not fail. *)
  Theorem C70_sent es w id k t a b : run es start = Some w -> w_log w = a ++ OSend id t :: b -> on_line id k b -> exists a', a = a' ++ [OSent k t].
  Proof. intros E L O. destruct (good_log es w E) as (_ & G). apply (sends [] _ G eq_refl a id t k b L O). Qed.
  Theorem C70_only es w k t a b : run es start = Some w -> w_log w = a ++ OSent k t :: b -> exists id b', b = OSend id t :: b' /\ on_line id k b'.
  Proof. intros E L. destruct (good_log es w E) as (_ & G). apply (facts [] _ G eq_refl a _ b L). Qed.
  Theorem C70_no_throw es w : run es start = Some w -> ~ In OThrow (w_log w).
  Proof. intros E IN. destruct (good_log es w E) as (_ & G). apply in_split in IN. destruct IN as (a & b & L). apply (facts [] _ G eq_refl a _ b L). Qed.

  (** ** C71 *)
  (** No connection is begun after the drop. *)
  Theorem C71_no_new es w id a b k h : run es start = Some w -> w_log w = a ++ ODrop id :: b -> ~ In (OCreated id k h) a.
  Proof.
    intros E L IN. destruct (good_log es w E) as (_ & G). destruct (after a _ b _ G L _ IN) as (c & d & _ & X). cbn in X. rewrite drop_seen in X. destruct X. discriminate.
  Qed.
  (** After the drop each connection of the websocket is being closed, or is closed.  Missing, since it is wrong
      ([C71_refuted]): also those that were still being made ([opened k b = false /\ ended k b = false]). *)
  Theorem C71_closed_partial es w id a b k : run es start = Some w -> w_log w = a ++ ODrop id :: b -> mine id k (w_log w) = true ->
    ended k (w_log w) = true \/ (opened k b = false /\ ended k b = false).
  Proof.
    intros E L M. destruct (good_log es w E) as (_ & G).
    assert (MB : mine id k b = true).
    { rewrite L, mine_app in M. apply orb_true_iff in M. destruct M as [M|M]; [|exact M]. exfalso. apply mine_in in M. destruct M as (h & IN).
      apply (C71_no_new es w id a b k h E L IN). }
    destruct (opened k b) eqn:OP; [left; apply (closes [] _ G eq_refl a id k b L MB OP)|]. destruct (ended k b) eqn:EN; auto.
    left. rewrite L, ended_app. cbn. fold (ended k b). rewrite EN. apply orb_true_r.
  Qed.
  Lemma one_owner l : grows [] l -> forall i j k, mine i k l = true -> mine j k l = true -> i = j.
  Proof.
    intros G. assert (X : forall a b, l = a ++ b -> forall i j k, mine i k b = true -> mine j k b = true -> i = j).
    2: { apply (X [] l eq_refl). }
    intros a b. revert a. induction b as [|o b IH]; intros a L i j k A B; [discriminate|].
    assert (F := facts [] l G eq_refl a o b L). specialize (IH (a ++ [o])). rewrite <- app_assoc in IH. specialize (IH L).
    destruct o as [| |?|? ?|?|?|?|?|? ?|? ?|? ?|]; try (apply (IH i j k); [exact A|exact B]).
    unfold mine in A, B. cbn [existsb] in A, B. apply orb_true_iff in A. apply orb_true_iff in B. fold (mine i k b) in A. fold (mine j k b) in B. cbn in F.
    destruct F as (_ & _ & _ & F). destruct A as [A|A], B as [B|B].
    - apply andb_true_iff in A. apply andb_true_iff in B. rewrite !Nat.eqb_eq in *. destruct A, B. congruence.
    - apply andb_true_iff in A. rewrite !Nat.eqb_eq in *. destruct A as (_ & ->). rewrite F in B. discriminate.
    - apply andb_true_iff in B. rewrite !Nat.eqb_eq in *. destruct B as (_ & ->). rewrite F in A. discriminate.
    - apply (IH i j k); auto.
  Qed.
  (** What was dropped while it was being made, and then opened, the page never closes. *)
  Theorem C71_never_closed es w id k : run es start = Some w ->
    dropped id (w_log w) = true -> mine id k (w_log w) = true -> opened k (w_log w) = true -> ~ In (OClose k) (w_log w) ->
    forall es' w', run es' w = Some w' -> ~ In (OClose k) (w_log w').
  Proof.
    intros E D M O NC es' w' E'. destruct (good_log es w E) as (GW & G). destruct (run_good valid app es' w w' GW E') as (_ & G').
    assert (A : forall l l', grows l l' -> grows [] l -> dropped id l = true -> mine id k l = true -> opened k l = true -> ~ In (OClose k) l -> ~ In (OClose k) l').
    2: { exact (A _ _ G' G D M O NC). }
    clear - valid app. intros l l' G. induction G as [l|l m o G IH Q|l m i n G IH ND NN E|l m i j t G IH L U|l m i t G IH L]; intros GL D M O NC; auto; specialize (IH GL D M O NC);
      assert (GM : grows [] m) by (eapply grows_trans; eauto); destruct (suffix _ _ G) as (p & ->);
      assert (D1 : dropped id (p ++ l) = true) by (rewrite dropped_app, D; apply orb_true_r);
      assert (M1 : mine id k (p ++ l) = true) by (rewrite mine_app, M; apply orb_true_r);
      assert (O1 : opened k (p ++ l) = true) by (rewrite opened_app, O; apply orb_true_r).
    - intros [->|IN]; [|auto]. cbn in Q. congruence.
    - intros IN. apply in_app_or in IN. destruct IN as [IN|[IN|IN]]; [|discriminate|auto]. destruct NN as [->|(j & -> & MJ)]; [contradiction|].
      destruct IN as [IN|[]]. injection IN as ->. assert (i = id) by (apply (one_owner _ GM i id k); auto). subst i. congruence.
    - intros [IN|[IN|IN]]; [discriminate|discriminate|auto].
    - intros [IN|IN]; [discriminate|auto].
  Qed.

  (** ** C72 *)
  (** At most one connection of a websocket is being made or open. *)
  Theorem C72_one es w id j k : run es start = Some w -> mine id j (w_log w) = true -> ended j (w_log w) = false ->
    mine id k (w_log w) = true -> ended k (w_log w) = false -> j = k.
  Proof.
    intros E MJ EJ MK EK. destruct (good_log es w E) as (((S & R & F) & _) & _). assert (X : forall m, mine id m (w_log w) = true -> ended m (w_log w) = false ->
      exists r, nth_error (w_regs w) id = Some r /\ current None r = Some m).
    { intros m M EN. apply (proj1 S) in M. destruct M as (s & K & O). assert (LT := proj1 (proj2 S) m s K). rewrite O in LT.
      apply nth_error_Some in LT. destruct (nth_error (w_regs w) id) as [r|] eqn:N; [|congruence]. exists r. split; auto.
      destruct (R id r N) as (_ & _ & SK & _). destruct (SK m s K O) as ((_ & _ & _ & _ & A5 & _ & _ & _ & A9) & [CU|(CU & _)]); auto.
      destruct (A5 CU); destruct (A9 EN); congruence. }
    destruct (X j MJ EJ) as (r & N & C). destruct (X k MK EK) as (r' & N' & C'). congruence.
  Qed.
  Lemma one_ask l : grows [] l -> forall id h h', In (OAsk id h) l -> In (OAsk id h') l -> h = h'.
  Proof.
    intros G. assert (X : forall a b, l = a ++ b -> forall id h h', In (OAsk id h) b -> In (OAsk id h') b -> h = h').
    2: { apply (X [] l eq_refl). }
    intros a b. revert a. induction b as [|o b IH]; intros a L id h h' A B; [contradiction|].
    assert (F := facts [] l G eq_refl a o b L). specialize (IH (a ++ [o])). rewrite <- app_assoc in IH. specialize (IH L).
    destruct A as [->|A], B as [B|B].
    - injection B as <-. auto.
    - destruct (F h' B).
    - subst o. destruct (F h A).
    - eauto.
  Qed.
  (** Every connection is to the address that was asked for. *)
  Theorem C72_host es w id k h h' : run es start = Some w -> In (OCreated id k h) (w_log w) -> In (OAsk id h') (w_log w) -> h = h'.
  Proof.
    intros E A B. destruct (good_log es w E) as (_ & G). apply (one_ask _ G id h h'); auto. apply in_split in A. destruct A as (a & b & L).
    destruct (facts [] _ G eq_refl a _ b L) as (_ & X & _). rewrite L. apply in_or_app. right. right. exact X.
  Qed.
  (** An address that the browser does not accept is never reported to the application. *)
  Theorem C72_refused es w id h : run es start = Some w -> In (OAsk id h) (w_log w) -> valid h = false -> told id (w_log w) = [].
  Proof.
    intros E A V. destruct (good_log es w E) as (_ & G).
    assert (NM : forall k, mine id k (w_log w) = false).
    { intros k. destruct (mine id k (w_log w)) eqn:M; auto. exfalso. apply mine_in in M. destruct M as (h' & IN).
      rewrite (C72_host es w id k h' h E IN A) in IN. apply in_split in IN. destruct IN as (a & b & L).
      destruct (facts [] _ G eq_refl a _ b L) as (_ & _ & X & _). congruence. }
    destruct (C69_at_once es w id E) as (rest & X & _). assert (Z : forall a b, w_log w = a ++ b -> expected id b = []).
    { intros a b. revert a. induction b as [|o b IH]; intros a L; auto.
      assert (NB : forall k, mine id k b = false).
      { intros k. specialize (NM k). rewrite L, mine_app in NM. apply orb_false_iff in NM. destruct NM as (_ & NM). unfold mine in NM. cbn [existsb] in NM.
        apply orb_false_iff in NM. apply NM. }
      specialize (IH (a ++ [o])). rewrite <- app_assoc in IH. specialize (IH L). destruct o; cbn [expected]; rewrite ?NB; auto. }
    rewrite (Z [] _ eq_refl) in X. symmetry in X. apply app_eq_nil in X. apply X.
  Qed.

  (** ** The page goes on by itself *)
  Definition of_page (e : event) : Prop := match e with EAct _ => False | _ => True end.
  Lemma run_app a : forall b w, run (a ++ b) w = match run a w with Some w' => run b w' | None => None end.
  Proof. induction a as [|e a IH]; intros b w; cbn; auto. destruct (step e w); auto. Qed.
  Lemma at_reg id r w : good w -> nth_error (w_regs w) id = Some r -> reg_ok valid None id r w.
  Proof. intros ((_ & R & _) & _). apply R. Qed.
  Lemma resume_dropped id q w : good w -> w_queue w = id :: q -> dropped id (w_log w) = true ->
    let w' := resume id (popped q w) in
    w_queue w' = q /\ w_log w' = w_log w /\ forall i, i <> id -> nth_error (w_regs w') i = nth_error (w_regs w) i.
  Proof.
    intros G Q D w'. unfold w', WebsocketModel.resume. cbn [popped w_regs w_socks]. destruct (nth_error (w_regs w) id) as [r|] eqn:N; [|auto].
    destruct (at_reg id r w G N) as ((_ & E2 & _) & _ & SK & _ & _ & _ & PC). rewrite D in E2. unfold pc_ok in PC.
    assert (NS : forall f i, i <> id -> nth_error (setn id f (w_regs w)) i = nth_error (w_regs w) i).
    { intros f i NE. rewrite nth_setn. destruct (Nat.eqb_spec i id); [congruence|auto]. }
    destruct r as [h ic cn [k|k| | |]]; cbn [r_pc r_conn] in *; auto.
    - destruct PC as (s & K & O & _ & _ & _ & PC). rewrite K. destruct (s_result s) as [[]|] eqn:RS; [|split; auto; split; auto; apply NS|split; auto; split; auto; apply NS].
      destruct PC as [(_ & Z & _)|[(_ & Z & _)|(_ & _ & IC & _)]]; try discriminate. destruct (SK k s K O) as ((_ & _ & _ & DN & _) & _).
      unfold WebsocketModel.on_socket. cbn [with_reg popped w_ctrl]. rewrite E2. cbn [negb]. unfold await_done. cbn [with_reg with_sock popped w_socks w_regs w_queue w_log w_ctrl w_map w_store].
      rewrite nth_setn, Nat.eqb_refl, K. cbn [option_map s_done set_on]. rewrite DN, IC. cbn. split; auto. split; auto. intros i NE. rewrite !nth_setn. destruct (Nat.eqb_spec i id); [congruence|auto].
    - unfold WebsocketModel.on_close. cbn [with_reg popped w_ctrl]. rewrite E2. cbn [negb]. cbn [w_regs]. change (w_regs (with_reg id (set_pc PRun) (popped q w))) with (setn id (set_pc PRun) (w_regs w)).
      rewrite !nth_setn, Nat.eqb_refl, N. cbn.
      split; auto. split; auto. intros i NE. rewrite !nth_setn. destruct (Nat.eqb_spec i id); [congruence|auto].
  Qed.
  Lemma drain n : forall w, length (w_queue w) <= n -> good w -> waiting_dropped w ->
    exists es w', Forall of_page es /\ run es w = Some w' /\ good w' /\ w_queue w' = [] /\ w_log w' = w_log w /\
      forall i, dropped i (w_log w) = false -> nth_error (w_regs w') i = nth_error (w_regs w) i.
  Proof.
    induction n as [|n IH]; intros w L G W.
    - destruct (w_queue w) eqn:Q; [|cbn in L; lia]. exists [], w. auto 10.
    - destruct (w_queue w) as [|id q] eqn:Q; [exists [], w; auto 10|].
      assert (D : dropped id (w_log w) = true) by (apply W; rewrite Q; left; auto).
      destruct (resume_dropped id q w G Q D) as (A & B & C). set (w1 := resume id (popped q w)) in *.
      assert (E : step EMicro w = Some w1) by (cbn; rewrite Q; reflexivity).
      destruct (step_good valid app EMicro w w1 G E) as (G1 & _).
      destruct (IH w1) as (es & w' & F & R & G' & Q' & L' & X); auto.
      + rewrite A. cbn in L. lia.
      + intros j IN. rewrite B. apply W. rewrite Q. right. rewrite <- A. exact IN.
      + exists (EMicro :: es), w'. split; [constructor; cbn; auto|]. split; [cbn [WebsocketModel.run]; rewrite E; exact R|]. split; auto. split; auto.
        split; [congruence|]. intros i DI. rewrite B in X. rewrite X by auto. apply C. congruence.
  Qed.

  (** A connection of [id] to [h] is begun after [l]. *)
  Definition again (id : nat) (h : bytes) (l l' : list obs) : Prop := exists k, In (OCreated id k h) l' /\ mine id k l = false.
  Definition goes_on (id : nat) (h : bytes) (w : world) : Prop :=
    exists es w', Forall of_page es /\ run es w = Some w' /\ (dropped id (w_log w') = true \/ again id h (w_log w) (w_log w')).
  Lemma goes_after id h es w w1 : Forall of_page es -> good w -> run es w = Some w1 -> goes_on id h w1 -> goes_on id h w.
  Proof.
    intros F G R (es' & w' & F' & R' & C). exists (es ++ es'), w'. split; [apply Forall_app; auto|]. split; [rewrite run_app, R; exact R'|].
    destruct C as [C|(k & I & M)]; [auto|right]. exists k. split; auto. destruct (run_good valid app es w w1 G R) as (_ & GR). destruct (suffix _ _ GR) as (a & E).
    rewrite E, mine_app in M. apply orb_false_iff in M. apply M.
  Qed.
  Lemma goes_delay id r w : good w -> w_queue w = [] -> nth_error (w_regs w) id = Some r -> r_pc r = PDelay -> valid (r_host r) = true -> goes_on id (r_host r) w.
  Proof.
    intros G Q N P V. destruct (dropped id (w_log w)) eqn:D; [exists [], w; split; auto|].
    destruct (at_reg id r w G N) as ((_ & _ & E3) & _). rewrite D in E3.
    assert (E : step (ERetry id) w = Some (loop_top valid id w)) by (cbn; rewrite Q, N; destruct r as [h ic cn p]; cbn in P; subst p; auto).
    exists [ERetry id], (loop_top valid id w). split; [repeat constructor|]. split; [cbn [WebsocketModel.run]; rewrite E; auto|]. right.
    unfold loop_top. rewrite N, E3, V. cbn [andb negb]. exists (length (w_socks w)). split; [left; auto|].
    destruct (mine id (length (w_socks w)) (w_log w)) eqn:M; auto. destruct G as ((S & _) & _). apply (proj1 S) in M. destruct M as (s & K & _).
    apply reg_lt in K. lia.
  Qed.
  Lemma goes_connect id r k w : good w -> w_queue w = [] -> nth_error (w_regs w) id = Some r -> r_pc r = PConnect k -> valid (r_host r) = true -> goes_on id (r_host r) w.
  Proof.
    intros G Q N P V. destruct (at_reg id r w G N) as (_ & _ & SK & _ & _ & _ & PC). unfold pc_ok in PC. rewrite P, Q in PC. cbn [count_occ] in PC.
    destruct PC as (s & K & O & _ & _ & _ & [(_ & RS & _)|[(Z & _)|(Z & _)]]); try discriminate.
    destruct (SK k s K O) as ((A1 & A2 & A3 & A4 & A5 & A6 & A7 & A8 & A9) & _). assert (RY := proj2 A2 RS). destruct (A8 RS) as (TM & _).
    assert (IC : s_isclose s = false) by (destruct (s_isclose s); auto; destruct (A5 eq_refl); congruence).
    set (w1 := with_sock k set_fired w).
    assert (K1 : sock_at w1 k = Some (set_fired s)) by (unfold w1; cbn; rewrite nth_setn, Nat.eqb_refl, K; auto).
    assert (N1 : nth_error (w_regs w1) (s_owner (set_fired s)) = Some r) by (cbn; rewrite O; exact N).
    destruct (close_socket_is k (set_fired s) r w1 K1 IC (eq_trans A4 IC) N1) as (G1 & _ & G3 & _ & _ & _ & G7 & _). set (w2 := close_socket k w1) in *.
    assert (E : step (ETimeout k) w = Some w2) by (cbn [WebsocketModel.step]; rewrite Q, K, TM, RS; reflexivity).
    destruct (step_good valid app _ w w2 G E) as (GW2 & _).
    assert (Q2 : w_queue w2 = [id]) by (rewrite G7; unfold w1, close_wakes; cbn [with_sock w_queue s_result set_fired s_owner]; rewrite Q, P, RS, Nat.eqb_refl, O; auto).
    assert (K2 : sock_at w2 k = Some (closed_sock (set_fired s))) by (rewrite G3, Nat.eqb_refl; auto).
    set (w3 := with_reg id (set_pc PDelay) (popped [] w2)).
    assert (E2 : step EMicro w2 = Some w3).
    { cbn [WebsocketModel.step]. rewrite Q2. change (World (w_regs w2) (w_socks w2) (w_ctrl w2) (w_map w2) (w_store w2) [] (w_log w2)) with (popped [] w2).
      unfold WebsocketModel.resume. change (w_regs (popped [] w2)) with (w_regs w2). change (w_socks (popped [] w2)) with (w_socks w2). rewrite G1. cbn [w1 with_sock w_regs]. rewrite N.
      destruct r as [h ic cn p]. cbn in P. subst p. rewrite K2. cbn [closed_sock s_result set_fired]. rewrite RS. reflexivity. }
    destruct (step_good valid app _ w2 w3 GW2 E2) as (GW3 & _).
    apply (goes_after id (r_host r) [ETimeout k; EMicro] w w3); [repeat constructor|auto|cbn [WebsocketModel.run]; rewrite E, E2; auto|].
    apply (goes_delay id (set_pc PDelay r) w3); auto. unfold w3; cbn. rewrite nth_setn, Nat.eqb_refl, G1. cbn. rewrite N. auto.
  Qed.
  Lemma goes_done id r k w : grows [] (w_log w) -> good w -> w_queue w = [] -> nth_error (w_regs w) id = Some r -> r_pc r = PDone k -> valid (r_host r) = true -> goes_on id (r_host r) w.
  Proof.
    intros Gw G Q N P V. destruct (at_reg id r w G N) as (_ & _ & SK & _ & _ & HO & PC). unfold pc_ok in PC. rewrite P, Q in PC. cbn [count_occ] in PC.
    destruct PC as (s & K & O & _ & RS & _ & _ & [(_ & IC & _)|(Z & _)]); try discriminate.
    destruct (SK k s K O) as ((A1 & A2 & A3 & A4 & A5 & A6 & A7 & A8 & A9) & _).
    assert (NC : s_ready s <> Closed) by (intros X; apply A6 in X; congruence).
    set (w1 := note (OClosed k) (with_sock k (set_ready Closed) w)).
    assert (K1 : sock_at w1 k = Some (set_ready Closed s)) by (unfold w1; cbn; rewrite nth_setn, Nat.eqb_refl, K; auto).
    assert (N1 : nth_error (w_regs w1) (s_owner (set_ready Closed s)) = Some r) by (cbn; rewrite O; exact N).
    destruct (close_socket_is k (set_ready Closed s) r w1 K1 IC (eq_trans A4 IC) N1) as (G1 & _ & G3 & _ & _ & _ & G7 & _). set (w2 := close_socket k w1) in *.
    assert (E : step (EClosed k) w = Some w2) by (cbn [WebsocketModel.step]; rewrite Q, K; destruct (s_ready s); [reflexivity|reflexivity|reflexivity|congruence]).
    destruct (step_good valid app _ w w2 G E) as (GW2 & _).
    assert (Q2 : w_queue w2 = [id]) by (rewrite G7; unfold w1, close_wakes; cbn [with_sock note w_queue s_result set_ready s_owner]; rewrite Q, P, Nat.eqb_refl, O; auto).
    set (w3 := resume id (popped [] w2)).
    assert (E2 : step EMicro w2 = Some w3) by (cbn [WebsocketModel.step]; rewrite Q2; reflexivity).
    destruct (resume_inv valid app id [] w2 (proj1 GW2) Q2) as (I3 & WD3 & GR3); [intros j []|]. fold w3 in I3, WD3, GR3.
    assert (GW3 := good_waiting valid w3 I3 WD3).
    apply (goes_after id (r_host r) [EClosed k; EMicro] w w3); [repeat constructor|auto|cbn [WebsocketModel.run]; rewrite E, E2; auto|].
    destruct (dropped id (w_log w3)) eqn:D; [exists [], w3; split; auto|].
    assert (R3 : exists r3, nth_error (w_regs w3) id = Some r3 /\ r_pc r3 = PDelay /\ r_host r3 = r_host r).
    { assert (X : exists r3 p, nth_error (w_regs w3) id = Some (set_pc p r3) /\ (r_isconnect r3 = true -> p = PDelay)).
      { unfold w3, WebsocketModel.resume. change (w_regs (popped [] w2)) with (w_regs w2). rewrite G1. cbn [w1 note with_sock w_regs]. rewrite N.
        destruct r as [h ic cn p]. cbn in P. subst p. set (w4 := on_close valid app id (with_reg id (set_pc PRun) (popped [] w2))).
        assert (X : exists r4, nth_error (w_regs w4) id = Some r4).
        { assert (N0 : nth_error (w_regs (with_reg id (set_pc PRun) (popped [] w2))) id = Some (set_pc PRun (Reg h ic cn (PDone k)))).
          { cbn. rewrite nth_setn, Nat.eqb_refl, G1. cbn. rewrite N. auto. }
          unfold w4, on_close, wasm_callback. destruct (w_ctrl _ id); [|eauto]. destruct (w_store _ id); [|eauto].
          match goal with |- context [acts valid ?l ?v] => destruct (acts_pcs valid l v id _ N0) as (r4 & N4 & _) end. eauto. }
        destruct X as (r4 & N4). rewrite N4. exists r4, (if r_isconnect r4 then PDelay else PEnd). cbn. rewrite nth_setn, Nat.eqb_refl, N4. split; auto. intros ->. auto. }
      destruct X as (r3 & p & N3 & PP). exists (set_pc p r3). destruct (at_reg id _ w3 GW3 N3) as ((_ & _ & E3) & _ & _ & _ & _ & HO3 & _).
      rewrite D in E3. cbn in E3. split; auto. split; [cbn; auto|].
      apply (one_ask (w_log w3) (grows_trans _ _ _ _ (grows_trans _ _ _ _ Gw (proj2 (step_good valid app _ w w2 G E))) GR3) id); auto.
      destruct (suffix _ _ (grows_trans _ _ _ _ (proj2 (step_good valid app _ w w2 G E)) GR3)) as (a & ->). apply in_or_app. auto. }
    destruct R3 as (r3 & N3 & P3 & H3).
    destruct (drain (length (w_queue w3)) w3 (Nat.le_refl _) GW3 WD3) as (es & w5 & F5 & R5 & G5 & Q5 & L5 & X5).
    apply (goes_after id (r_host r) es w3 w5); auto. rewrite <- H3. apply (goes_delay id r3 w5); auto; [rewrite X5; auto|rewrite H3; auto].
  Qed.

  (** As long as the resource is kept and the browser accepts the address, the page can go on, without the application doing
      anything (other than in callbacks), to begin a new connection: it never gives up, whatever happened. *)
  Theorem C72_reconnects es w id h : run es start = Some w -> In (OAsk id h) (w_log w) -> valid h = true -> goes_on id h w.
  Proof.
    intros E A V. destruct (good_log es w E) as (G & GR).
    assert (IDLE : forall v, good v -> grows [] (w_log v) -> w_queue v = [] -> In (OAsk id h) (w_log v) -> goes_on id h v).
    { intros v Gv GRv Q Av. destruct Gv as ((S & R & F) & X). pose proof (conj (conj S (conj R F)) X : good v) as Gv.
      assert (LT : id < length (w_regs v)) by (destruct S as (_ & _ & _ & _ & _ & S6); eauto).
      apply nth_error_Some in LT. destruct (nth_error (w_regs v) id) as [r|] eqn:N; [|congruence].
      destruct (at_reg id r v Gv N) as (_ & _ & _ & _ & _ & HO & PC). assert (H : r_host r = h) by (apply (one_ask _ GRv id); auto).
      rewrite <- H in V |- *. destruct (r_pc r) eqn:P.
      - apply (goes_connect id r k v); auto.
      - apply (goes_done id r k v); auto.
      - apply (goes_delay id r v); auto.
      - unfold pc_ok in PC. rewrite P in PC. destruct PC as (_ & _ & []).
      - unfold pc_ok in PC. rewrite P in PC. destruct PC as (_ & _ & [D|(Z & _)]); [|congruence]. exists [], v. split; auto. }
    destruct (w_queue w) as [|j q] eqn:Q; [apply IDLE; auto|].
    set (w1 := resume j (popped q w)). assert (E1 : step EMicro w = Some w1) by (cbn [WebsocketModel.step]; rewrite Q; reflexivity).
    destruct (resume_inv valid app j q w (proj1 G) Q) as (I1 & WD1 & GR1); [intros i IN; apply (proj2 G); rewrite Q; exact IN|]. fold w1 in I1, WD1, GR1.
    assert (G1 := good_waiting valid w1 I1 WD1).
    destruct (drain (length (w_queue w1)) w1 (Nat.le_refl _) G1 WD1) as (es2 & w2 & F2 & R2 & G2 & Q2 & L2 & _).
    apply (goes_after id h [EMicro] w w1); [repeat constructor|auto|cbn [WebsocketModel.run]; rewrite E1; auto|].
    apply (goes_after id h es2 w1 w2); auto. apply IDLE; auto; rewrite L2; [eapply grows_trans; eauto|].
    destruct (suffix _ _ GR1) as (a & ->). apply in_or_app. auto.
  Qed.
End Websocket.

(** ** Concrete cases *)
Module Demo.
  Definition all (_ : bytes) : bool := true.
  Definition some (h : bytes) : bool := match h with [] => false | _ => true end.
  (** An application that greets whenever it is connected. *)
  Definition greets (l : list obs) : list action := match l with OTold id Connection :: _ => [ASend id [104; 105]%N] | _ => [] end.
  Definition silent (_ : list obs) : list action := [].
  (** The log of a run. *)
  Definition log_of (valid : bytes -> bool) (app : list obs -> list action) (es : list event) : list obs :=
    match run valid app es start with Some w => w_log w | None => [] end.
  Definition idle_of (valid : bytes -> bool) (app : list obs -> list action) (es : list event) : bool :=
    match run valid app es start with Some w => match w_queue w with [] => true | _ => false end | None => false end.
  (** The connection is made, a text arrives, the line breaks, it is made again, the application drops it. *)
  Definition day : list event :=
    [EAct (AOpen [1]%N); EOpen 0; EMicro; EText 0 [7]%N; EClosed 0; EMicro; ERetry 0; ETimeout 1; EMicro; ERetry 0; EOpen 2; EMicro; EAct (ADrop 0); EMicro; EClosed 2].
End Demo.
Import Demo.

Example C69_day : idle_of all greets day = true /\ told 0 (log_of all greets day) = [Connection; Message [7]%N; Close; Connection] /\
  expected 0 (log_of all greets day) = [Connection; Message [7]%N; Close; Connection].
Proof. vm_compute. auto. Qed.
Example C69_waits : told 0 (log_of all greets (firstn 2 day)) = [] /\ expected 0 (log_of all greets (firstn 2 day)) = [Connection].
Proof. vm_compute. auto. Qed.
Example C69_dropped : exists a b, log_of all greets day = a ++ ODrop 0 :: b /\ a <> [].
Proof. exists [OClosed 2; OClose 2]. eexists. split; [vm_compute; reflexivity|discriminate]. Qed.
Example C70_day : exists a b, log_of all greets day = a ++ OSend 0 [104; 105]%N :: b /\ on_line 0 2 b /\ In (OSent 2 [104; 105]%N) a.
Proof.
  exists [OClosed 2; OClose 2; ODrop 0; OSent 2 [104; 105]%N]. eexists. split; [vm_compute; reflexivity|]. split; [|cbn; auto].
  repeat split. cbn. apply (sess_connection [Connection; Message [7]%N; Close]), (sess_close [Connection; Message [7]%N]), (sess_message [Connection]), (sess_connection []), sess_start.
Qed.
Example C71_day : exists a b, log_of all greets day = a ++ ODrop 0 :: b /\ mine 0 2 (log_of all greets day) = true /\ opened 2 b = true /\
  ended 2 (log_of all greets day) = true.
Proof. exists [OClosed 2; OClose 2]. eexists. split; [vm_compute; reflexivity|]. vm_compute. auto. Qed.
Example C72_day : mine 0 0 (log_of all greets day) = true /\ mine 0 1 (log_of all greets day) = true /\ mine 0 2 (log_of all greets day) = true /\
  In (OAsk 0 [1]%N) (log_of all greets day).
Proof. vm_compute. auto 30. Qed.
Example C72_not_accepted : told 0 (log_of some silent [EAct (AOpen [])]) = [] /\ log_of some silent [EAct (AOpen [])] = [OAsk 0 []].
Proof. vm_compute. auto. Qed.

(** ** Refuted *)

(** A text sent while the application has been told of a connection, and not of its end, may be lost, and nothing says so. *)
Theorem C70_refuted : exists valid app es w a b, run valid app es start = Some w /\ w_queue w = [] /\ w_log w = a ++ OSend 0 [7]%N :: b /\
  dropped 0 (w_log w) = false /\ session (told 0 (w_log w)) true /\ forall k t, ~ In (OSent k t) (w_log w).
Proof.
  exists all, silent, [EAct (AOpen [1]%N); EOpen 0; EMicro; EClosing 0; EAct (ASend 0 [7]%N)]. eexists. exists []. eexists.
  split; [vm_compute; reflexivity|]. split; [reflexivity|]. split; [vm_compute; reflexivity|]. split; [reflexivity|].
  split; [apply (sess_connection []), sess_start|]. intros k t IN. vm_compute in IN. intuition discriminate.
Qed.

(** A websocket dropped while its connection is being made: the connection is then made, stays, and the page never closes it. *)
Theorem C71_refuted : exists valid app es w, run valid app es start = Some w /\ w_queue w = [] /\
  dropped 0 (w_log w) = true /\ mine 0 0 (w_log w) = true /\ opened 0 (w_log w) = true /\ ended 0 (w_log w) = false /\
  forall es' w', run valid app es' w = Some w' -> ~ In (OClose 0) (w_log w').
Proof.
  exists all, silent, [EAct (AOpen [1]%N); EAct (ADrop 0); EOpen 0; EMicro].
  destruct (run all silent [EAct (AOpen [1]%N); EAct (ADrop 0); EOpen 0; EMicro] start) as [w|] eqn:E; [|vm_compute in E; discriminate].
  exists w. split; [reflexivity|]. pose proof E as E0. vm_compute in E. injection E as <-. do 5 (split; [reflexivity|]).
  apply (C71_never_closed all silent _ _ 0 0 E0); auto. vm_compute. intuition discriminate.
Qed.
