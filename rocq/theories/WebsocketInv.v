(** Websockets: what the statements are about ([Specification]), and the invariant of the page they follow from. *)
From Coq Require Import List Arith Bool Lia.
From Verif Require Import CodecModel WebsocketModel.
Import ListNotations.

(** ** Specification: all in terms of what happened (newest first). *)

(** What the callback of websocket [id] was handed, in order. *)
Fixpoint told (id : nat) (l : list obs) : list message :=
  match l with
  | [] => []
  | OTold i m :: t => if i =? id then told id t ++ [m] else told id t
  | _ :: t => told id t
  end.
(** The application has dropped its resource; socket [k] was created for [id]; it has been open; it is not any more. *)
Definition dropped (id : nat) (l : list obs) : bool := existsb (fun o => match o with ODrop i => i =? id | _ => false end) l.
Definition mine (id k : nat) (l : list obs) : bool :=
  existsb (fun o => match o with OCreated i j _ => (i =? id) && (j =? k) | _ => false end) l.
Definition opened (k : nat) (l : list obs) : bool := existsb (fun o => match o with OOpen j => j =? k | _ => false end) l.
Definition ended (k : nat) (l : list obs) : bool :=
  existsb (fun o => match o with OClosing j | OClosed j | OClose j => j =? k | _ => false end) l.

(** What it should have been handed: until it drops the resource, each opening of a socket, each text that arrives on one,
    and each end of one that had been open. *)
Fixpoint expected (id : nat) (l : list obs) : list message :=
  match l with
  | [] => []
  | OOpen k :: t => if mine id k t && negb (dropped id t) then expected id t ++ [Connection] else expected id t
  | OText k x :: t => if mine id k t && negb (dropped id t) then expected id t ++ [Message x] else expected id t
  | OClosed k :: t => if mine id k t && opened k t && negb (dropped id t) then expected id t ++ [Close] else expected id t
  | _ :: t => expected id t
  end.

(** Connections follow each other: first the connection, then texts, then the end; [true]: a connection is there. *)
Inductive session : list message -> bool -> Prop :=
| sess_start : session [] false
| sess_connection l : session l false -> session (l ++ [Connection]) true
| sess_message l t : session l true -> session (l ++ [Message t]) true
| sess_close l : session l true -> session (l ++ [Close]) false.

(** The application sees [id] connected, by socket [k], and the browser would take a text. *)
Definition on_line (id k : nat) (l : list obs) : Prop :=
  mine id k l = true /\ dropped id l = false /\ session (told id l) true /\ opened k l = true /\ ended k l = false.

(** ** Lists and assignments *)
Lemma nth_setn {A} (f : A -> A) n l m : nth_error (setn n f l) m = if m =? n then option_map f (nth_error l m) else nth_error l m.
Proof.
  revert n m; induction l as [|x t IH]; intros [|n] [|m]; simpl; auto; destruct (m =? n); auto.
Qed.
Lemma length_setn {A} (f : A -> A) n l : length (setn n f l) = length l.
Proof. revert n; induction l as [|x t IH]; intros [|n]; simpl; auto. Qed.
Lemma nth_snoc {A} (l : list A) x m : nth_error (l ++ [x]) m = if m =? length l then Some x else nth_error l m.
Proof.
  destruct (Nat.eqb_spec m (length l)) as [->|N]; [rewrite nth_error_app2, Nat.sub_diag by lia; auto|].
  destruct (Nat.lt_ge_cases m (length l)).
  - rewrite nth_error_app1 by auto. auto.
  - transitivity (@None A).
    + apply nth_error_None. rewrite app_length. simpl. lia.
    + symmetry. apply nth_error_None. lia.
Qed.
Lemma session_end l b : session (l ++ [Close]) b -> b = false.
Proof. intros S. inversion S; subst; auto; match goal with H : _ = _ ++ [Close] |- _ => apply app_inj_tail in H; destruct H; discriminate end. Qed.
Lemma session_fun l b c : session l b -> session l c -> b = c.
Proof.
  intros S. revert c. induction S as [|l S IH|l t S IH|l S IH]; intros c X; inversion X; subst; auto;
    try (match goal with H : [] = _ ++ _ |- _ => destruct l; discriminate H || (symmetry in H; apply app_eq_nil in H; destruct H; discriminate) end);
    try (match goal with H : _ ++ [_] = [] |- _ => apply app_eq_nil in H; destruct H; discriminate end);
    try (match goal with H : _ ++ [_] = _ ++ [_] |- _ => apply app_inj_tail in H; destruct H; try discriminate end); auto.
Qed.

Notation cnt id w := (count_occ Nat.eq_dec (w_queue w) id).
Notation sock_at w k := (nth_error (w_socks w) k).

Section Websocket.
  Variable valid : bytes -> bool.
  Variable app : list obs -> list action.
  Notation act := (act valid). Notation acts := (acts valid).
  Notation wasm_callback := (wasm_callback valid app).
  Notation on_socket := (on_socket valid app). Notation on_text := (on_text valid app). Notation on_close := (on_close valid app).
  Notation resume := (resume valid app). Notation step := (step valid app). Notation run := (run valid app).
  Notation loop_top := (loop_top valid).

  (** ** The invariant *)
  Definition current (go : option (nat * option nat)) (r : reg) : option nat :=
    match r_pc r with
    | PConnect k | PDone k => Some k
    | PRun => match go with Some (_, c) => c | None => None end
    | _ => None
    end.

  Definition sock_ok (k : nat) (s : sock) (l : list obs) : Prop :=
    (opened k l = true <-> s_result s = Some true) /\ (s_ready s = Connecting <-> s_result s = None) /\
    (s_ready s = Open <-> opened k l = true /\ ended k l = false) /\
    s_done s = s_isclose s /\ (s_isclose s = true -> s_ready s = Closing \/ s_ready s = Closed) /\
    (s_ready s = Closed -> s_isclose s = true) /\ (s_result s = Some false -> s_isclose s = true) /\
    (s_result s = None -> s_timer s = true /\ ended k l = false) /\ (ended k l = false -> s_ready s = Connecting \/ s_ready s = Open).
  Definition old_ok (s : sock) (dr : bool) : Prop :=
    s_isclose s = true /\ (s_result s = Some true -> s_ready s = Closed \/ dr = true).

  Definition pc_ok (go : option (nat * option nat)) (id : nat) (r : reg) (w : world) : Prop :=
    let dr := dropped id (w_log w) in let T := told id (w_log w) in let X := expected id (w_log w) in
    match r_pc r with
    | PConnect k => exists s, sock_at w k = Some s /\ s_owner s = id /\ s_on s = false /\ r_conn r <> Some k /\
        (dr = false -> w_map w id = None /\ session T false) /\
        ((cnt id w = 0 /\ s_result s = None /\ X = T) \/
         (cnt id w = 1 /\ s_result s = Some false /\ X = T) \/
         (cnt id w = 1 /\ s_result s = Some true /\ s_isclose s = false /\ X = T ++ if dr then [] else [Connection]))
    | PDone k => exists s, sock_at w k = Some s /\ s_owner s = id /\ s_on s = true /\ s_result s = Some true /\ r_conn r = Some k /\
        (dr = false -> w_map w id = Some k /\ session T true) /\
        ((cnt id w = 0 /\ s_isclose s = false /\ X = T) \/
         (cnt id w = 1 /\ s_isclose s = true /\ (dr = false -> s_ready s = Closed) /\ X = T ++ if dr then [] else [Close]))
    | PDelay => cnt id w = 0 /\ X = T /\ (dr = false -> w_map w id = None /\ session T false)
    | PEnd => cnt id w = 0 /\ X = T /\ (dr = true \/ valid (r_host r) = false /\ w_map w id = None)
    | PRun => cnt id w = 0 /\ X = T /\
        match go with
        | Some (i, Some k) => i = id /\ exists s, sock_at w k = Some s /\ s_owner s = id /\ s_on s = false /\ s_result s = Some true /\
            r_conn r = Some k /\ (s_isclose s = true -> dr = true) /\ (dr = false -> w_map w id = Some k /\ session T true)
        | Some (i, None) => i = id /\ (dr = false -> w_map w id = None /\ session T false)
        | None => False
        end
    end.

  Definition reg_ok (go : option (nat * option nat)) (id : nat) (r : reg) (w : world) : Prop :=
    let dr := dropped id (w_log w) in
    (w_store w id = negb dr /\ w_ctrl w id = negb dr /\ r_isconnect r = negb dr) /\
    (exists b, session (told id (w_log w)) b) /\
    (forall k s, sock_at w k = Some s -> s_owner s = id -> sock_ok k s (w_log w) /\ (current go r = Some k \/ old_ok s dr)) /\
    (forall k, r_conn r = Some k -> exists s, sock_at w k = Some s /\ s_owner s = id /\
        (s_isclose s = true \/ current go r = Some k /\ s_result s = Some true)) /\
    (forall k, w_map w id = Some k -> exists s, sock_at w k = Some s /\ s_owner s = id /\ s_result s = Some true /\ (dr = true -> s_isclose s = true)) /\
    In (OAsk id (r_host r)) (w_log w) /\
    pc_ok go id r w.

  Definition fresh (id : nat) (w : world) : Prop :=
    w_store w id = false /\ w_ctrl w id = false /\ w_map w id = None /\ cnt id w = 0 /\ dropped id (w_log w) = false /\
    told id (w_log w) = [] /\ expected id (w_log w) = [].

  (** Sockets belong to registrations, as noted. *)
  Definition socks_ok (w : world) : Prop :=
    (forall id k, mine id k (w_log w) = true <-> exists s, sock_at w k = Some s /\ s_owner s = id) /\
    (forall k s, sock_at w k = Some s -> s_owner s < length (w_regs w)) /\
    (forall k, opened k (w_log w) = true -> k < length (w_socks w)) /\
    (forall k, ended k (w_log w) = true -> k < length (w_socks w)) /\
    (forall id k h, In (OCreated id k h) (w_log w) -> In (OAsk id h) (w_log w)) /\
    (forall id h, In (OAsk id h) (w_log w) -> id < length (w_regs w)).

  Definition inv (go : option (nat * option nat)) (w : world) : Prop :=
    socks_ok w /\ (forall id r, nth_error (w_regs w) id = Some r -> reg_ok go id r w) /\
    (forall id, length (w_regs w) <= id -> fresh id w).

  (** What matters to one registration is unchanged. *)
  Definition same (id : nat) (w w' : world) : Prop :=
    nth_error (w_regs w') id = nth_error (w_regs w) id /\
    (forall k s, s_owner s = id -> sock_at w' k = Some s <-> sock_at w k = Some s) /\
    (w_ctrl w' id = w_ctrl w id /\ w_map w' id = w_map w id /\ w_store w' id = w_store w id /\ cnt id w' = cnt id w) /\
    (dropped id (w_log w') = dropped id (w_log w) /\ told id (w_log w') = told id (w_log w) /\
     expected id (w_log w') = expected id (w_log w)) /\
    (forall k s, sock_at w k = Some s -> s_owner s = id ->
       opened k (w_log w') = opened k (w_log w) /\ ended k (w_log w') = ended k (w_log w)) /\
    (forall o, In o (w_log w) -> In o (w_log w')).

  Lemma same_refl id w : same id w w.
  Proof. unfold same. intuition. Qed.
  Lemma same_trans id a b c : same id a b -> same id b c -> same id a c.
  Proof.
    intros (A1 & A2 & (A3 & A4 & A5 & A6) & (A7 & A8 & A9) & A10 & A11) (B1 & B2 & (B3 & B4 & B5 & B6) & (B7 & B8 & B9) & B10 & B11).
    unfold same. repeat (split; try congruence); auto.
    - intros X. apply A2, B2; auto.
    - intros X. apply B2, A2; auto.
    - destruct (A10 k s H H0) as (E & _). rewrite <- E. apply (B10 k s); auto. apply A2; auto.
    - destruct (A10 k s H H0) as (_ & E). rewrite <- E. apply (B10 k s); auto. apply A2; auto.
  Qed.

  Lemma same_reg go go' id r w w' : same id w w' -> (r_pc r = PRun -> go' = go) -> reg_ok go id r w -> reg_ok go' id r w'.
  Proof.
    intros (A1 & A2 & (A3 & A4 & A5 & A6) & (A7 & A8 & A9) & A10 & A11) G (S & (b & SB) & SK & CN & MP & HO & PC).
    assert (CU : current go' r = current go r).
    { unfold current. destruct (r_pc r) eqn:E; auto. rewrite G; auto. }
    unfold reg_ok. rewrite A3, A4, A5, A7, A8, CU. split; [exact S|]. split; [eauto|]. split; [|split; [|split; [|split; [auto|]]]].
    - intros k s K O. apply A2 in K; auto. destruct (SK k s K O) as (X & Y). split; auto.
      unfold sock_ok in *. destruct (A10 k s K O) as (E1 & E2). rewrite E1, E2. exact X.
    - intros k C. destruct (CN k C) as (s & K & O & X). exists s. split; [apply A2; auto|]. auto.
    - intros k C. destruct (MP k C) as (s & K & O & X). exists s. split; [apply A2; auto|]. auto.
    - unfold pc_ok in *. rewrite A4, A6, A7, A8, A9. destruct (r_pc r) eqn:E; auto.
      + destruct PC as (s & K & O & X). exists s. split; [apply A2; auto|]. auto.
      + destruct PC as (s & K & O & X). exists s. split; [apply A2; auto|]. auto.
      + rewrite (G eq_refl). destruct PC as (P1 & P2 & P3). split; auto. split; auto. destruct go as [(i & [k|])|]; auto.
        destruct P3 as (-> & s & K & O & X). split; auto. exists s. split; [apply A2; auto|]. auto.
  Qed.
  Lemma same_fresh id w w' : same id w w' -> fresh id w -> fresh id w'.
  Proof.
    intros (A1 & A2 & (A3 & A4 & A5 & A6) & (A7 & A8 & A9) & A10 & A11) F. unfold fresh in *. rewrite A3, A4, A5, A6, A7, A8, A9. auto.
  Qed.
  Definition others (i : nat) (w w' : world) : Prop := forall id, id <> i -> same id w w'.

  (** An operation on one registration. *)
  Lemma inv_one go go' i w w' :
    inv go w -> others i w w' -> length (w_regs w) <= length (w_regs w') -> socks_ok w' ->
    (go' = go \/ forall id r, id <> i -> nth_error (w_regs w) id = Some r -> r_pc r <> PRun) ->
    (forall r, nth_error (w_regs w') i = Some r -> reg_ok go' i r w') -> i < length (w_regs w') -> inv go' w'.
  Proof.
    intros (S & R & F) O L S' G RI FI. split; auto. split.
    - intros id r N. destruct (Nat.eq_dec id i) as [->|NE]; auto. pose proof (O id NE) as SM.
      assert (N0 : nth_error (w_regs w) id = Some r) by (destruct SM as (E & _); congruence).
      apply (same_reg go go' id r w w'); auto. intros P. destruct G as [G|G]; auto. exfalso. apply (G id r NE N0 P).
    - intros id LE. apply (same_fresh id w w'); [apply O; lia|]. apply F. lia.
  Qed.

  Definition about (i : nat) (w : world) (o : obs) : Prop :=
    match o with
    | OOpen k | OText k _ | OClosing k | OClosed k | OClose k => exists s, sock_at w k = Some s /\ s_owner s = i
    | OCreated j _ _ | ODrop j | OTold j _ => j = i
    | _ => True
    end.
  Lemma others_intro i w w' l : socks_ok w ->
    (forall id, id <> i -> nth_error (w_regs w') id = nth_error (w_regs w) id) ->
    (forall k s, s_owner s <> i -> sock_at w' k = Some s <-> sock_at w k = Some s) ->
    (forall id, id <> i -> w_ctrl w' id = w_ctrl w id /\ w_map w' id = w_map w id /\ w_store w' id = w_store w id /\ cnt id w' = cnt id w) ->
    w_log w' = l ++ w_log w -> Forall (about i w) l -> others i w w'.
  Proof.
    intros (SM & _) R S P L F id NE. destruct (P id NE) as (P1 & P2 & P3 & P4).
    assert (NM : forall k s, sock_at w k = Some s -> s_owner s = i -> mine id k (w_log w) = false).
    { intros k s K O. destruct (mine id k (w_log w)) eqn:M; auto. apply SM in M. destruct M as (s1 & K1 & O1). congruence. }
    assert (X : dropped id (l ++ w_log w) = dropped id (w_log w) /\ told id (l ++ w_log w) = told id (w_log w) /\
                expected id (l ++ w_log w) = expected id (w_log w) /\ (forall k, mine id k (l ++ w_log w) = mine id k (w_log w)) /\
                (forall k s, sock_at w k = Some s -> s_owner s = id -> opened k (l ++ w_log w) = opened k (w_log w) /\ ended k (l ++ w_log w) = ended k (w_log w))).
    { clear L. induction F as [|o l A F (I1 & I2 & I3 & I4 & I5)]; [cbn [List.app]; intuition|].
      assert (EN : (i =? id) = false) by (apply Nat.eqb_neq; auto).
      assert (NK : forall k s, sock_at w k = Some s -> s_owner s = i -> forall k' s', sock_at w k' = Some s' -> s_owner s' = id -> (k =? k') = false).
      { intros k s K O k' s' K' O'. apply Nat.eqb_neq. intros ->. congruence. }
      destruct o; cbn [List.app told expected dropped mine opened ended existsb about] in *;
        fold (dropped id (l ++ w_log w)) (mine id);
        try (destruct A as (s0 & K0 & O0)); subst;
        try (rewrite ?I4, ?(NM _ _ K0 eq_refl)); cbn [andb orb]; rewrite ?EN; cbn [andb orb];
        (split; [auto|]); (split; [auto|]); (split; [auto|]); (split; [auto|]); intros k' s' K' O';
        destruct (I5 k' s' K' O') as (J1 & J2); unfold opened, ended in *; rewrite ?(NK _ _ K0 eq_refl _ _ K' O'); cbn [orb]; auto. }
    destruct X as (X1 & X2 & X3 & X4 & X5). unfold same. rewrite L. split; auto. split; [intros k s O; apply S; congruence|].
    split; auto. split; auto. split; auto. intros o I. apply in_or_app. auto.
  Qed.

  Lemma socks_intro i w w' l : socks_ok w -> length (w_regs w') = length (w_regs w) -> length (w_socks w') = length (w_socks w) ->
    (forall k s', sock_at w' k = Some s' -> exists s, sock_at w k = Some s /\ s_owner s = s_owner s') ->
    w_log w' = l ++ w_log w -> Forall (about i w) l -> (forall o, In o l -> match o with OCreated _ _ _ | OAsk _ _ => False | _ => True end) -> socks_ok w'.
  Proof.
    intros (S1 & S2 & S3 & S4 & S5 & S6) LR LS SK L F NC.
    assert (LT : forall k s, sock_at w k = Some s -> k < length (w_socks w)) by (intros k s K; apply nth_error_Some; congruence).
    assert (BK : forall k s, sock_at w k = Some s -> exists s', sock_at w' k = Some s' /\ s_owner s = s_owner s').
    { intros k s K. pose proof (LT k s K) as X. rewrite <- LS in X. apply nth_error_Some in X. destruct (sock_at w' k) as [s'|] eqn:E; [|congruence].
      exists s'. split; auto. destruct (SK k s' E) as (s1 & K1 & O1). congruence. }
    split; [|split; [|split; [|split; [|split]]]].
    - intros id k. assert (M : mine id k (w_log w') = mine id k (w_log w)).
      { rewrite L. clear L F. induction l as [|o l IH]; auto. cbn [List.app]. rewrite <- IH by (intros; apply NC; right; auto).
        pose proof (NC o (or_introl eq_refl)) as X. destruct o; try contradiction; reflexivity. }
      rewrite M, S1. split; intros (s & K & O).
      + destruct (BK k s K) as (s' & K' & O'). exists s'. split; congruence.
      + destruct (SK k s K) as (s' & K' & O'). exists s'. split; congruence.
    - intros k s K. destruct (SK k s K) as (s0 & K0 & O0). rewrite LR, <- O0. eauto.
    - intros k O. rewrite LS. rewrite L in O. clear L NC. induction F as [|o l A F IH]; [auto|].
      cbn [List.app opened existsb] in O. apply orb_true_iff in O. destruct O as [O|O]; [|apply IH; exact O].
      destruct o; try discriminate. apply Nat.eqb_eq in O. subst. destruct A as (s & K & _). eauto.
    - intros k O. rewrite LS. rewrite L in O. clear L NC. induction F as [|o l A F IH]; [auto|].
      cbn [List.app ended existsb] in O. apply orb_true_iff in O. destruct O as [O|O]; [|apply IH; exact O].
      destruct o; try discriminate; apply Nat.eqb_eq in O; subst; destruct A as (s & K & _); eauto.
    - intros id k h I. rewrite L in *. apply in_app_or in I. apply in_or_app. destruct I as [I|I]; [|right; eauto].
      exfalso. apply (NC _ I).
    - intros id h I. rewrite LR. rewrite L in I. apply in_app_or in I. destruct I as [I|I]; [destruct (NC _ I)|eauto].
  Qed.

  (** ** Closing a socket *)
  Definition closed_sock (s : sock) : sock :=
    Sock (s_owner s) (match s_ready s with Connecting | Open => Closing | x => x end) true
         (Some (match s_result s with Some b => b | None => false end)) true (s_on s) (s_timer s).
  Definition close_wakes (k : nat) (s : sock) (r : reg) : list nat :=
    (match r_pc r, s_result s with PConnect j, None => if j =? k then [s_owner s] else [] | _, _ => [] end) ++
    (match r_pc r with PDone j => if j =? k then [s_owner s] else [] | _ => [] end).
  Definition close_notes (k : nat) (s : sock) : list obs := match s_ready s with Connecting | Open => [OClose k] | _ => [] end.

  Lemma close_socket_is k s r w : sock_at w k = Some s -> s_isclose s = false -> s_done s = false ->
    nth_error (w_regs w) (s_owner s) = Some r ->
    let w' := close_socket k w in
    w_regs w' = w_regs w /\ length (w_socks w') = length (w_socks w) /\
    (forall m, sock_at w' m = if m =? k then Some (closed_sock s) else sock_at w m) /\
    w_ctrl w' = w_ctrl w /\ w_map w' = w_map w /\ w_store w' = w_store w /\
    w_queue w' = w_queue w ++ close_wakes k s r /\ w_log w' = close_notes k s ++ w_log w.
  Proof.
    intros K IC D R w'. unfold w', close_socket. rewrite K, IC.
    set (w1 := with_sock k set_isclose w).
    assert (K1 : sock_at w1 k = Some (set_isclose s)) by (unfold w1, with_sock; cbn; rewrite nth_setn, Nat.eqb_refl, K; auto).
    set (w2 := resolve_result k false w1).
    assert (W2 : w_regs w2 = w_regs w /\ w_ctrl w2 = w_ctrl w /\ w_map w2 = w_map w /\ w_store w2 = w_store w /\ w_log w2 = w_log w /\
      length (w_socks w2) = length (w_socks w) /\
      w_queue w2 = w_queue w ++ (match r_pc r, s_result s with PConnect j, None => if j =? k then [s_owner s] else [] | _, _ => [] end) /\
      forall m, sock_at w2 m = if m =? k then Some (Sock (s_owner s) (s_ready s) true (Some (match s_result s with Some b => b | None => false end)) false (s_on s) (s_timer s)) else sock_at w m).
    { unfold w2, resolve_result. rewrite K1. cbn [s_result set_isclose].
      destruct (s_result s) as [b|] eqn:RS.
      - unfold w1, with_sock; cbn. rewrite length_setn. do 6 (split; [auto|]). split; [destruct (r_pc r); rewrite app_nil_r; auto|].
        intros m. rewrite nth_setn. destruct (Nat.eqb_spec m k) as [->|]; auto. rewrite K. cbn. unfold set_isclose. rewrite D, RS. auto.
      - assert (SK : forall m, sock_at (with_sock k (set_result false) w1) m = if m =? k then Some (Sock (s_owner s) (s_ready s) true (Some false) false (s_on s) (s_timer s)) else sock_at w m).
        { intros m. unfold w1, with_sock; cbn. rewrite !nth_setn. destruct (Nat.eqb_spec m k) as [->|]; auto. rewrite K. cbn. unfold set_isclose, set_result. cbn. rewrite D. auto. }
        unfold wake_connect. cbn [s_owner set_isclose]. change (w_regs (with_sock k (set_result false) w1)) with (w_regs w). rewrite R. destruct r as [h ic cn p]. cbn [r_pc].
        assert (LL : length (w_socks (with_sock k (set_result false) w1)) = length (w_socks w)) by (unfold w1, with_sock; cbn; rewrite !length_setn; auto).
        destruct p as [j|j| | |]; try (do 6 (split; [auto|]); split; [cbn; rewrite app_nil_r; auto|exact SK]).
        destruct (j =? k); do 6 (split; [auto|]); (split; [cbn; rewrite ?app_nil_r; auto|exact SK]). }
    destruct W2 as (A1 & A2 & A3 & A4 & A5 & A6 & A7 & A8).
    assert (K2 := A8 k). rewrite Nat.eqb_refl in K2.
    set (w3 := resolve_done k w2).
    assert (W3 : w_regs w3 = w_regs w /\ w_ctrl w3 = w_ctrl w /\ w_map w3 = w_map w /\ w_store w3 = w_store w /\ w_log w3 = w_log w /\
      length (w_socks w3) = length (w_socks w) /\
      w_queue w3 = w_queue w ++ close_wakes k s r /\
      forall m, sock_at w3 m = if m =? k then Some (Sock (s_owner s) (s_ready s) true (Some (match s_result s with Some b => b | None => false end)) true (s_on s) (s_timer s)) else sock_at w m).
    { unfold w3, resolve_done. rewrite K2. cbn [s_done].
      assert (SK : forall m, sock_at (with_sock k set_done w2) m = if m =? k then Some (Sock (s_owner s) (s_ready s) true (Some (match s_result s with Some b => b | None => false end)) true (s_on s) (s_timer s)) else sock_at w m).
      { intros m. unfold with_sock; cbn. rewrite nth_setn, A8. destruct (Nat.eqb_spec m k) as [->|]; auto. }
      assert (LL : length (w_socks (with_sock k set_done w2)) = length (w_socks w)) by (unfold with_sock; cbn; rewrite length_setn; auto).
      unfold wake_done. cbn [s_owner]. change (w_regs (with_sock k set_done w2)) with (w_regs w2). rewrite A1, R. unfold close_wakes. rewrite app_assoc, <- A7.
      destruct r as [h ic cn p]. cbn [r_pc]. destruct p as [j|j| | |]; try (do 6 (split; [auto|]); split; [cbn; rewrite ?app_nil_r; auto|exact SK]).
      destruct (j =? k); do 6 (split; [auto|]); (split; [cbn; rewrite ?app_nil_r; auto|exact SK]). }
    destruct W3 as (B1 & B2 & B3 & B4 & B5 & B6 & B7 & B8). assert (K3 := B8 k). rewrite Nat.eqb_refl in K3.
    fold w2. fold w3. unfold browser_close. rewrite K3. cbn [s_ready]. unfold close_notes, closed_sock.
    assert (SK : forall m, sock_at (with_sock k (set_ready Closing) w3) m = if m =? k then Some (Sock (s_owner s) Closing true (Some (match s_result s with Some b => b | None => false end)) true (s_on s) (s_timer s)) else sock_at w m).
    { intros m. unfold with_sock; cbn. rewrite nth_setn, B8. destruct (Nat.eqb_spec m k) as [->|]; auto. }
    destruct (s_ready s) eqn:RY; cbn [note with_sock w_regs w_socks w_ctrl w_map w_store w_queue w_log];
      rewrite ?length_setn, ?B5; repeat (split; [auto|]); auto.
  Qed.

  (** ** How the log grows *)
  Definition quiet (o : obs) (m : list obs) : Prop :=
    match o with
    | OAsk id _ => forall h, ~ In (OAsk id h) m
    | OCreated id k h => dropped id m = false /\ In (OAsk id h) m /\ valid h = true /\ forall j, mine j k m = false
    | OOpen k => ended k m = false
    | OTold id _ => dropped id m = false
    | OClose k => opened k m = false
    | ODrop _ | OSend _ _ | OSent _ _ | OThrow => False
    | OText _ _ | OClosing _ | OClosed _ => True
    end.
  Inductive grows : list obs -> list obs -> Prop :=
  | g_same l : grows l l
  | g_one l m o : grows l m -> quiet o m -> grows l (o :: m)
  | g_drop l m id n : grows l m -> dropped id m = false -> (n = [] \/ exists k, n = [OClose k] /\ mine id k m = true) ->
      (forall k, mine id k m = true -> opened k m = true -> ended k (n ++ m) = true) -> grows l (n ++ ODrop id :: m)
  | g_sent l m id k t : grows l m -> on_line id k m -> (forall j, on_line id j m -> j = k) -> grows l (OSent k t :: OSend id t :: m)
  | g_lost l m id t : grows l m -> (forall k, ~ on_line id k m) -> grows l (OSend id t :: m).
  Lemma grows_trans a b c : grows a b -> grows b c -> grows a c.
  Proof. intros A B. induction B; auto; [apply g_one|apply g_drop|apply g_sent|apply g_lost]; auto. Qed.
  Lemma grows_same l m : m = l -> grows l m.
  Proof. intros ->. constructor. Qed.
  Lemma grows_one l m o : m = o :: l -> quiet o l -> grows l m.
  Proof. intros -> Q. constructor; [constructor|auto]. Qed.

  Definition waiting_dropped (w : world) : Prop := forall id, In id (w_queue w) -> dropped id (w_log w) = true.
  Lemma cnt_zero id w : waiting_dropped w -> dropped id (w_log w) = false -> cnt id w = 0.
  Proof. intros Q D. apply count_occ_not_In. intros I. apply Q in I. congruence. Qed.
  Lemma reg_lt {A} (l : list A) i r : nth_error l i = Some r -> i < length l.
  Proof. intros N. apply nth_error_Some. congruence. Qed.

  (** ** What the application does *)
  Lemma on_line_is go id k w : inv go w -> on_line id k (w_log w) ->
    w_map w id = Some k /\ exists s, sock_at w k = Some s /\ s_isclose s = false /\ s_ready s = Open.
  Proof.
    intros ((S1 & S2 & _) & R & _) (M & D & T & O & E). apply S1 in M. destruct M as (s & K & OW).
    assert (LT := S2 k s K). rewrite OW in LT. apply nth_error_Some in LT. destruct (nth_error (w_regs w) id) as [r|] eqn:N; [|congruence].
    destruct (R id r N) as (_ & _ & SK & _ & _ & _ & PC). destruct (SK k s K OW) as ((_ & _ & (_ & RY) & _ & IC & _) & CU).
    specialize (RY (conj O E)). assert (C0 : s_isclose s = false).
    { destruct (s_isclose s); auto. destruct (IC eq_refl); congruence. }
    split; [|exists s; auto]. destruct CU as [CU|(X & _)]; [|congruence].
    unfold current in CU. unfold pc_ok in PC. rewrite D in PC. destruct (r_pc r) as [j|j| | |] eqn:P; try discriminate CU.
    - destruct PC as (s' & _ & _ & _ & _ & Q & _). destruct (Q eq_refl) as (_ & F). pose proof (session_fun _ _ _ T F). discriminate.
    - destruct PC as (s' & _ & _ & _ & _ & _ & Q & _). injection CU as ->. apply Q. auto.
    - destruct PC as (_ & _ & Q). destruct go as [(j & c)|]; [|contradiction]. subst c. destruct Q as (-> & s' & _ & _ & _ & _ & _ & _ & Q).
      apply Q. auto.
  Qed.
  Lemma line_on go id k s w : inv go w -> w_map w id = Some k -> sock_at w k = Some s -> s_isclose s = false ->
    s_ready s <> Connecting /\ (s_ready s = Open -> on_line id k (w_log w)).
  Proof.
    intros ((S1 & S2 & _) & R & F) M K C. assert (LT : id < length (w_regs w)).
    { destruct (Nat.lt_ge_cases id (length (w_regs w))) as [X|X]; auto. destruct (F id X) as (_ & _ & Y & _). congruence. }
    apply nth_error_Some in LT. destruct (nth_error (w_regs w) id) as [r|] eqn:N; [|congruence].
    destruct (R id r N) as (_ & _ & SK & _ & MP & _ & PC). destruct (MP k M) as (s0 & K0 & OW & RS & DC).
    rewrite K in K0. injection K0 as <-. destruct (SK k s K OW) as ((_ & X & Y & _) & _). split.
    - intros Z. apply X in Z. congruence.
    - intros RY. apply Y in RY. destruct RY as (O & E). destruct (dropped id (w_log w)) eqn:D; [rewrite DC in C; auto; congruence|].
      split; [apply S1; eauto|]. split; auto. split; [|auto]. unfold pc_ok in PC. rewrite D in PC.
      destruct (r_pc r) as [j|j| | |] eqn:P.
      + destruct PC as (s' & _ & _ & _ & _ & Q & _). destruct (Q eq_refl) as (Q1 & _). congruence.
      + destruct PC as (s' & _ & _ & _ & _ & _ & Q & _). apply Q. auto.
      + destruct PC as (_ & _ & Q). destruct (Q eq_refl) as (Q1 & _). congruence.
      + destruct PC as (_ & _ & Q). destruct go as [(i & [c|])|]; [| |contradiction].
        * destruct Q as (_ & s' & _ & _ & _ & _ & _ & _ & Q). apply Q. auto.
        * destruct Q as (_ & Q). destruct (Q eq_refl) as (Q1 & _). congruence.
      + destruct PC as (_ & _ & [Q|(_ & Q)]); congruence.
  Qed.

  (** Only the log changes, by something that concerns nobody's connection. *)
  Definition idle (o : obs) : Prop := match o with OSend _ _ | OSent _ _ | OThrow => True | _ => False end.
  Lemma note_inv go o w : idle o -> inv go w -> inv go (note o w).
  Proof.
    intros ID I. assert (S := proj1 I). assert (A : forall i, about i w o) by (intros; destruct o; cbn in *; tauto).
    assert (SM : forall id, same id w (note o w)).
    { intros id. refine (others_intro (Datatypes.S id) w (note o w) [o] S _ _ _ eq_refl _ id _); auto; try tauto; try lia; repeat constructor; auto. }
    destruct I as (_ & R & F). split; [|split].
    - apply (socks_intro 0 w _ [o] S); auto; [intros k s K; exists s; auto|]. intros x [<-|[]]. destruct o; auto.
    - intros id r N. apply (same_reg go go id r w); auto.
    - intros id L. apply (same_fresh id w); auto.
  Qed.

  Lemma send_inv go id t w : inv go w -> inv go (send id t w) /\ w_queue (send id t w) = w_queue w /\ w_regs (send id t w) = w_regs w.
  Proof.
    intros I. unfold send. destruct (w_map w id) as [k|]; auto. destruct (sock_at w k) as [s|] eqn:K; auto.
    destruct (s_isclose s); auto. unfold browser_send. rewrite K. destruct (s_ready s); auto; (split; [apply note_inv; cbn; auto|auto]).
  Qed.

  Lemma drop_inv go id w : inv go w -> waiting_dropped w ->
    let w' := act (ADrop id) w in inv go w' /\ waiting_dropped w' /\ length (w_regs w') = length (w_regs w) /\ grows (w_log w) (w_log w').
  Proof.
    intros I Q w'. unfold w'. cbn [WebsocketModel.act]. destruct (w_store w id) eqn:ST; [|split; auto; split; auto; split; auto; apply grows_same; auto].
    assert (S := proj1 I). destruct I as (_ & R & F).
    assert (LT : id < length (w_regs w)).
    { destruct (Nat.lt_ge_cases id (length (w_regs w))) as [X|X]; auto. destruct (F id X) as (Y & _). congruence. }
    assert (N := LT). apply nth_error_Some in N. destruct (nth_error (w_regs w) id) as [r|] eqn:N'; [|congruence]. clear N. rename N' into N.
    pose proof (R id r N) as RO. destruct RO as ((E1 & E2 & E3) & SS & SK & CN & MP & HO & PC).
    assert (D : dropped id (w_log w) = false) by (destruct (dropped id (w_log w)); auto; rewrite ST in E1; discriminate).
    rewrite D in *. cbn [negb] in *. assert (CZ := cnt_zero id w Q D).
    unfold unregister. change (w_ctrl (note (ODrop id) w) id) with (w_ctrl w id). rewrite E2. unfold dispose.
    set (w1 := with_reg id set_disconnect (note (ODrop id) w)).
    assert (N1 : nth_error (w_regs w1) id = Some (set_disconnect r)) by (unfold w1; cbn; rewrite nth_setn, Nat.eqb_refl, N; auto).
    rewrite N1. cbn [r_conn set_disconnect].
    set (w2 := match r_conn r with Some k => close_socket k w1 | None => w1 end).
    (* what [dispose] closes *)
    assert (CL : (exists k s, r_conn r = Some k /\ current go r = Some k /\ sock_at w k = Some s /\ s_owner s = id /\ s_isclose s = false /\ s_result s = Some true /\
                    w_regs w2 = w_regs w1 /\ length (w_socks w2) = length (w_socks w) /\
                    (forall m, sock_at w2 m = if m =? k then Some (closed_sock s) else sock_at w m) /\
                    w_ctrl w2 = w_ctrl w /\ w_map w2 = w_map w /\ w_store w2 = w_store w /\
                    w_queue w2 = w_queue w ++ close_wakes k s r /\ w_log w2 = close_notes k s ++ ODrop id :: w_log w) \/
                 w2 = w1 /\ (forall k, r_conn r = Some k -> exists s, sock_at w k = Some s /\ s_isclose s = true)).
    { unfold w2. destruct (r_conn r) as [k|] eqn:RC; [|right; split; auto; discriminate].
      destruct (CN k eq_refl) as (s & K & OW & CC). destruct (SK k s K OW) as (SO & _).
      destruct (s_isclose s) eqn:IC.
      - right. split; [|intros j X; injection X as <-; eauto]. unfold close_socket. change (sock_at w1 k) with (sock_at w k). rewrite K, IC. auto.
      - left. destruct CC as [CC|(CC & RT)]; [discriminate|]. exists k, s.
        assert (DN : s_done s = false) by (destruct SO as (_ & _ & _ & X & _); congruence).
        pose proof (close_socket_is k s (set_disconnect r) w1 K IC DN) as X. rewrite OW in X. specialize (X N1).
        destruct X as (X1 & X2 & X3 & X4 & X5 & X6 & X7 & X8). do 6 (split; [auto|]). split; [exact X1|]. split; [exact X2|]. split; [exact X3|].
        split; [exact X4|]. split; [exact X5|]. split; [exact X6|]. split; [exact X7|]. exact X8. }
    set (w3 := with_store id false (with_ctrl id false w2)).
    assert (L3 : w_regs w3 = w_regs w1) by (unfold w3; cbn; destruct CL as [(k & s & X)|(-> & _)]; [apply X|auto]).
    assert (LEN : length (w_regs w3) = length (w_regs w)) by (rewrite L3; unfold w1; cbn; apply length_setn).
    assert (LG : exists l, w_log w3 = l ++ w_log w /\ Forall (about id w) l /\ (forall o, In o l -> match o with OCreated _ _ _ | OAsk _ _ => False | _ => True end) /\
              dropped id (w_log w3) = true /\ told id (w_log w3) = told id (w_log w) /\ expected id (w_log w3) = expected id (w_log w) /\
              forall k, opened k (w_log w3) = opened k (w_log w)).
    { unfold w3; cbn [w_log with_store with_ctrl]. destruct CL as [(k & s & _ & _ & K & OW & _ & _ & _ & _ & _ & _ & _ & _ & _ & ->)|(-> & _)].
      - exists (close_notes k s ++ [ODrop id]). split; [rewrite <- app_assoc; auto|]. unfold close_notes.
        destruct (s_ready s); cbn; rewrite Nat.eqb_refl; (split; [repeat constructor; cbn; eauto|]);
          (split; [intros o IN; repeat (destruct IN as [<-|IN]; [exact Logic.I|]); contradiction|]); auto.
      - exists [ODrop id]. cbn. rewrite Nat.eqb_refl. split; auto. split; [repeat constructor|]. split; auto. intros o [<-|[]]. auto. }
    destruct LG as (l & LG & AB & NC & D3 & T3 & X3 & O3).
    assert (OTH : others id w w3).
    { refine (others_intro id w w3 l S _ _ _ LG AB).
      - intros j NE. rewrite L3. unfold w1; cbn. rewrite nth_setn. destruct (Nat.eqb_spec j id); congruence.
      - intros k s OW. unfold w3; cbn. destruct CL as [(k0 & s0 & _ & _ & K0 & OW0 & _ & _ & _ & _ & SK2 & _)|(-> & _)]; [|tauto].
        rewrite SK2. destruct (Nat.eqb_spec k k0) as [->|]; [|tauto]. split; intros X; [injection X as <-; cbn in OW; congruence|congruence].
      - intros j NE. unfold w3, setf; cbn. unfold setf. destruct (Nat.eqb_spec j id); [congruence|].
        destruct CL as [(k0 & s0 & _ & _ & _ & OW0 & _ & _ & _ & _ & _ & -> & -> & -> & QU & _)|(-> & _)]; [|auto].
        do 3 (split; [auto|]). rewrite QU, count_occ_app. enough (X : count_occ Nat.eq_dec (close_wakes k0 s0 r) j = 0) by lia.
        apply count_occ_not_In. intros IN. unfold close_wakes in IN.
        destruct (r_pc r) as [j0|j0| | |], (s_result s0); try destruct (j0 =? k0); cbn in IN; intuition congruence. }
    assert (SO3 : socks_ok w3).
    { refine (socks_intro id w w3 l S LEN _ _ LG AB NC).
      - unfold w3; cbn. destruct CL as [(k & s & X)|(-> & _)]; [apply X|auto].
      - intros k s'. unfold w3; cbn. destruct CL as [(k0 & s0 & _ & _ & K0 & OW0 & _ & _ & _ & _ & SK2 & _)|(-> & _)]; [|cbn; eauto].
        rewrite SK2. destruct (Nat.eqb_spec k k0) as [->|]; [|eauto]. intros X. injection X as <-. eauto. }
    assert (WD : waiting_dropped w3).
    { intros j IN. assert (OLD : In j (w_queue w) -> dropped j (w_log w3) = true).
      { intros X. apply Q in X. rewrite LG. unfold dropped in *. rewrite existsb_app, X. apply orb_true_r. }
      destruct CL as [(k0 & s0 & _ & _ & _ & OW0 & _ & _ & _ & _ & _ & _ & _ & _ & QU & _)|(E & _)].
      - unfold w3 in IN; cbn in IN. rewrite QU in IN. apply in_app_or in IN. destruct IN as [IN|IN]; auto.
        replace j with id; auto. unfold close_wakes in IN. destruct (r_pc r) as [j0|j0| | |], (s_result s0); try destruct (j0 =? k0); cbn in IN; intuition congruence.
      - unfold w3 in IN; cbn in IN. rewrite E in IN. auto. }
    assert (GR : grows (w_log w) (w_log w3)).
    { assert (OPN : forall k, mine id k (w_log w) = true -> opened k (w_log w) = true -> ended k (w_log w) = false -> r_conn r = Some k).
      { intros k M OP EN. apply (proj1 S) in M. destruct M as (s & K & OW). destruct (SK k s K OW) as ((A1 & A2 & A3 & A4 & A5 & A6 & A7 & A8 & A9) & CU).
        assert (RT := proj1 A1 OP). assert (RY : s_ready s = Open) by (apply A3; auto).
        assert (CK : current go r = Some k) by (destruct CU as [CU|(CU & _)]; auto; destruct (A5 CU); congruence).
        unfold current in CK. unfold pc_ok in PC. destruct (r_pc r) as [j|j| | |]; try discriminate CK.
        - injection CK as ->. destruct PC as (s1 & K1 & _ & _ & _ & _ & [(_ & Z & _)|[(Z & _)|(Z & _)]]); [congruence|rewrite CZ in Z; discriminate|rewrite CZ in Z; discriminate].
        - injection CK as ->. destruct PC as (s1 & K1 & _ & _ & _ & Z & _). exact Z.
        - destruct PC as (_ & _ & Z). destruct go as [(i & c)|]; [|contradiction]. subst c. destruct Z as (_ & s1 & _ & _ & _ & _ & Z & _). exact Z. }
      unfold w3; cbn [w_log with_store with_ctrl]. destruct CL as [(k & s & RC & _ & K & OW & IC & RT & _ & _ & _ & _ & _ & _ & _ & ->)|(E & NO)].
      - destruct (SK k s K OW) as ((A1 & A2 & A3 & A4 & A5 & A6 & A7 & A8 & A9) & _).
        apply g_drop; [constructor|exact D| |].
        + unfold close_notes. destruct (s_ready s); auto; right; exists k; (split; [auto|]); apply (proj1 S); eauto.
        + intros m M OP. destruct (ended m (w_log w)) eqn:EN; [unfold ended in *; rewrite existsb_app, EN; apply orb_true_r|].
          assert (m = k) by (specialize (OPN m M OP EN); congruence). subst m.
          assert (RY : s_ready s = Open) by (apply A3; auto). unfold close_notes. rewrite RY. cbn. rewrite Nat.eqb_refl. auto.
      - rewrite E. apply (g_drop _ _ id []); [constructor|exact D|auto|]. intros k M OP. destruct (ended k (w_log w)) eqn:EN; auto. exfalso.
        destruct (NO k (OPN k M OP EN)) as (s & K & IC). apply (proj1 S) in M. destruct M as (s1 & K1 & OW). assert (s1 = s) by congruence. subst s1.
        destruct (SK k s K OW) as ((A1 & A2 & A3 & A4 & A5 & A6 & A7 & A8 & A9) & _). assert (RY : s_ready s = Open) by (apply A3; auto). destruct (A5 IC); congruence. }
    split; [|split; [exact WD|split; [exact LEN|exact GR]]].
    apply (inv_one go go id w w3); auto; [split; auto|rewrite LEN; auto| |rewrite LEN; auto].
    intros r3 N3. rewrite L3, N1 in N3. injection N3 as <-.
    assert (CU : current go (set_disconnect r) = current go r) by reflexivity.
    unfold reg_ok. rewrite D3, T3, CU. split; [unfold w3; cbn; unfold setf; rewrite Nat.eqb_refl; auto|]. split; [auto|].
    destruct CL as [(k & s & RC & CK & K & OW & IC & RT & RG & LS & SK2 & CT & MA & SR & QU & LO)|(E & NO)].
    - assert (CS : sock_ok k (closed_sock s) (w_log w3)).
      { destruct (SK k s K OW) as ((A1 & A2 & A3 & A4 & A5 & A6 & A7 & A8 & A9) & _).
        assert (RY : s_ready s = Open \/ s_ready s = Closing).
        { destruct (s_ready s) eqn:RY; auto; exfalso; [|rewrite A6 in IC; auto; discriminate]. assert (X := proj1 A2 eq_refl). congruence. }
        unfold sock_ok, closed_sock. rewrite O3, RT. cbn [s_owner s_ready s_isclose s_result s_done s_timer]. rewrite RT in A1.
        split; [exact A1|]. split; [destruct RY as [-> | ->]; split; discriminate|]. split.
        { split; [destruct RY as [-> | ->]; discriminate|]. intros (_ & X). exfalso.
          unfold w3 in X; cbn in X. rewrite LO in X. unfold close_notes in X. destruct RY as [RY|RY]; rewrite RY in X; cbn in X; [rewrite Nat.eqb_refl in X; discriminate|].
          fold (ended k (w_log w)) in X. assert (Y : s_ready s = Open) by (apply A3; split; [apply A1; auto|exact X]). congruence. }
        split; auto. split; [destruct RY as [-> | ->]; auto|]. split; auto. split; [discriminate|]. split; [discriminate|].
        intros X. exfalso. unfold w3 in X; cbn in X. rewrite LO in X. unfold close_notes in X. destruct RY as [RY|RY]; rewrite RY in X; cbn in X; [rewrite Nat.eqb_refl in X; discriminate|].
        destruct (A9 X); congruence. }
      assert (EK : forall m, m <> k -> ended m (w_log w3) = ended m (w_log w)).
      { intros m NM. unfold w3; cbn. rewrite LO. unfold close_notes. assert (X : (k =? m) = false) by (apply Nat.eqb_neq; auto).
        destruct (s_ready s); cbn; rewrite ?X; auto. }
      assert (K3 : sock_at w3 k = Some (closed_sock s)) by (unfold w3; cbn; rewrite SK2, Nat.eqb_refl; auto).
      split; [|split; [|split; [|split]]].
      + intros m s' KM OM. unfold w3 in KM; cbn in KM. rewrite SK2 in KM. destruct (Nat.eqb_spec m k) as [->|NM].
        * injection KM as <-. split; [exact CS|]. right. split; auto.
        * destruct (SK m s' KM OM) as (Y1 & Y2). split; [unfold sock_ok in *; rewrite O3, (EK m NM); exact Y1|].
          destruct Y2 as [Y2|Y2]; [left; auto|right]. destruct Y2 as (Y2 & Y3). split; auto.
      + cbn [r_conn set_disconnect]. intros m X. rewrite RC in X. injection X as <-. exists (closed_sock s). split; [exact K3|]. split; auto.
      + intros m X. unfold w3 in X; cbn in X. rewrite MA in X. destruct (MP m X) as (s' & KM & OM & RM & _).
        destruct (Nat.eqb_spec m k) as [->|NM].
        * exists (closed_sock s). split; [exact K3|]. split; auto. split; auto. cbn. rewrite RT. auto.
        * exfalso. unfold pc_ok in PC. rewrite D in PC. unfold current in CK. destruct (r_pc r) as [j|j| | |] eqn:P; try discriminate CK.
          -- destruct PC as (s1 & _ & _ & _ & _ & Z & _). destruct (Z eq_refl). congruence.
          -- destruct PC as (s1 & _ & _ & _ & _ & _ & Z & _). destruct (Z eq_refl). congruence.
          -- destruct PC as (_ & _ & Z). destruct go as [(i & c)|]; [|contradiction]. subst c. destruct Z as (_ & s1 & _ & _ & _ & _ & _ & _ & Z).
             destruct (Z eq_refl). congruence.
      + rewrite LG. apply in_or_app. right. exact HO.
      + assert (QC : cnt id w3 = count_occ Nat.eq_dec (close_wakes k s r) id) by (unfold w3; cbn; rewrite QU, count_occ_app, CZ; auto).
        unfold pc_ok in *. rewrite D3, T3, X3. rewrite D in PC. cbn [r_pc set_disconnect]. unfold current in CK.
        unfold close_wakes in QC. rewrite RT in QC. destruct (r_pc r) as [j|j| | |] eqn:P; try discriminate CK.
        * injection CK as ->. destruct PC as (s1 & _ & _ & _ & Z & _). congruence.
        * injection CK as ->. destruct PC as (s1 & K1 & O1 & ON & _ & _ & _ & PX). assert (s1 = s) by congruence. subst s1.
          exists (closed_sock s). split; [exact K3|]. split; [exact OW|]. split; [exact ON|]. split; [cbn; rewrite RT; auto|]. split; [exact RC|]. split; [discriminate|].
          right. rewrite Nat.eqb_refl in QC. cbn in QC. rewrite OW in QC. destruct (Nat.eq_dec id id); [|congruence]. split; auto. split; auto. split; [discriminate|].
          rewrite app_nil_r. destruct PX as [(_ & _ & PX)|(_ & Z & _)]; [auto|congruence].
        * cbn in QC. destruct PC as (_ & PX & Z). split; auto. split; auto. destruct go as [(i & c)|]; [|contradiction]. subst c.
          destruct Z as (-> & s1 & K1 & O1 & ON & _ & _ & _). assert (s1 = s) by congruence. subst s1. split; auto.
          exists (closed_sock s). split; [exact K3|]. split; [exact OW|]. split; [exact ON|]. split; [cbn; rewrite RT; auto|]. split; [exact RC|]. split; auto. discriminate.
    - assert (EK : forall m, ended m (w_log w3) = ended m (w_log w)) by (intros m; unfold w3; cbn; rewrite E; reflexivity).
      assert (K3 : forall m, sock_at w3 m = sock_at w m) by (intros m; unfold w3; cbn; rewrite E; reflexivity).
      assert (M3 : w_map w3 = w_map w) by (unfold w3; cbn; rewrite E; reflexivity).
      assert (Q3 : cnt id w3 = 0) by (unfold w3; cbn; rewrite E; exact CZ).
      split; [|split; [|split; [|split]]].
      + intros m s' KM OM. rewrite K3 in KM. destruct (SK m s' KM OM) as (Y1 & Y2). split; [unfold sock_ok in *; rewrite O3, EK; exact Y1|].
        destruct Y2 as [Y2|Y2]; [left; auto|right]. destruct Y2 as (Y2 & Y3). split; auto.
      + cbn [r_conn set_disconnect]. intros m X. destruct (CN m X) as (s' & KM & OM & CC). exists s'. rewrite K3. auto.
      + intros m X. rewrite M3 in X. destruct (MP m X) as (s' & KM & OM & RM & _). exists s'. rewrite K3. split; auto. split; auto. split; auto. intros _.
        unfold pc_ok in PC. rewrite D in PC. destruct (r_pc r) as [j|j| | |] eqn:P.
        * destruct PC as (s1 & _ & _ & _ & _ & Z & _). destruct (Z eq_refl). congruence.
        * destruct PC as (s1 & _ & _ & _ & _ & RC & Z & _). destruct (Z eq_refl) as (Z1 & _). destruct (NO j RC) as (s2 & Z2 & Z3). congruence.
        * destruct PC as (_ & _ & Z). destruct (Z eq_refl). congruence.
        * destruct PC as (_ & _ & Z). destruct go as [(i & [c|])|]; [| |contradiction].
          -- destruct Z as (_ & s1 & _ & _ & _ & _ & RC & _ & Z). destruct (Z eq_refl) as (Z1 & _). destruct (NO c RC) as (s2 & Z2 & Z3). congruence.
          -- destruct Z as (_ & Z). destruct (Z eq_refl). congruence.
        * destruct PC as (_ & _ & [Z|(_ & Z)]); congruence.
      + rewrite LG. apply in_or_app. right. exact HO.
      + unfold pc_ok in *. rewrite D3, T3, X3, Q3. rewrite D in PC. cbn [r_pc set_disconnect r_conn r_host]. destruct (r_pc r) as [j|j| | |] eqn:P.
        * destruct PC as (s1 & K1 & O1 & ON & RN & _ & PX). exists s1. rewrite K3. split; auto. split; auto. split; auto. split; auto. split; [discriminate|].
          left. destruct PX as [(_ & Z1 & Z2)|[(Z1 & _)|(Z1 & _)]]; [auto|rewrite CZ in Z1; discriminate|rewrite CZ in Z1; discriminate].
        * exfalso. destruct PC as (s1 & K1 & O1 & ON & _ & RC & _ & PX). destruct (NO j RC) as (s2 & Z2 & Z3).
          destruct PX as [(_ & Z & _)|(Z & _)]; [congruence|rewrite CZ in Z; discriminate].
        * destruct PC as (_ & PX & _). split; auto. split; auto. discriminate.
        * destruct PC as (_ & PX & Z). split; auto. split; auto. destruct go as [(i & [c|])|]; [| |contradiction].
          -- exfalso. destruct Z as (_ & s1 & K1 & _ & _ & _ & RC & Z & _). destruct (NO c RC) as (s2 & Z2 & Z3). assert (s2 = s1) by congruence. subst s2. specialize (Z Z3). discriminate.
          -- destruct Z as (-> & _). split; auto. discriminate.
        * destruct PC as (_ & PX & _). split; auto.
  Qed.

  (** The loop is about to look at [isConnect]. *)
  Definition at_top (id : nat) (r : reg) (w : world) : Prop :=
    let dr := dropped id (w_log w) in
    (w_store w id = negb dr /\ w_ctrl w id = negb dr /\ r_isconnect r = negb dr) /\
    (exists b, session (told id (w_log w)) b) /\
    (forall k s, sock_at w k = Some s -> s_owner s = id -> sock_ok k s (w_log w) /\ old_ok s dr) /\
    (forall k, r_conn r = Some k -> exists s, sock_at w k = Some s /\ s_owner s = id /\ s_isclose s = true) /\
    (forall k, w_map w id = Some k -> exists s, sock_at w k = Some s /\ s_owner s = id /\ s_result s = Some true /\ (dr = true -> s_isclose s = true)) /\
    In (OAsk id (r_host r)) (w_log w) /\
    cnt id w = 0 /\ expected id (w_log w) = told id (w_log w) /\ (dr = false -> w_map w id = None /\ session (told id (w_log w)) false).

  Lemma loop_top_ok go id r w : socks_ok w -> nth_error (w_regs w) id = Some r -> at_top id r w ->
    let w' := loop_top id w in
    others id w w' /\ socks_ok w' /\ length (w_regs w') = length (w_regs w) /\ w_queue w' = w_queue w /\
    (forall r', nth_error (w_regs w') id = Some r' -> reg_ok go id r' w' /\ r_pc r' <> PRun) /\
    (dropped id (w_log w) = false -> valid (r_host r) = true -> w_log w' = OCreated id (length (w_socks w)) (r_host r) :: w_log w) /\
    (dropped id (w_log w) = true -> w_log w' = w_log w) /\ grows (w_log w) (w_log w').
  Proof.
    intros S N ((E1 & E2 & E3) & SS & SK & CN & MP & HO & CZ & XT & MN) w'. unfold w', WebsocketModel.loop_top. rewrite N.
    destruct (r_isconnect r && valid (r_host r)) eqn:G.
    - apply andb_true_iff in G. destruct G as (IC & VA). set (k := length (w_socks w)). set (nw := Sock id Connecting false None false false true).
      set (w1 := World (w_regs w) (w_socks w ++ [nw]) (w_ctrl w) (w_map w) (w_store w) (w_queue w) (w_log w)).
      set (w2 := with_reg id (set_pc (PConnect k)) (note (OCreated id k (r_host r)) w1)).
      assert (D : dropped id (w_log w) = false) by (rewrite IC in E3; destruct (dropped id (w_log w)); auto; discriminate).
      assert (KS : forall m, sock_at w2 m = if m =? k then Some nw else sock_at w m) by (intros m; unfold w2; cbn; apply nth_snoc).
      assert (NK : sock_at w k = None) by (apply nth_error_None; unfold k; lia).
      assert (OTH : others id w w2).
      { refine (others_intro id w w2 [OCreated id k (r_host r)] S _ _ _ eq_refl _).
        - intros j NE. unfold w2; cbn. rewrite nth_setn. destruct (Nat.eqb_spec j id); congruence.
        - intros m s OW. rewrite KS. destruct (Nat.eqb_spec m k) as [->|]; [|tauto]. split; [|congruence]. intros X. injection X as <-. cbn in OW. congruence.
        - intros j NE. auto.
        - repeat constructor. }
      assert (OP : opened k (w_log w) = false /\ ended k (w_log w) = false).
      { destruct S as (_ & _ & S3 & S4 & _). split.
        - destruct (opened k (w_log w)) eqn:X; auto. apply S3 in X. unfold k in X. lia.
        - destruct (ended k (w_log w)) eqn:X; auto. apply S4 in X. unfold k in X. lia. }
      split; [exact OTH|]. split; [|split; [unfold w2; cbn; apply length_setn|split; [reflexivity|split]]].
      + destruct S as (S1 & S2 & S3 & S4 & S5 & S6). unfold socks_ok. split; [|split; [|split; [|split; [|split]]]].
        * intros j m. unfold w2; cbn. fold (mine j m (w_log w)). rewrite orb_true_iff, andb_true_iff, !Nat.eqb_eq, S1.
          change (nth_error (w_socks w ++ [nw]) m) with (sock_at w2 m). rewrite KS. split.
          -- intros [(<- & <-)|(s & K & O)]; [rewrite Nat.eqb_refl; exists nw; auto|].
             destruct (Nat.eqb_spec m k) as [->|]; [congruence|]. eauto.
          -- intros (s & K & O). destruct (Nat.eqb_spec m k) as [->|]; [injection K as <-; left; auto|right; eauto].
        * intros m s K. rewrite KS in K. unfold w2; cbn. rewrite length_setn. destruct (Nat.eqb_spec m k) as [->|]; [|eauto].
          injection K as <-. cbn. apply (reg_lt _ _ _ N).
        * intros m X. unfold w2; cbn. rewrite app_length. apply S3 in X. lia.
        * intros m X. unfold w2; cbn. rewrite app_length. apply S4 in X. lia.
        * intros j m h [X|X]; [injection X as <- <- <-; right; exact HO|right; eauto].
        * intros j h [X|X]; [discriminate|]. unfold w2; cbn. rewrite length_setn. eauto.
      + intros r' N'. unfold w2 in N'; cbn in N'. rewrite nth_setn, Nat.eqb_refl, N in N'. injection N' as <-. split; [|discriminate].
        assert (MI : forall m s, sock_at w m = Some s -> m <> k) by (intros m s X ->; congruence).
        unfold reg_ok. change (dropped id (w_log w2)) with (dropped id (w_log w)). change (told id (w_log w2)) with (told id (w_log w)).
        cbn [r_isconnect r_conn r_host set_pc current r_pc]. split; [auto|]. split; [auto|]. split; [|split; [|split; [|split]]].
        * intros m s K O. rewrite KS in K. destruct (Nat.eqb_spec m k) as [->|NE].
          -- injection K as <-. split; [|left; auto]. unfold sock_ok. change (opened k (w_log w2)) with (opened k (w_log w)).
             change (ended k (w_log w2)) with (ended k (w_log w)). destruct OP as (-> & ->). cbn. repeat split; intros; try discriminate; auto. destruct H; discriminate.
          -- destruct (SK m s K O) as (Y1 & Y2). split; auto.
        * intros m X. destruct (CN m X) as (s & K & O & C). exists s. rewrite KS. destruct (Nat.eqb_spec m k) as [->|]; [congruence|]. auto.
        * intros m X. destruct (MP m X) as (s & K & O & C). exists s. rewrite KS. destruct (Nat.eqb_spec m k) as [->|]; [congruence|]. auto.
        * right. exact HO.
        * unfold pc_ok. cbn [r_pc set_pc r_conn]. exists nw. rewrite KS, Nat.eqb_refl. split; auto. split; auto. split; auto. split.
          { intros X. destruct (CN k X) as (s & K & _). congruence. }
          split; [exact MN|]. left. split; [exact CZ|]. split; auto.
      + split; [auto|split; [congruence|apply (grows_one _ _ (OCreated id k (r_host r))); auto]].
        cbn. split; auto. split; auto. split; auto. intros j. destruct (mine j k (w_log w)) eqn:MJ; auto. apply (proj1 S) in MJ. destruct MJ as (s & K & _). congruence.
    - set (w2 := with_reg id (set_pc PEnd) w).
      assert (OTH : others id w w2).
      { refine (others_intro id w w2 [] S _ _ _ eq_refl _); auto; [|intros; tauto].
        intros j NE. unfold w2; cbn. rewrite nth_setn. destruct (Nat.eqb_spec j id); congruence. }
      split; [exact OTH|]. split; [|split; [unfold w2; cbn; apply length_setn|split; [reflexivity|split]]].
      + apply (socks_intro id w w2 [] S); auto; [unfold w2; cbn; apply length_setn|intros k s K; exists s; auto|intros o []].
      + intros r' N'. unfold w2 in N'; cbn in N'. rewrite nth_setn, Nat.eqb_refl, N in N'. injection N' as <-. split; [|discriminate].
        unfold reg_ok. cbn [w2 with_reg w_log w_store w_ctrl w_map w_socks r_isconnect r_conn r_host set_pc current r_pc].
        split; [auto|]. split; [auto|]. split; [|split; [|split; [|split]]].
        * intros m s K O. destruct (SK m s K O) as (Y1 & Y2). split; auto.
        * intros m X. destruct (CN m X) as (s & K & O & C). exists s. auto.
        * intros m X. destruct (MP m X) as (s & K & O & C). exists s. auto.
        * exact HO.
        * unfold pc_ok. cbn [w2 with_reg w_log w_map w_queue r_pc set_pc r_host]. split; [exact CZ|]. split; [exact XT|].
          destruct (dropped id (w_log w)) eqn:D; [left; auto|right]. rewrite E3 in G. cbn in G. split; auto. apply MN. auto.
      + split; [|split; [auto|apply grows_same; auto]]. intros D V. rewrite E3, D, V in G. discriminate.
  Qed.

  Lemma open_inv go host w : inv go w -> waiting_dropped w ->
    let w' := act (AOpen host) w in inv go w' /\ waiting_dropped w' /\ length (w_regs w) <= length (w_regs w') /\ grows (w_log w) (w_log w').
  Proof.
    intros I Q w'. assert (S := proj1 I). destruct I as (_ & R & F). unfold w'. cbn [WebsocketModel.act]. set (id := length (w_regs w)).
    set (w1 := World (w_regs (note (OAsk id host) (with_store id true w)) ++ [Reg host true None PRun]) (w_socks (note (OAsk id host) (with_store id true w)))
      (w_ctrl (note (OAsk id host) (with_store id true w))) (w_map (note (OAsk id host) (with_store id true w))) (w_store (note (OAsk id host) (with_store id true w)))
      (w_queue (note (OAsk id host) (with_store id true w))) (w_log (note (OAsk id host) (with_store id true w)))).
    assert (CM : with_ctrl id true (loop_top id w1) = loop_top id (with_ctrl id true w1)).
    { unfold WebsocketModel.loop_top. change (w_regs (with_ctrl id true w1)) with (w_regs w1). destruct (nth_error (w_regs w1) id) as [r|]; auto.
      destruct (r_isconnect r && valid (r_host r)); reflexivity. }
    rewrite CM. set (w2 := with_ctrl id true w1).
    assert (N2 : nth_error (w_regs w2) id = Some (Reg host true None PRun)) by (unfold w2, w1; cbn; rewrite nth_snoc; unfold id; rewrite Nat.eqb_refl; auto).
    destruct (F id (Nat.le_refl _)) as (F1 & F2 & F3 & F4 & F5 & F6 & F7).
    assert (LEN : length (w_regs w2) = Datatypes.S (length (w_regs w))) by (unfold w2, w1; cbn; rewrite app_length; cbn; lia).
    assert (NO : forall k s, sock_at w k = Some s -> s_owner s <> id).
    { intros k s K X. destruct S as (_ & S2 & _). apply S2 in K. unfold id in X. lia. }
    assert (O2 : others id w w2).
    { refine (others_intro id w w2 [OAsk id host] S _ _ _ eq_refl _).
      - intros j NE. unfold w2, w1; cbn. rewrite nth_snoc. fold id. destruct (Nat.eqb_spec j id); congruence.
      - intros; tauto.
      - intros j NE. unfold w2, w1, setf; cbn. unfold setf. destruct (Nat.eqb_spec j id); [congruence|auto].
      - repeat constructor. }
    assert (S2 : socks_ok w2).
    { destruct S as (S1 & S2 & S3 & S4 & S5 & S6). split; [exact S1|]. split; [|split; [exact S3|split; [exact S4|split]]].
      - intros k s K. rewrite LEN. apply S2 in K. lia.
      - intros j k h [X|X]; [discriminate|right; eauto].
      - intros j h [X|X]; [injection X as <- <-; rewrite LEN; unfold id; lia|]. rewrite LEN. apply S6 in X. lia. }
    assert (T2 : at_top id (Reg host true None PRun) w2).
    { unfold at_top. change (dropped id (w_log w2)) with (dropped id (w_log w)). change (told id (w_log w2)) with (told id (w_log w)).
      change (expected id (w_log w2)) with (expected id (w_log w)). change (cnt id w2) with (cnt id w). change (w_map w2 id) with (w_map w id).
      rewrite F5, F6, F7, F4, F3. cbn [negb r_isconnect r_conn r_host].
      assert (T0 : session [] false) by constructor.
      split; [unfold w2, w1, setf; cbn; unfold setf; rewrite Nat.eqb_refl; auto|]. split; [eauto|].
      split; [intros k s K O; exfalso; apply (NO k s K O)|]. split; [discriminate|]. split; [discriminate|]. split; [left; auto|]. auto. }
    destruct (loop_top_ok go id _ w2 S2 N2 T2) as (O3 & S3 & L3 & Q3 & R3 & _ & _ & LG).
    assert (OT : others id w (loop_top id w2)) by (intros j NE; eapply same_trans; eauto).
    split; [|split; [|split]].
    - apply (inv_one go go id w); auto; try (rewrite L3, LEN; unfold id; lia); [split; auto|]. intros r N. apply R3. auto.
    - intros j IN. rewrite Q3 in IN. change (w_queue w2) with (w_queue w) in IN. assert (X := Q j IN).
      destruct (Nat.eq_dec j id) as [->|NE]; [congruence|]. destruct (OT j NE) as (_ & _ & _ & (Z & _) & _). congruence.
    - rewrite L3, LEN. lia.
    - eapply grows_trans; [|exact LG]. apply (grows_one _ _ (OAsk id host)); auto. intros h X. destruct S as (_ & _ & _ & _ & _ & S6). apply S6 in X. unfold id in X. lia.
  Qed.

  Lemma act_inv go a w : inv go w -> waiting_dropped w ->
    let w' := act a w in inv go w' /\ waiting_dropped w' /\ length (w_regs w) <= length (w_regs w') /\ grows (w_log w) (w_log w').
  Proof.
    intros I Q. destruct a as [host|id|id t].
    - apply open_inv; auto.
    - destruct (drop_inv go id w I Q) as (A & B & C & D). split; auto. split; auto. split; auto. rewrite C. auto.
    - cbn [WebsocketModel.act]. destruct (has_handle id (w_log w)); [|split; auto; split; auto; split; auto; apply grows_same; auto].
      assert (I1 : inv go (note (OSend id t) w)) by (apply note_inv; cbn; auto).
      destruct (send_inv go id t _ I1) as (A & B & C). split; auto. rewrite C. cbn [w_regs note].
      assert (GR : grows (w_log w) (w_log (send id t (note (OSend id t) w)))).
      { unfold send. change (w_map (note (OSend id t) w) id) with (w_map w id). destruct (w_map w id) as [k|] eqn:MK.
        2: { apply g_lost; [constructor|]. intros k X. apply (on_line_is go) in X; auto. destruct X as (X & _). congruence. }
        change (sock_at (note (OSend id t) w) k) with (sock_at w k). destruct (sock_at w k) as [s|] eqn:K.
        2: { apply g_lost; [constructor|]. intros j X. apply (on_line_is go) in X; auto. destruct X as (X & s & Y & _). congruence. }
        destruct (s_isclose s) eqn:IC.
        { apply g_lost; [constructor|]. intros j X. apply (on_line_is go) in X; auto. destruct X as (X & s1 & Y & Z & _). congruence. }
        destruct (line_on go id k s w I MK K IC) as (NC & ON). unfold browser_send. change (sock_at (note (OSend id t) w) k) with (sock_at w k). rewrite K.
        destruct (s_ready s) eqn:RY; [congruence| | |].
        - apply g_sent; [constructor|auto|]. intros j X. apply (on_line_is go) in X; auto. destruct X as (X & _). congruence.
        - apply g_lost; [constructor|]. intros j X. apply (on_line_is go) in X; auto. destruct X as (X & s1 & Y & _ & Z). congruence.
        - apply g_lost; [constructor|]. intros j X. apply (on_line_is go) in X; auto. destruct X as (X & s1 & Y & _ & Z). congruence. }
      assert (L : exists l, w_log (send id t (note (OSend id t) w)) = l ++ w_log w /\ forall j, dropped j (l ++ w_log w) = dropped j (w_log w)).
      { unfold send. destruct (w_map (note (OSend id t) w) id) as [k|]; [|exists [OSend id t]; auto].
        destruct (sock_at (note (OSend id t) w) k) as [s|] eqn:K; [|exists [OSend id t]; auto].
        destruct (s_isclose s); [exists [OSend id t]; auto|]. unfold browser_send. rewrite K.
        destruct (s_ready s); [exists [OThrow; OSend id t]; auto|exists [OSent k t; OSend id t]; auto|exists [OSend id t]; auto|exists [OSend id t]; auto]. }
      destruct L as (l & L & D). split; [|split; [auto|exact GR]].
      intros j IN. rewrite B in IN. rewrite L, D. apply Q. exact IN.
  Qed.
  Lemma acts_inv go l : forall w, inv go w -> waiting_dropped w ->
    let w' := acts l w in inv go w' /\ waiting_dropped w' /\ length (w_regs w) <= length (w_regs w') /\ grows (w_log w) (w_log w').
  Proof.
    induction l as [|a l IH]; intros w I Q; [split; auto; split; auto; split; auto; apply grows_same; auto|].
    destruct (act_inv go a w I Q) as (A & B & C & D). destruct (IH _ A B) as (A1 & B1 & C1 & D1).
    unfold WebsocketModel.acts in *. cbn [fold_left]. split; [exact A1|]. split; [exact B1|]. split; [eapply Nat.le_trans; [exact C|exact C1]|].
    eapply grows_trans; eauto.
  Qed.

  (** Acting leaves the loops where they are. *)
  Lemma close_socket_regs k w : w_regs (close_socket k w) = w_regs w.
  Proof.
    unfold close_socket. destruct (sock_at w k) as [s|]; auto. destruct (s_isclose s); auto.
    assert (A : forall j v, w_regs (browser_close j v) = w_regs v).
    { intros j v. unfold browser_close. destruct (sock_at v j) as [x|]; auto. destruct (s_ready x); auto. }
    assert (B : forall j v, w_regs (resolve_done j v) = w_regs v).
    { intros j v. unfold resolve_done. destruct (sock_at v j) as [x|]; auto. destruct (s_done x); auto. unfold wake_done.
      destruct (nth_error (w_regs (with_sock j set_done v)) (s_owner x)) as [[? ? ? []]|]; auto. destruct (_ =? _); auto. }
    assert (C : forall j v, w_regs (resolve_result j false v) = w_regs v).
    { intros j v. unfold resolve_result. destruct (sock_at v j) as [x|]; auto. destruct (s_result x); auto. unfold wake_connect.
      destruct (nth_error (w_regs (with_sock j (set_result false) v)) (s_owner x)) as [[? ? ? []]|]; auto. destruct (_ =? _); auto. }
    rewrite A, B, C. auto.
  Qed.
  Definition pcs (w w' : world) : Prop := forall id r, nth_error (w_regs w) id = Some r ->
    exists r', nth_error (w_regs w') id = Some r' /\ r_pc r' = r_pc r /\ r_conn r' = r_conn r.
  Lemma act_pcs a w : pcs w (act a w).
  Proof.
    intros id r N. destruct a as [host|j|j t]; cbn [WebsocketModel.act].
    - unfold WebsocketModel.loop_top. cbn [w_regs note with_store]. rewrite nth_snoc, Nat.eqb_refl. cbn [r_isconnect r_host andb].
      destruct (valid host); cbn [with_ctrl with_reg w_regs note]; rewrite nth_setn, nth_snoc;
        (destruct (Nat.eqb_spec id (length (w_regs w))) as [->|]; [apply reg_lt in N; lia|]); eauto.
    - destruct (w_store w j); [|eauto]. unfold unregister. destruct (w_ctrl (note (ODrop j) w) j); [|eauto].
      cbn [with_store with_ctrl w_regs]. unfold dispose. 
      assert (X : exists r', nth_error (w_regs (with_reg j set_disconnect (note (ODrop j) w))) id = Some r' /\ r_pc r' = r_pc r /\ r_conn r' = r_conn r).
      { cbn. rewrite nth_setn. destruct (Nat.eqb_spec id j) as [->|]; [rewrite N; cbn; eexists; split; [reflexivity|auto]|eauto]. }
      destruct (nth_error (w_regs (with_reg j set_disconnect (note (ODrop j) w))) j) as [r1|]; [|exact X].
      destruct (r_conn r1) as [k|]; [rewrite close_socket_regs|]; exact X.
    - destruct (has_handle j (w_log w)); [|eauto]. unfold send. destruct (w_map (note (OSend j t) w) j) as [k|]; [|eauto].
      destruct (sock_at (note (OSend j t) w) k) as [s|] eqn:K; [|eauto]. destruct (s_isclose s); [eauto|]. unfold browser_send. rewrite K.
      destruct (s_ready s); eauto.
  Qed.
  Lemma acts_pcs l : forall w, pcs w (acts l w).
  Proof.
    induction l as [|a l IH]; intros w id r N; [exists r; auto|]. destruct (act_pcs a w id r N) as (r1 & N1 & P1 & C1).
    destruct (IH _ id r1 N1) as (r2 & N2 & P2 & C2). exists r2. unfold WebsocketModel.acts in *. cbn [fold_left]. split; auto. split; congruence.
  Qed.

  Definition popped (q : list nat) (w : world) : world :=
    World (w_regs w) (w_socks w) (w_ctrl w) (w_map w) (w_store w) q (w_log w).

  (** The loop of [id] goes on from the state before, with another place, queue, map and log. *)
  Lemma moved id f w w' l : socks_ok w -> w_regs w' = setn id f (w_regs w) -> w_socks w' = w_socks w ->
    (forall j, j <> id -> w_ctrl w' j = w_ctrl w j /\ w_map w' j = w_map w j /\ w_store w' j = w_store w j /\ cnt j w' = cnt j w) ->
    w_log w' = l ++ w_log w -> (forall o, In o l -> exists m, o = OTold id m) -> others id w w' /\ socks_ok w' /\ length (w_regs w') = length (w_regs w).
  Proof.
    intros S R K P L T. assert (A : Forall (about id w) l) by (apply Forall_forall; intros o I; destruct (T o I) as (m & ->); cbn; auto).
    split; [|split].
    - refine (others_intro id w w' l S _ _ P L A).
      + intros j NE. rewrite R, nth_setn. destruct (Nat.eqb_spec j id); congruence.
      + intros k s _. rewrite K. tauto.
    - refine (socks_intro id w w' l S _ _ _ L A _); [rewrite R; apply length_setn|rewrite K; auto|rewrite K; eauto|].
      intros o I. destruct (T o I) as (m & ->). auto.
    - rewrite R. apply length_setn.
  Qed.

  Lemma no_run w : inv None w -> forall id r, nth_error (w_regs w) id = Some r -> r_pc r <> PRun.
  Proof. intros (_ & R & _) id r N P. destruct (R id r N) as (_ & _ & _ & _ & _ & _ & PC). unfold pc_ok in PC. rewrite P in PC. tauto. Qed.
  Lemma only_run go i w : inv (Some (i, go)) w -> forall id r, id <> i -> nth_error (w_regs w) id = Some r -> r_pc r <> PRun.
  Proof.
    intros (_ & R & _) id r NE N P. destruct (R id r N) as (_ & _ & _ & _ & _ & _ & PC). unfold pc_ok in PC. rewrite P in PC.
    destruct PC as (_ & _ & PC). destruct go; destruct PC; congruence.
  Qed.

  Lemma resume_inv id q w : inv None w -> w_queue w = id :: q -> (forall j, In j q -> dropped j (w_log w) = true) ->
    let w' := resume id (popped q w) in inv None w' /\ waiting_dropped w' /\ grows (w_log w) (w_log w').
  Proof.
    intros I QE QD w'. assert (S := proj1 I). pose proof I as I0. destruct I as (_ & R & F).
    assert (C1 : 1 <= cnt id w) by (rewrite QE; cbn; destruct (Nat.eq_dec id id); [lia|congruence]).
    assert (LT : id < length (w_regs w)).
    { destruct (Nat.lt_ge_cases id (length (w_regs w))) as [X|X]; auto. destruct (F id X) as (_ & _ & _ & Y & _). rewrite Y in C1. lia. }
    apply nth_error_Some in LT. destruct (nth_error (w_regs w) id) as [r|] eqn:N; [|congruence]. clear LT.
    destruct (R id r N) as ((E1 & E2 & E3) & SS & SK & CN & MP & HO & PC).
    assert (CQ : forall j, j <> id -> count_occ Nat.eq_dec q j = cnt j w) by (intros j NE; rewrite QE; cbn; destruct (Nat.eq_dec id j); [congruence|auto]).
    assert (CI : Datatypes.S (count_occ Nat.eq_dec q id) = cnt id w) by (rewrite QE; cbn; destruct (Nat.eq_dec id id); [auto|congruence]).
    unfold w', WebsocketModel.resume. cbn [popped w_regs w_socks]. rewrite N. destruct r as [h ic cn p]. cbn [r_pc r_conn r_host r_isconnect] in *.
    unfold pc_ok in PC. cbn [r_pc r_conn r_host] in PC. set (T := told id (w_log w)) in *. set (X := expected id (w_log w)) in *.
    destruct p as [k|k| | |]; try (destruct PC as (Z & _); rewrite Z in C1; lia).
    - destruct PC as (s & K & OW & ON & RN & MN & PC). rewrite K. destruct (SK k s K OW) as (SO & _).
      destruct PC as [(Z & _)|[(Z & RS & XT)|(Z & RS & IC & XT)]]; [rewrite Z in C1; lia| |].
      + (* failed *)
        rewrite RS. set (w1 := with_reg id (set_pc PDelay) (popped q w)).
        destruct (moved id (set_pc PDelay) w w1 [] S) as (OT & S1 & L1); auto; [intros o []|].
        split; [|split; [exact QD|apply grows_same; auto]]. apply (inv_one None None id w); auto; [rewrite L1; auto| |rewrite L1; apply (reg_lt _ _ _ N)].
        intros r1 N1. unfold w1 in N1; cbn in N1. rewrite nth_setn, Nat.eqb_refl, N in N1. injection N1 as <-.
        unfold reg_ok. cbn [w1 with_reg popped set_pc w_log w_store w_ctrl w_map w_socks r_isconnect r_conn r_host current r_pc] in *.
        split; [auto|]. split; [auto|]. split; [|split; [|split; [|split]]]; auto.
        * intros m s1 K1 O1. destruct (SK m s1 K1 O1) as (Y1 & [Y2|Y2]); split; auto. injection Y2 as <-. right.
          assert (s1 = s) by congruence. subst s1. destruct SO as (_ & _ & _ & _ & _ & _ & SO & _). split; [auto|congruence].
        * intros m C. destruct (CN m C) as (s1 & K1 & O1 & [Y|(Y & Z1)]); [eauto|congruence].
        * unfold pc_ok. cbn [w1 with_reg popped set_pc w_log w_map w_queue r_pc]. split; [lia|]. split; auto.
      + (* open *)
        rewrite RS. set (f := fun r => set_pc PRun (set_conn k r)). set (w1 := with_reg id f (popped q w)).
        set (w2 := if dropped id (w_log w) then w1 else note (OTold id Connection) (with_map id (Some k) w1)).
        assert (W2 : inv (Some (id, Some k)) w2 /\ waiting_dropped w2 /\ nth_error (w_regs w2) id = Some (Reg h ic (Some k) PRun) /\ grows (w_log w) (w_log w2)).
        { assert (G2 : exists l, w_log w2 = l ++ w_log w /\ forall o, In o l -> exists m, o = OTold id m).
          { unfold w2. destruct (dropped id (w_log w)); [exists []|exists [OTold id Connection]]; split; auto; intros o []; eauto; contradiction. }
          destruct G2 as (l & G2 & G3).
          destruct (moved id f w w2 l S) as (OT & S2 & L2); auto; try (unfold w2; destruct (dropped id (w_log w)); reflexivity).
          { intros j NE. unfold w2. destruct (dropped id (w_log w)); cbn; unfold setf; repeat (split; auto); destruct (Nat.eqb_spec j id); congruence. }
          assert (N2 : nth_error (w_regs w2) id = Some (Reg h ic (Some k) PRun)).
          { unfold w2; destruct (dropped id (w_log w)); cbn; rewrite nth_setn, Nat.eqb_refl, N; reflexivity. }
          assert (LGI : forall m, dropped m (w_log w2) = dropped m (w_log w) /\ opened m (w_log w2) = opened m (w_log w) /\ ended m (w_log w2) = ended m (w_log w)).
          { intros m. unfold w2; destruct (dropped id (w_log w)); auto. }
          assert (K2 : w_socks w2 = w_socks w) by (unfold w2; destruct (dropped id (w_log w)); auto).
          assert (CT : w_store w2 = w_store w /\ w_ctrl w2 = w_ctrl w) by (unfold w2; destruct (dropped id (w_log w)); auto).
          assert (Q2 : w_queue w2 = q) by (unfold w2; destruct (dropped id (w_log w)); auto).
          split; [|split; [|split; [exact N2|unfold w2; destruct (dropped id (w_log w)) eqn:D; [apply grows_same; auto|eapply grows_one; [reflexivity|exact D]]]]].
          2: { intros j IN. rewrite Q2 in IN. destruct (LGI j) as (-> & _). auto. }
          apply (inv_one None (Some (id, Some k)) id w); auto; [rewrite L2; auto|right; intros j r1 _; apply (no_run w I0)| |rewrite L2; apply (reg_lt _ _ _ N)].
          intros r1 N1. rewrite N2 in N1. injection N1 as <-. unfold reg_ok. cbn [r_isconnect r_conn r_host current r_pc].
          destruct (LGI id) as (D2 & _). rewrite D2, K2. destruct CT as (-> & ->). split; [auto|].
          assert (TX : told id (w_log w2) = (if dropped id (w_log w) then T else T ++ [Connection]) /\ expected id (w_log w2) = told id (w_log w2)).
          { unfold w2. destruct (dropped id (w_log w)) eqn:D; cbn; rewrite ?Nat.eqb_refl; fold T X; rewrite XT, ?app_nil_r; auto. }
          destruct TX as (TX & XX).
          assert (SE : dropped id (w_log w) = false -> session (told id (w_log w2)) true) by (intros D; rewrite TX, D; constructor; apply MN; auto).
          split; [rewrite TX; destruct (dropped id (w_log w)) eqn:D; auto; exists true; constructor; apply MN; auto|].
          split; [|split; [|split; [|split]]].
          - intros m s1 K1 O1. destruct (SK m s1 K1 O1) as (Y1 & Y2). split; auto. unfold sock_ok in *. destruct (LGI m) as (_ & -> & ->). exact Y1.
          - intros m C. injection C as <-. exists s. auto.
          - intros m. unfold w2. destruct (dropped id (w_log w)) eqn:D; cbn; [apply MP|]. unfold setf. rewrite Nat.eqb_refl. intros C. injection C as <-.
            exists s. split; auto. split; auto. split; auto. discriminate.
          - rewrite G2. apply in_or_app. right. exact HO.
          - unfold pc_ok. cbn [r_pc r_conn]. rewrite Q2, XX. split; [lia|]. split; auto. split; auto. exists s. rewrite K2. do 5 (split; auto).
            split; [congruence|]. rewrite D2. intros D. split; auto. unfold w2. rewrite D. cbn. unfold setf. rewrite Nat.eqb_refl. auto. }
        assert (ON2 : on_socket id k w1 = if dropped id (w_log w) then w2 else acts (app (w_log w2)) w2).
        { unfold WebsocketModel.on_socket, WebsocketModel.wasm_callback. change (w_ctrl w1 id) with (w_ctrl w id). rewrite E2.
          unfold w2. destruct (dropped id (w_log w)); [reflexivity|]. cbn [negb].
          change (w_store (with_map id (Some k) w1) id) with (w_store w id). rewrite E1. reflexivity. }
        change (World (setn id f (w_regs w)) (w_socks w) (w_ctrl w) (w_map w) (w_store w) q (w_log w)) with w1.
        fold f. change (with_reg id f (popped q w)) with w1. rewrite ON2. destruct W2 as (I2 & WD2 & N2 & LG2).
        set (w3 := if dropped id (w_log w) then w2 else acts (app (w_log w2)) w2).
        assert (W3 : inv (Some (id, Some k)) w3 /\ waiting_dropped w3 /\ (exists r3, nth_error (w_regs w3) id = Some r3 /\ r_pc r3 = PRun) /\ grows (w_log w) (w_log w3)).
        { unfold w3. destruct (dropped id (w_log w)); [split; auto; split; auto; split; [eexists; split; eauto|eauto]|].
          destruct (acts_inv (Some (id, Some k)) (app (w_log w2)) w2 I2 WD2) as (A & B & _ & C). split; auto. split; auto. split.
          - destruct (acts_pcs (app (w_log w2)) w2 id _ N2) as (r3 & N3 & P3 & _). eauto.
          - eapply grows_trans; eauto. }
        clearbody w3. clear w2 ON2 I2 WD2 N2 LG2. destruct W3 as (I3 & WD3 & (r3 & N3 & P3) & LG3).
        assert (S3 := proj1 I3). destruct (proj1 (proj2 I3) id r3 N3) as ((B1 & B2 & B3) & SS3 & SK3 & CN3 & MP3 & HO3 & PC3).
        unfold pc_ok in PC3. rewrite P3 in PC3. destruct PC3 as (CZ3 & XT3 & _ & s3 & K3 & OW3 & ON3 & RS3 & RC3 & IC3 & MN3).
        unfold await_done.
        set (w4 := with_reg id (set_pc (PDone k)) (with_sock k set_on w3)).
        assert (K4 : forall m, sock_at w4 m = if m =? k then Some (set_on s3) else sock_at w3 m).
        { intros m. unfold w4; cbn. rewrite nth_setn. destruct (Nat.eqb_spec m k) as [->|]; auto. rewrite K3. auto. }
        rewrite (K4 k), Nat.eqb_refl. cbn [s_done set_on].
        set (w5 := if s_done s3 then push id w4 else w4).
        assert (W5 : w_regs w5 = setn id (set_pc (PDone k)) (w_regs w3) /\ w_socks w5 = w_socks w4 /\ w_ctrl w5 = w_ctrl w3 /\ w_map w5 = w_map w3 /\
                     w_store w5 = w_store w3 /\ w_log w5 = w_log w3 /\ w_queue w5 = w_queue w3 ++ if s_done s3 then [id] else []).
        { unfold w5. destruct (s_done s3); cbn; rewrite ?app_nil_r; auto 10. }
        destruct W5 as (G1 & G2 & G3 & G4 & G5 & G6 & G7).
        assert (DN : s_done s3 = s_isclose s3) by (destruct (SK3 k s3 K3 OW3) as ((_ & _ & _ & X1 & _) & _); exact X1).
        split; [|split; [|rewrite G6; exact LG3]].
        2: { intros j IN. rewrite G7 in IN. rewrite G6. apply in_app_or in IN. destruct IN as [IN|IN]; auto.
             destruct (s_done s3) eqn:DS; [|contradiction]. destruct IN as [<-|[]]. apply IC3. congruence. }
        assert (OT5 : others id w3 w5).
        { refine (others_intro id w3 w5 [] S3 _ _ _ G6 (Forall_nil _)).
          - intros j NE. rewrite G1, nth_setn. destruct (Nat.eqb_spec j id); congruence.
          - intros m s1 O1. rewrite G2, K4. destruct (Nat.eqb_spec m k) as [->|]; [|tauto]. split; intros Y; [injection Y as <-; cbn in O1; congruence|congruence].
          - intros j NE. rewrite G3, G4, G5, G7, count_occ_app. do 3 (split; [auto|]). destruct (s_done s3); cbn; [|lia]. destruct (Nat.eq_dec id j); [congruence|lia]. }
        assert (LN5 : length (w_regs w5) = length (w_regs w3)) by (rewrite G1; apply length_setn).
        apply (inv_one (Some (id, Some k)) None id w3); auto; [rewrite LN5; auto| |right; intros j r1 NE; apply (only_run (Some k) id w3 I3 j r1 NE)| |rewrite LN5; apply (reg_lt _ _ _ N3)].
        { refine (socks_intro id w3 w5 [] S3 LN5 _ _ G6 (Forall_nil _) _); [rewrite G2; unfold w4; cbn; apply length_setn| |intros o []].
          intros m s1. rewrite G2, K4. destruct (Nat.eqb_spec m k) as [->|]; [|eauto]. intros Y. injection Y as <-. eauto. }
        intros r1 N1. rewrite G1, nth_setn, Nat.eqb_refl, N3 in N1. injection N1 as <-.
        unfold reg_ok. rewrite G3, G4, G5, G6. cbn [set_pc r_isconnect r_conn r_host current r_pc]. split; [auto|]. split; [auto|].
        unfold current in SK3, CN3. rewrite P3 in SK3, CN3.
        split; [|split; [|split; [|split; [exact HO3|]]]].
        * intros m s1 K1 O1. rewrite G2, K4 in K1. destruct (Nat.eqb_spec m k) as [->|NM].
          -- injection K1 as <-. destruct (SK3 k s3 K3 OW3) as (Y1 & _). split; [exact Y1|left; auto].
          -- apply (SK3 m s1 K1 O1).
        * intros m C. rewrite RC3 in C. injection C as <-. exists (set_on s3). rewrite G2, K4, Nat.eqb_refl. split; auto.
        * intros m C. destruct (MP3 m C) as (s1 & K1 & O1 & R1 & D1). rewrite G2, K4. destruct (Nat.eqb_spec m k) as [->|NM]; [|eauto].
          exists (set_on s3). assert (s1 = s3) by congruence. subst s1. auto.
        * unfold pc_ok. cbn [set_pc r_pc r_conn]. rewrite G4, G6, G7. exists (set_on s3). rewrite G2, K4, Nat.eqb_refl. split; auto. split; auto. split; auto. split; auto.
          split; auto. split; [exact MN3|]. rewrite count_occ_app, CZ3. destruct (s_done s3) eqn:DS; cbn.
          -- right. destruct (Nat.eq_dec id id); [|congruence]. split; auto. split; [congruence|]. rewrite IC3 by congruence. split; [discriminate|]. rewrite app_nil_r. auto.
          -- left. split; auto.
    - destruct PC as (s & K & OW & ON & RS & RC & MN & PC). destruct (SK k s K OW) as (SO & _).
      destruct PC as [(Z & _)|(Z & IC & RY & XT)]; [rewrite Z in C1; lia|].
      set (w1 := with_reg id (set_pc PRun) (popped q w)).
      set (w2 := if dropped id (w_log w) then w1 else note (OTold id Close) (with_map id None w1)).
      assert (W2 : inv (Some (id, None)) w2 /\ waiting_dropped w2 /\ nth_error (w_regs w2) id = Some (Reg h ic cn PRun) /\ grows (w_log w) (w_log w2)).
      { assert (G2 : exists l, w_log w2 = l ++ w_log w /\ forall o, In o l -> exists m, o = OTold id m).
        { unfold w2. destruct (dropped id (w_log w)); [exists []|exists [OTold id Close]]; split; auto; intros o []; eauto; contradiction. }
        destruct G2 as (l & G2 & G3).
        destruct (moved id (set_pc PRun) w w2 l S) as (OT & S2 & L2); auto; try (unfold w2; destruct (dropped id (w_log w)); reflexivity).
        { intros j NE. unfold w2. destruct (dropped id (w_log w)); cbn; unfold setf; repeat (split; auto); destruct (Nat.eqb_spec j id); congruence. }
        assert (N2 : nth_error (w_regs w2) id = Some (Reg h ic cn PRun)).
        { unfold w2; destruct (dropped id (w_log w)); cbn; rewrite nth_setn, Nat.eqb_refl, N; reflexivity. }
        assert (LGI : forall m, dropped m (w_log w2) = dropped m (w_log w) /\ opened m (w_log w2) = opened m (w_log w) /\ ended m (w_log w2) = ended m (w_log w)).
        { intros m. unfold w2; destruct (dropped id (w_log w)); auto. }
        assert (K2 : w_socks w2 = w_socks w) by (unfold w2; destruct (dropped id (w_log w)); auto).
        assert (CT : w_store w2 = w_store w /\ w_ctrl w2 = w_ctrl w) by (unfold w2; destruct (dropped id (w_log w)); auto).
        assert (Q2 : w_queue w2 = q) by (unfold w2; destruct (dropped id (w_log w)); auto).
        split; [|split; [|split; [exact N2|unfold w2; destruct (dropped id (w_log w)) eqn:D; [apply grows_same; auto|eapply grows_one; [reflexivity|exact D]]]]].
        2: { intros j IN. rewrite Q2 in IN. destruct (LGI j) as (-> & _). auto. }
        apply (inv_one None (Some (id, None)) id w); auto; [rewrite L2; auto|right; intros j r1 _; apply (no_run w I0)| |rewrite L2; apply (reg_lt _ _ _ N)].
        intros r1 N1. rewrite N2 in N1. injection N1 as <-. unfold reg_ok. cbn [r_isconnect r_conn r_host current r_pc].
        destruct (LGI id) as (D2 & _). rewrite D2, K2. destruct CT as (-> & ->). split; [auto|].
        assert (TX : told id (w_log w2) = (if dropped id (w_log w) then T else T ++ [Close]) /\ expected id (w_log w2) = told id (w_log w2)).
        { unfold w2. destruct (dropped id (w_log w)) eqn:D; cbn; rewrite ?Nat.eqb_refl; fold T X; rewrite XT, ?app_nil_r; auto. }
        destruct TX as (TX & XX).
        assert (SE : dropped id (w_log w) = false -> session (told id (w_log w2)) false) by (intros D; rewrite TX, D; constructor; apply MN; auto).
        split; [rewrite TX; destruct (dropped id (w_log w)) eqn:D; auto; exists false; constructor; apply MN; auto|].
        split; [|split; [|split; [|split]]].
        - intros m s1 K1 O1. destruct (SK m s1 K1 O1) as (Y1 & Y2). split; [unfold sock_ok in *; destruct (LGI m) as (_ & -> & ->); exact Y1|].
          right. destruct Y2 as [Y2|Y2]; auto. injection Y2 as <-. assert (s1 = s) by congruence. subst s1. split; auto.
          intros _. destruct (dropped id (w_log w)); auto.
        - intros m C. destruct (CN m C) as (s1 & K1 & O1 & [Y|(Y & _)]); [eauto|]. injection Y as <-. exists s. auto.
        - intros m. unfold w2. destruct (dropped id (w_log w)) eqn:D; cbn; [apply MP|]. unfold setf. rewrite Nat.eqb_refl. discriminate.
        - rewrite G2. apply in_or_app. right. exact HO.
        - unfold pc_ok. cbn [r_pc r_conn]. rewrite Q2, XX. split; [lia|]. split; auto. split; auto. rewrite D2. intros D. split; auto.
          unfold w2. rewrite D. cbn. unfold setf. rewrite Nat.eqb_refl. auto. }
      assert (ON2 : on_close id w1 = if dropped id (w_log w) then w2 else acts (app (w_log w2)) w2).
      { unfold WebsocketModel.on_close, WebsocketModel.wasm_callback. change (w_ctrl w1 id) with (w_ctrl w id). rewrite E2.
        unfold w2. destruct (dropped id (w_log w)); [reflexivity|]. cbn [negb].
        change (w_store (with_map id None w1) id) with (w_store w id). rewrite E1. reflexivity. }
      change (with_reg id (set_pc PRun) (popped q w)) with w1. rewrite ON2. destruct W2 as (I2 & WD2 & N2 & LG2).
      set (w3 := if dropped id (w_log w) then w2 else acts (app (w_log w2)) w2).
      assert (W3 : inv (Some (id, None)) w3 /\ waiting_dropped w3 /\ (exists r3, nth_error (w_regs w3) id = Some r3 /\ r_pc r3 = PRun) /\ grows (w_log w) (w_log w3)).
      { unfold w3. destruct (dropped id (w_log w)); [split; auto; split; auto; split; [eexists; split; eauto|eauto]|].
        destruct (acts_inv (Some (id, None)) (app (w_log w2)) w2 I2 WD2) as (A & B & _ & C). split; auto. split; auto. split.
        - destruct (acts_pcs (app (w_log w2)) w2 id _ N2) as (r3 & N3 & P3 & _). eauto.
        - eapply grows_trans; eauto. }
      clearbody w3. clear w2 ON2 I2 WD2 N2 LG2. destruct W3 as (I3 & WD3 & (r3 & N3 & P3) & LG3).
      assert (S3 := proj1 I3). destruct (proj1 (proj2 I3) id r3 N3) as ((B1 & B2 & B3) & SS3 & SK3 & CN3 & MP3 & HO3 & PC3).
      unfold pc_ok in PC3. rewrite P3 in PC3. destruct PC3 as (CZ3 & XT3 & _ & MN3). rewrite N3. set (p' := if r_isconnect r3 then PDelay else PEnd).
      unfold current in SK3, CN3. rewrite P3 in SK3, CN3.
      set (w4 := with_reg id (set_pc p') w3).
      destruct (moved id (set_pc p') w3 w4 [] S3) as (OT & S4 & L4); auto; [intros o []|].
      split; [|split; [exact WD3|exact LG3]].
      apply (inv_one (Some (id, None)) None id w3); auto; [rewrite L4; auto|right; intros j r1 NE; apply (only_run None id w3 I3 j r1 NE)| |rewrite L4; apply (reg_lt _ _ _ N3)].
      intros r1 N1. unfold w4 in N1; cbn in N1. rewrite nth_setn, Nat.eqb_refl, N3 in N1. injection N1 as <-.
      unfold reg_ok. cbn [w4 with_reg w_log w_store w_ctrl w_map w_socks set_pc r_isconnect r_conn r_host]. split; [auto|]. split; [auto|].
      split; [|split; [|split; [exact MP3|split; [exact HO3|]]]].
      + intros m s1 K1 O1. destruct (SK3 m s1 K1 O1) as (Y1 & [Y2|Y2]); [discriminate|auto].
      + intros m C. destruct (CN3 m C) as (s1 & K1 & O1 & [Y|(Y & _)]); [eauto|discriminate].
      + unfold pc_ok. cbn [w4 with_reg w_log w_map w_queue set_pc r_pc r_host]. unfold p'. rewrite B3. destruct (dropped id (w_log w3)) eqn:D; cbn [negb]; auto.
  Qed.

  (** ** What the browser does *)
  Definition good (w : world) : Prop := inv None w /\ forall j, In j (tl (w_queue w)) -> dropped j (w_log w) = true.
  Lemma good_waiting w : inv None w -> waiting_dropped w -> good w.
  Proof. intros I W. split; auto. intros j IN. apply W. destruct (w_queue w); [contradiction|right; auto]. Qed.

  (** One socket of [id] changes (and its loop may be woken). *)
  Lemma socket_event w w' l k s s' id r : inv None w -> nth_error (w_regs w) id = Some r -> sock_at w k = Some s -> s_owner s = id -> s_owner s' = id ->
    w_regs w' = w_regs w -> w_ctrl w' = w_ctrl w -> w_map w' = w_map w -> w_store w' = w_store w -> w_log w' = l ++ w_log w ->
    (forall j, j <> id -> cnt j w' = cnt j w) -> length (w_socks w') = length (w_socks w) ->
    (forall m, sock_at w' m = if m =? k then Some s' else sock_at w m) ->
    Forall (about id w) l -> (forall o, In o l -> match o with OCreated _ _ _ | OAsk _ _ | ODrop _ | OTold _ _ => False | _ => True end) ->
    (forall m, m <> k -> opened m (w_log w') = opened m (w_log w) /\ ended m (w_log w') = ended m (w_log w)) ->
    sock_ok k s' (w_log w') -> (s_isclose s = true -> s_isclose s' = true) -> s_result s <> Some true \/ s_result s' = Some true ->
    (current None r = Some k \/ old_ok s' (dropped id (w_log w))) -> pc_ok None id r w' -> inv None w'.
  Proof.
    intros I N K O O' G1 G2 G3 G4 LG GC LS GK AB NL OE SO IC RT CU PC.
    assert (S := proj1 I). destruct (proj1 (proj2 I) id r N) as (E & SS & SK & CN & MP & HO & _).
    assert (LN : length (w_regs w') = length (w_regs w)) by (rewrite G1; auto).
    assert (DT : dropped id (w_log w') = dropped id (w_log w) /\ told id (w_log w') = told id (w_log w)).
    { rewrite LG. clear LG OE SO AB. induction l as [|o l IH]; auto. destruct IH as (IH1 & IH2); [intros; apply NL; right; auto|].
      cbn [List.app]. rewrite <- IH1, <- IH2. pose proof (NL o (or_introl eq_refl)) as X. destruct o; try contradiction; auto. }
    destruct DT as (D & T).
    apply (inv_one None None id w); auto.
    - refine (others_intro id w w' l S _ _ _ LG AB).
      + intros; rewrite G1; auto.
      + intros m s1 O1. rewrite GK. destruct (Nat.eqb_spec m k) as [->|]; [|tauto]. split; intros Y; [injection Y as <-; congruence|congruence].
      + intros j NE. rewrite G2, G3, G4. auto.
    - rewrite LN; auto.
    - refine (socks_intro id w w' l S LN LS _ LG AB _).
      + intros m s1. rewrite GK. destruct (Nat.eqb_spec m k) as [->|]; [|eauto]. intros Y. injection Y as <-. exists s. split; auto. congruence.
      + intros o IN. specialize (NL o IN). destruct o; auto.
    - intros r1 N1. rewrite G1, N in N1. injection N1 as <-. unfold reg_ok. rewrite G2, G3, G4, D, T.
      split; [exact E|]. split; [exact SS|]. split; [|split; [|split; [|split]]].
      + intros m s1 K1 O1. rewrite GK in K1. destruct (Nat.eqb_spec m k) as [->|NM]; [injection K1 as <-; split; auto|].
        destruct (SK m s1 K1 O1) as (Y1 & Y2). split; auto. unfold sock_ok in *. destruct (OE m NM) as (-> & ->). exact Y1.
      + intros m C. destruct (CN m C) as (s1 & K1 & O1 & Y). rewrite GK. destruct (Nat.eqb_spec m k) as [->|NM]; [|eauto].
        exists s'. split; auto. split; auto. assert (s1 = s) by congruence. subst s1. destruct Y as [Y|(Y & Z)]; [left; auto|].
        destruct RT as [RT|RT]; [congruence|]. right; auto.
      + intros m C. destruct (MP m C) as (s1 & K1 & O1 & Y & Z). rewrite GK. destruct (Nat.eqb_spec m k) as [->|NM]; [|eauto].
        exists s'. split; auto. split; auto. assert (s1 = s) by congruence. subst s1. split; [destruct RT; congruence|auto].
      + rewrite LG. apply in_or_app. right. exact HO.
      + exact PC.
    - rewrite LN. apply (reg_lt _ _ _ N).
  Qed.

  Lemma registered k s w : inv None w -> sock_at w k = Some s -> exists r, nth_error (w_regs w) (s_owner s) = Some r /\ reg_ok None (s_owner s) r w /\ mine (s_owner s) k (w_log w) = true.
  Proof.
    intros ((S1 & S2 & _) & R & _) K. assert (LT := S2 k s K). apply nth_error_Some in LT.
    destruct (nth_error (w_regs w) (s_owner s)) as [r|] eqn:N; [|congruence]. exists r. split; auto. split; auto. apply S1. eauto.
  Qed.
  Lemma dropped_note o l id : match o with ODrop _ => False | _ => True end -> dropped id (o :: l) = dropped id l.
  Proof. destruct o; cbn; tauto. Qed.

  Lemma open_event k w w' : inv None w -> w_queue w = [] -> step (EOpen k) w = Some w' -> good w' /\ grows (w_log w) (w_log w').
  Proof.
    intros I QE. cbn [WebsocketModel.step]. rewrite QE. destruct (sock_at w k) as [s|] eqn:K; [|discriminate].
    destruct (s_ready s) eqn:RY; try discriminate. intros E. injection E as <-.
    destruct (registered k s w I K) as (r & N & RO & M). set (id := s_owner s) in *.
    destruct RO as ((E1 & E2 & E3) & SS & SK & CN & MP & HO & PC). destruct (SK k s K eq_refl) as (SO & CU).
    destruct SO as (A1 & A2 & A3 & A4 & A5 & A6 & A7 & A8 & A9). assert (RS : s_result s = None) by (apply A2; auto).
    assert (IC : s_isclose s = false) by (destruct (s_isclose s); auto; destruct (A5 eq_refl); congruence).
    assert (CK : current None r = Some k) by (destruct CU as [CU|(CU & _)]; [auto|congruence]).
    assert (PK : r_pc r = PConnect k).
    { unfold current in CK. unfold pc_ok in PC. destruct (r_pc r) as [j|j| | |]; try discriminate CK; [congruence|].
      injection CK as ->. destruct PC as (s1 & K1 & _ & _ & Z & _). congruence. }
    set (s' := Sock id Open false (Some true) (s_done s) (s_on s) (s_timer s)).
    set (w1 := note (OOpen k) (with_sock k (set_ready Open) w)).
    assert (W' : let w' := resolve_result k true w1 in
      w_regs w' = w_regs w /\ w_ctrl w' = w_ctrl w /\ w_map w' = w_map w /\ w_store w' = w_store w /\ w_log w' = OOpen k :: w_log w /\ w_queue w' = [id] /\
      length (w_socks w') = length (w_socks w) /\ forall m, sock_at w' m = if m =? k then Some s' else sock_at w m).
    { assert (K1 : sock_at w1 k = Some (set_ready Open s)) by (unfold w1; cbn; rewrite nth_setn, Nat.eqb_refl, K; auto).
      unfold resolve_result. rewrite K1. cbn [set_ready s_result]. rewrite RS. unfold wake_connect. cbn [s_owner set_ready]. fold id.
      change (w_regs (with_sock k (set_result true) w1)) with (w_regs w). rewrite N. destruct r as [h ic cn p]. cbn in PK. subst p. rewrite Nat.eqb_refl.
      cbn. rewrite QE, !length_setn. do 7 (split; [auto|]). intros m. rewrite !nth_setn. destruct (Nat.eqb_spec m k) as [->|]; auto. rewrite K. cbn.
      unfold set_result, set_ready; cbn. unfold s'. rewrite IC. auto. }
    set (w2 := resolve_result k true w1) in *. destruct W' as (G1 & G2 & G3 & G4 & G5 & G6 & G7 & G8).
    split; [|eapply grows_one; [exact G5|apply A8; auto]]. split; [|rewrite G6; intros j []].
    assert (EK : ended k (w_log w) = false) by (apply A8; auto).
    assert (OK : opened k (w_log w) = false) by (destruct (opened k (w_log w)); auto; assert (Y := proj1 A1 eq_refl); congruence).
    refine (socket_event w w2 [OOpen k] k s s' id r I N K eq_refl eq_refl G1 G2 G3 G4 G5 _ G7 G8 _ _ _ _ _ _ (or_introl CK) _).
    - intros j NE. rewrite G6, QE. cbn. destruct (Nat.eq_dec id j); [congruence|auto].
    - repeat constructor. cbn. eauto.
    - intros o [<-|[]]. auto.
    - intros m NM. rewrite G5. cbn. assert (X : (k =? m) = false) by (apply Nat.eqb_neq; auto). rewrite X. auto.
    - unfold sock_ok. rewrite G5. cbn. rewrite Nat.eqb_refl. fold (ended k (w_log w)). rewrite EK, A4, IC. cbn.
      split; [tauto|]. split; [split; discriminate|]. split; [tauto|]. split; auto. split; [discriminate|]. split; [discriminate|]. split; [discriminate|]. split; [discriminate|auto].
    - intros X. congruence.
    - right. auto.
    - unfold pc_ok in *. rewrite PK in *. destruct PC as (s1 & K1 & _ & ON & RN & MN & PX). assert (s1 = s) by congruence. subst s1.
      exists s'. rewrite G8, Nat.eqb_refl, G3, G5, G6. cbn. fold (dropped id (w_log w)) (mine id k (w_log w)). rewrite M. cbn [andb].
      split; auto. split; auto. split; auto. split; auto. split; [exact MN|]. right. right. destruct (Nat.eq_dec id id); [|congruence].
      split; auto. split; auto. split; auto. destruct PX as [(_ & _ & PX)|[(_ & Z & _)|(_ & Z & _)]]; [|congruence|congruence].
      rewrite PX. destruct (dropped id (w_log w)); cbn [negb]; rewrite ?app_nil_r; auto.
  Qed.

  Lemma text_event k t w w' : inv None w -> w_queue w = [] -> step (EText k t) w = Some w' -> good w' /\ grows (w_log w) (w_log w').
  Proof.
    intros I QE. cbn [WebsocketModel.step]. rewrite QE. destruct (sock_at w k) as [s|] eqn:K; [|discriminate].
    destruct (s_ready s) eqn:RY; try discriminate. intros E. injection E as <-.
    destruct (registered k s w I K) as (r & N & RO & M). set (id := s_owner s) in *.
    destruct RO as ((E1 & E2 & E3) & SS & SK & CN & MP & HO & PC). destruct (SK k s K eq_refl) as (SO & CU). pose proof SO as SO0.
    destruct SO as (A1 & A2 & A3 & A4 & A5 & A6 & A7 & A8 & A9).
    assert (IC : s_isclose s = false) by (destruct (s_isclose s); auto; destruct (A5 eq_refl); congruence).
    assert (CK : current None r = Some k) by (destruct CU as [CU|(CU & _)]; [auto|congruence]).
    assert (CZ : cnt id w = 0) by (rewrite QE; auto).
    assert (PK : r_pc r = PDone k).
    { unfold current in CK. unfold pc_ok in PC. destruct (r_pc r) as [j|j| | |]; try discriminate CK; [|congruence].
      injection CK as ->. destruct PC as (s1 & K1 & _ & _ & _ & _ & [(_ & Z & _)|[(Z & _)|(Z & _)]]); try (rewrite CZ in Z; discriminate).
      assert (s1 = s) by congruence. subst s1. apply A2 in Z. congruence. }
    unfold pc_ok in PC. rewrite PK in PC. destruct PC as (s1 & K1 & _ & ON & RS & RC & MN & PX). assert (s1 = s) by congruence. subst s1.
    destruct PX as [(_ & _ & XT)|(Z & _)]; [|rewrite CZ in Z; discriminate].
    rewrite IC, ON. fold id.
    set (w1 := note (OText k t) w).
    set (w2 := if dropped id (w_log w) then w1 else note (OTold id (Message t)) w1).
    assert (ON2 : on_text id t w1 = if dropped id (w_log w) then w2 else acts (app (w_log w2)) w2).
    { unfold WebsocketModel.on_text, WebsocketModel.wasm_callback. change (w_ctrl w1 id) with (w_ctrl w id). rewrite E2.
      unfold w2. destruct (dropped id (w_log w)) eqn:D; [reflexivity|]. cbn [negb]. change (w_store w1 id) with (w_store w id). rewrite E1. reflexivity. }
    assert (L2 : grows (w_log w) (w_log w2)).
    { assert (Y : grows (w_log w) (w_log w1)) by (eapply grows_one; [reflexivity|exact Logic.I]).
      unfold w2. destruct (dropped id (w_log w)) eqn:D; auto. apply g_one; auto. }
    assert (I2 : inv None w2).
    { set (l := if dropped id (w_log w) then [OText k t] else [OTold id (Message t); OText k t]).
      assert (LG : w_log w2 = l ++ w_log w) by (unfold w2, l; destruct (dropped id (w_log w)); auto).
      assert (AB : Forall (about id w) l) by (unfold l; destruct (dropped id (w_log w)); repeat constructor; cbn; eauto).
      assert (G : w_regs w2 = w_regs w /\ w_socks w2 = w_socks w /\ w_ctrl w2 = w_ctrl w /\ w_map w2 = w_map w /\ w_store w2 = w_store w /\ w_queue w2 = w_queue w).
      { unfold w2. destruct (dropped id (w_log w)); auto 10. }
      destruct G as (G1 & G2 & G3 & G4 & G5 & G6).
      assert (V : dropped id (w_log w2) = dropped id (w_log w) /\ (forall m, opened m (w_log w2) = opened m (w_log w) /\ ended m (w_log w2) = ended m (w_log w)) /\
        told id (w_log w2) = (if dropped id (w_log w) then told id (w_log w) else told id (w_log w) ++ [Message t]) /\ expected id (w_log w2) = told id (w_log w2)).
      { unfold w2. destruct (dropped id (w_log w)) eqn:D; cbn; fold (dropped id (w_log w)); rewrite ?Nat.eqb_refl, D, ?M, XT, ?andb_false_r; auto. }
      destruct V as (D2 & V2 & T2 & X2).
      apply (inv_one None None id w); auto; try (rewrite G1; auto; apply (reg_lt _ _ _ N)).
      - refine (others_intro id w w2 l (proj1 I) _ _ _ LG AB); [intros; rewrite G1; auto|intros; rewrite G2; tauto|intros; rewrite G3, G4, G5, G6; auto].
      - refine (socks_intro id w w2 l (proj1 I) _ _ _ LG AB _); [rewrite G1; auto|rewrite G2; auto|rewrite G2; eauto|].
        unfold l. destruct (dropped id (w_log w)); intros o IN; repeat (destruct IN as [<-|IN]; [exact Logic.I|]); contradiction.
      - intros r1 N1. rewrite G1, N in N1. injection N1 as <-. unfold reg_ok. rewrite G2, G3, G4, G5, D2.
        assert (SE : dropped id (w_log w) = false -> session (told id (w_log w2)) true) by (intros D; rewrite T2, D; constructor; apply MN; auto).
        split; [auto|]. split; [rewrite T2; destruct (dropped id (w_log w)) eqn:D; auto; exists true; constructor; apply MN; auto|].
        split; [|split; [exact CN|split; [exact MP|split]]].
        + intros m s1 K2 O2. destruct (SK m s1 K2 O2) as (Y1 & Y2). split; auto. unfold sock_ok in *. destruct (V2 m) as (-> & ->). exact Y1.
        + rewrite LG. apply in_or_app. right. exact HO.
        + unfold pc_ok. rewrite PK, G4, D2, X2, G6. exists s. rewrite G2. do 5 (split; [auto|]). split; [intros D; split; [apply MN; auto|auto]|]. left. split; auto. }
    rewrite ON2. destruct (dropped id (w_log w)) eqn:D.
    - split; auto. apply good_waiting; auto. intros j IN. unfold w2 in IN. cbn in IN. rewrite QE in IN. contradiction.
    - assert (WD : waiting_dropped w2) by (intros j IN; unfold w2 in IN; cbn in IN; rewrite QE in IN; contradiction).
      destruct (acts_inv None (app (w_log w2)) w2 I2 WD) as (A & B & _ & C). split; [apply good_waiting; auto|].
      eapply grows_trans; eauto.
  Qed.

  Lemma closing_event k w w' : inv None w -> w_queue w = [] -> step (EClosing k) w = Some w' -> good w' /\ grows (w_log w) (w_log w').
  Proof.
    intros I QE. cbn [WebsocketModel.step]. rewrite QE. destruct (sock_at w k) as [s|] eqn:K; [|discriminate].
    destruct (s_ready s) eqn:RY; try discriminate. intros E. injection E as <-.
    destruct (registered k s w I K) as (r & N & RO & M). set (id := s_owner s) in *.
    destruct RO as (E & SS & SK & CN & MP & HO & PC). destruct (SK k s K eq_refl) as ((A1 & A2 & A3 & A4 & A5 & A6 & A7 & A8 & A9) & CU).
    assert (IC : s_isclose s = false) by (destruct (s_isclose s); auto; destruct (A5 eq_refl); congruence).
    set (w1 := note (OClosing k) (with_sock k (set_ready Closing) w)). split; [|eapply grows_one; [reflexivity|exact Logic.I]].
    assert (GK : forall m, sock_at w1 m = if m =? k then Some (set_ready Closing s) else sock_at w m).
    { intros m. unfold w1; cbn. rewrite nth_setn. destruct (Nat.eqb_spec m k) as [->|]; auto. rewrite K. auto. }
    split; [|unfold w1; cbn; rewrite QE; intros j []].
    assert (CK : current None r = Some k) by (destruct CU as [CU|(CU & _)]; [auto|congruence]).
    refine (socket_event w w1 [OClosing k] k s (set_ready Closing s) id r I N K eq_refl eq_refl eq_refl eq_refl eq_refl eq_refl eq_refl _ _ GK _ _ _ _ _ _ (or_introl CK) _).
    - auto.
    - unfold w1; cbn. apply length_setn.
    - repeat constructor. cbn. eauto.
    - intros o [<-|[]]. auto.
    - intros m NM. cbn. assert (X : (k =? m) = false) by (apply Nat.eqb_neq; auto). rewrite X. auto.
    - unfold sock_ok. cbn. rewrite Nat.eqb_refl. cbn. split; [exact A1|]. split; [split; [discriminate|intros X; apply A2 in X; congruence]|].
      split; [split; [discriminate|intros (_ & X); discriminate]|]. split; auto. split; auto. split; [discriminate|]. split; auto. split; [intros X; apply A2 in X; congruence|discriminate].
    - auto.
    - cbn. destruct (s_result s) as [[]|]; auto; left; discriminate.
    - unfold pc_ok in *. change (expected id (w_log w1)) with (expected id (w_log w)). change (told id (w_log w1)) with (told id (w_log w)).
      change (dropped id (w_log w1)) with (dropped id (w_log w)). change (w_map w1) with (w_map w). change (cnt id w1) with (cnt id w).
      unfold current in CK. destruct (r_pc r) as [j|j| | |]; try discriminate CK; injection CK as ->; destruct PC as (s1 & K1 & PC);
        assert (s1 = s) by congruence; subst s1; exists (set_ready Closing s); rewrite GK, Nat.eqb_refl; split; auto.
      destruct PC as (B1 & B2 & B3 & B4 & B5 & [B6|(_ & B6 & _)]); [|congruence]. cbn. repeat (split; [auto|]). left. exact B6.
  Qed.

  (** A socket is closed from outside: what [closeSocket] then does. *)
  Lemma closed_event k w w' : inv None w -> w_queue w = [] -> step (EClosed k) w = Some w' -> good w' /\ grows (w_log w) (w_log w').
  Proof.
    intros I QE. cbn [WebsocketModel.step]. rewrite QE. destruct (sock_at w k) as [s|] eqn:K; [|discriminate].
    assert (NR : s_ready s <> Closed -> Some (close_socket k (note (OClosed k) (with_sock k (set_ready Closed) w))) = Some w' -> good w' /\ grows (w_log w) (w_log w')).
    2: { destruct (s_ready s) eqn:RY; try discriminate; intros E; apply NR; auto; discriminate. }
    intros RY E. injection E as <-.
    destruct (registered k s w I K) as (r & N & RO & M). set (id := s_owner s) in *.
    destruct RO as (E & SS & SK & CN & MP & HO & PC). destruct (SK k s K eq_refl) as ((A1 & A2 & A3 & A4 & A5 & A6 & A7 & A8 & A9) & CU).
    set (w1 := note (OClosed k) (with_sock k (set_ready Closed) w)).
    assert (K1 : sock_at w1 k = Some (set_ready Closed s)) by (unfold w1; cbn; rewrite nth_setn, Nat.eqb_refl, K; auto).
    assert (CZ : cnt id w = 0) by (rewrite QE; auto).
    assert (OE : forall m, m <> k -> opened m (w_log w1) = opened m (w_log w) /\ ended m (w_log w1) = ended m (w_log w)).
    { intros m NM. cbn. assert (X : (k =? m) = false) by (apply Nat.eqb_neq; auto). rewrite X. auto. }
    destruct (s_isclose s) eqn:IC.
    - (* closed by the page before *)
      assert (CS : close_socket k w1 = w1) by (unfold close_socket; rewrite K1; cbn [s_isclose set_ready]; rewrite IC; auto).
      rewrite CS. split; [|eapply grows_one; [reflexivity|exact Logic.I]]. split; [|unfold w1; cbn; rewrite QE; intros j []].
      assert (OL : current None r <> Some k /\ old_ok s (dropped id (w_log w))).
      { assert (X : current None r <> Some k).
        { intros CK. unfold current in CK. unfold pc_ok in PC. destruct (r_pc r) as [j|j| | |]; try discriminate CK; injection CK as ->; destruct PC as (s1 & K2 & PC); assert (s1 = s) by congruence; subst s1.
          - destruct PC as (_ & _ & _ & _ & [(_ & Z & _)|[(Z & _)|(Z & _)]]); try (rewrite CZ in Z; discriminate). apply A2 in Z. destruct (A5 eq_refl); congruence.
          - destruct PC as (_ & _ & _ & _ & _ & [(_ & Z & _)|(Z & _)]); [congruence|rewrite CZ in Z; discriminate]. }
        split; auto. destruct CU as [CU|CU]; [congruence|]. unfold old_ok in *. rewrite IC in *. exact CU. }
      destruct OL as (NC & OL).
      assert (GK : forall m, sock_at w1 m = if m =? k then Some (set_ready Closed s) else sock_at w m).
      { intros m. unfold w1; cbn. rewrite nth_setn. destruct (Nat.eqb_spec m k) as [->|]; auto. rewrite K. auto. }
      assert (XE : expected id (w_log w1) = expected id (w_log w)).
      { change (w_log w1) with (OClosed k :: w_log w). cbn [expected]. rewrite M. cbn [andb]. destruct (opened k (w_log w)) eqn:OP; auto. destruct (dropped id (w_log w)) eqn:D; auto.
        exfalso. destruct OL as (_ & OL). destruct OL as [OL|OL]; [apply A1; auto|congruence|congruence]. }
      refine (socket_event w w1 [OClosed k] k s (set_ready Closed s) id r I N K eq_refl eq_refl eq_refl eq_refl eq_refl eq_refl eq_refl _ _ GK _ _ OE _ _ _ (or_intror _) _).
      + auto.
      + unfold w1; cbn. apply length_setn.
      + repeat constructor. cbn. eauto.
      + intros o [<-|[]]. auto.
      + unfold sock_ok. cbn. rewrite Nat.eqb_refl. cbn. rewrite IC in *. split; [exact A1|].
        assert (NN : s_result s <> None) by (intros X; apply A2 in X; destruct (A5 eq_refl); congruence).
        split; [split; [discriminate|congruence]|]. split; [split; [discriminate|intros (_ & X); discriminate]|]. split; auto. split; auto. split; auto. split; auto. split; [congruence|discriminate].
      + auto.
      + cbn. destruct (s_result s) as [[]|]; auto; left; discriminate.
      + split; [exact IC|]. auto.
      + unfold pc_ok in *. rewrite XE. change (told id (w_log w1)) with (told id (w_log w)).
        change (dropped id (w_log w1)) with (dropped id (w_log w)). change (w_map w1) with (w_map w). change (cnt id w1) with (cnt id w).
        unfold current in NC. destruct (r_pc r) as [j|j| | |]; auto; destruct PC as (s1 & K2 & PC); exists s1; rewrite GK;
          (destruct (Nat.eqb_spec j k) as [->|]; [congruence|auto]).
    - assert (N1 : nth_error (w_regs w1) (s_owner (set_ready Closed s)) = Some r) by exact N.
      assert (CK : current None r = Some k) by (destruct CU as [CU|(CU & _)]; [auto|congruence]).
      destruct (close_socket_is k (set_ready Closed s) r w1 K1 IC (eq_trans A4 eq_refl) N1) as (G1 & G2 & G3 & G4 & G5 & G6 & G7 & G8).
      set (w2 := close_socket k w1) in *. cbn [close_notes set_ready s_ready List.app] in G8.
      change (w_log w1) with (OClosed k :: w_log w) in G8. change (w_regs w1) with (w_regs w) in G1.
      assert (WQ : w_queue w2 = [id]).
      { rewrite G7. change (w_queue w1) with (w_queue w). rewrite QE. cbn [List.app]. unfold close_wakes. cbn [s_result s_owner set_ready]. fold id.
        unfold current in CK. unfold pc_ok in PC. destruct (r_pc r) as [j|j| | |]; try discriminate CK; injection CK as ->; rewrite Nat.eqb_refl; destruct PC as (s1 & K2 & PC); assert (s1 = s) by congruence; subst s1.
        - destruct PC as (_ & _ & _ & _ & [(_ & Z & _)|[(Z & _)|(Z & _)]]); try (rewrite CZ in Z; discriminate). rewrite Z. auto.
        - destruct PC as (_ & _ & RS & _). auto. }
      assert (GK : forall m, sock_at w2 m = if m =? k then Some (closed_sock (set_ready Closed s)) else sock_at w m).
      { intros m. rewrite G3. destruct (Nat.eqb_spec m k) as [->|NM]; auto. unfold w1; cbn. rewrite nth_setn. apply Nat.eqb_neq in NM. rewrite NM. auto. }
      assert (LS : length (w_socks w2) = length (w_socks w)) by (rewrite G2; unfold w1; cbn; apply length_setn).
      split; [|eapply grows_one; [exact G8|exact Logic.I]]. split; [|rewrite WQ; intros j []].
      refine (socket_event w w2 [OClosed k] k s (closed_sock (set_ready Closed s)) id r I N K eq_refl eq_refl G1 G4 G5 G6 G8 _ LS GK _ _ _ _ _ _ (or_introl CK) _).
      + intros j NE. rewrite WQ, QE. cbn. destruct (Nat.eq_dec id j); [congruence|auto].
      + repeat constructor. cbn. eauto.
      + intros o [<-|[]]. auto.
      + intros m NM. rewrite G8. exact (OE m NM).
      + unfold sock_ok. rewrite G8. cbn. rewrite Nat.eqb_refl. cbn. fold (opened k (w_log w)). split; [rewrite A1; destruct (s_result s) as [[]|]; split; congruence|].
        split; [split; discriminate|]. split; [split; [discriminate|intros (_ & X); discriminate]|]. split; auto. split; auto. split; auto. split; auto. split; discriminate.
      + auto.
      + cbn. destruct (s_result s) as [[]|]; auto; left; discriminate.
      + unfold pc_ok in *. rewrite G8. cbn [told expected]. rewrite M. cbn [andb]. change (w_map w1) with (w_map w) in G5. rewrite G5.
        assert (DD : dropped id (OClosed k :: w_log w) = dropped id (w_log w)) by reflexivity. rewrite DD.
        rewrite WQ. cbn [count_occ]. destruct (Nat.eq_dec id id) as [_|]; [|congruence].
        unfold current in CK. destruct (r_pc r) as [j|j| | |]; try discriminate CK; injection CK as ->; destruct PC as (s1 & K2 & PC); assert (s1 = s) by congruence; subst s1;
          exists (closed_sock (set_ready Closed s)); rewrite GK, Nat.eqb_refl; (split; [auto|]).
        * destruct PC as (B1 & B2 & B3 & B4 & [(_ & Z & B5)|[(Z & _)|(Z & _)]]); try (rewrite CZ in Z; discriminate). cbn. rewrite Z.
          assert (OP : opened k (w_log w) = false) by (destruct (opened k (w_log w)); auto; assert (Y := proj1 A1 eq_refl); congruence).
          rewrite OP. cbn [andb]. repeat (split; [auto|]). right. left. auto.
        * destruct PC as (B1 & B2 & B3 & B4 & B5 & [(_ & _ & B6)|(Z & _)]); [|rewrite CZ in Z; discriminate]. cbn. rewrite B3.
          assert (OP : opened k (w_log w) = true) by (apply A1; auto). rewrite OP. cbn [andb]. repeat (split; [auto|]). right. split; auto. split; auto. split; auto.
          rewrite B6. destruct (dropped id (w_log w)); cbn; rewrite ?app_nil_r; auto.
  Qed.

  Lemma timeout_event k w w' : inv None w -> w_queue w = [] -> step (ETimeout k) w = Some w' -> good w' /\ grows (w_log w) (w_log w').
  Proof.
    intros I QE. cbn [WebsocketModel.step]. rewrite QE. destruct (sock_at w k) as [s|] eqn:K; [|discriminate].
    destruct (s_timer s) eqn:TM; [|discriminate]. intros E. injection E as <-.
    destruct (registered k s w I K) as (r & N & RO & M). set (id := s_owner s) in *.
    destruct RO as (E & SS & SK & CN & MP & HO & PC). destruct (SK k s K eq_refl) as ((A1 & A2 & A3 & A4 & A5 & A6 & A7 & A8 & A9) & CU).
    set (w1 := with_sock k set_fired w).
    assert (GK1 : forall m, sock_at w1 m = if m =? k then Some (set_fired s) else sock_at w m).
    { intros m. unfold w1; cbn. rewrite nth_setn. destruct (Nat.eqb_spec m k) as [->|]; auto. rewrite K. auto. }
    assert (CZ : cnt id w = 0) by (rewrite QE; auto).
    destruct (s_result s) as [b|] eqn:RS.
    - split; [|apply grows_same; auto]. split; [|unfold w1; cbn; rewrite QE; intros j []].
      assert (CU' : current None r = Some k \/ old_ok (set_fired s) (dropped id (w_log w))).
      { destruct CU as [CU|CU]; auto. }
      refine (socket_event w w1 [] k s (set_fired s) id r I N K eq_refl eq_refl eq_refl eq_refl eq_refl eq_refl eq_refl _ _ GK1 (Forall_nil _) _ _ _ _ _ CU' _).
      + auto.
      + unfold w1; cbn. apply length_setn.
      + intros o [].
      + auto.
      + unfold sock_ok. cbn. rewrite RS. split; [exact A1|]. do 6 (split; [auto|]). split; [discriminate|auto].
      + auto.
      + cbn. rewrite RS. destruct b; auto. left. discriminate.
      + unfold pc_ok in *. change (w_log w1) with (w_log w). change (w_map w1) with (w_map w). change (cnt id w1) with (cnt id w).
        destruct (r_pc r) as [j|j| | |]; auto; destruct PC as (s1 & K2 & PC); rewrite GK1;
          (destruct (Nat.eqb_spec j k) as [->|]; [assert (s1 = s) by congruence; subst s1; exists (set_fired s); auto|exists s1; auto]).
    - assert (RC : s_ready s = Connecting) by (apply A2; auto).
      assert (IC : s_isclose s = false) by (destruct (s_isclose s); auto; destruct (A5 eq_refl); congruence).
      assert (CK : current None r = Some k) by (destruct CU as [CU|(CU & _)]; [auto|congruence]).
      assert (K1 : sock_at w1 k = Some (set_fired s)) by (rewrite GK1, Nat.eqb_refl; auto).
      assert (N1 : nth_error (w_regs w1) (s_owner (set_fired s)) = Some r) by exact N.
      destruct (close_socket_is k (set_fired s) r w1 K1 IC (eq_trans A4 IC) N1) as (G1 & G2 & G3 & G4 & G5 & G6 & G7 & G8).
      set (w2 := close_socket k w1) in *. unfold close_notes in G8. cbn [set_fired s_ready] in G8. rewrite RC in G8. cbn [List.app] in G8.
      change (w_log w1) with (w_log w) in G8. change (w_regs w1) with (w_regs w) in G1. change (w_map w1) with (w_map w) in G5.
      unfold pc_ok in PC. unfold current in CK.
      assert (PK : r_pc r = PConnect k).
      { destruct (r_pc r) as [j|j| | |]; try discriminate CK; [congruence|]. injection CK as ->. destruct PC as (s1 & K2 & _ & _ & Z & _). congruence. }
      rewrite PK in PC. destruct PC as (s1 & K2 & B1 & B2 & B3 & B4 & PX). assert (s1 = s) by congruence. subst s1.
      destruct PX as [(_ & _ & XT)|[(Z & _)|(Z & _)]]; try (rewrite CZ in Z; discriminate).
      assert (WQ : w_queue w2 = [id]).
      { rewrite G7. change (w_queue w1) with (w_queue w). rewrite QE. unfold close_wakes. cbn [s_result s_owner set_fired]. rewrite PK, RS, Nat.eqb_refl. auto. }
      assert (GK : forall m, sock_at w2 m = if m =? k then Some (closed_sock (set_fired s)) else sock_at w m).
      { intros m. rewrite G3, GK1. destruct (m =? k); auto. }
      assert (LS : length (w_socks w2) = length (w_socks w)) by (rewrite G2; unfold w1; cbn; apply length_setn).
      assert (OP : opened k (w_log w) = false) by (destruct (opened k (w_log w)); auto; assert (Y := proj1 A1 eq_refl); congruence).
      split; [|eapply grows_one; [exact G8|exact OP]]. split; [|rewrite WQ; intros j []].
      assert (CK' : current None r = Some k) by (unfold current; rewrite PK; auto).
      refine (socket_event w w2 [OClose k] k s (closed_sock (set_fired s)) id r I N K eq_refl eq_refl G1 G4 G5 G6 G8 _ LS GK _ _ _ _ _ _ (or_introl CK') _).
      + intros j NE. rewrite WQ, QE. cbn. destruct (Nat.eq_dec id j); [congruence|auto].
      + repeat constructor. cbn. eauto.
      + intros o [<-|[]]. auto.
      + intros m NM. rewrite G8. cbn. assert (X : (k =? m) = false) by (apply Nat.eqb_neq; auto). rewrite X. auto.
      + unfold sock_ok. rewrite G8. cbn. rewrite Nat.eqb_refl, RS, RC. cbn. fold (opened k (w_log w)). rewrite OP. split; [split; discriminate|].
        split; [split; discriminate|]. split; [split; [discriminate|intros (_ & X); discriminate]|]. split; auto. split; auto. split; [discriminate|]. split; auto. split; discriminate.
      + auto.
      + left. congruence.
      + unfold pc_ok. rewrite G8, PK. cbn [told expected]. rewrite G5.
        assert (DD : dropped id (OClose k :: w_log w) = dropped id (w_log w)) by reflexivity. rewrite DD.
        rewrite WQ. cbn [count_occ]. destruct (Nat.eq_dec id id) as [_|]; [|congruence]. exists (closed_sock (set_fired s)). rewrite GK, Nat.eqb_refl.
        do 5 (split; [auto|]). right. left. split; auto. split; auto. cbn. rewrite RS. auto.
  Qed.

  Lemma retry_event id w w' : inv None w -> w_queue w = [] -> step (ERetry id) w = Some w' -> good w' /\ grows (w_log w) (w_log w').
  Proof.
    intros I QE. cbn [WebsocketModel.step]. rewrite QE. destruct (nth_error (w_regs w) id) as [r|] eqn:N; [|discriminate].
    assert (NR : r_pc r = PDelay -> Some (loop_top id w) = Some w' -> good w' /\ grows (w_log w) (w_log w')).
    2: { destruct r as [h ic cn [| | | |]]; try discriminate. intros E. apply NR; auto. }
    intros P E. injection E as <-. assert (S := proj1 I). destruct (proj1 (proj2 I) id r N) as (E & SS & SK & CN & MP & HO & PC).
    unfold pc_ok in PC. rewrite P in PC. destruct PC as (CZ & XT & MN). unfold current in SK, CN. rewrite P in SK, CN.
    assert (T : at_top id r w).
    { split; [exact E|]. split; [exact SS|]. split; [|split; [|split; [exact MP|split; [exact HO|auto]]]].
      - intros k s K O. destruct (SK k s K O) as (Y1 & [Y2|Y2]); [discriminate|auto].
      - intros k C. destruct (CN k C) as (s & K & O & [Y|(Y & _)]); [eauto|discriminate]. }
    destruct (loop_top_ok None id r w S N T) as (O3 & S3 & L3 & Q3 & R3 & _ & _ & LG). split; auto. split; [|rewrite Q3, QE; intros j []].
    apply (inv_one None None id w); auto; [rewrite L3; auto|intros r1 N1; apply R3; auto|rewrite L3; apply (reg_lt _ _ _ N)].
  Qed.

  Theorem step_good e w w' : good w -> step e w = Some w' -> good w' /\ grows (w_log w) (w_log w').
  Proof.
    intros (I & Q) E. destruct (w_queue w) as [|id q] eqn:QE.
    - destruct e.
      + cbn in E. rewrite QE in E. discriminate.
      + apply (open_event k w); auto.
      + apply (text_event k t w); auto.
      + cbn in E. rewrite QE in E. destruct (sock_at w k) as [s|]; [|discriminate]. destruct (s_ready s); try discriminate. injection E as <-.
        split; [split; auto; rewrite QE; auto|apply grows_same; auto].
      + apply (closing_event k w); auto.
      + apply (closed_event k w); auto.
      + apply (timeout_event k w); auto.
      + apply (retry_event id w); auto.
      + cbn in E. rewrite QE in E. injection E as <-. assert (WD : waiting_dropped w) by (intros j IN; rewrite QE in IN; contradiction).
        destruct (act_inv None a w I WD) as (A & B & _ & L). split; auto. apply good_waiting; auto.
    - destruct e; cbn in E; rewrite QE in E; try discriminate. injection E as <-.
      destruct (resume_inv id q w I QE Q) as (A & B & L). split; auto. apply good_waiting; auto.
  Qed.
  Lemma start_good : good start.
  Proof.
    split; [|intros j []]. split; [|split].
    - split; [|split; [|split; [|split; [|split]]]].
      + intros id k. split; [discriminate|]. intros (s & K & _). destruct k; discriminate.
      + intros k s K. destruct k; discriminate.
      + discriminate.
      + discriminate.
      + intros id k h [].
      + intros id h [].
    - intros id r N. destruct id; discriminate.
    - intros id _. unfold fresh. cbn. auto 10.
  Qed.
  Theorem run_good es : forall w w', good w -> run es w = Some w' -> good w' /\ grows (w_log w) (w_log w').
  Proof.
    induction es as [|e es IH]; intros w w' G E; cbn in E; [injection E as <-; split; auto; apply grows_same; auto|].
    destruct (step e w) as [w1|] eqn:E1; [|discriminate]. destruct (step_good e w w1 G E1) as (G1 & L1).
    destruct (IH w1 w' G1 E) as (G2 & L2). split; auto. eapply grows_trans; eauto.
  Qed.
End Websocket.
