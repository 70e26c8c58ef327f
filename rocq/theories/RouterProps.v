(** Routers: the route follows the location (C66), setting a route (C67), links (C68). *)
From Coq Require Import String List NArith ZArith Bool Lia.
From Verif Require Import CodecModel CodecSpec CodecProofs CodecUtf8 DomWire CookieModel CookieProps RouterModel.
Import ListNotations.
Local Open Scope string_scope.
Local Open Scope list_scope.
Local Open Scope N_scope.

(** ** Specification *)

(** A text that the setter of [location.hash] keeps, up to percent-encoding. *)
Definition hash_text (x : bytes) : Prop :=
  rust_string x /\ ~ In 37 x /\ ~ In 9 x /\ ~ In 10 x /\ ~ In 13 x /\ hd_error x <> Some 35.

(** RFC 3986, 3.1: [h] begins with a scheme. *)
Definition letter (b : N) : Prop := 65 <= b <= 90 \/ 97 <= b <= 122.
Definition scheme_char (b : N) : Prop := letter b \/ 48 <= b <= 57 \/ b = 43 \/ b = 45 \/ b = 46.
Definition has_scheme (h : bytes) : Prop :=
  exists a s r, h = a :: s ++ 58 :: r /\ letter a /\ Forall scheme_char s.
(** Links to other places than a page of the same site: another scheme, another host, a place in the same page. *)
Definition elsewhere (h : bytes) : Prop :=
  has_scheme h \/ (exists r, h = 47 :: 47 :: r) \/ (exists r, h = 35 :: r).

(** The address of a location inside the site (RFC 3986, 5.3), as the address bar shows it. *)
Inductive shows : loc -> bytes -> Prop :=
| shows_plain r : shows (Loc r []) r
| shows_fragment r a f : shows (Loc r (a :: f)) (r ++ [35] ++ a :: f).
Lemma shows_get l : shows l (get_history l).
Proof. destruct l as [r [|a f]]; unfold get_history; cbn; [rewrite app_nil_r|]; constructor. Qed.
Lemma shows_is l x : shows l x -> get_history l = x.
Proof. intros []; unfold get_history; cbn; [apply app_nil_r|reflexivity]. Qed.

Section Routers.
  Variable T : Type.
  Variable from : bytes -> T.
  Variable to : T -> bytes.
  Variable eqb : T -> T -> bool.
  Variable resolve : loc -> bytes -> option loc.
  Notation world := (world T).
  Notation router := (router T).
  Notation step := (step T from to eqb resolve).
  Notation run := (run T from to eqb resolve).
  Notation start := (start T).
  Notation op := (op T).
  Notation trigger := (trigger T from eqb).
  Notation r_cb := (r_cb T).
  Notation r_value := (r_value T).
  Notation r_history := (r_history T).
  Notation r_told := (r_told T).
  Notation w_routers := (w_routers T).
  Notation w_loc := (w_loc T).
  Notation w_pop := (w_pop T).
  Notation w_change := (w_change T).
  Notation w_hash := (w_hash T).
  Notation w_hist := (w_hist T).
  Notation w_next := (w_next T).
  Notation push_history := (push_history T from eqb resolve).
  Notation push_hash := (push_hash T from eqb).

  (** What an application can reach. *)
  Definition reachable (w : world) : Prop := exists l ops, w = run (start l) ops.
  (** Something depends on router [i] of the kind given. *)
  Definition observed (history : bool) (i : nat) (w : world) : Prop :=
    exists r, nth_error (w_routers w) i = Some r /\ r_history r = history /\ r_cb r <> None.
  (** The route of router [i]. *)
  Definition route (i : nat) (w : world) : option T := option_map r_value (nth_error (w_routers w) i).

  (** [P] holds of every operation of a run and the state before it. *)
  Fixpoint along (P : world -> op -> Prop) (w : world) (ops : list op) : Prop :=
    match ops with [] => True | o :: t => P w o /\ along P (step w o) t end.

  (** The fragment changes without a [hashchange] event: the application pushes or replaces a path with another one. *)
  Definition by_history (w : world) (o : op) : Prop :=
    match o with
    | PushPath _ _ => True
    | SetRoute _ i _ => exists r, nth_error (w_routers w) i = Some r /\ r_history r = true
    | _ => False
    end.
  Definition hash_quiet (i : nat) (w : world) (o : op) : Prop :=
    o <> Unobserve _ i /\ (exists t, get_hash (w_loc (step w o)) = Some t) /\
    (by_history w o -> l_frag (w_loc (step w o)) = l_frag (w_loc w)).

  (** ** Proofs *)

  Definition same_page (w w1 : world) : Prop :=
    w_loc w1 = w_loc w /\ w_hash w1 = w_hash w /\ w_hist w1 = w_hist w /\ w_next w1 = w_next w /\ w_pop w1 = w_pop w /\ w_change w1 = w_change w.

  (** Routers before and after callbacks of [ids] with the text [s] (if there is one). *)
  Definition touched (s : option bytes) (ids : list N) (r r1 : router) : Prop :=
    r_history r1 = r_history r /\ r_cb r1 = r_cb r /\
    (forall t id, s = Some t -> r_cb r = Some id -> In id ids -> r_value r1 = from t) /\
    (r_value r1 = r_value r \/ exists t id, s = Some t /\ r_cb r = Some id /\ In id ids /\ r_value r1 = from t).

  Lemma trigger_spec get ids : forall w, same_page w (trigger get ids w) /\
    Forall2 (touched (get (w_loc w)) ids) (w_routers w) (w_routers (trigger get ids w)).
  Proof.
    induction ids as [|id ids IH]; intros w; cbn [RouterModel.trigger].
    - split; [repeat split|]. induction (w_routers w); constructor; auto. split; auto. split; auto. split; auto. intros ? ? _ _ [].
    - destruct (get (w_loc w)) as [s|] eqn:G.
      + destruct (IH (callback T from eqb id s w)) as [SP F]. split.
        * destruct SP as (A & B & C & D & E & H). cbn in *. repeat split; auto.
        * cbn [RouterModel.w_loc RouterModel.w_routers callback] in F. rewrite G in F. clear -F.
          remember (w_routers (trigger get ids (callback T from eqb id s w))) as R. clear HeqR.
          revert R F. induction (w_routers w) as [|r l IHl]; intros R F; inversion F as [|? r1 ? R1 X F1]; subst; constructor; auto.
          destruct X as (A & B & C & D). unfold is_cb in *.
          destruct (r_cb r) as [c|] eqn:RC.
          -- destruct (N.eqb_spec c id) as [->|NE].
             ++ unfold put in *. cbn [RouterModel.r_cb RouterModel.r_value RouterModel.r_history] in *. split; [auto|]. split; [auto|].
                split; [|].
                ** intros t i [= <-] Ei _. assert (i = id) by congruence. subst i.
                   destruct D as [D|(t & i & E1 & E2 & E3 & E4)]; [rewrite D; auto|]. congruence.
                ** right. exists s, id. split; auto. split; auto. split; [left; auto|].
                   destruct D as [D|(t & i & E1 & E2 & E3 & E4)]; [rewrite D; auto|congruence].
             ++ split; [auto|]. split; [congruence|]. split.
                ** intros t i E1 E2 [E3|E3]; [congruence|]. apply (C t i); congruence.
                ** destruct D as [D|(t & i & E1 & E2 & E3 & E4)]; [auto|]. right. exists t, i. split; auto. split; [congruence|]. split; auto. right; auto.
          -- split; [auto|]. split; [congruence|]. split; [intros t i _ E; congruence|].
             destruct D as [D|(t & i & E1 & E2 & E3 & E4)]; auto. congruence.
      + split; [repeat split|]. induction (w_routers w); constructor; auto. split; auto. split; auto. split; auto. intros ? ? E; discriminate.
  Qed.

  Lemma Forall2_nth_error {X} (R : X -> X -> Prop) a b i x : Forall2 R a b -> nth_error a i = Some x -> exists y, nth_error b i = Some y /\ R x y.
  Proof.
    intros F. revert i. induction F as [|p q a b Y F IH]; intros [|i] E; simpl in *; try discriminate; eauto.
    injection E as <-. eauto.
  Qed.
  Lemma Forall2_nth_back {X} (R : X -> X -> Prop) a b i y : Forall2 R a b -> nth_error b i = Some y -> exists x, nth_error a i = Some x /\ R x y.
  Proof.
    intros F. revert i. induction F as [|p q a b Y F IH]; intros [|i] E; simpl in *; try discriminate; eauto.
    injection E as <-. eauto.
  Qed.

  (** The callbacks of the page are those of the connected routers. *)
  Record inv (w : world) : Prop := {
    i_list : forall i r id, nth_error (w_routers w) i = Some r -> r_cb r = Some id ->
      id < w_next w /\ (if r_history r then In id (w_hist w) /\ ~ In id (w_hash w) else In id (w_hash w) /\ ~ In id (w_hist w));
    i_one : forall i j r q id, nth_error (w_routers w) i = Some r -> nth_error (w_routers w) j = Some q -> r_cb r = Some id -> r_cb q = Some id -> i = j;
    i_old : forall id, In id (w_hash w) \/ In id (w_hist w) -> id < w_next w }.

  Lemma nth_set {X} (l : list X) : forall i j x, nth_error (set_nth i x l) j =
    if Nat.eqb i j then (match nth_error l j with Some _ => Some x | None => None end) else nth_error l j.
  Proof.
    induction l as [|y l IH]; intros [|i] [|j] x; simpl; auto.
    - destruct (Nat.eqb i j); auto.
  Qed.

  Lemma inv_touched w w1 s ids : inv w -> w_hash w1 = w_hash w -> w_hist w1 = w_hist w -> w_next w1 = w_next w ->
    Forall2 (touched s ids) (w_routers w) (w_routers w1) -> inv w1.
  Proof.
    intros [A B C] E1 E2 E3 F. split; rewrite ?E1, ?E2, ?E3; auto.
    - intros i r id N R. destruct (Forall2_nth_back _ _ _ _ _ F N) as (q & Q & T1 & T2 & _). rewrite T1. apply (A i q id); auto. congruence.
    - intros i j r q id N M R Q. destruct (Forall2_nth_back _ _ _ _ _ F N) as (r0 & R0 & _ & T2 & _).
      destruct (Forall2_nth_back _ _ _ _ _ F M) as (q0 & Q0 & _ & T3 & _). apply (B i j r0 q0 id); auto; congruence.
  Qed.

  Lemma inv_same w w1 : inv w -> w_hash w1 = w_hash w -> w_hist w1 = w_hist w -> w_next w1 = w_next w -> w_routers w1 = w_routers w -> inv w1.
  Proof. intros [A B C] E1 E2 E3 E4. split; rewrite ?E1, ?E2, ?E3, ?E4; auto. Qed.

  Lemma inv_trigger get ids w : inv w -> inv (trigger get ids w).
  Proof.
    intros I. destruct (trigger_spec get ids w) as [(A & B & C & D & E & H) F]. eapply inv_touched; eauto.
  Qed.

  Lemma inv_push_history url w : inv w -> inv (push_history url w).
  Proof.
    intros I. unfold RouterModel.push_history. destruct (bytes_eqb _ _); auto. destruct (resolve _ _); auto.
    apply inv_trigger. eapply inv_same; eauto.
  Qed.
  Lemma inv_push_hash x w : inv w -> inv (push_hash x w).
  Proof.
    intros I. unfold RouterModel.push_hash. destruct (get_hash _); auto. destruct (bytes_eqb _ _); auto.
    apply inv_trigger. unfold set_location_hash. destruct (bytes_eqb _ _); auto. eapply inv_same; eauto.
  Qed.

  Lemma inv_step w o : inv w -> inv (step w o).
  Proof.
    intros I. destruct o as [h|i|i|i t|u|l| |]; cbn [RouterModel.step].
    - destruct I as [A B C]. split; cbn [RouterModel.w_routers RouterModel.w_hash RouterModel.w_hist RouterModel.w_next]; auto.
      + intros i r id N R. destruct (Nat.lt_ge_cases i (length (w_routers w))) as [L|L].
        * rewrite nth_error_app1 in N by auto. eauto.
        * rewrite nth_error_app2 in N by auto. destruct (i - length (w_routers w))%nat as [|k]; simpl in N; [|destruct k; discriminate].
          injection N as <-. discriminate.
      + assert (G : forall i r id, nth_error (w_routers w ++ [Router T h (from (if h then get_history (w_loc w) else match get_hash (w_loc w) with Some s => s | None => [] end)) None []]) i = Some r -> r_cb r = Some id -> nth_error (w_routers w) i = Some r).
        { intros i r id N R. destruct (Nat.lt_ge_cases i (length (w_routers w))) as [L|L].
          * rewrite nth_error_app1 in N by auto. auto.
          * rewrite nth_error_app2 in N by auto. destruct (i - length (w_routers w))%nat as [|k]; simpl in N; [|destruct k; discriminate].
            injection N as <-. discriminate. }
        intros i j r q id N M R Q. apply (B i j r q id); eauto.
    - destruct (nth_error (w_routers w) i) as [[h v [c|] told]|] eqn:NI; auto.
      destruct I as [A B C]. split; cbn [RouterModel.w_routers RouterModel.w_hash RouterModel.w_hist RouterModel.w_next].
      + intros j r id N R. rewrite nth_set in N. destruct (Nat.eqb_spec i j) as [<-|NE].
        * rewrite NI in N. injection N as <-. cbn in R. injection R as <-. cbn [RouterModel.r_history]. split; [lia|].
          destruct h; rewrite in_app_iff; (split; [right; left; auto|]); intros X; [assert (w_next w < w_next w) by (apply C; auto)|assert (w_next w < w_next w) by (apply C; auto)]; lia.
        * destruct (A j r id N R) as [A1 A2]. split; [lia|].
          destruct (r_history r), h; destruct A2 as [A2 A3]; split; try (apply in_or_app; auto); auto;
            intros X; apply in_app_or in X; destruct X as [X|[X|[]]]; auto; lia.
      + intros j k r q id N M R Q. rewrite nth_set in N, M.
        destruct (Nat.eqb_spec i j) as [<-|NE], (Nat.eqb_spec i k) as [<-|NE2]; auto.
        * rewrite NI in N. injection N as <-. cbn in R. injection R as <-. destruct (A k q _ M Q). lia.
        * rewrite NI in M. injection M as <-. cbn in Q. injection Q as <-. destruct (A j r _ N R). lia.
        * apply (B j k r q id); auto.
      + intros id X. assert (id < w_next w \/ id = w_next w); [|lia].
        destruct h; rewrite in_app_iff in X; simpl in X; destruct X as [X|X]; try tauto;
          try (left; apply C; tauto); destruct X as [X|[X|[]]]; auto.
    - destruct (nth_error (w_routers w) i) as [[h v [c|] told]|] eqn:NI; auto.
      destruct I as [A B C]. split; cbn [RouterModel.w_routers RouterModel.w_hash RouterModel.w_hist RouterModel.w_next].
      + intros j r id N R. rewrite nth_set in N. destruct (Nat.eqb_spec i j) as [<-|NE].
        * rewrite NI in N. injection N as <-. discriminate.
        * assert (id <> c). { intros ->. apply NE. apply (B i j _ r c NI N); auto. }
          destruct (A j r id N R) as [A1 A2]. split; auto.
          assert (K : forall l, In id (filter (fun x => negb (x =? c)) l) <-> In id l).
          { intros l. rewrite filter_In. destruct (N.eqb_spec id c); simpl; intuition congruence. }
          destruct (r_history r), h; rewrite ?K; auto.
      + intros j k r q id N M R Q. rewrite nth_set in N, M.
        destruct (Nat.eqb_spec i j) as [<-|NE], (Nat.eqb_spec i k) as [<-|NE2]; auto.
        * rewrite NI in N. injection N as <-. discriminate.
        * rewrite NI in M. injection M as <-. discriminate.
        * apply (B j k r q id); auto.
      + intros id X. apply C. destruct h; rewrite filter_In in X; tauto.
    - destruct (nth_error (w_routers w) i) as [r|]; auto. destruct (r_history r); [apply inv_push_history|apply inv_push_hash]; auto.
    - apply inv_push_history; auto.
    - eapply inv_same; eauto.
    - destruct (w_pop w); auto. apply inv_trigger. eapply inv_same; eauto.
    - destruct (w_change w); auto. apply inv_trigger. eapply inv_same; eauto.
  Qed.

  Lemma inv_run ops : forall w, inv w -> inv (run w ops).
  Proof. induction ops as [|o ops IH]; intros w I; simpl; auto. apply IH. apply inv_step. auto. Qed.
  Lemma inv_start l : inv (start l).
  Proof. split; simpl; intros; try (destruct i; discriminate); tauto. Qed.
  Lemma inv_reachable w : reachable w -> inv w.
  Proof. intros (l & ops & ->). apply inv_run, inv_start. Qed.

  (** What a trigger does to an observed router. *)
  Lemma trigger_own get (h : bool) i r id w : inv w -> nth_error (w_routers w) i = Some r -> r_history r = h -> r_cb r = Some id ->
    exists r1, nth_error (w_routers (trigger get (if h then w_hist w else w_hash w) w)) i = Some r1 /\ r_history r1 = h /\ r_cb r1 = Some id /\
      (forall t, get (w_loc w) = Some t -> r_value r1 = from t) /\ (get (w_loc w) = None -> r_value r1 = r_value r).
  Proof.
    intros I N H R. destruct (trigger_spec get (if h then w_hist w else w_hash w) w) as [_ F].
    destruct (Forall2_nth_error _ _ _ _ _ F N) as (r1 & N1 & A & B & C & D). exists r1. split; auto. split; [congruence|]. split; [congruence|].
    assert (L : In id (if h then w_hist w else w_hash w)) by (destruct (i_list _ I _ _ _ N R) as [_ X]; rewrite H in X; destruct h; apply X).
    split; [eauto|]. intros G. destruct D as [D|(t & x & E & _)]; auto. congruence.
  Qed.
  Lemma trigger_other get (h : bool) i r id w : inv w -> nth_error (w_routers w) i = Some r -> r_history r = h -> r_cb r = Some id ->
    exists r1, nth_error (w_routers (trigger get (if h then w_hash w else w_hist w) w)) i = Some r1 /\ r_history r1 = h /\ r_cb r1 = Some id /\
      r_value r1 = r_value r.
  Proof.
    intros I N H R. destruct (trigger_spec get (if h then w_hash w else w_hist w) w) as [_ F].
    destruct (Forall2_nth_error _ _ _ _ _ F N) as (r1 & N1 & A & B & C & D). exists r1. split; auto. split; [congruence|]. split; [congruence|].
    assert (L : ~ In id (if h then w_hash w else w_hist w)) by (destruct (i_list _ I _ _ _ N R) as [_ X]; rewrite H in X; destruct h; apply X).
    destruct D as [D|(t & x & E & E2 & E3 & _)]; auto. exfalso. apply L. congruence.
  Qed.
  Lemma trigger_page get ids w : same_page w (trigger get ids w).
  Proof. apply trigger_spec. Qed.

  (** A history router that is observed. *)
  Definition follows_history (i : nat) (w : world) : Prop :=
    exists r, nth_error (w_routers w) i = Some r /\ r_history r = true /\ r_cb r <> None /\
      (w_pop w <> O \/ r_value r = from (get_history (w_loc w))).

  Lemma follows_push url i w : inv w -> follows_history i w -> follows_history i (push_history url w).
  Proof.
    intros I (r & N & H & R & V). destruct (r_cb r) as [id|] eqn:RC; [|congruence]. unfold RouterModel.push_history.
    destruct (bytes_eqb _ _); [exists r; rewrite RC; auto|]. destruct (resolve _ _) as [l|]; [|exists r; rewrite RC; auto].
    unfold trigger_history.
    set (w1 := move T l 0 0 w). assert (I1 : inv w1) by (eapply inv_same; eauto).
    destruct (trigger_own (fun l => Some (get_history l)) true i r id w1 I1 N H RC) as (r1 & N1 & H1 & R1 & V1 & _).
    exists r1. split; [exact N1|]. split; auto. split; [congruence|]. right. rewrite (V1 _ eq_refl).
    destruct (trigger_page (fun l => Some (get_history l)) (w_hist w1) w1) as (E & _). rewrite E. auto.
  Qed.

  Lemma follows_push_hash x i w : inv w -> follows_history i w -> follows_history i (push_hash x w).
  Proof.
    intros I (r & N & H & R & V). destruct (r_cb r) as [id|] eqn:RC; [|congruence]. unfold RouterModel.push_hash.
    destruct (get_hash _); [|exists r; rewrite RC; auto]. destruct (bytes_eqb _ _); [exists r; rewrite RC; auto|].
    assert (X : exists w1, set_location_hash T x w = w1 /\ inv w1 /\ nth_error (w_routers w1) i = Some r /\ (w_pop w1 <> O \/ r_value r = from (get_history (w_loc w1)))).
    { unfold set_location_hash. destruct (bytes_eqb _ _); [exists w; auto|]. eexists. split; [reflexivity|]. split; [eapply inv_same; eauto|].
      split; [exact N|]. left. cbn. lia. }
    destruct X as (w1 & -> & I1 & N1 & V1). unfold trigger_hash.
    destruct (trigger_other get_hash true i r id w1 I1 N1 H RC) as (r1 & N2 & H2 & R2 & V2).
    destruct (trigger_page get_hash (w_hash w1) w1) as (E & _ & _ & _ & E2 & _).
    exists r1. split; [exact N2|]. split; auto. split; [congruence|]. rewrite V2, E, E2. auto.
  Qed.

  Lemma follows_step i w o : inv w -> follows_history i w -> o <> Unobserve _ i -> follows_history i (step w o).
  Proof.
    intros I FH NU. destruct o as [h|j|j|j t|u|l| |]; cbn [RouterModel.step].
    - destruct FH as (r & N & H & R & V). exists r. split; auto. cbn [RouterModel.w_routers]. rewrite nth_error_app1; auto.
      apply nth_error_Some. congruence.
    - destruct FH as (r & N & H & R & V). destruct (nth_error (w_routers w) j) as [[h v [c|] told]|] eqn:NJ; try (exists r; auto; fail).
      exists r. split; [|split; auto]. cbn [RouterModel.w_routers]. rewrite nth_set. destruct (Nat.eqb_spec j i) as [->|]; auto.
      rewrite N in NJ. injection NJ as ->. cbn in R. congruence.
    - destruct FH as (r & N & H & R & V). destruct (nth_error (w_routers w) j) as [[h v [c|] told]|] eqn:NJ; try (exists r; auto; fail).
      exists r. split; [|split; auto]. cbn [RouterModel.w_routers]. rewrite nth_set. destruct (Nat.eqb_spec j i) as [->|]; auto. congruence.
    - destruct (nth_error (w_routers w) j) as [r|]; auto. destruct (r_history r); [apply follows_push|apply follows_push_hash]; auto.
    - apply follows_push; auto.
    - destruct FH as (r & N & H & R & V). exists r. split; auto. split; auto. split; auto. left. cbn. lia.
    - destruct (w_pop w) as [|n] eqn:WP; auto. destruct FH as (r & N & H & R & V). destruct (r_cb r) as [id|] eqn:RC; [|congruence].
      set (w1 := World T (w_loc w) (w_hash w) (w_hist w) (w_routers w) (w_next w) n (w_change w)).
      assert (I1 : inv w1) by (eapply inv_same; eauto). unfold trigger_history.
      destruct (trigger_own (fun l => Some (get_history l)) true i r id w1 I1 N H RC) as (r1 & N1 & H1 & R1 & V1 & _).
      exists r1. split; [exact N1|]. split; auto. split; [congruence|]. right. rewrite (V1 _ eq_refl).
      destruct (trigger_page (fun l => Some (get_history l)) (w_hist w1) w1) as (E & _). rewrite E. auto.
    - destruct (w_change w) as [|n] eqn:WP; auto. destruct FH as (r & N & H & R & V). destruct (r_cb r) as [id|] eqn:RC; [|congruence].
      set (w1 := World T (w_loc w) (w_hash w) (w_hist w) (w_routers w) (w_next w) (w_pop w) n).
      assert (I1 : inv w1) by (eapply inv_same; eauto). unfold trigger_hash.
      destruct (trigger_other get_hash true i r id w1 I1 N H RC) as (r1 & N2 & H2 & R2 & V2).
      destruct (trigger_page get_hash (w_hash w1) w1) as (E & _ & _ & _ & E2 & _).
      exists r1. split; [exact N2|]. split; auto. split; [congruence|]. rewrite V2, E, E2. auto.
  Qed.

  (** *** C66, the part for history routers.  Full statement: the route is that of the location.  Proved for a router from
      a moment on at which it is observed and up to date, as long as it stays observed, at times when the browser has no
      event to deliver.  Missing: routers that are not observed all the time; see [C66_unobserved_refuted]. *)
  Theorem C66_history_partial w i ops a b :
    reachable w -> observed true i w -> shows (w_loc w) a -> route i w = Some (from a) -> ~ In (Unobserve _ i) ops ->
    w_pop (run w ops) = O -> shows (w_loc (run w ops)) b -> route i (run w ops) = Some (from b).
  Proof.
    intros RE (r & N & H & R) SA V NU WP SB. apply shows_is in SA, SB. subst a b. apply inv_reachable in RE.
    assert (FH : follows_history i w).
    { exists r. split; auto. split; auto. split; auto. right. unfold route in V. rewrite N in V. injection V as V. auto. }
    clear r N H R V. assert (X : follows_history i (run w ops)).
    { clear WP. revert w RE FH NU. induction ops as [|o ops IH]; intros w RE FH NU; simpl; auto. apply IH.
      - apply inv_step; auto.
      - apply follows_step; auto. intros ->. apply NU. left; auto.
      - intros Z. apply NU. right; auto. }
    destruct X as (r & N & _ & _ & [V|V]); [congruence|]. unfold route. rewrite N. simpl. congruence.
  Qed.

  (** A hash router that is observed. *)
  Definition follows_hash (i : nat) (w : world) : Prop :=
    exists r, nth_error (w_routers w) i = Some r /\ r_history r = false /\ r_cb r <> None /\
      (w_change w <> O \/ exists t, get_hash (w_loc w) = Some t /\ r_value r = from t).

  Lemma push_frag url w : l_frag (w_loc (push_history url w)) = l_frag (w_loc w) -> get_hash (w_loc (push_history url w)) = get_hash (w_loc w).
  Proof. unfold get_hash. intros ->. auto. Qed.

  Lemma hash_push url i w : inv w -> follows_hash i w -> l_frag (w_loc (push_history url w)) = l_frag (w_loc w) -> follows_hash i (push_history url w).
  Proof.
    intros I (r & N & H & R & V) Q. apply push_frag in Q. destruct (r_cb r) as [id|] eqn:RC; [|congruence].
    revert Q. unfold RouterModel.push_history.
    destruct (bytes_eqb _ _); [intros _; exists r; rewrite RC; auto|]. destruct (resolve _ _) as [l|]; [|intros _; exists r; rewrite RC; auto].
    unfold trigger_history. intros Q.
    set (w1 := move T l 0 0 w) in *. assert (I1 : inv w1) by (eapply inv_same; eauto).
    destruct (trigger_other (fun l => Some (get_history l)) false i r id w1 I1 N H RC) as (r1 & N2 & H2 & R2 & V2).
    destruct (trigger_page (fun l => Some (get_history l)) (w_hist w1) w1) as (E & _ & _ & _ & _ & E2).
    exists r1. split; [exact N2|]. split; auto. split; [congruence|]. rewrite V2, Q, E2. destruct V as [V|V]; auto.
    left. cbn. lia.
  Qed.

  Lemma hash_push_hash x i w : inv w -> follows_hash i w -> (exists t, get_hash (w_loc (push_hash x w)) = Some t) -> follows_hash i (push_hash x w).
  Proof.
    intros I (r & N & H & R & V). destruct (r_cb r) as [id|] eqn:RC; [|congruence]. unfold RouterModel.push_hash.
    destruct (get_hash (w_loc w)) as [g|] eqn:G; [|intros _; exists r; rewrite G, RC; auto].
    destruct (bytes_eqb _ _); [intros _; exists r; rewrite G, RC; auto|]. unfold trigger_hash.
    set (w1 := set_location_hash T x w). intros (t & Gt).
    destruct (trigger_page get_hash (w_hash w1) w1) as (E & _). rewrite E in Gt.
    assert (I1 : inv w1) by (unfold w1, set_location_hash; destruct (bytes_eqb _ _); auto; eapply inv_same; eauto).
    assert (N1 : nth_error (w_routers w1) i = Some r) by (unfold w1, set_location_hash; destruct (bytes_eqb _ _); auto).
    destruct (trigger_own get_hash false i r id w1 I1 N1 H RC) as (r1 & N2 & H2 & R2 & V2 & _).
    exists r1. split; [exact N2|]. split; auto. split; [congruence|]. right. exists t. rewrite E. auto.
  Qed.

  Lemma hash_step i w o : inv w -> follows_hash i w -> hash_quiet i w o -> follows_hash i (step w o).
  Proof.
    intros I FH (NU & DE & BH). destruct o as [h|j|j|j t|u|l| |]; cbn [RouterModel.step] in *.
    - destruct FH as (r & N & H & R & V). exists r. split; auto. cbn [RouterModel.w_routers]. rewrite nth_error_app1; auto.
      apply nth_error_Some. congruence.
    - destruct FH as (r & N & H & R & V). destruct (nth_error (w_routers w) j) as [[h v [c|] told]|] eqn:NJ; try (exists r; auto; fail).
      exists r. split; [|split; auto]. cbn [RouterModel.w_routers]. rewrite nth_set. destruct (Nat.eqb_spec j i) as [->|]; auto.
      rewrite N in NJ. injection NJ as ->. cbn in R. congruence.
    - destruct FH as (r & N & H & R & V). destruct (nth_error (w_routers w) j) as [[h v [c|] told]|] eqn:NJ; try (exists r; auto; fail).
      exists r. split; [|split; auto]. cbn [RouterModel.w_routers]. rewrite nth_set. destruct (Nat.eqb_spec j i) as [->|]; auto. congruence.
    - unfold by_history in BH. destruct (nth_error (w_routers w) j) as [r|]; auto. destruct (r_history r) eqn:RH; [apply hash_push|apply hash_push_hash]; auto.
      apply BH. exists r. auto.
    - apply hash_push; auto. apply BH. exact Logic.I.
    - destruct FH as (r & N & H & R & V). exists r. split; auto. split; auto. split; auto. cbn [move RouterModel.w_change RouterModel.w_loc].
      destruct (bytes_eqb_spec (l_frag l) (l_frag (w_loc w))) as [E|E]; [|left; lia]. rewrite PeanoNat.Nat.add_0_r. unfold get_hash in *. rewrite E. auto.
    - destruct (w_pop w) as [|n] eqn:WP; auto. destruct FH as (r & N & H & R & V). destruct (r_cb r) as [id|] eqn:RC; [|congruence].
      set (w1 := World T (w_loc w) (w_hash w) (w_hist w) (w_routers w) (w_next w) n (w_change w)) in *.
      assert (I1 : inv w1) by (eapply inv_same; eauto). unfold trigger_history.
      destruct (trigger_other (fun l => Some (get_history l)) false i r id w1 I1 N H RC) as (r1 & N2 & H2 & R2 & V2).
      destruct (trigger_page (fun l => Some (get_history l)) (w_hist w1) w1) as (E & _ & _ & _ & _ & E2).
      exists r1. split; [exact N2|]. split; auto. split; [congruence|]. rewrite V2, E, E2. auto.
    - destruct (w_change w) as [|n] eqn:WP; auto. destruct FH as (r & N & H & R & V). destruct (r_cb r) as [id|] eqn:RC; [|congruence].
      set (w1 := World T (w_loc w) (w_hash w) (w_hist w) (w_routers w) (w_next w) (w_pop w) n) in *.
      assert (I1 : inv w1) by (eapply inv_same; eauto). unfold trigger_hash in *.
      destruct (trigger_own get_hash false i r id w1 I1 N H RC) as (r1 & N1 & H1 & R1 & V1 & _).
      destruct (trigger_page get_hash (w_hash w1) w1) as (E & _). destruct DE as (t & G). rewrite E in G.
      exists r1. split; [exact N1|]. split; auto. split; [congruence|]. right. exists t. rewrite E. auto.
  Qed.

  (** *** C66, the part for hash routers: as above, and as long as the fragments can be decoded and are not changed by
      pushing or replacing paths.  Missing: the rest; see the refutations. *)
  Theorem C66_hash_partial w i ops t :
    reachable w -> observed false i w -> get_hash (w_loc w) = Some t -> route i w = Some (from t) ->
    along (hash_quiet i) w ops -> w_change (run w ops) = O ->
    exists u, get_hash (w_loc (run w ops)) = Some u /\ route i (run w ops) = Some (from u).
  Proof.
    intros RE (r & N & H & R) G V AL WP. apply inv_reachable in RE.
    assert (FH : follows_hash i w).
    { exists r. split; auto. split; auto. split; auto. right. exists t. unfold route in V. rewrite N in V. injection V as V. auto. }
    clear r N H R V G. assert (X : follows_hash i (run w ops)).
    { clear WP. revert w RE FH AL. induction ops as [|o ops IH]; intros w RE FH AL; simpl; auto. destruct AL as [A1 A2]. apply IH; auto.
      - apply inv_step; auto.
      - apply hash_step; auto. }
    destruct X as (r & N & _ & _ & [V|(u & U & V)]); [congruence|]. exists u. split; auto. unfold route. rewrite N. simpl. congruence.
  Qed.

  (** ** Setting a route *)

  Lemma hash_round x : hash_text x -> decode_component (fragment_of x) = Some x.
  Proof.
    intros ((R1 & R2) & P & T9 & T10 & T13 & HD).
    assert (E : fragment_of x = flat_map (fun b => if fragment_escaped b then escape b else [b]) x).
    { unfold fragment_of. assert (X1 : match x with 35 :: t => t | _ => x end = x).
      { destruct x as [|b x]; auto. destruct (N.eq_dec b 35) as [->|NE]; [exfalso; apply HD; auto|].
        destruct b as [|p]; auto. repeat (destruct p as [p|p|]; auto). congruence. }
      rewrite X1. f_equal. clear -T9 T10 T13. induction x as [|b x IH]; auto. cbn [filter].
      assert (B : negb ((b =? 9) || (b =? 10) || (b =? 13)) = true).
      { destruct (N.eqb_spec b 9) as [->|]; [exfalso; apply T9; left; auto|]. destruct (N.eqb_spec b 10) as [->|]; [exfalso; apply T10; left; auto|].
        destruct (N.eqb_spec b 13) as [->|]; [exfalso; apply T13; left; auto|]. auto. }
      rewrite B. f_equal. apply IH; intros Z; [apply T9|apply T10|apply T13]; right; auto. }
    rewrite E. unfold decode_component. apply decode_spec.
    - clear -R1. induction x as [|b x IH]; simpl; auto. destruct R1 as [B R1]. apply Forall_app. split; [|auto].
      destruct (fragment_escaped b) eqn:F.
      + unfold escape. assert (HX : forall n, n < 16 -> hex_digit n < 128) by (intros n L; unfold hex_digit; destruct (n <? 10); lia).
        constructor; [lia|]. constructor; [apply HX; apply N.div_lt_upper_bound; lia|]. constructor; auto. apply HX. apply N.mod_lt. lia.
      + constructor; auto. unfold fragment_escaped in F. repeat (apply orb_false_iff in F; destruct F as [F ?]).
        match goal with H : (126 <? b) = false |- _ => apply N.ltb_ge in H; lia end.
    - exists x. split; [|split; auto]. clear -R1 P. induction x as [|b x IH]; simpl; [constructor|]. destruct R1 as [B R1].
      assert (IH1 : unescapes (flat_map (fun b => if fragment_escaped b then escape b else [b]) x) x) by (apply IH; auto; intros Z; apply P; right; auto).
      destruct (fragment_escaped b) eqn:F.
      + unfold escape. cbn [app]. replace b with (16 * (b / 16) + b mod 16) at 3 by (symmetry; apply N.div_mod; lia).
        assert (HX : forall n, n < 16 -> hex_of (hex_digit n) n) by (intros n L; unfold hex_digit, hex_of; destruct (N.ltb_spec n 10); lia).
        apply u_byte; auto; apply HX; [apply N.div_lt_upper_bound; lia|apply N.mod_lt; lia].
      + cbn [app]. apply u_char; auto. intros ->. apply P. left; auto.
  Qed.

  (** *** C67, the part for hash routers.  Full statement: after [set] the location stands for the route and an observed
      router has it.  Proved for texts that the hash keeps, when the fragment before can be decoded and the router is up to
      date.  Missing: other texts (with '%' for instance), and the rest; see the refutations. *)
  Theorem C67_hash_partial w i x g :
    reachable w -> observed false i w -> get_hash (w_loc w) = Some g -> route i w = Some (from g) ->
    hash_text (to x) -> from (to x) = x ->
    let w1 := step w (SetRoute _ i x) in get_hash (w_loc w1) = Some (to x) /\ l_rest (w_loc w1) = l_rest (w_loc w) /\ route i w1 = Some x.
  Proof.
    intros RE (r & N & H & R) G V HT FT w1. apply inv_reachable in RE. destruct (r_cb r) as [id|] eqn:RC; [|congruence].
    unfold w1. cbn [RouterModel.step]. rewrite N, H. unfold RouterModel.push_hash. rewrite G.
    destruct (bytes_eqb_spec g (to x)) as [->|NE].
    - rewrite G. repeat split; auto. congruence.
    - set (w2 := set_location_hash T (to x) w). unfold trigger_hash.
      assert (I2 : inv w2) by (unfold w2, set_location_hash; destruct (bytes_eqb _ _); auto; eapply inv_same; eauto).
      assert (N2 : nth_error (w_routers w2) i = Some r) by (unfold w2, set_location_hash; destruct (bytes_eqb _ _); auto).
      assert (L2 : get_hash (w_loc w2) = Some (to x) /\ l_rest (w_loc w2) = l_rest (w_loc w)).
      { unfold w2, set_location_hash. destruct (bytes_eqb_spec (fragment_of (to x)) (l_frag (w_loc w))) as [E|E].
        - split; auto. unfold get_hash. rewrite <- E. apply hash_round. auto.
        - cbn. split; auto. apply hash_round. auto. }
      destruct L2 as [L2 L3]. destruct (trigger_page get_hash (w_hash w2) w2) as (E & _). rewrite E. split; auto. split; auto.
      destruct (trigger_own get_hash false i r id w2 I2 N2 H RC) as (r1 & N3 & _ & _ & V3 & _).
      unfold route. rewrite N3. simpl. rewrite (V3 _ L2). congruence.
  Qed.

  (** *** C67, the part for history routers: for routes whose text is an address of the site as the browser writes it. *)
  Theorem C67_history_partial w i x l a :
    reachable w -> observed true i w -> shows (w_loc w) a -> route i w = Some (from a) ->
    resolve (w_loc w) (to x) = Some l -> shows l (to x) -> from (to x) = x ->
    let w1 := step w (SetRoute _ i x) in shows (w_loc w1) (to x) /\ route i w1 = Some x.
  Proof.
    intros RE (r & N & H & R) SA V RS GH FT w1. apply shows_is in SA, GH. subst a.
    cut (get_history (w_loc w1) = to x /\ route i w1 = Some x).
    { intros (A & B). split; auto. rewrite <- A. apply shows_get. } apply inv_reachable in RE. destruct (r_cb r) as [id|] eqn:RC; [|congruence].
    unfold w1. cbn [RouterModel.step]. rewrite N, H. unfold RouterModel.push_history.
    destruct (bytes_eqb_spec (get_history (w_loc w)) (to x)) as [E|NE]; [split; auto; congruence|]. rewrite RS. unfold trigger_history.
    set (w2 := move T l 0 0 w). assert (I2 : inv w2) by (eapply inv_same; eauto).
    destruct (trigger_page (fun l => Some (get_history l)) (w_hist w2) w2) as (E & _). rewrite E. split; auto.
    destruct (trigger_own (fun l => Some (get_history l)) true i r id w2 I2 N H RC) as (r1 & N3 & _ & _ & V3 & _).
    unfold route. rewrite N3. simpl. rewrite (V3 _ eq_refl). cbn. congruence.
  Qed.

  (** A fragment that cannot be decoded: setting a route of a hash router does nothing, ever. *)
  Theorem C67_stuck w i x r : nth_error (w_routers w) i = Some r -> r_history r = false -> get_hash (w_loc w) = None ->
    step w (SetRoute _ i x) = w.
  Proof. intros N H G. cbn [RouterModel.step]. rewrite N, H. unfold RouterModel.push_hash. rewrite G. auto. Qed.

  (** ** Links *)

  Lemma starts_with_app p s : starts_with p s = true <-> exists r, s = p ++ r.
  Proof.
    revert s. induction p as [|x p IH]; intros s; simpl; [split; eauto|]. destruct s as [|y s]; [split; [discriminate|intros (r & E); discriminate]|].
    rewrite andb_true_iff, N.eqb_eq, IH. split.
    - intros [-> (r & ->)]. eauto.
    - intros (r & E). injection E as -> ->. eauto.
  Qed.

  (** *** C68, the part that holds.  Full statement: a plain click on a link to a page of the site changes the location
      without loading a page, and the routers follow; links to elsewhere are left to the browser.  Proved for links that
      are not to elsewhere, and for those to elsewhere that begin with "http://", "https://", "//" or "#".  Missing: other
      links; see [C68_refuted]. *)
  Theorem C68_inside w h l : ~ elsewhere h -> reachable w -> resolve (w_loc w) h = Some l -> ~ shows (w_loc w) h ->
    exists w1, click T from eqb resolve (Some h) w = (w1, true) /\ w_loc w1 = l /\
      forall i a, observed true i w -> shows l a -> route i w1 = Some (from a).
  Proof.
    intros NE RE RS NS. assert (NH : get_history (w_loc w) <> h) by (intros <-; apply NS, shows_get). clear NS. apply inv_reachable in RE. unfold click.
    assert (S : forall p, starts_with p h = true -> exists r, h = p ++ r) by (intros p X; apply starts_with_app; auto).
    assert (E : starts_with (str "#") h || starts_with (str "http://") h || starts_with (str "https://") h || starts_with (str "//") h = false).
    { assert (HS : forall s r, h = s ++ r -> s = str "http://" \/ s = str "https://" -> has_scheme h).
      { intros s r Eh [->| ->].
        - exists 104, (str "ttp"), (47 :: 47 :: r). split; [exact Eh|]. split; [right; lia|].
          apply Forall_forall. intros b I. vm_compute in I. unfold scheme_char, letter. repeat (destruct I as [<-|I]; [lia|]). contradiction.
        - exists 104, (str "ttps"), (47 :: 47 :: r). split; [exact Eh|]. split; [right; lia|].
          apply Forall_forall. intros b I. vm_compute in I. unfold scheme_char, letter. repeat (destruct I as [<-|I]; [lia|]). contradiction. }
      repeat (apply orb_false_iff; split).
      - destruct (starts_with (str "#") h) eqn:X; auto. exfalso. destruct (S _ X) as (r & R). apply NE. right. right. exists r. exact R.
      - destruct (starts_with (str "http://") h) eqn:X; auto. exfalso. destruct (S _ X) as (r & R). apply NE. left. eauto.
      - destruct (starts_with (str "https://") h) eqn:X; auto. exfalso. destruct (S _ X) as (r & R). apply NE. left. eauto.
      - destruct (starts_with (str "//") h) eqn:X; auto. exfalso. destruct (S _ X) as (r & R). apply NE. right. left. exists r. exact R. }
    rewrite E. eexists. split; [reflexivity|]. unfold RouterModel.push_history.
    destruct (bytes_eqb_spec (get_history (w_loc w)) h) as [Z|_]; [congruence|]. rewrite RS. unfold trigger_history.
    set (w2 := move T l 0 0 w). assert (I2 : inv w2) by (eapply inv_same; eauto).
    destruct (trigger_page (fun l => Some (get_history l)) (w_hist w2) w2) as (Ep & _). rewrite Ep. split; auto.
    intros i a (r & N & H & R) SA. apply shows_is in SA. subst a. destruct (r_cb r) as [id|] eqn:RC; [|congruence].
    destruct (trigger_own (fun l => Some (get_history l)) true i r id w2 I2 N H RC) as (r1 & N3 & _ & _ & V3 & _).
    unfold route. rewrite N3. simpl. rewrite (V3 _ eq_refl). auto.
  Qed.
  Theorem C68_outside_partial w h : elsewhere h ->
    (exists p r, h = str p ++ r /\ In p ["http://"; "https://"; "//"; "#"]) -> click T from eqb resolve (Some h) w = (w, false).
  Proof.
    intros _ (p & r & -> & I). unfold click.
    assert (E : starts_with (str p) (str p ++ r) = true) by (apply starts_with_app; eauto).
    destruct I as [<-|[<-|[<-|[<-|[]]]]]; rewrite E, ?orb_true_r; auto.
  Qed.
  (** Any other link to elsewhere is taken from the browser, and does nothing if its address is not one of the site. *)
  Theorem C68_dead w h : (forall p r, h = str p ++ r -> ~ In p ["http://"; "https://"; "//"; "#"]) -> ~ shows (w_loc w) h ->
    resolve (w_loc w) h = None -> click T from eqb resolve (Some h) w = (w, true).
  Proof.
    intros NP NS RS. assert (NE : get_history (w_loc w) <> h) by (intros <-; apply NS, shows_get). clear NS. unfold click.
    assert (E : forall p, In p ["http://"; "https://"; "//"; "#"] -> starts_with (str p) h = false).
    { intros p I. destruct (starts_with (str p) h) eqn:X; auto. apply starts_with_app in X. destruct X as (r & X). exfalso. eapply NP; eauto. }
    rewrite !E by (simpl; tauto). cbn [orb]. f_equal. unfold RouterModel.push_history.
    destruct (bytes_eqb_spec (get_history (w_loc w)) h) as [Z|_]; [congruence|]. rewrite RS. auto.
  Qed.

  (** Dependents are told of changes only: never of the value they have (C04 and C05 take it from there). *)
  Fixpoint changes (v : T) (l : list T) (last : T) : Prop :=
    match l with [] => v = last | x :: t => v <> x /\ changes x t last end.
  Hypothesis eqb_spec : forall a b, eqb a b = true <-> a = b.

  Lemma changes_snoc v l last x : changes v l last -> last <> x -> changes v (l ++ [x]) x.
  Proof. revert v. induction l as [|y l IH]; intros v; simpl; [intros -> NE; auto|intros [A B] NE; split; auto]. Qed.
  Lemma put_changes v x r : changes v (r_told r) (r_value r) -> changes v (r_told (put T eqb x r)) (r_value (put T eqb x r)).
  Proof.
    intros C. unfold put. cbn. destruct (eqb (r_value r) x) eqn:E; [apply eqb_spec in E; subst; auto|].
    eapply changes_snoc; eauto. intros X. apply eqb_spec in X. congruence.
  Qed.
  Definition told_ok (w : world) : Prop := Forall (fun r => exists v, changes v (r_told r) (r_value r)) (w_routers w).
  Lemma told_trigger get ids : forall w, told_ok w -> told_ok (trigger get ids w).
  Proof.
    induction ids as [|id ids IH]; intros w W; cbn [RouterModel.trigger]; auto. destruct (get (w_loc w)); auto. apply IH.
    unfold told_ok, callback in *. cbn [RouterModel.w_routers]. apply Forall_map. eapply Forall_impl; [|exact W].
    intros r (v & V). exists v. destruct (is_cb T id r); auto. apply put_changes; auto.
  Qed.
  Lemma told_same w w1 : told_ok w -> w_routers w1 = w_routers w -> told_ok w1.
  Proof. unfold told_ok. intros W ->. auto. Qed.
  Lemma told_set w i (r : router) : told_ok w -> (exists v, changes v (r_told r) (r_value r)) -> Forall (fun r => exists v, changes v (r_told r) (r_value r)) (set_nth i r (w_routers w)).
  Proof.
    unfold told_ok. intros W R. revert i. induction W as [|x l X W IH]; intros [|i]; simpl; auto.
  Qed.
  Lemma told_step w o : told_ok w -> told_ok (step w o).
  Proof.
    intros W. assert (PH : forall u, told_ok (push_history u w)).
    { intros u. unfold RouterModel.push_history. destruct (bytes_eqb _ _); auto. destruct (resolve _ _); auto. apply told_trigger. eapply told_same; eauto. }
    destruct o as [h|i|i|i t|u|l| |]; cbn [RouterModel.step]; auto.
    - unfold told_ok. cbn. apply Forall_app. split; auto. constructor; auto. eexists. cbn. reflexivity.
    - destruct (nth_error (w_routers w) i) as [[h v [c|] told]|] eqn:NI; auto. unfold told_ok. cbn [RouterModel.w_routers]. apply told_set; auto.
      apply (proj1 (Forall_forall _ _) W (Router T h v None told)). eapply nth_error_In; eauto.
    - destruct (nth_error (w_routers w) i) as [[h v [c|] told]|] eqn:NI; auto. unfold told_ok. cbn [RouterModel.w_routers]. apply told_set; auto.
      apply (proj1 (Forall_forall _ _) W (Router T h v (Some c) told)). eapply nth_error_In; eauto.
    - destruct (nth_error (w_routers w) i) as [r|]; auto. destruct (r_history r); auto. unfold RouterModel.push_hash.
      destruct (get_hash _); auto. destruct (bytes_eqb _ _); auto. apply told_trigger. unfold set_location_hash. destruct (bytes_eqb _ _); auto.
    - destruct (w_pop w); auto. apply told_trigger. eapply told_same; eauto.
    - destruct (w_change w); auto. apply told_trigger. eapply told_same; eauto.
  Qed.
  Theorem C66_told w i r : reachable w -> nth_error (w_routers w) i = Some r -> exists v, changes v (r_told r) (r_value r).
  Proof.
    intros (l & ops & ->) N. assert (W : told_ok (run (start l) ops)).
    { clear N. assert (W0 : told_ok (start l)) by constructor. revert W0. generalize (start l). induction ops as [|o ops IH]; intros w W; simpl; auto.
      apply IH. apply told_step. auto. }
    apply (proj1 (Forall_forall _ _) W). eapply nth_error_In; eauto.
  Qed.

End Routers.

(** ** A concrete application: routes are texts, addresses are paths with an optional fragment. *)
Module RouterDemo.
  Definition resolve (l : loc) (u : bytes) : option loc :=
    match u with
    | 47 :: 47 :: _ => None
    | 47 :: _ => let '(p, f) := cut 35 u in Some (Loc p (match f with Some f => f | None => [] end))
    | _ => None
    end.
  Definition run := run bytes (fun s => s) (fun s => s) bytes_eqb resolve.
  Definition step := step bytes (fun s => s) (fun s => s) bytes_eqb resolve.
  Definition click := click bytes (fun s => s) bytes_eqb resolve.
  Definition home : loc := Loc (str "/a") (str "one").
  Definition begin := start bytes home.
  Definition op := op bytes.
  (** A history router and a hash router, both observed. *)
  Definition both : list op := [New _ true; New _ false; Observe _ 0; Observe _ 1].
  Definition at_both := run begin both.
  Definition new_history : op := New bytes true.
  Definition new_hash : op := New bytes false.
  Definition observe (i : nat) : op := Observe bytes i.
  Definition unobserve (i : nat) : op := Unobserve bytes i.
  Definition set_route (i : nat) (r : bytes) : op := SetRoute bytes i r.
  Definition push_path (u : bytes) : op := PushPath bytes u.
  Definition go (l : loc) : op := Go bytes l.
  Definition fire_pop : op := FirePop bytes.
  Definition fire_change : op := FireChange bytes.
  Lemma reach ops : reachable bytes (fun s => s) (fun s => s) bytes_eqb resolve (run begin ops).
  Proof. exists home, ops. reflexivity. Qed.
  Lemma seen0 : observed bytes true 0 at_both.
  Proof. eexists. split; [reflexivity|]. split; [reflexivity|discriminate]. Qed.
  Lemma seen1 : observed bytes false 1 at_both.
  Proof. eexists. split; [reflexivity|]. split; [reflexivity|discriminate]. Qed.
End RouterDemo.
Import RouterDemo.

(** The user goes to another page, the application sets a hash and replaces a path. *)
Example C66_history_case :
  let ops := [go (Loc (str "/b") (str "x")); fire_pop; set_route 1 (str "y z"); fire_change; fire_pop] in
  route bytes 0 (run at_both ops) = Some (str "/b#y%20z") /\ route bytes 1 (run at_both ops) = Some (str "y z").
Proof.
  intros ops. split; [|vm_compute; reflexivity].
  apply (C66_history_partial bytes (fun s => s) (fun s => s) bytes_eqb resolve at_both 0 ops (str "/a#one") (str "/b#y%20z"));
    [apply reach|exact seen0|exact (shows_fragment (str "/a") 111 (str "ne"))|reflexivity| |reflexivity|].
  - vm_compute. intuition discriminate.
  - exact (shows_fragment (str "/b") 121 (str "%20z")).
Qed.
Example C66_hash_case : let ops := [go (Loc (str "/b") (str "x%41")); fire_pop; push_path (str "/c#x%41"); fire_change] in
  along bytes (fun s => s) (fun s => s) bytes_eqb resolve (hash_quiet bytes (fun s => s) (fun s => s) bytes_eqb resolve 1) at_both ops /\
  route bytes 1 (run at_both ops) = Some (str "xA").
Proof.
  intros ops. assert (A : along bytes (fun s => s) (fun s => s) bytes_eqb resolve (hash_quiet bytes (fun s => s) (fun s => s) bytes_eqb resolve 1) at_both ops).
  { repeat (split; [split; [discriminate|split; [exists (str "xA"); vm_compute; reflexivity|intros B; first [vm_compute; reflexivity|destruct B]]]|]). exact Logic.I. }
  split; [exact A|].
  destruct (C66_hash_partial bytes (fun s => s) (fun s => s) bytes_eqb resolve at_both 1 ops (str "one")) as (u & U & R);
    [apply reach|exact seen1|reflexivity|reflexivity|exact A|reflexivity|].
  unfold run. rewrite R. vm_compute in U. injection U as <-. reflexivity.
Qed.
Example C66_told_case : exists r, nth_error (w_routers bytes (run at_both [set_route 1 (str "x"); fire_change; fire_pop])) 1 = Some r /\ r_told bytes r = [str "x"].
Proof. eexists. split; reflexivity. Qed.

(** Nothing depends on the router while the location changes: it is never brought up to date, until the next change. *)
Theorem C66_unobserved_refuted : exists ops, let w := run begin ops in
  observed bytes true 0 w /\ w_pop bytes w = O /\ w_change bytes w = O /\
  shows (w_loc bytes w) (str "/b") /\ route bytes 0 w = Some (str "/a#one").
Proof.
  exists [new_history; set_route 0 (str "/b"); observe 0]. split; [eexists; split; [reflexivity|]; split; [reflexivity|discriminate]|].
  do 2 (split; [reflexivity|]). split; [exact (shows_plain (str "/b"))|reflexivity].
Qed.
(** A path with another fragment is pushed (a click on a link): a hash router does not see it. *)
Theorem C66_mixed_refuted : exists ops, let w := run begin ops in
  observed bytes false 0 w /\ w_pop bytes w = O /\ w_change bytes w = O /\
  get_hash (w_loc bytes w) = Some (str "two") /\ route bytes 0 w = Some (str "one").
Proof.
  exists [new_hash; observe 0; push_path (str "/a#two")]. split; [|repeat split]. eexists. split; [reflexivity|]. split; [reflexivity|discriminate].
Qed.
(** The user goes to a fragment with a lone '%': the route stays what it was, and the application cannot leave it. *)
Theorem C66_percent_refuted : exists ops, let w := run begin ops in
  observed bytes false 0 w /\ w_pop bytes w = O /\ w_change bytes w = O /\
  l_frag (w_loc bytes w) = str "100%" /\ route bytes 0 w = Some (str "one") /\ forall x, step w (set_route 0 x) = w.
Proof.
  exists [new_hash; observe 0; go (Loc (str "/a") (str "100%")); fire_pop; fire_change]. 
  split; [eexists; split; [reflexivity|]; split; [reflexivity|discriminate]|]. do 4 (split; [reflexivity|]).
  intros x. unfold step. eapply (C67_stuck bytes (fun s => s) (fun s => s) bytes_eqb resolve); reflexivity.
Qed.

Ltac rust := split; [vm_compute; intuition reflexivity|reflexivity].
Example C67_hash_case : let x := [195; 169; 32; 35; 60] in
  route bytes 1 (step at_both (set_route 1 x)) = Some x /\ get_hash (w_loc bytes (step at_both (set_route 1 x))) = Some x.
Proof.
  intros x. destruct (C67_hash_partial bytes (fun s => s) (fun s => s) bytes_eqb resolve at_both 1 x (str "one")) as (A & _ & B);
    [apply reach|exact seen1|reflexivity|reflexivity| |reflexivity|split; [exact B|exact A]].
  split; [rust|]. vm_compute. intuition discriminate.
Qed.
Example C67_history_case : route bytes 0 (step at_both (set_route 0 (str "/b#c"))) = Some (str "/b#c").
Proof.
  destruct (C67_history_partial bytes (fun s => s) (fun s => s) bytes_eqb resolve at_both 0 (str "/b#c") (Loc (str "/b") (str "c")) (str "/a#one")) as (_ & B);
    [apply reach|exact seen0|exact (shows_fragment (str "/a") 111 (str "ne"))|reflexivity|reflexivity
    |exact (shows_fragment (str "/b") 99 [])|reflexivity|exact B].
Qed.
(** "%41" is read as "A"; "100%" changes the location but not the route. *)
Theorem C67_refuted : exists x y, rust_string x /\ rust_string y /\
  route bytes 1 (step at_both (set_route 1 x)) = Some (str "A") /\ x <> str "A" /\
  route bytes 1 (step at_both (set_route 1 y)) = route bytes 1 at_both /\ l_frag (w_loc bytes (step at_both (set_route 1 y))) = y.
Proof.
  exists (str "%41"), (str "100%"). split; [rust|]. split; [rust|]. split; [reflexivity|]. split; [discriminate|]. split; reflexivity.
Qed.

Example C68_case : ~ elsewhere (str "/b") /\ exists w1, click (Some (str "/b")) at_both = (w1, true) /\ route bytes 0 w1 = Some (str "/b").
Proof.
  assert (NE : ~ elsewhere (str "/b")).
  { intros [(a & s & r & E & L & _)|[(r & E)|(r & E)]]; try discriminate E. change (str "/b") with [47; 98] in E. injection E as <- _. unfold letter in L. lia. }
  split; auto.
  destruct (C68_inside bytes (fun s => s) (fun s => s) bytes_eqb resolve at_both (str "/b") (Loc (str "/b") [])) as (w1 & E & _ & H);
    [exact NE|apply reach|reflexivity|intros X; apply shows_is in X; discriminate X|].
  exists w1. split; [exact E|]. apply (H 0%nat); [exact seen0|exact (shows_plain (str "/b"))].
Qed.
Example C68_outside_case : click (Some (str "https://x.y/")) at_both = (at_both, false).
Proof.
  apply C68_outside_partial.
  - left. exists 104, (str "ttps"), (str "//x.y/"). split; [reflexivity|]. split; [right; lia|].
    apply Forall_forall. intros b I. vm_compute in I. unfold scheme_char, letter. repeat (destruct I as [<-|I]; [lia|]). contradiction.
  - exists "https://", (str "x.y/"). split; [reflexivity|]. simpl. tauto.
Qed.
(** A mail address: the click is taken from the browser, and nothing happens. *)
Theorem C68_refuted : exists h, elsewhere h /\ click (Some h) at_both = (at_both, true).
Proof.
  exists (str "mailto:a@b.c"). split.
  - left. exists 109, (str "ailto"), (str "a@b.c"). split; [reflexivity|]. split; [right; lia|].
    apply Forall_forall. intros b I. vm_compute in I. unfold scheme_char, letter. repeat (destruct I as [<-|I]; [lia|]). contradiction.
  - apply (C68_dead bytes (fun s => s) (fun s => s)); [|intros X; apply shows_is in X; discriminate X|reflexivity]. intros p r E I.
    destruct I as [<-|[<-|[<-|[<-|[]]]]]; discriminate E.
Qed.
