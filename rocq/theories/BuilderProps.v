(** C105: a request is what its builder was told last, and its answer counts for the time asked for.

    The specification reads a chain of calls from its end: the last call about a header, the body or the time to live decides. *)
From Coq Require Import String List NArith Bool Lia.
From Verif Require Import CodecModel CodecProofs JsonModel DomWire BridgeProps FetchModel ApiModel ClockModel WireModel WireSpec WireProps BuilderModel.
Import ListNotations.
Local Open Scope string_scope.
Local Open Scope list_scope.
Local Open Scope N_scope.

(** ** Specification *)

(** What a call says about the header [n]: a value, that there is none, or nothing. *)
Inductive says_header (n : bytes) : op -> option bytes -> Prop :=
| sy_set v : says_header n (SetHeader n v) (Some v)
| sy_bearer t : n = str "Authorization" -> says_header n (BearerAuth t) (Some (str "Bearer " ++ t))
| sy_all h v : In (n, v) h -> says_header n (Headers h) (Some v)
| sy_none h : (forall v, ~ In (n, v) h) -> says_header n (Headers h) None.
(** About the body, and about the time to live in seconds. *)
Inductive says_body : op -> fbody -> Prop := sb_body b : says_body (Body b) b | sb_json j : says_body (BodyJson j) (BJson j).
Inductive says_ttl : op -> N -> Prop :=
| st_s k : says_ttl (TtlSeconds k) k | st_m k : says_ttl (TtlMinutes k) (60 * k) | st_h k : says_ttl (TtlHours k) (3600 * k)
| st_d k : says_ttl (TtlDays k) (86400 * k).
(** The last call of a chain that says something says [x]. *)
Definition last_says {X} (P : op -> X -> Prop) (ops : list op) (x : X) : Prop :=
  exists before o after, ops = before ++ o :: after /\ P o x /\ forall o1 y, In o1 after -> ~ P o1 y.
(** The maps given to [headers] are maps. *)
Definition maps (ops : list op) : Prop := forall h, In (Headers h) ops -> NoDup (map fst h).

(** ** Proofs *)

Lemma eqb_iff a b : bytes_eqb a b = true <-> a = b.
Proof. destruct (bytes_eqb_spec a b); split; intros; congruence. Qed.

Lemma insert_in m n v : NoDup (map fst m) ->
  NoDup (map fst (insert m n v)) /\ forall k w, In (k, w) (insert m n v) <-> (k = n /\ w = v) \/ (k <> n /\ In (k, w) m).
Proof.
  induction m as [|(k0, w0) t IH]; intros D.
  - cbn. split; [constructor; [intros []|constructor]|]. intros k w. split; [intros [E|[]]; injection E as <- <-; auto|intros [(-> & ->)|(_ & [])]; auto].
  - inversion D as [|x y Ni D1]; subst. destruct (IH D1) as (D2 & I2). cbn [insert]. destruct (bytes_eqb_spec k0 n) as [->|Ne].
    + split; [exact D|]. intros k w. cbn [In]. split.
      * intros [E|I3]; [injection E as <- <-; auto|]. right. split; [|auto]. intros ->. apply Ni. apply (in_map fst) in I3. exact I3.
      * intros [(-> & ->)|(N1 & [E|I3])]; auto. injection E as <- <-. contradiction.
    + split.
      * cbn. constructor; [|exact D2]. intros C. apply in_map_iff in C as ((k, w) & E & I3). cbn in E. subst k. apply I2 in I3 as [(-> & _)|(_ & I3)]; [auto|].
        apply Ni. apply (in_map fst) in I3. exact I3.
      * intros k w. cbn [In]. rewrite I2. split.
        -- intros [E|[A|(A & B)]]; auto. injection E as <- <-. auto.
        -- intros [A|(A & [E|B])]; auto.
Qed.
Lemma get_in m n v : NoDup (map fst m) -> (get m n = Some v <-> In (n, v) m).
Proof.
  induction m as [|(k0, w0) t IH]; intros D; cbn; [split; [discriminate|intros []]|]. inversion D as [|x y Ni D1]; subst.
  destruct (bytes_eqb_spec k0 n) as [->|Ne].
  - split; [intros E; injection E as ->; auto|]. intros [E|I3]; [injection E as ->; auto|]. exfalso. apply Ni. apply (in_map fst) in I3. exact I3.
  - rewrite (IH D1). split; auto. intros [E|I3]; auto. injection E as -> _. contradiction.
Qed.

(** A chain in two parts. *)
Lemma build_app checks x y : forall b, BuilderModel.build checks b (x ++ y) = match BuilderModel.build checks b x with Some b1 => BuilderModel.build checks b1 y | None => None end.
Proof. induction x as [|o x IH]; intros b; cbn; auto. destruct (apply checks b o); auto. Qed.

Lemma apply_headers checks b o b1 : apply checks b o = Some b1 -> NoDup (map fst (b_headers b)) -> (forall h, o = Headers h -> NoDup (map fst h)) ->
  NoDup (map fst (b_headers b1)) /\
  (forall n x, says_header n o x -> forall v, In (n, v) (b_headers b1) <-> x = Some v) /\
  (forall n, (forall x, ~ says_header n o x) -> forall v, In (n, v) (b_headers b1) <-> In (n, v) (b_headers b)).
Proof.
  intros A D M.
  assert (forall n0 v0, b_headers b1 = insert (b_headers b) n0 v0 -> (forall n x, says_header n o x -> n = n0 /\ x = Some v0) -> says_header n0 o (Some v0) ->
    NoDup (map fst (b_headers b1)) /\
    (forall n x, says_header n o x -> forall v, In (n, v) (b_headers b1) <-> x = Some v) /\
    (forall n, (forall x, ~ says_header n o x) -> forall v, In (n, v) (b_headers b1) <-> In (n, v) (b_headers b))) as G.
  { intros n0 v0 E S0 S1. destruct (insert_in (b_headers b) n0 v0 D) as (D1 & I1). rewrite E. split; [exact D1|]. split.
    - intros n x Sx v. destruct (S0 n x Sx) as (-> & ->). rewrite I1. split; [intros [(_ & ->)|(C & _)]; [auto|contradiction]|intros Q; injection Q as ->; auto].
    - intros n Nx v. rewrite I1. assert (n <> n0) by (intros ->; exact (Nx _ S1)). split; [intros [(C & _)|(_ & I2)]; [contradiction|auto]|auto]. }
  assert (b_headers b1 = b_headers b -> (forall n x, ~ says_header n o x) ->
    NoDup (map fst (b_headers b1)) /\
    (forall n x, says_header n o x -> forall v, In (n, v) (b_headers b1) <-> x = Some v) /\
    (forall n, (forall x, ~ says_header n o x) -> forall v, In (n, v) (b_headers b1) <-> In (n, v) (b_headers b))) as G0.
  { intros E N1. rewrite E. split; [exact D|]. split; [intros n x Sx; exfalso; exact (N1 _ _ Sx)|tauto]. }
  destruct o as [x|j|t|n v|h|k|k|k|k]; cbn [apply] in A.
  - injection A as <-. apply G0; [reflexivity|]. intros n y Q. inversion Q.
  - injection A as <-. apply G0; [reflexivity|]. intros n y Q. inversion Q.
  - injection A as <-. eapply G; [reflexivity| |].
    + intros n x Q. inversion Q; subst. auto.
    + constructor. reflexivity.
  - injection A as <-. eapply G; [reflexivity| |].
    + intros n1 x Q. inversion Q; subst. auto.
    + constructor.
  - injection A as <-. cbn [set_headers b_headers]. split; [apply M; reflexivity|]. split.
    + intros n x Q v. inversion Q as [|t E|h1 v1 I1|h1 N1]; subst.
      * assert (NoDup (map fst h)) as Dh by (apply M; reflexivity). rewrite <- (get_in h n v Dh). rewrite (proj2 (get_in h n v1 Dh) I1). tauto.
      * split; [intros I1; exfalso; exact (N1 v I1)|discriminate].
    + intros n Nx v. exfalso. destruct (get h n) as [w|] eqn:E.
      * apply get_in in E; [|apply M; reflexivity]. exact (Nx _ (sy_all n h w E)).
      * apply (Nx None). constructor. intros w I1. apply get_in in I1; [congruence|apply M; reflexivity].
  - injection A as <-. apply G0; [reflexivity|]. intros n y Q. inversion Q.
  - unfold set_ttl in A. destruct (mul_u64 checks k 60) as [w|]; [|discriminate]. injection A as <-. apply G0; [reflexivity|]. intros n1 y Q. inversion Q.
  - unfold set_ttl in A. destruct (then_mul checks _ _); [|discriminate]. injection A as <-. apply G0; [reflexivity|]. intros n1 y Q. inversion Q.
  - unfold set_ttl in A. destruct (then_mul checks _ _); [|discriminate]. injection A as <-. apply G0; [reflexivity|]. intros n1 y Q. inversion Q.
Qed.

Lemma build_maps checks ops : forall b b1, BuilderModel.build checks b ops = Some b1 -> NoDup (map fst (b_headers b)) -> maps ops -> NoDup (map fst (b_headers b1)).
Proof.
  induction ops as [|o t IH]; intros b b1 H D M; cbn in H; [injection H as <-; auto|].
  destruct (apply checks b o) as [b2|] eqn:A; [|discriminate]. apply (IH b2 b1 H).
  - apply (apply_headers checks b o b2 A D). intros h ->. apply M. left. reflexivity.
  - intros h I1. apply M. right. exact I1.
Qed.
Lemma build_keeps checks n ops : forall b b1, BuilderModel.build checks b ops = Some b1 -> NoDup (map fst (b_headers b)) -> maps ops ->
  (forall o x, In o ops -> ~ says_header n o x) -> forall v, In (n, v) (b_headers b1) <-> In (n, v) (b_headers b).
Proof.
  induction ops as [|o t IH]; intros b b1 H D M N1 v; cbn in H; [injection H as <-; tauto|].
  destruct (apply checks b o) as [b2|] eqn:A; [|discriminate].
  destruct (apply_headers checks b o b2 A D) as (D2 & _ & K); [intros h ->; apply M; left; reflexivity|].
  rewrite (IH b2 b1 H D2); [apply K; intros x; apply N1; left; reflexivity|intros h I1; apply M; right; exact I1|].
  intros o1 x I1. apply N1. right. exact I1.
Qed.

(** *** C105, headers: the request has a header with a value exactly if the last call about that header says so; without such a call it has none. *)
Theorem C105_header checks m u ops b n : BuilderModel.build checks (new m u) ops = Some b -> maps ops ->
  (forall x, last_says (says_header n) ops x -> forall v, In (n, v) (b_headers b) <-> x = Some v) /\
  ((forall o x, In o ops -> ~ says_header n o x) -> forall v, ~ In (n, v) (b_headers b)).
Proof.
  intros H M. assert (NoDup (map fst (b_headers (new m u)))) as D0 by constructor. split.
  - intros x (before & o & after & -> & So & Na) v. rewrite build_app in H. destruct (BuilderModel.build checks (new m u) before) as [b1|] eqn:H1; [|discriminate].
    cbn in H. destruct (apply checks b1 o) as [b2|] eqn:A; [|discriminate].
    assert (NoDup (map fst (b_headers b1))) as D1.
    { apply (build_maps checks before _ _ H1 D0). intros h I1. apply M. apply in_or_app. left. exact I1. }
    destruct (apply_headers checks b1 o b2 A D1) as (D2 & S2 & _).
    { intros h ->. apply M. apply in_or_app. right. left. reflexivity. }
    rewrite (build_keeps checks n after b2 b H D2); [apply S2; exact So| |exact Na].
    intros h I1. apply M. apply in_or_app. right. right. exact I1.
  - intros N1 v I1. apply (build_keeps checks n ops _ _ H D0 M N1) in I1. destruct I1.
Qed.

(** *** C105, body: the last one given; none without a call. *)
Lemma apply_body checks b o b1 : apply checks b o = Some b1 ->
  (forall x, says_body o x -> b_body b1 = Some x) /\ ((forall x, ~ says_body o x) -> b_body b1 = b_body b).
Proof.
  intros A. destruct o as [x|j|t|n v|h|k|k|k|k]; cbn [apply] in A;
    try (unfold set_ttl in A; match type of A with option_map _ ?e = _ => destruct e; [|discriminate] end);
    injection A as <-; (split; [intros y Q; inversion Q; subst; try reflexivity|intros N1; cbn; try reflexivity]).
  - exfalso. exact (N1 _ (sb_body x)).
  - exfalso. exact (N1 _ (sb_json j)).
Qed.
Theorem C105_body checks m u ops b : BuilderModel.build checks (new m u) ops = Some b ->
  b_method b = m /\ b_url b = u /\
  (forall x, last_says says_body ops x -> b_body b = Some x) /\ ((forall o x, In o ops -> ~ says_body o x) -> b_body b = None).
Proof.
  assert (forall ops b0 b, BuilderModel.build checks b0 ops = Some b -> (forall o x, In o ops -> ~ says_body o x) -> b_body b = b_body b0) as K.
  { clear. induction ops as [|o t IH]; intros b0 b H N1; cbn in H; [injection H as <-; auto|]. destruct (apply checks b0 o) as [b2|] eqn:A; [|discriminate].
    rewrite (IH b2 b H); [|intros; apply N1; right; auto]. apply (apply_body checks b0 o b2 A). intros x. apply N1. left. reflexivity. }
  assert (forall ops b0 b, BuilderModel.build checks b0 ops = Some b -> b_method b = b_method b0 /\ b_url b = b_url b0) as MU.
  { clear. induction ops as [|o t IH]; intros b0 b H; cbn in H; [injection H as <-; auto|]. destruct (apply checks b0 o) as [b2|] eqn:A; [|discriminate].
    destruct (IH b2 b H) as (-> & ->). destruct o as [x|j|t0|n v|h|k|k|k|k]; cbn [apply] in A;
      try (unfold set_ttl in A; match type of A with option_map _ ?e = _ => destruct e; [|discriminate] end); injection A as <-; auto. }
  intros H. destruct (MU _ _ _ H) as (E1 & E2). split; [exact E1|]. split; [exact E2|]. split; [|intros N1; rewrite (K _ _ _ H N1); reflexivity].
  intros x (before & o & after & -> & So & Na). rewrite build_app in H. destruct (BuilderModel.build checks (new m u) before) as [b1|]; [|discriminate].
  cbn in H. destruct (apply checks b1 o) as [b2|] eqn:A; [|discriminate]. rewrite (K _ _ _ H Na). apply (apply_body checks b1 o b2 A). exact So.
Qed.

(** *** C105, time to live *)

(** The times given in a chain fit: in milliseconds, and added to [now], they are below 2^64. *)
Definition fits (now : N) (ops : list op) : Prop := forall o s, In o ops -> says_ttl o s -> now + s * 1000 < 18446744073709551616.

Lemma mul_fits checks a b : a * b < 18446744073709551616 -> mul_u64 checks a b = Some (a * b).
Proof. intros L. unfold mul_u64. rewrite (proj2 (N.ltb_lt _ _) L). reflexivity. Qed.
Lemma apply_ttl checks now b o : (forall s, says_ttl o s -> now + s * 1000 < 18446744073709551616) -> exists b1, apply checks b o = Some b1 /\
  (forall s, says_ttl o s -> b_ttl b1 = Some s) /\ ((forall s, ~ says_ttl o s) -> b_ttl b1 = b_ttl b).
Proof.
  intros F. destruct o as [x|j|t|n v|h|k|k|k|k]; cbn [apply].
  1-5: eexists; split; [reflexivity|]; split; [intros s Q; inversion Q|reflexivity].
  - eexists. split; [reflexivity|]. split; [intros s Q; inversion Q; subst; reflexivity|]. intros N1. exfalso. exact (N1 _ (st_s k)).
  - pose proof (F _ (st_m k)). rewrite (mul_fits checks k 60) by lia. eexists. split; [reflexivity|].
    split; [intros s Q; inversion Q; subst; cbn [b_ttl]; f_equal; lia|]. intros N1. exfalso. exact (N1 _ (st_m k)).
  - pose proof (F _ (st_h k)). rewrite (mul_fits checks k 60) by lia. unfold then_mul. rewrite (mul_fits checks (k * 60) 60) by lia.
    eexists. split; [reflexivity|]. split; [intros s Q; inversion Q; subst; cbn [b_ttl]; f_equal; lia|]. intros N1. exfalso. exact (N1 _ (st_h k)).
  - pose proof (F _ (st_d k)). rewrite (mul_fits checks k 24) by lia. unfold then_mul. rewrite (mul_fits checks (k * 24) 60) by lia.
    rewrite (mul_fits checks (k * 24 * 60) 60) by lia. eexists. split; [reflexivity|].
    split; [intros s Q; inversion Q; subst; cbn [b_ttl]; f_equal; lia|]. intros N1. exfalso. exact (N1 _ (st_d k)).
Qed.
Lemma build_ttl checks now ops : forall b, fits now ops -> exists b1, BuilderModel.build checks b ops = Some b1 /\
  (forall s, last_says says_ttl ops s -> b_ttl b1 = Some s) /\ ((forall o s, In o ops -> ~ says_ttl o s) -> b_ttl b1 = b_ttl b).
Proof.
  induction ops as [|o t IH]; intros b F.
  - exists b. split; [reflexivity|]. split; [|reflexivity]. intros s (before & o & after & E & _). destruct before; discriminate.
  - destruct (apply_ttl checks now b o) as (b2 & A & S2 & K2); [intros s Q; apply (F o s); [left; reflexivity|exact Q]|].
    destruct (IH b2) as (b1 & H1 & S1 & K1); [intros o1 s I1; apply F; right; exact I1|].
    exists b1. split; [cbn; rewrite A; exact H1|]. split.
    + intros s (before & o0 & after & E & So & Na). destruct before as [|o1 before]; injection E as -> ->.
      * rewrite (K1 Na). apply S2. exact So.
      * apply S1. exists before, o0, after. auto.
    + intros N1. rewrite K1; [apply K2; intros s; apply N1; left; reflexivity|]. intros o1 s I1. apply N1. right. exact I1.
Qed.

(** The part that holds.  Full statement: an answer that came at [now] counts as fresh exactly as long as the last call about the time to live says (at most
    that many seconds, minutes, hours or days have passed), and without such a call for ever; whatever times are given.  Proved when the times fit into 64
    bits of milliseconds; what is missing is refuted below. *)
Theorem C105_ttl_partial checks m u ops now : fits now ops -> exists b e, BuilderModel.build checks (new m u) ops = Some b /\ expiry checks b now = Some e /\
  (forall s, last_says says_ttl ops s -> forall passed, stale (now + passed) e = false <-> passed <= s * 1000) /\
  ((forall o s, In o ops -> ~ says_ttl o s) -> forall later, stale later e = false).
Proof.
  intros F. destruct (build_ttl checks now ops (new m u) F) as (b & H & S1 & K1). exists b. unfold expiry.
  destruct (b_ttl b) as [s|] eqn:E.
  - assert (now + s * 1000 < 18446744073709551616) as L.
    { clear - F E H. assert (forall ops b0 b, BuilderModel.build checks b0 ops = Some b -> fits now ops -> (forall s, b_ttl b0 = Some s -> now + s * 1000 < 18446744073709551616) ->
        forall s, b_ttl b = Some s -> now + s * 1000 < 18446744073709551616) as G.
      { clear. induction ops as [|o t IH]; intros b0 b H F F0 s E; cbn in H; [injection H as <-; auto|].
        destruct (apply_ttl checks now b0 o) as (b2 & A & S2 & K2); [intros x Q; apply (F o x); [left; reflexivity|exact Q]|]. rewrite A in H.
        apply (IH b2 b H); [intros o1 x I1; apply F; right; exact I1| |exact E]. intros x Ex.
        destruct o as [y|j|t0|n v|h|k|k|k|k].
        1-5: apply F0; rewrite <- Ex; symmetry; apply K2; intros z Q; inversion Q.
        - rewrite (S2 _ (st_s k)) in Ex. injection Ex as <-. apply (F (TtlSeconds k)); [left; reflexivity|constructor].
        - rewrite (S2 _ (st_m k)) in Ex. injection Ex as <-. apply (F (TtlMinutes k)); [left; reflexivity|constructor].
        - rewrite (S2 _ (st_h k)) in Ex. injection Ex as <-. apply (F (TtlHours k)); [left; reflexivity|constructor].
        - rewrite (S2 _ (st_d k)) in Ex. injection Ex as <-. apply (F (TtlDays k)); [left; reflexivity|constructor]. }
      apply (G ops (new m u) b H F); [intros x Q; discriminate|exact E]. }
    unfold add_duration. rewrite N.mod_small by lia. unfold add_u64. rewrite (proj2 (N.ltb_lt _ _) L). eexists. split; [exact H|]. split; [reflexivity|]. split.
    + intros s1 Ls passed. pose proof (S1 _ Ls) as E1. injection E1 as <-. cbn [stale]. unfold is_expire. rewrite N.ltb_ge. split; intros; lia.
    + intros N1. pose proof (K1 N1) as E1. discriminate.
  - exists None. split; [exact H|]. split; [reflexivity|]. split; [|reflexivity]. intros s Ls. pose proof (S1 _ Ls) as E1. discriminate.
Qed.

(** u64::MAX seconds, meant as for ever: without overflow checks the answer is stale at once, at any time the clock can show after its first second; with them
    the task that stores it panics. *)
Theorem C105_forever_refuted : exists s, s < 18446744073709551616 /\ forall m u, exists b, (forall checks, BuilderModel.build checks (new m u) [TtlSeconds s] = Some b) /\
  (forall now, 1000 <= now < 18446744073709551616 -> expiry true b now = None /\ exists e, expiry false b now = Some e /\ stale now e = true).
Proof.
  exists 18446744073709551615. split; [lia|]. intros m u. eexists. split; [intros checks; reflexivity|]. intros now L.
  unfold expiry, add_duration, set_ttl. cbn [b_ttl option_map]. change ((18446744073709551615 * 1000) mod 18446744073709551616) with 18446744073709550616.
  unfold add_u64. rewrite (proj2 (N.ltb_ge _ _)) by lia. split; [reflexivity|]. eexists. split; [reflexivity|]. cbn [stale]. unfold is_expire. apply N.ltb_lt. lia.
Qed.
(** Many minutes may be a few seconds. *)
Theorem C105_minutes_refuted : exists k, k < 18446744073709551616 /\ forall m u, BuilderModel.build true (new m u) [TtlMinutes k] = None /\
  exists b, BuilderModel.build false (new m u) [TtlMinutes k] = Some b /\ b_ttl b = Some 44.
Proof. exists 307445734561825861. split; [lia|]. intros m u. split; [reflexivity|]. eexists. split; reflexivity. Qed.

(** *** C105, what leaves *)

(** The part that holds, for requests on which the platforms agree (C73): both send the value of the last call about a header.  Missing: C73's exceptions, and
    names that differ in their case only, refuted below. *)
Theorem C105_sent_partial js_num serde_num number_is js_address server_address checks m u ops b n l v :
  BuilderModel.build checks (new m u) ops = Some b -> maps ops -> last_says (says_header n) ops (Some v) -> lower_of n l ->
  plain_request js_num serde_num number_is m u (b_headers b) (b_body b) -> js_address u = true -> server_address u = true ->
  exists r1 r2,
    js_send js_num js_address m u (record (b_headers b)) (denotes (body_value (b_body b))) = Sent r1 /\
    server_send serde_num server_address m u (b_headers b) (b_body b) = Sent r2 /\
    (forall w, In (l, w) (r_headers r1) <-> w = v) /\ (forall w, In (l, w) (r_headers r2) <-> w = v).
Proof.
  intros H M Ls Lo P AJ AS. destruct (C105_header checks m u ops b n H M) as (Hd & _). specialize (Hd _ Ls).
  destruct (C73_requests_partial js_num serde_num number_is js_address server_address m u (b_headers b) (b_body b) P AJ AS) as (r1 & r2 & S1 & C1 & S2 & C2).
  exists r1, r2. split; [exact S1|]. split; [exact S2|].
  assert (In (n, v) (b_headers b)) as Iv by (apply Hd; reflexivity).
  destruct P as (_ & (_ & _ & U) & _).
  assert (forall w, asked (b_headers b) l w <-> w = v) as A.
  { intros w. split.
    - intros (k & Ik & Lk). assert (k = n) as -> by (eapply U; eauto). apply Hd in Ik. congruence.
    - intros ->. exists n. auto. }
  assert (forall r, carries number_is m u (b_headers b) (b_body b) r -> forall w, In (l, w) (r_headers r) <-> w = v) as G.
  { intros r (_ & _ & Hh & _) w. rewrite Hh, A. split; [|auto]. intros [E|(_ & N1 & _)]; [exact E|]. exfalso. apply (N1 v). apply A. reflexivity. }
  split; apply G; assumption.
Qed.

(** Names that differ in their case only are one header (RFC 9110, 5.1) but two entries of the builder: the browser sends both values, the first one too, which
    was to be replaced. *)
Theorem C105_case_refuted : exists ops b r, BuilderModel.build true (new (str "GET") WireDemo.url) ops = Some b /\
  ops = [SetHeader (str "authorization") (str "old"); BearerAuth (str "new")] /\ lower_of (str "Authorization") (str "authorization") /\
  WireDemo.sends (str "GET") WireDemo.url (record (b_headers b)) (denotes (body_value (b_body b))) = Sent r /\
  WireDemo.header r (str "authorization") = Some (str "old, Bearer new").
Proof.
  exists [SetHeader (str "authorization") (str "old"); BearerAuth (str "new")]. eexists _, _. split; [reflexivity|]. split; [reflexivity|].
  split; [|split; [vm_compute; reflexivity|reflexivity]].
  repeat (constructor; [cbn; lia|]). constructor.
Qed.

(** ** Examples *)

(** Headers set, replaced as a whole, and set again; two times to live; the last calls count. *)
Definition demo_ops : list op :=
  [SetHeader (str "A") (str "1"); TtlMinutes 5; Headers [(str "B", str "2")]; BearerAuth (str "t"); BodyJson (JString (str "x")); TtlSeconds 3; SetHeader (str "B") (str "4");
   Body (BText (str "y"))].
Example C105_case : exists b, BuilderModel.build true (new (str "POST") (str "/u")) demo_ops = Some b /\ maps demo_ops /\ fits 1700000000000 demo_ops /\
  b_headers b = [(str "B", str "4"); (str "Authorization", str "Bearer t")] /\
  last_says (says_header (str "B")) demo_ops (Some (str "4")) /\ last_says (says_header (str "A")) demo_ops None /\
  last_says says_body demo_ops (BText (str "y")) /\ last_says says_ttl demo_ops 3 /\
  expiry true b 1700000000000 = Some (Some 1700000003000).
Proof.
  eexists. split; [reflexivity|]. split.
  { intros h I1. cbn in I1. repeat (destruct I1 as [E|I1]; [try discriminate|]); [|destruct I1]. injection E as <-. constructor; [intros []|constructor]. }
  split.
  { intros o s I1 Q. cbn in I1. repeat (destruct I1 as [<-|I1]; [inversion Q; subst; lia|]). destruct I1. }
  split; [reflexivity|]. split; [|split; [|split; [|split; [|reflexivity]]]].
  - exists (firstn 6 demo_ops), (SetHeader (str "B") (str "4")), (skipn 7 demo_ops). split; [reflexivity|]. split; [constructor|].
    intros o1 y [<-|[]] Q. inversion Q.
  - exists (firstn 2 demo_ops), (Headers [(str "B", str "2")]), (skipn 3 demo_ops). split; [reflexivity|].
    split; [constructor; intros v [E|[]]; discriminate|]. intros o1 y I1 Q. cbn in I1. repeat (destruct I1 as [<-|I1]; [inversion Q; try discriminate|]). destruct I1.
  - exists (firstn 7 demo_ops), (Body (BText (str "y"))), []. split; [reflexivity|]. split; [constructor|]. intros o1 z [].
  - exists (firstn 5 demo_ops), (TtlSeconds 3), (skipn 6 demo_ops). split; [reflexivity|]. split; [constructor|].
    intros o1 y I1 Q. cbn in I1. repeat (destruct I1 as [<-|I1]; [inversion Q; try discriminate|]). destruct I1.
Qed.

(** A header that was replaced, on a request of C73. *)
Example C105_sent_case :
  let ops := [SetHeader (str "X-Request-Id") (str "old"); BearerAuth (str "t"); BodyJson (JObject [(str "n", JNumber JsonTextProps.Demo.one)]);
              SetHeader (str "X-Request-Id") (str "a b")] in
  exists b, BuilderModel.build true (new (str "POST") WireDemo.url) ops = Some b /\ maps ops /\
    last_says (says_header (str "X-Request-Id")) ops (Some (str "a b")) /\ lower_of (str "X-Request-Id") (str "x-request-id") /\
    plain_request JsonTextProps.Demo.js_num JsonTextProps.Demo.serde_num WireDemo.number_is (str "POST") WireDemo.url (b_headers b) (b_body b).
Proof.
  intros ops. eexists. split; [reflexivity|]. split.
  { intros h I1. cbn in I1. repeat (destruct I1 as [E|I1]; [discriminate|]). destruct I1. }
  split.
  { exists (firstn 3 ops), (SetHeader (str "X-Request-Id") (str "a b")), []. split; [reflexivity|]. split; [constructor|]. intros o1 y []. }
  split; [repeat (constructor; [cbn; lia|]); constructor|]. exact C73_example.
Qed.
