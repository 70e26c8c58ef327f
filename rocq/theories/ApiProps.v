(** C47: every API call reaches the branch of the server written for it.  C51: API calls during server rendering. *)

From Coq Require Import String List NArith ZArith Bool Lia.
From Verif Require Import CodecModel CodecSpec CodecProofs CodecProps FloatModel JsonModel JsonSpec JsonProofs DomWire FetchModel ApiModel.
Import ListNotations.
Local Open Scope string_scope.
Local Open Scope list_scope.

(** The intention: which branch, with which data.  [None]: the server has no branch for the call. *)
Definition intended (c : call) : option handled :=
  match c with
  | CConsole l msg _ _ _ => Some (HLog (str (level_str l)) msg)
  | CCookieGet _ | CCookieGetJson _ | CCookieSet _ _ _ | CCookieSetJson _ _ _ => Some HCookie
  | CIntervalSet _ _ | CIntervalClear _ => Some HInterval
  | CTimeoutSet t cb => Some (HTimeout t cb)
  | CNow => Some HNow
  | CHistoryGet => Some HHistory
  | CHistoryAdd _ => Some HHistoryCallback
  | CFetch cb m u h b => Some (HFetch cb (Request m u h b))
  | CWsRegister _ _ | CWsUnregister _ | CWsSend _ _ => Some HWebsocket
  | CDomBulkUpdate d => Some (HDom d)
  | CIsBrowser => Some HIsBrowser
  | CEnv n => Some (HEnv n)
  | CPlainResponse b => Some (HPlain b)
  | CTimezone | CHistoryBack | CHashGet | CHashPush _ | CHashAdd _ | CHashRemove _ | CHistoryPush _ | CHistoryReplace _
  | CHistoryRemove _ | CRandom _ _ => None
  end.

(** The headers are a map. *)
Definition call_map (c : call) : Prop := match c with CFetch _ _ _ h _ => NoDup (map fst h) | _ => True end.

Lemma dec_strings h : forall acc, NoDup (map fst acc ++ map fst h) ->
  dec_map (fun k => from_json no_env 1 TString ([] ++ [CField k])) acc (map (fun e => (fst e, JString (snd e))) h)
  = JOk (acc ++ map (fun e => (fst e, WStr (snd e))) h).
Proof.
  induction h as [|[k v] h IH]; intros acc ND; simpl; [rewrite app_nil_r; auto|].
  rewrite assoc_insert_fresh.
  - simpl in IH. rewrite IH; rewrite <- ?app_assoc; auto. rewrite map_app, <- app_assoc. auto.
  - simpl in ND. apply NoDup_remove_2 in ND. intros I. apply ND. apply in_or_app; auto.
Qed.

Lemma headers_back h : NoDup (map fst h) -> headers_of (headers_json h) = Some h.
Proof.
  intros ND. unfold headers_of, headers_json.
  rewrite hash_from_id by (rewrite map_map; auto). cbn [from_json].
  change (dec_map _ [] _) with (dec_map (fun k => from_json no_env 1 TString ([] ++ [CField k])) [] (map (fun e => (fst e, JString (snd e))) h)).
  rewrite dec_strings by auto. simpl. f_equal. rewrite map_map. rewrite <- (map_id h) at 2. apply map_ext. intros [k v]; auto.
Qed.

Lemma body_back b : value_body (body_value b) = Some b.
Proof. destruct b as [[]|]; auto. Qed.

(** The answers of all branches. *)
Definition accepts (v : jsval) : list handled := flat_map (fun b => match b v with Some h => [h] | None => [] end) branches.

Lemma accepts_call c : call_map c -> accepts (message c) = match intended c with Some h => [h] | None => [] end.
Proof.
  intros H. destruct c; try reflexivity.
  cbn in H. unfold message, builder, accepts, branches. cbn -[headers_of headers_json value_body body_value].
  rewrite (headers_back _ H), body_back. reflexivity.
Qed.

(** ** C47 *)

Theorem C47_dispatch : forall c h, call_map c -> intended c = Some h -> dispatch (message c) = h.
Proof.
  intros c h H E. pose proof (accepts_call c H) as A. rewrite E in A. unfold dispatch, accepts in *. revert A. generalize branches.
  induction l as [|b bs IH]; simpl; [discriminate|]. destruct (b (message c)); [intros A; inversion A; auto|auto].
Qed.

(** Exactly one branch accepts a supported call, so the order of the branches does not matter; none accepts others. *)
Theorem C47_only_one : forall c, call_map c ->
  length (filter (fun b => match b (message c) with Some _ => true | None => false end) branches) = (match intended c with Some _ => 1 | None => 0 end)%nat.
Proof.
  intros c H. pose proof (accepts_call c H) as A.
  transitivity (length (accepts (message c))); [|rewrite A; destruct (intended c); auto].
  unfold accepts. generalize branches. induction l as [|b bs IH]; simpl; auto. destruct (b (message c)); simpl; auto.
Qed.
Theorem C47_unsupported : forall c, call_map c -> intended c = None -> dispatch (message c) = HUnsupported.
Proof.
  intros c H E. pose proof (accepts_call c H) as A. rewrite E in A. unfold dispatch, accepts in *. revert A. generalize branches.
  induction l as [|b bs IH]; simpl; auto. destruct (b (message c)); [discriminate|auto].
Qed.

(** The same from the bytes handed over: within the limits of the codec (C13), the server reads the message and takes the
    intended branch. *)
Definition call_fits (c : call) : Prop := val_ok (message c) /\ val_small (message c) /\ val_total (message c) < two32.

Lemma message_no_object c : val_no_object (message c).
Proof.
  unfold message. destruct c; unfold builder, d_api, d_get, d_call, d_root; cbn -[str]; repeat split; auto. destruct body as [[]|]; exact Logic.I.
Qed.

Theorem C47_from_bytes : forall c, call_map c -> call_fits c ->
  exists blk v, to_snapshot (message c) = Some blk /\ from_block (w_out blk) = ROk v /\
    dispatch v = match intended c with Some h => h | None => HUnsupported end.
Proof.
  intros c H (K1 & K2 & K3). destruct (C13_value_roundtrip_partial (message c) K1 K2 (message_no_object c) K3) as (blk & E1 & _ & E2).
  exists blk, (message c). split; auto. split; auto. destruct (intended c) eqn:E; [apply C47_dispatch; auto|apply C47_unsupported; auto].
Qed.

Definition a_fetch : call :=
  CFetch 5 (str "POST") (str "http://a/b") [(str "accept", str "x"); (str "content-type", str "y")] (Some (BJson (JList [JTrue]))).
Example C47_case : call_map a_fetch /\ call_fits a_fetch /\ exists h, intended a_fetch = Some h.
Proof.
  split; [|split].
  - simpl. repeat constructor; simpl; intuition discriminate.
  - split; [|split]; [|repeat split; vm_compute; auto|vm_compute; auto].
    unfold a_fetch, message, builder, d_api, d_get, d_call, headers_json, body_value. cbn -[str rust_string]. 
    repeat split; try (vm_compute; tauto); try (apply Logic.I).
    all: try (repeat constructor; simpl; intuition discriminate).
  - eexists; reflexivity.
Qed.

(** Identical messages come from identical calls: no information is lost on the way. *)
Theorem C47_injective : forall c c', call_map c -> call_map c' -> message c = message c' ->
  c = c'.
Proof.
  intros c c' H H' E. unfold message in E. inversion E as [E1]. clear E.
  destruct c, c'; try discriminate E1; try reflexivity; try (inversion E1; subst; reflexivity).
  - destruct l, l0; try discriminate E1; inversion E1; subst; reflexivity.
  - simpl in H, H'.
    assert (Q : VJson (headers_json headers) = VJson (headers_json headers0) /\ body_value body = body_value body0 /\ cb = cb0 /\ method = method0 /\ url = url0).
    { unfold builder, d_api, d_get, d_call in E1. inversion E1; subst. unfold headers_json. repeat split; congruence. }
    destruct Q as (Q1 & Q2 & -> & -> & ->). injection Q1 as Q1.
    assert (Hh : headers_of (headers_json headers) = headers_of (headers_json headers0)) by (unfold headers_json; congruence).
    rewrite !headers_back in Hh by auto. apply (f_equal value_body) in Q2. rewrite !body_back in Q2. congruence.
Qed.

(** ** C51: an API call made while the server renders does not turn the page into an error page. *)

Definition never_panics : Prop := forall url env now c, call_map c -> ~ In EPanic (fst (server_call url env now c)).

Lemma call_dispatch c : call_map c -> dispatch (message c) = match intended c with Some h => h | None => HUnsupported end.
Proof. intros H. destruct (intended c) eqn:E; [apply C47_dispatch; auto|apply C47_unsupported; auto]. Qed.

(** Exactly the time zone and random numbers do. *)
Theorem C51_panics_partial : forall url env now c, call_map c ->
  (In EPanic (fst (server_call url env now c)) <-> c = CTimezone \/ exists a b, c = CRandom a b).
Proof.
  intros url env now c H. unfold server_call. rewrite (call_dispatch c H).
  destruct c; cbn; try (split; [intros [C|[]]; discriminate C|intros [C|(x & y & C)]; discriminate C]);
    try (split; [intros []|intros [C|(x & y & C)]; discriminate C]).
  - destruct (time =? 0)%N; cbn; (split; [intuition discriminate|intros [C|(x & y & C)]; discriminate C]).
  - split; auto.
  - split; eauto.
Qed.
Theorem C51_statement_refuted : ~ never_panics.
Proof. intros H. apply (H [] (fun _ => None) 0%Z CTimezone Logic.I). vm_compute. auto. Qed.
Theorem C51_random_refuted : exists url env now, In EPanic (fst (server_call url env now (CRandom 1 6))).
Proof. exists [], (fun _ => None), 0%Z. vm_compute. auto. Qed.

(** What the supported calls give the application and the message loop. *)
Definition server_meaning (url : bytes) (env : bytes -> option bytes) (now : Z) (c : call) : list effect * answer :=
  match c with
  | CNow => ([], AInt now)
  | CHistoryGet => ([], AString url)
  | CEnv n => ([], AOption (env n))
  | CIsBrowser => ([], ABool false)
  | CFetch cb m u h b => ([EFetch cb (Request m u h b)], AUnit)
  | CDomBulkUpdate d => ([EDom d], AUnit)
  | CPlainResponse b => ([EPlain b], AUnit)
  | CTimeoutSet t cb => (if N.eqb t 0 then [ETimeoutZero cb] else [], AInt 0)
  | CIntervalSet _ _ => ([], AInt 0)
  | CCookieGet _ | CHashGet => ([], AString [])
  | CTimezone => ([EPanic], AInt 0)
  | CRandom a _ => ([EPanic], AInt (Z.of_N a))
  | _ => ([], AUnit)
  end.
Theorem C51_meaning : forall url env now c, call_map c -> server_call url env now c = server_meaning url env now c.
Proof.
  intros url env now c H. unfold server_call. rewrite (call_dispatch c H). destruct c; cbn; auto.
  - rewrite app_nil_r. auto.
  - destruct (env name); auto.
Qed.
Example C51_case : server_call (str "/a") (fun _ => Some (str "v")) 7 a_fetch =
  ([EFetch 5 (Request (str "POST") (str "http://a/b") [(str "accept", str "x"); (str "content-type", str "y")] (Some (BJson (JList [JTrue]))))], AUnit)
  /\ snd (server_call (str "/a") (fun _ => Some (str "v")) 7 (CEnv (str "n"))) = AOption (Some (str "v")).
Proof. vm_compute. auto. Qed.
