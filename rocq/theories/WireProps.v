(** Requests and responses of the browser and of the server: C73, C74, C75. *)
From Coq Require Import String List NArith Bool Lia ZifyN.
From Verif Require Import CodecModel CodecUtf8 CodecSpec CodecProofs CodecJsModel CodecJsProofs FloatModel DomWire JsonModel JsonProofs BridgeModel BridgeProps
  FetchModel ApiModel JsonTextModel JsonTextSpec JsonTextProofs JsonTextProps WireModel WireSpec.
Import ListNotations.
Local Open Scope string_scope.
Local Open Scope list_scope.
Local Open Scope N_scope.

(** *** Texts *)

Lemma lower1_iff c d : (65 <= c <= 90 /\ d = c + 32) \/ (~ (65 <= c <= 90) /\ d = c) <-> lower1 c = d.
Proof.
  unfold lower1, in_range. destruct (65 <=? c) eqn:A, (c <=? 90) eqn:B; cbn; rewrite ?N.leb_le, ?N.leb_gt in *; split; intros; lia.
Qed.
Lemma lower_iff a b : lower_of a b <-> lower a = b.
Proof.
  unfold lower_of, lower. split.
  - induction 1; cbn; auto. apply lower1_iff in H. congruence.
  - intros <-. induction a; cbn; constructor; auto. apply lower1_iff. auto.
Qed.

Lemma tchar_iff c : tchar c <-> token_char c = true.
Proof.
  unfold tchar, token_char, in_range. rewrite !orb_true_iff, !andb_true_iff, !N.leb_le, existsb_exists.
  change (str "!#$%&'*+-.^_`|~") with [33; 35; 36; 37; 38; 39; 42; 43; 45; 46; 94; 95; 96; 124; 126].
  split.
  - intros [H|[H|[H|H]]]; auto. right. exists c. split; auto. apply N.eqb_refl.
  - intros [[[H|H]|H]|(x & I & E)]; auto. apply N.eqb_eq in E as ->. auto.
Qed.
Lemma name_iff s : name s <-> is_name s = true.
Proof.
  unfold name, is_name. destruct s as [|c s]; [split; [intros [H _]; congruence|discriminate]|].
  rewrite forallb_forall, Forall_forall. split.
  - intros [_ H] x I. apply tchar_iff, H; auto.
  - intro H. split; [discriminate|]. intros x I. apply tchar_iff, H; auto.
Qed.

Lemma tchar_range c : tchar c -> 33 <= c <= 126.
Proof.
  unfold tchar. intros [H|[H|[H|H]]]; try lia.
  change (In c [33; 35; 36; 37; 38; 39; 42; 43; 45; 46; 94; 95; 96; 124; 126]) in H. cbn in H. lia.
Qed.

Lemma name_lower s : name s -> name (lower s).
Proof.
  intros [A B]. split; [destruct s; [congruence|discriminate]|]. unfold lower. rewrite Forall_forall in *. intros x I. apply in_map_iff in I as (y & <- & Y).
  specialize (B y Y). unfold lower1, in_range. destruct (65 <=? y) eqn:E, (y <=? 90) eqn:F; cbn; auto.
  apply N.leb_le in E, F. right. right. left. lia.
Qed.

Lemma lower_lower s : lower (lower s) = lower s.
Proof.
  unfold lower. rewrite map_map. apply map_ext. intro c. unfold lower1, in_range. destruct (65 <=? c) eqn:A, (c <=? 90) eqn:B; cbn; rewrite ?A, ?B; auto.
  apply N.leb_le in A, B. replace (c + 32 <=? 90) with false by (symmetry; apply N.leb_gt; lia). rewrite andb_false_r. auto.
Qed.

Lemma strip_none p s : (forall c t, s = c :: t -> p c = false) -> (forall t c, s = t ++ [c] -> p c = false) -> strip p s = s.
Proof.
  intros A B. unfold strip. assert (D : drop_while p s = s) by (destruct s as [|c t]; auto; cbn; rewrite (A c t eq_refl); auto).
  rewrite D. rewrite <- (rev_involutive s) at 2. f_equal. destruct (rev s) as [|c t] eqn:E; auto. cbn.
  rewrite (B (rev t) c); auto. rewrite <- (rev_involutive s), E. auto.
Qed.

Lemma name_strip s : name s -> strip ascii_space s = s.
Proof.
  intros [_ F]. rewrite Forall_forall in F. assert (G : forall c, In c s -> ascii_space c = false).
  { intros c I. apply F, tchar_range in I. unfold ascii_space, in_range. destruct (9 <=? c) eqn:A, (c <=? 13) eqn:B, (c =? 32) eqn:C; auto;
      rewrite ?N.leb_le, ?N.eqb_eq in *; try lia. }
  apply strip_none; intros; subst; apply G; [left; auto|apply in_or_app; right; left; auto].
Qed.

Lemma ascii_bytes s : Forall (fun c => c < 128) s -> byte_string s = Some s.
Proof. induction 1; cbn; auto. apply N.ltb_lt in H. rewrite H, IHForall. auto. Qed.

Lemma name_bytes s : name s -> byte_string s = Some s.
Proof. intros [_ F]. apply ascii_bytes. eapply Forall_impl; [|exact F]. intros c H. apply tchar_range in H. lia. Qed.

Lemma value_bytes v : value v -> byte_string v = Some v /\ strip http_space v = v /\ js_value_ok v = true /\ value_ok v = true.
Proof.
  intros (F & A & B). split; [apply ascii_bytes; eapply Forall_impl; [|exact F]; cbn; intros; lia|].
  rewrite Forall_forall in F.
  assert (HS : forall c, In c v -> ~ blank c -> http_space c = false).
  { intros c I NB. unfold http_space, blank in *. apply F in I. rewrite !orb_false_iff, !N.eqb_neq. lia. }
  split; [apply strip_none|split].
  - intros c t ->. apply HS; [left; auto|eapply A; eauto].
  - intros t c ->. apply HS; [apply in_or_app; right; left; auto|eapply B; eauto].
  - unfold js_value_ok. apply forallb_forall. intros c I. apply F in I. rewrite negb_true_iff, !orb_false_iff, !N.eqb_neq. lia.
  - unfold value_ok. apply forallb_forall. intros c I. apply F in I. rewrite orb_true_iff, andb_true_iff, negb_true_iff, N.leb_le, N.eqb_neq, N.eqb_eq. lia.
Qed.

(** *** Headers *)

Definition lowered (h : list (bytes * bytes)) : list (bytes * bytes) := map (fun e => (lower (fst e), snd e)) h.

Lemma lowered_in h n v : In (n, v) (lowered h) <-> asked h n v.
Proof.
  unfold lowered, asked. rewrite in_map_iff. split.
  - intros ([k v'] & E & I). cbn in E. injection E as E <-. exists k. split; auto. apply lower_iff. auto.
  - intros (k & I & L). apply lower_iff in L. exists (k, v). cbn [fst snd]. rewrite L. auto.
Qed.

Lemma lowered_nodup h : plain_headers h -> NoDup (map fst (lowered h)).
Proof.
  intros (_ & ND & D). unfold lowered. rewrite map_map. cbn. induction h as [|[k v] h IH]; cbn; constructor.
  - inversion_clear ND. intro I. apply in_map_iff in I as ([k' v'] & E & I). cbn in E. apply H.
    replace k with k'; [apply (in_map fst) in I; auto|].
    apply (D k' v' k v (lower k)); cbn; auto; apply lower_iff; auto.
  - inversion_clear ND. apply IH; auto. intros a b a' b' n I I'. apply (D a b a' b' n); right; auto.
Qed.

Lemma plain_tail e h : plain_headers (e :: h) -> plain_headers h.
Proof.
  intros (A & ND & D). inversion_clear ND. split; [|split; auto].
  - intros k v I. apply (A k v). right. auto.
  - intros a b a' b' n I I'. apply (D a b a' b' n); right; auto.
Qed.

Lemma record_plain h : plain_headers h -> record h = h.
Proof.
  intro P. unfold record. assert (G : forall acc, NoDup (map fst (acc ++ h)) -> fold_left (fun m e => js_assign (fst e) (snd e) m) h acc = acc ++ h).
  { induction h as [|[k v] h IH]; intros acc ND; cbn; [rewrite app_nil_r; auto|].
    destruct P as (A & P2). assert (K : k <> proto_key) by (destruct (A k v) as (_ & _ & K & _); [left; auto|exact K]).
    unfold js_assign at 2. destruct (bytes_eqb_spec k proto_key); [contradiction|].
    rewrite assoc_insert_fresh. { rewrite IH; [rewrite <- app_assoc; auto|apply (plain_tail (k, v)); split; auto|rewrite <- app_assoc; auto]. }
    rewrite map_app in ND. cbn in ND. apply NoDup_remove_2 in ND. intro I. apply ND. apply in_or_app. auto. }
  apply (G []). apply P.
Qed.

Lemma append_fresh n v l : ~ In n (map fst l) -> append_header n v l = l ++ [(n, v)].
Proof.
  induction l as [|[k w] l IH]; cbn; auto. intro N. destruct (bytes_eqb_spec k n); [exfalso; apply N; auto|]. rewrite IH; auto.
Qed.

Lemma new_headers_plain h : plain_headers h -> new_headers h = Some (lowered h).
Proof.
  intro P. unfold new_headers.
  assert (G : forall acc, NoDup (map fst (acc ++ lowered h)) ->
    fold_left (fun acc e => match acc with Some l => js_append l (fst e) (snd e) | None => None end) h (Some acc) = Some (acc ++ lowered h)).
  { induction h as [|[k v] h IH]; intros acc ND; [cbn; rewrite app_nil_r; auto|]. cbn [fold_left fst snd lowered map] in *.
    destruct (proj1 P k v (or_introl eq_refl)) as (N & V & _). unfold js_append at 2. rewrite (name_bytes k N).
    destruct (value_bytes v V) as (V1 & V2 & V3 & _). rewrite V1. cbn zeta. rewrite V2, V3. rewrite (proj1 (name_iff k) N). cbn [andb].
    rewrite append_fresh.
    - rewrite IH; [rewrite <- app_assoc; auto|apply (plain_tail _ _ P)|rewrite <- app_assoc; auto].
    - rewrite map_app in ND. cbn in ND. apply NoDup_remove_2 in ND. intro I. apply ND. apply in_or_app. auto. }
  apply (G []). apply lowered_nodup. auto.
Qed.

Lemma clear_plain h : plain_headers h -> clear_headers h = lowered h.
Proof.
  intro P. unfold clear_headers.
  assert (G : forall acc, NoDup (map fst (acc ++ lowered h)) ->
    fold_left (fun m e => assoc_insert (strip ascii_space (lower (fst e))) (snd e) m) h acc = acc ++ lowered h).
  { induction h as [|[k v] h IH]; intros acc ND; [cbn; rewrite app_nil_r; auto|]. cbn [fold_left fst snd lowered map] in *.
    destruct (proj1 P k v (or_introl eq_refl)) as (N & V & _). rewrite (name_strip (lower k)) by (apply name_lower; auto).
    rewrite assoc_insert_fresh.
    - rewrite IH; [rewrite <- app_assoc; auto|apply (plain_tail _ _ P)|rewrite <- app_assoc; auto].
    - rewrite map_app in ND. cbn in ND. apply NoDup_remove_2 in ND. intro I. apply ND. apply in_or_app. auto. }
  apply (G []). apply lowered_nodup. auto.
Qed.

Lemma starts_iff p s : starts p s = true <-> exists r, s = p ++ r.
Proof.
  revert s. induction p as [|x p IH]; intro s; cbn; [split; [eauto|auto]|]. destruct s as [|y s]; [split; [discriminate|intros (r & H); discriminate]|].
  rewrite andb_true_iff, N.eqb_eq, IH. split.
  - intros [-> (r & ->)]. eauto.
  - intros (r & H). injection H as -> ->. eauto.
Qed.
Lemma among_iff s l : among s l = true <-> In s l.
Proof.
  unfold among. rewrite existsb_exists. split.
  - intros (x & I & E). destruct (bytes_eqb_spec s x); [subst; auto|discriminate].
  - intro I. exists s. split; auto. destruct (bytes_eqb_spec s s); auto.
Qed.

Lemma not_reserved n v : ~ reserved n -> forbidden n v = false.
Proof.
  intro R. unfold forbidden. destruct (among n forbidden_names) eqn:A.
  { exfalso. apply R. left. apply among_iff in A. cbn in A |- *. tauto. }
  destruct (starts (str "proxy-") n) eqn:B. { exfalso. apply R. right. left. apply starts_iff. auto. }
  destruct (starts (str "sec-") n) eqn:C. { exfalso. apply R. right. right. apply starts_iff. auto. }
  destruct (among n method_names) eqn:D; auto. exfalso. apply R. left. apply among_iff in D. cbn in D |- *. tauto.
Qed.

Lemma filter_all {A} (f : A -> bool) l : (forall x, In x l -> f x = true) -> filter f l = l.
Proof. induction l as [|a l IH]; cbn; auto. intro H. rewrite (H a) by auto. rewrite IH; auto. Qed.

Lemma has_iff n h : has n (lowered h) = true <-> exists v, asked h n v.
Proof.
  unfold has. rewrite existsb_exists. split.
  - intros ([k v] & I & E). cbn in E. destruct (bytes_eqb_spec k n); [subst|discriminate]. exists v. apply lowered_in. auto.
  - intros (v & I). apply lowered_in in I. exists (n, v). split; auto. cbn. destruct (bytes_eqb_spec n n); auto.
Qed.

Definition with_default (b : option fbody) (h : list (bytes * bytes)) : list (bytes * bytes) :=
  match b with
  | Some (BText _) => default_header (str "content-type") (str "text/plain; charset=utf-8") h
  | Some (BJson _) => default_header (str "content-type") (str "application/json; charset=utf-8") h
  | _ => h
  end.

Lemma ct_plain v0 : v0 = str "text/plain; charset=utf-8" \/ v0 = str "application/json; charset=utf-8" ->
  is_name (str "content-type") = true /\ value_ok v0 = true /\ forbidden (str "content-type") v0 = false.
Proof. intros [-> | ->]; vm_compute; auto. Qed.

Lemma default_in b h : plain_headers h ->
  (forall n v, In (n, v) (with_default b (lowered h)) <->
     asked h n v \/ (n = str "content-type" /\ (forall v', ~ asked h n v') /\ default_type b v)) /\
  NoDup (map fst (with_default b (lowered h))) /\
  (forall e, In e (with_default b (lowered h)) -> is_name (fst e) = true /\ value_ok (snd e) = true /\ forbidden (fst e) (snd e) = false).
Proof.
  intro P. pose proof (lowered_nodup h P) as ND.
  assert (LW : forall e, In e (lowered h) -> is_name (fst e) = true /\ value_ok (snd e) = true /\ forbidden (fst e) (snd e) = false).
  { intros [n v] I. apply lowered_in in I as (k & I & L). destruct (proj1 P k v I) as (N & V & _ & R). cbn.
    split; [apply name_iff; apply lower_iff in L as <-; apply name_lower; auto|].
    split; [apply value_bytes; auto|]. apply not_reserved. auto. }
  assert (D : forall v0, v0 = str "text/plain; charset=utf-8" \/ v0 = str "application/json; charset=utf-8" ->
    (forall n v, In (n, v) (default_header (str "content-type") v0 (lowered h)) <->
       asked h n v \/ (n = str "content-type" /\ (forall v', ~ asked h n v') /\ v = v0)) /\
    NoDup (map fst (default_header (str "content-type") v0 (lowered h))) /\
    (forall e, In e (default_header (str "content-type") v0 (lowered h)) -> is_name (fst e) = true /\ value_ok (snd e) = true /\ forbidden (fst e) (snd e) = false)).
  { intros v0 V0. unfold default_header. destruct (has (str "content-type") (lowered h)) eqn:H.
    - split; [|auto]. intros n v. rewrite lowered_in. split; auto. intros [A|(-> & NA & _)]; auto. apply has_iff in H as (v' & H). exfalso. eapply NA; eauto.
    - assert (NA : forall v', ~ asked h (str "content-type") v') by (intros v' A; rewrite (proj2 (has_iff _ h) (ex_intro _ v' A)) in H; discriminate).
      split; [|split].
      + intros n v. rewrite in_app_iff, lowered_in. split.
        * intros [A|[E|[]]]; auto. injection E as <- <-. auto.
        * intros [A|(-> & _ & ->)]; auto. right. left. auto.
      + rewrite map_app. cbn [map fst]. apply NoDup_Add with (a := str "content-type") (l := map fst (lowered h)).
        * rewrite <- (app_nil_r (map fst (lowered h))) at 1. apply Add_app.
        * split; auto. intro I. apply in_map_iff in I as ([n v] & E & I). cbn in E. subst n. apply lowered_in in I. eapply NA; eauto.
      + intros e I. apply in_app_or in I as [I|[<-|[]]]; auto. apply ct_plain. auto. }
  assert (E0 : (forall n v, In (n, v) (lowered h) <-> asked h n v \/ (n = str "content-type" /\ (forall v', ~ asked h n v') /\ False))).
  { intros n v. rewrite lowered_in. tauto. }
  destruct b as [[s|j|s]|]; cbn [with_default default_type]; auto.
Qed.

(** *** C73 *)

Section Requests.
  (** How the browser and the server write numbers, what the text of a number denotes, and which texts are addresses. *)
  Variables js_num serde_num : N -> bytes.
  Variable number_is : bytes -> N -> Prop.
  Variables js_address server_address : bytes -> bool.

  Notation js_send := (js_send js_num js_address).
  Notation server_send := (server_send serde_num server_address).
  Notation carries := (carries number_is).

  (** The numbers both write as what they are. *)
  Definition good_number (n : N) : Prop :=
    finite n = true /\ written_number (js_number js_num) number_is n /\ written_number serde_num number_is n.

  (** The requests on which the platforms agree: GET without a body, or POST. *)
  Definition plain_request (m u : bytes) (h : list (bytes * bytes)) (b : option fbody) : Prop :=
    (m = str "GET" /\ b = None \/ m = str "POST") /\ plain_headers h /\
    match b with
    | Some (BBin _) => exists v, asked h (str "content-type") v
    | Some (BJson j) => (forall s, j <> JString s) /\ parts utf8 good_number j
    | _ => True
    end.

  Lemma alike_refl j : alike j j.
  Proof.
    induction j as [| | |s|n|l IH|m IH] using json_ind2; constructor.
    - induction IH; constructor; auto.
    - intros k a I. exists a. split; auto. rewrite Forall_forall in IH. apply (IH (k, a)). auto.
    - intros k a I. exists a. split; auto. rewrite Forall_forall in IH. apply (IH (k, a)). auto.
  Qed.

  Lemma den_text t j : den false utf8 number_is None t j -> text_of false utf8 number_is None t j.
  Proof. intro D. exists [], t, []. rewrite app_nil_r. repeat split; auto; constructor. Qed.

  (** *** C73, the part that holds.  Full statement: a request leaves the browser and the server with the same method, address,
      headers and body.  Proved for [plain_request].  Missing, and refuted below: other methods, a body with GET, bytes without
      a content type, a JSON string as body, headers the browser keeps for itself, texts beyond ASCII in headers, infinite numbers. *)
  Theorem C73_requests_partial m u h b : plain_request m u h b -> js_address u = true -> server_address u = true ->
    exists r1 r2, js_send m u (record h) (denotes (body_value b)) = Sent r1 /\ carries m u h b r1 /\
                  server_send m u h b = Sent r2 /\ carries m u h b r2.
  Proof.
    intros (M & P & B) AJ AS. destruct (default_in b h P) as (D1 & D2 & D3).
    assert (JS : exists body, js_headers_body js_num (record h) (denotes (body_value b)) = Some (with_default b (lowered h), body) /\
      match b with
      | None => body = None
      | Some (BText s) | Some (BBin s) => body = Some s
      | Some (BJson j) => exists t j', body = Some t /\ alike j j' /\ text_of false utf8 number_is None t j'
      end).
    { unfold js_headers_body. rewrite (record_plain h P), (new_headers_plain h P). destruct b as [[s|j|s]|]; cbn [body_value denotes with_default].
      - eexists. split; reflexivity.
      - destruct B as [NS PT].
        assert (T : text_of false utf8 number_is None (js_stringify js_num (denotes_json j)) j).
        { rewrite stringify_serde. apply den_text. apply serde_den; [|exact Logic.I]. eapply parts_weaken; [| |exact PT]; auto. intros n N. apply N. }
        exists (Some (js_stringify js_num (denotes_json j))). split.
        + destruct j; try reflexivity. exfalso. eapply NS; eauto.
        + eexists _, _. split; [reflexivity|]. split; [|exact T]. apply alike_refl.
      - exists (Some s). split; auto. f_equal. f_equal. unfold default_header. rewrite (proj2 (has_iff (str "content-type") h) B). auto.
      - eexists. split; reflexivity. }
    assert (SE : exists body, serde_headers_body serde_num (clear_headers h) b = Some (with_default b (lowered h), body) /\
      match b with
      | None => body = None
      | Some (BText s) | Some (BBin s) => body = Some s
      | Some (BJson j) => exists t j', body = Some t /\ alike j j' /\ text_of false utf8 number_is None t j'
      end).
    { unfold serde_headers_body. rewrite (clear_plain h P). destruct b as [[s|j|s]|]; cbn [with_default]; try (eexists; split; reflexivity).
      destruct B as [NS PT]. destruct (to_serde_alike utf8 good_number j) as (j' & E & A & PT' & _); auto.
      { intros n N. apply N. }
      rewrite E. eexists. split; [reflexivity|]. eexists _, j'. split; [reflexivity|]. split; auto.
      apply den_text, serde_den; [|exact Logic.I]. eapply parts_weaken; [| |exact PT']; auto. intros n N. apply N. }
    destruct JS as (b1 & J1 & J2). destruct SE as (b2 & S1 & S2).
    exists (Request m u (with_default b (lowered h)) b1), (Request m u (with_default b (lowered h)) b2).
    assert (FT : filter (fun e => negb (forbidden (fst e) (snd e))) (with_default b (lowered h)) = with_default b (lowered h)).
    { apply filter_all. intros e I. apply D3 in I as (_ & _ & ->). auto. }
    split; [|split; [|split]].
    - unfold WireModel.js_send. rewrite J1. unfold js_fetch. rewrite AJ, FT. destruct M as [[-> ->]| ->].
      + rewrite J2. reflexivity.
      + change (negb (is_name (str "POST")) || among (lower (str "POST")) forbidden_methods) with false. cbn [negb]. cbv iota.
        change (among (lower (str "POST")) [str "get"; str "head"]) with false. cbv iota. destruct b1; auto.
    - repeat split; cbn; auto; apply D1.
    - unfold WireModel.server_send. rewrite S1, AS.
      assert (F : forallb (fun e => is_name (fst e) && value_ok (snd e)) (with_default b (lowered h)) = true).
      { apply forallb_forall. intros e I. apply D3 in I as (-> & -> & _). auto. }
      rewrite F. destruct M as [[-> ->]| ->]; reflexivity.
    - repeat split; cbn; auto; apply D1.
  Qed.
End Requests.

(** *** The media type *)

Lemma up_to_app c a r : ~ In c a -> (r = [] \/ exists r', r = c :: r') -> up_to c (a ++ r) = a.
Proof.
  intros N R. induction a as [|x a IH]; cbn.
  - destruct R as [->|(r' & ->)]; cbn; auto. rewrite N.eqb_refl. auto.
  - destruct (N.eqb_spec x c); [subst; exfalso; apply N; cbn; auto|]. rewrite IH; auto. intro I. apply N. right. auto.
Qed.

Lemma drop_app p w s : Forall (fun c => p c = true) w -> drop_while p (w ++ s) = drop_while p s.
Proof. induction 1; cbn; auto. rewrite H. auto. Qed.

Lemma strip_mid p w x w' : Forall (fun c => p c = true) w -> Forall (fun c => p c = true) w' ->
  (forall c t, x = c :: t -> p c = false) -> (forall t c, x = t ++ [c] -> p c = false) -> strip p (w ++ x ++ w') = x.
Proof.
  intros W W' A B. unfold strip. rewrite drop_app by auto. destruct x as [|c t].
  - cbn. rewrite <- (app_nil_r w'), drop_app by auto. reflexivity.
  - cbn [app drop_while]. rewrite (A c t eq_refl). change (c :: t ++ w') with ((c :: t) ++ w'). rewrite rev_app_distr, drop_app.
    2:{ apply Forall_rev. auto. }
    rewrite <- (rev_involutive (c :: t)) at 2. f_equal. destruct (rev (c :: t)) as [|d s] eqn:E; auto. cbn.
    rewrite (B (rev s) d); auto. rewrite <- (rev_involutive (c :: t)), E. auto.
Qed.

Definition visible (t : bytes) : Prop := Forall (fun c => 32 <= c <= 126 \/ c = 9) t.

Lemma lower_app a b : lower (a ++ b) = lower a ++ lower b.
Proof. apply map_app. Qed.
Lemma lower_blank w : Forall blank w -> lower w = w.
Proof. induction 1 as [|c w H _ IH]; auto. change (lower (c :: w)) with (lower1 c :: lower w). rewrite IH. f_equal. destruct H as [-> | ->]; reflexivity. Qed.

Lemma media_both t e : visible t -> media_type t e ->
  strip js_space (lower (up_to 59 t)) = e /\ lower (strip ascii_space (up_to 59 t)) = e.
Proof.
  intros V (w & e' & w' & rest & -> & W & W' & R & NS & A & B & L). apply lower_iff in L.
  assert (NB : forall x, Forall blank x -> ~ In 59 x).
  { intros x F I. rewrite Forall_forall in F. destruct (F _ I); discriminate. }
  replace (up_to 59 (w ++ e' ++ w' ++ rest)) with (w ++ e' ++ w').
  2:{ replace (w ++ e' ++ w' ++ rest) with ((w ++ e' ++ w') ++ rest) by (rewrite <- !app_assoc; auto). symmetry. apply up_to_app; auto.
      rewrite !in_app_iff. intros [I|[I|I]]; [exact (NB w W I)|auto|exact (NB w' W' I)]. }
  assert (VE : forall c, In c e' -> 32 <= c <= 126 \/ c = 9).
  { intros c I. unfold visible in V. rewrite Forall_forall in V. apply V. apply in_or_app. right. apply in_or_app. auto. }
  assert (SP : forall c, In c e' -> ~ blank c -> js_space (lower1 c) = false /\ ascii_space c = false).
  { intros c I N. apply VE in I. unfold blank in N. unfold js_space, ascii_space, lower1, in_range.
    assert (33 <= c <= 126) by lia. destruct ((65 <=? c) && (c <=? 90)) eqn:Q; [apply andb_true_iff in Q as [Q1 Q2]; apply N.leb_le in Q1, Q2|];
      split; rewrite !orb_false_iff, andb_false_iff, !N.leb_gt, !N.eqb_neq; lia. }
  assert (BJ : forall x, Forall blank x -> Forall (fun c => js_space c = true) x /\ Forall (fun c => ascii_space c = true) x).
  { intros x F. split; (eapply Forall_impl; [|exact F]); intros c [-> | ->]; reflexivity. }
  split.
  - rewrite !lower_app, (lower_blank w W), (lower_blank w' W'), L. apply strip_mid; try (apply BJ; auto).
    + intros c s E. subst e. destruct e' as [|d e']; [discriminate|]. cbn in E. injection E as <- _. apply SP; [left; auto|eapply A; eauto].
    + intros s c E. subst e. destruct e' as [|d e'] using rev_ind; [destruct s; discriminate|]. rewrite lower_app in E. cbn in E.
      apply app_inj_tail in E as [_ <-]. apply SP; [apply in_or_app; right; left; auto|eapply B; eauto].
  - rewrite strip_mid; auto; try (apply BJ; auto).
    + intros c s ->. apply SP; [left; auto|eapply A; eauto].
    + intros s c ->. apply SP; [apply in_or_app; right; left; auto|eapply B; eauto].
Qed.

(** Every value has a media type. *)
Lemma trim_front s : exists w r, s = w ++ r /\ Forall blank w /\ forall c t, r = c :: t -> ~ blank c.
Proof.
  induction s as [|c s (w & r & -> & W & H)]; [exists [], []; repeat split; auto; discriminate|].
  destruct (N.eq_dec c 32); [exists (c :: w), r; repeat split; auto; constructor; auto; left; auto|].
  destruct (N.eq_dec c 9); [exists (c :: w), r; repeat split; auto; constructor; auto; right; auto|].
  exists [], (c :: w ++ r). repeat split; auto. intros d t E. injection E as <- _. unfold blank. tauto.
Qed.
Lemma media_type_exists t : exists e, media_type t e.
Proof.
  assert (C : exists a rest, t = a ++ rest /\ ~ In 59 a /\ (rest = [] \/ exists r, rest = 59 :: r)).
  { induction t as [|c t (a & rest & -> & N & R)]; [exists [], []; auto|]. destruct (N.eq_dec c 59) as [->|NE].
    - exists [], (59 :: a ++ rest). split; auto. split; eauto.
    - exists (c :: a), rest. split; auto. split; auto. intros [X|X]; auto. }
  destruct C as (a & rest & -> & N & R). destruct (trim_front a) as (w & r & -> & W & H).
  destruct (trim_front (rev r)) as (w' & r' & E & W' & H'). assert (E2 : r = rev r' ++ rev w') by (rewrite <- rev_app_distr, <- E, rev_involutive; auto). subst r.
  exists (lower (rev r')), w, (rev r'), (rev w'), rest. rewrite <- !app_assoc. split; auto. split; auto. split; [apply Forall_rev; auto|]. split; auto.
  split. { intro I. apply N. apply in_or_app. right. apply in_or_app. auto. }
  split; [|split; [|apply lower_iff; auto]].
  - intros c s X. apply (H c (s ++ rev w')). rewrite X. auto.
  - intros s c X. apply (H' c (rev s)). rewrite <- (rev_involutive r'), X, rev_app_distr. auto.
Qed.

(** *** C74 *)

Section Responses.
  Variable js_read : bytes -> N.
  Variable serde_read : bytes -> option N.
  Variable lossy : bytes -> bytes.
  Variable message : bytes.

  Notation js_receive := (js_receive js_read lossy message).
  Notation server_receive := (server_receive serde_read).

  (** A text of the grammar that both read: what the server's reader reads, with numbers the browser reads the same. *)
  Definition common (b : bytes) (j : json) : Prop :=
    text_of false utf8 (fun x n => serde_read x = Some n) (Some 127%nat) b j /\
    forall x n, infix x b -> serde_read x = Some n -> js_read x = n.
  (** No JSON text, whatever numbers are and however deep it is. *)
  Definition no_json (b : bytes) : Prop := forall j, ~ text_of true (fun _ => True) (fun _ _ => True) None b j.
  (** The media type a response says, in ASCII; none. *)
  Definition says (types : list bytes) (e : bytes) : Prop :=
    types = [] /\ e = [] \/ exists t, types = [t] /\ visible t /\ media_type t e.

  Lemma types_both types e : says types e ->
    (js_type types = if bytes_eqb e (str "application/json") then str "json" else if bytes_eqb e (str "text/plain") then str "text" else str "bin") /\
    server_type types = js_type types.
  Proof.
    intros [[-> ->]|(t & -> & V & M)]; [split; reflexivity|]. destruct (media_both t e V M) as [E1 E2].
    unfold js_type, server_type. cbn [joined]. rewrite E1. split; auto.
    assert (F : forallb (fun c => in_range 32 126 c || (c =? 9)) t = true).
    { apply forallb_forall. intros c I. unfold visible in V. rewrite Forall_forall in V. apply V in I. unfold in_range.
      rewrite orb_true_iff, andb_true_iff, !N.leb_le, N.eqb_eq. auto. }
    rewrite F. cbn zeta. rewrite E2. auto.
  Qed.

  Lemma answered_json status j : answered status (BJson j) (told status (VJson j)).
  Proof. intro show. reflexivity. Qed.
  Lemma answered_text status s : answered status (BText s) (told status (VString s)).
  Proof. intro show. reflexivity. Qed.
  Lemma answered_bin status s : answered status (BBin s) (told status (VVec s)).
  Proof. intro show. reflexivity. Qed.
  Lemma failed_js status : failed (told_failure message status).
  Proof. intro show. eexists. reflexivity. Qed.
  Lemma failed_server : failed server_failure.
  Proof. intro show. eexists. reflexivity. Qed.

  (** *** C74, the part that holds.  Full statement: the answer to a request does not depend on where it is made.  Proved when
      content-type occurs at most once and is visible ASCII: for JSON texts that nest at most 127 levels, without lone surrogates,
      whose numbers both platforms read the same; for what is no JSON text; for texts that are UTF-8 and do not begin with a byte
      order mark; for everything that is neither JSON nor plain text; for broken connections.  Missing, and refuted below: the
      rest. *)
  Theorem C74_responses_partial status types e b : says types e ->
    (e = str "application/json" ->
       (forall j, common b j -> answered status (BJson j) (js_receive (Response status types (Some b))) /\
                                answered status (BJson j) (server_receive (Response status types (Some b)))) /\
       (no_json b -> no_json (text_decode lossy b) ->
          failed (js_receive (Response status types (Some b))) /\ failed (server_receive (Response status types (Some b))))) /\
    (e = str "text/plain" -> utf8 b -> no_bom b ->
       answered status (BText b) (js_receive (Response status types (Some b))) /\
       answered status (BText b) (server_receive (Response status types (Some b)))) /\
    (e <> str "application/json" -> e <> str "text/plain" ->
       answered status (BBin b) (js_receive (Response status types (Some b))) /\
       answered status (BBin b) (server_receive (Response status types (Some b)))) /\
    failed (js_receive (Response status types None)) /\ failed (server_receive (Response status types None)).
  Proof.
    intro S. destruct (types_both types e S) as [T1 T2]. unfold WireModel.js_receive, WireModel.server_receive. cbn [p_types p_body p_status].
    rewrite T2, T1. clear S T1 T2. split; [|split; [|split]].
    - intros ->. change (bytes_eqb (str "application/json") (str "application/json")) with true. cbv iota.
      change (bytes_eqb (str "json") (str "json")) with true. change (bytes_eqb (str "json") (str "text")) with false. cbv iota. split.
      + intros j [C A]. apply serde_text_of in C. rewrite C. pose proof (serde_then_js js_read serde_read lossy b j A C) as J.
        unfold js_json in J. rewrite J. split; apply answered_json.
      + intros N N'. destruct (js_parse js_read (text_decode lossy b)) as [j|] eqn:E.
        { exfalso. apply js_text_of in E. apply (N' j). eapply text_ext; [| |exact E]; auto. }
        destruct (serde_parse serde_read b) as [j|] eqn:E2.
        { exfalso. apply serde_text_of in E2. apply (N j). destruct E2 as (w & t & w2 & EQ & W & W2 & D). exists w, t, w2. do 3 (split; auto).
          apply (proj1 (den_weaken true utf8 (fun _ => True) _ (fun _ _ => True) (fun _ _ => Logic.I)) _ _ _ D). auto. }
        split; [apply failed_js|apply failed_server].
    - intros -> U NB. change (bytes_eqb (str "text/plain") (str "application/json")) with false. change (bytes_eqb (str "text/plain") (str "text/plain")) with true. cbv iota.
      change (bytes_eqb (str "text") (str "json")) with false. change (bytes_eqb (str "text") (str "text")) with true. cbv iota.
      unfold utf8 in U. unfold text_decode. rewrite (CodecJsProofs.strip_bom_plain b NB), U. split; apply answered_text.
    - intros NJ NT. destruct (bytes_eqb_spec e (str "application/json")); [contradiction|]. destruct (bytes_eqb_spec e (str "text/plain")); [contradiction|].
      change (bytes_eqb (str "bin") (str "json")) with false. change (bytes_eqb (str "bin") (str "text")) with false. cbv iota. split; apply answered_bin.
    - split; [apply failed_js|apply failed_server].
  Qed.

  (** Whatever the server takes for JSON, the browser takes for the same JSON (no restriction on the text). *)
  Theorem C74_json_server_then_browser status types b j : says types (str "application/json") ->
    (forall x n, infix x b -> serde_read x = Some n -> js_read x = n) ->
    answered status (BJson j) (server_receive (Response status types (Some b))) ->
    answered status (BJson j) (js_receive (Response status types (Some b))).
  Proof.
    intros S A H. apply (C74_responses_partial status types _ b) in S as ((C & _) & _); auto. apply C. split; auto. clear C.
    specialize (H (fun _ => [])). unfold WireModel.server_receive in H. cbn [p_types p_body p_status] in H.
    apply serde_text_of. destruct (bytes_eqb (server_type types) (str "text")).
    - destruct (utf8_valid b); discriminate.
    - destruct (bytes_eqb (server_type types) (str "json")); [|discriminate]. destruct (serde_parse serde_read b); [|discriminate].
      cbn in H. injection H as ->. auto.
  Qed.
End Responses.

(** *** C75 *)

(** A header the browser takes: the name is a token; every character of the value is among the first 256, and there is no NUL
    and no line end in it, except for line ends around it. *)
Definition takes (k v : bytes) : Prop :=
  name k /\ exists a m z, v = flat_map encode (a ++ m ++ z) /\ Forall (fun c => c < 256) (a ++ m ++ z) /\
    Forall (fun c => c = 9 \/ c = 10 \/ c = 13 \/ c = 32) (a ++ z) /\ Forall (fun c => c <> 0 /\ c <> 10 /\ c <> 13) m.

Lemma encode_small c : c < 256 -> encode c = if c <? 128 then [c] else [192 + c / 64; 128 + c mod 64].
Proof. intro L. unfold encode. destruct (c <? 128); auto. replace (c <? 2048) with true by (symmetry; apply N.ltb_lt; lia). auto. Qed.

Lemma byte_string_encode cps : Forall (fun c => c < 256) cps -> byte_string (flat_map encode cps) = Some cps.
Proof.
  induction 1 as [|c cps L _ IH]; auto. cbn [flat_map]. rewrite (encode_small c L). destruct (c <? 128) eqn:E.
  - cbn. rewrite E, IH. auto.
  - apply N.ltb_ge in E. cbn [app byte_string].
    assert (D : 192 + c / 64 = 194 \/ 192 + c / 64 = 195) by lia.
    replace (192 + c / 64 <? 128) with false by (symmetry; apply N.ltb_ge; lia).
    replace ((192 + c / 64 =? 194) || (192 + c / 64 =? 195)) with true by (symmetry; rewrite orb_true_iff, !N.eqb_eq; auto).
    rewrite IH. do 2 f_equal. lia.
Qed.

Lemma byte_string_some s cps : utf8_valid s = true -> byte_string s = Some cps -> Forall (fun c => c < 256) cps /\ s = flat_map encode cps.
Proof.
  intro V. apply C17_strings_are_utf8 in V as (l & F & ->). revert cps. induction F as [|c l Sc F IH]; intros cps E.
  - injection E as <-. split; auto.
  - cbn [flat_map] in E |- *. assert (L : c < 256).
    { destruct (c <? 256) eqn:Q; [apply N.ltb_lt; auto|]. apply N.ltb_ge in Q. exfalso. unfold encode in E.
      replace (c <? 128) with false in E by (symmetry; apply N.ltb_ge; lia).
      destruct (c <? 2048) eqn:K; [apply N.ltb_lt in K|apply N.ltb_ge in K; destruct (c <? 65536) eqn:K2; [apply N.ltb_lt in K2|apply N.ltb_ge in K2]];
        cbn [app byte_string] in E; revert E;
        (match goal with |- context [?h <? 128] => replace (h <? 128) with false by (symmetry; apply N.ltb_ge; lia);
           replace ((h =? 194) || (h =? 195)) with false by (symmetry; rewrite orb_false_iff, !N.eqb_neq; lia) end); discriminate. }
    destruct (byte_string (flat_map encode l)) as [r|] eqn:R.
    + destruct (IH r eq_refl) as [F1 _]. assert (X : byte_string (encode c ++ flat_map encode l) = Some (c :: r)).
      { clear E. rewrite (encode_small c L). destruct (c <? 128) eqn:K; cbn [app byte_string]; [rewrite K, R; auto|]. apply N.ltb_ge in K.
        assert (D : 192 + c / 64 = 194 \/ 192 + c / 64 = 195) by lia.
        replace (192 + c / 64 <? 128) with false by (symmetry; apply N.ltb_ge; lia).
        replace ((192 + c / 64 =? 194) || (192 + c / 64 =? 195)) with true by (symmetry; rewrite orb_true_iff, !N.eqb_eq; auto).
        rewrite R. do 2 f_equal. lia. }
      rewrite X in E. injection E as <-. split; [constructor; auto|]. destruct (IH r eq_refl) as [_ F2]. cbn [flat_map]. congruence.
    + exfalso. rewrite (encode_small c L) in E. destruct (c <? 128) eqn:K; cbn [app byte_string] in E; [rewrite K, R in E; discriminate|].
      apply N.ltb_ge in K. assert (D : 192 + c / 64 = 194 \/ 192 + c / 64 = 195) by lia.
      replace (192 + c / 64 <? 128) with false in E by (symmetry; apply N.ltb_ge; lia).
      replace ((192 + c / 64 =? 194) || (192 + c / 64 =? 195)) with true in E by (symmetry; rewrite orb_true_iff, !N.eqb_eq; auto).
      rewrite R in E. discriminate.
Qed.

Lemma http_space_iff c : http_space c = true <-> (c = 9 \/ c = 10 \/ c = 13 \/ c = 32).
Proof. unfold http_space. rewrite !orb_true_iff, !N.eqb_eq. tauto. Qed.

Lemma drop_split p s : exists w, s = w ++ drop_while p s /\ Forall (fun c => p c = true) w.
Proof.
  induction s as [|c s (w & E & F)]; [exists []; auto|]. cbn. destruct (p c) eqn:P; [|exists []; auto].
  exists (c :: w). cbn. split; [congruence|auto].
Qed.
Lemma strip_split p s : exists w w', s = w ++ strip p s ++ w' /\ Forall (fun c => p c = true) (w ++ w').
Proof.
  destruct (drop_split p s) as (w & E & F). destruct (drop_split p (rev (drop_while p s))) as (w' & E' & F').
  exists w, (rev w'). split.
  - rewrite E at 1. f_equal. unfold strip. rewrite <- rev_app_distr, <- E', rev_involutive. auto.
  - apply Forall_app. split; auto. apply Forall_rev. auto.
Qed.
Lemma strip_sub p s a m z : s = a ++ m ++ z -> Forall (fun c => p c = true) (a ++ z) -> forall c, In c (strip p s) -> In c m \/ p c = true.
Proof.
  intros -> F c I. destruct (strip_split p (a ++ m ++ z)) as (w & w' & E & _).
  assert (J : In c (a ++ m ++ z)) by (rewrite E; apply in_or_app; right; apply in_or_app; auto).
  rewrite Forall_forall in F. rewrite !in_app_iff in *. destruct J as [J|[J|J]]; auto; right; apply F; apply in_or_app; auto.
Qed.

(** A text stripped of white space begins and ends with something else. *)
Lemma drop_head p s c t : drop_while p s = c :: t -> p c = false.
Proof. induction s as [|d s IH]; cbn; [discriminate|]. destruct (p d) eqn:P; auto. intro E. injection E as <- _. auto. Qed.

Lemma drop_inner p a m z : Forall (fun c => p c = true) a -> exists m1, Forall (fun c => p c = true) m1 /\ (m = m1 ++ drop_while p m) /\
  drop_while p (a ++ m ++ z) = match drop_while p m with [] => drop_while p z | d => d ++ z end.
Proof.
  intro A. rewrite drop_app by auto. induction m as [|c m (m1 & F & E & D)]; [exists []; cbn; auto|]. cbn [app drop_while].
  destruct (p c) eqn:P.
  - exists (c :: m1). split; [constructor; auto|]. split; [cbn; congruence|auto].
  - exists []. cbn. auto.
Qed.

Lemma strip_trimmed p a m z : Forall (fun c => p c = true) (a ++ z) -> strip p (a ++ m ++ z) = strip p m.
Proof.
  intro F. apply Forall_app in F as [A Z]. unfold strip. destruct (drop_inner p a m z A) as (m1 & _ & _ & ->).
  destruct (drop_while p m) as [|c t] eqn:E.
  - rewrite <- (app_nil_r z), drop_app by auto. reflexivity.
  - rewrite rev_app_distr, drop_app by (apply Forall_rev; auto). auto.
Qed.

Lemma js_append_iff l k v : utf8 k -> utf8 v -> (js_append l k v <> None <-> takes k v).
Proof.
  intros UK UV. unfold js_append, takes. split.
  - intro H. destruct (byte_string k) as [k'|] eqn:BK; [|congruence]. destruct (byte_string v) as [v'|] eqn:BV; [|congruence]. cbn zeta in H.
    destruct (is_name k') eqn:NK; [|cbn in H; congruence]. destruct (js_value_ok (strip http_space v')) eqn:VO; [|cbn in H; congruence].
    destruct (byte_string_some _ _ UK BK) as [FK ->]. destruct (byte_string_some _ _ UV BV) as [FV ->]. apply name_iff in NK.
    split.
    + replace (flat_map encode k') with k'; auto. destruct NK as [_ NK]. clear -NK. induction NK as [|c k H _ IH]; auto.
      change (flat_map encode (c :: k)) with (encode c ++ flat_map encode k). rewrite <- IH.
      apply tchar_range in H. unfold encode. replace (c <? 128) with true by (symmetry; apply N.ltb_lt; lia). auto.
    + destruct (strip_split http_space v') as (w & w' & E & F). exists w, (strip http_space v'), w'. rewrite <- E. split; auto. split; auto. split.
      * eapply Forall_impl; [|exact F]. intros c. apply http_space_iff.
      * unfold js_value_ok in VO. rewrite forallb_forall in VO. rewrite Forall_forall. intros c I. apply VO in I.
        rewrite negb_true_iff, !orb_false_iff, !N.eqb_neq in I. tauto.
  - intros (NK & a & m & z & -> & F & SP & NB). rewrite (name_bytes k NK), (byte_string_encode _ F). cbn zeta.
    rewrite strip_trimmed by (eapply Forall_impl; [|exact SP]; intros c; apply http_space_iff).
    assert (VO : js_value_ok (strip http_space m) = true).
    { unfold js_value_ok. apply forallb_forall. intros c I. destruct (strip_split http_space m) as (w & w' & E & _).
      assert (J : In c m) by (rewrite E; apply in_or_app; right; apply in_or_app; auto).
      rewrite Forall_forall in NB. apply NB in J. rewrite negb_true_iff, !orb_false_iff, !N.eqb_neq. tauto. }
    rewrite VO, (proj1 (name_iff k) NK). discriminate.
Qed.

Lemma new_headers_iff h : (forall k v, In (k, v) h -> utf8 k /\ utf8 v) ->
  (new_headers h <> None <-> forall k v, In (k, v) h -> takes k v).
Proof.
  intro U. unfold new_headers. assert (NN : forall h, fold_left (fun acc e => match acc with Some l => js_append l (fst e) (snd e) | None => None end) h None = None).
  { intro h0. induction h0; cbn; auto. }
  generalize (@nil (bytes * bytes)). induction h as [|[k v] h IH]; intro acc; cbn [fold_left fst snd].
  - split; [intros _ k v []|discriminate].
  - destruct (U k v (or_introl eq_refl)) as [UK UV]. pose proof (js_append_iff acc k v UK UV) as J.
    destruct (js_append acc k v) as [acc'|].
    + rewrite (IH (fun k v I => U k v (or_intror I)) acc'). split.
      * intros H k' v' [E|I]; auto. injection E as <- <-. apply J. discriminate.
      * intros H k' v' I. apply H. right. auto.
    + rewrite NN. split; [congruence|]. intros H. exfalso. apply (proj2 J); auto. apply H. left. auto.
Qed.

Lemma to_serde_some j : (forall n, occurs n j -> finite n = true) -> to_serde j <> None.
Proof.
  assert (AS : forall A (l : list (option A)), (forall x, In x l -> x <> None) -> all_some l <> None).
  { intros A l. induction l as [|[x|] l IH]; cbn; intro H; [discriminate| |exfalso; apply (H None); auto].
    destruct (all_some l) eqn:E; [discriminate|]. apply IH. auto. }
  induction j as [| | |s|n|l IH|m IH] using json_ind2; intro H; cbn [to_serde]; try discriminate.
  - rewrite (H n (o_here n)). discriminate.
  - destruct (all_some (map to_serde l)) eqn:E; [discriminate|]. exfalso. revert E. apply AS. intros x I. apply in_map_iff in I as (y & <- & Y).
    rewrite Forall_forall in IH. apply IH; auto. intros n O. apply H. econstructor; eauto.
  - match goal with |- context [all_some ?e] => destruct (all_some e) eqn:E; [discriminate|] end. exfalso. revert E. apply AS. intros x I. apply in_map_iff in I as (y & <- & Y).
    rewrite Forall_forall in IH. specialize (IH y Y). destruct (to_serde (snd y)); [discriminate|]. exfalso. apply IH; auto. intros n O. apply H. econstructor; eauto.
Qed.

(** The methods of [FetchMethod]. *)
Definition methods : list bytes :=
  map str ["GET"; "HEAD"; "POST"; "PUT"; "DELETE"; "CONNECT"; "OPTIONS"; "TRACE"; "PATCH"]%string.

Section Answers.
  Variables js_num serde_num : N -> bytes.
  Variable js_read : bytes -> N.
  Variable serde_read : bytes -> option N.
  Variable lossy : bytes -> bytes.
  Variable message : bytes.
  Variables js_address server_address : bytes -> bool.

  Notation js_calls := (js_calls js_num js_read lossy js_address message).
  Notation server_calls := (server_calls serde_num serde_read server_address).

  (** *** C75, exactly when: in the browser a request is answered, once, if and only if every header is one the browser takes;
      whatever the network does, and also if the request is refused. *)
  Theorem C75_browser net m u h body : (forall k v, In (k, v) h -> utf8 k /\ utf8 v) ->
    ((exists a, js_calls net m u h body = [a]) <-> forall k v, In (k, v) h -> takes k v) /\
    ((exists k v, In (k, v) h /\ ~ takes k v) -> js_calls net m u h body = []).
  Proof.
    intro U. pose proof (new_headers_iff h U) as N. unfold WireModel.js_calls, js_send, js_headers_body. destruct (new_headers h) as [l|] eqn:E.
    - assert (N1 := proj1 N ltac:(discriminate)). split.
      + split; [auto|intros _].
        match goal with |- context [match ?x with Some _ => _ | None => Silent end] => assert (X : exists p, x = Some p) by (destruct body; eauto); destruct X as ((h' & b') & ->) end.
        unfold js_fetch. destruct (negb (is_name m) || among (lower m) forbidden_methods); [eauto|]. destruct (negb (js_address u)); [eauto|].
        destruct b'; [destruct (among (lower m) [str "get"; str "head"]); [eauto|]|]; (match goal with |- context [net ?r] => destruct (net r); eauto end).
      + intros (k & v & I & T). exfalso. auto.
    - split; auto. split; [intros (a & A); discriminate|]. intro T. exfalso. apply (proj2 N T). auto.
  Qed.

  (** On the server: if and only if the method is GET or POST, and a JSON body has no infinity and no NaN. *)
  Theorem C75_server net m u h body : In m methods ->
    ((exists a, server_calls net m u h body = [a]) <->
       (m = str "GET" \/ m = str "POST") /\ forall j n, body = Some (BJson j) -> occurs n j -> finite n = true) /\
    ((exists a, server_calls net m u h body = [a]) \/ server_calls net m u h body = []).
  Proof.
    intro M. unfold WireModel.server_calls, server_send.
    assert (MM : (bytes_eqb (lower (strip ascii_space m)) (str "get") || bytes_eqb (lower (strip ascii_space m)) (str "post") = true) <->
                 (m = str "GET" \/ m = str "POST")).
    { cbn in M. repeat (destruct M as [<-|M]; [vm_compute; split; [intro Q; first [discriminate Q | tauto]|intros [Q|Q]; first [discriminate Q | reflexivity]]|]). contradiction. }
    destruct (bytes_eqb (lower (strip ascii_space m)) (str "get") || bytes_eqb (lower (strip ascii_space m)) (str "post")).
    2:{ split; [|right; auto]. split; [intros (a & A); discriminate|]. intros [Q _]. apply MM in Q. discriminate. }
    assert (M1 := proj1 MM eq_refl).
    assert (FIN : serde_headers_body serde_num (clear_headers h) body <> None <-> forall j n, body = Some (BJson j) -> occurs n j -> finite n = true).
    { unfold serde_headers_body. destruct body as [[s|j|s]|]; try (split; [intros _ j' n Q; discriminate Q|discriminate]).
      split.
      - intros Q j' n [= <-] O. destruct (finite n) eqn:F; auto. rewrite (to_serde_none n j O F) in Q. congruence.
      - intros Q. pose proof (to_serde_some j (fun n => Q j n eq_refl)). destruct (to_serde j); congruence. }
    destruct (serde_headers_body serde_num (clear_headers h) body) as [[h' b']|].
    - assert (F1 := proj1 FIN ltac:(discriminate)).
      match goal with |- ((exists a, ?X = [a]) <-> _) /\ _ => assert (ONE : exists a, X = [a]) end.
      { destruct (server_address u && forallb (fun e => is_name (fst e) && value_ok (snd e)) h'); [|eauto].
        match goal with |- context [net ?r] => destruct (net r); eauto end. }
      split; [|left; auto]. split; auto.
    - split; [|right; auto]. split; [intros (a & A); discriminate|]. intros [_ Q]. apply FIN in Q. congruence.
  Qed.
End Answers.

(** ** Examples and refutations *)

Import JsonTextProps.Demo.
Module WireDemo.
  Definition any (_ : bytes) : bool := true.
  Definition number_is (x : bytes) (n : N) : Prop := n = one /\ (x = str "1" \/ x = str "1.0").
  Definition url : bytes := str "http://host/".
  Definition sends := js_send js_num any.
  Definition serves := server_send serde_num any.
  Definition receives := js_receive js_read lossy (str "SyntaxError").
  Definition accepts := server_receive serde_read.
  Definition header (r : request) (n : bytes) : option bytes :=
    match find (fun e => bytes_eqb (fst e) n) (r_headers r) with Some e => Some (snd e) | None => None end.
  Definition offline (_ : request) : option response := None.
End WireDemo.
Import WireDemo.

Lemma demo_numbers : a_number (str "1") /\ a_number (str "1.0").
Proof.
  split.
  - exists [], (str "1"), [], []. split; auto. split; auto. split; [right|auto]. split; [split; [discriminate|repeat constructor; vm_compute; discriminate]|vm_compute; discriminate].
  - exists [], (str "1"), (str ".0"), []. split; auto. split; auto. split; [right|split; [right|auto]].
    + split; [split; [discriminate|repeat constructor; vm_compute; discriminate]|vm_compute; discriminate].
    + exists (str "0"). split; auto. split; [discriminate|repeat constructor; vm_compute; discriminate].
Qed.

(** A request the platforms agree on. *)
Example C73_example : plain_request js_num serde_num number_is (str "POST") url
  [(str "X-Request-Id", str "a b"); (str "Authorization", str "Bearer t")] (Some (BJson (JObject [(str "n", JNumber one)]))).
Proof.
  split; [right; reflexivity|]. split.
  - split; [|split].
    + assert (H : forall k v, name k -> value v -> k <> str "__proto__" -> ~ reserved (lower k) ->
        name k /\ value v /\ k <> str "__proto__" /\ forall n, lower_of k n -> ~ reserved n).
      { intros k v A B C D. do 3 (split; auto). intros n L. apply lower_iff in L. subst. auto. }
      intros k v [E|[E|[]]]; injection E as <- <-; apply H;
        try (apply name_iff; vm_compute; reflexivity); try (vm_compute; discriminate);
        try (split; [repeat constructor; vm_compute; discriminate|
                     split; [intros c t Q; injection Q as <- _; unfold blank; lia|
                             intros t c Q; apply (f_equal (@rev N)) in Q; rewrite rev_app_distr in Q; injection Q as <- _; unfold blank; lia]]).
      * intros [I|[[r I]|[r I]]]; [|discriminate I|discriminate I]. cbn in I. repeat (destruct I as [I|I]; [discriminate I|]). contradiction.
      * intros [I|[[r I]|[r I]]]; [|discriminate I|discriminate I]. cbn in I. repeat (destruct I as [I|I]; [discriminate I|]). contradiction.
    + repeat constructor; cbn; intuition discriminate.
    + intros k v k' v' n [A|[A|[]]] [B|[B|[]]] L L'; injection A as <- <-; injection B as <- <-; auto;
        apply lower_iff in L, L'; subst n; discriminate L'.
  - split; [intros s Q; discriminate|]. cbn. split; [repeat constructor; cbn; tauto|]. split; [|exact Logic.I]. split; [reflexivity|].
    unfold good_number, written_number, number_is. destruct demo_numbers as [A B]. change (js_number js_num one) with (str "1"). change (serde_num one) with (str "1.0"). tauto.
Qed.

(** Bytes without a content type: the browser says application/octet-stream, the server says nothing. *)
Theorem C73_bytes_refuted : exists b r1 r2, sends (str "POST") url [] (denotes (body_value b)) = Sent r1 /\ serves (str "POST") url [] b = Sent r2 /\
  header r1 (str "content-type") = Some (str "application/octet-stream") /\ header r2 (str "content-type") = None.
Proof. exists (Some (BBin [1; 2])). eexists _, _. split; [reflexivity|]. split; [reflexivity|]. split; reflexivity. Qed.

(** A JSON body that is a string: the browser sends it as plain text, without quotes. *)
Theorem C73_string_refuted : exists b r1 r2, sends (str "POST") url [] (denotes (body_value b)) = Sent r1 /\ serves (str "POST") url [] b = Sent r2 /\
  header r1 (str "content-type") = Some (str "text/plain; charset=utf-8") /\ header r2 (str "content-type") = Some (str "application/json; charset=utf-8") /\
  r_body r1 = Some (str "x") /\ r_body r2 = Some [34; 120; 34].
Proof. exists (Some (BJson (JString (str "x")))). eexists _, _. split; [reflexivity|]. split; [reflexivity|]. repeat split. Qed.

(** A body with GET: the browser refuses, the server sends it. *)
Theorem C73_get_body_refuted : exists b r, sends (str "GET") url [] (denotes (body_value b)) = Refused /\ serves (str "GET") url [] b = Sent r /\ r_body r <> None.
Proof. exists (Some (BText (str "x"))). eexists. split; [reflexivity|]. split; [reflexivity|]. discriminate. Qed.

(** Methods other than GET and POST: the browser sends, the server panics. *)
Theorem C73_method_refuted : exists m r, In m methods /\ sends m url [] KUndef = Sent r /\ serves m url [] None = Silent.
Proof. exists (str "PUT"). eexists. split; [cbn; tauto|]. split; reflexivity. Qed.

(** A header the browser keeps for itself is dropped by it, and sent by the server. *)
Theorem C73_reserved_refuted : exists h r1 r2, sends (str "GET") url h KUndef = Sent r1 /\ serves (str "GET") url h None = Sent r2 /\
  r_headers r1 = [] /\ r_headers r2 <> [].
Proof. exists [(str "Cookie", str "a=b")]. eexists _, _. split; [reflexivity|]. split; [reflexivity|]. split; [reflexivity|discriminate]. Qed.

(** A value beyond ASCII: one byte for a character in the browser, UTF-8 on the server; beyond Latin-1 the browser is silent. *)
Theorem C73_latin_refuted : exists h r1 r2, sends (str "GET") url h KUndef = Sent r1 /\ serves (str "GET") url h None = Sent r2 /\
  header r1 (str "x") = Some [233] /\ header r2 (str "x") = Some [195; 169].
Proof. exists [(str "x", [195; 169])]. eexists _, _. split; [reflexivity|]. split; [reflexivity|]. split; reflexivity. Qed.

(** Names that differ in case: the browser sends both values, the server one of them. *)
Theorem C73_case_refuted : exists h r1 r2, NoDup (map fst h) /\ sends (str "GET") url h KUndef = Sent r1 /\ serves (str "GET") url h None = Sent r2 /\
  header r1 (str "x") = Some (str "1, 2") /\ header r2 (str "x") = Some (str "2").
Proof.
  exists [(str "X", str "1"); (str "x", str "2")]. eexists _, _. split; [repeat constructor; cbn; intuition discriminate|].
  split; [reflexivity|]. split; [reflexivity|]. split; reflexivity.
Qed.

(** NaN: the browser sends null, the server panics. *)
Theorem C73_nan_refuted : exists b r, sends (str "POST") url [] (denotes (body_value b)) = Sent r /\ r_body r = Some (str "null") /\ serves (str "POST") url [] b = Silent.
Proof. exists (Some (BJson (JNumber nan))). eexists. split; [reflexivity|]. split; reflexivity. Qed.

(** A JSON text both read. *)
Example C74_example : says [str " Application/JSON ; charset=utf-8"] (str "application/json") /\
  common js_read serde_read (str "{ ""n"" : [1, true, ""😀""] }") (JObject [(str "n", JList [JNumber one; JTrue; JString [240; 159; 152; 128]])]).
Proof.
  split.
  - right. eexists. split; [reflexivity|]. split; [repeat constructor; vm_compute; discriminate|].
    exists [32], (str "Application/JSON"), [32], (str "; charset=utf-8"). split; [reflexivity|]. split; [repeat constructor|]. split; [repeat constructor|].
    split; [right; eexists; reflexivity|]. split; [intro I; cbn in I; repeat (destruct I as [I|I]; [discriminate I|]); contradiction|].
    split; [intros c s Q; injection Q as <- _; unfold blank; lia|].
    split; [intros t c Q; apply (f_equal (@rev N)) in Q; rewrite rev_app_distr in Q; injection Q as <- _; unfold blank; lia|].
    apply lower_iff. reflexivity.
  - split; [apply serde_text_of; vm_compute; reflexivity|]. intros x n _. unfold serde_read, js_read. destruct (bytes_eqb x (str "0")); congruence.
Qed.
Example C74_example_no_json : no_json (str "oops") /\ text_decode lossy (str "oops") = str "oops".
Proof.
  split; [|reflexivity]. intros j (w & t & w2 & E & W & W2 & D).
  assert (X : text_of true (fun _ => True) (fun x n => True) None (str "oops") j) by (exists w, t, w2; auto).
  clear E W W2 D w t w2.
  assert (P : exists j, text_of true (fun _ => True) (fun x n => js_read x = n) None (str "oops") j).
  { destruct X as (w & t & w2 & E & W & W2 & D). destruct w as [|c w].
    - destruct D as [d|d|d|d x s C K|d x n H R|d d' w D W'|d d' w t l D W' E'|d d' w D W'|d d' w t l D W' E']; try discriminate E.
      exists (JNumber (js_read x)), [], x, w2. repeat split; auto. constructor; auto.
    - inversion_clear W. injection E as <- _. cbn in H. lia. }
  destruct P as (j' & P). apply js_text_of in P. vm_compute in P. discriminate.
Qed.

(** Two values of content-type: the browser joins them, the server takes the first. *)
Theorem C74_twice_refuted : exists p, answered 200 (BBin (str "[]")) (receives p) /\ answered 200 (BJson (JList [])) (accepts p).
Proof. exists (Response 200 [str "application/json"; str "application/json"] (Some (str "[]"))). split; intro show; reflexivity. Qed.

(** A byte beyond ASCII anywhere in content-type: the server takes the response for bytes. *)
Theorem C74_type_refuted : exists p, answered 200 (BJson (JList [])) (receives p) /\ answered 200 (BBin (str "[]")) (accepts p).
Proof. exists (Response 200 [str "application/json; t=" ++ [233]] (Some (str "[]"))). split; intro show; reflexivity. Qed.

(** A plain text that is not UTF-8: repaired in the browser, an error on the server. *)
Theorem C74_utf8_refuted : exists p, answered 200 (BText [239; 191; 189]) (receives p) /\ failed (accepts p).
Proof. exists (Response 200 [str "text/plain"] (Some [255])). split; intro show; [reflexivity|eexists; reflexivity]. Qed.

(** A plain text with a byte order mark: removed in the browser, kept on the server. *)
Theorem C74_bom_refuted : exists p, answered 200 (BText (str "x")) (receives p) /\ answered 200 (BText [239; 187; 191; 120]) (accepts p).
Proof. exists (Response 200 [str "text/plain"] (Some [239; 187; 191; 120])). split; intro show; reflexivity. Qed.

(** JSON of 128 levels, with a lone surrogate, or with a byte order mark: read in the browser, an error on the server. *)
Theorem C74_depth_refuted : exists p j, answered 200 (BJson j) (receives p) /\ failed (accepts p).
Proof. exists (Response 200 [str "application/json"] (Some (brackets 127))), (nested 127). split; intro show; [vm_compute; reflexivity|eexists; vm_compute; reflexivity]. Qed.
Theorem C74_surrogate_refuted : exists p j, answered 200 (BJson j) (receives p) /\ failed (accepts p).
Proof. exists (Response 200 [str "application/json"] (Some (str """\ud800"""))), (JString [239; 191; 189]). split; intro show; [vm_compute; reflexivity|eexists; vm_compute; reflexivity]. Qed.
Theorem C74_json_bom_refuted : exists p j, answered 200 (BJson j) (receives p) /\ failed (accepts p).
Proof. exists (Response 200 [str "application/json"] (Some [239; 187; 191; 91; 93])), (JList []). split; intro show; [vm_compute; reflexivity|eexists; vm_compute; reflexivity]. Qed.

(** A header that is one for the browser although not for [C73]: a Latin-1 letter, and blanks around. *)
Example C75_example : takes (str "X") ([32] ++ [195; 169]) /\ ~ takes (str "a b") [].
Proof.
  split.
  - split; [apply name_iff; reflexivity|]. exists [32], [233], []. split; [reflexivity|]. split; [repeat constructor|]. split; [repeat constructor; lia|repeat constructor; lia].
  - intros [N _]. apply name_iff in N. discriminate.
Qed.

(** *** C75: Full statement: every request is answered exactly once.  In the browser a bad header name, on the server another
    method, leave the request without an answer for ever. *)
Theorem C75_refuted : exists h m,
  js_calls js_num js_read lossy any (str "E") offline (str "GET") url h KUndef = [] /\
  In m methods /\ server_calls serde_num serde_read any offline m url [] None = [].
Proof. exists [(str "a b", str "c")], (str "DELETE"). split; [reflexivity|]. split; [cbn; tauto|reflexivity]. Qed.

Print Assumptions C73_requests_partial.
Print Assumptions C74_responses_partial.
Print Assumptions C75_browser.
Print Assumptions C75_server.
