(** Cookies holding JSON, with JSON.stringify and JSON.parse as in JsonTextModel (C65). *)
From Coq Require Import String List NArith ZArith Bool Lia ZifyN.
From Verif Require Import CodecModel CodecJsModel CodecSpec CodecProofs CodecProps CodecUtf8 FloatModel DomWire JsonModel JsonProofs BridgeModel BridgeProps
  CookieModel JsonTextModel JsonTextSpec JsonTextProofs JsonTextProps.
From Verif Require Import CookieProps.
Import ListNotations.
Local Open Scope string_scope.
Local Open Scope list_scope.
Local Open Scope N_scope.

Lemma utf8_bytes s : utf8_valid s = true -> rust_string s.
Proof.
  intro V. split; auto. apply C17_strings_are_utf8 in V. destruct V as (l & F & ->). clear -F.
  induction F as [|c l S F IH]; cbn [flat_map]; [exact Logic.I|]. apply all_Forall. apply Forall_app. split; apply all_Forall; auto.
  apply encode_bytes. auto.
Qed.

Lemma parts_all (Q : N -> Prop) j : json_ok j -> (forall n, occurs n j -> Q n) -> parts utf8 Q j.
Proof.
  induction j as [| | |s|n|l IH|m IH] using json_ind2; cbn; auto.
  - intros [_ V] _. exact V.
  - intros _ H. apply H. constructor.
  - intros A H. induction IH as [|x l P F IHl]; cbn in *; auto. destruct A as [A1 A2]. split.
    + apply P; auto. intros n O. apply H. econstructor; [left|]; eauto.
    + apply IHl; auto. intros n O. apply H. inversion O; subst. econstructor; [right|]; eauto.
  - intros [ND A] H. split; auto. clear ND. induction IH as [|[k x] l P F IHl]; cbn in *; auto. destruct A as [[A0 A1] A2]. split; [split|].
    + apply A0.
    + apply P; auto. intros n O. apply H. econstructor; [left|]; eauto.
    + apply IHl; auto. intros n O. apply H. inversion O; subst. econstructor; [right|]; eauto.
Qed.

Section Json.
  Variable parse_date : bytes -> option N.
  Variable utc : N -> bytes.
  Variable lossy : bytes -> bytes.
  Hypothesis dates : dates_ok parse_date utc.
  (** How numbers are written and read (ECMAScript 6.1.6.1.20, 7.1.4.1). *)
  Variable number : N -> bytes.
  Variable read : bytes -> N.

  (** JSON.stringify and JSON.parse. *)
  Definition json_parse (t : bytes) : option jval := option_map denotes_json (js_parse read t).
  Notation stringify := (js_stringify number).

  Lemma written_text j : json_ok j ->
    (forall n, occurs n j -> a_number (js_number number n) /\ read (js_number number n) = n) ->
    written stringify json_parse j (stringify (denotes_json j)).
  Proof.
    intros O NB. assert (P : parts utf8 (written_number (js_number number) (fun x n => read x = n)) j) by (apply parts_all; auto).
    assert (D := serde_den (js_number number) false utf8 (fun x n => read x = n) j None P Logic.I).
    split; auto. rewrite stringify_serde. split; [|split].
    - unfold json_parse. rewrite (proj2 (js_text_of read _ j)); auto.
      exists [], (serde_text (js_number number) j), []. rewrite app_nil_r. repeat split; try constructor.
      apply (proj1 (den_weaken true utf8 (fun _ => True) _ _ (fun _ _ => Logic.I)) _ _ _ D). auto.
    - intro E. rewrite E in D. inversion D as [| | | |d x n A NUM| | | |]; try discriminate. subst. destruct A as (sg & i & f & e & A & _ & I & _).
      destruct I as [->|[[I _] _]]; destruct sg; try discriminate; destruct i; try discriminate; congruence.
    - apply utf8_bytes, (proj1 (den_valid _) _ _ _ D).
  Qed.

  (** *** C65 for the real JSON.stringify and JSON.parse, the part that holds.  Full statement: [cookie_get_json] gives what
      [cookie_set_json] stored.  Proved for lists, objects and null whose text fits into a cookie, and whose numbers the engine
      reads as what it wrote.  Missing: booleans, numbers and strings; see [C65_json_scalars]. *)
  Theorem C65_json_set_get_partial now jar n j e :
    jar_ok jar -> token n -> ~ reserved n -> sendable (VJson j) -> json_keys j ->
    (forall x, occurs x j -> a_number (js_number number x) /\ read (js_number number x) = x) ->
    len n + room (stringify (denotes_json j)) <= 4096 -> val_total (VJson j) < 4000000000 -> now + e * 1000 <= 8640000000000000 ->
    match j with JList _ | JObject _ | JNull => True | _ => False end ->
    exists jar', cookie_set_json parse_date utc stringify json_parse lossy (now, jar) n j e = Some (now, jar') /\
      (forall now', now <= now' -> now' < (now / 1000 + e) * 1000 ->
         cookie_get_json parse_date utc stringify json_parse lossy (now', jar') n = Some j) /\
      (forall now', now <= now' -> (now / 1000 + e) * 1000 <= now' ->
         cookie_get_json parse_date utc stringify json_parse lossy (now', jar') n = Some JNull).
  Proof.
    intros. eapply C65_set_get_partial; eauto. apply written_text; auto. match goal with H : sendable _ |- _ => apply H end.
  Qed.

  (** Booleans, numbers and strings are stored, and read as null. *)
  Theorem C65_json_scalars now jar n j e :
    jar_ok jar -> token n -> ~ reserved n -> sendable (VJson j) ->
    (forall x, occurs x j -> a_number (js_number number x) /\ read (js_number number x) = x) ->
    len n + room (stringify (denotes_json j)) <= 4096 -> val_total (VJson j) < 4000000000 -> now + e * 1000 <= 8640000000000000 ->
    match j with JList _ | JObject _ => False | _ => True end ->
    exists jar', cookie_set_json parse_date utc stringify json_parse lossy (now, jar) n j e = Some (now, jar') /\
      forall now', now <= now' -> now' < (now / 1000 + e) * 1000 ->
        cookie_get parse_date utc stringify json_parse lossy (now', jar') n = Some (stringify (denotes_json j)) /\
        cookie_get_json parse_date utc stringify json_parse lossy (now', jar') n = Some JNull.
  Proof.
    intros. eapply C65_scalars; eauto. apply written_text; auto. match goal with H : sendable _ |- _ => apply H end.
  Qed.
End Json.

Import CookieProps.Demo JsonTextProps.Demo.

(** An object with a text that needs escapes, and a number. *)
Definition a_value : json := JObject [(str "a", JString [34; 195; 169; 10]); (str "n", JList [JNumber one; JTrue])].
Example C65_json_case : exists jar',
  CookieModel.cookie_set_json parse_date utc (js_stringify js_num) (json_parse js_read) JsonTextProps.Demo.lossy (1500, start) (str "t") a_value 10 = Some (1500, jar') /\
  CookieModel.cookie_get_json parse_date utc (js_stringify js_num) (json_parse js_read) JsonTextProps.Demo.lossy (2000, jar') (str "t") = Some a_value.
Proof.
  destruct (C65_json_set_get_partial parse_date utc JsonTextProps.Demo.lossy dates js_num js_read 1500 start (str "t") a_value 10) as (jar' & S & G & _);
    [exact start_ok|apply token_str; [discriminate|reflexivity]|apply not_reserved; reflexivity| |vm_compute; intuition congruence
    | |vm_compute; discriminate|vm_compute; reflexivity|vm_compute; discriminate|exact Logic.I|].
  { split; [|split]; vm_compute; repeat split; try congruence.
    repeat constructor; cbn; intuition discriminate. }
  { intros x O. assert (X : x = one).
    { inversion O as [| |m e I O' E]; subst. destruct I as [<-|[<-|[]]]; cbn in O'; inversion O' as [|l y I O2 E|]; subst.
      destruct I as [<-|[<-|[]]]; inversion O2. auto. }
    subst x. split; [|reflexivity].
    exists [], (str "1"), [], []. split; auto. split; auto. split; [right|auto]. split; [split; [discriminate|repeat constructor; vm_compute; discriminate]|vm_compute; discriminate]. }
  exists jar'. split; [exact S|]. assert (G1 := G 2000). apply G1; vm_compute; congruence.
Qed.

Print Assumptions C65_json_set_get_partial.
Print Assumptions C65_json_scalars.
