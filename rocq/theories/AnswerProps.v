(** C104: texts instead of pages, and what is left of a panic.

    The specification: a request has at most one answer, a status, a content type and a body; what a reader sees of a body depends on the character
    set that its content type names, and on the reader's own default if it names none. *)
From Coq Require Import String List NArith Bool Lia PeanoNat.
From Verif Require Import CodecModel CodecUtf8 DomWire SmallModel AnswerModel.
Import ListNotations.
Local Open Scope string_scope.
Local Open Scope list_scope.
Local Open Scope N_scope.

(** ** Specification *)

(** A content type names UTF-8. *)
Definition names_utf8 (ct : bytes) : Prop := exists a b, ct = a ++ str "charset=utf-8" ++ b.
(** What a reader with the default decoder [d] shows for an answer. *)
Inductive shows (d : bytes -> list N) : N * bytes * bytes -> list N -> Prop :=
| sh_utf8 st ct cps : names_utf8 ct -> Forall scalar cps -> shows d (st, ct, flat_map encode cps) cps
| sh_default st ct body : ~ names_utf8 ct -> shows d (st, ct, body) (d body).
(** A decoder that agrees with ASCII. *)
Definition ascii_compatible (d : bytes -> list N) : Prop := forall b, Forall (fun c => c < 128) b -> d b = b.
(** windows-1252, the default of the HTML standard for most locales (Encoding standard, index-windows-1252). *)
Definition windows_1252 (b : bytes) : list N :=
  map (fun c => if (128 <=? c) && (c <? 160) then
    nth (N.to_nat (c - 128))
      [8364; 129; 8218; 402; 8222; 8230; 8224; 8225; 710; 8240; 352; 8249; 338; 141; 381; 143;
       144; 8216; 8217; 8220; 8221; 8226; 8211; 8212; 732; 8482; 353; 8250; 339; 157; 382; 376] c
    else c) b.

(** Messages that neither end the request nor complain. *)
Definition quiet {K} (m : @amsg K) : Prop := match m with Panic _ | PlainResponse _ => False | _ => True end.
Definition plain_free {K} (m : @amsg K) : Prop := match m with PlainResponse _ => False | _ => True end.
Definition panic_free {K} (m : @amsg K) : Prop := match m with Panic _ => False | _ => True end.

Section Props.
  Context {A R K : Type} (keqb : K -> K -> bool) (start_app : bytes -> @call A K) (plains : A -> option (bytes -> handled))
          (app_call : A -> N -> option R -> @call A K) (build : list N -> bytes + bytes).
  Notation server := (@server A R K).
  Notation reach := (@reach A R K keqb start_app plains app_call build).
  Notation process := (@process_message A R K keqb app_call build).
  Notation started := (@started A R K start_app plains).

  (** A callback has panicked: it was called, sent messages, and ended with a panic. *)
  Definition callback_panicked : Prop := exists a cb r ms m, app_call a cb r = Panics ms m.

  Lemma call_app_grows s cb r s1 : call_app app_call s cb r = Some s1 ->
    s_answer s1 = s_answer s /\ s_dom s1 = s_dom s /\ s_fetch s1 = s_fetch s /\ s_flight s1 = s_flight s /\
    exists ms a, app_call (s_app s) cb r = Returns ms a /\ s_queue s1 = s_queue s ++ map FromApp ms.
  Proof.
    unfold call_app. intros H. destruct (app_call (s_app s) cb r) as [ms a|ms m] eqn:E; cbn [after sent] in H; [|discriminate].
    injection H as <-. cbn. repeat (split; [reflexivity|]). exists ms, a. auto.
  Qed.
  Lemma call_app_dies s cb r : call_app app_call s cb r = None -> callback_panicked.
  Proof.
    unfold call_app. intros H. destruct (app_call (s_app s) cb r) as [ms a|ms m] eqn:E; cbn [after sent] in H; [discriminate|].
    exists (s_app s), cb, r, ms, m. exact E.
  Qed.

  (** What the queue holds grows at its end only. *)
  Lemma quiet_step s m o : quiet m -> process s (FromApp m) = o ->
    match o with
    | None => callback_panicked
    | Some s1 => s_answer s1 = s_answer s /\ exists more, s_queue s1 = s_queue s ++ more
    end.
  Proof.
    intros Q <-. destruct m as [u|m|cb|cb k|b]; try (destruct Q; fail); cbn [process_message].
    - cbn. split; auto. exists []. rewrite app_nil_r. reflexivity.
    - destruct (call_app app_call s cb None) as [s1|] eqn:E; [|exact (call_app_dies _ _ _ E)].
      destruct (call_app_grows _ _ _ _ E) as (A1 & _ & _ & _ & ms & a & _ & Q1). split; auto. exists (map FromApp ms). exact Q1.
    - destruct (kget keqb (s_fetch s) k) as [[cbs|r]|].
      + cbn. split; auto. exists []. rewrite app_nil_r. reflexivity.
      + destruct (call_app app_call s cb (Some r)) as [s1|] eqn:E; [|exact (call_app_dies _ _ _ E)].
        destruct (call_app_grows _ _ _ _ E) as (A1 & _ & _ & _ & ms & a & _ & Q1). split; auto. exists (map FromApp ms). exact Q1.
      + cbn. split; auto. exists []. rewrite app_nil_r. reflexivity.
  Qed.

  (** *** Texts *)

  (** Where a request with a text is after [n] messages: the text waits behind the rest of what the start has sent, or it has been sent. *)
  Definition waits (b : bytes) (ms : list (@amsg K)) (n : nat) (s : server) : Prop :=
    (s_answer s = None /\ (n <= length ms)%nat /\ exists more, s_queue s = map FromApp (skipn n ms) ++ FromApp (PlainResponse b) :: more) \/
    (s_answer s = Some (Response 200 Plain b) /\ n = S (length ms)).

  (** The program gives a text for the URL: after the messages sent before it, and one more, the answer is that text with status 200 and type text/plain,
      whatever the network, the timer and the callbacks do; before, there is no answer; and without a panic in a callback the task does not end. *)
  Theorem C104_plain url ms a h b n o : start_app url = Returns ms a -> plains a = Some h -> h url = Text b -> Forall quiet ms -> reach url n o ->
    match o with
    | Some s => waits b ms n s
    | None => callback_panicked
    end.
  Proof.
    intros S0 P Hu Q H. induction H as [|n s o H IH Rc|n s o H IH Mv].
    - unfold AnswerModel.started, entry. rewrite S0. unfold try_get_plain. rewrite P, Hu. cbn [after sent]. left. split; auto. split; [lia|].
      exists []. cbn [s_queue skipn]. rewrite map_app. reflexivity.
    - destruct Rc as [s m q A0 E]. destruct IH as [(_ & L & more & Eq)|(A1 & _)]; [|congruence]. rewrite E in Eq.
      destruct (Nat.eq_dec n (length ms)) as [->|Ne].
      + rewrite skipn_all in Eq. cbn in Eq. injection Eq as -> ->. cbn. right. split; auto.
      + destruct (skipn n ms) as [|m0 t] eqn:Sk.
        { exfalso. apply (f_equal (@length _)) in Sk. rewrite skipn_length in Sk. cbn in Sk. lia. }
        cbn in Eq. injection Eq as -> Eq.
        assert (quiet m0) as Q0.
        { rewrite Forall_forall in Q. apply Q. rewrite <- (firstn_skipn n ms), Sk. apply in_or_app. right. left. reflexivity. }
        assert (skipn (S n) ms = t) as Sk1.
        { clear - Sk. revert ms Sk. induction n as [|n IH]; intros [|x xs] Sk; cbn in *; try discriminate; [congruence|]. rewrite <- (IH _ Sk). reflexivity. }
        pose proof (quiet_step (push s q (s_flight s)) m0 _ Q0 eq_refl) as G.
        destruct (process (push s q (s_flight s)) (FromApp m0)) as [s1|]; [|exact G]. destruct G as (A1 & more1 & Q1). left.
        split; [rewrite A1; exact A0|]. split; [lia|]. exists (more ++ more1). rewrite Q1, Sk1. cbn [push s_queue]. rewrite Eq.
        rewrite <- app_assoc. reflexivity.
    - destruct Mv as [s A0 E W|s f1 k f2 r F|s].
      + exfalso. destruct IH as [(_ & _ & more & Eq)|(A1 & _)]; [|congruence]. rewrite E in Eq. destruct (map FromApp (skipn n ms)); discriminate.
      + destruct IH as [(A0 & L & more & Eq)|(A1 & E1)]; [left|right]; cbn; auto. split; auto. split; auto.
        rewrite Eq. eexists. rewrite <- app_assoc. reflexivity.
      + destruct IH as [(A0 & L & more & Eq)|(A1 & E1)]; [left|right]; cbn; auto. split; auto. split; auto.
        rewrite Eq. eexists. rewrite <- app_assoc. reflexivity.
  Qed.

  (** No text for the URL and no text sent by the program itself: the answer is the page for the updates received so far, or an error. *)
  Definition no_text (url : bytes) : Prop :=
    (forall ms a, start_app url = Returns ms a -> Forall plain_free ms /\ forall h, plains a = Some h -> forall b, h url <> Text b) /\
    (forall a cb r ms a1, app_call a cb r = Returns ms a1 -> Forall plain_free ms).
  (** No complaints: the program sends the message of a panic only when it panics. *)
  Definition no_complaint (url : bytes) : Prop :=
    (forall ms a, start_app url = Returns ms a -> Forall panic_free ms) /\
    (forall a cb r ms a1, app_call a cb r = Returns ms a1 -> Forall panic_free ms).

  (** Every message in the queue that comes from the program was sent by a call that returned. *)
  Definition from_app (P : @amsg K -> Prop) (m : @msg R K) : Prop := match m with FromApp m => P m | _ => True end.
  Lemma from_app_map (P : @amsg K -> Prop) ms : Forall P ms -> Forall (from_app P) (map FromApp ms).
  Proof. induction 1; cbn; constructor; auto. Qed.

  Lemma call_all_inv (P : @amsg K -> Prop) cbs r : (forall a cb r ms a1, app_call a cb r = Returns ms a1 -> Forall P ms) ->
    forall s s1, Forall (from_app P) (s_queue s) -> call_all app_call s cbs r = Some s1 ->
    s_answer s1 = s_answer s /\ s_dom s1 = s_dom s /\ Forall (from_app P) (s_queue s1).
  Proof.
    intros C. induction cbs as [|cb t IH]; intros s s1 F H; cbn in H; [injection H as <-; auto|].
    destruct (call_app app_call s cb (Some r)) as [s2|] eqn:E; [|discriminate].
    destruct (call_app_grows _ _ _ _ E) as (A1 & D1 & _ & _ & ms & a & Ca & Q1).
    destruct (IH s2 s1) as (A2 & D2 & F2); auto.
    - rewrite Q1. apply Forall_app. split; auto. apply from_app_map. eapply C. exact Ca.
    - split; [congruence|]. split; [congruence|auto].
  Qed.

  Lemma process_inv (P : @amsg K -> Prop) s m s1 : (forall a cb r ms a1, app_call a cb r = Returns ms a1 -> Forall P ms) ->
    Forall (from_app P) (s_queue s) -> from_app P m -> s_answer s = None -> process s m = Some s1 ->
    Forall (from_app P) (s_queue s1) /\
    (s_answer s1 = None \/ s_answer s1 = Some (build_response build s1) \/
     (exists b, P (PlainResponse b) /\ s_answer s1 = Some (Response 200 Plain b)) \/
     (exists b, P (Panic b) /\ s_answer s1 = Some (Response 500 Plain b))).
  Proof.
    intros C F M A0 H. destruct m as [[u|b|cb|cb k|b]| |k r]; cbn [process_message from_app] in *.
    - injection H as <-. cbn. auto.
    - injection H as <-. cbn. split; auto. right. right. right. exists b. auto.
    - destruct (call_app_grows _ _ _ _ H) as (A1 & _ & _ & _ & ms & a & Ca & Q1). split; [|left; congruence].
      rewrite Q1. apply Forall_app. split; auto. apply from_app_map. eapply C. exact Ca.
    - destruct (kget keqb (s_fetch s) k) as [[cbs|r]|].
      + injection H as <-. cbn. auto.
      + destruct (call_app_grows _ _ _ _ H) as (A1 & _ & _ & _ & ms & a & Ca & Q1). split; [|left; congruence].
        rewrite Q1. apply Forall_app. split; auto. apply from_app_map. eapply C. exact Ca.
      + injection H as <-. cbn. auto.
    - injection H as <-. cbn. split; auto. right. right. left. exists b. auto.
    - injection H as <-. cbn. split; auto.
    - destruct (kget keqb (s_fetch s) k) as [[cbs|r1]|].
      + destruct (call_all app_call (with_fetch s (kdel keqb (s_fetch s) k) (s_flight s)) cbs r) as [s2|] eqn:E; [|discriminate].
        injection H as <-. destruct (call_all_inv P cbs r C (with_fetch s (kdel keqb (s_fetch s) k) (s_flight s)) s2) as (A2 & D2 & F2); auto. cbn in *. split; auto. left. congruence.
      + discriminate.
      + injection H as <-. cbn. auto.
  Qed.

  Lemma reach_inv (P : @amsg K -> Prop) url n o :
    (forall a, started url = Some a -> Forall (from_app P) (s_queue a)) ->
    (forall a cb r ms a1, app_call a cb r = Returns ms a1 -> Forall P ms) -> reach url n o ->
    forall s, o = Some s -> Forall (from_app P) (s_queue s) /\
    (s_answer s = None \/ s_answer s = Some (build_response build s) \/
     (exists b, P (PlainResponse b) /\ s_answer s = Some (Response 200 Plain b)) \/
     (exists b, P (Panic b) /\ s_answer s = Some (Response 500 Plain b))).
  Proof.
    intros St C H. induction H as [|n s o H IH Rc|n s o H IH Mv]; intros s1 E.
    - split; [exact (St _ E)|left]. unfold AnswerModel.started in E. destruct (after _); [|discriminate]. injection E as <-. reflexivity.
    - destruct (IH s eq_refl) as (F & _). destruct Rc as [s m q A0 Q]. rewrite Q in F. inversion F as [|x y Fm Fq]; subst.
      apply (process_inv P (push s q (s_flight s)) m s1 C); auto.
    - destruct (IH s eq_refl) as (F & D). destruct Mv as [s A0 Q W|s f1 k f2 r Fl|s]; injection E as <-; cbn.
      + auto.
      + split; [apply Forall_app; split; auto; constructor; cbn; auto|exact D].
      + split; [apply Forall_app; split; auto; constructor; cbn; auto|exact D].
  Qed.

  (** *** Pages *)

  (** Without a text for the URL: what is answered is the page for the updates received, or has status 500; never a text with status 200. *)
  Theorem C104_page url n s r : no_text url -> reach url n (Some s) -> s_answer s = Some r ->
    (exists html, build (s_dom s) = inl html /\ r = Response 200 Html html) \/ (r_status r = 500 /\ r_type r = Plain).
  Proof.
    intros (N1 & N2) H E. destruct (reach_inv plain_free url n (Some s)) with (s := s) as (_ & D); auto.
    - intros s0 E0. unfold AnswerModel.started, entry in E0. destruct (start_app url) as [ms a|ms m]; [|discriminate].
      destruct (N1 _ _ eq_refl) as (F & T). unfold try_get_plain in E0. destruct (plains a) as [h|].
      + specialize (T h eq_refl). destruct (h url) as [|b|m]; [| exfalso; exact (T b eq_refl)|discriminate].
        injection E0 as <-. cbn. apply from_app_map. rewrite app_nil_r. exact F.
      + injection E0 as <-. cbn. apply from_app_map. rewrite app_nil_r. exact F.
    - rewrite E in D. destruct D as [D|[D|[(b & [] & _)|(b & _ & D)]]]; [discriminate| |].
      + injection D as ->. unfold build_response. destruct (build (s_dom s)) as [html|b]; [left; exists html; auto|right; auto].
      + injection D as ->. right. auto.
  Qed.

  (** *** Updates *)

  (** The updates of the document among messages. *)
  Definition updates (ms : list (@amsg K)) : list N := flat_map (fun m => match m with DomUpdate u => [u] | _ => [] end) ms.

  Lemma call_all_dom cbs r : forall s s1, call_all app_call s cbs r = Some s1 -> s_dom s1 = s_dom s.
  Proof.
    induction cbs as [|cb t IH]; intros s s1 H; cbn in H; [injection H as <-; auto|].
    destruct (call_app app_call s cb (Some r)) as [s2|] eqn:E; [|discriminate].
    destruct (call_app_grows _ _ _ _ E) as (_ & D1 & _). rewrite (IH _ _ H). exact D1.
  Qed.
  Lemma process_dom s m s1 : process s m = Some s1 ->
    s_dom s1 = s_dom s ++ match m with FromApp m => updates [m] | _ => [] end.
  Proof.
    intros H. destruct m as [[u|b|cb|cb k|b]| |k r]; cbn [process_message updates flat_map] in *; rewrite ?app_nil_r.
    - injection H as <-. reflexivity.
    - injection H as <-. reflexivity.
    - apply (call_app_grows _ _ _ _ H).
    - destruct (kget keqb (s_fetch s) k) as [[cbs|r]|]; [injection H as <-; reflexivity| |injection H as <-; reflexivity].
      apply (call_app_grows _ _ _ _ H).
    - injection H as <-. reflexivity.
    - injection H as <-. reflexivity.
    - destruct (kget keqb (s_fetch s) k) as [[cbs|r1]|]; [|discriminate|injection H as <-; reflexivity].
      destruct (call_all app_call (with_fetch s (kdel keqb (s_fetch s) k) (s_flight s)) cbs r) as [s2|] eqn:E; [|discriminate].
      injection H as <-. cbn. rewrite (call_all_dom _ _ _ _ E). reflexivity.
  Qed.

  (** No answer comes before all the updates sent by the start are in the document, in their order; the updates of callbacks come after them. *)
  Theorem C104_updates url ms a n s : start_app url = Returns ms a -> Forall quiet ms -> reach url n (Some s) ->
    s_answer s <> None -> exists more, s_dom s = updates ms ++ more.
  Proof.
    intros S0 Q H.
    cut ((s_answer s = None /\ (n < length ms)%nat /\ s_dom s = updates (firstn n ms) /\ exists more, s_queue s = map FromApp (skipn n ms) ++ more) \/
         exists more, s_dom s = updates ms ++ more).
    { intros [(E & _)|D] A1; [contradiction|exact D]. }
    remember (Some s) as o eqn:Eo. revert s Eo. induction H as [|n s0 o H IH Rc|n s0 o H IH Mv]; intros s Eo.
    - unfold AnswerModel.started, entry in Eo. rewrite S0 in Eo. unfold try_get_plain in Eo.
      assert (exists ms2 a2, Some (Server a2 (map FromApp (ms ++ ms2)) [] [] [] None) = Some s) as (ms2 & a2 & E).
      { destruct (plains a) as [h|]; [destruct (h url) as [|b|m]|]; cbn [after sent] in Eo; try discriminate; eauto. }
      injection E as <-. destruct ms as [|m t]; [right; exists []; reflexivity|left]. cbn [s_answer s_dom s_queue length firstn skipn].
      split; [reflexivity|]. split; [apply Nat.lt_0_succ|]. split; [reflexivity|]. exists (map FromApp ms2). rewrite map_app. reflexivity.
    - specialize (IH s0 eq_refl). destruct Rc as [s0 m q A0 E]. pose proof (process_dom _ _ _ Eo) as D. cbn [push s_dom] in D.
      destruct IH as [(_ & L & D0 & more & Eq)|(more & D0)].
      + destruct (skipn n ms) as [|m0 t] eqn:Sk.
        { exfalso. apply (f_equal (@length _)) in Sk. rewrite skipn_length in Sk. cbn in Sk. lia. }
        rewrite E in Eq. cbn in Eq. injection Eq as -> Eq.
        assert (quiet m0) as Q0.
        { rewrite Forall_forall in Q. apply Q. rewrite <- (firstn_skipn n ms), Sk. apply in_or_app. right. left. reflexivity. }
        assert (firstn (S n) ms = firstn n ms ++ [m0] /\ skipn (S n) ms = t) as (Fi & Sk1).
        { clear - Sk. revert ms Sk. induction n as [|n IH]; intros [|x xs] Sk; cbn in *; try discriminate; [injection Sk as -> ->; auto|].
          destruct (IH _ Sk) as (-> & ->). auto. }
        assert (s_dom s = updates (firstn (S n) ms)) as D1.
        { rewrite D, D0, Fi. unfold updates. rewrite flat_map_app. reflexivity. }
        pose proof (quiet_step (push s0 q (s_flight s0)) m0 _ Q0 Eo) as (A1 & more1 & Q1).
        destruct (Nat.eq_dec (S n) (length ms)) as [El|Ne].
        * right. exists []. rewrite app_nil_r, D1, El, firstn_all. reflexivity.
        * left. split; [rewrite A1; exact A0|]. split; [lia|]. split; [exact D1|]. exists (more ++ more1). rewrite Q1, Sk1. cbn [push s_queue]. rewrite Eq.
          rewrite <- app_assoc. reflexivity.
      + right. eexists. rewrite D, D0, <- app_assoc. reflexivity.
    - specialize (IH s0 eq_refl). destruct Mv as [s0 A0 E W|s0 f1 k f2 r F|s0]; injection Eo as <-; cbn [answered push s_answer s_dom s_queue].
      + destruct IH as [(_ & L & D0 & more & Eq)|D]; [|right; exact D]. exfalso. rewrite E in Eq.
        destruct (skipn n ms) as [|m0 t] eqn:Sk; [|discriminate]. apply (f_equal (@length _)) in Sk. rewrite skipn_length in Sk. cbn in Sk. lia.
      + destruct IH as [(A0 & L & D0 & more & Eq)|D]; [left|right; exact D]. split; auto. split; auto. split; auto.
        rewrite Eq. eexists. rewrite <- app_assoc. reflexivity.
      + destruct IH as [(A0 & L & D0 & more & Eq)|D]; [left|right; exact D]. split; auto. split; auto. split; auto.
        rewrite Eq. eexists. rewrite <- app_assoc. reflexivity.
  Qed.

  (** *** Panics *)

  (** A start that panics: the request never has a state from which an answer could come. *)
  Theorem C104_start url ms m n o : start_app url = Panics ms m -> reach url n o -> o = None.
  Proof.
    intros S0 H. induction H as [|n s o H IH Rc|n s o H IH Mv]; try discriminate.
    unfold AnswerModel.started, entry. rewrite S0. reflexivity.
  Qed.
  (** The same for a panic in the function given to [plains]. *)
  Theorem C104_handler url ms a h m n o : start_app url = Returns ms a -> plains a = Some h -> h url = Fails m -> reach url n o -> o = None.
  Proof.
    intros S0 P Hu H. induction H as [|n s o H IH Rc|n s o H IH Mv]; try discriminate.
    unfold AnswerModel.started, entry. rewrite S0. unfold try_get_plain. rewrite P, Hu. reflexivity.
  Qed.
  (** A callback of a timeout that panics when its turn has come: no answer. *)
  Theorem C104_callback s cb q ms m o : s_queue s = FromApp (SetTimeoutZero cb) :: q -> app_call (s_app s) cb None = Panics ms m ->
    receives keqb app_call build s o -> o = None.
  Proof.
    intros Q C H. destruct H as [s m1 q1 A0 Q1]. rewrite Q in Q1. injection Q1 as <- <-. cbn. unfold call_app. cbn. rewrite C. reflexivity.
  Qed.
  (** A complaint without a panic (C51): when its turn has come, it is the answer, with status 500. *)
  Theorem C104_complaint s m q o : s_queue s = FromApp (Panic m) :: q -> receives keqb app_call build s o ->
    exists s1, o = Some s1 /\ s_answer s1 = Some (Response 500 Plain m).
  Proof. intros Q H. destruct H as [s m1 q1 A0 Q1]. rewrite Q in Q1. injection Q1 as <- <-. eexists. split; reflexivity. Qed.
  (** The message of a panic is never the answer: an answer with status 500 says what is missing in the document, a text with status 200 was given by the
      program as a text. *)
  Theorem C104_message url n s r : no_complaint url -> reach url n (Some s) -> s_answer s = Some r ->
    (exists html, build (s_dom s) = inl html /\ r = Response 200 Html html) \/ (exists e, build (s_dom s) = inr e /\ r = Response 500 Plain e) \/
    (exists b, r = Response 200 Plain b).
  Proof.
    intros (N1 & N2) H E. destruct (reach_inv panic_free url n (Some s)) with (s := s) as (_ & D); auto.
    - intros s0 E0. unfold AnswerModel.started, entry in E0. destruct (start_app url) as [ms a|ms m]; [|discriminate].
      pose proof (N1 _ _ eq_refl) as F. unfold try_get_plain in E0. destruct (plains a) as [h|]; [destruct (h url) as [|b|m]|]; try discriminate;
        injection E0 as <-; cbn; apply from_app_map; apply Forall_app; split; auto; repeat constructor.
    - rewrite E in D. destruct D as [D|[D|[(b & _ & D)|(b & [] & _)]]]; [discriminate| |].
      + injection D as ->. unfold build_response. destruct (build (s_dom s)) as [html|b]; [left; exists html; auto|right; left; exists b; auto].
      + injection D as ->. right. right. exists b. auto.
  Qed.
End Props.

(** *** What is sent *)

(** Requests for different paths or queries are different URLs for the application; the path of a request has no question mark. *)
Theorem C104_url p q p1 q1 : ~ In 63 p -> ~ In 63 p1 -> page_url p q = page_url p1 q1 -> p = p1 /\ q = q1.
Proof.
  revert p1. induction p as [|c p IH]; intros [|c1 p1] H H1 E.
  - destruct q as [q|], q1 as [q1|]; cbn in E; try discriminate; auto. injection E as ->. auto.
  - exfalso. destruct q as [q|], q1 as [q1|]; cbn in E; try discriminate; injection E as E0 E; apply H1; left; congruence.
  - exfalso. destruct q as [q|], q1 as [q1|]; cbn in E; try discriminate; injection E as E0 E; apply H; left; congruence.
  - assert (c = c1 /\ page_url p q = page_url p1 q1) as (-> & E1).
    { destruct q as [q|], q1 as [q1|]; cbn in E |- *; injection E; auto. }
    destruct (IH p1) as (-> & ->); auto; intros X; [apply H|apply H1]; right; exact X.
Qed.
Example C104_url_case : page_url (str "/a") (Some (str "b?c")) = str "/a?b?c" /\ ~ In 63 (str "/a").
Proof. split; [reflexivity|]. cbn. intros [X|[X|[]]]; discriminate. Qed.

(** An ASCII text is shown as it is by every reader whose default agrees with ASCII, also in watch mode. *)
Theorem C104_text_partial watch d b : ascii_compatible d -> Forall (fun c => c < 128) b -> forall t,
  shows d (sent_response watch (Response 200 Plain b)) t <-> t = b.
Proof.
  intros D F t. assert (sent_response watch (Response 200 Plain b) = (200, str "text/plain", b)) as ->.
  { destruct watch as [[w s]|]; reflexivity. }
  assert (~ names_utf8 (str "text/plain")) as N.
  { intros (x & y & E). apply (f_equal (@length _)) in E. rewrite !app_length in E. cbn in E. lia. }
  split.
  - intros H. inversion H; subst; [contradiction|]. apply D. exact F.
  - intros ->. rewrite <- (D b F) at 2. constructor. exact N.
Qed.
(** A page is shown as it was written, by every reader. *)
Theorem C104_html d cps : Forall scalar cps -> shows d (sent_response None (Response 200 Html (flat_map encode cps))) cps.
Proof. intros F. apply sh_utf8; auto. exists (str "text/html; "), []. reflexivity. Qed.

(** The text U+00E9 is shown as two other characters by a reader whose default is windows-1252: the content type names no character set. *)
Theorem C104_charset_refuted : exists cps, Forall scalar cps /\ ascii_compatible windows_1252 /\
  shows windows_1252 (sent_response None (Response 200 Plain (flat_map encode cps))) [195; 169] /\
  ~ shows windows_1252 (sent_response None (Response 200 Plain (flat_map encode cps))) cps.
Proof.
  assert (~ names_utf8 (str "text/plain")) as N.
  { intros (x & y & E). apply (f_equal (@length _)) in E. rewrite !app_length in E. cbn in E. lia. }
  exists [233]. split; [constructor; [left; lia|constructor]|]. split; [|split].
  - intros b F. unfold windows_1252. induction F as [|c t L F IH]; [reflexivity|]. cbn [map]. rewrite IH.
    replace (128 <=? c) with false by (symmetry; apply N.leb_gt; exact L). reflexivity.
  - exact (sh_default windows_1252 200 (str "text/plain") [195; 169] N).
  - intros H. inversion H; subst; contradiction.
Qed.

(** ** Examples *)

Module AnswerDemo.
  (** An application whose state is the number of calls; the requests to other servers are numbers. *)
  Definition start (url : bytes) : @call N N :=
    if bytes_eqb url (str "/panic") then Panics [DomUpdate 1] (str "boom")
    else if bytes_eqb url (str "/late") then Returns [DomUpdate 1; SetTimeoutZero 8] 0
    else if bytes_eqb url (str "/odd") then Returns [DomUpdate 1; Panic (str "odd")] 0
    else Returns [DomUpdate 1; SetTimeoutZero 7; FetchRequest 9 5] 0.
  Definition handler (url : bytes) : handled :=
    if bytes_eqb url (str "/robots.txt") then Text (str "Disallow: /") else if bytes_eqb url (str "/fails") then Fails (str "bad") else NoText.
  Definition plains (a : N) : option (bytes -> handled) := Some handler.
  (** The callback 7 updates the document, 8 panics, 9 takes a response and updates the document. *)
  Definition callback (a : N) (cb : N) (r : option N) : @call N N :=
    if cb =? 8 then Panics [] (str "late") else Returns [DomUpdate (cb * 10 + match r with Some r => r | None => 0 end)] (a + 1).
  Definition page (us : list N) : bytes + bytes := match us with [] => inr (str "Missing <html> element") | _ => inl us end.
  Notation reach := (@reach N N N N.eqb start plains callback page).
  Notation process := (@process_message N N N N.eqb callback page).

  (** The loop with a network that answers at once, for tests: [n] messages are received. *)
  Fixpoint go (n : nat) (s : @server N N N) : option (@server N N N) :=
    match n with
    | O => Some s
    | S n =>
        match s_answer s, s_queue s with
        | Some _, _ => Some s
        | None, m :: q => match process (push s q (s_flight s)) m with Some s1 => go n s1 | None => None end
        | None, [] =>
            match s_flight s with
            | k :: f => go n (push s ([] ++ [FetchResponse k 3]) f)
            | [] => if Nat.eqb (waiting s) 0 then Some (answered s (build_response page s)) else Some s
            end
        end
    end.
  Lemma go_reach url n : forall k s, reach url k (Some s) -> exists j, reach url j (go n s).
  Proof.
    induction n as [|n IH]; intros k s H; cbn; [eauto|].
    destruct (s_answer s) eqn:A0; [eauto|]. destruct (s_queue s) as [|m q] eqn:Q.
    - destruct (s_flight s) as [|f fs] eqn:F.
      + destruct (Nat.eqb_spec (waiting s) 0); [|eauto]. exists k. eapply re_move; [exact H|]. constructor; auto.
      + apply (IH k). eapply re_move; [exact H|]. pose proof (st_net page s [] f fs 3 F) as M. rewrite Q in M. exact M.
    - assert (reach url (S k) (process (push s q (s_flight s)) m)) as H1 by (eapply re_recv; [exact H|]; constructor; auto).
      destruct (process (push s q (s_flight s)) m) as [s1|]; eauto.
  Qed.
  Definition result (url : bytes) : option (option response) :=
    match @started N N N start plains url with Some s => option_map s_answer (go 20 s) | None => None end.
  Lemma result_reach url x : result url = x -> @started N N N start plains url <> None ->
    exists n o, reach url n o /\ option_map s_answer o = x.
  Proof.
    unfold result. intros <- S0. pose proof (re_start N.eqb start plains callback page url) as H.
    destruct (started start plains url) as [s|]; [|contradiction].
    destruct (go_reach url 20 0 s H) as (j & Hj). exists j, (go 20 s). auto.
  Qed.
End AnswerDemo.

(** A text is given although the start has set a timeout and sent a request. *)
Example C104_plain_case :
  AnswerDemo.start (str "/robots.txt") = Returns [DomUpdate 1; SetTimeoutZero 7; FetchRequest 9 5] 0 /\
  Forall (@quiet N) [DomUpdate 1; SetTimeoutZero 7; FetchRequest 9 5] /\
  exists n s, AnswerDemo.reach (str "/robots.txt") n (Some s) /\ s_answer s = Some (Response 200 Plain (str "Disallow: /")).
Proof.
  split; [reflexivity|]. split; [repeat constructor|].
  destruct (AnswerDemo.result_reach (str "/robots.txt") (Some (Some (Response 200 Plain (str "Disallow: /"))))) as (n & [s|] & H & E);
    [vm_compute; reflexivity|vm_compute; discriminate| |discriminate]. exists n, s. split; auto. injection E. auto.
Qed.
(** Another URL gives a page, with what the timeout and the response have added. *)
Example C104_page_case :
  no_text AnswerDemo.start AnswerDemo.plains AnswerDemo.callback (str "/") /\
  exists n s, AnswerDemo.reach (str "/") n (Some s) /\ s_answer s = Some (Response 200 Html [1; 70; 93]).
Proof.
  split.
  - split.
    + intros ms a E. injection E as <- <-. split; [repeat constructor|]. intros h E b. injection E as <-. discriminate.
    + intros a cb r ms a1. unfold AnswerDemo.callback. destruct (cb =? 8); intros E; [discriminate|]. injection E as <- _. repeat constructor.
  - destruct (AnswerDemo.result_reach (str "/") (Some (Some (Response 200 Html [1; 70; 93])))) as (n & [s|] & H & E);
      [vm_compute; reflexivity|vm_compute; discriminate| |discriminate]. exists n, s. split; auto. injection E. auto.
Qed.
(** Panics in the start, in the function given to [plains] and in a timeout; the last one leaves no state behind. *)
Example C104_panic_case :
  AnswerDemo.start (str "/panic") = Panics [DomUpdate 1] (str "boom") /\
  AnswerDemo.handler (str "/fails") = Fails (str "bad") /\
  no_complaint AnswerDemo.start AnswerDemo.callback (str "/late") /\
  exists n, AnswerDemo.reach (str "/late") n None.
Proof.
  split; [reflexivity|]. split; [reflexivity|]. split.
  - split.
    + intros ms a E. injection E as <- <-. repeat constructor.
    + intros a cb r ms a1. unfold AnswerDemo.callback. destruct (cb =? 8); intros E; [discriminate|]. injection E as <- _. repeat constructor.
  - destruct (AnswerDemo.result_reach (str "/late") None) as (n & [s|] & H & E);
      [vm_compute; reflexivity|vm_compute; discriminate|discriminate|]. exists n. exact H.
Qed.
(** A complaint that is no panic (C51) is the one way to an answer with its message. *)
Example C104_complaint_case :
  exists n s, AnswerDemo.reach (str "/odd") n (Some s) /\ s_answer s = Some (Response 500 Plain (str "odd")).
Proof.
  destruct (AnswerDemo.result_reach (str "/odd") (Some (Some (Response 500 Plain (str "odd"))))) as (n & [s|] & H & E);
    [vm_compute; reflexivity|vm_compute; discriminate| |discriminate]. exists n, s. split; auto. injection E. auto.
Qed.

(** C104 fails for panics: the answer with status 500 and the message of the panic, which the server has code for, is never given. *)
Theorem C104_panic_refuted : exists url ms m, AnswerDemo.start url = Panics ms m /\
  ~ exists n s r, AnswerDemo.reach url n (Some s) /\ s_answer s = Some r.
Proof.
  exists (str "/panic"), [DomUpdate 1], (str "boom"). split; [reflexivity|]. intros (n & s & r & H & _).
  assert (AnswerDemo.start (str "/panic") = Panics [DomUpdate 1] (str "boom")) as E by reflexivity.
  pose proof (C104_start _ _ _ _ _ _ _ _ _ _ E H) as C. discriminate.
Qed.
