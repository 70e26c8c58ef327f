(** C60: handlers receive what happened, and decide on the default action where they are asked. *)
From Coq Require Import String List NArith ZArith Bool Lia.
From Verif Require Import CodecModel CodecJsModel CodecSpec CodecProofs CodecProps DomWire BridgeModel EventModel.
Import ListNotations.
Local Open Scope string_scope.
Local Open Scope list_scope.
Local Open Scope N_scope.

(** ** Specification *)

Section Spec.
  Variable A : Type.

  (** The events a listener is for: those of its type that reach its element; the hook is for keys pressed anywhere. *)
  Definition concerns (h : handler A) (e : event) : Prop :=
    match h with
    | HookKeyDown _ => e_type e = str "keydown" /\ e_document e = true
    | _ => e_element e = true /\
        e_type e = str match h with
                       | OnClick _ => "click" | OnMouseDown _ => "mousedown" | OnMouseUp _ => "mouseup" | OnMouseEnter _ => "mouseenter"
                       | OnMouseLeave _ => "mouseleave" | OnInput _ => "input" | OnChange _ => "change" | OnBlur _ => "blur"
                       | OnKeyDown _ | HookKeyDown _ => "keydown" | OnDropfile _ => "drop" | OnLoad _ => "load"
                       end
    end.

  (** [happens h e a o]: what an event which concerns the listener [h] does: the handler runs once, on the data of the
      event; [o] is the state of the application after it, whether the default action was prevented, and whether the event
      was stopped.  Inputs are the events of elements with a text; a drop with no file runs nothing. *)
  Inductive happens : handler A -> event -> A -> A * bool * bool -> Prop :=
  | h_click f e a : happens (OnClick f) e a (f a, true, false)
  | h_down f e a a1 b : f a = (a1, b) -> happens (OnMouseDown f) e a (a1, b, false)
  | h_up f e a a1 b : f a = (a1, b) -> happens (OnMouseUp f) e a (a1, b, false)
  | h_enter f e a : happens (OnMouseEnter f) e a (f a, false, false)
  | h_leave f e a : happens (OnMouseLeave f) e a (f a, false, false)
  | h_input f e a v : e_target e = TInput v \/ e_target e = TTextArea v -> happens (OnInput f) e a (f a v, false, false)
  | h_input_other f e a v : e_target e = TOther \/ e_target e = TSelect v -> happens (OnInput f) e a (a, false, false)
  | h_change f e a v : e_target e = TInput v \/ e_target e = TTextArea v \/ e_target e = TSelect v ->
      happens (OnChange f) e a (f a v, false, false)
  | h_change_other f e a : e_target e = TOther -> happens (OnChange f) e a (a, false, false)
  | h_blur f e a : happens (OnBlur f) e a (f a, false, false)
  | h_key f e a k a1 b : e_key e = Some k -> f a k = (a1, b) -> happens (OnKeyDown f) e a (a1, b, b)
  | h_key_none f e a : e_key e = None -> happens (OnKeyDown f) e a (a, false, false)
  | h_hook f e a k a1 b : e_key e = Some k -> f a k = (a1, b) -> happens (HookKeyDown f) e a (a1, b, b)
  | h_hook_none f e a : e_key e = None -> happens (HookKeyDown f) e a (a, false, false)
  | h_drop f e a l files : e_drag e = Some (Some l) -> files <> [] ->
      (forall x, In x files <-> In (IFile x) l) -> map (fun x => IFile x) files = filter (fun i => match i with IFile _ => true | _ => false end) l ->
      happens (OnDropfile f) e a (f a files, true, false)
  | h_drop_none f e a : (forall l x, e_drag e = Some (Some l) -> ~ In (IFile x) l) -> happens (OnDropfile f) e a (a, true, false)
  | h_load f e a : happens (OnLoad f) e a (f a, true, false).
End Spec.

(** The strings and files of an event, as the page hands them over (the total below 2^32). *)
Definition payload (e : event) : list jsval :=
  match e_target e with TInput v | TTextArea v | TSelect v => [VString v] | TOther => [] end ++
  match e_key e with Some k => [VString (k_key k); VString (k_code k)] | None => [] end ++
  match e_drag e with
  | Some (Some l) => flat_map (fun i => match i with IFile f => [VString (fst f); VVec (snd f)] | _ => [] end) l
  | _ => []
  end.
Definition event_ok (e : event) : Prop :=
  Forall val_ok (payload e) /\ 200 + fold_right (fun v n => 10 + val_total v + n) 0 (payload e) < two32.

(** ** Proofs *)

Section Proofs.
  Variable A : Type.
  Variable lossy : bytes -> bytes.
  Notation wasm_callback := (wasm_callback A lossy).
  Notation closure := (closure A).

  Lemma closure_result h a v : let r := snd (closure h a v) in r = VUndefined \/ r = VTrue \/ r = VFalse.
  Proof.
    destruct h; simpl; auto; try (destruct (f a) as [? []]; simpl; auto; fail);
      destruct (get_key_down_event v) as [k|]; simpl; auto; destruct (f a k) as [? []]; simpl; auto.
  Qed.

  Lemma call_undef h a : wasm_callback h a SVUndef = Some (fst (closure h a VUndefined), js_of_val (snd (closure h a VUndefined))).
  Proof.
    unfold wasm_callback. change (js_save_to_buffer SVUndef) with (Some (@None bytes)). cbn [rust_callback].
    unfold rust_callback. pose proof (closure_result h a VUndefined) as R. destruct (closure h a VUndefined) as [a1 r]. simpl in *.
    destruct R as [->|[->| ->]]; reflexivity.
  Qed.

  Lemma call_val h a v : val_ok v -> val_small v -> val_no_object v -> val_total v < two32 -> v <> VUndefined ->
    wasm_callback h a (js_of_val v) = Some (fst (closure h a v), js_of_val (snd (closure h a v))).
  Proof.
    intros H1 H2 H3 H4 H5. unfold EventModel.wasm_callback.
    destruct (C16_js_to_rust_partial v H1 H2 H3 H4 H5) as (b & B1 & B2). rewrite B1.
    unfold rust_callback. rewrite B2. pose proof (closure_result h a v) as R. destruct (closure h a v) as [a1 r]. simpl in *.
    destruct R as [->|[->| ->]]; reflexivity.
  Qed.

  Lemma dropped_in l x : In x (dropped l) <-> In (IFile x) l.
  Proof.
    unfold dropped. rewrite in_flat_map. split.
    - intros ([| |f] & I & J); simpl in J; try contradiction. destruct J as [->|[]]. auto.
    - intros I. exists (IFile x). split; auto. left; auto.
  Qed.
  Lemma dropped_filter l : map (fun x => IFile x) (dropped l) = filter (fun i => match i with IFile _ => true | _ => false end) l.
  Proof. induction l as [|[| |f] l IH]; simpl; auto. f_equal. auto. Qed.

  Lemma dec_files (l : list file) : forall rest, dec_vec (fun item => convert item (fun l =>
      match dec_string l with None => None | Some (name, l) =>
      match dec_buffer l with None => None | Some (d, l) => Some (name, d) end end))
      (VList (map (fun f => VList [VString (fst f); VVec (snd f)]) l) :: rest) = Some (l, rest).
  Proof.
    intros rest. unfold dec_vec.
    assert (E : dec_items (fun item => convert item (fun l =>
      match dec_string l with None => None | Some (name, l) =>
      match dec_buffer l with None => None | Some (d, l) => Some (name, d) end end))
      (map (fun f => VList [VString (fst f); VVec (snd f)]) l) = Some l).
    { induction l as [|[n d] l IH]; auto. cbn [map]. cbn [dec_items convert dec_string dec_buffer fst snd].
      cbn [dec_items convert dec_string dec_buffer fst snd] in IH. rewrite IH. auto. }
    rewrite E. auto.
  Qed.

  Lemma all_map {X Y} (f : X -> Y) (P : Y -> Prop) l : (forall x, In x l -> P (f x)) -> all P (map f l).
  Proof. induction l; simpl; auto. Qed.

  Lemma files_total l : let v := VList [VList (map (fun f : file => VList [VString (fst f); VVec (snd f)]) l)] in
    val_total v <= 20 + fold_right (fun v n => 10 + val_total v + n) 0
      (flat_map (fun f : file => [VString (fst f); VVec (snd f)]) l).
  Proof.
    induction l as [|[n d] l IH]; cbn [map flat_map app fold_right val_total fst snd] in *; lia.
  Qed.

  Lemma flat_dropped l : flat_map (fun i => match i with IFile f => [VString (fst f); VVec (snd f)] | _ => [] end) l =
    flat_map (fun f : file => [VString (fst f); VVec (snd f)]) (dropped l).
  Proof. induction l as [|[| |f] l IH]; simpl; auto. rewrite IH. auto. Qed.

  Lemma sum_app (l m : list jsval) : fold_right (fun v n => 10 + val_total v + n) 0 (l ++ m) =
    fold_right (fun v n => 10 + val_total v + n) 0 l + fold_right (fun v n => 10 + val_total v + n) 0 m.
  Proof. induction l as [|v l IH]; cbn [app fold_right]; [lia|]. rewrite IH. lia. Qed.

  Definition done (o : A * bool * bool) : option (A * bool * bool) := Some o.

  Lemma heard_concerns (h : handler A) e : heard (event_name A h) e = true <-> concerns A h e.
  Proof.
    assert (B : forall x y, bytes_eqb x y = true <-> x = y) by (intros x y; destruct (bytes_eqb_spec x y); intuition discriminate).
    destruct h; unfold heard, event_name, concerns; cbn iota;
      match goal with |- context [bytes_eqb (str ?n) (str "hook_keydown")] =>
        let b := eval vm_compute in (bytes_eqb (str n) (str "hook_keydown")) in change (bytes_eqb (str n) (str "hook_keydown")) with b end;
      cbv iota; rewrite andb_true_iff, B; tauto.
  Qed.

  Lemma deliver_happens h e a : event_ok e -> exists o, on_event A lossy (event_name A h) h e a = Some o /\ happens A h e a o.
  Proof.
    intros [OK SZ].
    assert (TX : forall v, e_target e = TInput v \/ e_target e = TTextArea v \/ e_target e = TSelect v ->
      wasm_callback h a (SVStr v) = Some (fst (closure h a (VString v)), js_of_val (snd (closure h a (VString v))))).
    { intros v T. assert (P : payload e = VString v :: tl (payload e)) by (unfold payload; destruct T as [->|[->| ->]]; reflexivity).
      rewrite P in OK, SZ. inversion OK; subst. apply (call_val h a (VString v)); auto; try exact Logic.I; try discriminate.
      cbn [fold_right val_total] in SZ. cbn [val_total]. lia. }
    assert (KX : forall k, e_key e = Some k ->
      wasm_callback h a (SVArr [SVStr (k_key k); SVStr (k_code k); SVBool (k_alt k); SVBool (k_ctrl k); SVBool (k_shift k); SVBool (k_meta k)])
      = Some (fst (closure h a (VList [VString (k_key k); VString (k_code k); js_bool (k_alt k); js_bool (k_ctrl k); js_bool (k_shift k); js_bool (k_meta k)])),
              js_of_val (snd (closure h a (VList [VString (k_key k); VString (k_code k); js_bool (k_alt k); js_bool (k_ctrl k); js_bool (k_shift k); js_bool (k_meta k)]))))).
    { intros k K. unfold payload in OK, SZ. rewrite K in OK, SZ. rewrite !Forall_app in OK. destruct OK as (_ & OK & _).
      inversion OK as [|? ? O1 O2]; subst. inversion O2 as [|? ? O3 _]; subst. rewrite !sum_app in SZ. cbn [fold_right val_total] in SZ.
      destruct k as [k1 k2 b1 b2 b3 b4]. cbn [k_key k_code k_alt k_ctrl k_shift k_meta] in *.
      assert (E : SVArr [SVStr k1; SVStr k2; SVBool b1; SVBool b2; SVBool b3; SVBool b4] =
        js_of_val (VList [VString k1; VString k2; js_bool b1; js_bool b2; js_bool b3; js_bool b4])) by (destruct b1, b2, b3, b4; reflexivity).
      rewrite E. apply call_val; try discriminate.
      - simpl. split; [exact O1|]. split; [exact O3|]. destruct b1, b2, b3, b4; simpl; auto.
      - simpl. destruct b1, b2, b3, b4; simpl; auto 10.
      - simpl. destruct b1, b2, b3, b4; simpl; auto 10.
      - destruct b1, b2, b3, b4; cbn [val_total js_bool fold_right]; lia. }
    assert (GK : forall k, get_key_down_event (VList [VString (k_key k); VString (k_code k); js_bool (k_alt k); js_bool (k_ctrl k); js_bool (k_shift k); js_bool (k_meta k)]) = Some k).
    { intros [k1 k2 b1 b2 b3 b4]. simpl. destruct b1, b2, b3, b4; reflexivity. }
    destruct h; unfold on_event, event_name.
    - exists (f a, true, false). split; [|constructor]. rewrite call_undef. reflexivity.
    - destruct (f a) as [a1 b] eqn:F. exists (a1, b, false). split; [|constructor; auto].
      rewrite call_undef. cbn [EventModel.closure]. rewrite F. destruct b; reflexivity.
    - destruct (f a) as [a1 b] eqn:F. exists (a1, b, false). split; [|constructor; auto].
      rewrite call_undef. cbn [EventModel.closure]. rewrite F. destruct b; reflexivity.
    - exists (f a, false, false). split; [|constructor]. rewrite call_undef. reflexivity.
    - exists (f a, false, false). split; [|constructor]. rewrite call_undef. reflexivity.
    - destruct (e_target e) as [v|v|v|] eqn:T.
      + exists (f a v, false, false). split; [|constructor; auto]. rewrite (TX v) by auto. reflexivity.
      + exists (f a v, false, false). split; [|constructor; auto]. rewrite (TX v) by auto. reflexivity.
      + exists (a, false, false). split; [reflexivity|apply h_input_other with v; auto].
      + exists (a, false, false). split; [reflexivity|apply h_input_other with []; auto].
    - destruct (e_target e) as [v|v|v|] eqn:T.
      + exists (f a v, false, false). split; [|constructor; auto]. rewrite (TX v) by auto. reflexivity.
      + exists (f a v, false, false). split; [|constructor; auto]. rewrite (TX v) by auto. reflexivity.
      + exists (f a v, false, false). split; [|constructor; auto]. rewrite (TX v) by auto. reflexivity.
      + exists (a, false, false). split; [reflexivity|apply h_change_other; auto].
    - exists (f a, false, false). split; [|constructor]. rewrite call_undef. reflexivity.
    - destruct (e_key e) as [k|] eqn:K.
      + destruct (f a k) as [a1 b] eqn:F. exists (a1, b, b). split; [|eapply h_key; eauto].
        rewrite (KX k eq_refl). cbn [EventModel.closure]. rewrite GK, F. destruct b; reflexivity.
      + exists (a, false, false). split; [reflexivity|apply h_key_none; auto].
    - destruct (e_drag e) as [[l|]|] eqn:D.
      + destruct (dropped l) as [|x files] eqn:DL.
        * exists (a, true, false). split; [reflexivity|]. apply h_drop_none. intros l2 x E I. rewrite D in E. inversion E; subst.
          apply dropped_in in I. rewrite DL in I. destruct I.
        * exists (f a (x :: files), true, false). split.
          -- set (v := VList [VList (map (fun f : file => VList [VString (fst f); VVec (snd f)]) (x :: files))]).
             assert (E : SVArr [SVArr (map (fun f => SVArr [SVStr (fst f); SVBytes (snd f)]) (x :: files))] = js_of_val v).
             { unfold v. cbn [js_of_val map]. do 2 f_equal. f_equal; auto. rewrite map_map. f_equal. }
             assert (C : wasm_callback (OnDropfile f) a (js_of_val v) = Some (f a (x :: files), SVUndef)).
             { unfold payload in OK, SZ. rewrite D in OK, SZ. rewrite !Forall_app in OK. destruct OK as (_ & _ & OK).
               rewrite !sum_app in SZ. rewrite flat_dropped, DL in OK, SZ.
               rewrite call_val; try discriminate.
               - assert (GF : get_drop_files v = Some (x :: files)).
                 { exact (f_equal (fun o => match o with None => None | Some (l0, _) => Some l0 end) (dec_files (x :: files) [])). }
                 cbn [EventModel.closure]. rewrite GF. reflexivity.
               - unfold v. cbn [val_ok all]. split; [|exact Logic.I]. apply all_map. intros y Y. cbn [val_ok all].
                 rewrite Forall_forall in OK. split; [|split; [|exact Logic.I]].
                 + apply (OK (VString (fst y))). apply in_flat_map. exists y. split; auto. left; auto.
                 + apply (OK (VVec (snd y))). apply in_flat_map. exists y. split; auto. right; left; auto.
               - unfold v. cbn [val_small all]. split; [|exact Logic.I]. apply all_map. intros y Y. simpl. auto.
               - unfold v. cbn [val_no_object all]. split; [|exact Logic.I]. apply all_map. intros y Y. simpl. auto.
               - pose proof (files_total (x :: files)) as FT. cbv zeta in FT. fold v in FT. lia. }
             rewrite E, C. reflexivity.
          -- apply h_drop with l; auto; [discriminate|intros y; rewrite <- DL; apply dropped_in|rewrite <- DL; apply dropped_filter].
      + exists (a, true, false). split; [reflexivity|]. apply h_drop_none. intros l x E. congruence.
      + exists (a, true, false). split; [reflexivity|]. apply h_drop_none. intros l x E. congruence.
    - destruct (e_key e) as [k|] eqn:K.
      + destruct (f a k) as [a1 b] eqn:F. exists (a1, b, b). split; [|eapply h_hook; eauto].
        rewrite (KX k eq_refl). cbn [EventModel.closure]. rewrite GK, F. destruct b; reflexivity.
      + exists (a, false, false). split; [reflexivity|apply h_hook_none; auto].
    - exists (f a, true, false). split; [|constructor]. rewrite call_undef. reflexivity.
  Qed.
End Proofs.

(** [happens] has one outcome. *)
Lemma files_inj (a b : list file) : map (fun x => IFile x) a = map (fun x => IFile x) b -> a = b.
Proof. revert b. induction a as [|x a IH]; intros [|y b] E; simpl in E; try discriminate; auto. inversion E. f_equal. auto. Qed.

Lemma happens_fun A h e a o1 o2 : happens A h e a o1 -> happens A h e a o2 -> o1 = o2.
Proof.
  intros H1 H2. inversion H1; subst; inversion H2; subst;
    try (repeat match goal with H : _ \/ _ |- _ => destruct H end; congruence).
  - match goal with M1 : map _ files = _, M2 : map _ files0 = _ |- _ => assert (l = l0) by congruence; subst l0; rewrite <- M1 in M2;
      apply files_inj in M2; congruence end.
  - exfalso. destruct files as [|x files]; [congruence|].
    match goal with N : forall l x, _ -> ~ _, D : e_drag e = _, I : forall x, _ <-> _ |- _ =>
      apply (N _ x D); apply I; left; reflexivity end.
  - exfalso. destruct files as [|x files]; [congruence|].
    match goal with N : forall l x, _ -> ~ _, D : e_drag e = _, I : forall x, _ <-> _ |- _ =>
      apply (N _ x D); apply I; left; reflexivity end.
Qed.

(** *** C60: an event which concerns a listener does what [happens] says, and nothing else, through the encodings both
    ways; any other event does nothing to its handler. *)
Theorem C60_handler_runs A lossy (h : handler A) e a o : event_ok e ->
  (deliver A lossy h e a = Some o <->
   (concerns A h e /\ happens A h e a o) \/ (~ concerns A h e /\ o = (a, false, false))).
Proof.
  intros OK. destruct (deliver_happens A lossy h e a OK) as (o1 & D & H). unfold deliver.
  pose proof (heard_concerns A lossy h e) as C. destruct (heard (event_name A h) e).
  - assert (Y : concerns A h e) by tauto. rewrite D. split.
    + intros [= <-]. auto.
    + intros [[_ H2]|[X _]]; [|tauto]. f_equal. eapply happens_fun; eauto.
  - assert (Y : ~ concerns A h e) by (intros X; apply C in X; discriminate). split.
    + intros [= <-]. auto.
    + intros [[X _]|[_ ->]]; tauto.
Qed.

(** A key and two files among three items; the handlers store what they get. *)
Module EventDemo.
  Definition e (t : string) : event :=
    Event (str t) true true (TInput (str "text")) (Some (KeyEvent (str "a") (str "KeyA") false true false false))
          (Some (Some [IFile (str "one.txt", [1; 2]); INotFile; IFile (str "two.bin", [])])).
  Definition on_key : handler (list (bytes * bytes)) :=
    OnKeyDown (fun a k => ((k_key k, k_code k) :: a, k_ctrl k)).
  Definition on_drop : handler (list (bytes * bytes)) := OnDropfile (fun a l => l ++ a).
End EventDemo.

Example C60_case : (forall t, t = "keydown" \/ t = "drop" -> event_ok (EventDemo.e t)) /\
  concerns _ EventDemo.on_key (EventDemo.e "keydown") /\ ~ concerns _ EventDemo.on_drop (EventDemo.e "keydown") /\
  deliver _ (fun b => b) EventDemo.on_key (EventDemo.e "keydown") [] = Some ([(str "a", str "KeyA")], true, true) /\
  deliver _ (fun b => b) EventDemo.on_drop (EventDemo.e "keydown") [] = Some ([], false, false) /\
  deliver _ (fun b => b) EventDemo.on_drop (EventDemo.e "drop") [] =
    Some ([(str "one.txt", [1; 2]); (str "two.bin", [])], true, false).
Proof.
  split; [|split; [split; reflexivity|split; [intros [_ H]; discriminate H|split; [|split]; vm_compute; reflexivity]]].
  intros t [->| ->]; (split; [|vm_compute; reflexivity]); repeat constructor; vm_compute; auto 10.
Qed.
