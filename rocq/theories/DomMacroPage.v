(** The [dom!] macro: a whole page. *)
From Coq Require Import String List NArith Bool Lia.
From Verif Require Import CodecModel DomWire DomModel DomMacroModel DomMacroBuild DomMacroProps.
Import ListNotations.
Local Open Scope string_scope.
Local Open Scope list_scope.
Local Open Scope N_scope.

(** A blank page: html with head and body, without attributes, children and listeners; the next ids and callbacks are not used. *)
Record blank {H} (s : bdom bytes) (n cb : N) (hand : N -> option H) : Prop := {
  bl_ids : 4 <= n;
  bl_new : forall x, n <= x -> b_node s x = None /\ b_reg s x = false /\ b_kids s x = [] /\ b_par s x = None /\ b_listen s (Some x) = [];
  bl_cbs : forall c, cb <= c -> b_cbs s c = false /\ hand c = None;
  bl_html : b_get s 1 = Some (BElement (str "html") []) /\ b_kids s 1 = [2; 3] /\ b_par s 1 = None /\ b_listen s (Some 1) = [];
  bl_head : b_get s 2 = Some (BElement (str "head") []) /\ b_kids s 2 = [] /\ b_par s 2 = Some 1 /\ b_listen s (Some 2) = [];
  bl_body : b_get s 3 = Some (BElement (str "body") []) /\ b_kids s 3 = [] /\ b_par s 3 = Some 1 /\ b_listen s (Some 3) = []
}.

Section Page.
  Context {H : Type}.
  Variable s0 : bdom bytes.
  Notation shows := (@shows H).
  Notation brep := (breplay beq hook_name perm).

  Lemma brep_split (s1 s2 s3 : bdom bytes) q e : brep s1 q [] s2 -> brep s1 (q ++ e) [] s3 -> brep s2 e [] s3.
  Proof.
    intros R. remember (@nil (dcmd bytes)) as er eqn:Er. revert s3. induction R as [s|s c t s' errs s2' L S R IH|]; intros s3 R3; subst; auto; [|discriminate].
    cbn [app] in R3. inversion R3 as [|? ? ? s'' ? ? L2 S2 R2|]; subst. apply IH; auto. congruence.
  Qed.
  (** Commands that only touch what an element is, not where. *)
  Definition own_cmd (P : N) (c : dcmd bytes) : Prop :=
    match c with SetAttr id _ _ | RemoveAttr id _ | CallbackAdd id _ _ => id = P | _ => False end.
  Lemma own_step P c s s' : own_cmd P c -> b_step beq hook_name perm s c = Some s' ->
    (forall x, b_kids s' x = b_kids s x /\ b_par s' x = b_par s x /\ b_reg s' x = b_reg s x) /\
    (forall x, x <> P -> b_node s' x = b_node s x /\ b_listen s' (Some x) = b_listen s (Some x)).
  Proof.
    destruct c as [| | |id k v|id k| | | | | | |id ev cb|]; cbn [own_cmd]; try contradiction; intros X0 E; subst; cbn [b_step] in E.
    1,2: destruct (b_get s P) as [[nm a| |]|]; try discriminate; injection E as <-; cbn; split; auto; intros x X; unfold nupd;
         destruct (N.eqb_spec x P); [contradiction|auto].
    unfold b_callback_add in E. destruct (b_cbs s cb); [injection E as <-; auto|]. destruct (beq ev hook_name).
    - injection E as <-. cbn. auto.
    - destruct (b_get s P); [|discriminate]. injection E as <-. cbn. split; auto. intros x X. split; auto. destruct (N.eqb_spec x P); [contradiction|auto].
  Qed.
  Lemma own_run P e : Forall (own_cmd P) e -> forall s s', brep s e [] s' ->
    (forall x, b_kids s' x = b_kids s x /\ b_par s' x = b_par s x /\ b_reg s' x = b_reg s x) /\
    (forall x, x <> P -> b_node s' x = b_node s x /\ b_listen s' (Some x) = b_listen s (Some x)).
  Proof.
    induction e as [|c e IH]; intros F s s' R; inversion R as [|? ? ? s1 ? ? L S R2|]; subst; auto.
    inversion F as [|? ? F1 F2]; subst. destruct (own_step _ _ _ _ F1 S) as [A B]. destruct (IH F2 _ _ R2) as [C D]. split.
    - intros x. destruct (A x) as (A1 & A2 & A3), (C x) as (C1 & C2 & C3). repeat split; congruence.
    - intros x X. destruct (B x X) as (B1 & B2), (D x X) as (D1 & D2). split; congruence.
  Qed.

  (** A call that is for an attribute. *)
  Definition own_call (c : call H) : Prop := match c with CChild _ | CChildren _ => False | _ => True end.
  Lemma refresh_own P k (w : bworld H) : exists e, w_q (snd (refresh_dom P k w)) = w_q w ++ e /\ Forall (own_cmd P) e.
  Proof.
    unfold refresh_dom. destruct (obeq _ _).
    - exists []. rewrite app_nil_r. auto.
    - eexists. split; [reflexivity|]. repeat constructor.
  Qed.
  Lemma own_call_cmds c P k (w : bworld H) : own_call c -> exists e, w_q (snd (exec_call c P k w)) = w_q w ++ e /\ Forall (own_cmd P) e.
  Proof.
    destruct c as [n v|ev h|x|x|p|l]; cbn [own_call]; try contradiction; intros _; cbn [exec_call].
    - unfold set_attr_value. destruct (beq n (str "class")); [apply refresh_own|]. cbn [snd emit w_q]. eexists. split; [reflexivity|].
      destruct v; repeat constructor.
    - cbn [snd]. eexists. split; [reflexivity|]. repeat constructor.
    - apply refresh_own.
    - apply refresh_own.
  Qed.
  Lemma own_calls_cmds l : Forall own_call l -> forall P k (w : bworld H), exists e, w_q (snd (exec_calls P l k w)) = w_q w ++ e /\ Forall (own_cmd P) e.
  Proof.
    induction l as [|c l IH]; intros F P k w; cbn [exec_calls].
    - exists []. rewrite app_nil_r. auto.
    - inversion F as [|? ? F1 F2]; subst. destruct (own_call_cmds c P k w F1) as (e1 & E1 & G1). destruct (exec_call c P k w) as [k1 w1]. cbn [snd] in E1.
      destruct (IH F2 P k1 w1) as (e2 & E2 & G2). exists (e1 ++ e2). rewrite E2, E1, app_assoc. split; auto. apply Forall_app. auto.
  Qed.
  Lemma own_good l : Forall own_call l -> Forall (goodc s0) l.
  Proof.
    intros F. induction F as [|c l X F IH]; constructor; auto.
    destruct c; try contradiction; [apply attr_good|apply on_good|apply css_good|apply susp_good].
  Qed.

  Lemma exec_calls_app P l1 : forall l2 k (w : bworld H), exec_calls P (l1 ++ l2) k w =
    let '(k1, w1) := exec_calls P l1 k w in exec_calls P l2 k1 w1.
  Proof. induction l1 as [|c l IH]; intros l2 k w; cbn [app exec_calls]; auto. destruct (exec_call c P k w) as [k1 w1]. apply IH. Qed.

  (** Nothing is created for html, head and body. *)
  Lemma create_own w s id name : Inv s0 w s -> perm id = true -> Inv (H := H) s0 (emit w (CreateNode id name)) s.
  Proof.
    intros [i1 i2 i3 i4] Pm. constructor; auto. cbn. eapply brep_snoc; eauto. exact Logic.I. cbn. unfold b_create. rewrite Pm. reflexivity.
  Qed.

  (** head or body: its calls, then its insertion into html. *)
  Lemma part_of_page w s id name calls other : Inv s0 w s -> id = 2 \/ id = 3 -> (id = 2 -> name = str "head" /\ other = 3) -> (id = 3 -> name = str "body" /\ other = 2) ->
    b_get s id = Some (BElement name []) -> b_kids s id = [] -> b_par s id = Some 1 -> b_listen s (Some id) = [] ->
    (exists n a, b_get s 1 = Some (BElement n a)) -> b_par s 1 = None -> (b_kids s 1 = [2; 3] \/ b_kids s 1 = [3; 2]) ->
    Forall (goodc s0) calls -> class_once (flat_map call_attrs calls) ->
    exists s', let w' := snd (exec_call (CChild (PElement name calls)) 1 (Cls None None None None) w) in
      fst (exec_call (CChild (PElement name calls)) 1 (Cls None None None None) w) = Cls None None None None /\
      Inv s0 w' s' /\ w_next w <= w_next w' /\ later w s w' s' /\
      (forall x, x < w_next w -> x <> id -> x <> 1 -> same s s' x) /\
      b_node s' 1 = b_node s 1 /\ b_reg s' 1 = b_reg s 1 /\ b_par s' 1 = None /\ b_listen s' (Some 1) = b_listen s (Some 1) /\
      b_kids s' 1 = [other; id] /\ b_par s' id = Some 1 /\
      shows s' (w_hand w') (fun x => x = id \/ inr (w_next w) (w_next w') x) id
        (WElement name (flat_map call_attrs calls) (flat_map call_styles calls) (flat_map call_susps calls) (flat_map call_events calls) (flat_map shown_call calls)).
  Proof.
    intros I Id N2 N3 Gi Ki Pi Li G1 P1 K1 F On. pose proof (i_next _ _ _ I) as I4. rewrite exec_child_eq, exec_element_eq.
    assert (Fn : from_name name w = (id, w)).
    { destruct Id as [->| ->]; [destruct (N2 eq_refl) as [-> _]|destruct (N3 eq_refl) as [-> _]]; reflexivity. }
    rewrite Fn. cbn [fst snd plain_mount].
    assert (Pm : perm id = true) by (destruct Id as [->| ->]; reflexivity).
    pose proof (create_own w s id name I Pm) as I1. set (w1 := emit w (CreateNode id name)) in *.
    assert (E1 : w_next w1 = w_next w) by reflexivity.
    assert (Id4 : id < 4) by (destruct Id; lia).
    assert (Up : forall y, under s id y -> y < w_next w1).
    { intros y U. inversion U as [|? p ? E U']; subst; [lia|]. rewrite Pi in E. injection E as <-. inversion U' as [|? p ? E U'']; subst; [lia|]. congruence. }
    assert (G : making w1 s id (w_next w1) name [] [] [] [] [] (Cls None None None None) (inr (w_next w1) (w_next w1))).
    { constructor; auto; try (cbn; lia); try (rewrite ?Ki, ?Li; constructor; auto; fail).
      exists []. split; auto. intros x. unfold wanted. destruct (beq x (str "class")); reflexivity. }
    destruct (calls_ok s0 calls F _ s _ _ name [] [] [] [] [] _ I1 G On) as (s2 & I2 & Gm & (M2 & L2 & S2 & P2 & R2)). cbn zeta in *. cbn [app] in Gm.
    set (w2 := snd (exec_calls id calls (Cls None None None None) w1)) in *.
    assert (S1 : same s s2 1) by (apply S2; destruct Id; lia). pose proof S1 as (X1 & X2 & X3 & X4 & X5).
    destruct (g_node _ _ _ _ _ _ _ _ _ _ _ _ Gm) as (a & Ea & Fa).
    (* the insertion *)
    assert (Lg : legal s2 (InsertBefore 1 id None)).
    { cbn. intros U. inversion U as [|? p ? E U']; subst; [destruct Id; lia|]. congruence. }
    assert (E3 : exists s3, b_step beq hook_name perm s2 (InsertBefore 1 id None) = Some s3 /\
      (forall x, b_node s3 x = b_node s2 x) /\ (forall x, b_reg s3 x = b_reg s2 x) /\ (forall x, b_listen s3 x = b_listen s2 x) /\ (forall x, b_cbs s3 x = b_cbs s2 x) /\
      (forall x, b_kids s3 x = if (x =? 1) then [other; id] else b_kids s2 x) /\ (forall x, b_par s3 x = if (x =? id) then Some 1 else b_par s2 x)).
    { destruct G1 as (nm & at1 & G1). cbn [b_step]. unfold b_insert. rewrite (same_get _ _ _ S1), G1, Ea. eexists. split; [reflexivity|].
      unfold place, detach. rewrite P2, Pi. cbn. unfold nupd. rewrite X3.
      assert (Ko : out_of (b_kids s 1) id ++ [id] = [other; id]).
      { destruct Id as [->| ->]; [destruct (N2 eq_refl) as [_ ->]|destruct (N3 eq_refl) as [_ ->]]; destruct K1 as [-> | ->]; reflexivity. }
      repeat split.
      - intros x. destruct (x =? 1); [exact Ko|reflexivity].
      - intros x. destruct (x =? id); reflexivity. }
    destruct E3 as (s3 & St & Y1 & Y2 & Y3 & Y4 & Y5 & Y6). exists s3. cbn zeta. fold w2. change (plain_mount id 1 None w2) with (emit w2 (InsertBefore 1 id None)).
    change (w_next (emit w2 (InsertBefore 1 id None))) with (w_next w2). change (w_hand (emit w2 (InsertBefore 1 id None))) with (w_hand w2).
    assert (Sm : forall x, x <> 1 -> x <> id -> same s2 s3 x).
    { intros x A B. unfold same. rewrite Y1, Y2, Y3, Y5, Y6. destruct (N.eqb_spec x 1); [contradiction|]. destruct (N.eqb_spec x id); [contradiction|]. auto. }
    split; [reflexivity|]. split.
    { destruct I2 as [j1 j2 j3 j4]. constructor; auto.
      - cbn. eapply brep_snoc; eauto.
      - intros x X. cbn in X. destruct (j2 x X) as (A1 & A2 & A3 & A4 & A5). unfold absent. rewrite Y1, Y2, Y3, Y5, Y6.
        destruct (N.eqb_spec x 1); [lia|]. destruct (N.eqb_spec x id); [lia|]. auto.
      - intros c C. rewrite Y4. apply j4. auto. }
    split; [lia|]. split.
    { destruct L2 as [L2 L2']. split; auto. rewrite Y3. auto. }
    split.
    { intros x A B C. eapply same_trans; [apply S2; auto; lia|]. apply Sm; auto. }
    split; [rewrite Y1; auto|]. split; [rewrite Y2; auto|]. split.
    { rewrite Y6. destruct (N.eqb_spec 1 id); [destruct Id; lia|]. congruence. }
    split; [rewrite Y3; auto|]. split; [rewrite Y5, N.eqb_refl; auto|]. split; [rewrite Y6, N.eqb_refl; auto|].
    assert (Kd : b_kids s3 id = b_kids s2 id) by (rewrite Y5; destruct (N.eqb_spec id 1); [destruct Id; lia|auto]).
    apply (sh_element _ _ _ _ _ a); auto.
    - unfold b_get in *. rewrite Y1, Y2. auto.
    - rewrite Y3. apply (g_listen _ _ _ _ _ _ _ _ _ _ _ _ Gm).
    - eapply Forall_impl; [|apply (g_hooks _ _ _ _ _ _ _ _ _ _ _ _ Gm)]. cbn beta. intros e X Y. destruct (X Y) as (c & C1 & C2). exists c. rewrite Y3. auto.
    - rewrite Kd. apply (g_nodup _ _ _ _ _ _ _ _ _ _ _ _ Gm).
    - rewrite Kd. pose proof (g_par _ _ _ _ _ _ _ _ _ _ _ _ Gm) as Q. rewrite Forall_forall in *. intros x X. rewrite Y6. destruct (N.eqb_spec x id); [|auto].
      subst x. destruct (making_in _ _ _ _ _ _ _ _ _ _ _ _ Gm id X) as [_ [A B]]. destruct Id; lia.
    - rewrite Kd. eapply shows_all_mono; [eapply shows_all_frame; [apply (g_shows _ _ _ _ _ _ _ _ _ _ _ _ Gm)| | |]|]; auto.
      + intros x [A B]. apply same_grown. apply Sm; destruct Id; lia.
      + rewrite Y3. intros x; auto.
  Qed.

  Theorem page_ok n cb (hand : N -> option H) ac c2 c3 : blank s0 n cb hand -> Forall own_call ac -> Forall (goodc s0) c2 -> Forall (goodc s0) c3 ->
    class_once (flat_map call_attrs ac) -> class_once (flat_map call_attrs c2) -> class_once (flat_map call_attrs c3) ->
    exists s, let r := exec (PElement (str "html") (ac ++ [CChild (PElement (str "head") c2); CChild (PElement (str "body") c3)])) (BW n cb hand []) in
      let w := snd r in
      fst (fst r) = 1 /\ brep s0 (w_q w) [] s /\
      shows s (w_hand w) (fun x => x = 1 \/ x = 2 \/ x = 3 \/ inr n (w_next w) x) 1
        (WElement (str "html") (flat_map call_attrs ac) (flat_map call_styles ac) (flat_map call_susps ac) (flat_map call_events ac)
          [WElement (str "head") (flat_map call_attrs c2) (flat_map call_styles c2) (flat_map call_susps c2) (flat_map call_events c2) (flat_map shown_call c2);
           WElement (str "body") (flat_map call_attrs c3) (flat_map call_styles c3) (flat_map call_susps c3) (flat_map call_events c3) (flat_map shown_call c3)]) /\
      b_kids s 1 = [2; 3] /\ b_par s 1 = None /\ (forall x, x < n -> x <> 1 -> x <> 2 -> x <> 3 -> same s0 s x) /\
      (forall c h, hand c = Some h -> w_hand w c = Some h).
  Proof.
    intros [b1 b2 b3 (h1 & h2 & h3 & h4) (d1 & d2 & d3 & d4) (y1 & y2 & y3 & y4)] Oc F2 F3 On1 On2 On3.
    rewrite exec_element_eq. change (from_name (str "html") (BW n cb hand [])) with (1, BW n cb hand []). cbn [fst snd].
    assert (Up : forall y, under s0 1 y -> y < 2).
    { intros y U. inversion U as [|? p ? E U']; subst; [lia|]. congruence. }
    assert (I0 : Inv s0 (BW n cb hand []) s0) by (constructor; cbn; auto; constructor).
    pose proof (create_own _ _ 1 (str "html") I0 eq_refl) as I1. set (w1 := emit (BW n cb hand []) (CreateNode 1 (str "html"))) in *.
    assert (E1 : w_next w1 = n) by reflexivity.
    (* the attributes of html *)
    assert (Bl : forall id nm, id = 2 \/ id = 3 -> b_get s0 id = Some (BElement nm []) -> b_kids s0 id = [] -> b_listen s0 (Some id) = [] ->
      shows s0 (w_hand w1) (inr 2 (w_next w1)) id (WElement nm [] [] [] [] [])).
    { intros id nm A B C D. apply (sh_element _ _ _ _ _ []); auto; rewrite ?C, ?D; try constructor; try (destruct A; lia).
      intros k. unfold wanted. destruct (beq k (str "class")); reflexivity. }
    assert (G : making w1 s0 1 2 (str "html") [] [] [] [] [WElement (str "head") [] [] [] [] []; WElement (str "body") [] [] [] [] []]
                       (Cls None None None None) (inr 2 (w_next w1))).
    { constructor; auto; try (cbn; lia).
      - exists []. split; auto. intros x. unfold wanted. destruct (beq x (str "class")); reflexivity.
      - rewrite h4. constructor.
      - rewrite h2. repeat constructor; cbn; try tauto. intros [X|[]]. discriminate.
      - rewrite h2. repeat constructor; auto.
      - rewrite h2. repeat constructor; apply Bl; auto. }
    destruct (calls_ok s0 ac (own_good _ Oc) _ s0 _ _ _ _ _ _ _ _ _ I1 G On1) as (s2 & I2 & Gm & (M2 & L2 & _ & P2 & R2)). cbn zeta in *. cbn [app] in Gm.
    destruct (own_calls_cmds ac Oc 1 (Cls None None None None) w1) as (e & Ee & Fe).
    rewrite exec_calls_app. destruct (exec_calls 1 ac (Cls None None None None) w1) as [k2 w2]. cbn [fst snd] in *.
    destruct (own_run 1 e Fe s0 s2) as [Z1 Z2].
    { eapply brep_split; [apply (i_run _ _ _ I1)|]. rewrite <- Ee. apply (i_run _ _ _ I2). }
    assert (Sm : forall x, x <> 1 -> same s0 s2 x).
    { intros x X. destruct (Z1 x) as (A & B & C), (Z2 x X) as (D & E). repeat split; auto. }
    assert (Sm2 : same s0 s2 2) by (apply Sm; lia). assert (Sm3 : same s0 s2 3) by (apply Sm; lia).
    destruct (g_node _ _ _ _ _ _ _ _ _ _ _ _ Gm) as (a1 & Ea & Fa).
    (* head *)
    assert (Ek : forall (c : prog H) k (w : bworld H), exec_call (CChild c) 1 k w = (k, snd (exec_call (CChild c) 1 (Cls None None None None) w))).
    { intros c k w. rewrite !exec_child_eq. destruct (exec (H := H) c w) as [[i m] w']. reflexivity. }
    destruct (part_of_page w2 s2 2 (str "head") c2 3 I2) as (s3 & _ & I3 & N3 & L3 & S3 & A1 & A2 & A3 & A4 & A5 & A6 & Sh3); auto; try discriminate.
    { rewrite (same_get _ _ _ Sm2). auto. }
    { destruct Sm2 as (_ & _ & X & _). congruence. }
    { destruct Sm2 as (_ & _ & _ & X & _). congruence. }
    { destruct Sm2 as (_ & _ & _ & _ & X). congruence. }
    { eauto. }
    { destruct (Z1 1) as (_ & X & _). congruence. }
    { left. destruct (Z1 1) as (X & _). congruence. }
    cbn zeta in *. cbn [exec_calls]. rewrite Ek. set (w3 := snd (exec_call (CChild (PElement (str "head") c2)) 1 (Cls None None None None) w2)) in *.
    rewrite Ek.
    pose proof (i_next _ _ _ I2) as Nx2.
    assert (Sm3' : same s2 s3 3) by (apply S3; lia).
    assert (G3 : b_get s3 1 = Some (BElement (str "html") a1)) by (unfold b_get in *; rewrite A1, A2; auto).
    destruct (part_of_page w3 s3 3 (str "body") c3 2 I3) as (s4 & _ & I4 & N4 & L4 & S4 & B1 & B2 & B3 & B4 & B5 & B6 & Sh4); auto; try discriminate.
    { rewrite (same_get _ _ _ Sm3'), (same_get _ _ _ Sm3). auto. }
    { destruct Sm3 as (_ & _ & X & _), Sm3' as (_ & _ & Y & _). congruence. }
    { destruct Sm3 as (_ & _ & _ & X & _), Sm3' as (_ & _ & _ & Y & _). congruence. }
    { destruct Sm3 as (_ & _ & _ & _ & X), Sm3' as (_ & _ & _ & _ & Y). congruence. }
    { eauto. }
    cbn zeta in *. set (w4 := snd (exec_call (CChild (PElement (str "body") c3)) 1 (Cls None None None None) w3)) in *.
    exists s4. cbn zeta. cbn [snd]. split; auto. split; [apply (i_run _ _ _ I4)|].
    assert (D3 : forall x, (x = 2 \/ inr (w_next w2) (w_next w3) x) -> x < w_next w3 /\ x <> 3 /\ x <> 1) by (intros x [->|[X Y]]; lia).
    split; [|split; [exact B5|split; [exact B3|split]]].
    - apply (sh_element _ _ _ _ _ a1); auto.
      + unfold b_get in *. rewrite B1, B2. auto.
      + rewrite B4, A4. pose proof (g_listen _ _ _ _ _ _ _ _ _ _ _ _ Gm) as F. destruct L3 as [L3 _], L4 as [L4 _]. clear -F L3 L4.
        induction F as [|x y l l' [X Y] F IH]; constructor; auto.
      + eapply Forall_impl; [|apply (g_hooks _ _ _ _ _ _ _ _ _ _ _ _ Gm)]. cbn beta. intros ev X Y. destruct (X Y) as (c & C1 & C2). exists c.
        destruct L3 as [L3 L3'], L4 as [L4 L4']. split; auto.
      + rewrite B5. repeat constructor; cbn; try tauto. intros [X|[]]. discriminate.
      + rewrite B5. repeat constructor; auto. destruct (S4 2) as (_ & _ & _ & X & _); try lia. congruence.
      + rewrite B5. constructor; [|constructor; [|constructor]].
        * eapply shows_mono; [eapply shows_frame; [exact Sh3| | |]|].
          -- intros x X. destruct (D3 x X) as (X1 & X2 & X3). apply same_grown. apply S4; auto.
          -- apply L4.
          -- apply L4.
          -- cbn beta. intros x [->|[X Y]]; auto. right. right. right. split; lia.
        * eapply shows_mono; [exact Sh4|]. cbn beta. intros x [->|[X Y]]; auto. right. right. right. split; lia.
    - intros x X X1 X2 X3. eapply same_trans; [apply Sm; auto|]. eapply same_trans; [apply S3; auto; lia|]. apply S4; auto. lia.
    - intros c h X. apply L4, L3, L2. auto.
  Qed.
End Page.

(** ** What is written for a page *)
Lemma call_good {H} s0 (c : call H) : ordered_call c -> Forall ordinary (shown_call c) -> goodc s0 c.
Proof.
  destruct c as [n x|e h|x|x|p|l]; intros O W.
  - apply attr_good.
  - apply on_good.
  - apply css_good.
  - apply susp_good.
  - apply child_good. apply all_good; auto.
  - apply (proj1 (ordered_all l)) in O. change (Forall ordinary (flat_map shown l)) in W. apply Forall_flat in W. apply children_good.
    rewrite Forall_forall in *. intros p I. apply all_good; auto.
Qed.

Section Source.
  Context {H V : Type}.
  Variable v : env H V.
  Hypothesis B : braces v.
  Hypothesis O : in_order v.

  (** The code of an element: its attributes, then its children. *)
  Lemma element_code name e a l gs ks : component name = false -> lexed (Rsx NElement (Some name) e a l) ->
    all_say (attr_says v) a = Some gs -> kids_say v l = Some ks ->
    exists gc cc, all_some (map attribute a) = Some gc /\ map (eval_call v) gc = map call_of gs /\
      all_some (map child_code l) = Some cc /\ Forall kid_call (map (eval_call v) cc) /\ flat_map shown_call (map (eval_call v) cc) = ks /\
      Forall ordered_call (map (eval_call v) cc) /\ convert_node (Rsx NElement (Some name) e a l) = Some (GNew name (gc ++ cc)).
  Proof.
    intros Nc (L1 & L2 & L3) Eg Ek. apply lexed_kids in L3.
    destruct (all_attrs_ok v B a gs Eg) as (gc & E1 & E2).
    destruct (kids_ok v l ltac:(apply Forall_forall; intros; apply (all_ok v B O)) L3 ks Ek) as (cc & E3 & E4 & E5 & E6).
    exists gc, cc. repeat split; auto. rewrite convert_element, component_name, Nc, E1, E3. reflexivity.
  Qed.
  Lemma element_calls gs cc ks : Forall kid_call cc -> flat_map shown_call cc = ks ->
    flat_map call_attrs (map call_of gs ++ cc) = flat_map as_attr gs /\ flat_map call_styles (map call_of gs ++ cc) = flat_map (@as_style H) gs /\
    flat_map call_susps (map call_of gs ++ cc) = flat_map as_susp gs /\ flat_map call_events (map call_of gs ++ cc) = flat_map as_event gs /\
    flat_map shown_call (map call_of gs ++ cc) = ks.
  Proof.
    intros K S. rewrite !flat_map_app. destruct (calls_given gs) as (-> & -> & -> & -> & ->). destruct (kid_calls _ K) as (-> & -> & -> & ->).
    rewrite !app_nil_r, S. auto.
  Qed.
  Lemma element_calls_good s0 gs cc ks : flat_map shown_call cc = ks -> Forall ordered_call cc -> Forall ordinary ks -> Forall (goodc (H := H) s0) (map call_of gs ++ cc).
  Proof.
    intros S Or Od. apply Forall_app. split.
    - apply Forall_forall. intros c I. apply in_map_iff in I. destruct I as (g & <- & _). destruct g; apply call_good; try exact Logic.I; constructor.
    - subst ks. apply Forall_flat in Od. rewrite Forall_forall in *. intros c I. apply call_good; auto.
  Qed.
End Source.

(** A page that is written whole: when [dom!] has html, with head and body in it, then in a blank document (of the loading of a page that
    came from the server, C59) html, head and body get what is written: attributes, handlers, children. *)
Theorem C91_document {H V} (v : env H V) e1 e2 e3 a1 a2 a3 k2 k3 at1 st1 su1 ev1 h b s0 n cb (hand : N -> option H) :
  let page := Rsx NElement (Some (str "html")) e1 a1
    [Rsx NElement (Some (str "head")) e2 a2 k2; Rsx NElement (Some (str "body")) e3 a3 k3] in
  braces v -> in_order v -> lexed page -> blank s0 n cb hand ->
  written v [page] = Some [WElement (str "html") at1 st1 su1 ev1 [h; b]] ->
  class_once at1 ->
  (forall x, x = h \/ x = b -> match x with WElement _ at_ _ _ _ kids => class_once at_ /\ Forall ordinary kids | _ => False end) ->
  exists g s, dom_inner [page] = Some g /\
    let r := exec (eval_top v g) (BW n cb hand []) in
    let w := snd r in
    fst (fst r) = 1 /\
    breplay beq hook_name perm s0 (w_q w) [] s /\
    shows s (w_hand w) (fun x => x = 1 \/ x = 2 \/ x = 3 \/ n <= x < w_next w) 1 (WElement (str "html") at1 st1 su1 ev1 [h; b]) /\
    b_kids s 1 = [2; 3] /\ b_par s 1 = None /\
    (forall x, x < n -> x <> 1 -> x <> 2 -> x <> 3 -> b_node s x = b_node s0 x /\ b_reg s x = b_reg s0 x /\ b_kids s x = b_kids s0 x /\ b_par s x = b_par s0 x /\
                                 b_listen s (Some x) = b_listen s0 (Some x)) /\
    (forall c y, hand c = Some y -> w_hand w c = Some y).
Proof.
  intros page B O L Bl E On Or. unfold page in *. clear page. destruct L as (L1 & L2 & (Lh & Lb & _)).
  unfold written in E. cbn [forallb is_element andb] in E. rewrite says_element in E. change (component (str "html")) with false in E. cbv iota in E.
  destruct (all_say (attr_says v) a1) as [g1|] eqn:E1; [|discriminate]. rewrite !kids_say_cons, !says_element in E.
  change (component (str "head")) with false in E. change (component (str "body")) with false in E. cbv iota in E.
  destruct (all_say (attr_says v) a2) as [g2|] eqn:E2; [|discriminate]. destruct (kids_say v k2) as [ks2|] eqn:K2; [|discriminate].
  destruct (all_say (attr_says v) a3) as [g3|] eqn:E3; [|discriminate]. destruct (kids_say v k3) as [ks3|] eqn:K3; [|discriminate].
  change (kids_say v []) with (Some (@nil (wnode H))) in E. cbn [app] in E. injection E as <- <- <- <- Eh Eb.
  pose proof (Or h (or_introl eq_refl)) as Oh. pose proof (Or b (or_intror eq_refl)) as Ob. clear Or. subst h b. destruct Oh as [Oh1 Oh2], Ob as [Ob1 Ob2].
  destruct (all_attrs_ok v B a1 g1 E1) as (gc1 & M1 & N1).
  destruct (element_code v B O (str "head") e2 a2 k2 g2 ks2 eq_refl Lh E2 K2) as (gc2 & cc2 & _ & N2 & _ & Kd2 & S2 & O2 & C2).
  destruct (element_code v B O (str "body") e3 a3 k3 g3 ks3 eq_refl Lb E3 K3) as (gc3 & cc3 & _ & N3 & _ & Kd3 & S3 & O3 & C3).
  assert (Eg : dom_inner [Rsx NElement (Some (str "html")) e1 a1 [Rsx NElement (Some (str "head")) e2 a2 k2; Rsx NElement (Some (str "body")) e3 a3 k3]] =
    Some (GOne (GNew (str "html") (gc1 ++ [GChild (GNew (str "head") (gc2 ++ cc2)); GChild (GNew (str "body") (gc3 ++ cc3))])))).
  { unfold dom_inner. cbn [map all_some]. rewrite convert_element, component_name. change (component (str "html")) with false. cbv iota.
    cbn [map all_some]. rewrite M1, !child_element, C2, C3. reflexivity. }
  destruct (element_calls g2 (map (eval_call v) cc2) ks2 Kd2 S2) as (A1 & A2 & A3 & A4 & A5).
  destruct (element_calls g3 (map (eval_call v) cc3) ks3 Kd3 S3) as (D1 & D2 & D3 & D4 & D5).
  destruct (calls_given g1) as (G1 & G2 & G3 & G4 & _).
  destruct (page_ok s0 n cb hand (map call_of g1) (map call_of g2 ++ map (eval_call v) cc2) (map call_of g3 ++ map (eval_call v) cc3) Bl) as (s & R).
  { apply Forall_forall. intros c I. apply in_map_iff in I. destruct I as (g & <- & _). destruct g; exact Logic.I. }
  { eapply element_calls_good; eauto. }
  { eapply element_calls_good; eauto. }
  { rewrite G1. exact On. }
  { rewrite A1. exact Oh1. }
  { rewrite D1. exact Ob1. }
  rewrite A1, A2, A3, A4, A5, D1, D2, D3, D4, D5, G1, G2, G3, G4 in R.
  eexists _, s. split; [exact Eg|]. cbn [eval_top].
  change (eval v (GNew (str "html") (gc1 ++ [GChild (GNew (str "head") (gc2 ++ cc2)); GChild (GNew (str "body") (gc3 ++ cc3))]))) with
    (PElement (str "html") (map (eval_call v) (gc1 ++ [GChild (GNew (str "head") (gc2 ++ cc2)); GChild (GNew (str "body") (gc3 ++ cc3))]))).
  rewrite map_app, N1.
  change (map (eval_call v) [GChild (GNew (str "head") (gc2 ++ cc2)); GChild (GNew (str "body") (gc3 ++ cc3))]) with
    [CChild (PElement (str "head") (map (eval_call v) (gc2 ++ cc2))); CChild (PElement (str "body") (map (eval_call v) (gc3 ++ cc3)))].
  rewrite !map_app, N2, N3. exact R.
Qed.

(** [<html lang="en"> <head> <title>"T"</title> </head> <body class="big" on_click={go}> "Hello" {state} </body> </html>] *)
Definition demo_page : rsx :=
  Rsx NElement (Some (str "html")) None [Rsx NAttribute (Some (str "lang")) (Some (Demo.name "en")) [] []]
    [ Rsx NElement (Some (str "head")) None [] [Rsx NElement (Some (str "title")) None [] [Rsx NText None (Some (Demo.name "T")) [] []]];
      Rsx NElement (Some (str "body")) None
        [ Rsx NAttribute (Some (str "class")) (Some (Demo.name "big")) [] [];
          Rsx NAttribute (Some (str "on_click")) (Some (Demo.block [Demo.t "go"])) [] [] ]
        [ Rsx NText None (Some (Demo.name "Hello")) [] []; Rsx NBlock None (Some (Demo.block [Demo.t "state"])) [] [] ] ].
Lemma demo_blank : blank Demo.doc 4 1 (fun _ => @None bytes).
Proof.
  constructor; auto.
  - lia.
  - intros x X. cbn. destruct (N.eqb_spec x 1), (N.eqb_spec x 2), (N.eqb_spec x 3); try lia. cbn. auto.
Qed.
Example C91_document_example :
  braces Demo.v /\ in_order Demo.v /\ lexed demo_page /\ blank Demo.doc 4 1 (fun _ => @None bytes) /\
  written Demo.v [demo_page] = Some [WElement (str "html") [(str "lang", Some (str "en"))] [] [] []
    [ WElement (str "head") [] [] [] [] [WElement (str "title") [] [] [] [] [WText (str "T")]];
      WElement (str "body") [(str "class", Some (str "big"))] [] [] [(str "click", str "go")] [WText (str "Hello"); WText (str "state"); WComment (str "value element")] ]].
Proof.
  split; [exact Demo.v_braces|]. split; [exact Demo.v_order|]. split; [|split; [exact demo_blank|vm_compute; reflexivity]].
  assert (T : forall l, Forall token l -> tokens (Demo.block l)) by (intros l F; exact F).
  assert (W : forall x, token (Demo.t x) -> tokens (Demo.name x)) by (intros x F; constructor; [exact F|constructor]).
  unfold demo_page. repeat constructor; cbn [value_of]; try discriminate; try (intros x E; injection E as <-); try (apply W); try (apply T); auto;
    repeat constructor; try discriminate.
Qed.
