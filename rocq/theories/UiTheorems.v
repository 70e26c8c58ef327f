(** The document follows the values: theorems about [UiModel]. *)
From Coq Require Import String List NArith Bool Lia Permutation.
From Verif Require Import CodecModel DomWire DomModel DomSort DomMacroModel UiModel UiSteps UiProps.
From Verif Require DomMacroBuild.
Import ListNotations.
Local Open Scope string_scope.
Local Open Scope list_scope.
Local Open Scope N_scope.

(** ** Batches *)
Section Batches.
  Context {T : Type}.
  Variable teqb : T -> T -> bool.
  Variable hook : T.
  Variable perm : N -> bool.
  Notation run s cs := (fold_left (next teqb hook perm) cs s).
  Notation cleanf := (clean teqb hook perm (fun _ => False)).
  Lemma batches_clean qs : forall s t, eqv true s t -> cleanf s (concat qs) -> no_use_after_removal (fun _ => False) (concat qs) ->
    cleanf t (flat_map sort_commands qs) /\ eqv true (run s (concat qs)) (run t (flat_map sort_commands qs)).
  Proof.
    induction qs as [|q qs IH]; intros s t Eq C U; cbn [concat flat_map] in *; [split; [exact Logic.I|exact Eq]|].
    apply clean_app in C. destruct C as [C1 C2]. rewrite clean_app, !fold_left_app.
    assert (U1 : no_use_after_removal (fun _ => False) q).
    { intros l c l' x d -> Rc Hd M. apply (U l c (l' ++ concat qs) x d); auto. rewrite <- app_assoc. reflexivity. apply in_or_app. auto. }
    assert (U2 : no_use_after_removal (fun _ => False) (concat qs)).
    { intros l c l' x d E Rc Hd M. apply (U (q ++ l) c l' x d); auto. rewrite E, <- app_assoc. reflexivity. }
    destruct (sort_replay teqb hook perm true (fun _ => False)) with (cs := q) (s := t) as [D1 D2]; [intros c []| | |].
    { eapply clean_eqv; eauto. } { exact U1. }
    assert (Eq1 : eqv true (run s q) (run t (sort_commands q))). { eapply eqv_trans; [apply run_eqv; exact Eq|exact D2]. }
    destruct (IH _ _ Eq1 C2 U2) as [F1 F2]. split; [split; auto|auto].
  Qed.
  Lemma batches_replay rk qs s s1 : ranked rk s (concat qs) -> no_use_after_removal (fun _ => False) (concat qs) -> breplay teqb hook perm s (concat qs) [] s1 ->
    exists s2, breplay teqb hook perm s (flat_map sort_commands qs) [] s2 /\ same_dom s1 s2.
  Proof.
    intros RK U Rp. destruct (replay_clean teqb hook perm rk (fun _ => False) _ _ _ _ RK Rp) as [C ->]; [constructor|].
    destruct (batches_clean qs s s) as [D1 D2]; [exact (eqv_refl perm true s)|exact C|exact U|].
    assert (RK2 : ranked rk s (flat_map sort_commands qs)).
    { destruct RK as [K1 K2]. split; auto. intros p c r I. apply (K2 p c r). apply in_flat_map in I. destruct I as (q & I1 & I2). apply in_concat. exists q. split; auto.
      rewrite sort_filter in I2. apply in_app_or in I2. destruct I2 as [I2|I2]; apply filter_In in I2; tauto. }
    pose proof (clean_replay teqb hook perm rk (fun _ => False) (flat_map sort_commands qs) s RK2 D1) as (errs & R2 & F2).
    destruct errs; [|inversion F2; contradiction]. eexists. split; [exact R2|]. destruct D2 as [D2 D3]. split; auto.
  Qed.
End Batches.

Section Theorems.
  Context {K V L I KT : Type}.
  Variable veq : V -> V -> bool.
  Variable ieq : I -> I -> bool.
  Variable keq : KT -> KT -> bool.
  Variable ord : list (live K V L I KT) -> list (live K V L I KT).
  Notation tmpl := (tmpl K V L I KT).
  Notation live := (live K V L I KT).
  Notation ui := (ui K V L I KT).
  Notation event := (event K V L I).
  Notation bdom := (DomModel.bdom bytes).
  Notation brep := (breplay beq DomMacroBuild.hook_name DomMacroBuild.perm).
  Notation step := (ui_step veq ieq keq ord).
  Notation run := (ui_run veq ieq keq ord).

  (** Calls of subscriptions one after the other, each of which does something. *)
  Inductive effective : ui -> list (N * nat) -> ui -> Prop :=
  | ef_nil u : effective u [] u
  | ef_cons u c j cs u' : step u (Call c j) <> u -> effective (step u (Call c j)) cs u' -> effective u ((c, j) :: cs) u'.
  (** No subscription there is has anything left to do. *)
  Definition quiet (u : ui) : Prop := forall c j, In (c, j) (subs (ui_live u)) -> step u (Call c j) = u.

  Hypothesis veq_ok : forall a b, veq a b = true <-> a = b.
  Hypothesis ieq_ok : forall a b, ieq a b = true <-> a = b.
  Hypothesis keq_ok : forall a b, keq a b = true <-> a = b.
  Hypothesis ord_ok : forall l, Permutation l (ord l).

  Section Run.
    Variable s0 : bdom.
    Variables R n0 : N.
    Hypothesis Pg : page s0 R n0.
    Variable t : tmpl.
    Hypothesis St : settled t.
    Local Notation Inv := (UiSteps.Inv s0 R n0).

    Record at_ (u : ui) (s : bdom) : Prop := {
      at_inv : Inv (ui_w u) s;
      at_lives : lives s R (ui_live u);
      at_own : own n0 (ui_w u) R (ids (ui_live u));
      at_fits : fits (ui_live u) t;
      at_kids : b_kids s R = b_kids s0 R ++ tops (ui_live u);
      at_gone : forall x, n0 <= x -> b_reg s x = true -> In x (ids (ui_live u));
      at_same : forall x, x < n0 -> x <> R -> same s0 s x;
      at_R : b_node s R = b_node s0 R /\ b_reg s R = b_reg s0 R /\ b_par s R = b_par s0 R
    }.
    Lemma page_ranked w s : Inv w s -> exists rk, ranked rk s0 (u_q w).
    Proof.
      intros Iv. destruct Pg as [P1 P2 P3 P4 P5 P6 P7 P8]. destruct P8 as [rk Rk]. exists (fun x => if x <? n0 then rk x else (rk R + 1 + N.to_nat x)%nat). split.
      - intros x p H. rewrite (proj2 (N.ltb_lt p n0)); [|eauto]. destruct (N.ltb_spec x n0) as [L1|L1]; auto. destruct (P6 x L1) as (_ & _ & _ & X). congruence.
      - intros p c r Ip. destruct (y_ins _ _ _ _ _ (i_tidy Iv) p c r Ip) as (U1 & U2 & U3). rewrite (proj2 (N.ltb_ge c n0)); auto. destruct U3 as [->|U3].
        rewrite (proj2 (N.ltb_lt R n0)); auto. lia. rewrite (proj2 (N.ltb_ge p n0)); auto. lia.
    Qed.
    Lemma page_inv : Inv (UW n0 []) s0.
    Proof.
      destruct Pg as [P1 P2 P3 P4 P5 P6 P7 P8]. constructor; cbn; try lia.
      - constructor; [|intros c x []|intros p c r []]. intros l c l' x d E. destruct l; discriminate.
      - constructor.
      - intros x Hx. apply P6. auto.
      - intros x y H. split; intros Hx. destruct (P6 x Hx) as (_ & _ & _ & X). congruence. eauto.
      - intros P [->|HP]. auto. destruct (P6 P HP) as (_ & _ & -> & _). split. constructor. intros x [].
    Qed.
    Lemma at_elem u s : at_ u s -> elem s R.
    Proof. intros A. destruct (at_R _ _ A) as (U1 & U2 & _). destruct (pg_elem _ _ _ Pg) as (n & a & G). exists n, a. unfold b_get in *. rewrite U1, U2. auto. Qed.
    Lemma start_at E : exists s, at_ (ui_start keq E t R n0) s.
    Proof.
      pose proof Pg as [P1 P2 P3 P4 P5 P6 P7 P8].
      pose proof (make_mounts ieq keq ord ieq_ok keq_ok ord_ok s0 R n0 P1 P2 E t St (UW n0 []) s0 R (b_kids s0 R) [] None page_inv P3 (or_introl eq_refl) P2) as M.
      rewrite app_nil_r in M. specialize (M eq_refl eq_refl). unfold ui_start. destruct (make keq E t (UW n0 [])) as [[i m] w1]. destruct (m R None w1) as [l w2].
      destruct M as (s2 & D & Kk & Lv & Ft & _). rewrite app_nil_r in Kk. exists s2. pose proof (o_inv D) as Iv. pose proof (o_le D) as Le. cbn in Le. constructor; cbn [ui_w ui_live]; auto.
      - split; [apply (o_nodup D)|]. split; [|lia]. intros x Hx. destruct (o_own D x Hx) as [[]|[U1 U2]]. cbn in U1. split; [auto|]. split; [auto|lia].
      - intros x Hx Rx. destruct (N.ltb_spec x (u_next w2)). apply (o_gone D); auto. right. split; auto. destruct (i_abs Iv x H) as (_ & X & _). congruence.
      - intros x Hx Nx. apply (o_same D); auto.
      - apply (o_P D).
    Qed.
    Lemma step_at u s e : at_ u s -> exists s', at_ (step u e) s'.
    Proof.
      intros A. pose proof Pg as [P1 P2 P3 P4 P5 P6 P7 P8]. pose proof (at_elem u s A) as El. destruct A as [A1 A2 A3 A4 A5 A6 A7 A8]. destruct e as [E|c j]; [exists s; constructor; auto|].
      pose proof (call_ok veq ieq keq ord veq_ok ieq_ok keq_ok ord_ok s0 R n0 P1 P2 (ui_env u) (ui_live u) c j t (ui_w u) s R (b_kids s0 R) [] A1 A2 A3 A4 St El (or_introl eq_refl)) as M.
      rewrite app_nil_r in M. specialize (M A5). cbn [ui_step]. destruct (call veq ieq keq ord (ui_env u) c j (ui_live u) (ui_w u)) as [l w2].
      destruct M as (s2 & D & Kk & Lv & Ft & _). rewrite app_nil_r in Kk. exists s2. pose proof (o_inv D) as Iv. pose proof (o_le D) as Le. pose proof (i_next A1) as Nx1.
      destruct A3 as (N1 & N2 & N3). constructor; cbn [ui_w ui_live]; auto.
      - split; [apply (o_nodup D)|]. split; [|lia]. intros x Hx. destruct (o_own D x Hx) as [X|[U1 U2]]. specialize (N2 x X). split; [apply N2|]. split; [lia|apply N2]. split; [lia|]. split; [auto|lia].
      - intros x Hx Rx. destruct (o_dec D x) as [Dx|Dx]. apply (o_gone D); auto. destruct (N.ltb_spec x (u_next (ui_w u))).
        + exfalso. apply Dx. apply A6; auto. destruct (o_same D x) as (_ & X & _); auto. lia. congruence.
        + destruct (N.ltb_spec x (u_next w2)). apply (o_gone D); auto. right. split; auto. destruct (i_abs Iv x H0) as (_ & X & _). congruence.
      - intros x Hx Nx. eapply same_trans; [apply A7; auto|]. apply (o_same D); auto; [|lia]. intros X. destruct (N2 x X). lia.
      - destruct (o_P D) as (-> & -> & ->). auto.
    Qed.
    Lemma run_at E es : exists s, at_ (run (ui_start keq E t R n0) es) s.
    Proof.
      destruct (start_at E) as (s & A). revert s A. generalize (ui_start keq E t R n0). induction es as [|e es IH]; intros u s A; cbn; eauto.
      destruct (step_at u s e A) as (s1 & A1). eauto.
    Qed.
    Definition left_ (u : ui) : nat := stale veq ieq (ui_env u) (ui_live u).
    Lemma step_left u c j : step u (Call c j) = u \/ (left_ (step u (Call c j)) < left_ u)%nat.
    Proof.
      pose proof Pg as [P1 P2 P3 P4 P5 P6 P7 P8]. pose proof (call_less veq ieq keq ord veq_ok ieq_ok keq_ok ord_ok R n0 P1 P2 (ui_env u) (ui_live u) c j (ui_w u)) as Le.
      unfold left_. cbn [ui_step]. destruct (call veq ieq keq ord (ui_env u) c j (ui_live u) (ui_w u)) as [l w]. destruct Le as [Le|Le].
      injection Le as -> ->. left. destruct u; auto. right. auto.
    Qed.
    Lemma left_works u s : at_ u s -> (0 < left_ u)%nat -> exists c j, In (c, j) (subs (ui_live u)) /\ (left_ (step u (Call c j)) < left_ u)%nat.
    Proof.
      intros A H. pose proof Pg as [P1 P2 P3 P4 P5 P6 P7 P8]. destruct (at_own _ _ A) as (N1 & _).
      destruct (call_works veq ieq keq ord veq_ok ieq_ok keq_ok ord_ok R n0 P1 P2 (ui_env u) (ui_live u) N1 H) as (c & j & _ & U & V1). exists c, j. split; auto.
      specialize (V1 (ui_w u)). unfold left_. cbn [ui_step]. destruct (call veq ieq keq ord (ui_env u) c j (ui_live u) (ui_w u)) as [l w]. auto.
    Qed.
    Lemma quiet_left u s : at_ u s -> quiet u -> left_ u = 0%nat.
    Proof.
      intros A Q. destruct (left_ u) eqn:El; auto. destruct (left_works u s A) as (c & j & U1 & U2). lia. rewrite (Q c j U1) in U2. lia.
    Qed.
    Lemma left_quiet u : left_ u = 0%nat -> quiet u.
    Proof. intros Z c j _. destruct (step_left u c j) as [X|X]; auto. lia. Qed.
    Lemma effective_len u cs u' : effective u cs u' -> (length cs + left_ u' <= left_ u)%nat.
    Proof. induction 1; cbn; auto. destruct (step_left u c j) as [X|X]; [contradiction|]. lia. Qed.
    Lemma settle n : forall u s, at_ u s -> (left_ u <= n)%nat -> exists cs u', effective u cs u' /\ quiet u'.
    Proof.
      induction n as [|n IH]; intros u s A Le.
      - exists [], u. split. constructor. apply left_quiet. lia.
      - destruct (left_ u) eqn:El. exists [], u. split. constructor. apply left_quiet. auto.
        destruct (left_works u s A) as (c & j & U1 & U2). lia. destruct (step_at u s (Call c j) A) as (s1 & A1). destruct (IH _ _ A1) as (cs & u' & F1 & F2). lia.
        exists ((c, j) :: cs), u'. split; auto. constructor; auto. intros X. rewrite X in U2. lia.
    Qed.
  End Run.

  Lemma displays_same (s s' : bdom) : same_dom s s' -> forall v x, displays s x v -> displays s' x v.
  Proof.
    intros Sd. assert (G : forall x, b_get s' x = b_get s x). { intros x. destruct Sd as ((U1 & U2 & _) & _). unfold b_get. rewrite U1, U2. auto. }
    destruct Sd as ((_ & _ & U3 & U4 & _) & _).
    fix IH 3. intros v x D. destruct D as [x t G1|x t G1|x name a attrs kids G1 A1 A2 N1 F1 F2].
    - constructor. rewrite G. auto.
    - constructor. rewrite G. auto.
    - apply (d_elem _ _ _ a); auto. rewrite G. auto. rewrite <- U3. auto. rewrite <- U3. eapply Forall_impl; [|exact F1]. intros y Hy. rewrite <- U4. auto.
      rewrite <- U3. revert F2. generalize (b_kids s x). clear -IH. intros l F2. induction F2; constructor; auto.
  Qed.
  Lemma under_same (s s' : bdom) x y : same_dom s s' -> under s x y -> under s' x y.
  Proof. intros ((_ & _ & _ & U4 & _) & _) U. induction U. constructor. econstructor; eauto. rewrite <- U4. auto. Qed.

  (** Whatever the history of changes and of calls of subscriptions, in whatever order, and however the commands are cut into batches, each of which is sorted before it
      is sent: the browser can execute all of them; the application's nodes stand after those the element had, each once; nothing else in the page is changed; each node
      the browser still keeps for the application is in the document, below the element; and whenever no subscription has anything left to do, the document shows exactly
      what the template says for the values of that moment. *)
  Theorem C92_document_follows_partial (s0 : bdom) (R n0 : N) (t : tmpl) (E : env K V L I) (es : list event) (batches : list (list (dcmd bytes))) :
    page s0 R n0 -> settled t ->
    let u := run (ui_start keq E t R n0) es in
    concat batches = u_q (ui_w u) ->
    exists s own,
      brep s0 (flat_map sort_commands batches) [] s /\
      b_kids s R = b_kids s0 R ++ own /\ NoDup (b_kids s R) /\
      (forall x, x < n0 -> b_node s x = b_node s0 x /\ b_reg s x = b_reg s0 x /\ b_par s x = b_par s0 x /\ (x <> R -> b_kids s x = b_kids s0 x)) /\
      (forall x, n0 <= x -> b_reg s x = true -> under s x R) /\
      (quiet u -> Forall2 (displays s) own (view (ui_env u) t)).
  Proof.
    intros Pg St u Bt. destruct (run_at s0 R n0 Pg t St E es) as (s & A). fold u in A. pose proof Pg as [P1 P2 P3 P4 P5 P6 P7 P8].
    pose proof (at_inv _ _ _ _ _ _ A) as Iv. destruct (page_ranked s0 R n0 Pg (ui_w u) s Iv) as [rk RK].
    destruct (batches_replay beq DomMacroBuild.hook_name DomMacroBuild.perm rk batches s0 s) as (s' & Rp & Sd); try rewrite Bt; auto.
    { apply (i_tidy Iv). } { apply (i_run Iv). }
    pose proof Sd as ((D1 & D2 & D3 & D4 & _) & _).
    exists s', (tops (ui_live u)). split; [exact Rp|]. rewrite <- D3. split; [apply A|]. split; [apply (i_site Iv); left; auto|]. split; [|split].
    - intros x Hx. rewrite <- D1, <- D2, <- D3, <- D4.
      destruct (N.eq_dec x R) as [->|Nx]. destruct (at_R _ _ _ _ _ _ A) as (U1 & U2 & U3). split; [auto|]. split; [auto|]. split; [auto|]. congruence.
      destruct (at_same _ _ _ _ _ _ A x Hx Nx) as (U1 & U2 & U3 & U4). auto.
    - intros x Hx Rx. rewrite <- D2 in Rx. apply (under_same s s'); auto. eapply lives_under. apply (at_lives _ _ _ _ _ _ A). apply (at_gone _ _ _ _ _ _ A); auto.
    - intros Q. assert (F : Forall2 (displays s) (tops (ui_live u)) (view (ui_env u) t)).
      { eapply (shown veq ieq ord); eauto. apply (quiet_left s0 R n0 Pg t u s A Q). apply A. apply A.
        rewrite Forall_forall. intros x Hx. apply (at_own _ _ _ _ _ _ A). auto. }
      clear -F Sd. induction F; constructor; auto. eapply displays_same; eauto.
  Qed.

  (** After any history the subscriptions come to rest: in whatever order they are called, at most as many calls do something as there are subscriptions, also if
      nodes and their subscriptions come and go meanwhile; and calls that lead to rest always exist. *)
  Theorem C92_comes_to_rest (s0 : bdom) (R n0 : N) (t : tmpl) (E : env K V L I) (es : list event) :
    page s0 R n0 -> settled t ->
    let u := run (ui_start keq E t R n0) es in
    (forall cs u', effective u cs u' -> (length cs <= length (subs (ui_live u)))%nat) /\
    (exists cs u', effective u cs u' /\ quiet u').
  Proof.
    intros Pg St u. destruct (run_at s0 R n0 Pg t St E es) as (s & A). fold u in A. pose proof Pg as [P1 P2 P3 P4 P5 P6 P7 P8]. split.
    - intros cs u' F. apply (effective_len s0 R n0 Pg) in F. pose proof (stale_subs veq ieq ord veq_ok ord_ok R n0 P1 P2 (ui_env u) (ui_live u)) as S. unfold left_ in F at 2. lia.
    - eapply (settle s0 R n0 Pg t St (left_ u)); eauto.
  Qed.
End Theorems.

(** ** Examples *)
Module UiDemo.
  (** A page of html, head and body. *)
  Definition doc : bdom bytes :=
    BDom (fun x => if x =? 1 then Some (BElement (str "html") []) else if x =? 2 then Some (BElement (str "head") [])
                   else if x =? 3 then Some (BElement (str "body") []) else None)
         (fun x => (x =? 1) || (x =? 2) || (x =? 3))
         (fun x => if x =? 1 then [2; 3] else []) (fun x => if (x =? 2) || (x =? 3) then Some 1 else None) [] (fun _ => false) (fun _ => []).
  Definition dig (v : N) : bytes := [48 + v].
  (** A division with a title if there is one, a number, a list if it is wanted, and a note. *)
  Definition t : tmpl N N N N N :=
    TElem (str "div") [(str "title", (0, fun v => if (v =? 0) then None else Some (dig v)))]
      [ TBound 0 dig;
        TValue 1 (fun v => if (v =? 0) then None else Some (TList 0 (fun i => i) (fun i => TElem (str "li") [] [TText (dig i); TBound 0 dig])));
        TFrag [TValue 2 (fun v => Some (TText (dig v))); TText (str "end")] ].
  Definition env (a b c : N) (l : list N) : env N N N N := Env (fun k => if (k =? 0) then a else if (k =? 1) then b else c) (fun _ => l).
  Definition ord (l : list (live N N N N N)) := l.
  Definition u es := ui_run N.eqb N.eqb N.eqb ord (ui_start N.eqb (env 0 1 5 [1; 2; 3]) t 3 4) es.
End UiDemo.

Lemma demo_page : page UiDemo.doc 3 4.
Proof.
  constructor; try lia.
  - exists (str "body"), []. reflexivity.
  - constructor.
  - intros x [].
  - intros x Hx. cbn. destruct (N.eqb_spec x 1), (N.eqb_spec x 2), (N.eqb_spec x 3); try lia. auto.
  - intros x y. cbn. destruct ((x =? 2) || (x =? 3)); intros H; [injection H as <-; lia|discriminate].
  - exists N.to_nat. intros x y. cbn. destruct (N.eqb_spec x 2), (N.eqb_spec x 3); cbn; intros H; try discriminate; injection H as <-; lia.
Qed.
Lemma demo_settled : settled UiDemo.t.
Proof.
  assert (X : str "div" <> str "html" /\ str "div" <> str "head" /\ str "div" <> str "body") by (repeat split; intros H; vm_compute in H; discriminate).
  assert (Y : str "li" <> str "html" /\ str "li" <> str "head" /\ str "li" <> str "body") by (repeat split; intros H; vm_compute in H; discriminate).
  assert (Z : str "title" <> str "class") by (intros H; vm_compute in H; discriminate).
  unfold UiDemo.t. cbn [settled map fst snd tl]. split; [apply X|]. split; [apply X|]. split; [apply X|]. split; [constructor; [intros []|constructor]|]. split; [intros [H|[]]; auto|].
  split; [exact Logic.I|]. split; [|split; [|exact Logic.I]].
  - intros v. destruct (v =? 0); [exact Logic.I|]. cbn [settled map]. split; [|split].
    + intros _. split; [apply Y|]. split; [apply Y|]. split; [apply Y|]. split; [constructor|]. split; [intros []|]. auto.
    + intros i. exact Logic.I.
    + intros i j H. rewrite H. reflexivity.
  - split; [|constructor; [exact Logic.I|constructor]]. split; [intros v; exact Logic.I|auto].
Qed.
Definition demo_events : list (event N N N N) :=
  [Change (UiDemo.env 7 1 6 [4; 3; 1]); Call 10 0%nat; Call 7 0%nat; Call 13 0%nat; Call 4 0%nat; Change (UiDemo.env 8 1 6 [4; 3; 1]); Call 22 0%nat; Call 17 0%nat;
   Call 16 0%nat; Call 5 0%nat; Call 4 0%nat; Call 10 0%nat; Call 23 0%nat].
(** The texts and comments of a document in their order, in front of each element its name and its title. *)
Fixpoint demo_text (fuel : nat) (s : bdom bytes) (id : N) : list bytes :=
  match fuel with
  | O => []
  | S n => match b_get s id with
           | Some (BText t) => [t]
           | Some (BComment t) => [str "<!" ++ t]
           | Some (BElement name a) => (str "<" ++ name) :: match battr_get beq a (str "title") with Some v => [v] | None => [] end ++ flat_map (demo_text n s) (b_kids s id)
           | None => []
           end
  end.
Example C92_example :
  page UiDemo.doc 3 4 /\ settled UiDemo.t /\ quiet N.eqb N.eqb N.eqb UiDemo.ord (UiDemo.u demo_events) /\
  option_map (fun s => demo_text 5 s 3) (b_run beq DomMacroBuild.hook_name DomMacroBuild.perm UiDemo.doc (u_q (ui_w (UiDemo.u demo_events)))) =
    Some [str "<body"; str "<div"; str "8"; str "8"; str "<li"; str "4"; str "8"; str "<li"; str "3"; str "8"; str "<li"; str "1"; str "8"; str "<!list element"; str "<!value element";
          str "6"; str "<!value element"; str "end"; str "<!list dom node"].
Proof.
  split; [exact demo_page|]. split; [exact demo_settled|]. split; [|vm_compute; reflexivity].
  intros c j H. vm_compute in H. repeat (destruct H as [H|H]; [injection H as <- <-; vm_compute; reflexivity|]). contradiction.
Qed.
(** Removals in the middle of a batch, which sorting moves to its end. *)
Example C92_batches_example : exists batches, concat batches = u_q (ui_w (UiDemo.u demo_events)) /\ flat_map sort_commands batches <> concat batches.
Proof.
  exists [firstn 40 (u_q (ui_w (UiDemo.u demo_events))); skipn 40 (u_q (ui_w (UiDemo.u demo_events)))]. split.
  - cbn [concat]. rewrite app_nil_r. apply firstn_skipn.
  - intros H. vm_compute in H. discriminate.
Qed.
(** A change after which three calls do something, one for a list whose value then goes away, and then all are at rest. *)
Example C92_rest_example : exists u', effective N.eqb N.eqb N.eqb UiDemo.ord (UiDemo.u [Change (UiDemo.env 0 0 6 [4])]) [(17, 0%nat); (7, 0%nat); (6, 0%nat)] u' /\
  quiet N.eqb N.eqb N.eqb UiDemo.ord u'.
Proof.
  eexists. split.
  - constructor; [intros H; apply (f_equal (fun u => length (u_q (ui_w u)))) in H; vm_compute in H; discriminate|].
    constructor; [intros H; apply (f_equal (fun u => length (u_q (ui_w u)))) in H; vm_compute in H; discriminate|].
    constructor; [intros H; apply (f_equal (fun u => length (u_q (ui_w u)))) in H; vm_compute in H; discriminate|]. constructor.
  - intros c j H. vm_compute in H. repeat (destruct H as [H|H]; [injection H as <- <-; vm_compute; reflexivity|]). contradiction.
Qed.

(** Without the condition on fragments it does not hold: a text followed by a value, with nothing left to do, is shown as the value, then the text. *)
Definition demo_twisted : tmpl N N N N N := TFrag [TText (str "a"); TValue 0 (fun v => Some (TText (UiDemo.dig v)))].
Theorem C92_fragment_refuted : exists (t : tmpl N N N N N) (E : env N N N N) s,
  let u := ui_start N.eqb E t 3 4 in
  page UiDemo.doc 3 4 /\ b_run beq DomMacroBuild.hook_name DomMacroBuild.perm UiDemo.doc (u_q (ui_w u)) = Some s /\
  quiet N.eqb N.eqb N.eqb UiDemo.ord u /\ ~ Forall2 (displays s) (b_kids s 3) (view E t).
Proof.
  destruct (b_run beq DomMacroBuild.hook_name DomMacroBuild.perm UiDemo.doc (u_q (ui_w (ui_start N.eqb (UiDemo.env 5 0 0 []) demo_twisted 3 4)))) as [s|] eqn:Rn;
    [|vm_compute in Rn; discriminate].
  exists demo_twisted, (UiDemo.env 5 0 0 []), s. split; [exact demo_page|]. split; [exact Rn|]. split.
  - intros c j H. vm_compute in H. repeat (destruct H as [H|H]; [injection H as <- <-; vm_compute; reflexivity|]). contradiction.
  - intros F. assert (Kd : b_kids s 3 = [7; 4; 5; 6] /\ b_get s 7 = Some (BText (str "5"))).
    { vm_compute in Rn. injection Rn as <-. vm_compute. auto. }
    destruct Kd as [Kd G]. rewrite Kd in F. cbn [view demo_twisted flat_map app] in F. inversion F as [|? ? ? ? D _]; subst. inversion D as [? ? G1| |]; subst. rewrite G in G1. discriminate.
Qed.
