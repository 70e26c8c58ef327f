(** Form controls bound to reactive values: C81 (texts), C82 (check marks), C83 (drop-down lists). *)
From Coq Require Import List NArith PeanoNat Bool Lia.
From Verif Require Import InputModel.
Import ListNotations.
Local Open Scope N_scope.

(** ** Vocabulary *)

(** The text a control is bound to; [None] stands for the empty text. *)
Definition want (v : option str) : str := match v with Some s => s | None => [] end.
(** A text that fits into a control: a field has one line, an area takes newlines of one character. *)
Definition fits (k : kind) (s : str) : Prop :=
  match k with
  | Field => ~ In 10 s /\ ~ In 13 s
  | Area => ~ In 13 s
  | Box => False
  end.
(** What the user of a control sees. *)
Definition shown {St} (w : world St) : str := get_value (w_c w).
Definition checked {St} (w : world St) : bool := c_chk (w_c w).
(** Whether a box is to be checked. *)
Definition on (v : option str) : bool := match v with Some _ => true | None => false end.

(** ** Lemmas *)

Lemma seqb_eq a b : seqb a b = true <-> a = b.
Proof.
  revert b. induction a as [|x a IH]; intros [|y b]; simpl; split; intro E; try discriminate; auto.
  - apply andb_prop in E. destruct E as [E1 E2]. apply N.eqb_eq in E1. apply IH in E2. congruence.
  - injection E as -> ->. rewrite N.eqb_refl. apply IH. reflexivity.
Qed.
Lemma oeqb_eq a b : oeqb a b = true <-> a = b.
Proof.
  destruct a, b; simpl; split; intro E; try discriminate; auto.
  - apply seqb_eq in E. congruence.
  - apply seqb_eq. congruence.
Qed.
Lemma differs_false p v : differs (Some p) v = false <-> p = v.
Proof. simpl. rewrite negb_false_iff. apply oeqb_eq. Qed.

Lemma strip_fits s : ~ In 10 s -> ~ In 13 s -> strip s = s.
Proof.
  intros A B. unfold strip. induction s as [|c s IH]; simpl; [reflexivity|].
  destruct (c =? 10) eqn:E1; [apply N.eqb_eq in E1; elim A; left; auto|].
  destruct (c =? 13) eqn:E2; [apply N.eqb_eq in E2; elim B; left; auto|].
  simpl. rewrite IH; [reflexivity| |]; intro X; [apply A|apply B]; right; exact X.
Qed.
Lemma strip_is_fit s : ~ In 10 (strip s) /\ ~ In 13 (strip s).
Proof. unfold strip. split; intro X; apply filter_In in X; destruct X as [_ X]; discriminate. Qed.
Lemma unix_cons c s : c <> 13 -> unix (c :: s) = c :: unix s.
Proof.
  intro X. simpl. destruct c as [|p]; [reflexivity|].
  destruct p as [p|p|]; auto. destruct p as [p|p|]; auto. destruct p as [p|p|]; auto.
  destruct p; auto. congruence.
Qed.
Lemma unix_cr s : unix (13 :: s) = 10 :: unix (match s with 10 :: s => s | _ => s end).
Proof.
  destruct s as [|c s]; [reflexivity|].
  destruct c as [|p]; [reflexivity|].
  repeat (destruct p as [p|p|]; try reflexivity).
Qed.
Lemma unix_fits s : ~ In 13 s -> unix s = s.
Proof.
  induction s as [|c s IH]; intro A; [reflexivity|].
  rewrite unix_cons; [|intros ->; apply A; left; reflexivity].
  rewrite IH; [reflexivity|]. intro X. apply A. right. exact X.
Qed.
Lemma unix_is_fit n : forall s, (length s <= n)%nat -> ~ In 13 (unix s).
Proof.
  induction n as [|n IH]; intros s L.
  - destruct s; [intros []|simpl in L; lia].
  - destruct s as [|c s]; [intros []|]. simpl in L. destruct (N.eq_dec c 13) as [->|nc].
    + rewrite unix_cr. intros [X|X]; [discriminate|]. revert X. apply IH.
      destruct s as [|d s]; simpl in *; [lia|].
      destruct d as [|p]; [simpl; lia|]. repeat (destruct p as [p|p|]; try (simpl; lia)).
    + rewrite unix_cons by exact nc. intros [X|X]; [congruence|]. revert X. apply IH. lia.
Qed.

(** The text of a control that a driver command leaves. *)
Lemma set_value_shows c s : fits (c_kind c) s -> get_value (set_value c s) = s /\ c_kind (set_value c s) = c_kind c.
Proof.
  unfold set_value, js_value, js_default, get_value. destruct c as [k va v vd df ca ch cd]. destruct k; simpl.
  - intros [A B]. split; [apply strip_fits; assumption|reflexivity].
  - intros [].
  - intro A. split; [apply unix_fits; exact A|reflexivity].
Qed.
Lemma remove_value_shows c : c_kind c <> Box -> get_value (remove_value c) = [] /\ c_kind (remove_value c) = c_kind c.
Proof.
  unfold remove_value, js_value, js_default, get_value. destruct c as [k va v vd df ca ch cd]. destruct k; simpl; auto; congruence.
Qed.
Lemma fits_box k s : fits k s -> k <> Box.
Proof. destruct k; simpl; [discriminate|contradiction|discriminate]. Qed.

(** ** Texts *)

Section Texts.
  Context {St : Type}.
  Variable a : app St.
  Variable f : St -> option str.
  Hypothesis bound : a_value a = Some f.

  Record TInv (w : world St) : Prop := {
    ti_kind : c_kind (w_c w) = a_kind a;
    ti_prev : w_pv w = Some (f (w_s w));
    ti_show : shown w = want (f (w_s w))
  }.

  (** After a transaction. *)
  Lemma sync_shows s pv pc c :
    c_kind c = a_kind a -> fits (a_kind a) (want (f s)) ->
    (forall p, pv = Some p -> p = f s -> get_value c = want (f s)) ->
    let w := sync a (World s pv pc c) in TInv w /\ w_s w = s.
  Proof.
    intros K F P. unfold sync. rewrite bound. cbn [w_s w_pv w_pc w_c].
    set (c1 := if differs pv (f s) then match f s with Some x => set_value c x | None => remove_value c end else c).
    assert (X : get_value c1 = want (f s) /\ c_kind c1 = a_kind a).
    { unfold c1. destruct (differs pv (f s)) eqn:D.
      - destruct (f s) as [x|]; simpl in F |- *; rewrite <- K in *.
        + apply set_value_shows. exact F.
        + apply remove_value_shows. exact (fits_box _ _ F).
      - destruct pv as [p|]; [|discriminate]. apply differs_false in D. split; [eapply P; eauto|exact K]. }
    destruct X as [X1 X2].
    destruct (a_checked a) as [g|]; cbn [w_s w_pv w_pc w_c].
    - destruct (differs pc (g s)).
      + split; [|reflexivity]. constructor; unfold shown; simpl; auto.
      + split; [|reflexivity]. constructor; simpl; auto.
    - split; [|reflexivity]. constructor; simpl; auto.
  Qed.

  (** What the user has typed. *)
  Definition typed (k : kind) (t : str) : str := match k with Field => strip t | _ => unix t end.

  (** An event of the user is heeded: the bound value changes, or is what is shown. *)
  Definition heeded (s0 : St) (l : list (event St)) : Prop :=
    forall l1 t l2, l = l1 ++ Type_ t :: l2 ->
      f (w_s (after a s0 (l1 ++ [Type_ t]))) <> f (w_s (after a s0 l1)) \/
      want (f (w_s (after a s0 l1))) = typed (a_kind a) t.

  Lemma after_snoc s0 l e : after a s0 (l ++ [e]) = happens a (after a s0 l) e.
  Proof. unfold after. rewrite fold_left_app. reflexivity. Qed.

  Lemma begin_inv s : fits (a_kind a) (want (f s)) -> TInv (begin a s) /\ w_s (begin a s) = s.
  Proof. intro F. apply sync_shows; [reflexivity|exact F|discriminate]. Qed.

  Lemma set_state_inv w s : TInv w -> fits (a_kind a) (want (f s)) ->
    TInv (set_state a w s) /\ w_s (set_state a w s) = s.
  Proof.
    intros [K P S] F. apply sync_shows; auto. rewrite P. intros p E1 E2. injection E1 as <-.
    rewrite <- E2. exact S.
  Qed.
  Lemma set_s (w : world St) s : w_s (set_state a w s) = s.
  Proof.
    unfold set_state, sync. rewrite bound. cbn [w_s w_pv w_pc w_c].
    destruct (a_checked a); reflexivity.
  Qed.

  (** A text typed in. *)
  Lemma typed_in (w : world St) t : c_kind (w_c w) = a_kind a -> a_kind a <> Box ->
    get_value (user_types (w_c w) t) = typed (a_kind a) t /\ c_kind (user_types (w_c w) t) = a_kind a.
  Proof.
    intros K N. unfold user_types, get_value, typed. cbn [c_kind c_val]. rewrite K.
    destruct (a_kind a); auto. congruence.
  Qed.
  Lemma typed_fits k t : k <> Box -> fits k (typed k t).
  Proof.
    intro N. destruct k; simpl; [apply strip_is_fit|congruence|]. apply (unix_is_fit (length t)). lia.
  Qed.

  Lemma happens_inv w e :
    TInv w -> (forall s, fits (a_kind a) (want (f s))) ->
    match e with
    | Type_ t => f (w_s (happens a w e)) <> f (w_s w) \/ want (f (w_s w)) = typed (a_kind a) t
    | _ => True
    end -> TInv (happens a w e).
  Proof.
    intros I F Q. destruct e as [s|t| |]; simpl in *.
    - apply set_state_inv; auto.
    - assert (NB : a_kind a <> Box) by exact (fits_box _ _ (F (w_s w))).
      destruct I as [K P S]. destruct (typed_in w t K NB) as [T1 T2].
      assert (G : TInv (send a (set_c w (user_types (w_c w) t)) (a_input a))).
      { assert (X : forall s', f s' <> f (w_s w) \/ want (f (w_s w)) = typed (a_kind a) t ->
                    TInv (set_state a (set_c w (user_types (w_c w) t)) s')).
        { intros s' Y. apply sync_shows; auto. simpl. intros p E1 E2. rewrite P in E1. injection E1 as <-.
          rewrite T1. destruct Y as [Y|Y]; [congruence|]. rewrite <- E2. symmetry. exact Y. }
        destruct (a_kind a) eqn:Ek; [|congruence|]; unfold send in *; destruct (a_input a) as [h|]; cbn [set_c w_c w_s] in *.
        1,3: apply X; rewrite set_s in Q; exact Q.
        all: destruct Q as [Q|Q]; [elim Q; reflexivity|]; constructor; simpl; auto; [congruence|];
          unfold shown; simpl; rewrite T1, Q; reflexivity. }
      destruct (a_kind a); [exact G|congruence|exact G].
    - assert (G : TInv (send a w (a_change a))).
      { unfold send. destruct (a_change a); [|exact I]. apply set_state_inv; auto. }
      destruct (a_kind a); [exact G|exact I|exact G].
    - assert (NB : a_kind a <> Box) by exact (fits_box _ _ (F (w_s w))).
      assert (G : TInv (match a_click a with Some h => set_state a w (h (w_s w)) | None => w end)).
      { destruct (a_click a); [|exact I]. apply set_state_inv; auto. }
      destruct (a_kind a); [exact G|congruence|exact G].
  Qed.

  Lemma heeded_prefix s0 l e : heeded s0 (l ++ [e]) -> heeded s0 l.
  Proof.
    intros Hd l1 t l2 E. apply (Hd l1 t (l2 ++ [e])). rewrite E, <- app_assoc. reflexivity.
  Qed.

  (** A field or an area shows the text it is bound to, whatever the application and the user do, provided
      that no text typed in is ignored. *)
  Theorem C81_follows_partial s0 l :
    (forall s, fits (a_kind a) (want (f s))) -> heeded s0 l ->
    shown (after a s0 l) = want (f (w_s (after a s0 l))).
  Proof.
    intros F Hd. apply ti_show. induction l as [|e l IH] using rev_ind.
    - apply begin_inv. apply F.
    - rewrite after_snoc. apply happens_inv; [apply IH; exact (heeded_prefix _ _ _ Hd)|exact F|].
      destruct e as [s|t| |]; auto.
      rewrite <- after_snoc. apply (Hd l t []). reflexivity.
  Qed.

  (** With a handler that stores the text, nothing is ignored: the bound text is always the one shown. *)
  Theorem C81_two_way s0 l h :
    a_kind a <> Box -> a_input a = Some h -> a_change a = None -> a_click a = None ->
    (forall t s, f (h t s) = Some t) ->
    fits (a_kind a) (want (f s0)) -> (forall s, In (Program s) l -> fits (a_kind a) (want (f s))) ->
    shown (after a s0 l) = want (f (w_s (after a s0 l))).
  Proof.
    intros NB Hi Hc Hk Hs F0 Fl.
    assert (X : TInv (after a s0 l) /\ fits (a_kind a) (want (f (w_s (after a s0 l))))); [|apply ti_show, X].
    induction l as [|e l IH] using rev_ind.
    - destruct (begin_inv s0 F0) as [I E]. split; [exact I|]. unfold after. simpl. rewrite E. exact F0.
    - destruct IH as [I F]; [intros s J; apply Fl; apply in_app_iff; auto|].
      rewrite after_snoc. set (w := after a s0 l) in *. destruct e as [s|t| |]; simpl.
      + assert (Fs : fits (a_kind a) (want (f s))) by (apply Fl; apply in_app_iff; right; left; reflexivity).
        rewrite set_s. split; [apply set_state_inv; auto|exact Fs].
      + destruct I as [K P S]. destruct (typed_in w t K NB) as [T1 T2].
        assert (G : TInv (send a (set_c w (user_types (w_c w) t)) (a_input a)) /\
                    fits (a_kind a) (want (f (w_s (send a (set_c w (user_types (w_c w) t)) (a_input a)))))).
        { rewrite Hi. unfold send. rewrite set_s. simpl. rewrite Hs, T1. simpl.
          split; [|apply typed_fits; exact NB].
          apply sync_shows; auto.
          - rewrite Hs. simpl. apply typed_fits. exact NB.
          - intros p _ _. simpl. rewrite Hs, T1. reflexivity. }
        destruct (a_kind a); [exact G|congruence|exact G].
      + rewrite Hc. simpl. destruct (a_kind a); auto.
      + rewrite Hk. destruct (a_kind a); auto; congruence.
  Qed.

  (** What is typed in is shown, and handed to on_input as it is shown; if the bound value does not change,
      it stays so, although the bound value is another. *)
  Theorem C81_ignored (w : world St) t h :
    a_kind a <> Box -> c_kind (w_c w) = a_kind a -> w_pv w = Some (f (w_s w)) -> a_input a = Some h ->
    f (h (typed (a_kind a) t) (w_s w)) = f (w_s w) ->
    shown (happens a w (Type_ t)) = typed (a_kind a) t /\
    w_s (happens a w (Type_ t)) = h (typed (a_kind a) t) (w_s w).
  Proof.
    intros NB K P Hi E. destruct (typed_in w t K NB) as [T1 T2].
    assert (G : shown (send a (set_c w (user_types (w_c w) t)) (a_input a)) = typed (a_kind a) t /\
                w_s (send a (set_c w (user_types (w_c w) t)) (a_input a)) = h (typed (a_kind a) t) (w_s w)).
    { rewrite Hi. unfold send. rewrite set_s. cbn [set_c w_c w_s]. rewrite T1. split; [|reflexivity].
      unfold set_state, sync, shown. rewrite bound. cbn [w_s w_pv w_pc w_c set_c].
      rewrite E, P, (proj2 (differs_false _ _) eq_refl).
      destruct (a_checked a) as [g|]; cbn [w_s w_pv w_pc w_c]; [|exact T1].
      destruct (differs (w_pc w) _); exact T1. }
    simpl. destruct (a_kind a); [exact G|congruence|exact G].
  Qed.
End Texts.

(** The statement at its full strength: what is shown is what is bound. *)
Definition C81_statement : Prop :=
  forall (St : Type) (a : app St) f s0 l, a_value a = Some f -> a_kind a <> Box ->
    shown (after a s0 l) = want (f (w_s (after a s0 l))).

Module InputDemo.
  (** A field bound to a text, with a handler that stores it. *)
  Definition two (k : kind) : app str := App k (Some (fun s => Some s)) None (Some (fun t _ => t)) None None.
  (** A field for at most three characters: longer texts are ignored by the handler. *)
  Definition short : app str :=
    App Field (Some (fun s => Some s)) None (Some (fun t s => if Nat.leb (length t) 3 then t else s)) None None.
  (** A field that stores the letters in upper case. *)
  Definition upper : app str :=
    App Field (Some (fun s => Some s)) None
        (Some (fun t _ => map (fun c => if (97 <=? c) && (c <=? 122) then c - 32 else c) t)) None None.
  Definition abc : str := [97; 98; 99].
  Definition abcd : str := [97; 98; 99; 100].
  (** A box bound to a boolean. *)
  Definition flag (b : bool) : option str := if b then Some [] else None.
  Definition box (change : option (str -> bool -> bool)) (click : option (bool -> bool)) : app bool :=
    App Box None (Some flag) None change click.
End InputDemo.
Import InputDemo.

Example C81_follows_example :
  heeded upper (fun s => Some s) abc [Type_ [97; 98]; Program abcd; Type_ [65]] /\
  map (fun l => shown (after upper abc l))
      [[]; [Type_ [97; 98]]; [Type_ [97; 98]; Program abcd]; [Type_ [97; 98]; Program abcd; Type_ [65]]] =
  [abc; [65; 66]; abcd; [65]].
Proof.
  split; [|reflexivity]. intros l1 t l2 E.
  destruct l1 as [|x [|y [|z [|? l1]]]]; try discriminate; injection E as; subst.
  - left. vm_compute. discriminate.
  - left. vm_compute. discriminate.
Qed.

Example C81_two_way_example :
  map (fun l => shown (after (two Area) abc l))
      [[]; [Type_ [97; 13; 10; 98]]; [Type_ [97; 13; 10; 98]; Program abcd; Program abcd]] =
  [abc; [97; 10; 98]; abcd] /\
  w_s (after (two Area) abc [Type_ [97; 13; 10; 98]]) = [97; 10; 98].
Proof. split; reflexivity. Qed.

(** A text that the handler does not store stays in the field, although the field is bound to another: the
    attribute is sent again only when the bound value changes. *)
Theorem C81_ignored_refuted : ~ C81_statement.
Proof.
  intro H. specialize (H str short (fun s => Some s) abc [Type_ abcd] eq_refl ltac:(discriminate)).
  discriminate.
Qed.

(** Nor does setting the bound value again to what it is bring it back; only another value does. *)
Example C81_ignored_stays :
  shown (after short abc [Type_ abcd; Program abc]) = abcd /\
  shown (after short abc [Type_ abcd; Program [97]; Program abc]) = abc.
Proof. split; reflexivity. Qed.

(** A bound text with a newline is shown without it, and is stored back without it by the next edit. *)
Theorem C81_newlines_refuted :
  exists s0 : str, shown (after (two Field) s0 []) <> want (Some (w_s (after (two Field) s0 []))) /\
    shown (after (two Area) [13; 10] []) <> w_s (after (two Area) [13; 10] []).
Proof. exists [97; 10; 98]. split; discriminate. Qed.

(** In the page that the server sends a field shows the text it is bound to, an area does not: a textarea takes
    its text from its content, not from the attribute "value" that is written. *)
Theorem C81_served {St} (a : app St) f s :
  a_value a = Some f -> a_kind a = Field -> fits Field (want (f s)) -> get_value (served a s) = want (f s).
Proof.
  intros B K [F1 F2]. unfold served. rewrite B, K. destruct (f s) as [v|]; simpl in *.
  - transitivity (strip v); [destruct (a_checked a); reflexivity|exact (strip_fits v F1 F2)].
  - destruct (a_checked a); reflexivity.
Qed.
Theorem C81_server_refuted :
  exists (a : app str) f s, a_value a = Some f /\ a_kind a = Area /\ fits Area (want (f s)) /\
    get_value (served a s) <> want (f s) /\ shown (begin a s) = want (f s).
Proof.
  exists (two Area), (fun s => Some s), abc. repeat split; try discriminate.
  simpl. intros [X|[X|[X|[]]]]; discriminate.
Qed.

(** An attribute "value" that is taken away from a box is not gone: the driver empties the property, which
    for a box is the attribute; so the value sent with a form is the empty text instead of "on". *)
Theorem C81_removed_value_refuted :
  exists (a : app bool) f, a_kind a = Box /\ a_value a = Some f /\ f false = None /\
    c_vattr (w_c (begin a false)) <> None /\
    get_value (w_c (begin a false)) <> get_value (served a false).
Proof. exists (App Box (Some flag) None None None None), flag. repeat split; discriminate. Qed.

(** ** Check marks *)

Section Marks.
  Context {St : Type}.
  Variable a : app St.
  Variable g : St -> option str.
  Hypothesis bound : a_checked a = Some g.
  Hypothesis is_box : a_kind a = Box.

  Lemma value_keeps c (v : option str) :
    let c' := match v with Some s => set_value c s | None => remove_value c end in
    c_kind c = Box -> c_kind c' = Box /\ c_chk c' = c_chk c /\ c_cdirty c' = c_cdirty c.
  Proof.
    destruct c as [k va x vd df ca ch cd]. simpl. intros ->. destruct v; simpl; auto.
  Qed.

  Lemma sync_marks s pv pc c :
    c_kind c = Box ->
    let w := sync a (World s pv pc c) in
    c_kind (w_c w) = Box /\ w_s w = s /\ w_pc w = Some (g s) /\ c_cdirty (w_c w) = c_cdirty c /\
    checked w = (if differs pc (g s) then if c_cdirty c then c_chk c else on (g s) else c_chk c).
  Proof.
    intros K. unfold sync. rewrite bound. unfold checked.
    assert (G : forall pv' c', c_kind c' = Box -> c_chk c' = c_chk c -> c_cdirty c' = c_cdirty c ->
      let w := World s pv' (Some (g s)) (if differs pc (g s) then attr_checked c' (g s) else c') in
      c_kind (w_c w) = Box /\ w_s w = s /\ w_pc w = Some (g s) /\ c_cdirty (w_c w) = c_cdirty c /\
      c_chk (w_c w) = (if differs pc (g s) then if c_cdirty c then c_chk c else on (g s) else c_chk c)).
    { intros pv' c' K' E1 E2. simpl. destruct (differs pc (g s)); simpl; rewrite ?E1, ?E2; auto. }
    destruct (a_value a) as [f|]; cbn [w_s w_pv w_pc w_c].
    - destruct (differs pv (f s)).
      + destruct (value_keeps c (f s) K) as (K' & E1 & E2). exact (G (Some (f s)) _ K' E1 E2).
      + exact (G (Some (f s)) c K eq_refl eq_refl).
    - exact (G pv c K eq_refl eq_refl).
  Qed.

  Record MInv (w : world St) : Prop := {
    mi_kind : c_kind (w_c w) = Box;
    mi_prev : w_pc w = Some (g (w_s w));
    mi_mark : checked w = on (g (w_s w))
  }.

  Lemma begin_marks s : MInv (begin a s) /\ c_cdirty (w_c (begin a s)) = false /\ w_s (begin a s) = s.
  Proof.
    destruct (sync_marks s None None (ctl_new (a_kind a))) as (K & E & P & D & C); [rewrite is_box; reflexivity|].
    unfold begin. rewrite is_box in *. split; [|split; [exact D|exact E]].
    constructor; [exact K|rewrite E; exact P|rewrite E; exact C].
  Qed.

  Lemma after_snoc' s0 l e : after a s0 (l ++ [e]) = happens a (after a s0 l) e.
  Proof. unfold after. rewrite fold_left_app. reflexivity. Qed.

  (** As long as it is not clicked, a box is checked when the bound value says so. *)
  Theorem C82_unclicked s0 l : ~ In Click l ->
    checked (after a s0 l) = on (g (w_s (after a s0 l))).
  Proof.
    intro N. assert (X : MInv (after a s0 l) /\ c_cdirty (w_c (after a s0 l)) = false); [|apply mi_mark, X].
    induction l as [|e l IH] using rev_ind; [split; apply begin_marks|].
    destruct IH as [I D]; [intro X; apply N; apply in_app_iff; auto|].
    rewrite after_snoc'. set (w := after a s0 l) in *. destruct e as [s|t| |].
    - simpl. unfold set_state. destruct I as [K P M].
      destruct (sync_marks s (w_pv w) (w_pc w) (w_c w) K) as (K' & E & P' & D' & C').
      rewrite D' . split; [|exact D]. constructor; [exact K'|rewrite E; exact P'|].
      rewrite E, C', D. destruct (differs (w_pc w) (g s)) eqn:X; [reflexivity|].
      rewrite P in X. apply differs_false in X. rewrite <- X. exact M.
    - simpl. rewrite is_box. auto.
    - simpl. rewrite is_box. auto.
    - elim N. apply in_app_iff. right. left. reflexivity.
  Qed.

  (** A box whose on_change inverts the bound value, and whose bound value is changed by nothing else, is
      checked when the bound value says so. *)
  Theorem C82_toggle_partial s0 l h :
    a_input a = None -> a_click a = None -> a_change a = Some h ->
    (forall t s, on (g (h t s)) = negb (on (g s))) ->
    (forall l1 s l2, l = l1 ++ Program s :: l2 -> on (g s) = on (g (w_s (after a s0 l1)))) ->
    checked (after a s0 l) = on (g (w_s (after a s0 l))).
  Proof.
    intros Hi Hk Hc Hg Hp. apply mi_mark.
    induction l as [|e l IH] using rev_ind; [apply begin_marks|].
    assert (I : MInv (after a s0 l)).
    { apply IH. intros l1 s l2 E. apply (Hp l1 s (l2 ++ [e])). rewrite E, <- app_assoc. reflexivity. }
    clear IH. rewrite after_snoc'. set (w := after a s0 l) in *. destruct I as [K P M]. destruct e as [s|t| |].
    - simpl. unfold set_state.
      destruct (sync_marks s (w_pv w) (w_pc w) (w_c w) K) as (K' & E & P' & D' & C').
      constructor; [exact K'|rewrite E; exact P'|].
      pose proof (Hp l s [] eq_refl) as X. fold w in X.
      rewrite E, C'. destruct (differs (w_pc w) (g s)); [destruct (c_cdirty (w_c w))|]; auto;
        rewrite X; exact M.
    - simpl. rewrite is_box. constructor; assumption.
    - simpl. rewrite is_box. constructor; assumption.
    - simpl. rewrite is_box, Hk, Hi, Hc. unfold send, set_state. cbn [set_c w_s w_pv w_pc w_c].
      set (t := get_value _).
      destruct (sync_marks (h t (w_s w)) (w_pv w) (w_pc w) (user_checks (w_c w) (negb (c_chk (w_c w))))) as (K' & E & P' & D' & C').
      { exact K. }
      constructor; [exact K'|rewrite E; exact P'|].
      rewrite E, C'. cbn [user_checks c_cdirty c_chk]. unfold checked in M. rewrite Hg, M.
      destruct (differs _ _); reflexivity.
  Qed.
End Marks.

(** The statement at its full strength. *)
Definition C82_statement : Prop :=
  forall (St : Type) (a : app St) g s0 l, a_checked a = Some g -> a_kind a = Box ->
    (forall s, a_click a = None \/ exists h, a_click a = Some h /\ on (g (h s)) = negb (on (g s))) ->
    (a_click a = None -> forall s, exists h, a_change a = Some h /\ forall t, on (g (h t s)) = negb (on (g s))) ->
    checked (after a s0 l) = on (g (w_s (after a s0 l))).

Example C82_toggle_example :
  map (fun l => (checked (after (box (Some (fun _ b => negb b)) None) false l),
                 w_s (after (box (Some (fun _ b => negb b)) None) false l)))
      [[]; [Program true]; [Program true; Click]; [Program true; Click; Click; Click]] =
  [(false, false); (true, true); (false, false); (false, false)].
Proof. reflexivity. Qed.
Example C82_toggle_meets : forall l1 s l2,
  [Click; Program true; Click] = l1 ++ Program s :: l2 ->
  on (flag s) = on (flag (w_s (after (box (Some (fun _ b => negb b)) None) false l1))).
Proof.
  intros l1 s l2 E. destruct l1 as [|x [|y [|z l1]]]; try discriminate; injection E as; subst; try reflexivity.
  destruct l1; discriminate.
Qed.

(** Once it has been clicked, a box no longer follows the bound value: "uncheck all" leaves it checked. *)
Theorem C82_program_refuted : ~ C82_statement.
Proof.
  intro H. specialize (H bool (box (Some (fun _ b => negb b)) None) flag false [Click; Program false] eq_refl eq_refl).
  assert (X : true = false); [|discriminate]. apply H.
  - left. reflexivity.
  - intros _ s. exists (fun _ b => negb b). split; [reflexivity|]. intros _. destruct s; reflexivity.
Qed.

(** A box with on_click: the value is inverted, and the browser puts the check mark back. *)
Theorem C82_click_refuted :
  exists l, w_s (after (box None (Some negb)) false l) = true /\
    checked (after (box None (Some negb)) false l) = false /\ l = [Click].
Proof. exists [Click]. repeat split. Qed.

(** The text handed to on_change does not tell whether the box has been checked or unchecked: whatever the
    handler makes of it, some click is told wrongly. *)
Theorem C82_untold_refuted (tell : str -> bool) :
  let a := App Box None (Some (fun s => flag (snd s))) None (Some (fun t s => (Some (tell t), snd s))) None in
  exists l, fst (w_s (after a (None, false) l)) <> Some (checked (after a (None, false) l)).
Proof.
  destruct (tell [111; 110]) eqn:E.
  - exists [Click; Click]. vm_compute. rewrite E. discriminate.
  - exists [Click]. vm_compute. rewrite E. discriminate.
Qed.

(** ** Drop-down lists *)

Lemma nth_error_at_nth f l i k :
  nth_error (at_nth f l i) k = if Nat.eqb k i then option_map f (nth_error l k) else nth_error l k.
Proof.
  revert i k. induction l as [|o l IH]; intros i k.
  - replace (nth_error (at_nth f [] i) k) with (@None opt) by (destruct i, k; reflexivity).
    destruct (Nat.eqb k i), k; reflexivity.
  - destruct i, k; simpl; auto.
Qed.
Lemma nth_error_combine_seq {A B} (F : nat * A -> B) (l : list A) n k :
  nth_error (map F (combine (seq n (length l)) l)) k = option_map (fun o => F ((n + k)%nat, o)) (nth_error l k).
Proof.
  revert n k. induction l as [|o l IH]; intros n k; [destruct k; reflexivity|].
  destruct k; simpl; [rewrite Nat.add_0_r; reflexivity|]. rewrite IH.
  replace (n + S k)%nat with (S n + k)%nat by lia. reflexivity.
Qed.
Lemma nth_error_select_only l i k :
  nth_error (select_only l i) k = option_map (fun o => Opt (o_val o) (o_attr o) (Nat.eqb k i) (o_dirty o)) (nth_error l k).
Proof. unfold select_only. rewrite nth_error_combine_seq. reflexivity. Qed.

(** All but the selectedness is known after the attribute of one option changes. *)
Definition rest (o : opt) : str * bool * bool := (o_val o, o_attr o, o_dirty o).
Lemma rest_repair l : map rest (repair l) = map rest l.
Proof. unfold repair. destruct (existsb o_sel l); [reflexivity|]. destruct l; reflexivity. Qed.
Lemma nth_rest l l' : map rest l = map rest l' -> forall k, option_map rest (nth_error l k) = option_map rest (nth_error l' k).
Proof. intros E k. rewrite <- !nth_error_map, E. reflexivity. Qed.
Lemma attr_selected_rest l i b k :
  option_map rest (nth_error (attr_selected l i b) k) =
  option_map (fun o => (o_val o, if Nat.eqb k i then b else o_attr o, o_dirty o)) (nth_error l k).
Proof.
  unfold attr_selected. destruct (nth_error l i) as [o|] eqn:N.
  - assert (X : option_map rest (nth_error (at_nth (fun o => Opt (o_val o) b (o_sel o) (o_dirty o)) l i) k) =
                option_map (fun o => (o_val o, if Nat.eqb k i then b else o_attr o, o_dirty o)) (nth_error l k)).
    { rewrite nth_error_at_nth. destruct (Nat.eqb k i); destruct (nth_error l k); reflexivity. }
    rewrite <- X. destruct (o_dirty o); [reflexivity|]. destruct b.
    + rewrite nth_error_select_only. destruct (nth_error (at_nth _ l i) k); reflexivity.
    + rewrite (nth_rest _ _ (rest_repair _)), nth_error_at_nth.
      destruct (Nat.eqb k i); destruct (nth_error (at_nth _ l i) k); reflexivity.
  - destruct (Nat.eqb k i) eqn:E; [apply Nat.eqb_eq in E; subst; rewrite N; reflexivity|].
    destruct (nth_error l k); reflexivity.
Qed.

(** Exactly the option [j] is selected. *)
Definition only (l : list opt) (j : nat) : Prop :=
  (j < length l)%nat /\ forall k o, nth_error l k = Some o -> o_sel o = Nat.eqb k j.

Lemma only_value l j o : only l j -> nth_error l j = Some o -> sel_value l = o_val o.
Proof.
  intros [L A] N. unfold sel_value. revert j L A N. induction l as [|x l IH]; intros j L A N; [destruct j; discriminate|].
  destruct j; simpl in *.
  - injection N as ->. rewrite (A 0%nat o eq_refl). reflexivity.
  - rewrite (A 0%nat x eq_refl). simpl. apply (IH j); auto; [lia|]. intros k o' E. exact (A (S k) o' E).
Qed.
Lemma only_repair l j : only l j -> repair l = l.
Proof.
  intros [L A]. unfold repair. replace (existsb o_sel l) with true; [reflexivity|]. symmetry.
  apply existsb_exists. destruct (nth_error l j) as [o|] eqn:E; [|apply nth_error_None in E; lia].
  exists o. split; [exact (nth_error_In _ _ E)|]. rewrite (A j o E). apply Nat.eqb_refl.
Qed.
Lemma length_at_nth f l i : length (at_nth f l i) = length l.
Proof. revert i. induction l; intros [|i]; simpl; auto. Qed.
Lemma length_select_only l i : length (select_only l i) = length l.
Proof. unfold select_only. rewrite map_length, combine_length, seq_length. lia. Qed.
Lemma length_repair l : length (repair l) = length l.
Proof. unfold repair. destruct (existsb o_sel l); [reflexivity|]. destruct l; reflexivity. Qed.
Lemma length_attr l i b : length (attr_selected l i b) = length l.
Proof.
  unfold attr_selected. destruct (nth_error l i) as [o|]; [|reflexivity].
  destruct (o_dirty o); [apply length_at_nth|]. destruct b; [rewrite length_select_only; apply length_at_nth|].
  rewrite length_repair, !length_at_nth. reflexivity.
Qed.
Lemma only_select l j : (j < length l)%nat -> only (select_only l j) j.
Proof.
  intro L. split; [rewrite length_select_only; exact L|]. intros k o. rewrite nth_error_select_only.
  destruct (nth_error l k); [|discriminate]. intro E. injection E as <-. reflexivity.
Qed.
Lemma only_at_nth f l i j : only l j ->
  (forall o, nth_error l i = Some o -> o_sel (f o) = Nat.eqb i j) -> only (at_nth f l i) j.
Proof.
  intros [L A] F. split; [rewrite length_at_nth; exact L|]. intros k o. rewrite nth_error_at_nth.
  destruct (Nat.eqb k i) eqn:E; [|apply A]. apply Nat.eqb_eq in E. subst k.
  destruct (nth_error l i) as [x|]; [|discriminate]. intro E. injection E as <-. exact (F x eq_refl).
Qed.

(** Marking an option other than [j], or [j] itself, keeps [j] the selected one. *)
Lemma only_attr l j i b : only l j -> (b = true -> i = j) -> (i = j -> b = true) -> only (attr_selected l i b) j.
Proof.
  intros O B1 B2. unfold attr_selected. destruct (nth_error l i) as [o|] eqn:N; [|exact O].
  assert (O1 : only (at_nth (fun o => Opt (o_val o) b (o_sel o) (o_dirty o)) l i) j).
  { apply only_at_nth; [exact O|]. intros x E. simpl. exact (proj2 O i x E). }
  destruct (o_dirty o); [exact O1|]. destruct b.
  - rewrite (B1 eq_refl). apply only_select. rewrite length_at_nth. apply O.
  - assert (O2 : only (at_nth (fun o => Opt (o_val o) (o_attr o) false (o_dirty o))
                              (at_nth (fun o => Opt (o_val o) false (o_sel o) (o_dirty o)) l i) i) j).
    { apply only_at_nth; [exact O1|]. intros x E. simpl. symmetry. apply Nat.eqb_neq. intro X.
      discriminate (B2 X). }
    rewrite (only_repair _ _ O2). exact O2.
Qed.

Lemma nth_ext' {A} (l l' : list A) : (forall k, nth_error l k = nth_error l' k) -> l = l'.
Proof.
  revert l'. induction l as [|x l IH]; intros [|y l'] E; auto.
  - discriminate (E 0%nat).
  - discriminate (E 0%nat).
  - pose proof (E 0%nat) as X. injection X as ->. rewrite (IH l'); [reflexivity|]. intro k. exact (E (S k)).
Qed.
Definition vals_of (l : list opt) : list str := map o_val l.
Lemma attr_vals l i b : vals_of (attr_selected l i b) = vals_of l.
Proof.
  unfold vals_of. apply nth_ext'. intro k. rewrite !nth_error_map.
  pose proof (attr_selected_rest l i b k) as X.
  unfold rest in X. destruct (nth_error (attr_selected l i b) k), (nth_error l k); simpl in *; try discriminate; [|reflexivity].
  injection X as X _ _. rewrite X. reflexivity.
Qed.

Lemma mark_facts v j todo : forall l,
  NoDup (vals_of l) -> nth_error (vals_of l) j = Some v ->
  let l' := mark v l todo in
  vals_of l' = vals_of l /\
  (only l j -> only l' j) /\
  (forall o, nth_error l j = Some o -> o_attr o = false -> o_dirty o = false -> In j todo -> only l' j) /\
  (forall k o, nth_error l k = Some o -> exists o', nth_error l' k = Some o' /\ o_dirty o' = o_dirty o /\
     (o_attr o' = o_attr o \/ o_attr o' = seqb v (o_val o)) /\
     (In k todo \/ o_attr o = seqb v (o_val o) -> o_attr o' = seqb v (o_val o))).
Proof.
  induction todo as [|i todo IH]; intros l ND Vj; cbn [mark].
  - cbn zeta. split; [reflexivity|]. split; [auto|]. split; [intros o _ _ _ []|].
    intros k o N. exists o. repeat split; auto. intros [[]|E]; exact E.
  - destruct (nth_error l i) as [oi|] eqn:Ni.
    + set (b := seqb v (o_val oi)). set (l1 := if Bool.eqb (o_attr oi) b then l else attr_selected l i b).
      assert (Vi : nth_error (vals_of l) i = Some (o_val oi)) by (unfold vals_of; rewrite nth_error_map, Ni; reflexivity).
      assert (Bj : b = true <-> i = j).
      { unfold b. rewrite seqb_eq. split; intro E.
        - assert (Lj : (i < length (vals_of l))%nat) by (apply nth_error_Some; congruence).
          apply (proj1 (NoDup_nth_error _) ND i j Lj). congruence.
        - subst j. congruence. }
      assert (V1 : vals_of l1 = vals_of l) by (unfold l1; destruct (Bool.eqb _ _); [reflexivity|apply attr_vals]).
      assert (R1 : forall k o, nth_error l k = Some o -> exists o', nth_error l1 k = Some o' /\ o_val o' = o_val o /\
                     o_dirty o' = o_dirty o /\ o_attr o' = if Nat.eqb k i then b else o_attr o).
      { intros k o N. unfold l1. destruct (Bool.eqb (o_attr oi) b) eqn:EB.
        - exists o. repeat split; auto. destruct (Nat.eqb k i) eqn:E; [|reflexivity].
          apply Nat.eqb_eq in E. subst k. apply Bool.eqb_prop in EB. congruence.
        - pose proof (attr_selected_rest l i b k) as X. rewrite N in X. simpl in X.
          destruct (nth_error (attr_selected l i b) k) as [o'|]; [|discriminate].
          exists o'. unfold rest in X. simpl in X. injection X as X1 X2 X3. auto. }
      assert (O1 : only l j -> only l1 j).
      { intro O. unfold l1. destruct (Bool.eqb _ _); [exact O|]. apply only_attr; [exact O|apply Bj|apply Bj]. }
      specialize (IH l1). rewrite V1 in IH. destruct (IH ND Vj) as (H1 & H2 & H3 & H4). cbn zeta.
      split; [exact H1|]. split; [auto|]. split.
      * intros o N A D [E|J].
        -- subst i. apply H2. rewrite N in Ni. injection Ni as <-. unfold l1.
           assert (Bt : b = true) by (apply Bj; reflexivity). rewrite Bt, A. simpl.
           unfold attr_selected. rewrite N, D. apply only_select. rewrite length_at_nth.
           apply nth_error_Some. congruence.
        -- destruct (R1 j o N) as (o' & N' & _ & D' & A'). destruct (Nat.eqb j i) eqn:E.
           ++ apply Nat.eqb_eq in E. subst i. apply H2. rewrite N in Ni. injection Ni as <-. unfold l1.
              assert (Bt : b = true) by (apply Bj; reflexivity). rewrite Bt, A. simpl.
              unfold attr_selected. rewrite N, D. apply only_select. rewrite length_at_nth.
              apply nth_error_Some. congruence.
           ++ apply (H3 o' N'); [congruence|congruence|exact J].
      * intros k o N. destruct (R1 k o N) as (o1 & N1 & V & D & A). destruct (H4 k o1 N1) as (o' & N' & D' & A' & A'').
        exists o'. rewrite V in *. split; [exact N'|]. split; [congruence|].
        assert (Q : Nat.eqb k i = true -> b = seqb v (o_val o)).
        { intro E. apply Nat.eqb_eq in E. subst k. unfold b. congruence. }
        destruct (Nat.eqb k i) eqn:E.
        -- assert (X : o_attr o' = seqb v (o_val o)) by (apply A''; right; rewrite A; apply Q; reflexivity).
           split; [right; exact X|]. intros _. exact X.
        -- rewrite A in *. split; [exact A'|]. intros [[K|K]|K]; [|apply A''; auto|apply A''; auto].
           subst k. rewrite Nat.eqb_refl in E. discriminate.
    + destruct (IH l ND Vj) as (H1 & H2 & H3 & H4). split; [exact H1|]. split; [exact H2|]. split.
      * intros o N A D [E|J]; [subst i; congruence|]. exact (H3 o N A D J).
      * intros k o N. destruct (H4 k o N) as (o' & N' & D & A & A'). exists o'. split; [exact N'|]. split; [exact D|].
        split; [exact A|]. intros [[E|J]|E]; [subst i; congruence|apply A'; auto|apply A'; auto].
Qed.

(** What the events say the value is to be, and which options have been picked. *)
Fixpoint fair (vals : list str) (cur : str) (picked : list str) (l : list sevent) : Prop :=
  match l with
  | [] => True
  | SProgram x :: l => In x vals /\ (x = cur \/ ~ In x picked) /\ fair vals x picked l
  | SPick i :: l =>
      match nth_error vals i with Some y => fair vals y (y :: picked) l | None => fair vals cur picked l end
  end.
Fixpoint current (vals : list str) (cur : str) (l : list sevent) : str :=
  match l with
  | [] => cur
  | SProgram x :: l => current vals x l
  | SPick i :: l => current vals (match nth_error vals i with Some y => y | None => cur end) l
  end.

Record SInv (vals : list str) (cur : str) (picked : list str) (w : sel) : Prop := {
  si_vals : vals_of (s_opts w) = vals;
  si_value : s_value w = cur;
  si_in : In cur vals;
  si_only : exists j, nth_error vals j = Some cur /\ only (s_opts w) j;
  si_attr : forall k o, nth_error (s_opts w) k = Some o -> o_attr o = seqb cur (o_val o);
  si_dirty : forall k o, nth_error (s_opts w) k = Some o -> o_dirty o = true -> In (o_val o) picked
}.

Lemma len_vals l : length (vals_of l) = length l.
Proof. apply map_length. Qed.
Lemma nth_val l k o : nth_error l k = Some o -> nth_error (vals_of l) k = Some (o_val o).
Proof. intro N. unfold vals_of. rewrite nth_error_map, N. reflexivity. Qed.
Lemma val_nth l k y : nth_error (vals_of l) k = Some y -> exists o, nth_error l k = Some o /\ o_val o = y.
Proof.
  unfold vals_of. rewrite nth_error_map. destruct (nth_error l k) as [o|]; [|discriminate].
  intro E. injection E as <-. exists o. auto.
Qed.

(** A new value: either its option is the selected one, or it has never been picked. *)
Lemma sel_set_inv vals picked w x j :
  NoDup vals -> vals_of (s_opts w) = vals -> nth_error vals j = Some x ->
  (forall k o, nth_error (s_opts w) k = Some o -> o_dirty o = true -> In (o_val o) picked) ->
  (only (s_opts w) j \/
   ~ In x picked /\ forall o, nth_error (s_opts w) j = Some o -> o_attr o = false) ->
  SInv vals x picked (sel_set w x).
Proof.
  intros ND V J D C. subst vals.
  destruct (mark_facts x j (seq 0 (length (s_opts w))) (s_opts w) ND J) as (H1 & H2 & H3 & H4).
  assert (Back : forall k o', nth_error (mark x (s_opts w) (seq 0 (length (s_opts w)))) k = Some o' ->
            exists o, nth_error (s_opts w) k = Some o /\ o_val o = o_val o' /\ o_dirty o' = o_dirty o /\
                      o_attr o' = seqb x (o_val o)).
  { intros k o' N'. pose proof (nth_val _ _ _ N') as X. rewrite H1 in X. destruct (val_nth _ _ _ X) as (o & N & Vo).
    exists o. destruct (H4 k o N) as (o2 & N2 & D2 & _ & A2). rewrite N' in N2. injection N2 as <-.
    repeat split; auto. apply A2. left. apply in_seq. split; [lia|]. apply nth_error_Some. congruence. }
  constructor.
  - exact H1.
  - reflexivity.
  - exact (nth_error_In _ _ J).
  - exists j. split; [exact J|]. simpl. destruct C as [C|[C1 C2]]; [exact (H2 C)|].
    destruct (val_nth _ _ _ J) as (o & N & Vo). apply (H3 o N); [exact (C2 o N)| |].
    + destruct (o_dirty o) eqn:E; [|reflexivity]. elim C1. rewrite <- Vo. exact (D j o N E).
    + apply in_seq. split; [lia|]. apply nth_error_Some. congruence.
  - intros k o' N'. destruct (Back k o' N') as (o & N & Vo & Do & Ao). rewrite <- Vo. exact Ao.
  - intros k o' N' E. destruct (Back k o' N') as (o & N & Vo & Do & Ao). rewrite <- Vo.
    apply (D k o N). congruence.
Qed.

Lemma sel_begin_inv vals v : NoDup vals -> In v vals -> SInv vals v [] (sel_begin v vals).
Proof.
  intros ND I. destruct (In_nth_error _ _ I) as [j J].
  set (l := map (fun s => Opt s (seqb v s) (seqb v s) false) vals).
  assert (N : forall k o, nth_error l k = Some o -> exists s, nth_error vals k = Some s /\ o = Opt s (seqb v s) (seqb v s) false).
  { intros k o. unfold l. rewrite nth_error_map. destruct (nth_error vals k) as [s|]; [|discriminate].
    intro E. injection E as <-. exists s. auto. }
  assert (Lv : (j < length vals)%nat) by (apply nth_error_Some; congruence).
  assert (O : only l j).
  { split; [unfold l; rewrite map_length; exact Lv|]. intros k o Nk. destruct (N k o Nk) as (s & Ns & ->). simpl.
    destruct (Nat.eqb k j) eqn:E.
    - apply Nat.eqb_eq in E. subst k. rewrite J in Ns. injection Ns as <-. apply seqb_eq. reflexivity.
    - destruct (seqb v s) eqn:E2; [|reflexivity]. apply seqb_eq in E2. subst s. apply Nat.eqb_neq in E. elim E.
      apply (proj1 (NoDup_nth_error _) ND); [apply nth_error_Some; congruence|congruence]. }
  unfold sel_begin. fold l. rewrite (only_repair _ _ O). constructor; simpl; auto.
  - unfold vals_of, l. rewrite map_map. apply map_id.
  - exists j. auto.
  - intros k o Nk. destruct (N k o Nk) as (s & Ns & ->). reflexivity.
  - intros k o Nk E. destruct (N k o Nk) as (s & Ns & ->). discriminate.
Qed.

Lemma s_run_inv vals : NoDup vals -> forall l cur picked w,
  SInv vals cur picked w -> fair vals cur picked l ->
  exists picked', SInv vals (current vals cur l) picked' (fold_left s_happens l w).
Proof.
  intros ND l. induction l as [|[x|i] l IH]; intros cur picked w I F; simpl in *.
  - exists picked. exact I.
  - destruct F as (F1 & F2 & F3). apply (IH x picked); [|exact F3].
    destruct (In_nth_error _ _ F1) as [j J]. destruct I as [V E In0 (j0 & J0 & O) A D].
    apply (sel_set_inv vals picked w x j); auto.
    destruct (list_eq_dec N.eq_dec x cur) as [->|nx].
    + left. replace j with j0; [exact O|].
      apply (proj1 (NoDup_nth_error _) ND); [apply nth_error_Some; congruence|congruence].
    + right. destruct F2 as [F2|F2]; [congruence|]. split; [exact F2|]. intros o N. rewrite (A j o N).
      destruct (seqb cur (o_val o)) eqn:X; [|reflexivity]. apply seqb_eq in X. elim nx.
      pose proof (nth_val _ _ _ N) as Y. rewrite V, J in Y. congruence.
  - destruct I as [V E In0 (j0 & J0 & O) A D].
    destruct (nth_error vals i) as [y|] eqn:Ni.
    + assert (L : (i < length (s_opts w))%nat).
      { rewrite <- len_vals, V. apply nth_error_Some. congruence. }
      rewrite (proj2 (Nat.ltb_lt _ _) L).
      assert (V' : vals_of (user_picks (s_opts w) i) = vals).
      { rewrite <- V. unfold vals_of. apply nth_ext'. intro k. rewrite !nth_error_map. unfold user_picks.
        rewrite nth_error_at_nth, nth_error_select_only. destruct (Nat.eqb k i); destruct (nth_error (s_opts w) k); reflexivity. }
      assert (O' : only (user_picks (s_opts w) i) i).
      { unfold user_picks. pose proof (only_select _ _ L) as X. apply only_at_nth; [exact X|].
        intros o N. simpl. exact (proj2 X i o N). }
      assert (Y : sel_value (user_picks (s_opts w) i) = y).
      { rewrite <- V' in Ni. destruct (val_nth _ _ _ Ni) as (o & N & Vo). rewrite (only_value _ _ _ O' N). exact Vo. }
      rewrite Y. apply (IH y (y :: picked)); [|exact F].
      apply (sel_set_inv vals (y :: picked) _ y i); auto.
      intros k o N Dk. simpl in N. unfold user_picks in N. rewrite nth_error_at_nth, nth_error_select_only in N.
      destruct (Nat.eqb k i) eqn:Ek.
      * apply Nat.eqb_eq in Ek. subst k. left. destruct (nth_error (s_opts w) i) as [o0|] eqn:N0; [|discriminate].
        injection N as <-. simpl. pose proof (nth_val _ _ _ N0) as X. rewrite V, Ni in X. congruence.
      * right. destruct (nth_error (s_opts w) k) as [o0|] eqn:N0; [|discriminate]. injection N as <-. simpl in *.
        exact (D k o0 N0 Dk).
    + assert (L : Nat.ltb i (length (s_opts w)) = false).
      { apply Nat.ltb_ge. rewrite <- len_vals, V. apply nth_error_None. exact Ni. }
      rewrite L. apply (IH cur picked); [constructor; eauto|exact F].
Qed.

(** A drop-down list with distinct options shows the value it is bound to, and picking an option sets the
    value, as long as the application only goes to options that the user has not picked before. *)
Theorem C83_follows_partial vals v l :
  NoDup vals -> In v vals -> fair vals v [] l ->
  let w := s_after v vals l in
  s_value w = current vals v l /\ sel_value (s_opts w) = s_value w.
Proof.
  intros ND I F. destruct (s_run_inv vals ND l v [] _ (sel_begin_inv vals v ND I) F) as [p [V E In0 (j & J & O) A D]].
  unfold s_after. split; [exact E|]. rewrite E. rewrite <- V in J. destruct (val_nth _ _ _ J) as (o & N & Vo).
  rewrite (only_value _ _ _ O N). rewrite V in Vo. exact Vo.
Qed.

(** The statement at its full strength: the application may set any of the options. *)
Definition C83_statement : Prop :=
  forall vals v l, NoDup vals -> In v vals -> (forall x, In (SProgram x) l -> In x vals) ->
    sel_value (s_opts (s_after v vals l)) = s_value (s_after v vals l).

Example C83_follows_example :
  let vals := [[97]; [98]; [99]] in
  fair vals [98] [] [SProgram [97]; SPick 2; SProgram [98]; SPick 1; SPick 0] /\
  map (fun n => sel_value (s_opts (s_after [98] vals (firstn n [SProgram [97]; SPick 2; SProgram [98]; SPick 1; SPick 0]))))
      [0; 1; 2; 3; 4; 5]%nat = [[98]; [97]; [99]; [98]; [98]; [97]].
Proof.
  split; [|reflexivity]. simpl. repeat split; auto; right; intros X; decompose [or] X; try discriminate; auto.
Qed.

(** Once picked, an option no longer follows its attribute: the user picks "b", the application sets "a", then
    "b": the list still shows "a". *)
Theorem C83_refuted : ~ C83_statement.
Proof.
  intro H.
  specialize (H [[97]; [98]] [97] [SPick 1; SProgram [97]; SProgram [98]]).
  assert (X : sel_value (s_opts (s_after [97] [[97]; [98]] [SPick 1; SProgram [97]; SProgram [98]])) <> [98]) by discriminate.
  apply X. rewrite H.
  - reflexivity.
  - constructor; [intros [E|[]]; discriminate|]. constructor; [intros []|constructor].
  - left. reflexivity.
  - intros x [E|[E|[E|[]]]]; [discriminate|injection E as <-|injection E as <-]; simpl; auto.
Qed.

(** A value that is none of the options: the list shows the first one. *)
Theorem C83_foreign_refuted :
  exists vals v, NoDup vals /\ ~ In v vals /\ sel_value (s_opts (s_after v vals [])) = [97] /\ v <> [97].
Proof.
  exists [[97]; [98]], [99]. split; [|split; [|split; [reflexivity|discriminate]]].
  - constructor; [intros [E|[]]; discriminate|]. constructor; [intros []|constructor].
  - intros [E|[E|[]]]; discriminate.
Qed.
