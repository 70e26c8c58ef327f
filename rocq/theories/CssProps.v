(** * Class names and the class attribute

    Properties C34 (one class per distinct style), C37 (the class attribute of
    an element) and C54 (media queries against plain declarations). *)

From Coq Require Import String List NArith Bool Lia.
From Coq Require DecimalN.
From Verif Require Import CodecModel DomWire CssModel CssText.
Import ListNotations.
Local Open Scope string_scope.
Local Open Scope list_scope.
Local Open Scope N_scope.

(** ** Names *)

Lemma digits_inj : forall u v, digits u = digits v -> u = v.
Proof.
  induction u; intros v H; destruct v; try discriminate; try reflexivity;
    injection H as H; f_equal; now apply IHu.
Qed.

Lemma selector_inj : forall a b, get_selector a = get_selector b -> a = b.
Proof.
  intros a b H. unfold get_selector in H. apply app_inv_head in H.
  apply digits_inj in H. now apply DecimalN.Unsigned.to_uint_inj.
Qed.

Lemma digits_range : forall u, Forall (fun c => 48 <= c /\ c <= 57) (digits u).
Proof. induction u; cbn [digits]; constructor; try assumption; lia. Qed.

(** A class name followed by a colon or a bracket is no class name. *)
Lemma selector_tail : forall a b c r, c = c_colon \/ c = c_square ->
  get_selector a ++ c :: r <> get_selector b.
Proof.
  intros a b c r Hc E. unfold get_selector in E. rewrite <- app_assoc in E.
  apply app_inv_head in E.
  pose proof (digits_range (N.to_uint b)) as R. rewrite <- E in R.
  apply Forall_app in R. destruct R as [_ R]. inversion R as [|? ? [R1 R2] _]; subst.
  destruct Hc as [->| ->]; unfold c_colon, c_square in *; lia.
Qed.

(** ** The documents of one style *)

Lemma take_head : forall n c r x, n <> 0 -> take_bytes n (c :: r) = Some x ->
  exists x', x = c :: x'.
Proof.
  intros n c r x Hn E. cbn [take_bytes] in E.
  destruct (N.eqb_spec n 0); [contradiction|].
  destruct (utf8_len c <=? n); [|discriminate].
  destruct (take_bytes (n - utf8_len c) r) as [t|]; [|discriminate].
  injection E as <-. now exists t.
Qed.

Lemma trim_head : forall c x, is_ws c = false -> exists x', trim (c :: x) = c :: x'.
Proof.
  intros c x H. exists (trim_end x). change (c :: x) with ([] ++ c :: x).
  now rewrite trim_app.
Qed.

Lemma find_head : forall c r a b z, c <> c_open -> is_ws c = false ->
  find_brackets (c :: r) = Some (Some (a, b, z)) -> exists a', a = c :: a'.
Proof.
  intros c r a b z Hc Hw E. unfold find_brackets in E.
  destruct (first_index c_open (c :: r)) as [i|] eqn:Ei; [|discriminate].
  destruct (last_index c_close (c :: r)) as [j|]; [|discriminate].
  assert (Hi : i <> 0).
  { cbn [first_index] in Ei. rewrite (proj2 (N.eqb_neq _ _) Hc) in Ei.
    destruct (first_index c_open r); [|discriminate]. injection Ei as <-. lia. }
  destruct (slice (c :: r) 0 i) as [x|] eqn:Ex; [|discriminate].
  destruct (slice (c :: r) (i + 1) j) as [y|]; [|discriminate].
  destruct (drop_bytes (j + 1) (c :: r)) as [w|]; [|discriminate].
  injection E as <- _ _. unfold slice in Ex.
  destruct (0 <=? i); [|discriminate]. cbn [drop_bytes] in Ex. rewrite N.eqb_refl, N.sub_0_r in Ex.
  destruct (take_head _ _ _ _ Hi Ex) as [x' ->]. now apply trim_head.
Qed.

(** The rule sets beside the one of the class itself have selectors that are
    not those of a class alone. *)
Definition extra_selector (s : txt) : Prop := forall j, s <> str "." ++ get_selector j.

Lemma extra_at : forall s r, s = 64 :: r -> extra_selector s.
Proof. intros s r -> j E. discriminate. Qed.

Lemma extra_nested : forall i c r, c = c_colon \/ c = c_square ->
  extra_selector ((str "." ++ get_selector i) ++ c :: r).
Proof.
  intros i c r Hc j E. rewrite <- app_assoc in E. apply app_inv_head in E.
  revert E. now apply selector_tail.
Qed.

Lemma rows_docs : forall i rows n out docs m,
  transform_rows (str "." ++ get_selector i) rows n = Some (out, docs, m) ->
  Forall (fun d => extra_selector (fst d)) docs /\ n <= m.
Proof.
  intros i. set (sel := str "." ++ get_selector i).
  induction rows as [|row rows IH]; intros n out docs m E; cbn [transform_rows] in E.
  - injection E as <- <- <-. split; [constructor|lia].
  - destruct (starts_selector row) eqn:S1.
    { unfold transform_css_selector_value in E.
      destruct (find_brackets row) as [[[[a b] z]|]|] eqn:F; [| |discriminate];
        destruct (transform_rows sel rows n) as [[[o d] k]|] eqn:T; try discriminate;
        injection E as <- <- <-; destruct (IH _ _ _ _ T) as [I1 I2]; split; try assumption.
      constructor; [|assumption]. cbn [fst].
      destruct row as [|c row]; [discriminate|]. cbn [starts_selector] in S1.
      assert (Hc : c = c_colon \/ c = c_square).
      { apply orb_true_iff in S1. destruct S1 as [S1|S1]; apply N.eqb_eq in S1; auto. }
      destruct (find_head c row a b z) as [a' ->];
        [destruct Hc as [->| ->]; discriminate|destruct Hc as [->| ->]; reflexivity|exact F|].
      now apply extra_nested. }
    destruct (starts_with (str "@media") row) eqn:S2.
    { apply starts_with_spec in S2. destruct S2 as [r Hr].
      unfold transform_css_media_query in E.
      destruct (find_brackets row) as [[[[q b] z]|]|] eqn:F; [| |discriminate].
      - destruct (css_split_rows b) as [ir|]; [|discriminate].
        destruct (media_rows sel ir) as [[reg pse]|]; [|discriminate].
        assert (Hq : extra_selector q).
        { change (str "@media" ++ r) with (64 :: str "media" ++ r) in Hr. rewrite Hr in F.
          destruct (find_head 64 (str "media" ++ r) q b z) as [q' ->];
            [discriminate|reflexivity|exact F|]. now apply (extra_at _ q'). }
        destruct (is_nil reg && is_nil pse);
          destruct (transform_rows sel rows n) as [[[o d] k]|] eqn:T; try discriminate;
          injection E as <- <- <-; destruct (IH _ _ _ _ T) as [I1 I2]; split; try assumption.
        constructor; assumption.
      - destruct (transform_rows sel rows n) as [[[o d] k]|] eqn:T; try discriminate;
          injection E as <- <- <-; destruct (IH _ _ _ _ T) as [I1 I2]; split; assumption. }
    destruct (css_row_split_to_pair row) as [[name v]|].
    2:{ destruct (transform_rows sel rows n) as [[[o d] k]|] eqn:T; try discriminate;
          injection E as <- <- <-; destruct (IH _ _ _ _ T) as [I1 I2]; split; assumption. }
    destruct (txt_eqb (trim name) (str "animation")).
    + unfold transform_css_animation_value, get_next_id in E.
      destruct (find_brackets v) as [[[[a b] z]|]|]; [| |discriminate].
      * destruct (transform_rows sel rows (n + 1)) as [[[o d] k]|] eqn:T; try discriminate.
        injection E as <- <- <-. destruct (IH _ _ _ _ T) as [I1 I2]. split; [|lia].
        constructor; [|assumption]. cbn [fst]. eapply extra_at. reflexivity.
      * destruct (transform_rows sel rows n) as [[[o d] k]|] eqn:T; try discriminate.
        injection E as <- <- <-. destruct (IH _ _ _ _ T) as [I1 I2]. split; assumption.
    + destruct (transform_rows sel rows n) as [[[o d] k]|] eqn:T; try discriminate.
      injection E as <- <- <-. destruct (IH _ _ _ _ T) as [I1 I2]. split; assumption.
Qed.

Lemma transform_shape : forall t n id docs m, transform_css t n = Some (id, docs, m) ->
  id = n + 1 /\ n + 1 <= m
  /\ exists extra body, docs = extra ++ [(str "." ++ get_selector id, body)]
     /\ Forall (fun d => extra_selector (fst d)) extra.
Proof.
  intros t n id docs m E. unfold transform_css, get_next_id in E.
  destruct (css_split_rows t) as [rows|]; [|discriminate].
  destruct (transform_rows _ rows (n + 1)) as [[[out d] k]|] eqn:T; [|discriminate].
  injection E as <- <- <-. destruct (rows_docs _ _ _ _ _ _ T) as [I1 I2].
  split; [reflexivity|]. split; [exact I2|]. now exists d, (join (str "; ") out).
Qed.

(** ** C34: requests and their answers *)

(** The two families of styles. *)
Inductive family := Static | Dynamic.

Definition style := (family * txt)%type.

Definition style_dec : forall a b : style, {a = b} + {a <> b}.
Proof.
  intros a b. decide equality; [apply (list_eq_dec N.eq_dec)|decide equality].
Defined.

(** The styles a [Css] value consists of. *)
Definition styles_of (g : group) : list style :=
  match g with
  | CssStatic t => [(Static, t)]
  | CssDynamic t => [(Dynamic, t)]
  | CssMedia _ rules => map (fun t => (Dynamic, t)) rules
  end.

(** Each element once, in the order of its first occurrence. *)
Definition add_new (l : list style) (x : style) : list style :=
  if in_dec style_dec x l then l else l ++ [x].

Definition firsts (l : list style) : list style := fold_left add_new l [].

(** A sequence of requests. *)
Fixpoint requests (m : mgr) (l : list css) : option (list txt * mgr) :=
  match l with
  | [] => Some ([], m)
  | c :: r =>
      match get_class_name m c with
      | None => None
      | Some (w, m1) =>
          match requests m1 r with
          | None => None
          | Some (ws, m2) => Some (w :: ws, m2)
          end
      end
  end.

(** The words of the class attribute of a [Css] value, given the name of each
    style. *)
Definition words_of (name : style -> txt) (g : group) : list txt :=
  match g with
  | CssStatic t => [name (Static, t)]
  | CssDynamic t => [name (Dynamic, t)]
  | CssMedia q rules => str "@media" :: q :: map (fun t => name (Dynamic, t)) rules
  end.

(** *** The invariant *)

Definition family_map (m : mgr) (f : family) : list (txt * N) :=
  match f with Static => m_static m | Dynamic => m_dynamic m end.

Definition find_style (m : mgr) (s : style) : option N := lookup (snd s) (family_map m (fst s)).

Record inv (m : mgr) (a : list (style * N)) : Prop := {
  inv_find : forall s id, find_style m s = Some id <-> In (s, id) a;
  inv_keys : NoDup (map fst a);
  inv_ids : NoDup (map snd a);
  inv_next : Forall (fun p => snd p <= m_next m) a;
  inv_log : exists docs,
      Forall2 (fun p d => exists k, transform_css (snd (fst p)) (snd p - 1) = Some (snd p, d, k)) a docs
      /\ m_log m = concat docs }.

Lemma inv0 : inv mgr0 [].
Proof.
  constructor.
  - intros [[] t] id; cbn; split; [discriminate|intros []|discriminate|intros []].
  - constructor.
  - constructor.
  - constructor.
  - exists []. split; [constructor|reflexivity].
Qed.

Lemma lookup_none : forall t l, lookup t l = None <-> ~ In t (map fst l).
Proof.
  induction l as [|[k v] l IH]; cbn [lookup map fst In].
  - split; [intros _ []|reflexivity].
  - destruct (txt_eqb k t) eqn:E.
    + apply txt_eqb_eq in E. split; [discriminate|]. intros H. exfalso. apply H. now left.
    + rewrite IH. split.
      * intros H [G|G]; [|contradiction]. subst k. rewrite txt_eqb_refl in E. discriminate.
      * intros H G. apply H. now right.
Qed.

(** One request of the manager for a style. *)
Definition get_style (m : mgr) (s : style) : option (txt * mgr) :=
  match fst s with
  | Static => get_static m (snd s)
  | Dynamic => get_dynamic m (snd s)
  end.

Definition with_style (m : mgr) (s : style) (id : N) : mgr :=
  match fst s with
  | Static => {| m_next := m_next m; m_static := (snd s, id) :: m_static m;
                 m_dynamic := m_dynamic m; m_log := m_log m |}
  | Dynamic => {| m_next := m_next m; m_static := m_static m;
                  m_dynamic := (snd s, id) :: m_dynamic m; m_log := m_log m |}
  end.

Lemma get_style_eq : forall m s,
  get_style m s
  = match find_style m s with
    | Some id => Some (get_selector id, m)
    | None => match insert_css m (snd s) with
              | None => None
              | Some (id, m') => Some (get_selector id, with_style m' s id)
              end
    end.
Proof.
  intros m [[] t]; unfold get_style, get_static, get_dynamic, find_style, with_style;
    cbn [fst snd family_map]; destruct (lookup t _); try reflexivity.
Qed.

Lemma find_with : forall m s id s', find_style m s = None ->
  find_style (with_style m s id) s' = if style_dec s s' then Some id else find_style m s'.
Proof.
  intros m [f t] id [f' t'] H. unfold find_style, with_style in *. cbn [fst snd] in *.
  destruct (style_dec (f, t) (f', t')) as [E|E].
  - injection E as <- <-. destruct f; cbn [family_map m_static m_dynamic lookup];
      now rewrite txt_eqb_refl.
  - destruct f, f'; cbn [family_map m_static m_dynamic lookup]; try reflexivity;
      destruct (txt_eqb t t') eqn:Et; try reflexivity; apply txt_eqb_eq in Et; congruence.
Qed.

Lemma style_step : forall m a s w m', inv m a -> get_style m s = Some (w, m') ->
  exists a' id,
    inv m' a' /\ map fst a' = add_new (map fst a) s
    /\ (exists new, a' = a ++ new) /\ In (s, id) a' /\ w = get_selector id.
Proof.
  intros m a s w m' I E. rewrite get_style_eq in E.
  destruct (find_style m s) as [id|] eqn:F.
  - injection E as <- <-. exists a, id.
    apply (inv_find _ _ I) in F. split; [exact I|].
    split; [|split; [exists []; now rewrite app_nil_r|split; [exact F|reflexivity]]].
    unfold add_new. destruct (in_dec style_dec s (map fst a)) as [H|H]; [reflexivity|].
    exfalso. apply H. now apply (in_map fst) in F.
  - unfold insert_css in E.
    destruct (transform_css (snd s) (m_next m)) as [[[id docs] n]|] eqn:T; [|discriminate].
    injection E as <- <-. destruct (transform_shape _ _ _ _ _ T) as [Hid [Hn _]].
    assert (Fresh : ~ In s (map fst a)).
    { intros H. apply in_map_iff in H. destruct H as [[s' j] [Es H]]. cbn in Es. subst s'.
      apply (inv_find _ _ I) in H. congruence. }
    exists (a ++ [(s, id)]), id. split; [|split; [|split; [|split]]].
    + constructor.
      * intros s' j. rewrite find_with by exact F.
        rewrite in_app_iff. cbn [In].
        destruct (style_dec s s') as [<-|Ne].
        -- split.
           ++ intros G. injection G as <-. right. now left.
           ++ intros [G|[G|[]]]; [|now injection G as <-].
              exfalso. apply Fresh. now apply (in_map fst) in G.
        -- change (find_style _ s') with (find_style m s').
           rewrite (inv_find _ _ I). split; [now left|].
           intros [G|[G|[]]]; [exact G|]. injection G as -> _. congruence.
      * rewrite map_app. cbn [map fst].
        rewrite <- (rev_involutive (map fst a ++ [s])). apply NoDup_rev.
        rewrite rev_app_distr. cbn [rev app]. constructor.
        -- now rewrite <- in_rev.
        -- apply NoDup_rev, (inv_keys _ _ I).
      * rewrite map_app. cbn [map snd].
        rewrite <- (rev_involutive (map snd a ++ [id])). apply NoDup_rev.
        rewrite rev_app_distr. cbn [rev app]. constructor.
        -- rewrite <- in_rev. intros G. apply in_map_iff in G. destruct G as [[s' j] [Ej G]].
           cbn in Ej. subst j. pose proof (inv_next _ _ I) as B. rewrite Forall_forall in B.
           apply B in G. cbn in G. lia.
        -- apply NoDup_rev, (inv_ids _ _ I).
      * apply Forall_app. split.
        -- eapply Forall_impl; [|exact (inv_next _ _ I)]. intros p Hp.
           cbn beta in Hp |- *. destruct s as [[] t]; cbn [with_style fst m_next]; lia.
        -- constructor; [|constructor]. destruct s as [[] t]; cbn [with_style fst m_next snd]; lia.
      * destruct (inv_log _ _ I) as [ds [H1 H2]].
        exists (ds ++ [docs]). split.
        -- apply Forall2_app; [exact H1|]. constructor; [|constructor]. cbn [fst snd].
           exists n. replace (id - 1) with (m_next m) by lia. exact T.
        -- rewrite concat_app. cbn [concat]. rewrite app_nil_r, <- H2.
           destruct s as [[] t]; reflexivity.
    + rewrite map_app. cbn [map fst]. unfold add_new.
      destruct (in_dec style_dec s (map fst a)); [contradiction|reflexivity].
    + now exists [(s, id)].
    + rewrite in_app_iff. right. now left.
    + reflexivity.
Qed.

Fixpoint id_of (a : list (style * N)) (s : style) : N :=
  match a with
  | [] => 0
  | (k, v) :: r => if style_dec k s then v else id_of r s
  end.

Lemma id_of_in : forall a s id, NoDup (map fst a) -> In (s, id) a -> id_of a s = id.
Proof.
  induction a as [|[k v] a IH]; intros s id N H; [destruct H|].
  cbn [map fst] in N. apply NoDup_cons_iff in N. destruct N as [N1 N2].
  cbn [id_of]. destruct (style_dec k s) as [->|E].
  - destruct H as [H|H]; [now injection H as ->|].
    exfalso. apply N1. now apply (in_map fst) in H.
  - destruct H as [H|H]; [injection H as -> _; contradiction|now apply IH].
Qed.

Lemma id_of_app : forall a b s, In s (map fst a) -> id_of (a ++ b) s = id_of a s.
Proof.
  induction a as [|[k v] a IH]; intros b s H; [destruct H|].
  cbn [app id_of]. destruct (style_dec k s) as [E|E]; [reflexivity|].
  destruct H as [H|H]; [contradiction|now apply IH].
Qed.

Lemma id_of_some : forall a s, In s (map fst a) -> In (s, id_of a s) a.
Proof.
  induction a as [|[k v] a IH]; intros s H; [destruct H|].
  cbn [id_of]. destruct (style_dec k s) as [->|E]; [now left|].
  destruct H as [H|H]; [contradiction|]. right. now apply IH.
Qed.

Definition name_in (a : list (style * N)) (s : style) : txt := get_selector (id_of a s).

Lemma add_new_in : forall l x y, In y (add_new l x) <-> In y l \/ y = x.
Proof.
  intros l x y. unfold add_new. destruct (in_dec style_dec x l) as [H|H].
  - split; [now left|]. intros [G| ->]; assumption.
  - rewrite in_app_iff. cbn. intuition auto.
Qed.

Lemma fold_new_in : forall xs l y, In y (fold_left add_new xs l) <-> In y l \/ In y xs.
Proof.
  induction xs as [|x xs IH]; intros l y; cbn [fold_left In]; [tauto|].
  rewrite IH, add_new_in. intuition auto.
Qed.

(** What is known of the manager after the styles [xs] were asked for. *)
Definition grown (m' : mgr) (a a' : list (style * N)) (xs : list style) : Prop :=
  inv m' a' /\ map fst a' = fold_left add_new xs (map fst a) /\ exists new, a' = a ++ new.

Lemma name_stable : forall a new s, In s (map fst a) -> name_in (a ++ new) s = name_in a s.
Proof. intros a new s H. unfold name_in. now rewrite id_of_app. Qed.

Lemma grown_refl : forall m a, inv m a -> grown m a a [].
Proof. intros m a I. split; [exact I|]. split; [reflexivity|]. exists []. now rewrite app_nil_r. Qed.

Lemma grown_trans : forall m1 m2 a a1 a2 xs ys,
  grown m1 a a1 xs -> grown m2 a1 a2 ys -> grown m2 a a2 (xs ++ ys).
Proof.
  intros m1 m2 a a1 a2 xs ys [I1 [K1 [n1 E1]]] [I2 [K2 [n2 E2]]].
  split; [exact I2|]. split; [now rewrite fold_left_app, <- K1|].
  exists (n1 ++ n2). now rewrite E2, E1, app_assoc.
Qed.

Lemma dynamic_words_ok : forall rules m a ws m', inv m a ->
  dynamic_words m rules = Some (ws, m') ->
  exists a', grown m' a a' (map (fun t => (Dynamic, t)) rules)
    /\ ws = map (fun t => name_in a' (Dynamic, t)) rules.
Proof.
  induction rules as [|t rules IH]; intros m a ws m' I E; cbn [dynamic_words] in E.
  - injection E as <- <-. exists a. split; [now apply grown_refl|reflexivity].
  - destruct (get_dynamic m t) as [[w m1]|] eqn:E1; [|discriminate].
    destruct (dynamic_words m1 rules) as [[ws1 m2]|] eqn:E2; [|discriminate].
    injection E as <- <-.
    destruct (style_step m a (Dynamic, t) w m1 I E1) as [a1 [id [I1 [K1 [G1 [H1 W1]]]]]].
    assert (Gr1 : grown m1 a a1 [(Dynamic, t)]) by (split; [exact I1|split; [exact K1|exact G1]]).
    destruct (IH m1 a1 ws1 m2 I1 E2) as [a2 [Gr2 W2]].
    exists a2. split; [exact (grown_trans _ _ _ _ _ _ _ Gr1 Gr2)|].
    cbn [map]. f_equal; [|exact W2].
    destruct Gr2 as [_ [_ [new ->]]]. rewrite name_stable by (now apply (in_map fst) in H1).
    rewrite W1. unfold name_in. f_equal. symmetry.
    apply id_of_in; [apply (inv_keys _ _ I1)|exact H1].
Qed.

Lemma group_words_ok : forall g m a ws m', inv m a ->
  group_words m g = Some (ws, m') ->
  exists a', grown m' a a' (styles_of g) /\ ws = words_of (name_in a') g.
Proof.
  intros [t|t|q rules] m a ws m' I E; cbn [group_words] in E.
  - destruct (get_static m t) as [[w m1]|] eqn:E1; [|discriminate]. injection E as <- <-.
    destruct (style_step m a (Static, t) w m1 I E1) as [a1 [id [I1 [K1 [G1 [H1 W1]]]]]].
    exists a1. split; [split; [exact I1|split; [exact K1|exact G1]]|].
    cbn [words_of]. rewrite W1. unfold name_in. do 2 f_equal. symmetry.
    apply id_of_in; [apply (inv_keys _ _ I1)|exact H1].
  - destruct (get_dynamic m t) as [[w m1]|] eqn:E1; [|discriminate]. injection E as <- <-.
    destruct (style_step m a (Dynamic, t) w m1 I E1) as [a1 [id [I1 [K1 [G1 [H1 W1]]]]]].
    exists a1. split; [split; [exact I1|split; [exact K1|exact G1]]|].
    cbn [words_of]. rewrite W1. unfold name_in. do 2 f_equal. symmetry.
    apply id_of_in; [apply (inv_keys _ _ I1)|exact H1].
  - destruct (dynamic_words m rules) as [[ws1 m1]|] eqn:E1; [|discriminate]. injection E as <- <-.
    destruct (dynamic_words_ok rules m a ws1 m1 I E1) as [a1 [G1 W1]].
    exists a1. split; [exact G1|]. cbn [words_of]. now rewrite W1.
Qed.

Lemma words_stable : forall a new g, (forall s, In s (styles_of g) -> In s (map fst a)) ->
  words_of (name_in (a ++ new)) g = words_of (name_in a) g.
Proof.
  intros a new [t|t|q rules] H; cbn [words_of].
  - rewrite name_stable; [reflexivity|]. apply H. now left.
  - rewrite name_stable; [reflexivity|]. apply H. now left.
  - do 2 f_equal. apply map_ext_in. intros t Ht. apply name_stable. apply H.
    cbn [styles_of]. now apply (in_map (fun t => (Dynamic, t))).
Qed.

Lemma grown_has : forall m' a a' xs s, grown m' a a' xs -> In s xs -> In s (map fst a').
Proof. intros m' a a' xs s [_ [K _]] H. rewrite K, fold_new_in. now right. Qed.

Lemma class_words_ok : forall c m a ws m', inv m a ->
  class_words m c = Some (ws, m') ->
  exists a', grown m' a a' (flat_map styles_of c)
    /\ ws = flat_map (words_of (name_in a')) c.
Proof.
  induction c as [|g c IH]; intros m a ws m' I E; cbn [class_words] in E.
  - injection E as <- <-. exists a. split; [now apply grown_refl|reflexivity].
  - destruct (group_words m g) as [[w m1]|] eqn:E1; [|discriminate].
    destruct (class_words m1 c) as [[ws1 m2]|] eqn:E2; [|discriminate].
    injection E as <- <-.
    destruct (group_words_ok g m a w m1 I E1) as [a1 [G1 W1]].
    destruct (IH m1 a1 ws1 m2 (proj1 G1) E2) as [a2 [G2 W2]].
    exists a2. cbn [flat_map]. split; [exact (grown_trans _ _ _ _ _ _ _ G1 G2)|].
    rewrite <- W2, W1. f_equal. destruct G2 as [_ [_ [new ->]]]. symmetry. apply words_stable.
    intros s Hs. now apply (grown_has _ _ _ _ _ G1).
Qed.

Lemma flat_words_stable : forall a new c, (forall s, In s (flat_map styles_of c) -> In s (map fst a)) ->
  flat_map (words_of (name_in (a ++ new))) c = flat_map (words_of (name_in a)) c.
Proof.
  induction c as [|g c IH]; intros H; [reflexivity|]. cbn [flat_map].
  rewrite words_stable, IH; [reflexivity| |];
    intros s Hs; apply H; cbn [flat_map]; rewrite in_app_iff; auto.
Qed.

Lemma requests_ok : forall reqs m a names m', inv m a ->
  requests m reqs = Some (names, m') ->
  exists a', grown m' a a' (flat_map (flat_map styles_of) reqs)
    /\ names = map (fun c => join (str " ") (flat_map (words_of (name_in a')) c)) reqs.
Proof.
  induction reqs as [|c reqs IH]; intros m a names m' I E; cbn [requests] in E.
  - injection E as <- <-. exists a. split; [now apply grown_refl|reflexivity].
  - unfold get_class_name in E. destruct (class_words m c) as [[w m1]|] eqn:E1; [|discriminate].
    destruct (requests m1 reqs) as [[ws1 m2]|] eqn:E2; [|discriminate].
    injection E as <- <-.
    destruct (class_words_ok c m a w m1 I E1) as [a1 [G1 W1]].
    destruct (IH m1 a1 ws1 m2 (proj1 G1) E2) as [a2 [G2 W2]].
    exists a2. cbn [flat_map map]. split; [exact (grown_trans _ _ _ _ _ _ _ G1 G2)|].
    rewrite <- W2, W1. f_equal. f_equal.
    destruct G2 as [_ [_ [new ->]]]. symmetry. apply flat_words_stable.
    intros s Hs. now apply (grown_has _ _ _ _ _ G1).
Qed.

Lemma id_of_inj : forall m a s t, inv m a -> In s (map fst a) -> In t (map fst a) ->
  id_of a s = id_of a t -> s = t.
Proof.
  intros m a s t I Hs Ht E.
  apply id_of_some in Hs. apply id_of_some in Ht. rewrite E in Hs.
  pose proof (inv_ids _ _ I) as N. revert N Hs Ht. generalize (id_of a t). clear.
  intros id. induction a as [|[k v] a IH]; intros N Hs Ht; [destruct Hs|].
  cbn [map snd] in N. apply NoDup_cons_iff in N. destruct N as [N1 N2].
  destruct Hs as [Hs|Hs], Ht as [Ht|Ht].
  - congruence.
  - injection Hs as -> ->. exfalso. apply N1. now apply (in_map snd) in Ht.
  - injection Ht as -> ->. exfalso. apply N1. now apply (in_map snd) in Hs.
  - now apply IH.
Qed.

(** *** The claim

    For every sequence of requests that ends without a panic there is one name
    for each style: every answer consists of the names of the styles asked
    for, and no two styles share a name. *)
Theorem C34_names : forall reqs names m,
  requests mgr0 reqs = Some (names, m) ->
  exists name : style -> txt,
    names = map (fun c => join (str " ") (flat_map (words_of name) c)) reqs
    /\ forall s t, In s (flat_map (flat_map styles_of) reqs) ->
                   In t (flat_map (flat_map styles_of) reqs) ->
                   name s = name t -> s = t.
Proof.
  intros reqs names m E. destruct (requests_ok _ _ _ _ _ inv0 E) as [a [G W]].
  exists (name_in a). split; [exact W|]. intros s t Hs Ht En.
  apply selector_inj in En.
  apply (id_of_inj m a s t (proj1 G)); [| |exact En]; now apply (grown_has _ _ _ _ _ G).
Qed.

(** The same, for requests of single styles: equal names mean equal styles. *)
Definition single (s : style) : css :=
  [match fst s with Static => CssStatic (snd s) | Dynamic => CssDynamic (snd s) end].

Theorem C34_same_name : forall ss names m,
  requests mgr0 (map single ss) = Some (names, m) ->
  length names = length ss
  /\ forall i j s t w v,
       nth_error ss i = Some s -> nth_error ss j = Some t ->
       nth_error names i = Some w -> nth_error names j = Some v ->
       (w = v <-> s = t).
Proof.
  intros ss names m E. destruct (C34_names _ _ _ E) as [name [W Inj]].
  rewrite map_map in W. split; [rewrite W; apply map_length|].
  assert (W1 : names = map name ss).
  { rewrite W. apply map_ext. intros [[] t]; reflexivity. }
  assert (S1 : flat_map (flat_map styles_of) (map single ss) = ss).
  { clear. induction ss as [|[[] t] ss IH]; cbn; [reflexivity| |]; now rewrite IH. }
  rewrite S1 in Inj. intros i j s t w v Hs Ht Hw Hv.
  rewrite W1 in Hw, Hv.
  rewrite (map_nth_error name _ _ Hs) in Hw. rewrite (map_nth_error name _ _ Ht) in Hv.
  injection Hw as <-. injection Hv as <-. split; [|congruence].
  apply Inj; [now apply (nth_error_In ss i)|now apply (nth_error_In ss j)].
Qed.

(** The rules handed to the document: those of each style once, in the order
    of the first requests. *)
Theorem C34_inserted : forall reqs names m,
  requests mgr0 reqs = Some (names, m) ->
  exists ids docs,
    length ids = length (firsts (flat_map (flat_map styles_of) reqs))
    /\ Forall2 (fun p d => exists k, transform_css (snd (fst p)) (snd p - 1) = Some (snd p, d, k))
         (combine (firsts (flat_map (flat_map styles_of) reqs)) ids) docs
    /\ NoDup ids /\ m_log m = concat docs.
Proof.
  intros reqs names m E. destruct (requests_ok _ _ _ _ _ inv0 E) as [a [[I [K _]] _]].
  destruct (inv_log _ _ I) as [docs [H1 H2]].
  exists (map snd a), docs. unfold firsts. cbn [map] in K. rewrite <- K.
  split; [now rewrite !map_length|].
  split; [|split; [apply (inv_ids _ _ I)|exact H2]].
  replace (combine (map fst a) (map snd a)) with a; [exact H1|].
  clear. induction a as [|[k v] a IH]; [reflexivity|]. cbn. now rewrite <- IH.
Qed.

(** How many rules for a selector the document was given. *)
Definition rules_for (sel : txt) (log : list (txt * txt)) : list (txt * txt) :=
  filter (fun d => txt_eqb (fst d) sel) log.

Lemma rules_extra : forall j l, Forall (fun d : txt * txt => extra_selector (fst d)) l ->
  rules_for (str "." ++ get_selector j) l = [].
Proof.
  intros j l H. induction H as [|d l Hd Hl IH]; [reflexivity|].
  unfold rules_for in *. cbn [filter].
  destruct (txt_eqb (fst d) (str "." ++ get_selector j)) eqn:E; [|exact IH].
  apply txt_eqb_eq in E. exfalso. now apply (Hd j).
Qed.

Lemma rules_app : forall s a b, rules_for s (a ++ b) = rules_for s a ++ rules_for s b.
Proof. intros s a b. apply filter_app. Qed.

Lemma rules_docs : forall t n id docs k j, transform_css t n = Some (id, docs, k) ->
  length (rules_for (str "." ++ get_selector j) docs) = if N.eq_dec id j then 1%nat else 0%nat.
Proof.
  intros t n id docs k j E. destruct (transform_shape _ _ _ _ _ E) as [_ [_ [ex [body [-> Hex]]]]].
  rewrite rules_app, rules_extra by assumption. cbn [app]. unfold rules_for. cbn [filter fst].
  destruct (N.eq_dec id j) as [->|Ne]; [now rewrite txt_eqb_refl|].
  destruct (txt_eqb _ _) eqn:Et; [|reflexivity].
  apply txt_eqb_eq in Et. apply app_inv_head in Et. apply selector_inj in Et. contradiction.
Qed.

(** For every style asked for, exactly one rule with the selector of its class
    was given to the document. *)
Theorem C34_rule_once : forall reqs names m,
  requests mgr0 reqs = Some (names, m) ->
  exists name : style -> txt,
    names = map (fun c => join (str " ") (flat_map (words_of name) c)) reqs
    /\ forall s, In s (flat_map (flat_map styles_of) reqs) ->
         length (rules_for (str "." ++ name s) (m_log m)) = 1%nat.
Proof.
  intros reqs names m E. destruct (requests_ok _ _ _ _ _ inv0 E) as [a [G W]].
  exists (name_in a). split; [exact W|]. intros s Hs.
  apply (grown_has _ _ _ _ _ G) in Hs. apply id_of_some in Hs. unfold name_in.
  revert Hs. generalize (id_of a s) as j. intros j Hs.
  destruct G as [I _]. destruct (inv_log _ _ I) as [docs [H1 H2]]. rewrite H2.
  pose proof (inv_ids _ _ I) as Nd. clear - H1 Nd Hs.
  assert (Z : forall (b : list (style * N)) ds, Forall2 (fun p d => exists k,
              transform_css (snd (fst p)) (snd p - 1) = Some (snd p, d, k)) b ds ->
            ~ In j (map snd b) ->
            length (rules_for (str "." ++ get_selector j) (concat ds)) = 0%nat).
  { intros b ds H. induction H as [|p d b ds [k T] H IH]; intros Hj; [reflexivity|].
    cbn [concat]. rewrite rules_app, app_length, (rules_docs _ _ _ _ _ j T).
    destruct (N.eq_dec (snd p) j) as [E|E]; [exfalso; apply Hj; now left|].
    apply IH. intros H'. apply Hj. now right. }
  induction H1 as [|p d a docs [k T] H1 IH]; [destruct Hs|].
  cbn [concat]. rewrite rules_app, app_length, (rules_docs _ _ _ _ _ j T).
  cbn [map] in Nd. apply NoDup_cons_iff in Nd. destruct Nd as [N1 N2].
  destruct (N.eq_dec (snd p) j) as [Ej|Ej].
  - rewrite (Z a docs H1); [reflexivity|]. now rewrite <- Ej.
  - destruct Hs as [Hs|Hs]; [subst p; contradiction|]. now rewrite IH.
Qed.

(** A case: a style asked for twice, the same text in the other family, and a
    style of two chunks. *)
Module ManagerDemo.
Definition red := str "color: red".
Definition hover := str ":hover { color: blue; }; width: 1px".
Definition reqs : list css :=
  [ [CssStatic red]; [CssDynamic red]; [CssStatic red; CssDynamic hover]; [CssDynamic hover] ].
End ManagerDemo.

Example C34_case : exists m,
  requests mgr0 ManagerDemo.reqs
  = Some ([str "autocss_1"; str "autocss_2"; str "autocss_1 autocss_3"; str "autocss_3"], m)
  /\ m_log m = [ (str ".autocss_1", str "color: red"); (str ".autocss_2", str "color: red");
                 (str ".autocss_3:hover", str "color: blue;"); (str ".autocss_3", str "width: 1px") ].
Proof. eexists. split; vm_compute; reflexivity. Qed.

(** ** C37: the class attribute of an element *)

(** The sources after a sequence of changes: the attribute the user supplied,
    the style, and the style of the suspense layer. *)
Definition user_class (ops : list class_op) : option txt :=
  fold_left (fun v o => match o with SetAttribute a => Some a | RemoveAttribute => None | _ => v end)
    ops None.

Definition style_in_force (ops : list class_op) : option css :=
  fold_left (fun v o => match o with SetCss c => Some c | _ => v end) ops None.

Definition suspense_in_force (ops : list class_op) : option css :=
  fold_left (fun v o => match o with SuspenseCss c => Some c | _ => v end) ops None.

(** The class attribute the document has after the commands sent. *)
Definition shown (sent : list txt) : option txt :=
  match sent with [] => None | _ => Some (last sent []) end.

(** The names in a manager that knows every style of [c]. *)
Definition knows (m : mgr) (c : option css) (w : list txt) : Prop :=
  match c with
  | None => w = []
  | Some c => exists x, get_class_name m c = Some (x, m) /\ w = [x]
  end.

Definition opt_list {A} (o : option A) : list A := match o with Some x => [x] | None => [] end.

(** *** Lemmas on the manager *)

(** Later managers know at least as much. *)
Definition later (m m' : mgr) : Prop :=
  forall s id, find_style m s = Some id -> find_style m' s = Some id.

Lemma later_refl : forall m, later m m.
Proof. intros m s id H. exact H. Qed.

Lemma later_trans : forall a b c, later a b -> later b c -> later a c.
Proof. intros a b c H1 H2 s id H. apply H2, H1, H. Qed.

Lemma style_later : forall m s w m', get_style m s = Some (w, m') ->
  later m m' /\ forall m2, later m' m2 -> get_style m2 s = Some (w, m2).
Proof.
  intros m s w m' E. rewrite get_style_eq in E.
  destruct (find_style m s) as [id|] eqn:F.
  - injection E as <- <-. split; [apply later_refl|].
    intros m2 L. rewrite get_style_eq, (L _ _ F). reflexivity.
  - destruct (insert_css m (snd s)) as [[id m1]|] eqn:I; [|discriminate]. injection E as <- <-.
    assert (Fi : forall s', find_style m1 s' = find_style m s').
    { intros s'. unfold insert_css in I. destruct (transform_css (snd s) (m_next m)) as [[[i d] n]|];
        [|discriminate]. injection I as <- <-. destruct s' as [[] t]; reflexivity. }
    assert (F1 : find_style m1 s = None) by now rewrite Fi.
    split.
    + intros s' j H. rewrite find_with by exact F1. destruct (style_dec s s') as [<-|Ne].
      * congruence.
      * now rewrite Fi.
    + intros m2 L. rewrite get_style_eq.
      rewrite (L s id); [reflexivity|]. rewrite find_with by exact F1.
      destruct (style_dec s s); [reflexivity|congruence].
Qed.

Lemma dynamic_later : forall rules m ws m', dynamic_words m rules = Some (ws, m') ->
  later m m' /\ forall m2, later m' m2 -> dynamic_words m2 rules = Some (ws, m2).
Proof.
  induction rules as [|t rules IH]; intros m ws m' E; cbn [dynamic_words] in E.
  - injection E as <- <-. split; [apply later_refl|reflexivity].
  - destruct (get_dynamic m t) as [[w m1]|] eqn:E1; [|discriminate].
    destruct (dynamic_words m1 rules) as [[ws1 m2]|] eqn:E2; [|discriminate].
    injection E as <- <-.
    destruct (style_later m (Dynamic, t) w m1 E1) as [L1 S1].
    destruct (IH _ _ _ E2) as [L2 S2]. split; [now apply (later_trans _ m1)|].
    intros m3 L. cbn [dynamic_words].
    pose proof (S1 m3 (later_trans _ _ _ L2 L)) as G. cbn in G. unfold get_style in G. cbn in G.
    rewrite G, (S2 m3 L). reflexivity.
Qed.

Lemma group_later : forall g m ws m', group_words m g = Some (ws, m') ->
  later m m' /\ forall m2, later m' m2 -> group_words m2 g = Some (ws, m2).
Proof.
  intros [t|t|q rules] m ws m' E; cbn [group_words] in E.
  - destruct (get_static m t) as [[w m1]|] eqn:E1; [|discriminate]. injection E as <- <-.
    destruct (style_later m (Static, t) w m1 E1) as [L1 S1]. split; [exact L1|].
    intros m2 L. cbn [group_words]. specialize (S1 m2 L). unfold get_style in S1. cbn in S1.
    now rewrite S1.
  - destruct (get_dynamic m t) as [[w m1]|] eqn:E1; [|discriminate]. injection E as <- <-.
    destruct (style_later m (Dynamic, t) w m1 E1) as [L1 S1]. split; [exact L1|].
    intros m2 L. cbn [group_words]. specialize (S1 m2 L). unfold get_style in S1. cbn in S1.
    now rewrite S1.
  - destruct (dynamic_words m rules) as [[w m1]|] eqn:E1; [|discriminate]. injection E as <- <-.
    destruct (dynamic_later _ _ _ _ E1) as [L1 S1]. split; [exact L1|].
    intros m2 L. cbn [group_words]. now rewrite (S1 m2 L).
Qed.

Lemma class_later : forall c m ws m', class_words m c = Some (ws, m') ->
  later m m' /\ forall m2, later m' m2 -> class_words m2 c = Some (ws, m2).
Proof.
  induction c as [|g c IH]; intros m ws m' E; cbn [class_words] in E.
  - injection E as <- <-. split; [apply later_refl|reflexivity].
  - destruct (group_words m g) as [[w m1]|] eqn:E1; [|discriminate].
    destruct (class_words m1 c) as [[ws1 m2]|] eqn:E2; [|discriminate].
    injection E as <- <-.
    destruct (group_later _ _ _ _ E1) as [L1 S1]. destruct (IH _ _ _ E2) as [L2 S2].
    split; [now apply (later_trans _ m1)|]. intros m3 L. cbn [class_words].
    rewrite (S1 m3 (later_trans _ _ _ L2 L)), (S2 m3 L). reflexivity.
Qed.

Lemma name_later : forall c m w m', get_class_name m c = Some (w, m') ->
  later m m' /\ forall m2, later m' m2 -> get_class_name m2 c = Some (w, m2).
Proof.
  intros c m w m' E. unfold get_class_name in *.
  destruct (class_words m c) as [[ws m1]|] eqn:E1; [|discriminate]. injection E as <- <-.
  destruct (class_later _ _ _ _ E1) as [L S]. split; [exact L|].
  intros m2 L2. now rewrite (S m2 L2).
Qed.

Lemma opt_later : forall c m w m', opt_class m c = Some (w, m') ->
  later m m' /\ forall m2, later m' m2 -> knows m2 c w.
Proof.
  intros [c|] m w m' E; cbn [opt_class] in E.
  - destruct (get_class_name m c) as [[x m1]|] eqn:E1; [|discriminate]. injection E as <- <-.
    destruct (name_later _ _ _ _ E1) as [L S]. split; [exact L|].
    intros m2 L2. exists x. split; [now apply S|reflexivity].
  - injection E as <- <-. split; [apply later_refl|]. intros m2 _. reflexivity.
Qed.

Lemma knows_later : forall m m' c w, knows m c w -> later m m' -> knows m' c w.
Proof.
  intros m m' [c|] w H L; [|exact H]. destruct H as [x [E ->]].
  destruct (name_later _ _ _ _ E) as [_ S]. exists x. split; [now apply S|reflexivity].
Qed.

Lemma knows_opt : forall m c w, knows m c w -> opt_class m c = Some (w, m).
Proof. intros m [c|] w H; cbn in *; [destruct H as [x [-> ->]]; reflexivity|now subst]. Qed.

Lemma opt_txt_eqb_eq : forall a b, opt_txt_eqb a b = true <-> a = b.
Proof.
  intros [a|] [b|]; cbn; split; try discriminate; try reflexivity.
  - intros H. apply txt_eqb_eq in H. now subst.
  - intros H. injection H as ->. apply txt_eqb_refl.
Qed.

(** *** The combination of the sources *)

Definition combination (parts : list txt) : option txt :=
  match parts with [] => None | _ => Some (join (str " ") parts) end.

Record good (e : elem) (a : option txt) (c s : option css) : Prop := {
  good_attr : e_attr e = a;
  good_css : e_css e = c;
  good_susp : e_susp e = s;
  good_last : exists w1 w2, knows (e_mgr e) c w1 /\ knows (e_mgr e) s w2
              /\ e_last e = combination (opt_list a ++ w1 ++ w2);
  good_sent : match e_last e with
              | Some v => shown (e_sent e) = Some v
              | None => shown (e_sent e) = None \/ shown (e_sent e) = Some []
              end }.

Lemma shown_snoc : forall l v, shown (l ++ [v]) = Some v.
Proof.
  intros l v. unfold shown. destruct (l ++ [v]) as [|x r] eqn:E.
  - now apply app_eq_nil in E.
  - rewrite <- E, last_last. reflexivity.
Qed.

Lemma is_nil_comb : forall l : list txt,
  (if is_nil l then None else Some (join (str " ") l)) = combination l.
Proof. now intros [|x l]. Qed.

Lemma refresh_good : forall e e' a c s a0 c0 s0,
  good {| e_css := c0; e_attr := a0; e_susp := s0; e_last := e_last e; e_mgr := e_mgr e;
          e_sent := e_sent e |} a0 c0 s0 ->
  refresh_dom {| e_css := c; e_attr := a; e_susp := s; e_last := e_last e; e_mgr := e_mgr e;
                 e_sent := e_sent e |} = Some e' ->
  good e' a c s
  /\ later (e_mgr e) (e_mgr e')
  /\ (e_sent e' = e_sent e /\ e_last e' = e_last e
      \/ exists v, e_sent e' = e_sent e ++ [v] /\ e_last e' <> e_last e).
Proof.
  intros e e' a c s a0 c0 s0 G E. unfold refresh_dom, get_new_command in E.
  cbn [e_css e_attr e_susp e_last e_mgr e_sent] in E.
  destruct (opt_class (e_mgr e) c) as [[w1 m1]|] eqn:E1; [|discriminate].
  destruct (opt_class m1 s) as [[w2 m2]|] eqn:E2; [|discriminate].
  destruct (opt_later _ _ _ _ E1) as [L1 K1]. destruct (opt_later _ _ _ _ E2) as [L2 K2].
  fold (opt_list a) in E. rewrite is_nil_comb in E.
  pose proof (later_trans _ _ _ L1 L2) as L12.
  destruct (opt_txt_eqb (e_last e) (combination (opt_list a ++ w1 ++ w2))) eqn:Eq.
  - apply opt_txt_eqb_eq in Eq. injection E as <-. cbn [e_css e_attr e_susp e_last e_mgr e_sent].
    split; [|split; [exact L12|left; split; reflexivity]].
    constructor; cbn [e_css e_attr e_susp e_last e_mgr e_sent]; try reflexivity.
    + exists w1, w2. split; [now apply K1|]. split; [apply K2, later_refl|exact Eq].
    + exact (good_sent _ _ _ _ G).
  - injection E as <-. cbn [e_css e_attr e_susp e_last e_mgr e_sent].
    assert (Ne : combination (opt_list a ++ w1 ++ w2) <> e_last e).
    { intros H. rewrite H in Eq. rewrite (proj2 (opt_txt_eqb_eq _ _) eq_refl) in Eq. discriminate. }
    split; [|split; [exact L12|right; eexists; split; [reflexivity|exact Ne]]].
    constructor; cbn [e_css e_attr e_susp e_last e_mgr e_sent]; try reflexivity.
    + exists w1, w2. split; [now apply K1|]. split; [apply K2, later_refl|reflexivity].
    + rewrite shown_snoc. destruct (combination (opt_list a ++ w1 ++ w2)); [reflexivity|now right].
Qed.

Lemma elem_eta : forall e, e = {| e_css := e_css e; e_attr := e_attr e; e_susp := e_susp e;
  e_last := e_last e; e_mgr := e_mgr e; e_sent := e_sent e |}.
Proof. now intros []. Qed.

Definition next_attr (v : option txt) (o : class_op) : option txt :=
  match o with SetAttribute a => Some a | RemoveAttribute => None | _ => v end.
Definition next_css (v : option css) (o : class_op) : option css :=
  match o with SetCss c => Some c | _ => v end.
Definition next_susp (v : option css) (o : class_op) : option css :=
  match o with SuspenseCss c => Some c | _ => v end.

Lemma step_good : forall e e' o a c s, good e a c s -> class_step e o = Some e' ->
  good e' (next_attr a o) (next_css c o) (next_susp s o)
  /\ (e_sent e' = e_sent e /\ e_last e' = e_last e
      \/ exists v, e_sent e' = e_sent e ++ [v] /\ e_last e' <> e_last e).
Proof.
  intros e e' o a c s G E. pose proof G as G0. rewrite (elem_eta e) in G0.
  destruct G as [Ga Gc Gs Gl Gn]. rewrite Ga, Gc, Gs in G0.
  destruct o as [v| |k|k| |k]; cbn [class_step next_attr next_css next_susp] in *.
  - destruct (refresh_good _ _ _ _ _ _ _ _ G0 E) as [H1 [_ H2]]. rewrite Gc, Gs in H1.
    split; assumption.
  - destruct (refresh_good _ _ _ _ _ _ _ _ G0 E) as [H1 [_ H2]]. rewrite Gc, Gs in H1.
    split; assumption.
  - destruct (refresh_good _ _ _ _ _ _ _ _ G0 E) as [H1 [_ H2]]. rewrite Ga, Gs in H1.
    split; assumption.
  - destruct (refresh_good _ _ _ _ _ _ _ _ G0 E) as [H1 [_ H2]]. rewrite Ga, Gc in H1.
    split; assumption.
  - injection E as <-. split; [now constructor|left; split; reflexivity].
  - destruct (get_class_name (e_mgr e) k) as [[w m]|] eqn:En; [|discriminate]. injection E as <-.
    destruct (name_later _ _ _ _ En) as [L _].
    split; [|left; split; reflexivity].
    constructor; cbn [e_css e_attr e_susp e_last e_mgr e_sent]; try assumption.
    destruct Gl as [w1 [w2 [K1 [K2 El]]]]. exists w1, w2.
    split; [now apply (knows_later (e_mgr e))|]. split; [now apply (knows_later (e_mgr e))|exact El].
Qed.

Lemma run_good : forall ops e e' a c s, good e a c s -> class_run e ops = Some e' ->
  good e' (fold_left next_attr ops a) (fold_left next_css ops c) (fold_left next_susp ops s).
Proof.
  induction ops as [|o ops IH]; intros e e' a c s G E; cbn [class_run] in E.
  - injection E as <-. exact G.
  - destruct (class_step e o) as [e1|] eqn:E1; [|discriminate].
    cbn [fold_left]. apply (IH e1); [|exact E]. now apply (step_good e e1 o).
Qed.

Lemma good0 : forall m, good (elem0 m) None None None.
Proof.
  intros m. constructor; try reflexivity.
  - exists [], []. repeat split.
  - now left.
Qed.

(** For every sequence of changes that ends without a panic, the class
    attribute in the document is made of the attribute supplied by the user,
    the classes of the style and those of the suspense layer, in this order
    (an attribute that is not there counts as empty). *)
Theorem C37_combined : forall m ops e, class_run (elem0 m) ops = Some e ->
  exists w1 w2,
    knows (e_mgr e) (style_in_force ops) w1
    /\ knows (e_mgr e) (suspense_in_force ops) w2
    /\ match shown (e_sent e) with Some v => v | None => [] end
       = join (str " ") (opt_list (user_class ops) ++ w1 ++ w2).
Proof.
  intros m ops e E.
  pose proof (run_good ops _ _ _ _ _ (good0 m) E) as [_ _ _ [w1 [w2 [K1 [K2 El]]]] Gn].
  exists w1, w2. split; [exact K1|]. split; [exact K2|].
  change (fold_left next_attr ops None) with (user_class ops) in El.
  rewrite El in Gn.
  destruct (opt_list (user_class ops) ++ w1 ++ w2) as [|x l]; cbn [combination] in Gn.
  - destruct Gn as [-> | ->]; reflexivity.
  - now rewrite Gn.
Qed.

(** A change sends one command when it changes the combination and none
    otherwise; the combination is what [e_last] holds (C37_combined). *)
Theorem C37_quiet : forall m ops e o e',
  class_run (elem0 m) ops = Some e -> class_step e o = Some e' ->
  exists w1 w2 v1 v2,
    knows (e_mgr e) (style_in_force ops) w1 /\ knows (e_mgr e) (suspense_in_force ops) w2
    /\ knows (e_mgr e') (style_in_force (ops ++ [o])) v1
    /\ knows (e_mgr e') (suspense_in_force (ops ++ [o])) v2
    /\ (combination (opt_list (user_class ops) ++ w1 ++ w2)
        = combination (opt_list (user_class (ops ++ [o])) ++ v1 ++ v2) ->
        e_sent e' = e_sent e)
    /\ (combination (opt_list (user_class ops) ++ w1 ++ w2)
        <> combination (opt_list (user_class (ops ++ [o])) ++ v1 ++ v2) ->
        exists v, e_sent e' = e_sent e ++ [v]).
Proof.
  intros m ops e o e' E Es.
  pose proof (run_good ops _ _ _ _ _ (good0 m) E) as G.
  destruct (step_good _ _ _ _ _ _ G Es) as [G' Hs].
  destruct G as [_ _ _ [w1 [w2 [K1 [K2 El]]]] _].
  destruct G' as [_ _ _ [v1 [v2 [K3 [K4 El']]]] _].
  exists w1, w2, v1, v2. split; [exact K1|]. split; [exact K2|].
  assert (A1 : style_in_force (ops ++ [o]) = next_css (fold_left next_css ops None) o)
    by (unfold style_in_force; now rewrite fold_left_app).
  assert (A2 : suspense_in_force (ops ++ [o]) = next_susp (fold_left next_susp ops None) o)
    by (unfold suspense_in_force; now rewrite fold_left_app).
  assert (A3 : user_class (ops ++ [o]) = next_attr (fold_left next_attr ops None) o)
    by (unfold user_class; now rewrite fold_left_app).
  rewrite A1, A2, A3. split; [exact K3|]. split; [exact K4|].
  change (fold_left next_attr ops None) with (user_class ops) in *.
  rewrite <- El, <- El'.
  destruct Hs as [[H1 H2]|[v [H1 H2]]].
  - split; [intros _; exact H1|]. intros H. congruence.
  - split; [intros H; congruence|]. intros _. now exists v.
Qed.

(** The attribute is not removed when no source is left: it stays, empty. *)
Theorem C37_removed_refuted : exists m ops e,
  class_run (elem0 m) ops = Some e
  /\ user_class ops = None /\ style_in_force ops = None /\ suspense_in_force ops = None
  /\ shown (e_sent e) = Some [].
Proof.
  exists mgr0, [SetAttribute (str "big"); RemoveAttribute]. eexists.
  split; [vm_compute; reflexivity|]. repeat split.
Qed.

(** The class of a suspense layer stays on the element when its subscription
    is ended by [suspense(None)]. *)
Theorem C37_suspense_refuted : exists m ops e,
  class_run (elem0 m) (ops ++ [SuspenseOff]) = Some e
  /\ shown (e_sent e) = Some (str "autocss_1")
  /\ user_class ops = None /\ style_in_force ops = None.
Proof.
  exists mgr0, [SuspenseCss [CssStatic (str "display: none;")]]. eexists.
  split; [vm_compute; reflexivity|]. repeat split.
Qed.

Example C37_case : exists e,
  class_run (elem0 mgr0)
    [ SetCss [CssStatic (str "color: red")]; OtherRequest [CssStatic (str "color: red")];
      SuspenseCss [CssDynamic (str "display: none")]; SetAttribute (str "big");
      SetAttribute (str "big"); RemoveAttribute ] = Some e
  /\ e_sent e = [str "autocss_1"; str "autocss_1 autocss_2"; str "big autocss_1 autocss_2";
                 str "autocss_1 autocss_2"].
Proof. eexists. split; vm_compute; reflexivity. Qed.

(** ** C54: media queries against plain declarations

    In CSS, of two rules with the same selector and both in force, the later
    one wins.  A declaration inside a media query is meant to replace the
    plain one while the query holds, so its rule must come later. *)

(** One rule as a browser reads it: the query it depends on, the selector and
    the declarations. *)
Record rule := { r_query : option txt; r_selector : txt; r_decls : list (txt * txt) }.

(** Declarations "k: v; k: v". *)
Definition read_decls (s : txt) : list (txt * txt) :=
  flat_map (fun d => match css_row_split_to_pair d with Some p => [p] | None => [] end)
    (split_on c_semi s).

(** One pair given to the document becomes the style sheet
    "selector { value }" (driver_module/src_js/api_browser/dom/dom.ts:198-204);
    for a media query, [value] is itself a list of rules, one per line. *)
Definition read_rule (d : txt * txt) : list rule :=
  if starts_with (str "@media") (fst d)
  then flat_map (fun line =>
         match find_brackets line with
         | Some (Some (sel, decls, _)) =>
             [{| r_query := Some (fst d); r_selector := sel; r_decls := read_decls decls |}]
         | _ => []
         end) (split_on 10 (snd d))
  else [{| r_query := None; r_selector := fst d; r_decls := read_decls (snd d) |}].

(** The value of a property for a selector while all queries hold: that of the
    last rule which sets it. *)
Definition value_for (sel prop : txt) (log : list (txt * txt)) : option txt :=
  fold_left (fun v d =>
    if txt_eqb (fst d) prop then Some (snd d) else v)
    (flat_map (fun r => if txt_eqb (r_selector r) sel then r_decls r else [])
       (flat_map read_rule log)) None.

(** The manager after a sequence of requests. *)
Definition after (reqs : list css) : mgr :=
  match requests mgr0 reqs with Some (_, m) => m | None => mgr0 end.

(** Written behind the plain declaration, the media query has no effect even
    while it holds. *)
Theorem C54_refuted : exists plain wide m,
  plain <> wide
  /\ requests mgr0 [[CssStatic (str "width: " ++ plain ++ str "; @media (min-width: 400px) { width: "
                                ++ wide ++ str "; };")]]
     = Some ([str "autocss_1"], m)
  /\ value_for (str ".autocss_1") (str "width") (m_log m) = Some plain.
Proof.
  exists (str "40px"), (str "60px"),
    (after [[CssStatic (str "width: 40px; @media (min-width: 400px) { width: 60px; };")]]).
  split; [discriminate|]. split; vm_compute; reflexivity.
Qed.

(** In general the plain rule of a style comes last. *)
Theorem C54_plain_last : forall t n id docs m, transform_css t n = Some (id, docs, m) ->
  exists before body, docs = before ++ [(str "." ++ get_selector id, body)].
Proof.
  intros t n id docs m E. destruct (transform_shape _ _ _ _ _ E) as [_ [_ [ex [body [-> _]]]]].
  now exists ex, body.
Qed.

(** The reader sees the declaration of the media query when there is no plain
    one. *)
Example C54_case : exists m,
  requests mgr0 [[CssStatic (str "top: 1px; @media (min-width: 400px) { width: 60px; };")]]
  = Some ([str "autocss_1"], m)
  /\ value_for (str ".autocss_1") (str "width") (m_log m) = Some (str "60px")
  /\ value_for (str ".autocss_1") (str "top") (m_log m) = Some (str "1px").
Proof.
  exists (after [[CssStatic (str "top: 1px; @media (min-width: 400px) { width: 60px; };")]]).
  split; [|split]; vm_compute; reflexivity.
Qed.
