(** Properties of the debug fragment (C89). *)
From Coq Require Import String List NArith Bool Permutation Lia.
From Verif Require Import CodecModel DomWire DomModel InspectModel.
Import ListNotations.
Local Open Scope string_scope.
Local Open Scope list_scope.
Local Open Scope N_scope.

(** ** What the fragment is compared with: the document of the browser *)

(** The text of a part of the document, without escaping, attributes in any order. *)
Inductive shown (s : bdom bytes) : N -> bytes -> Prop :=
| shown_text id t : b_get s id = Some (BText t) -> shown s id t
| shown_comment id t : b_get s id = Some (BComment t) -> shown s id (str "<!-- " ++ t ++ str " -->")
| shown_node id name a attrs kids : b_get s id = Some (BElement name a) -> Permutation attrs a -> shown_all s (b_kids s id) kids ->
    shown s id (str "<" ++ name ++ flat_map (fun kv => str " " ++ fst kv ++ str "='" ++ snd kv ++ str "'") attrs ++ str ">" ++ kids ++ str "</" ++ name ++ str ">")
with shown_all (s : bdom bytes) : list N -> bytes -> Prop :=
| shown_nil : shown_all s [] []
| shown_cons id t x xs : shown s id x -> shown_all s t xs -> shown_all s (id :: t) (x ++ xs).

(** A document in which only the nodes it has from the beginning exist. *)
Definition blank (perm : N -> bool) (s : bdom bytes) : Prop :=
  perm 0 = false /\
  (forall id, perm id = false -> b_node s id = None /\ b_reg s id = false /\ b_kids s id = [] /\ b_par s id = None) /\
  (forall x p, b_par s x = Some p -> In x (b_kids s p)) /\
  (forall x p, perm x = true -> b_par s x = Some p -> perm p = true) /\
  (forall x p, In x (b_kids s p) -> b_par s x = Some p) /\
  (forall x p, b_par s x = Some p -> b_get s x <> None).

(** What the commands must not do: make a node of the document, or one with id 0 or without a name; move a node of the document; put a node
    before itself. *)
Definition fair (perm : N -> bool) (c : dcmd bytes) : Prop :=
  match c with
  | CreateNode id name => perm id = false /\ id <> 0 /\ name <> []
  | CreateText id _ | CreateComment id _ => perm id = false /\ id <> 0
  | InsertBefore _ child ref => perm child = false /\ ref <> Some child
  | _ => True
  end.
(** Neither classes, styles nor callbacks. *)
Definition plain (c : dcmd bytes) : Prop :=
  match c with
  | SetAttr _ n _ | RemoveAttr _ n => n <> str "class" /\ n <> str "style"
  | CallbackAdd _ _ _ => False
  | _ => True
  end.

Lemma same_spec a b : reflect (a = b) (same a b).
Proof. unfold same. destruct (list_eq_dec N.eq_dec a b); constructor; assumption. Qed.
Lemma same_refl a : same a a = true.
Proof. destruct (same_spec a a); congruence. Qed.

Section Sim.
  Variable hook : bytes.
  Variable perm : N -> bool.
  Notation b_step := (b_step same hook perm).
  Notation b_run := (b_run same hook perm).
  (** How the attributes of a node and of its image agree, and which commands keep this. *)
  Variable R : list (bytes * bytes) -> list (bytes * bytes) -> Prop.
  Variable okc : dcmd bytes -> Prop.
  Hypothesis R_nil : R [] [].
  Hypothesis R_set : forall id n v css a d, okc (SetAttr id n v) -> R a (d_attrs d) -> R (battr_set same a n v) (d_attrs (set_attr css n v d)).
  Hypothesis R_del : forall id n a d, okc (RemoveAttr id n) -> R a (d_attrs d) ->
    R (battr_del same a n) (d_attrs (if same n (str "class") then d else with_attrs d (assoc_del (d_attrs d) n))).

  Definition like (n : bnode bytes) (d : dnode) : Prop :=
    match n with
    | BElement name a => d_name d = name /\ name <> [] /\ R a (d_attrs d)
    | BText t => d_name d = [] /\ d_text d = Some t
    | BComment t => d_name d = [] /\ d_text d = Some (str "<!-- " ++ t ++ str " -->")
    end.
  Definition up (s : bdom bytes) (id : N) : N := match b_par s id with Some p => p | None => 0 end.
  Definition image (s : bdom bytes) (id : N) (d : dnode) : Prop :=
    exists n, b_get s id = Some n /\ like n d /\ d_kids d = b_kids s id /\ d_parent d = up s id.
  Record sim (s : bdom bytes) (f : frag) : Prop := {
    sim_some : forall id d, f_map f id = Some d -> perm id = false /\ id <> 0 /\ image s id d;
    sim_none : forall id, perm id = false -> f_map f id = None -> b_get s id = None;
    sim_new : forall id, perm id = false -> b_node s id = None -> b_kids s id = [] /\ b_par s id = None;
    sim_zero : b_node s 0 = None /\ perm 0 = false;
    sim_link : forall x p, b_par s x = Some p -> In x (b_kids s p);
    sim_perm : forall x p, perm x = true -> b_par s x = Some p -> perm p = true;
    sim_back : forall x p, In x (b_kids s p) -> b_par s x = Some p;
    sim_live : forall x p, b_par s x = Some p -> b_get s x <> None
  }.

  Lemma set_attr_same css n v d : d_parent (set_attr css n v d) = d_parent d /\ d_name (set_attr css n v d) = d_name d /\
    d_kids (set_attr css n v d) = d_kids d /\ d_text (set_attr css n v d) = d_text d /\ d_cbs (set_attr css n v d) = d_cbs d.
  Proof. unfold set_attr. destruct (same n _); [destruct (assoc_get css _)|]; cbn; auto. Qed.

  Lemma get_put f id d x : f_map (f_put f id d) x = if x =? id then Some d else f_map f x.
  Proof. reflexivity. Qed.
  Lemma get_mod f id g x : f_map (f_mod f id g) x = if x =? id then option_map g (f_map f id) else f_map f x.
  Proof.
    unfold f_mod. destruct (f_map f id) as [d|] eqn:E; [rewrite get_put; reflexivity|].
    destruct (N.eqb_spec x id) as [->|]; [exact E|reflexivity].
  Qed.

  Lemma out_of_retain l x : out_of l x = retain l x.
  Proof. reflexivity. Qed.
  Lemma put_insert l r x : In r l -> put_before l r x = insert_at l r x.
  Proof.
    induction l as [|y l IH]; [intros []|]. cbn. intros H. destruct (N.eqb_spec y r) as [->|Hn]; [reflexivity|].
    rewrite IH; [reflexivity|]. destruct H; [contradiction|assumption].
  Qed.
  Lemma in_insert l r x : In x (insert_at l r x).
  Proof. induction l as [|y l IH]; cbn; [auto|]. destruct (y =? r); cbn; auto. Qed.
  Lemma in_insert_other l r x y : In y l -> In y (insert_at l r x).
  Proof. induction l as [|z l IH]; cbn; [auto|]. destruct (z =? r); cbn; intuition. Qed.
  Lemma in_insert_inv l r x y : In y (insert_at l r x) -> y = x \/ In y l.
  Proof. induction l as [|z l IH]; cbn; [intuition|]. destruct (z =? r); cbn; intuition. Qed.
  Lemma in_out_of l x y : In y l -> y <> x -> In y (out_of l x).
  Proof. intros H Hn. unfold out_of. apply filter_In. split; [exact H|]. apply N.eqb_neq in Hn. rewrite Hn. reflexivity. Qed.

  (** A change of one node that keeps its place. *)
  Lemma sim_local s f id n d n' d' css : sim s f -> b_get s id = Some n -> f_map f id = Some d -> like n' d' ->
    d_kids d' = d_kids d -> d_parent d' = d_parent d ->
    sim (set_node s id n') (Frag (f_map (f_put f id d')) css).
  Proof.
    intros H Hg Hf Hl Hk Hp. assert (Hr : b_reg s id = true) by (unfold b_get in Hg; destruct (b_reg s id); congruence).
    assert (G : forall x, b_get (set_node s id n') x = if x =? id then Some n' else b_get s x).
    { intros x. unfold b_get; cbn. unfold nupd. destruct (N.eqb_spec x id) as [->|]; [rewrite Hr|]; reflexivity. }
    destruct (sim_some _ _ H _ _ Hf) as (A & B & m & C & _ & D & E).
    constructor.
    - intros x e. cbn [f_map]. rewrite get_put. destruct (N.eqb_spec x id) as [->|Hn].
      + intros [= <-]. split; [exact A|]. split; [exact B|]. exists n'. rewrite G, N.eqb_refl. split; [reflexivity|]. split; [exact Hl|]. split; [rewrite Hk; exact D|]. rewrite Hp. exact E.
      + intros He. destruct (sim_some _ _ H _ _ He) as (A' & B' & m' & C' & D' & E'). split; [exact A'|]. split; [exact B'|].
        exists m'. rewrite G. apply N.eqb_neq in Hn. rewrite Hn. auto.
    - intros x Hx. cbn [f_map]. rewrite get_put. rewrite G. destruct (x =? id); [discriminate|]. apply (sim_none _ _ H _ Hx).
    - intros x Hx. cbn. unfold nupd. destruct (x =? id); [discriminate|]. apply (sim_new _ _ H _ Hx).
    - cbn. unfold nupd. destruct (N.eqb_spec 0 id) as [<-|]; [contradiction|]. apply (sim_zero _ _ H).
    - exact (sim_link _ _ H).
    - exact (sim_perm _ _ H).
    - exact (sim_back _ _ H).
    - intros x p Hx. rewrite G. destruct (x =? id); [discriminate|]. apply (sim_live _ _ H _ _ Hx).
  Qed.

  Lemma sim_same_dom s s' f f' : sim s f -> (forall x, b_node s' x = b_node s x) -> (forall x, b_reg s' x = b_reg s x) ->
    (forall x, b_kids s' x = b_kids s x) -> (forall x, b_par s' x = b_par s x) ->
    (forall x, option_map (fun d => (d_parent d, d_name d, d_attrs d, d_kids d, d_text d)) (f_map f' x) =
               option_map (fun d => (d_parent d, d_name d, d_attrs d, d_kids d, d_text d)) (f_map f x)) -> sim s' f'.
  Proof.
    intros H E1 E2 E3 E4 E5. assert (G : forall x, b_get s' x = b_get s x) by (intros x; unfold b_get; rewrite E1, E2; reflexivity).
    constructor.
    - intros x d' Hd'. specialize (E5 x). rewrite Hd' in E5. destruct (f_map f x) as [d|] eqn:Ed; [|discriminate].
      cbn in E5. injection E5 as F1 F2 F3 F4 F5. destruct (sim_some _ _ H _ _ Ed) as (A & B & n & C & D & K & L).
      split; [exact A|]. split; [exact B|]. exists n. rewrite G, E3. unfold up in *. rewrite E4. split; [exact C|].
      split; [destruct n; cbn in *; rewrite ?F2, ?F3, ?F5; exact D|]. split; congruence.
    - intros x Hx Hn. specialize (E5 x). rewrite Hn in E5. rewrite G. destruct (f_map f x) eqn:Ed; [discriminate|]. apply (sim_none _ _ H _ Hx Ed).
    - intros x Hx. rewrite E1, E3, E4. apply (sim_new _ _ H _ Hx).
    - rewrite E1. apply (sim_zero _ _ H).
    - intros x p. rewrite E3, E4. apply (sim_link _ _ H).
    - intros x p. rewrite E4. apply (sim_perm _ _ H).
    - intros x p. rewrite E3, E4. apply (sim_back _ _ H).
    - intros x p. rewrite E4, G. apply (sim_live _ _ H).
  Qed.

  Lemma sim_create s f id n d s' : sim s f -> b_create perm s id n = Some s' -> perm id = false -> id <> 0 ->
    like n d -> d_kids d = [] -> d_parent d = 0 -> sim s' (f_put f id d).
  Proof.
    intros H Hc Hp Hz Hl Hk Hd. unfold b_create in Hc. rewrite Hp in Hc. destruct (b_node s id) eqn:En; [discriminate|]. injection Hc as <-.
    destruct (sim_new _ _ H _ Hp En) as [K1 K2].
    set (s' := BDom _ _ _ _ _ _ _).
    assert (G : forall x, b_get s' x = if x =? id then Some n else b_get s x).
    { intros x. unfold b_get, s'; cbn. unfold nupd. destruct (x =? id); reflexivity. }
    constructor.
    - intros x e. rewrite get_put. destruct (N.eqb_spec x id) as [->|Hn].
      + intros [= <-]. split; [exact Hp|]. split; [exact Hz|]. exists n. rewrite G, N.eqb_refl. split; [reflexivity|]. split; [exact Hl|].
        unfold up; cbn. rewrite K1, K2. auto.
      + intros He. destruct (sim_some _ _ H _ _ He) as (A' & B' & m' & C' & D' & E'). split; [exact A'|]. split; [exact B'|].
        exists m'. rewrite G. apply N.eqb_neq in Hn. rewrite Hn. auto.
    - intros x Hx. rewrite get_put, G. destruct (x =? id); [discriminate|]. apply (sim_none _ _ H _ Hx).
    - intros x Hx. cbn. unfold nupd. destruct (x =? id); [discriminate|]. apply (sim_new _ _ H _ Hx).
    - cbn. unfold nupd. destruct (N.eqb_spec 0 id) as [<-|]; [contradiction|]. apply (sim_zero _ _ H).
    - exact (sim_link _ _ H).
    - exact (sim_perm _ _ H).
    - exact (sim_back _ _ H).
    - intros x p Hx. rewrite G. destruct (x =? id); [discriminate|]. apply (sim_live _ _ H _ _ Hx).
  Qed.

  Lemma get_some_node s f id d : sim s f -> f_map f id = Some d -> exists n, b_get s id = Some n /\ b_node s id = Some n /\ b_reg s id = true.
  Proof.
    intros H Hf. destruct (sim_some _ _ H _ _ Hf) as (_ & _ & n & C & _). exists n. unfold b_get in C. unfold b_get. destruct (b_reg s id); [auto|discriminate].
  Qed.

  Lemma detach_kids (s : bdom bytes) x y : b_kids (detach s x) y = match b_par s x with Some p => if y =? p then out_of (b_kids s p) x else b_kids s y | None => b_kids s y end.
  Proof. unfold detach. destruct (b_par s x); [|reflexivity]. cbn. unfold nupd. reflexivity. Qed.
  Lemma detach_par (s : bdom bytes) x y : b_par (detach s x) y = if y =? x then None else b_par s y.
  Proof.
    unfold detach. destruct (b_par s x) eqn:E.
    - cbn. unfold nupd. reflexivity.
    - destruct (N.eqb_spec y x) as [->|]; [exact E|reflexivity].
  Qed.
  Lemma detach_node (s : bdom bytes) x : b_node (detach s x) = b_node s /\ b_reg (detach s x) = b_reg s.
  Proof. unfold detach. destruct (b_par s x); auto. Qed.

  (** The nodes below id 0 do not exist. *)
  Lemma no_zero s f : sim s f -> f_map f 0 = None.
  Proof. intros H. destruct (f_map f 0) as [d|] eqn:E; [|reflexivity]. destruct (sim_some _ _ H _ _ E) as (_ & B & _). congruence. Qed.

  Lemma sim_remove s f id s' : sim s f -> b_remove perm s id = Some s' -> sim s' (dbg_step f (RemoveNode id)).
  Proof.
    intros H Hr. unfold b_remove in Hr. destruct (b_get s id) as [n|] eqn:Eg; [|discriminate]. injection Hr as <-.
    set (s1 := BDom _ _ _ _ _ _ _). cbn [dbg_step].
    assert (K : forall y, b_kids s1 y = b_kids s y) by reflexivity.
    assert (P : forall y, b_par s1 y = b_par s y) by reflexivity.
    destruct (detach_node s1 id) as [N1 N2].
    assert (G : forall x, perm x = false -> b_get (detach s1 id) x = if x =? id then None else b_get s x).
    { intros x Hx. unfold b_get. rewrite N1, N2. cbn. destruct (perm id) eqn:Ep.
      - destruct (N.eqb_spec x id) as [->|]; [congruence|reflexivity].
      - unfold nupd. destruct (x =? id); reflexivity. }
    assert (F : forall x, f_map (Frag (fun x => if x =? id then None
                   else f_map (match f_map f id with Some d => f_mod f (d_parent d) (fun p => with_kids p (retain (d_kids p) id)) | None => f end) x)
                   (f_css (match f_map f id with Some d => f_mod f (d_parent d) (fun p => with_kids p (retain (d_kids p) id)) | None => f end))) x =
                 if x =? id then None else option_map (fun d => if match b_par s id with Some p => x =? p | None => false end
                                                               then with_kids d (retain (d_kids d) id) else d) (f_map f x)).
    { intros x. cbn [f_map]. destruct (x =? id) eqn:Exi; [reflexivity|]. destruct (f_map f id) as [d|] eqn:Ed.
      - rewrite get_mod. destruct (sim_some _ _ H _ _ Ed) as (_ & _ & m & _ & _ & _ & Up). rewrite Up. unfold up.
        destruct (b_par s id) as [p|].
        + destruct (N.eqb_spec x p) as [->|]; [reflexivity|]. destruct (f_map f x); reflexivity.
        + destruct (N.eqb_spec x 0) as [->|]; [rewrite (no_zero _ _ H); reflexivity|]. destruct (f_map f x); reflexivity.
      - (* a node of the document, or one that does not exist *)
        destruct (b_par s id) as [p|] eqn:Epar; [|destruct (f_map f x); reflexivity].
        destruct (perm id) eqn:Ep; [|rewrite (sim_none _ _ H _ Ep Ed) in Eg; discriminate].
        destruct (f_map f x) as [e|] eqn:Ex; [|reflexivity]. cbn. destruct (N.eqb_spec x p) as [->|]; [|reflexivity].
        destruct (sim_some _ _ H _ _ Ex) as (A & _). rewrite (sim_perm _ _ H _ _ Ep Epar) in A. discriminate. }
    constructor.
    - intros x e. rewrite F. destruct (N.eqb_spec x id) as [->|Hn]; [discriminate|]. destruct (f_map f x) as [d|] eqn:Ed; [|discriminate].
      intros [= <-]. destruct (sim_some _ _ H _ _ Ed) as (A & B & m & C & D & E & U). split; [exact A|]. split; [exact B|].
      exists m. rewrite (G _ A). assert (Hn' := Hn). apply N.eqb_neq in Hn'. rewrite Hn'. split; [exact C|].
      split; [destruct (match b_par s id with Some p => _ | None => _ end); [destruct m; exact D|exact D]|].
      rewrite detach_kids. unfold up. rewrite detach_par, Hn', !P, !K. destruct (b_par s id) as [p|].
      + destruct (N.eqb_spec x p) as [->|]; cbn; [rewrite E; auto|auto].
      + auto.
    - intros x Hx. rewrite F, (G _ Hx). destruct (x =? id); [reflexivity|]. destruct (f_map f x) eqn:Ed; [discriminate|].
      intros _. apply (sim_none _ _ H _ Hx Ed).
    - intros x Hx. rewrite N1. intros Hnode. destruct (sim_new _ _ H _ Hx Hnode) as [A B]. rewrite detach_kids, detach_par, !P, !K, A, B. split.
      + destruct (b_par s id); [|reflexivity]. destruct (N.eqb_spec x n0) as [->|]; [rewrite K, A|]; reflexivity.
      + destruct (x =? id); reflexivity.
    - rewrite N1. apply (sim_zero _ _ H).
    - intros x p. rewrite detach_par, detach_kids, !P, !K. destruct (N.eqb_spec x id) as [->|Hn]; [discriminate|]. intros Hx.
      pose proof (sim_link _ _ H _ _ Hx) as L. destruct (b_par s id) as [q|]; [|exact L]. destruct (N.eqb_spec p q) as [->|]; [|exact L].
      apply in_out_of; assumption.
    - intros x p Hx. rewrite detach_par. destruct (x =? id); [discriminate|]. rewrite P. apply (sim_perm _ _ H _ _ Hx).
    - intros x p. rewrite detach_kids, detach_par, !P, !K. intros Hin.
      assert (Hx : In x (b_kids s p) /\ x <> id).
      { destruct (b_par s id) as [q|] eqn:Eq.
        - destruct (N.eqb_spec p q) as [Epq|Hn]; [subst q|].
          + rewrite K in Hin. unfold out_of in Hin. apply filter_In in Hin. destruct Hin as [Hin Hx]. split; [exact Hin|].
            intros ->. rewrite N.eqb_refl in Hx. discriminate.
          + split; [exact Hin|]. intros ->. apply (sim_back _ _ H) in Hin. congruence.
        - split; [exact Hin|]. intros ->. apply (sim_back _ _ H) in Hin. congruence. }
      destruct Hx as [Hin' Hx]. apply N.eqb_neq in Hx. rewrite Hx. apply (sim_back _ _ H _ _ Hin').
    - intros x p. rewrite detach_par. destruct (N.eqb_spec x id) as [->|Hn]; [discriminate|]. rewrite P. intros Hx.
      pose proof (sim_live _ _ H _ _ Hx) as L. unfold b_get in *. rewrite N1, N2. cbn. destruct (perm id); [exact L|].
      unfold nupd. apply N.eqb_neq in Hn. rewrite Hn. exact L.
  Qed.

  Lemma sim_insert s f parent child ref s' : sim s f -> perm child = false -> ref <> Some child -> b_insert s parent child ref = Some s' ->
    sim s' (dbg_step f (InsertBefore parent child ref)).
  Proof.
    intros H Hpc Hrc Hi. unfold b_insert in Hi.
    destruct (b_get s parent) as [[pn pa| |]|] eqn:Egp; try discriminate. destruct (b_get s child) as [cn|] eqn:Egc; [|discriminate].
    destruct (f_map f child) as [d|] eqn:Ed; [|rewrite (sim_none _ _ H _ Hpc Ed) in Egc; discriminate].
    (* the place in the new list *)
    set (ins := fun l => match ref with Some r => insert_at l r child | None => l ++ [child] end).
    assert (Hins : s' = place s parent child (match ref with Some r => fun l => put_before l r child | None => fun l => l ++ [child] end) /\
                   (forall r, ref = Some r -> b_par s r = Some parent /\ r <> child)).
    { destruct ref as [r|].
      - destruct (b_get s r); [|discriminate]. destruct (b_par s r) as [q|] eqn:Epr; [|discriminate].
        destruct (N.eqb_spec q parent) as [Eqp|]; [subst q|discriminate]. destruct (N.eqb_spec r child) as [Erc|Hn]; [congruence|].
        injection Hi as <-. split; [reflexivity|]. intros r' [= <-]. auto.
      - injection Hi as <-. split; [reflexivity|discriminate]. }
    clear Hi. destruct Hins as [-> Href].
    destruct (sim_some _ _ H _ _ Ed) as (_ & Hc0 & m & Cm & Lm & Km & Um).
    destruct (detach_node s child) as [N1 N2].
    set (s1 := place _ _ _ _).
    assert (G : forall x, b_get s1 x = b_get s x) by (intros x; unfold b_get, s1, place; cbn; rewrite N1, N2; reflexivity).
    assert (P1 : forall x, b_par s1 x = if x =? child then Some parent else b_par s x).
    { intros x. unfold s1, place; cbn. unfold nupd. destruct (x =? child) eqn:E; [reflexivity|]. rewrite detach_par, E. reflexivity. }
    assert (K0 : forall x, b_kids (detach s child) x = if match b_par s child with Some p => x =? p | None => false end then retain (b_kids s x) child else b_kids s x).
    { intros x. rewrite detach_kids. destruct (b_par s child) as [p|]; [|reflexivity]. destruct (N.eqb_spec x p) as [->|]; reflexivity. }
    assert (K1 : forall x, b_kids s1 x = let l := b_kids (detach s child) x in if x =? parent then ins l else l).
    { intros x. unfold s1, place, ins; cbn. unfold nupd. destruct (N.eqb_spec x parent) as [->|]; [|reflexivity].
      destruct ref as [r|]; [|reflexivity]. destruct (Href r eq_refl) as [Hr Hn]. apply put_insert. rewrite K0.
      pose proof (sim_link _ _ H _ _ Hr) as L. destruct (match b_par s child with Some p => _ | None => _ end); [|exact L].
      apply (in_out_of _ child r L Hn). }
    assert (F : forall x, f_map (dbg_step f (InsertBefore parent child ref)) x =
      option_map (fun e => let e1 := if x =? child then DNode parent (d_name e) (d_attrs e) (d_cbs e) (d_kids e) (d_text e) else e in
                           let l := if match b_par s child with Some p => x =? p | None => false end then retain (d_kids e) child else d_kids e in
                           with_kids e1 (if x =? parent then ins l else l)) (f_map f x)).
    { intros x. cbn [dbg_step]. rewrite Ed. rewrite get_mod, !get_mod, !get_put, Um. unfold up.
      assert (Z : forall e, f_map f 0 = Some e -> False) by (intros e; rewrite (no_zero _ _ H); discriminate).
      assert (W : forall e, with_kids e (d_kids e) = e) by (intros []; reflexivity).
      assert (Q : forall y, (if y =? match b_par s child with Some p => p | None => 0 end
                             then option_map (fun p => with_kids p (retain (d_kids p) child)) (if match b_par s child with Some p => p | None => 0 end =? child then Some (DNode parent (d_name d) (d_attrs d) (d_cbs d) (d_kids d) (d_text d)) else f_map f match b_par s child with Some p => p | None => 0 end)
                             else if y =? child then Some (DNode parent (d_name d) (d_attrs d) (d_cbs d) (d_kids d) (d_text d)) else f_map f y) =
                 option_map (fun e => let e1 := if y =? child then DNode parent (d_name e) (d_attrs e) (d_cbs e) (d_kids e) (d_text e) else e in
                           with_kids e1 (if match b_par s child with Some p => y =? p | None => false end then retain (d_kids e) child else d_kids e)) (f_map f y)).
      { intros y. destruct (b_par s child) as [p|].
        - destruct (N.eqb_spec y p) as [->|Hyp].
          + destruct (N.eqb_spec p child) as [->|]; [rewrite Ed; reflexivity|]. reflexivity.
          + destruct (N.eqb_spec y child) as [->|]; [rewrite Ed; reflexivity|]. destruct (f_map f y) as [e|]; [cbn; rewrite W; reflexivity|reflexivity].
        - destruct (N.eqb_spec y 0) as [->|Hy0].
          + rewrite (no_zero _ _ H). destruct (N.eqb_spec 0 child) as [<-|]; [congruence|]. reflexivity.
          + destruct (N.eqb_spec y child) as [->|]; [rewrite Ed; reflexivity|]. destruct (f_map f y) as [e|]; [cbn; rewrite W; reflexivity|reflexivity]. }
      rewrite !Q. destruct (N.eqb_spec x parent) as [->|Hxp].
      - destruct (f_map f parent) as [e|]; [|reflexivity]. cbn. unfold ins. destruct ref; cbn; destruct (parent =? child); reflexivity.
      - destruct (f_map f x) as [e|]; reflexivity. }
    constructor.
    - intros x e. rewrite F. destruct (f_map f x) as [d0|] eqn:Ed0; [|discriminate]. cbn [option_map]. intros [= <-].
      destruct (sim_some _ _ H _ _ Ed0) as (A & B & m0 & C & D & E & U). split; [exact A|]. split; [exact B|].
      exists m0. rewrite G. split; [exact C|]. split; [destruct (x =? child); destruct m0; exact D|].
      rewrite K1, K0. cbn. rewrite E. split.
      + reflexivity.
      + unfold up. rewrite P1. destruct (N.eqb_spec x child) as [->|]; [reflexivity|exact U].
    - intros x Hx. rewrite F, G. destruct (f_map f x) eqn:E; [discriminate|]. intros _. apply (sim_none _ _ H _ Hx E).
    - intros x Hx Hnode. assert (Hnode' : b_node s x = None) by (unfold s1, place in Hnode; cbn in Hnode; rewrite N1 in Hnode; exact Hnode).
      destruct (sim_new _ _ H _ Hx Hnode') as [A B]. rewrite K1, K0, P1, A, B. cbn.
      assert (Hxp : x <> parent). { intros ->. unfold b_get in Egp. rewrite Hnode' in Egp. destruct (b_reg s parent); discriminate. }
      assert (Hxc : x <> child). { intros ->. unfold b_get in Egc. rewrite Hnode' in Egc. destruct (b_reg s child); discriminate. }
      apply N.eqb_neq in Hxp, Hxc. rewrite Hxp, Hxc. destruct (match b_par s child with Some p => _ | None => _ end); auto.
    - unfold s1, place; cbn. rewrite N1. apply (sim_zero _ _ H).
    - intros x p. rewrite P1, K1, K0. cbn. destruct (N.eqb_spec x child) as [->|Hn].
      + intros [= <-]. rewrite N.eqb_refl. unfold ins. destruct ref; [apply in_insert|apply in_or_app; cbn; auto].
      + intros Hx. pose proof (sim_link _ _ H _ _ Hx) as L.
        assert (L' : In x (if match b_par s child with Some p0 => p =? p0 | None => false end then retain (b_kids s p) child else b_kids s p)).
        { destruct (match b_par s child with Some p0 => _ | None => _ end); [apply (in_out_of _ child x L Hn)|exact L]. }
        destruct (p =? parent); [|exact L']. unfold ins. destruct ref; [apply in_insert_other, L'|apply in_or_app; auto].
    - intros x p Hx. rewrite P1. destruct (N.eqb_spec x child) as [->|]; [congruence|]. apply (sim_perm _ _ H _ _ Hx).
    - intros x p. rewrite K1, K0, P1. cbn. intros Hin.
      assert (Hx : (x = child /\ p = parent) \/ (x <> child /\ In x (b_kids s p))).
      { assert (Q : In x (if match b_par s child with Some p0 => p =? p0 | None => false end then retain (b_kids s p) child else b_kids s p) ->
                    x <> child /\ In x (b_kids s p)).
        { intros Hq. destruct (b_par s child) as [q|] eqn:Eq.
          - destruct (N.eqb_spec p q) as [Epq|Hn]; [subst q|].
            + unfold retain in Hq. apply filter_In in Hq. destruct Hq as [Hq Hx]. split; [|exact Hq].
              intros ->. rewrite N.eqb_refl in Hx. discriminate.
            + split; [|exact Hq]. intros ->. apply (sim_back _ _ H) in Hq. congruence.
          - split; [|exact Hq]. intros ->. apply (sim_back _ _ H) in Hq. congruence. }
        destruct (N.eqb_spec p parent) as [Epp|]; [subst p|auto]. unfold ins in Hin.
        assert (Hin2 : x = child \/ In x (if match b_par s child with Some p0 => parent =? p0 | None => false end then retain (b_kids s parent) child else b_kids s parent)).
        { destruct ref as [r|]; [apply in_insert_inv in Hin; exact Hin|]. apply in_app_or in Hin. destruct Hin as [Hin|[<-|[]]]; auto. }
        destruct Hin2 as [->|Hin2]; auto. }
      destruct Hx as [[-> ->]|[Hn Hx]]; [rewrite N.eqb_refl; reflexivity|]. apply N.eqb_neq in Hn. rewrite Hn. apply (sim_back _ _ H _ _ Hx).
    - intros x p. rewrite P1, G. destruct (N.eqb_spec x child) as [->|]; [intros _; congruence|]. apply (sim_live _ _ H).
  Qed.

  (** A change of a node of the document. *)
  Lemma sim_outer s f id n n' : sim s f -> perm id = true -> b_get s id = Some n -> sim (set_node s id n') f.
  Proof.
    intros H Hp Hg. assert (G : forall x, perm x = false -> b_get (set_node s id n') x = b_get s x).
    { intros x Hx. unfold b_get; cbn. unfold nupd. destruct (N.eqb_spec x id) as [->|]; [congruence|reflexivity]. }
    assert (Z : perm 0 = false) by apply (sim_zero _ _ H).
    constructor.
    - intros x d Hd. destruct (sim_some _ _ H _ _ Hd) as (A & B & m & C & D). split; [exact A|]. split; [exact B|]. exists m. rewrite (G _ A). auto.
    - intros x Hx Hn. rewrite (G _ Hx). apply (sim_none _ _ H _ Hx Hn).
    - intros x Hx. cbn. unfold nupd. destruct (N.eqb_spec x id) as [->|]; [congruence|]. apply (sim_new _ _ H _ Hx).
    - cbn. unfold nupd. destruct (N.eqb_spec 0 id) as [<-|]; [congruence|]. apply (sim_zero _ _ H).
    - exact (sim_link _ _ H).
    - exact (sim_perm _ _ H).
    - exact (sim_back _ _ H).
    - intros x p Hx. destruct (perm x) eqn:Ex; [|rewrite (G _ Ex); apply (sim_live _ _ H _ _ Hx)].
      pose proof (sim_live _ _ H _ _ Hx) as L. unfold b_get in *. cbn. unfold nupd. destruct (b_reg s x); [|exact L]. destruct (x =? id); [discriminate|exact L].
  Qed.

  Lemma not_there s f id n : sim s f -> f_map f id = None -> b_get s id = Some n -> perm id = true.
  Proof. intros H Hf Hg. destruct (perm id) eqn:Ep; [reflexivity|]. rewrite (sim_none _ _ H _ Ep Hf) in Hg. discriminate. Qed.

  Lemma sim_cbs s f id g s' : sim s f -> (forall x, b_node s' x = b_node s x) -> (forall x, b_reg s' x = b_reg s x) ->
    (forall x, b_kids s' x = b_kids s x) -> (forall x, b_par s' x = b_par s x) -> sim s' (f_mod f id (fun d => with_cbs d (g d))).
  Proof.
    intros H E1 E2 E3 E4. apply (sim_same_dom s _ f); try assumption. intros x. rewrite get_mod.
    destruct (N.eqb_spec x id) as [->|]; [|reflexivity]. destruct (f_map f id); reflexivity.
  Qed.

  Lemma sim_step s f c s' : sim s f -> fair perm c -> okc c -> b_step s c = Some s' -> sim s' (dbg_step f c).
  Proof.
    intros H Hf Ho Hb. destruct c; cbn [DomModel.b_step] in Hb.
    - destruct Hf as (A & B & C). apply (sim_create s f id (BElement name [])); auto. cbn. auto.
    - destruct Hf as (A & B). apply (sim_create s f id (BText value)); auto. cbn. auto.
    - destruct (b_get s id) as [[| |]|] eqn:Eg; try discriminate. injection Hb as <-. cbn [dbg_step]. unfold f_mod.
      destruct (f_map f id) as [d|] eqn:Ed.
      + destruct (sim_some _ _ H _ _ Ed) as (_ & _ & m & C & D & _). rewrite Eg in C. injection C as <-. destruct D as [D1 D2].
        apply (sim_local s f id (BText t) d); auto. cbn. auto.
      + apply (sim_outer s f id (BText t)); auto. eapply not_there; eassumption.
    - destruct (b_get s id) as [[nm a| |]|] eqn:Eg; try discriminate. injection Hb as <-. cbn [dbg_step]. unfold f_mod.
      destruct (f_map f id) as [d|] eqn:Ed.
      + destruct (sim_some _ _ H _ _ Ed) as (_ & _ & m & C & D & _). rewrite Eg in C. injection C as <-. destruct D as (D1 & D2 & D3).
        destruct (set_attr_same (f_css f) name value d) as (S1 & S2 & S3 & S4 & S5).
        apply (sim_local s f id (BElement nm a) d); auto. cbn. rewrite S2. split; [exact D1|]. split; [exact D2|]. apply (R_set id); assumption.
      + apply (sim_outer s f id (BElement nm a)); auto. eapply not_there; eassumption.
    - destruct (b_get s id) as [[nm a| |]|] eqn:Eg; try discriminate. injection Hb as <-. cbn [dbg_step]. unfold f_mod.
      destruct (f_map f id) as [d|] eqn:Ed.
      + destruct (sim_some _ _ H _ _ Ed) as (_ & _ & m & C & D & _). rewrite Eg in C. injection C as <-. destruct D as (D1 & D2 & D3).
        apply (sim_local s f id (BElement nm a) d); auto; try (destruct (same name (str "class")); reflexivity).
        split; [destruct (same name (str "class")); exact D1|]. split; [exact D2|]. apply (R_del id); assumption.
      + apply (sim_outer s f id (BElement nm a)); auto. eapply not_there; eassumption.
    - apply (sim_remove s f id s' H Hb).
    - apply (sim_remove s f id s' H Hb).
    - destruct Hf. apply (sim_insert s f parent child ref s'); assumption.
    - injection Hb as <-. apply (sim_same_dom s _ f); auto.
    - destruct Hf as (A & B). apply (sim_create s f id (BComment value)); auto. cbn. auto.
    - apply (sim_remove s f id s' H Hb).
    - cbn [dbg_step]. unfold b_callback_add in Hb. destruct (b_cbs s callback); [injection Hb as <-; apply (sim_cbs s); auto|].
      destruct (same event hook); [injection Hb as <-; apply (sim_cbs s); auto|].
      destruct (b_get s id); [|discriminate]. injection Hb as <-. apply (sim_cbs s); auto.
    - cbn [dbg_step]. unfold b_callback_remove in Hb. destruct (b_cbs s callback); [|injection Hb as <-; apply (sim_cbs s); auto].
      destruct (same event hook); [injection Hb as <-; apply (sim_cbs s); auto|].
      destruct (b_get s id); [|discriminate]. injection Hb as <-. apply (sim_cbs s); auto.
  Qed.

  Lemma sim_run cs : forall s f s', sim s f -> Forall (fair perm) cs -> Forall okc cs -> b_run s cs = Some s' -> sim s' (fold_left dbg_step cs f).
  Proof.
    induction cs as [|c cs IH]; intros s f s' H Hf Ho Hb; cbn in *.
    - injection Hb as <-. exact H.
    - destruct (b_step s c) as [s1|] eqn:E; [|discriminate]. inversion Hf; inversion Ho; subst.
      apply (IH s1); try assumption. apply (sim_step s f c s1); assumption.
  Qed.

  Lemma sim_start s : blank perm s -> sim s (Frag (fun _ => None) []).
  Proof.
    intros (Z & B & L & P & Q & W). constructor; try assumption.
    - discriminate.
    - intros id Hid _. unfold b_get. destruct (B id Hid) as (_ & -> & _). reflexivity.
    - intros id Hid _. apply B, Hid.
    - split; [apply B, Z|exact Z].
  Qed.
End Sim.

(** ** C89: the fragment is the document *)

Lemma assoc_same {A} (l : list (bytes * A)) k v k' : assoc_get (assoc_set l k v) k' = if same k' k then Some v else assoc_get l k'.
Proof.
  induction l as [|[x y] l IH]; cbn.
  - reflexivity.
  - destruct (same_spec k x) as [->|Hn]; cbn.
    + destruct (same_spec k' x); reflexivity.
    + destruct (same_spec k' x) as [->|]; cbn; [|exact IH]. destruct (same_spec x k); [congruence|reflexivity].
Qed.
Lemma assoc_del_get {A} (l : list (bytes * A)) k k' : assoc_get (assoc_del l k) k' = if same k' k then None else assoc_get l k'.
Proof.
  unfold assoc_del. induction l as [|[x y] l IH]; cbn.
  - destruct (same k' k); reflexivity.
  - destruct (same_spec k x) as [->|Hn]; cbn.
    + rewrite IH. destruct (same_spec k' x); reflexivity.
    + rewrite IH. destruct (same_spec k' x) as [->|]; [|reflexivity]. destruct (same_spec x k); [congruence|reflexivity].
Qed.
Lemma battr_set_assoc l k v : battr_set same l k v = assoc_set l k v.
Proof. induction l as [|[x y] l IH]; cbn; [reflexivity|]. rewrite IH. reflexivity. Qed.
Lemma battr_get_assoc l k : battr_get same l k = assoc_get l k.
Proof. induction l as [|[x y] l IH]; cbn; [reflexivity|]. rewrite IH. reflexivity. Qed.

(** Attributes other than class and style. *)
Definition agree (a l : list (bytes * bytes)) : Prop :=
  forall k, k <> str "class" -> k <> str "style" -> battr_get same a k = assoc_get l k.

Lemma agree_set n v css a d : agree a (d_attrs d) -> agree (battr_set same a n v) (d_attrs (set_attr css n v d)).
Proof.
  intros H k H1 H2. specialize (H k H1 H2). rewrite battr_get_assoc in *. rewrite battr_set_assoc, assoc_same. unfold set_attr.
  destruct (same_spec n (str "class")) as [->|Hn]; cbn [d_attrs with_attrs].
  - destruct (same_spec k (str "class")); [contradiction|]. destruct (assoc_get css _); cbn [d_attrs with_attrs]; rewrite assoc_same.
    + destruct (same_spec k (str "style")); [contradiction|exact H].
    + destruct (same_spec k (str "class")); [contradiction|exact H].
  - rewrite assoc_same. destruct (same k n); [reflexivity|exact H].
Qed.
Lemma agree_del n a d : agree a (d_attrs d) ->
  agree (battr_del same a n) (d_attrs (if same n (str "class") then d else with_attrs d (assoc_del (d_attrs d) n))).
Proof.
  intros H k H1 H2. specialize (H k H1 H2). rewrite battr_get_assoc in *. change (battr_del same a n) with (assoc_del a n). rewrite assoc_del_get.
  destruct (same_spec n (str "class")) as [->|Hn]; cbn [d_attrs with_attrs].
  - destruct (same_spec k (str "class")); [contradiction|exact H].
  - rewrite assoc_del_get. destruct (same k n); [reflexivity|exact H].
Qed.

(** A node of the fragment is one of the document: name or text, children in order, attributes other than class and style. *)
Definition matches (s : bdom bytes) (id : N) (d : dnode) : Prop :=
  d_kids d = b_kids s id /\
  match b_get s id with
  | Some (BElement name a) => d_name d = name /\ agree a (d_attrs d)
  | Some (BText t) => d_name d = [] /\ d_text d = Some t
  | Some (BComment t) => d_name d = [] /\ d_text d = Some (str "<!-- " ++ t ++ str " -->")
  | None => False
  end.

(** The fragment made of any commands that the browser executes without an error has exactly the nodes the browser has, and each of them
    as it is in the browser. *)
Theorem C89_nodes_partial hook perm s cs s' : blank perm s -> Forall (fair perm) cs -> b_run same hook perm s cs = Some s' ->
  forall id, perm id = false ->
    match f_map (from_cmds cs) id with
    | Some d => matches s' id d
    | None => b_get s' id = None
    end.
Proof.
  intros Hb Hf Hr id Hid.
  assert (S : sim perm agree s' (from_cmds cs)).
  { apply (sim_run hook perm agree (fun _ => True)) with (s := s); auto.
    - intros k _ _. reflexivity.
    - intros _ n v css a d _. apply agree_set.
    - intros _ n a d _. apply agree_del.
    - apply sim_start, Hb.
    - apply Forall_forall. auto. }
  destruct (f_map (from_cmds cs) id) as [d|] eqn:E.
  - destruct (sim_some _ _ _ _ S _ _ E) as (_ & _ & n & C & D & K & _). split; [exact K|]. rewrite C. destruct n; cbn in D; tauto.
  - apply (sim_none _ _ _ _ S _ Hid E).
Qed.

Lemma no_cbs cs : Forall plain cs -> forall f, (forall id d, f_map f id = Some d -> d_cbs d = []) ->
  forall id d, f_map (fold_left dbg_step cs f) id = Some d -> d_cbs d = [].
Proof.
  induction cs as [|c cs IH]; intros Hp f Hf; cbn; [exact Hf|]. inversion Hp; subst. apply IH; [assumption|]. clear IH Hp H2 cs.
  assert (P : forall g id d, (forall i e, f_map g i = Some e -> d_cbs e = []) -> d_cbs d = [] -> forall i e, f_map (f_put g id d) i = Some e -> d_cbs e = []).
  { intros g id d Hg Hd i e. rewrite get_put. destruct (i =? id); [intros [= <-]; exact Hd|apply Hg]. }
  assert (M : forall g id h, (forall i e, f_map g i = Some e -> d_cbs e = []) -> (forall d, d_cbs d = [] -> d_cbs (h d) = []) -> forall i e, f_map (f_mod g id h) i = Some e -> d_cbs e = []).
  { intros g id h Hg Hh. unfold f_mod. destruct (f_map g id) as [d|] eqn:E; [|exact Hg]. apply P; [exact Hg|]. apply Hh, (Hg _ _ E). }
  assert (RM : forall id i e, f_map (dbg_step f (RemoveNode id)) i = Some e -> d_cbs e = []).
  { intros id i e. cbn. destruct (i =? id); [discriminate|]. destruct (f_map f id) as [d|]; [|apply Hf].
    apply M; [exact Hf|]. auto. }
  destruct c; try exact (RM id); cbn [dbg_step]; try (apply P; [exact Hf|reflexivity]); try (apply M; [exact Hf|]; auto; fail).
  - apply M; [exact Hf|]. intros d Hd. destruct (set_attr_same (f_css f) name value d) as (_ & _ & _ & _ & ->). exact Hd.
  - apply M; [exact Hf|]. intros d Hd. destruct (same name (str "class")); exact Hd.
  - destruct (f_map f child) as [d|] eqn:Ed; [|exact Hf]. apply M; [apply M; [apply P; [exact Hf|apply (Hf _ _ Ed)]|]|]; auto.
  - exact Hf.
  - destruct H1.
  - apply M; [exact Hf|]. intros d Hd. cbn. rewrite Hd. reflexivity.
Qed.

Scheme shown_ind2 := Minimality for shown Sort Prop with shown_all_ind2 := Minimality for shown_all Sort Prop.
Combined Scheme shown_mut from shown_ind2, shown_all_ind2.
Scheme renders_ind2 := Minimality for renders Sort Prop with renders_all_ind2 := Minimality for renders_all Sort Prop.
Combined Scheme renders_mut from renders_ind2, renders_all_ind2.

(** Its text, for a part without classes, styles and callbacks, is that of the same part of the document. *)
Theorem C89_text_partial decimal hook perm s cs s' id x : blank perm s -> Forall (fair perm) cs -> Forall plain cs ->
  b_run same hook perm s cs = Some s' -> f_map (from_cmds cs) id <> None -> renders decimal (from_cmds cs) id x -> shown s' id x.
Proof.
  intros Hb Hf Hp Hr.
  assert (S : sim perm eq s' (from_cmds cs)).
  { apply (sim_run hook perm eq plain) with (s := s); auto.
    - intros _ n v css a d [H _] ->. unfold set_attr. destruct (same_spec n (str "class")); [contradiction|]. apply battr_set_assoc.
    - intros _ n a d [H _] ->. destruct (same_spec n (str "class")); [contradiction|]. reflexivity.
    - apply sim_start, Hb. }
  assert (NC : forall i d, f_map (from_cmds cs) i = Some d -> d_cbs d = []) by (apply no_cbs; [exact Hp|discriminate]).
  set (f := from_cmds cs) in *.
  (* the children of a node of the fragment are in it *)
  assert (KI : forall i d k, f_map f i = Some d -> In k (d_kids d) -> f_map f k <> None).
  { intros i d k Hi Hk Hn. destruct (sim_some _ _ _ _ S _ _ Hi) as (A & _ & n & _ & _ & K & _). rewrite K in Hk.
    apply (sim_back _ _ _ _ S) in Hk. destruct (perm k) eqn:Ek.
    - rewrite (sim_perm _ _ _ _ S _ _ Ek Hk) in A. discriminate.
    - apply (sim_live _ _ _ _ S _ _ Hk). apply (sim_none _ _ _ _ S _ Ek Hn). }
  assert (G : (forall id x, renders decimal f id x -> f_map f id <> None -> shown s' id x) /\
              (forall l x, renders_all decimal f l x -> (forall k, In k l -> f_map f k <> None) -> shown_all s' l x)).
  { apply (renders_mut decimal f (fun id x => f_map f id <> None -> shown s' id x) (fun l x => (forall k, In k l -> f_map f k <> None) -> shown_all s' l x)).
    - intros i Hi Hn. contradiction.
    - intros i d Hi Hn _. destruct (sim_some _ _ _ _ S _ _ Hi) as (_ & _ & n & C & D & _ & _). destruct n; cbn in D.
      + destruct D as (D1 & D2 & _). congruence.
      + destruct D as [_ ->]. apply shown_text, C.
      + destruct D as [_ ->]. apply shown_comment, C.
    - intros i d attrs cbs kids Hi Hn Ha Hc _ IH _. destruct (sim_some _ _ _ _ S _ _ Hi) as (_ & _ & n & C & D & K & _). destruct n; cbn in D.
      + destruct D as (<- & _ & D). rewrite (NC _ _ Hi) in Hc. apply Permutation_sym, Permutation_nil in Hc. subst cbs. subst attr.
        cbn [flat_map app]. apply (shown_node s' i (d_name d) (d_attrs d) attrs kids C Ha). rewrite <- K. apply IH.
        intros k Hk. apply (KI i d k Hi Hk).
      + destruct D as [D _]. contradiction.
      + destruct D as [D _]. contradiction.
    - intros _. apply shown_nil.
    - intros i t a b _ IH1 _ IH2 Hk. apply shown_cons; [apply IH1, Hk; left; reflexivity|]. apply IH2. intros k Hin. apply Hk. right. exact Hin. }
  intros Hid Hrend. apply G; assumption.
Qed.

(** And it is the text of a node mounted in the document; or, if there is none, of a node that is nowhere. *)
Theorem C89_pseudo_html_partial decimal hook perm s cs s' x : blank perm s -> Forall (fair perm) cs -> Forall plain cs ->
  b_run same hook perm s cs = Some s' -> pseudo_html decimal (from_cmds cs) x ->
  x = [] \/ exists id, perm id = false /\ shown s' id x /\
    (b_par s' id = Some 1 \/ (b_par s' id = None /\ forall i, perm i = false -> b_par s' i <> Some 1)).
Proof.
  intros Hb Hf Hp Hr Hx.
  assert (S : sim perm agree s' (from_cmds cs)).
  { apply (sim_run hook perm agree (fun _ => True)) with (s := s); auto.
    - intros k _ _. reflexivity.
    - intros _ n v css a d _. apply agree_set.
    - intros _ n a d _. apply agree_del.
    - apply sim_start, Hb.
    - apply Forall_forall. auto. }
  inversion Hx as [id y Hroot Hren|]; subst; [|auto]. right. exists id.
  assert (Sh : f_map (from_cmds cs) id <> None -> shown s' id x) by (intros Hn; apply (C89_text_partial decimal hook perm s cs); assumption).
  inversion Hroot as [i d Hd Hpar|i d Hnone Hd Hpar|]; subst.
  - destruct (sim_some _ _ _ _ S _ _ Hd) as (A & _ & n & _ & _ & _ & U). split; [exact A|]. split; [apply Sh; congruence|]. left.
    rewrite Hpar in U. unfold up in U. destruct (b_par s' id); congruence.
  - destruct (sim_some _ _ _ _ S _ _ Hd) as (A & _ & n & _ & _ & _ & U). split; [exact A|]. split; [apply Sh; congruence|]. right.
    rewrite Hpar in U. unfold up in U. destruct (b_par s' id) as [q|] eqn:Eq.
    { exfalso. apply (sim_link _ _ _ _ S) in Eq. rewrite <- U in Eq. destruct (sim_zero _ _ _ _ S) as [Z1 Z2].
      destruct (sim_new _ _ _ _ S 0 Z2 Z1) as [Z3 _]. rewrite Z3 in Eq. exact Eq. }
    split; [reflexivity|].
    intros j Hj Hjp. destruct (f_map (from_cmds cs) j) as [e|] eqn:Ej.
    + destruct (sim_some _ _ _ _ S _ _ Ej) as (_ & _ & _ & _ & _ & _ & U'). apply (Hnone j e Ej). rewrite U'. unfold up. rewrite Hjp. reflexivity.
    + apply (sim_live _ _ _ _ S _ _ Hjp). apply (sim_none _ _ _ _ S _ Hj Ej).
Qed.

(** ** Examples and what is not shown *)

Module InspectDemo.
  (** The document: html (1), head (2), body (3). *)
  Definition perm (x : N) : bool := (x =? 1) || (x =? 2) || (x =? 3).
  Definition doc : bdom bytes :=
    BDom (fun x => if x =? 1 then Some (BElement (str "html") []) else if x =? 2 then Some (BElement (str "head") [])
                   else if x =? 3 then Some (BElement (str "body") []) else None)
         perm (fun x => if x =? 1 then [2; 3] else []) (fun x => if (x =? 2) || (x =? 3) then Some 1 else None) [] (fun _ => false) (fun _ => []).
  Definition hook := str "hook_keydown".
  (** An ordered list whose second item is put first and whose third is removed. *)
  Definition cs : list (dcmd bytes) :=
    [CreateNode 4 (str "ol"); CreateNode 5 (str "li"); CreateNode 6 (str "li"); CreateText 7 (str "one"); CreateText 8 (str "two"); CreateNode 9 (str "li");
     InsertBefore 5 7 None; InsertBefore 6 8 None; InsertBefore 4 5 None; InsertBefore 4 6 None; InsertBefore 4 9 None;
     SetAttr 4 (str "id") (str "x"); InsertBefore 4 6 (Some 5); RemoveNode 9; UpdateText 7 (str "1")].
  Definition result (l : list (dcmd bytes)) : bdom bytes := match b_run same hook perm doc l with Some s => s | None => doc end.
  Definition listeners (s : bdom bytes) (id : N) := b_listen s (Some id).
  Definition attrs (f : frag) (id : N) := match f_map f id with Some d => d_attrs d | None => [] end.
  Definition cbs (f : frag) (id : N) := match f_map f id with Some d => d_cbs d | None => [] end.
  Definition attrs_b (s : bdom bytes) (id : N) := match b_get s id with Some (BElement _ a) => a | _ => [] end.
End InspectDemo.
Import InspectDemo.

Lemma doc_blank : blank perm doc.
Proof.
  split; [reflexivity|]. split; [|split; [|split; [|split]]].
  - intros id H. unfold doc, b_node, b_reg, b_kids, b_par. rewrite H. unfold perm in H.
    destruct (id =? 1); [discriminate|]. destruct (id =? 2); [discriminate|]. destruct (id =? 3); [discriminate|]. auto.
  - intros x p. cbn. destruct (N.eqb_spec x 2) as [->|]; cbn; [intros [= <-]; cbn; auto|]. destruct (N.eqb_spec x 3) as [->|]; [intros [= <-]; cbn; auto|discriminate].
  - intros x p _. cbn. destruct ((x =? 2) || (x =? 3)); [intros [= <-]; reflexivity|discriminate].
  - intros x p. cbn. destruct (N.eqb_spec p 1) as [->|]; [|intros []]. intros [<-|[<-|[]]]; reflexivity.
  - intros x p. cbn. unfold b_get; cbn. unfold perm. destruct (N.eqb_spec x 2) as [->|]; [cbn; discriminate|]. destruct (N.eqb_spec x 3) as [->|]; [cbn; discriminate|]. discriminate.
Qed.

(** The list as the fragment shows it. *)
Example C89_pseudo_html_ok :
  Forall (fair perm) cs /\ Forall plain cs /\ b_run same hook perm doc cs <> None /\
  pseudo_html (fun _ => []) (from_cmds cs) (str "<ol id='x'><li>two</li><li>1</li></ol>").
Proof.
  split; [|split; [|split]].
  - repeat constructor; try discriminate.
  - repeat constructor; try discriminate.
  - vm_compute. discriminate.
  - apply (ph_some _ _ 4).
    + eapply root_free with (d := DNode 0 (str "ol") [(str "id", str "x")] [] [6; 5] None).
      * intros i e. unfold from_cmds, cs; cbn [fold_left]. intros He. cbn in He. unfold nupd in He.
        repeat match type of He with context [if ?b then _ else _] => destruct b; cbn in He end;
          try discriminate; injection He as <-; cbn; discriminate.
      * vm_compute. reflexivity.
      * reflexivity.
    + assert (R7 : renders (fun _ => []) (from_cmds cs) 7 (str "1")).
      { eapply (render_text _ _ 7 (DNode 5 [] [] [] [] (Some (str "1")))); [vm_compute|]; reflexivity. }
      assert (R8 : renders (fun _ => []) (from_cmds cs) 8 (str "two")).
      { eapply (render_text _ _ 8 (DNode 6 [] [] [] [] (Some (str "two")))); [vm_compute|]; reflexivity. }
      assert (R5 : renders (fun _ => []) (from_cmds cs) 5 (str "<li>1</li>")).
      { eapply (render_node _ _ 5 (DNode 4 (str "li") [] [] [7] None) [] [] (str "1")); [vm_compute; reflexivity|discriminate|constructor|constructor|].
        apply (render_cons _ _ 7 [] (str "1") []); [exact R7|constructor]. }
      assert (R6 : renders (fun _ => []) (from_cmds cs) 6 (str "<li>two</li>")).
      { eapply (render_node _ _ 6 (DNode 4 (str "li") [] [] [8] None) [] [] (str "two")); [vm_compute; reflexivity|discriminate|constructor|constructor|].
        apply (render_cons _ _ 8 [] (str "two") []); [exact R8|constructor]. }
      eapply (render_node _ _ 4 (DNode 0 (str "ol") [(str "id", str "x")] [] [6; 5] None) [(str "id", str "x")] [] (str "<li>two</li><li>1</li>"));
        [vm_compute; reflexivity|discriminate|apply Permutation_refl|constructor|].
      apply (render_cons _ _ 6 [5] (str "<li>two</li>") (str "<li>1</li>")); [exact R6|].
      apply (render_cons _ _ 5 [] (str "<li>1</li>") []); [exact R5|constructor].
Qed.

(** A class that changes: the document has the new class, the fragment the styles of both, one after the other without a separator. *)
Theorem C89_class_refuted : exists cs,
  let f := from_cmds cs in
  Forall (fair perm) cs /\ b_run same hook perm doc cs = Some (result cs) /\
  attrs_b (result cs) 4 = [(str "class", str "b")] /\ attrs f 4 = [(str "style", str "color: redcolor: green")].
Proof.
  exists [InsertCss (str ".a") (str "color: red"); InsertCss (str ".b") (str "color: green"); CreateNode 4 (str "div");
          SetAttr 4 (str "class") (str "a"); SetAttr 4 (str "class") (str "b")].
  split; [repeat constructor; try discriminate|]. vm_compute. auto.
Qed.
(** A class that is removed stays in the fragment. *)
Theorem C89_remove_class_refuted : exists cs,
  let f := from_cmds cs in
  Forall (fair perm) cs /\ b_run same hook perm doc cs = Some (result cs) /\
  attrs_b (result cs) 4 = [] /\ attrs f 4 = [(str "class", str "a")].
Proof.
  exists [CreateNode 4 (str "div"); SetAttr 4 (str "class") (str "a"); RemoveAttr 4 (str "class")].
  split; [repeat constructor; try discriminate|]. vm_compute. auto.
Qed.
(** Two callbacks of one event, one of which is removed: the document has the other, the fragment none. *)
Theorem C89_callbacks_refuted : exists cs,
  let f := from_cmds cs in
  Forall (fair perm) cs /\ b_run same hook perm doc cs = Some (result cs) /\
  listeners (result cs) 4 = [(str "click", 7)] /\ cbs f 4 = [].
Proof.
  exists [CreateNode 4 (str "div"); CallbackAdd 4 (str "click") 7; CallbackAdd 4 (str "click") 8; CallbackRemove 4 (str "click") 8].
  split; [repeat constructor; try discriminate|]. vm_compute. auto.
Qed.
(** A node put before itself stays in its place in the document, and becomes the last in the fragment. *)
Theorem C89_itself_refuted : exists cs,
  b_run same hook perm doc cs = Some (result cs) /\ b_kids (result cs) 4 = [5; 6] /\
  match f_map (from_cmds cs) 4 with Some d => d_kids d = [6; 5] | None => False end.
Proof.
  exists [CreateNode 4 (str "div"); CreateNode 5 (str "b"); CreateNode 6 (str "i"); InsertBefore 4 5 None; InsertBefore 4 6 None; InsertBefore 4 5 (Some 5)].
  vm_compute. auto.
Qed.
(** Of two nodes that are nowhere, one or the other is shown. *)
Theorem C89_roots_refuted : exists cs x y, Forall (fair perm) cs /\ Forall plain cs /\
  pseudo_html (fun _ => []) (from_cmds cs) x /\ pseudo_html (fun _ => []) (from_cmds cs) y /\ x <> y.
Proof.
  exists [CreateText 4 (str "one"); CreateText 5 (str "two")], (str "one"), (str "two").
  assert (No : forall i e, f_map (from_cmds [CreateText 4 (str "one"); CreateText 5 (str "two")]) i = Some e -> d_parent e <> 1).
  { intros i e He. cbn in He. unfold nupd in He. destruct (i =? 5); [injection He as <-; discriminate|]. destruct (i =? 4); [injection He as <-; discriminate|discriminate]. }
  split; [repeat constructor; discriminate|]. split; [repeat constructor|]. split; [|split; [|discriminate]].
  - apply (ph_some _ _ 4); [apply (root_free _ 4 (from_text (str "one"))); [exact No|reflexivity|reflexivity]|].
    apply (render_text _ _ 4 (from_text (str "one"))); reflexivity.
  - apply (ph_some _ _ 5); [apply (root_free _ 5 (from_text (str "two"))); [exact No|reflexivity|reflexivity]|].
    apply (render_text _ _ 5 (from_text (str "two"))); reflexivity.
Qed.
(** Texts are not escaped: a text that looks like an element cannot be told from one. *)
Theorem C89_escape_refuted : exists cs1 cs2 x id,
  renders (fun _ => []) (from_cmds cs1) id x /\ renders (fun _ => []) (from_cmds cs2) id x /\
  b_get (result cs1) id = Some (BText x) /\ b_get (result cs2) id = Some (BElement (str "i") []).
Proof.
  exists [CreateText 4 (str "<i></i>")], [CreateNode 4 (str "i")], (str "<i></i>"), 4. split; [|split; [|split; reflexivity]].
  - apply (render_text _ _ 4 (from_text (str "<i></i>"))); reflexivity.
  - apply (render_node _ _ 4 (from_name (str "i")) [] [] []); [reflexivity|discriminate|constructor|constructor|constructor].
Qed.
