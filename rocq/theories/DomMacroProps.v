(** The [dom!] macro: what is written is what the browser shows. *)
From Coq Require Import String List NArith Bool Lia.
From Verif Require Import CodecModel DomWire DomModel DomMacroModel DomMacroBuild.
Import ListNotations.
Local Open Scope string_scope.
Local Open Scope list_scope.
Local Open Scope N_scope.

(** ** What a tree of tags says *)

(** An expression without the braces around it, if it is all they contain. *)
Definition inside (e : expr) : list tok :=
  match e with EBlock [l] => l | EBlock ss => [TBrace (concat ss)] | EPlain l => l end.
(** An expression as it is written. *)
Definition whole (e : expr) : list tok :=
  match e with EBlock ss => [TBrace (concat ss)] | EPlain l => l end.

(** The attributes that are events. *)
Definition events_table : list (string * string) :=
  [("on_click", "click"); ("on_mouse_down", "mousedown"); ("on_mouse_up", "mouseup"); ("on_mouse_enter", "mouseenter");
   ("on_mouse_leave", "mouseleave"); ("on_input", "input"); ("on_change", "change"); ("on_blur", "blur"); ("on_key_down", "keydown");
   ("on_dropfile", "drop"); ("hook_key_down", "hook_keydown"); ("on_load", "load")].
Definition event_named (n : bytes) : option bytes :=
  match find (fun e => beq n (str (fst e))) events_table with Some e => Some (str (snd e)) | None => None end.

(** A component: the last part of the name begins with a capital letter. *)
Definition component (n : bytes) : bool :=
  match last_segment n [] with c :: _ => (65 <=? c) && (c <=? 90) | [] => false end.
(** A name. *)
Definition ident (x : bytes) : bool :=
  match x with
  | [] => false
  | _ => forallb (fun c => ((48 <=? c) && (c <=? 57)) || ((65 <=? c) && (c <=? 90)) || ((97 <=? c) && (c <=? 122)) || (c =? 95)) x
  end.

(** [&x] *)
Definition borrowed (l : list tok) : bool := match l with Tok (c :: _) _ :: _ => c =? 38 | _ => false end.
(** [..x] *)
Definition spread (l : list tok) : option (list tok) :=
  match l with Tok x true :: Tok y _ :: r => if beq x (str ".") && beq y (str ".") then Some r else None | _ => None end.
(** [{}] and [Default::default()] *)
Definition default (l : list tok) : bool :=
  match l with [TBrace []] => true | _ => beq (show l) (str "Default :: default()") end.

Section Written.
  Context {H V : Type}.
  Variable v : env H V.

  (** An attribute is for an event, a style, a suspense, or of HTML. *)
  Inductive given := GivenEvent (e : bytes) (h : H) | GivenStyle (c : bytes) | GivenSuspense (c : bytes) | GivenAttr (n : bytes) (x : option bytes).
  Definition give (n : bytes) (l : list tok) : given :=
    match event_named n with
    | Some e => GivenEvent e (e_hand v l)
    | None => if beq n (str "css") then GivenStyle (e_css v l)
              else if beq n (str "vertigo-suspense") then GivenSuspense (e_susp v l)
              else GivenAttr n (e_attr v l)
    end.
  (** [name=value], or [{name}] for [name={name}]. *)
  Definition attr_says (a : rsx) : option given :=
    match a with
    | Rsx NAttribute (Some n) (Some e) _ _ => Some (give n (whole e))
    | Rsx NBlock _ (Some e) _ _ => match inside e with [Tok x _] => if ident x then Some (give x (whole e)) else None | _ => None end
    | _ => None
    end.
  (** The field of a component: the default for [{}] and [Default::default()], a copy of what is borrowed, otherwise the value converted. *)
  Definition field_value (e : expr) : option V :=
    if default (inside e) then None else if borrowed (inside e) then Some (e_clone v (whole e)) else Some (e_into v (whole e)).
  (** [name=value], or [{name}] for [name={name}], or [{&name}] for [name={&name}]. *)
  Definition field_says (a : rsx) : option (bytes * option V) :=
    match a with
    | Rsx NAttribute (Some n) (Some e) _ _ => Some (n, field_value e)
    | Rsx NBlock None (Some e) _ _ =>
        match inside e with
        | [Tok x _] => if ident x then Some (x, field_value e) else None
        | [Tok y _; Tok x _] => if beq y (str "&") && ident x then Some (x, field_value e) else None
        | _ => None
        end
    | _ => None
    end.
  Fixpoint all_say {A B} (f : A -> option B) (l : list A) : option (list B) :=
    match l with
    | [] => Some []
    | a :: t => match f a, all_say f t with Some b, Some r => Some (b :: r) | _, _ => None end
    end.
  Definition as_attr (g : given) := match g with GivenAttr n x => [(n, x)] | _ => [] end.
  Definition as_style (g : given) := match g with GivenStyle c => [c] | _ => [] end.
  Definition as_susp (g : given) := match g with GivenSuspense c => [c] | _ => [] end.
  Definition as_event (g : given) := match g with GivenEvent e h => [(e, h)] | _ => [] end.

  (** The nodes a tag stands for. *)
  Fixpoint says (n : rsx) : option (list (wnode H)) :=
    match n with
    | Rsx NElement (Some name) _ attrs kids =>
        if component name then
          match kids, all_say field_says attrs with
          | [], Some fs => Some (shown (e_comp v name fs))
          | _, _ => None
          end
        else
          match all_say attr_says attrs,
                (fix go l := match l with
                             | [] => Some []
                             | k :: t => match says k, go t with Some a, Some b => Some (a ++ b) | _, _ => None end
                             end) kids with
          | Some gs, Some ks => Some [WElement name (flat_map as_attr gs) (flat_map as_style gs) (flat_map as_susp gs) (flat_map as_event gs) ks]
          | _, _ => None
          end
    | Rsx NText _ (Some e) _ _ => Some [WText (e_text v (whole e))]
    | Rsx NBlock _ (Some e) _ _ =>
        match spread (inside e) with
        | Some l => Some (flat_map shown (e_doms v l))
        | None => Some (shown (e_dom v (whole e)))
        end
    | _ => None
    end.
  Definition is_element (n : rsx) : bool := match n with Rsx NElement _ _ _ _ => true | _ => false end.
  (** All of it: several tags are followed by a comment. *)
  Definition written (nodes : list rsx) : option (list (wnode H)) :=
    if forallb is_element nodes then
      match nodes with
      | [] => None
      | [n] => says n
      | _ => match all_say says nodes with Some l => Some (concat l ++ [WComment (str "list dom node")]) | None => None end
      end
    else None.

  (** An expression in braces has the value it has without them. *)
  Record braces : Prop := {
    br_attr : forall l, e_attr v [TBrace l] = e_attr v l;
    br_text : forall l, e_text v [TBrace l] = e_text v l;
    br_hand : forall l, e_hand v [TBrace l] = e_hand v l;
    br_css : forall l, e_css v [TBrace l] = e_css v l;
    br_susp : forall l, e_susp v [TBrace l] = e_susp v l;
    br_dom : forall l, e_dom v [TBrace l] = e_dom v l;
    br_clone : forall l, e_clone v [TBrace l] = e_clone v l;
    br_into : forall l, e_into v [TBrace l] = e_into v l
  }.
  (** What is embedded is ordered (C32). *)
  Record in_order : Prop := {
    io_dom : forall l, ordered (e_dom v l);
    io_doms : forall l, Forall ordered (e_doms v l);
    io_comp : forall n fs, ordered (e_comp v n fs)
  }.
End Written.

(** Tokens as the compiler makes them: none is empty, a dot is a token of its own, a brace is none. *)
Definition token (t : tok) : Prop := match t with Tok x _ => x <> [] /\ (hd 0 x = 46 -> x = [46]) /\ hd 0 x <> 123 | TBrace _ => True end.
Definition tokens (e : expr) : Prop := Forall token (inside e).
Definition value_of (n : rsx) : option expr := match n with Rsx _ _ e _ _ => e end.
Fixpoint lexed (n : rsx) : Prop :=
  match n with
  | Rsx _ _ e attrs kids =>
      (forall x, e = Some x -> tokens x) /\ Forall (fun a => forall x, value_of a = Some x -> tokens x) attrs /\
      (fix all l := match l with [] => True | k :: t => lexed k /\ all t end) kids
  end.

(** ** Facts about the macro *)
Section Ind.
  Variable P : rsx -> Prop.
  Hypothesis h : forall ty n e a l, Forall P l -> P (Rsx ty n e a l).
  Fixpoint rsx_ind2 (n : rsx) : P n :=
    match n with
    | Rsx ty nm e a l => h ty nm e a l ((fix go l : Forall P l := match l with [] => Forall_nil _ | c :: t => Forall_cons c (rsx_ind2 c) (go t) end) l)
    end.
End Ind.

Lemma strip_inside e : strip_brackets e = inside e.
Proof. destruct e as [[|l [|m ss]]|l]; reflexivity. Qed.
Lemma whole_inside e : whole e = inside e \/ whole e = [TBrace (inside e)].
Proof. destruct e as [[|l [|m ss]]|l]; auto. right. cbn. rewrite app_nil_r. reflexivity. Qed.
Lemma component_name n : is_component_name n = component n.
Proof. reflexivity. Qed.

Section Macro.
  Context {H V : Type}.
  Variable v : env H V.
  Hypothesis B : braces v.

  Lemma whole_attr e : e_attr v (whole e) = e_attr v (inside e).
  Proof. destruct (whole_inside e) as [->| ->]; auto. apply (br_attr _ B). Qed.
  Lemma whole_text e : e_text v (whole e) = e_text v (inside e).
  Proof. destruct (whole_inside e) as [->| ->]; auto. apply (br_text _ B). Qed.
  Lemma whole_hand e : e_hand v (whole e) = e_hand v (inside e).
  Proof. destruct (whole_inside e) as [->| ->]; auto. apply (br_hand _ B). Qed.
  Lemma whole_css e : e_css v (whole e) = e_css v (inside e).
  Proof. destruct (whole_inside e) as [->| ->]; auto. apply (br_css _ B). Qed.
  Lemma whole_susp e : e_susp v (whole e) = e_susp v (inside e).
  Proof. destruct (whole_inside e) as [->| ->]; auto. apply (br_susp _ B). Qed.
  Lemma whole_dom e : e_dom v (whole e) = e_dom v (inside e).
  Proof. destruct (whole_inside e) as [->| ->]; auto. apply (br_dom _ B). Qed.
  Lemma whole_clone e : e_clone v (whole e) = e_clone v (inside e).
  Proof. destruct (whole_inside e) as [->| ->]; auto. apply (br_clone _ B). Qed.
  Lemma whole_into e : e_into v (whole e) = e_into v (inside e).
  Proof. destruct (whole_inside e) as [->| ->]; auto. apply (br_into _ B). Qed.

  (** *** Attributes *)
  Definition call_of (g : given) : call H :=
    match g with
    | GivenEvent e h => COn e h
    | GivenStyle c => CCss c
    | GivenSuspense c => CSuspense c
    | GivenAttr n x => CAttr n x
    end.
  Lemma push_give n e : eval_call v (push_attr n (inside e)) = call_of (give v n (whole e)).
  Proof.
    unfold push_attr, give, event_named, events_table. cbn [find fst snd].
    repeat match goal with
    | |- context [if beq n ?k then _ else _] => destruct (beq n k); [cbn [call_of]; rewrite ?whole_hand, ?whole_css, ?whole_susp; reflexivity|]
    end.
    cbn [call_of]. rewrite whole_attr. reflexivity.
  Qed.
  Lemma attr_says_ok a g : attr_says v a = Some g -> exists c, attribute a = Some c /\ eval_call v c = call_of g.
  Proof.
    destruct a as [[] nm [e|] at_ kids]; cbn; try discriminate.
    2: destruct nm; discriminate.
    - destruct nm as [n|]; [|discriminate]. intros E. injection E as <-. exists (push_attr n (inside e)). rewrite strip_inside, push_give. auto.
    - destruct (inside e) as [|[x j|] [|? ?]] eqn:I; try discriminate. destruct (ident x) eqn:Id; [|discriminate]. intros E. injection E as <-.
      rewrite strip_inside, I. cbn [show show_tok]. assert (C : check_ident x = true) by (destruct x; [discriminate|exact Id]). rewrite C.
      eexists. split; [reflexivity|]. rewrite <- I, push_give. reflexivity.
  Qed.
  Lemma all_attrs_ok l : forall gs, all_say (attr_says v) l = Some gs ->
    exists cs, all_some (map attribute l) = Some cs /\ map (eval_call v) cs = map call_of gs.
  Proof.
    induction l as [|a l IH]; cbn; intros gs E.
    - injection E as <-. exists []. auto.
    - destruct (attr_says v a) as [g|] eqn:Ea; [|discriminate]. destruct (all_say (attr_says v) l) as [r|]; [|discriminate]. injection E as <-.
      destruct (attr_says_ok _ _ Ea) as (c & -> & Ec). destruct (IH r eq_refl) as (cs & -> & Es). exists (c :: cs). cbn. rewrite Ec, Es. auto.
  Qed.

  (** *** Components *)
  Lemma show_head l : Forall token l -> match l with
    | [] => show l = []
    | Tok x _ :: _ => exists c r r', x = c :: r /\ show l = c :: r'
    | TBrace _ :: _ => exists r, show l = 123 :: r
    end.
  Proof.
    destruct l as [|[x j|b] t]; intros F; auto.
    - inversion F as [|? ? F0 _]; subst. destruct F0 as (F1 & F2 & F4). destruct x as [|c x]; [congruence|]. exists c, x. destruct t; cbn [show show_tok]; eexists; split; reflexivity.
    - destruct t; cbn [show show_tok]; destruct b; eexists; reflexivity.
  Qed.
  Lemma show_amp l : Forall token l -> starts (str "&") (show l) = borrowed l.
  Proof.
    intros F. pose proof (show_head l F) as S. destruct l as [|[x j|b] t].
    - reflexivity.
    - destruct S as (c & r & r' & -> & ->). change (str "&") with [38]. cbn [starts borrowed]. rewrite andb_true_r. apply N.eqb_sym.
    - destruct S as (r & ->). reflexivity.
  Qed.
  Lemma show_default l : Forall token l -> beq (show l) (str "{}") || beq (show l) (str "Default :: default()") = default l.
  Proof.
    intros F. assert (E : beq (show l) (str "{}") = match l with [TBrace []] => true | _ => false end).
    { pose proof (show_head l F) as S. destruct l as [|[x j|b] t]; auto.
      - destruct S as (c & r & r' & -> & ->). inversion F as [|? ? F0 _]; subst. destruct F0 as (_ & _ & F4). cbn [hd] in F4.
        change (str "{}") with [123; 125]. cbn [beq]. destruct (N.eqb_spec c 123); [congruence|reflexivity].
      - destruct b as [|b0 b].
        + destruct t as [|t0 t]; [reflexivity|]. cbn [show show_tok]. reflexivity.
        + clear S. destruct t as [|t0 t]; cbn [show show_tok]; reflexivity. }
    rewrite E. unfold default. destruct l as [|[x j|[|b0 b]] [|t0 t]]; reflexivity.
  Qed.
  Lemma show_dots l : Forall token l -> starts (str "..") (show l) = match spread l with Some _ => true | None => false end.
  Proof.
    intros F. pose proof (show_head l F) as S. destruct l as [|[x j|b] t]; auto.
    - destruct S as (c & r & r' & Ex & Es). inversion F as [|? ? F0 F3]; subst. destruct F0 as (F1 & F2 & F4). cbn [hd] in F2. rewrite Es. change (str "..") with [46; 46]. cbn [starts].
      destruct (N.eqb_spec 46 c) as [<-|Ne].
      + specialize (F2 eq_refl). injection F2 as ->. cbn [andb].
        destruct t as [|t0 t].
        * cbn in Es. injection Es as <-. cbn. destruct j; reflexivity.
        * pose proof (show_head (t0 :: t) F3) as S2. cbn [show show_tok] in Es. destruct j.
          -- cbn [app] in Es. injection Es as <-. destruct t0 as [y k|b].
             ++ destruct S2 as (d & q & q' & -> & Eq). cbn [show] in Eq. rewrite Eq. inversion F3 as [|? ? G0 _]; subst. destruct G0 as (G1 & G2 & G4). cbn [hd] in G2. cbn [spread].
                change (beq [46] (str ".")) with true. cbn [andb]. destruct (N.eqb_spec 46 d) as [<-|Nd].
                ** specialize (G2 eq_refl). injection G2 as ->. reflexivity.
                ** change (str ".") with [46]. cbn [beq]. destruct (N.eqb_spec d 46); [congruence|]. reflexivity.
             ++ destruct S2 as (q & Eq). cbn [show] in Eq. rewrite Eq. reflexivity.
          -- cbn [app] in Es. injection Es as <-. cbn. destruct t0; reflexivity.
      + cbn [andb]. cbn [spread]. change (str ".") with [46]. destruct j; auto. destruct t as [|[y k|] t]; auto. cbn [beq].
        destruct (N.eqb_spec c 46); [congruence|]. reflexivity.
    - destruct S as (r & ->). reflexivity.
  Qed.
  Lemma spread_skip l r : spread l = Some r -> skipn 2 l = r.
  Proof. destruct l as [|[x []|] [|[y k|] t]]; cbn [spread]; try discriminate. destruct (beq x (str ".") && beq y (str ".")); [|discriminate]. intros E. injection E as <-. reflexivity. Qed.

  Lemma field_value_ok e : tokens e -> eval_field v (if default (inside e) then FDefault else if borrowed (inside e) then FClone (inside e) else FInto (inside e)) = field_value v e.
  Proof. intros F. unfold field_value. destruct (default (inside e)); auto. destruct (borrowed (inside e)); cbn [eval_field]; rewrite ?whole_clone, ?whole_into; auto. Qed.
  Lemma ident_token x : ident x = true -> hd 0 x <> 38 /\ hd 0 x <> 123 /\ x <> [] /\ forallb (fun c => negb (c =? 32)) x = true.
  Proof.
    destruct x as [|c x]; [discriminate|]. cbn [ident hd]. intros E.
    assert (G : forall c, (((48 <=? c) && (c <=? 57)) || ((65 <=? c) && (c <=? 90)) || ((97 <=? c) && (c <=? 122)) || (c =? 95)) = true -> c <> 38 /\ c <> 123 /\ c <> 32).
    { intros d X. repeat (apply orb_true_iff in X; destruct X as [X|X]); try (apply andb_true_iff in X; destruct X as [X Y]; apply N.leb_le in X, Y; lia).
      apply N.eqb_eq in X. lia. }
    repeat split; try discriminate; try (cbn in E; apply andb_true_iff in E; apply (G c); tauto).
    rewrite forallb_forall in *. intros d I. specialize (E d I). apply G in E. apply negb_true_iff. apply N.eqb_neq. tauto.
  Qed.
  Lemma default_space l : default l = true -> l = [TBrace []] \/ In 32 (show l).
  Proof.
    destruct l as [|[x j|[|b0 b]] [|t0 t]]; cbn [default]; auto; intros E; right; apply beq_true in E; rewrite E; cbn; tauto.
  Qed.
  Lemma field_says_ok a g : (forall x, value_of a = Some x -> tokens x) -> field_says v a = Some g ->
    exists f, field a = Some f /\ (fst f, eval_field v (snd f)) = g.
  Proof.
    destruct a as [ty nm [e|] at_ kids]; cbn [value_of]; intros F E; [|destruct ty, nm; discriminate].
    specialize (F e eq_refl). unfold field. rewrite strip_inside, show_default, show_amp by exact F.
    destruct ty, nm as [n|]; try discriminate; cbn [field_says] in E.
    - injection E as <-. exists (n, if default (inside e) then FDefault else if borrowed (inside e) then FClone (inside e) else FInto (inside e)).
      split; [|cbn [fst snd]; rewrite field_value_ok by exact F; reflexivity]. destruct (default (inside e)); auto. destruct (borrowed (inside e)); auto.
    - assert (Fv := field_value_ok e F).
      destruct (inside e) as [|[y j|] [|[x k|] [|? ?]]] eqn:I; try discriminate.
      + destruct (ident y) eqn:Id; [|discriminate]. injection E as <-. destruct (ident_token _ Id) as (N1 & N2 & N3 & N4).
        assert (Nd : default [Tok y j] = false).
        { destruct (default [Tok y j]) eqn:D; auto. apply default_space in D. destruct D as [D|D]; [discriminate|]. cbn [show show_tok] in D.
          rewrite forallb_forall in N4. specialize (N4 _ D). discriminate. }
        assert (Nb : borrowed [Tok y j] = false).
        { destruct y as [|c y]; [congruence|]. cbn [hd] in N1. cbn [borrowed]. apply N.eqb_neq. auto. }
        rewrite Nd, Nb in *. eexists. split; [reflexivity|]. cbn [fst snd show show_tok]. rewrite Fv. reflexivity.
      + destruct (beq y (str "&")) eqn:By; [|discriminate]. destruct (ident x) eqn:Id; [|discriminate]. cbn [andb] in E. injection E as <-.
        apply beq_true in By. subst y. destruct (ident_token _ Id) as (N1 & N2 & N3 & N4).
        assert (Nd : default [Tok (str "&") j; Tok x k] = false).
        { destruct (default [Tok (str "&") j; Tok x k]) eqn:D; auto. }
        assert (Nb : borrowed [Tok (str "&") j; Tok x k] = true) by reflexivity.
        rewrite Nd, Nb in *. eexists. split; [reflexivity|]. cbn [fst snd skipn show show_tok]. rewrite Fv. reflexivity.
  Qed.
  Lemma all_fields_ok l : Forall (fun a => forall x, value_of a = Some x -> tokens x) l -> forall gs, all_say (field_says v) l = Some gs ->
    exists cs, all_some (map field l) = Some cs /\ map (fun f => (fst f, eval_field v (snd f))) cs = gs.
  Proof.
    induction l as [|a l IH]; cbn [all_say map all_some]; intros F gs E.
    - injection E as <-. exists []. auto.
    - inversion F as [|? ? F1 F2]; subst.
      destruct (field_says v a) as [g|] eqn:Ea; [|discriminate]. destruct (all_say (field_says v) l) as [r|]; [|discriminate]. injection E as <-.
      destruct (field_says_ok _ _ F1 Ea) as (c & -> & Ec). destruct (IH F2 r eq_refl) as (cs & -> & Es). exists (c :: cs). cbn [map]. rewrite Ec, Es. auto.
  Qed.

  (** *** Elements *)
  Lemma calls_given gs : flat_map call_attrs (map call_of gs) = flat_map as_attr gs /\ flat_map call_styles (map call_of gs) = flat_map as_style gs /\
    flat_map call_susps (map call_of gs) = flat_map as_susp gs /\ flat_map call_events (map call_of gs) = flat_map as_event gs /\
    flat_map shown_call (map call_of gs) = [].
  Proof. induction gs as [|[] gs (A & C & D & E & F)]; cbn [map flat_map call_of call_attrs call_styles call_susps call_events shown_call as_attr as_style as_susp as_event]; rewrite ?A, ?C, ?D, ?E, ?F; auto. Qed.

  (** A call that is made for a child. *)
  Definition kid_call (c : call H) : Prop := match c with CChild _ | CChildren _ => True | _ => False end.
  Lemma kid_calls l : Forall kid_call l -> flat_map call_attrs l = [] /\ flat_map call_styles l = [] /\ flat_map call_susps l = [] /\ flat_map call_events l = [].
  Proof. intros F. induction F as [|c l K F (A & C & D & E)]; auto. destruct c; try contradiction; cbn; auto. Qed.
  (** What the macro makes of a child. *)
  Definition child_code (c : rsx) : option gcall :=
            match c with
            | Rsx NText _ value _ _ => match extract_value value with Some v => Some (GText v) | None => None end
            | Rsx NElement cname _ _ _ =>
                match cname with
                | Some tag => if is_component_name tag then match convert_to_component c with Some g => Some (GChild g) | None => None end
                              else match convert_node c with Some g => Some (GChild g) | None => None end
                | None => match convert_node c with Some g => Some (GChild g) | None => None end
                end
            | Rsx NBlock _ value _ _ =>
                match extract_value value with
                | Some b => if starts (str "..") (show b) then Some (GSpread (skipn 2 b)) else Some (GEmbed b)
                | None => None
                end
            | Rsx _ _ _ _ _ => None
            end.
  Lemma convert_element name e a l : convert_node (Rsx NElement (Some name) e a l) =
    if is_component_name name then convert_to_component (Rsx NElement (Some name) e a l)
    else match all_some (map attribute a), all_some (map child_code l) with Some x, Some c => Some (GNew name (x ++ c)) | _, _ => None end.
  Proof. reflexivity. Qed.

  Definition kids_say (l : list rsx) : option (list (wnode H)) :=
    (fix go l := match l with [] => Some [] | k :: t => match says v k, go t with Some a, Some b => Some (a ++ b) | _, _ => None end end) l.
  Lemma kids_say_cons k t : kids_say (k :: t) = match says v k, kids_say t with Some a, Some b => Some (a ++ b) | _, _ => None end.
  Proof. reflexivity. Qed.
  Lemma says_element name e a l : says v (Rsx NElement (Some name) e a l) =
    if component name then match l, all_say (field_says v) a with [], Some fs => Some (shown (e_comp v name fs)) | _, _ => None end
    else match all_say (attr_says v) a, kids_say l with
         | Some gs, Some ks => Some [WElement name (flat_map as_attr gs) (flat_map as_style gs) (flat_map as_susp gs) (flat_map as_event gs) ks]
         | _, _ => None
         end.
  Proof. reflexivity. Qed.
  Lemma lexed_kids l : (fix all l := match l with [] => True | k :: t => lexed k /\ all t end) l -> Forall lexed l.
  Proof. induction l as [|k t IH]; intros X; auto. destruct X. constructor; auto. Qed.

  Hypothesis O : in_order v.

  (** A tag, and its code. *)
  Definition node_ok (n : rsx) : Prop := forall ws, lexed n -> says v n = Some ws ->
    (is_element n = true -> exists g, convert_node n = Some g /\ shown (eval v g) = ws /\ ordered (eval v g)) /\
    (exists c, child_code n = Some c /\ kid_call (eval_call v c) /\ shown_call (eval_call v c) = ws /\ ordered_call (eval_call v c)).
  Lemma kids_ok l : Forall node_ok l -> Forall lexed l -> forall ws, kids_say l = Some ws ->
    exists cs, all_some (map child_code l) = Some cs /\ Forall kid_call (map (eval_call v) cs) /\ flat_map shown_call (map (eval_call v) cs) = ws /\
      Forall ordered_call (map (eval_call v) cs).
  Proof.
    induction l as [|k t IH]; intros F L ws E.
    - injection E as <-. exists []. cbn. auto.
    - inversion F as [|? ? F1 F2]; inversion L as [|? ? L1 L2]; subst. rewrite kids_say_cons in E.
      destruct (says v k) as [a|] eqn:Ek; [|discriminate]. destruct (kids_say t) as [b|] eqn:Et; [|discriminate]. injection E as <-.
      destruct (F1 a L1 Ek) as (_ & c & Ec & K & S & Or). destruct (IH F2 L2 b eq_refl) as (cs & Es & Ks & Ss & Os).
      exists (c :: cs). cbn [map all_some flat_map]. rewrite Ec, Es, S, Ss. auto.
  Qed.
  Lemma ordered_comp n fs : ordered (e_comp v n fs).
  Proof. apply (io_comp _ O). Qed.

  Theorem all_ok n : node_ok n.
  Proof.
    induction n as [ty nm e a l IH] using rsx_ind2. intros ws (L1 & L2 & L3) E. apply lexed_kids in L3.
    destruct ty; try (destruct nm, e; discriminate).
    - destruct nm as [name|]; [|destruct e; discriminate]. rewrite says_element in E.
      assert (G : exists g, convert_node (Rsx NElement (Some name) e a l) = Some g /\ shown (eval v g) = ws /\ ordered (eval v g)).
      { rewrite convert_element, component_name. destruct (component name).
        - destruct l; [|discriminate]. destruct (all_say (field_says v) a) as [fs|] eqn:Ef; [|discriminate]. injection E as <-.
          destruct (all_fields_ok a L2 fs Ef) as (cs & Es & <-). cbn [convert_to_component]. rewrite Es. eexists. split; [reflexivity|]. split; [reflexivity|].
          apply (io_comp _ O).
        - destruct (all_say (attr_says v) a) as [gs|] eqn:Eg; [|discriminate]. destruct (kids_say l) as [ks|] eqn:Ek; [|discriminate]. injection E as <-.
          destruct (all_attrs_ok a gs Eg) as (cs & -> & Cs). destruct (kids_ok l IH L3 ks Ek) as (cc & -> & K & S & Or).
          eexists. split; [reflexivity|].
          change (eval v (GNew name (cs ++ cc))) with (PElement name (map (eval_call v) (cs ++ cc))). rewrite map_app, Cs. split.
          + change (shown (PElement name (map call_of gs ++ map (eval_call v) cc))) with
              [WElement name (flat_map call_attrs (map call_of gs ++ map (eval_call v) cc)) (flat_map call_styles (map call_of gs ++ map (eval_call v) cc))
                 (flat_map call_susps (map call_of gs ++ map (eval_call v) cc)) (flat_map call_events (map call_of gs ++ map (eval_call v) cc))
                 (flat_map shown_call (map call_of gs ++ map (eval_call v) cc))].
            rewrite !flat_map_app. destruct (calls_given gs) as (-> & -> & -> & -> & ->). destruct (kid_calls _ K) as (-> & -> & -> & ->). rewrite !app_nil_r, S. reflexivity.
          + apply (proj2 (ordered_calls_all (map call_of gs ++ map (eval_call v) cc))). apply Forall_app. split; auto. apply Forall_forall. intros c I. apply in_map_iff in I. destruct I as ([] & <- & _); exact Logic.I. }
      split; auto. destruct G as (g & Eg & S & Or). exists (GChild g). split; [|split; [exact Logic.I|split; auto]].
      cbn [child_code]. rewrite Eg. rewrite convert_element in Eg. destruct (is_component_name name); auto. rewrite Eg. auto.
    - destruct e as [e|]; [|destruct nm; discriminate]. cbn [says] in E. assert (ws = [WText (e_text v (whole e))]) as -> by (destruct nm; congruence).
      split; [discriminate|]. exists (GText (inside e)). cbn [child_code extract_value]. rewrite strip_inside. split; auto. split; [exact Logic.I|].
      cbn [eval_call shown_call shown]. rewrite whole_text. split; auto. exact Logic.I.
    - destruct e as [e|]; [|destruct nm; discriminate]. specialize (L1 e eq_refl). split; [discriminate|].
      assert (E' : match spread (inside e) with Some l => Some (flat_map shown (e_doms v l)) | None => Some (shown (e_dom v (whole e))) end = Some ws) by (destruct nm; exact E).
      clear E. cbn [child_code extract_value]. rewrite strip_inside, (show_dots _ L1). destruct (spread (inside e)) as [r|] eqn:Sp.
      + injection E' as <-. rewrite (spread_skip _ _ Sp). exists (GSpread r). split; auto. split; [exact Logic.I|]. split; [reflexivity|].
        apply (proj2 (ordered_all (e_doms v r))). apply (io_doms _ O).
      + injection E' as <-. exists (GEmbed (inside e)). split; auto. split; [exact Logic.I|]. rewrite whole_dom. split; [reflexivity|]. apply (io_dom _ O).
  Qed.
End Macro.

(** ** The theorem *)

(** A page to which nodes are added: the next ids and callbacks are not used, there is the element [P]. *)
Record page {H} (s : bdom bytes) (n cb : N) (hand : N -> option H) (P : N) : Prop := {
  pg_ids : 4 <= n;
  pg_new : forall x, n <= x -> b_node s x = None /\ b_reg s x = false /\ b_kids s x = [] /\ b_par s x = None /\ b_listen s (Some x) = [];
  pg_cbs : forall c, cb <= c -> b_cbs s c = false /\ hand c = None;
  pg_elem : exists name a, b_get s P = Some (BElement name a);
  pg_up : forall y, under s P y -> y < n;
  pg_nodup : NoDup (b_kids s P);
  pg_kids : forall x, In x (b_kids s P) -> x < n /\ b_par s x = Some P /\ b_get s x <> None
}.

(** The code of [nodes] is executed and the node it makes put last into [P]. *)
Definition put_into {H} (p : prog H) (n cb : N) (hand : N -> option H) (P : N) : bworld H :=
  let '((_, m), w) := exec p (BW n cb hand []) in m P None w.

(** A root that, unless it is the first, makes just one node (C32). *)
Definition single {H V} (v : env H V) (n : rsx) : Prop :=
  match n with Rsx _ (Some name) _ _ _ => component name = true -> forall fs, plain (e_comp v name fs) | _ => True end.

Lemma all_say_concat {H V} (v : env H V) (B : braces v) (O : in_order v) nodes : Forall lexed nodes -> forallb is_element nodes = true ->
  forall l, all_say (says v) nodes = Some l ->
  exists gs, all_some (map convert_node nodes) = Some gs /\ flat_map shown (map (eval v) gs) = concat l /\ Forall ordered (map (eval v) gs) /\
    length gs = length nodes /\ (Forall (single v) nodes -> Forall plain (map (eval v) gs)).
Proof.
  induction nodes as [|n t IH]; intros L F l E.
  - injection E as <-. exists []. cbn. auto.
  - inversion L as [|? ? L1 L2]; subst. cbn [forallb] in F. apply andb_true_iff in F. destruct F as [F1 F2]. cbn [all_say] in E.
    destruct (says v n) as [a|] eqn:En; [|discriminate]. destruct (all_say (says v) t) as [b|]; [|discriminate]. injection E as <-.
    destruct (proj1 (all_ok v B O n a L1 En) F1) as (g & Eg & S & Or). destruct (IH L2 F2 b eq_refl) as (gs & Es & Ss & Os & Ln & Pl).
    exists (g :: gs). cbn [map all_some flat_map concat length]. rewrite Eg, Es, S, Ss, Ln. repeat split; auto.
    intros X. inversion X as [|? ? X1 X2]; subst. constructor; auto.
    destruct n as [ty nm e at_ kids]. destruct ty; try discriminate. destruct nm as [name|]; [|destruct e; discriminate].
    rewrite convert_element in Eg. cbn [single] in X1. rewrite component_name in Eg. destruct (component name).
    + cbn [convert_to_component] in Eg. destruct (all_some (map field at_)); [|discriminate]. injection Eg as <-. apply X1. reflexivity.
    + destruct (all_some (map attribute at_)); [|discriminate]. destruct (all_some (map child_code kids)); [|discriminate]. injection Eg as <-. exact Logic.I.
Qed.

Lemma written_ok {H V} (v : env H V) (B : braces v) (O : in_order v) nodes ws : Forall lexed nodes -> Forall (single v) (tail nodes) ->
  written v nodes = Some ws -> exists g, dom_inner nodes = Some g /\ shown (eval_top v g) = ws /\ ordered (eval_top v g).
Proof.
  intros L Sg E. unfold written in E. destruct (forallb is_element nodes) eqn:F; [|discriminate].
  destruct nodes as [|n [|m t]]; [discriminate| |].
  - cbn [forallb] in F. rewrite andb_true_r in F. inversion L as [|? ? L1 _]; subst. destruct (proj1 (all_ok v B O n ws L1 E) F) as (g & Eg & S & Or).
    exists (GOne g). unfold dom_inner. cbn [map all_some]. rewrite Eg. auto.
  - destruct (all_say (says v) (n :: m :: t)) as [l|] eqn:El; [|discriminate]. injection E as <-.
    destruct (all_say_concat v B O _ L F l El) as (gs & Es & Ss & Os & Ln & _).
    assert (Pl : Forall plain (tail (map (eval v) gs))).
    { inversion L as [|? ? L1 L2]; subst. remember (m :: t) as t' eqn:Et. cbn [forallb] in F. apply andb_true_iff in F. destruct F as [F1 F2].
      cbn [all_say] in El. destruct (says v n) as [a|] eqn:En; [|discriminate].
      destruct (all_say (says v) t') as [b|] eqn:Eb; [|discriminate].
      destruct (all_say_concat v B O t' L2 F2 b Eb) as (gt & Et' & _ & _ & _ & Q).
      cbn [map all_some] in Es. destruct (convert_node n); [|discriminate]. rewrite Et' in Es. injection Es as <-. cbn [map tail]. apply Q. exact Sg. }
    unfold dom_inner. rewrite Es. destruct gs as [|g1 [|g2 gs]]; try discriminate. eexists. split; [reflexivity|].
    cbn [eval_top]. split.
    + change (shown (PFragment (map (eval v) (g1 :: g2 :: gs)))) with (flat_map shown (map (eval v) (g1 :: g2 :: gs)) ++ [WComment (str "list dom node")]).
      rewrite Ss. reflexivity.
    + split; [|exact Pl]. apply ordered_all. exact Os.
Qed.

(** What is written in [dom!] comes to be in the document: the code is generated, and when what it makes is put into an element of the
    page, then that element has, after the children it had, exactly the nodes written: names, texts, the value of every attribute (the class together with the styles), the
    handlers of events in their order, the children in their order; and nothing else on the page is changed.
    Missing: html, head and body (see [C91_document] in DomMacroPage.v); the class given twice; components whose order is wrong (below). *)
Theorem C91_tree_partial {H V} (v : env H V) nodes ws s0 n cb (hand : N -> option H) P :
  braces v -> in_order v -> Forall lexed nodes -> Forall (single v) (tail nodes) -> Forall ordinary ws -> page s0 n cb hand P ->
  written v nodes = Some ws ->
  exists g s ids, dom_inner nodes = Some g /\
    let w := put_into (eval_top v g) n cb hand P in
    breplay beq hook_name perm s0 (w_q w) [] s /\
    b_kids s P = b_kids s0 P ++ ids /\
    Forall2 (shows s (w_hand w) (fun x => n <= x < w_next w)) ids ws /\
    (forall x, In x ids -> b_par s x = Some P) /\
    (forall x, x < n -> x <> P -> b_node s x = b_node s0 x /\ b_reg s x = b_reg s0 x /\ b_kids s x = b_kids s0 x /\ b_par s x = b_par s0 x /\
                                 b_listen s (Some x) = b_listen s0 (Some x)) /\
    b_get s P = b_get s0 P /\ b_par s P = b_par s0 P /\ b_listen s (Some P) = b_listen s0 (Some P) /\
    (forall c h, hand c = Some h -> w_hand w c = Some h) /\ incl (b_listen s0 None) (b_listen s None).
Proof.
  intros B O L Sg Or Pg E. destruct (written_ok v B O nodes ws L Sg E) as (g & Eg & S & Od).
  assert (G : good s0 (eval_top v g)) by (apply all_good; [exact Od|rewrite S; exact Or]).
  destruct Pg as [p1 p2 p3 p4 p5 p6 p7].
  assert (I : Inv s0 (BW n cb hand []) s0).
  { constructor; cbn; auto. constructor. }
  destruct (G _ _ I) as (s1 & I1 & N1 & L1 & S1 & (M1 & M2 & M)).
  destruct (exec (eval_top v g) (BW n cb hand [])) as [[id m] w1] eqn:Ex. cbn [fst snd w_next] in *.
  assert (XP : P < n) by (apply p5; apply under_refl).
  assert (T : site w1 s1 P (b_kids s0 P ++ [])).
  { rewrite app_nil_r. pose proof (S1 P XP) as SP. constructor.
    - destruct p4 as (nm & a & Ea). exists nm, a. rewrite (same_get _ _ _ SP). auto.
    - intros y U. assert (y < n); [|lia]. apply p5. revert y U. apply under_keep. intros y U. apply S1. auto.
    - apply SP.
    - auto.
    - intros x X. destruct (p7 x X) as (Q1 & Q2 & Q3). pose proof (S1 x Q1) as Sx. split; [lia|]. rewrite (same_get _ _ _ Sx). split; auto.
      destruct Sx as (_ & _ & _ & X4 & _). congruence. }
  destruct (M w1 s1 P (b_kids s0 P) [] None I1 (later_refl _ _) ltac:(lia) (fun x _ => same_refl s1 x) T) as (s2 & ids & [q1 q2 q3 q4 q5 q6 q7 q8 q9 q10 q11]).
  { split.
    - intros y U [X Y]. assert (y < n); [|lia]. clear X Y. apply p5. revert y U. apply under_keep. intros y U. apply S1. auto.
    - rewrite app_nil_r. intros x X [Y Z]. destruct (p7 x X). lia. }
  { reflexivity. }
  cbn [fst snd] in *. exists g, s2, ids. split; auto. unfold put_into. rewrite Ex. cbn zeta. rewrite app_nil_r in q6.
  pose proof (S1 P XP) as (A1 & A2 & A3 & A4 & A5). destruct q5 as (B1 & B2 & B3 & B4).
  split; [apply (i_run _ _ _ q1)|]. split; auto. split.
  { rewrite S in q11. eapply shows_all_mono; [exact q11|]. cbn beta. intros x [[X Y]|[X Y]]; lia. }
  split; auto. split.
  { intros x X Y. eapply same_trans; [apply S1; auto|]. apply q4; auto; [lia|]. intros [Z _]. lia. }
  split; [unfold b_get; rewrite B1, B2, A1, A2; reflexivity|]. split; [congruence|]. split; [congruence|].
  destruct L1 as [L1 L1'], q3 as [q3 q3']. split; [intros; auto|eapply incl_tran; eauto].
Qed.

(** [dom_element!] is [dom!] with one tag. *)
Theorem C91_element nodes g : dom_element_inner nodes = Some g <-> dom_inner nodes = Some (GOne g).
Proof.
  unfold dom_element_inner, dom_inner. destruct (all_some (map convert_node nodes)) as [[|x [|y l]]|]; split; intros E; try discriminate; injection E as <-; reflexivity.
Qed.

(** ** What is refused *)

(** An attribute, a field, that is an error. *)
Definition bad_attribute (a : rsx) : Prop :=
  match a with
  | Rsx NBlock _ e _ _ => match e with None => True | Some e => exists c, In c (show (inside e)) /\ ident [c] = false end
  | Rsx NAttribute n e _ _ => n = None \/ e = None
  | _ => True
  end.
Definition bad_field (a : rsx) : Prop :=
  match a with Rsx _ n e _ _ => match e with None => True | Some e => n = None /\ default (inside e) = true end end.
Inductive refused : rsx -> Prop :=
| rf_type ty n e a l : ty <> NElement -> refused (Rsx ty n e a l)
| rf_field n e a l : component (match n with Some s => s | None => [] end) = true -> Exists bad_field a -> refused (Rsx NElement n e a l)
| rf_attr n e a l : component (match n with Some s => s | None => [] end) = false -> Exists bad_attribute a -> refused (Rsx NElement n e a l)
| rf_kid n e a l k : component (match n with Some s => s | None => [] end) = false -> In k l -> refused_child k -> refused (Rsx NElement n e a l)
with refused_child : rsx -> Prop :=
| rk_value ty n a l : ty = NText \/ ty = NBlock -> refused_child (Rsx ty n None a l)
| rk_type ty n e a l : ty = NAttribute \/ ty = NComment \/ ty = NDoctype \/ ty = NFragment -> refused_child (Rsx ty n e a l)
| rk_element n e a l : refused (Rsx NElement n e a l) -> refused_child (Rsx NElement n e a l).

Lemma all_some_none {A B} (f : A -> option B) l : all_some (map f l) = None <-> Exists (fun x => f x = None) l.
Proof.
  induction l as [|a l IH]; cbn [map all_some].
  - split; [discriminate|]. intros X. inversion X.
  - destruct (f a) as [b|] eqn:E.
    + destruct (all_some (map f l)); split; intros X; try discriminate; auto.
      * inversion X; subst; [congruence|]. apply IH in H0. discriminate.
      * right. apply IH. auto.
    + split; auto.
Qed.
Lemma Exists_iff {A} (P Q : A -> Prop) l : (forall x, In x l -> P x <-> Q x) -> Exists P l <-> Exists Q l.
Proof. intros X. rewrite !Exists_exists. split; intros (x & I & J); exists x; split; auto; apply X; auto. Qed.

Lemma bad_attribute_ok a : attribute a = None <-> bad_attribute a.
Proof.
  destruct a as [[] n e at_ l]; cbn; try (split; auto; fail).
  - destruct n, e; cbn; split; auto; try discriminate; try tauto; intros [X|X]; discriminate.
  - destruct e as [e|]; cbn; [|tauto]. rewrite strip_inside. destruct (check_ident (show (inside e))) eqn:C.
    + split; [discriminate|]. intros (c & I & J). unfold check_ident in C. rewrite forallb_forall in C. specialize (C c I). cbn in J. rewrite C in J. discriminate.
    + split; auto. intros _. unfold check_ident in C. clear -C. revert C. induction (show (inside e)) as [|c t IH]; cbn [forallb]; [discriminate|]. intros C.
      apply andb_false_iff in C. destruct C as [C|C].
      * exists c. split; [left; auto|]. cbn. rewrite C. reflexivity.
      * destruct (IH C) as (d & I & J). exists d. split; [right; auto|auto].
Qed.
Lemma bad_field_ok a : (forall x, value_of a = Some x -> tokens x) -> field a = None <-> bad_field a.
Proof.
  destruct a as [ty n e at_ l]. cbn [value_of bad_field]. intros F. unfold field. destruct e as [e|].
  - rewrite strip_inside, show_default by (apply F; reflexivity). destruct n as [n|].
    + split; [destruct (default (inside e)); [discriminate|destruct (starts _ _); discriminate]|intros []; discriminate].
    + destruct (default (inside e)); [tauto|]. split; [destruct (starts _ _); discriminate|intros []; discriminate].
  - destruct n; tauto.
Qed.
Lemma convert_element' n e a l : convert_node (Rsx NElement n e a l) =
  if component (match n with Some s => s | None => [] end) then convert_to_component (Rsx NElement n e a l)
  else match all_some (map attribute a), all_some (map child_code l) with
       | Some x, Some c => Some (GNew (match n with Some s => s | None => [] end) (x ++ c))
       | _, _ => None
       end.
Proof. reflexivity. Qed.
Lemma child_element n e a l : child_code (Rsx NElement n e a l) = match convert_node (Rsx NElement n e a l) with Some g => Some (GChild g) | None => None end.
Proof.
  cbn [child_code]. rewrite convert_element'. destruct n as [n|]; auto. rewrite component_name. destruct (component n) eqn:C; auto.
Qed.

Lemma refused_iff n : lexed n -> (convert_node n = None <-> refused n) /\ (child_code n = None <-> refused_child n).
Proof.
  induction n as [ty nm e a l IH] using rsx_ind2. intros (L1 & L2 & L3). apply lexed_kids in L3.
  assert (R : convert_node (Rsx ty nm e a l) = None <-> refused (Rsx ty nm e a l)).
  { destruct ty; try (split; [intros _; constructor; discriminate|reflexivity]).
    rewrite convert_element'. destruct (component (match nm with Some s => s | None => [] end)) eqn:C.
    - cbn [convert_to_component]. pose proof (all_some_none field a) as Q. rewrite (Exists_iff _ bad_field) in Q.
      2: { intros x I. apply bad_field_ok. rewrite Forall_forall in L2. exact (L2 x I). }
      destruct (all_some (map field a)).
      + split; [discriminate|]. intros X. inversion X; subst; try congruence. match goal with Z : Exists bad_field _ |- _ => apply Q in Z; discriminate end.
      + split; auto. intros _. apply rf_field; auto. apply Q. auto.
    - pose proof (all_some_none attribute a) as Q. rewrite (Exists_iff _ bad_attribute) in Q by (intros; apply bad_attribute_ok).
      pose proof (all_some_none child_code l) as K. rewrite (Exists_iff _ refused_child) in K.
      2: { intros x I. rewrite Forall_forall in IH, L3. apply IH; auto. }
      destruct (all_some (map attribute a)).
      + destruct (all_some (map child_code l)).
        * split; [discriminate|]. intros X. inversion X; subst; try congruence.
          -- match goal with Z : Exists bad_attribute _ |- _ => apply Q in Z; discriminate end.
          -- assert (Exists refused_child l) as Y by (apply Exists_exists; eauto). apply K in Y. discriminate.
        * split; auto. intros _. assert (Exists refused_child l) as Y by (apply K; auto). apply Exists_exists in Y. destruct Y as (k & I & J). eapply rf_kid; eauto.
      + split; auto. intros _. apply rf_attr; auto. apply Q. auto. }
  split; auto. destruct ty.
  - rewrite child_element. destruct (convert_node (Rsx NElement nm e a l)).
    + split; [discriminate|]. intros X. inversion X as [? ? ? ? Z|? ? ? ? ? Z|? ? ? ? Z]; subst; [destruct Z; discriminate|destruct Z as [|[|[|]]]; discriminate|]. apply R in Z. discriminate.
    + split; auto. intros _. apply rk_element. apply R. auto.
  - split; auto. intros _. apply rk_type. auto.
  - destruct e as [e|]; cbn; split; auto; try discriminate.
    + intros X. inversion X as [? ? ? ? Z|? ? ? ? ? Z|? ? ? ? Z]; subst. destruct Z as [|[|[|]]]; discriminate.
    + intros _. constructor. auto.
  - split; auto. intros _. apply rk_type. auto.
  - split; auto. intros _. apply rk_type. auto.
  - destruct e as [e|]; cbn [child_code extract_value]; split; auto; try discriminate.
    + destruct (starts _ _); discriminate.
    + intros X. inversion X as [? ? ? ? Z|? ? ? ? ? Z|? ? ? ? Z]; subst. destruct Z as [|[|[|]]]; discriminate.
    + intros _. constructor. auto.
  - split; auto. intros _. apply rk_type. auto.
Qed.

(** The macro reports an error exactly for these trees. *)
Theorem C91_refused nodes : Forall lexed nodes -> (dom_inner nodes = None <-> nodes = [] \/ Exists refused nodes).
Proof.
  intros L. unfold dom_inner. pose proof (all_some_none convert_node nodes) as Q. rewrite (Exists_iff _ refused) in Q.
  2: { intros x I. rewrite Forall_forall in L. apply refused_iff; auto. }
  destruct (all_some (map convert_node nodes)) as [[|g [|g' gs]]|] eqn:E; split; intros X; try discriminate; auto.
  - left. destruct nodes as [|x t]; auto. cbn [map all_some] in E. destruct (convert_node x); [|discriminate]. destruct (all_some (map convert_node t)); discriminate.
  - destruct X as [->|X]; [discriminate|]. apply Q in X. discriminate.
  - destruct X as [->|X]; [discriminate|]. apply Q in X. discriminate.
  - right. apply Q. auto.
Qed.

(** ** What is not so *)

(** Children of a component are not looked at. *)
Theorem C91_component_children name e a kids : component name = true ->
  dom_inner [Rsx NElement (Some name) e a kids] = dom_inner [Rsx NElement (Some name) e a []].
Proof. intros C. unfold dom_inner. cbn [map all_some]. rewrite !convert_element, component_name, C. reflexivity. Qed.

Module Demo.
  (** Braces around braces. *)
  Fixpoint peel_tok (t : tok) : list tok := match t with TBrace [x] => peel_tok x | TBrace m => m | Tok x j => [Tok x j] end.
  Definition peel (l : list tok) : list tok := match l with [t] => peel_tok t | _ => l end.
  Lemma peel_brace l : peel [TBrace l] = peel l.
  Proof. destruct l as [|t [|u r]]; reflexivity. Qed.

  (** Expressions evaluate to their texts; [items] are two texts.  The component [Two] shows a value, the others an element. *)
  Definition v : env bytes bytes := {|
    e_attr l := Some (show (peel l));
    e_text l := show (peel l);
    e_hand l := show (peel l);
    e_css l := show (peel l);
    e_susp l := show (peel l);
    e_dom l := PValue (Some (PText (show (peel l))));
    e_doms l := [PText (str "one"); PText (str "two")];
    e_clone l := show (peel l);
    e_into l := show (peel l);
    e_comp n fs := if beq n (str "Two") then PValue (Some (PText (str "2")))
                   else PElement (str "section") (map (fun f => CAttr (fst f) (snd f)) fs)
  |}.
  Lemma v_braces : braces v.
  Proof. constructor; intros l; unfold v; cbn [e_attr e_text e_hand e_css e_susp e_dom e_clone e_into]; rewrite peel_brace; reflexivity. Qed.
  Lemma v_order : in_order v.
  Proof.
    constructor; intros; cbn [v e_dom e_doms e_comp].
    - exact Logic.I.
    - repeat constructor.
    - destruct (beq n (str "Two")); [exact Logic.I|]. apply (proj2 (ordered_calls_all (map (fun f => CAttr (fst f) (snd f)) fs))).
      apply Forall_forall. intros c C. apply in_map_iff in C. destruct C as (x & <- & _). exact Logic.I.
  Qed.

  (** An expression that is a name, one in braces, a literal. *)
  Definition name (x : string) : expr := EPlain [Tok (str x) false].
  Definition block (l : list tok) : expr := EBlock [l].
  Definition t (x : string) : tok := Tok (str x) false.
  (** [<div id="main" css={s} class="big" on_click={go} {title}> "Hello" <br/> {..items} {state} <App {&state} n={} /> </div> <p>"end"</p>] *)
  Definition tree : list rsx := [
    Rsx NElement (Some (str "div")) None
      [ Rsx NAttribute (Some (str "id")) (Some (name "main")) [] [];
        Rsx NAttribute (Some (str "css")) (Some (block [t "s"])) [] [];
        Rsx NAttribute (Some (str "class")) (Some (name "big")) [] [];
        Rsx NAttribute (Some (str "on_click")) (Some (block [t "go"])) [] [];
        Rsx NBlock None (Some (block [t "title"])) [] [] ]
      [ Rsx NText None (Some (name "Hello")) [] [];
        Rsx NElement (Some (str "br")) None [] [];
        Rsx NBlock None (Some (block [Tok (str ".") true; Tok (str ".") false; t "items"])) [] [];
        Rsx NBlock None (Some (block [t "state"])) [] [];
        Rsx NElement (Some (str "my::App")) None
          [ Rsx NBlock None (Some (block [Tok (str "&") false; t "state"])) [] [];
            Rsx NAttribute (Some (str "n")) (Some (EBlock [])) [] [] ] [] ];
    Rsx NElement (Some (str "p")) None [] [ Rsx NText None (Some (name "end")) [] [] ] ].
  Definition wanted_tree : list (wnode bytes) := [
    WElement (str "div") [(str "id", Some (str "main")); (str "class", Some (str "big")); (str "title", Some (str "title"))] [str "s"] [] [(str "click", str "go")]
      [ WText (str "Hello"); WElement (str "br") [] [] [] [] []; WText (str "one"); WText (str "two");
        WText (str "state"); WComment (str "value element");
        WElement (str "section") [(str "state", Some (str "& state")); (str "n", None)] [] [] [] [] ];
    WElement (str "p") [] [] [] [] [WText (str "end")];
    WComment (str "list dom node") ].

  (** The document before: html, head and body. *)
  Definition doc : bdom bytes :=
    BDom (fun x => if x =? 1 then Some (BElement (str "html") []) else if x =? 2 then Some (BElement (str "head") [])
                   else if x =? 3 then Some (BElement (str "body") []) else None)
         (fun x => (x =? 1) || (x =? 2) || (x =? 3))
         (fun x => if x =? 1 then [2; 3] else []) (fun x => if (x =? 2) || (x =? 3) then Some 1 else None) [] (fun _ => false) (fun _ => []).
  Lemma doc_page : page doc 4 1 (fun _ => @None bytes) 3.
  Proof.
    assert (U : forall y, under doc 3 y -> y < 4).
    { intros y U. inversion U as [|? p ? E U']; subst; [lia|]. injection E as <-. inversion U' as [|? p ? E ?]; subst; [lia|]. discriminate. }
    constructor; auto.
    - lia.
    - intros x X. cbn. destruct (N.eqb_spec x 1), (N.eqb_spec x 2), (N.eqb_spec x 3); try lia. cbn. auto.
    - exists (str "body"), []. reflexivity.
    - constructor.
    - intros x [].
  Qed.
End Demo.

Lemma demo_lexed : Forall lexed Demo.tree.
Proof.
  assert (T : forall l, Forall token l -> tokens (Demo.block l)) by (intros l F; exact F).
  assert (W : forall x, token (Demo.t x) -> tokens (Demo.name x)) by (intros x F; constructor; [exact F|constructor]).
  assert (D : tokens (EBlock [])) by (repeat constructor).
  unfold Demo.tree. repeat constructor; cbn [value_of]; try discriminate; try (intros x E; injection E as <-); try (apply W); try (apply T); auto;
    repeat constructor; try discriminate.
Qed.

(** A page with attributes, a style, an event, texts, a list, a value, a component. *)
Example C91_tree_example :
  braces Demo.v /\ in_order Demo.v /\ Forall lexed Demo.tree /\ Forall (single Demo.v) (tail Demo.tree) /\ Forall ordinary Demo.wanted_tree /\
  page Demo.doc 4 1 (fun _ => @None bytes) 3 /\ written Demo.v Demo.tree = Some Demo.wanted_tree.
Proof.
  split; [exact Demo.v_braces|]. split; [exact Demo.v_order|]. split; [exact demo_lexed|]. split; [repeat constructor; discriminate|].
  split; [|split; [exact Demo.doc_page|vm_compute; reflexivity]].
  repeat constructor; try (vm_compute; discriminate); unfold class_once; vm_compute; auto.
Qed.
(** What the browser is told. *)
Example C91_tree_commands :
  exists g, dom_inner Demo.tree = Some g /\
    w_q (put_into (eval_top Demo.v g) 4 1 (fun _ => None) 3) =
      [ CreateNode 4 (str "div"); SetAttr 4 (str "id") (str "main"); SetAttr 4 (str "class") (str "s"); SetAttr 4 (str "class") (str "big s");
        CallbackAdd 4 (str "click") 1; SetAttr 4 (str "title") (str "title");
        CreateText 5 (str "Hello"); InsertBefore 4 5 None; CreateNode 6 (str "br"); InsertBefore 4 6 None;
        CreateText 7 (str "one"); CreateText 8 (str "two"); InsertBefore 4 7 None; InsertBefore 4 8 None;
        CreateComment 9 (str "value element"); InsertBefore 4 9 None; CreateText 10 (str "state"); InsertBefore 4 10 (Some 9);
        CreateNode 11 (str "section"); SetAttr 11 (str "state") (str "& state"); RemoveAttr 11 (str "n"); InsertBefore 4 11 None;
        CreateNode 12 (str "p"); CreateText 13 (str "end"); InsertBefore 12 13 None;
        CreateComment 14 (str "list dom node"); InsertBefore 3 14 None; InsertBefore 3 12 (Some 14); InsertBefore 3 4 (Some 12) ].
Proof. eexists. split; [reflexivity|]. vm_compute. reflexivity. Qed.

(** Refused: an attribute without a value. *)
Example C91_refused_example : refused (Rsx NElement (Some (str "input")) None [Rsx NAttribute (Some (str "disabled")) None [] []] []) /\
  dom_inner [Rsx NElement (Some (str "input")) None [Rsx NAttribute (Some (str "disabled")) None [] []] []] = None.
Proof. split; [|reflexivity]. apply rf_attr; [reflexivity|]. left. right. reflexivity. Qed.

(** The text written between the tags of a component is accepted and shown nowhere. *)
Theorem C91_component_children_refuted : exists nodes g name e text,
  dom_inner nodes = Some g /\ nodes = [Rsx NElement (Some name) None [] [Rsx NText None (Some e) [] []]] /\ e_text Demo.v (whole e) = text /\
  forall id, ~ In (CreateText id text) (w_q (put_into (eval_top Demo.v g) 4 1 (fun _ => None) 3)).
Proof.
  eexists _, _, (str "App"), (Demo.name "Hello"), _. split; [|split; [reflexivity|split; [reflexivity|]]]; [reflexivity|].
  intros id I. vm_compute in I. repeat destruct I as [I|I]; try discriminate. contradiction.
Qed.

(** Of two tags, where the second is a component that shows a value, the value comes first. *)
Theorem C91_order_refuted : exists nodes g s,
  nodes = [Rsx NElement (Some (str "p")) None [] []; Rsx NElement (Some (str "Two")) None [] []] /\
  dom_inner nodes = Some g /\
  b_run beq hook_name perm Demo.doc (w_q (put_into (eval_top Demo.v g) 4 1 (fun _ => None) 3)) = Some s /\
  map (b_node s) (b_kids s 3) = [Some (BText (str "2")); Some (BElement (str "p") []); Some (BComment (str "value element")); Some (BComment (str "list dom node"))].
Proof.
  eexists _, _, _. split; [reflexivity|]. split; [reflexivity|]. split; [vm_compute; reflexivity|]. vm_compute. reflexivity.
Qed.
