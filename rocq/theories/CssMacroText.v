(** What the [css!] macro makes of a block. *)
From Coq Require Import String List NArith PeanoNat Bool Lia.
From Verif Require Import CodecModel DomWire CssMacroModel CssMacroProps CssMacroGen.
Import ListNotations.
Local Open Scope string_scope.
Local Open Scope list_scope.
Local Open Scope N_scope.

Definition all_exprs (l : list (bytes * item)) : list bytes := flat_map (fun p => exprs (snd p)) l.
Definition all_refs (l : list (bytes * item)) : list bytes := flat_map (fun p => refs_of (snd p)) l.
(** No opening bracket but those of the references: neither in the texts, nor in the values, nor in the names of the classes. *)
Section Plain.
  Variable val : bytes -> bytes.
  Variable class_of : bytes -> bytes.
  Fixpoint plain_val (v : CssMacroProps.val) : Prop :=
    match v with
    | VText t | VUrl t => ~ In 91 t
    | VHex _ => True
    | VUrlExpr _ e _ | VEnd _ e _ => ~ In 91 (val e)
    | VThen _ e _ _ v => ~ In 91 (val e) /\ plain_val v
    end.
  Fixpoint plain (i : item) : Prop :=
    match i with
    | Decl _ _ v => plain_val v
    | Sub _ refs _ l _ _ => Forall (fun r => ~ In 91 (class_of (snd r))) refs /\ fold_right (fun p P => plain (snd p) /\ P) True l
    | Media _ q _ l _ _ => ~ In 91 q /\ fold_right (fun p P => plain (snd p) /\ P) True l
    | Comment _ _ _ => True
    | Anim _ p _ fr _ => ~ In 91 p /\ match fr with None => True | Some (l, _) => Forall (fun f => Forall (fun d : decl => match d with (_, (_, _, v)) => plain_val v end) (s_rules f)) l end
    end.
  Definition plain_all (l : list (bytes * item)) : Prop := fold_right (fun p P => plain (snd p) /\ P) True l.

  Notation bracketless := (bracketless class_of val).
  Lemma no_app a b : ~ In 91 a -> ~ In 91 b -> ~ In 91 (a ++ b).
  Proof. intros A B Q. apply in_app_or in Q. tauto. Qed.
  Lemma plain_val_pieces v : ok_val v -> plain_val v -> Forall bracketless (val_pieces v).
  Proof.
    induction v as [t|h|t|w1 e w2|w1 e w2|w1 e w2 w v IH]; cbn [ok_val plain_val val_pieces]; intros H Hp.
    - constructor; [exact Hp|constructor].
    - constructor; [|constructor]. destruct H as [H _]. intros [Q|Q]; [discriminate Q|]. rewrite Forall_forall in H. specialize (H _ Q). unfold hex_char in H. lia.
    - constructor; [|constructor]. apply no_app; [notin|]. apply no_app; [exact Hp|notin].
    - constructor; [cbn [CssMacroGen.bracketless]; notin|]. constructor; [exact Hp|]. constructor; [cbn [CssMacroGen.bracketless]; notin|constructor].
    - constructor; [exact Hp|constructor].
    - destruct H as (_ & _ & _ & Hv). destruct Hp as [P1 P2]. constructor; [exact P1|]. apply Forall_app. split.
      + destruct (px v); [constructor|]. constructor; [cbn [CssMacroGen.bracketless]; notin|constructor].
      + apply IH; [destruct v; try contradiction; exact Hv|exact P2].
  Qed.
  Ltac nb := repeat constructor; cbn [CssMacroGen.bracketless]; try notin.
  Lemma plain_lines i : ok i -> plain i -> Forall (Forall bracketless) (lines i).
  Proof.
    assert (K : forall l, Forall (fun p : bytes * item => ok (snd p) -> plain (snd p) -> Forall (Forall bracketless) (lines (snd p))) l -> ok_all l -> plain_all l ->
      Forall (Forall bracketless) (flat_map (fun p => lines (snd p)) l)).
    { clear i. intros l H. induction H as [|[w i] l Hi _ IH]; [constructor|]. intros [[_ Ho] Hl] [Po Pl]. cbn [flat_map]. apply Forall_app.
      split; [apply Hi; assumption|apply IH; assumption]. }
    induction i as [m w v|sel refs w1 l w2 w3 IH|w1 q w2 l w3 w4 IH|w1 t w2|w1 p w2 fr w3] using item_rect'; intros Hok Hp; cbn [lines].
    - destruct Hok as ((N1 & _) & _ & Hv & _). constructor; [|constructor]. constructor.
      + apply no_app; [|notin]. rewrite Forall_forall in N1. intros Q; specialize (N1 _ Q); unfold name_char in N1; lia.
      + apply Forall_app. split; [apply plain_val_pieces; assumption|nb].
    - destruct Hok as (Hs & Hr & Hsr & _ & _ & Hl & _). destruct Hp as [P1 P2]. constructor; [|constructor]. apply Forall_app. split.
      + apply pbetween_all; [nb|]. unfold sel_pieces. apply Forall_app. split.
        * destruct sel as [[a b]|]; [|constructor]. constructor; [|constructor]. constructor; [|constructor]. destruct b as [b|]; cbn [print_sel CssMacroGen.bracketless].
          -- destruct Hs as [[_ A] [_ B]]. apply no_app; [notin|]. apply no_app; [|apply no_app; [notin|]]; intros Q; [apply (A _ Q)|apply (B _ Q)]; cbn; auto.
          -- destruct Hs as (_ & A & _). apply no_app; [notin|]. intros Q. apply (A _ Q). cbn; auto.
        * apply Forall_forall. intros x Hx. apply in_map_iff in Hx. destruct Hx as (r & <- & Hin). rewrite Forall_forall in Hr, P1.
          constructor; [|constructor]. split; [apply (Hr r Hin)|apply (P1 r Hin)].
      + apply Forall_app. split; [nb|]. apply Forall_app. split; [|nb]. apply pbetween_all; [nb|]. apply (K l IH Hl P2).
    - destruct Hok as (_ & Hq & _ & Hl & _). destruct Hp as [P1 P2]. constructor; [|constructor]. constructor; [apply no_app; [notin|exact P1]|].
      apply Forall_app. split; [nb|]. apply Forall_app. split; [|nb]. apply pbetween_all; [nb|]. apply (K l IH Hl P2).
    - constructor.
    - destruct Hok as (_ & _ & _ & _ & Hf & _). destruct Hp as [P1 P2]. constructor; [|constructor]. constructor; [apply no_app; [notin|exact P1]|].
      apply Forall_app. split; [|nb]. destruct fr as [[l w]|]; [|constructor]. destruct Hf as (_ & Hs & _).
      apply Forall_app. split; [nb|]. apply Forall_app. split; [|nb]. apply pbetween_all; [nb|]. apply Forall_map.
      rewrite Forall_forall in *. intros f Hin. destruct (Hs f Hin) as (_ & _ & Hc & _ & (_ & Hr) & _). specialize (P2 f Hin).
      unfold step_pieces. apply Forall_app. split.
      + constructor; [|nb]. apply no_app; [|notin]. rewrite Forall_forall in Hc. intros Q; specialize (Hc _ Q); unfold digit_char in Hc; lia.
      + apply Forall_app. split; [|nb]. apply pbetween_all; [nb|]. apply Forall_map. rewrite Forall_forall in *. intros [w0 [[n w'] v]] Hd.
        destruct (Hr _ Hd) as [_ ((N1 & _) & _ & Hv & _)]. specialize (P2 _ Hd). cbn [decl_pieces] in *. constructor.
        * apply no_app; [|notin]. rewrite Forall_forall in N1. intros Q; specialize (N1 _ Q); unfold name_char in N1; lia.
        * apply Forall_app. split; [apply plain_val_pieces; assumption|nb].
  Qed.
  Lemma plain_lines_all l : ok_all l -> plain_all l -> Forall (Forall bracketless) (lines_all l).
  Proof.
    induction l as [|[w i] l IH]; [constructor|]. intros [[_ Ho] Hl] [Po Pl]. cbn [lines_all flat_map]. apply Forall_app.
    split; [apply plain_lines; assumption|apply IH; assumption].
  Qed.
End Plain.
Lemma refs_ok i : ok i -> Forall ok_ref (refs_of i).
Proof.
  induction i as [m w v|sel refs w1 l w2 w3 IH|w1 q w2 l w3 w4 IH|w1 t w2|w1 p w2 fr w3] using item_rect'; intros Hok; cbn [refs_of]; try constructor.
  - destruct Hok as (_ & Hr & _ & _ & _ & Hl & _). apply Forall_app. split.
    + apply Forall_forall. intros r Hin. apply in_map_iff in Hin. destruct Hin as (x & <- & Hx). rewrite Forall_forall in Hr. apply (Hr x Hx).
    + revert Hl. induction IH as [|p l Hp _ IHl]; [constructor|]. intros [[_ Ho] Hl]. cbn [flat_map]. apply Forall_app. auto.
  - destruct Hok as (_ & _ & _ & Hl & _). revert Hl. induction IH as [|p l Hp _ IHl]; [constructor|]. intros [[_ Ho] Hl]. cbn [flat_map]. apply Forall_app. auto.
Qed.
Lemma all_refs_ok l : ok_all l -> Forall ok_ref (all_refs l).
Proof. induction l as [|p l IH]; [constructor|]. intros [[_ Ho] Hl]. cbn [all_refs flat_map]. apply Forall_app. split; [apply refs_ok, Ho|apply IH, Hl]. Qed.
Lemma depth_all_len l : ok_all l -> (depth_all l <= length (print_all l))%nat.
Proof.
  induction l as [|[v i] l IH]; [cbn; lia|]. cbn [depth_all fold_right print_all flat_map fst snd]. intros [[_ Ho] H]. specialize (IH H). pose proof (depth_len i Ho).
  rewrite !app_length. unfold depth_all, print_all in IH. cbn [snd] in *. lia.
Qed.

Definition some {A} (l : list A) : bool := match l with [] => false | _ => true end.

(** *** C90 *)

(** The text of a block is what is written: the declarations and the nested rules in order, without comments, each expression
    replaced by its value and each reference by the class; and it is dynamic if there are any of these.
    What is missing are the blocks outside [ok_all]: those that are refused or changed are below. *)
Theorem C90_text_partial : forall value_of class_of val l w,
  ok_all l -> space w ->
  (length (nodup (list_eq_dec N.eq_dec) (all_exprs l)) <= 676)%nat ->
  (forall e, In e (all_exprs l) -> value_of e = Some (val e)) ->
  all_refs l = [] \/ plain_all val class_of l ->
  css_macro value_of class_of (print_all l ++ w) =
  Some (out_all val (fun r => str "." ++ class_of r) l, some (all_exprs l) || some (all_refs l)).
Proof.
  intros value_of class_of val l w Hok Hw Hf Hv Hr. unfold css_macro, parse_stream. rewrite (block_ok l w Hok Hw).
  set (E0 := nodup (list_eq_dec N.eq_dec) (all_exprs l)) in *.
  assert (D : (depth_all l <= S (length (print_all l ++ w)))%nat) by (pose proof (depth_all_len l Hok); rewrite app_length; lia).
  assert (I0 : incl (all_exprs l) E0) by (intros e He; apply nodup_In, He).
  destruct (yields_items E0 Hf l _ Hok I0 D [] [] num_nil (incl_nil_l _)) as (ps & x & Q & X & Hn & Hi & _ & He).
  rewrite Q. cbn [g_params g_refs app]. rewrite (X ps (ext_refl ps Hn)). clear Q X x. fold (all_refs l). fold (all_exprs l) in He.
  change [10] with (flat_map (render ps) [T [10]]) at 1 2. rewrite <- !pbetween_flat.
  set (pcs := pbetween [T [10]] (lines_all l)).
  assert (Hc : Forall closed pcs) by (apply pbetween_all; [constructor; [apply closed_lit; reflexivity|constructor]|apply lines_all_closed, Hok]).
  assert (Ep : flat_map piece_exprs pcs = all_exprs l).
  { unfold pcs. rewrite pbetween_none by reflexivity. apply lines_all_collect, lines_exprs. }
  assert (Vp : forall e, In e (map fst ps) -> value_of e = Some (val e)) by (intros e H; apply Hv; apply Hi in H; apply nodup_In in H; exact H).
  assert (F : fold_left (fun o r => replace (str "[" ++ r ++ str "]") (str "." ++ class_of r) o) (all_refs l) (flat_map (eval class_of val []) pcs) =
    out_all val (fun r => str "." ++ class_of r) l).
  { assert (G : flat_map (eval class_of val (rev (all_refs l) ++ [])) pcs = out_all val (fun r => str "." ++ class_of r) l).
    { unfold out_all. change between with join. rewrite <- (lines_all_eval class_of val (rev (all_refs l) ++ [])).
      - unfold pcs. rewrite pbetween_flat. reflexivity.
      - rewrite app_nil_r. intros r Hin. apply in_rev. rewrite rev_involutive. exact Hin. }
    destruct Hr as [Hr|Hr].
    - rewrite Hr in *. exact G.
    - rewrite (refs_all value_of); [exact G|exact (all_refs_ok l Hok)|]. apply pbetween_all; [constructor; [cbn; notin|constructor]|]. apply plain_lines_all; assumption. }
  destruct ps as [|p ps].
  - assert (Ne : all_exprs l = []) by (destruct (all_exprs l) as [|e es]; [reflexivity|destruct (He e (or_introl eq_refl))]).
    rewrite (static_ok value_of class_of val) by (assumption || congruence). rewrite F, Ne. cbn [some orb]. destruct (all_refs l); reflexivity.
  - assert (Ne : some (all_exprs l) = true).
    { destruct (all_exprs l) eqn:N; [|reflexivity]. exfalso. specialize (Hi (fst p) (or_introl eq_refl)). exact Hi. }
    assert (B : forallb (fun p => match value_of (fst p) with Some _ => true | None => false end) (p :: ps) = true).
    { apply forallb_forall. intros q Hq. rewrite (Vp (fst q)) by apply in_map, Hq. reflexivity. }
    rewrite B, (format_ok value_of class_of val (p :: ps) pcs Hn Hc); [|rewrite Ep; exact He|exact Vp]. rewrite F, Ne. reflexivity.
Qed.

(** The values of the examples. *)
Definition demo_value (e : bytes) : option bytes := if list_eq_dec N.eq_dec e (str "w") then Some (str "7") else if list_eq_dec N.eq_dec e (str "self.c") then Some (str "red") else None.
Definition demo_val (e : bytes) : bytes := match demo_value e with Some v => v | None => [] end.
Definition demo_class (r : bytes) : bytes := str "c-" ++ r.
(** [width: {w}px; /* all */ :hover [other] { border: 1px solid; color: { self.c }; }; @media screen { margin: {w} {self.c} auto; };
    animation: 2s linear { 0% { width:{w}; } 100%{ width: 9px; color: blue;} };] *)
Definition demo_block : list (bytes * item) :=
  [([32], Decl (str "width") [32] (VThen [] (str "w") [] [] (VText (str "px"))));
   ([10], Comment [32] (str "all") [32]);
   ([10], Sub (Some (str "hover", None)) [([32], str "other")] [32]
            [([32], Decl (str "border") [32] (VText (str "1px solid"))); ([32], Decl (str "color") [] (VEnd [32] (str "self.c") [32]))] [32] []);
   ([10], Media [32] (str "screen") [32] [([32], Decl (str "margin") [32] (VThen [] (str "w") [] [32] (VThen [] (str "self.c") [] [32; 32] (VText (str "auto")))))] [32] []);
   ([10], Anim [32] (str "2s linear") [32] (Some ([Step [32] (str "0") [32] [([32], (str "width", [], VEnd [] (str "w") []))] [32];
                                                    Step [32] (str "100") [] [([32], (str "width", [32], VText (str "9px"))); ([32], (str "color", [32], VText (str "blue")))] []], [32])) [])].
Ltac okay := repeat (match goal with
  | |- _ /\ _ => split
  | |- True => exact I
  | |- space _ => repeat constructor; unfold white; lia
  | |- Forall _ _ => constructor
  | |- solid _ => split; [discriminate|split; unfold white; cbn; lia]
  | |- simple _ => split
  | |- ok_text _ => split
  | |- ok_whole _ => split
  | |- ok_name _ => split
  | |- ok_step _ => unfold ok_step; cbn [s_lead s_num s_w1 s_rules s_w2]
  | |- ok_decls _ => split
  | |- ok_decl _ => unfold ok_decl; cbn [fst snd]
  | |- digit_char _ => unfold digit_char; cbn; lia
  | |- ok_val _ => cbn [ok_val]
  | |- ok_expr _ _ _ => split
  | |- without _ _ => let c := fresh in let H := fresh in let Q := fresh in
      intros c H Q; cbn in H, Q; repeat destruct H as [H|H]; try exact H; subst c; repeat destruct Q as [Q|Q]; discriminate Q || exact Q
  | |- ~ prefix _ _ => let u := fresh in intros [u ?]; discriminate
  | |- name_char _ => unfold name_char; lia
  | |- ident_char _ => unfold ident_char; lia
  | |- (_ <= _)%nat => cbn; lia
  | |- _ <> _ => discriminate
  | |- _ = _ => reflexivity
  end).
Example demo_ok : ok_all demo_block.
Proof.
  cbn [ok_all demo_block fold_right fst snd ok px]. okay; cbn [ok_sel ok_ref fst snd]; okay;
    try (unfold name_char, ident_char; cbn; lia); try (cbn; okay; fail).
  - right. okay.
  - intros u v E. assert (Q : In 42 (str "all")) by (rewrite E; apply in_or_app; right; left; reflexivity). revert Q. notin.
  - cbn. split; [unfold ident_char; lia|]. repeat (apply Forall_cons; [left; unfold ident_char; lia|]). constructor.
Qed.

Example C90_text_ok :
  ok_all demo_block /\ space [10] /\ (length (nodup (list_eq_dec N.eq_dec) (all_exprs demo_block)) <= 676)%nat /\
  (forall e, In e (all_exprs demo_block) -> demo_value e = Some (demo_val e)) /\ plain_all demo_val demo_class demo_block /\
  css_macro demo_value demo_class (str " width: {w}px;
/* all */
:hover [other] { border: 1px solid; color:{ self.c }; };
@media screen { margin: {w} {self.c}  auto; };
animation: 2s linear { 0% { width:{w}; } 100%{ width: 9px; color: blue;} };
") = Some (str "width: 7px;
:hover .c-other { border: 1px solid;
color: red; };
@media screen { margin: 7 red auto; };
animation: 2s linear { 0% { width: 7; }
100% { width: 9px;
color: blue; } };", true).
Proof.
  split; [exact demo_ok|]. split; [repeat constructor; unfold white; lia|]. split; [cbn; lia|]. split.
  - intros e He. cbn in He. repeat destruct He as [<-|He]; try reflexivity. contradiction.
  - split; [|vm_compute; reflexivity]. cbn [plain_all demo_block fold_right snd plain plain_val].
    repeat (cbn [s_rules plain_val]; match goal with |- _ /\ _ => split | |- True => exact I | |- Forall _ _ => constructor | |- ~ In _ _ => vm_compute; tauto || (intros Q; repeat destruct Q as [Q|Q]; discriminate Q || exact Q) end).
Qed.

(** *** What is changed *)

(** An expression and its unit come apart, for any unit but px: [width: {w}em;] is not a length any more. *)
Theorem C90_unit_refuted : exists value_of, css_macro value_of demo_class (str "width: {w}em;") = Some (str "width: 7 em;", true) /\ value_of (str "w") = Some (str "7").
Proof. exists demo_value. split; vm_compute; reflexivity. Qed.
(** And an expression in parentheses, or after a text, is not an expression: it is left as it is, whatever its value. *)
Theorem C90_late_refuted : forall value_of, css_macro value_of demo_class (str "border: 1px solid {c};") = Some (str "border: 1px solid {c};", false).
Proof. intros. vm_compute. reflexivity. Qed.
(** If there is another expression in the block, it is the variable of the name, ... *)
Theorem C90_late_variable : css_macro demo_value demo_class (str "width: {w}px; border: 1px solid {w};") = Some (str "width: 7px;
border: 1px solid 7;", true).
Proof. vm_compute. reflexivity. Qed.
(** ... unless the variable's name is one of the keys: then it is another expression's value. *)
Theorem C90_key_refuted : exists value_of,
  css_macro value_of demo_class (str "width: {w}px; border: 1px solid {aa};") = Some (str "width: 7px;
border: 1px solid 7;", true) /\ value_of (str "aa") = Some (str "green").
Proof.
  exists (fun e => if list_eq_dec N.eq_dec e (str "aa") then Some (str "green") else demo_value e). split; vm_compute; reflexivity.
Qed.
(** A reference in the value of an expression is replaced too. *)
Theorem C90_bracket_refuted : exists value_of,
  value_of (str "w") = Some (str "'[other]'") /\
  css_macro value_of demo_class (str "content: {w}; [other] { color: red; };") = Some (str "content: '.c-other';
.c-other { color: red; };", true).
Proof. exists (fun _ => Some (str "'[other]'")). split; vm_compute; reflexivity. Qed.
(** Rules in braces without a selector are lost. *)
Theorem C90_lost_refuted : exists value_of, css_macro value_of demo_class (str "width: 1px; { color: red; };") = Some (str "width: 1px;
", false).
Proof. exists demo_value. vm_compute. reflexivity. Qed.

(** *** What is refused *)

(** Declarations and rules of CSS that do not compile, whatever is around. *)
Theorem C90_refused : forall value_of class_of s, In s
  [str "animation-delay: 1s;"; str "::before { color: red; };"; str ":hover:focus { color: red; };"; str "content: ';';";
   str "background: url('a') no-repeat;"; str "--x1: red;"; str "color: red"; str "> div { color: red; };"] ->
  css_macro value_of class_of s = None.
Proof. intros value_of class_of s H. repeat (destruct H as [<-|H]; [vm_compute; reflexivity|]). destruct H. Qed.
(** The 677th expression of a block. *)
Definition many (n : nat) : bytes := flat_map (fun i : nat => str "aa:{" ++ [97 + N.of_nat i / 26; 97 + N.of_nat i mod 26] ++ str "};") (List.seq 0 n) ++ str "aa:{x};".
Theorem C90_many_refused : css_macro Some demo_class (many 676) = None /\ css_macro Some demo_class (many 675) <> None.
Proof. split; [vm_compute; reflexivity|]. vm_compute. discriminate. Qed.
