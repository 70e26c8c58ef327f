(** C29, C30: what a browser reads in the text the server sends. *)

From Coq Require Import String List NArith Bool Arith Lia.
From Verif Require Import CodecModel DomWire SmallModel SmallProps SsrModel HtmlModel.
Import ListNotations.
Local Open Scope string_scope.
Local Open Scope list_scope.

(** ** Specification: reading HTML *)

(** After the tokenizer of the HTML standard.  Left out: unquoted and single quoted values are read until the
    next space or '>', comments are declarations, names are not brought to lower case, the escaped states of
    scripts ("<!--" inside of a script), character references without semicolon. *)

(** Tokens: declarations, tags (with the self closing flag), characters. *)
Inductive tok :=
| TDecl (s : bytes)
| TOpen (name : bytes) (attr : list (bytes * bytes)) (self : bool)
| TClose (name : bytes)
| TChar (c : N).

(** Named and numeric references (those the renderer uses). *)
Definition entity (s : bytes) : option N :=
  if beqb s (str "amp") then Some 38%N else if beqb s (str "lt") then Some 60%N else if beqb s (str "gt") then Some 62%N
  else if beqb s (str "quot") then Some 34%N else if beqb s (str "#x27") then Some 39%N else if beqb s (str "#x2F") then Some 47%N
  else None.

Definition letter (c : N) : bool := ((65 <=? c) && (c <=? 90) || (97 <=? c) && (c <=? 122))%N.
Definition digit (c : N) : bool := ((48 <=? c) && (c <=? 57))%N.
Definition space (c : N) : bool := existsb (N.eqb c) [9; 10; 12; 13; 32]%N.

(** Replacing references; [acc] is the reference being read. *)
Fixpoint decode (acc : option bytes) (s : bytes) : bytes :=
  match s with
  | [] => match acc with Some a => 38%N :: a | None => [] end
  | c :: t =>
      match acc with
      | None => if (c =? 38)%N then decode (Some []) t else c :: decode None t
      | Some a =>
          if (c =? 59)%N then
            match entity a with Some x => x :: decode None t | None => 38%N :: a ++ c :: decode None t end
          else if (c =? 38)%N then 38%N :: a ++ decode (Some []) t
          else if letter c || digit c || (c =? 35)%N then decode (Some (a ++ [c])) t
          else 38%N :: a ++ c :: decode None t
      end
  end.

(** The content of an element: ordinary, text with references ("RCDATA") or raw text ("RAWTEXT"). *)
Inductive tmode := Data | Esc (name : bytes) | Raw (name : bytes).
Definition mode_of (name : bytes) : tmode :=
  if among (lower name) (map str ["script"; "style"; "xmp"; "iframe"; "noembed"; "noframes"; "noscript"]) then Raw name
  else if among (lower name) (map str ["title"; "textarea"]) then Esc name
  else Data.

Fixpoint prefix_ci (p s : bytes) : option bytes :=
  match p, s with
  | [], _ => Some s
  | a :: p', b :: s' => if (lowerc a =? lowerc b)%N then prefix_ci p' s' else None
  | _, [] => None
  end.
(** After a '<' in the content of [name]: its end tag follows. *)
Definition closes (name s : bytes) : bool :=
  match prefix_ci (47%N :: name) s with
  | Some (c :: _) => space c || (c =? 47)%N || (c =? 62)%N
  | _ => false
  end.
(** After a '<' in ordinary content: a tag follows. *)
Definition starts (s : bytes) : bool :=
  match s with c :: _ => letter c || existsb (N.eqb c) [33; 47; 63]%N | [] => false end.

Inductive state :=
| SText (m : tmode) (acc : bytes)
| SLt
| SOpen (name : bytes)
| SClose (name : bytes)
| SDecl (s : bytes)
| SAttrs (name : bytes) (l : list (bytes * bytes))
| SName (name : bytes) (l : list (bytes * bytes)) (a : bytes)
| SEq (name : bytes) (l : list (bytes * bytes)) (a : bytes)
| SVal (name : bytes) (l : list (bytes * bytes)) (a v : bytes)
| SBare (name : bytes) (l : list (bytes * bytes)) (a v : bytes)
| SSlash (name : bytes) (l : list (bytes * bytes)).

Definition flush (m : tmode) (acc : bytes) : list tok :=
  map TChar (match m with Raw _ => acc | _ => decode None acc end).

Fixpoint lex (st : state) (s : bytes) {struct s} : list tok :=
  match s with
  | [] => match st with SText m acc => flush m acc | _ => [] end
  | c :: t =>
      let opened name l self := TOpen name l self :: lex (SText (mode_of name) []) t in
      match st with
      | SText m acc =>
          if (c =? 60)%N && match m with Data => starts t | Esc n | Raw n => closes n t end
          then flush m acc ++ lex SLt t
          else lex (SText m (acc ++ [c])) t
      | SLt => if (c =? 47)%N then lex (SClose []) t else if (c =? 33)%N then lex (SDecl []) t else lex (SOpen [c]) t
      | SOpen n =>
          if space c then lex (SAttrs n []) t else if (c =? 62)%N then opened n [] false
          else if (c =? 47)%N then lex (SSlash n []) t else lex (SOpen (n ++ [c])) t
      | SClose n => if (c =? 62)%N then TClose n :: lex (SText Data []) t else lex (SClose (n ++ [c])) t
      | SDecl d => if (c =? 62)%N then TDecl d :: lex (SText Data []) t else lex (SDecl (d ++ [c])) t
      | SAttrs n l =>
          if space c then lex (SAttrs n l) t else if (c =? 62)%N then opened n l false
          else if (c =? 47)%N then lex (SSlash n l) t else lex (SName n l [c]) t
      | SName n l a =>
          if space c then lex (SAttrs n (l ++ [(a, [])])) t else if (c =? 62)%N then opened n (l ++ [(a, [])]) false
          else if (c =? 47)%N then lex (SSlash n (l ++ [(a, [])])) t
          else if (c =? 61)%N then lex (SEq n l a) t else lex (SName n l (a ++ [c])) t
      | SEq n l a => if (c =? 34)%N then lex (SVal n l a []) t else lex (SBare n l a [c]) t
      | SVal n l a v => if (c =? 34)%N then lex (SAttrs n (l ++ [(a, decode None v)])) t else lex (SVal n l a (v ++ [c])) t
      | SBare n l a v =>
          if space c then lex (SAttrs n (l ++ [(a, decode None v)])) t
          else if (c =? 62)%N then opened n (l ++ [(a, decode None v)]) false else lex (SBare n l a (v ++ [c])) t
      | SSlash n l => if (c =? 62)%N then opened n l true else lex (SName n l [c]) t
      end
  end.

(** What a browser reads in a document. *)
Definition read (s : bytes) : list tok := lex (SText Data []) s.

Definition is_tag (t : tok) : bool := match t with TOpen _ _ _ | TClose _ => true | _ => false end.
Definition chars (l : list tok) : bytes := flat_map (fun t => match t with TChar c => [c] | _ => [] end) l.
Definition solid (c : N) : bool := negb (space c).

(** ** Specification: trees *)

(** HTML standard, 13.1.2 "Void elements" and the obsolete param: they have no end tag (names are case-insensitive). *)
Definition void (n : bytes) : bool :=
  existsb (beqb (lower n)) (map str ["area"; "base"; "br"; "col"; "embed"; "hr"; "img"; "input"; "link"; "meta"; "source";
                             "track"; "wbr"; "param"]).
(** Scripts and styles, whose text a browser takes as it is. *)
Definition code (n : bytes) : bool := beqb (lower n) (str "script") || beqb (lower n) (str "style").

(** The tags of a tree. *)
Fixpoint tags (h : hnode) : list tok :=
  match h with
  | HElement n a kids =>
      if void n then [TOpen n a true] else TOpen n a false :: flat_map tags kids ++ [TClose n]
  | _ => []
  end.

(** [Node.textContent]. *)
Fixpoint text_content (h : hnode) : bytes :=
  match h with
  | HElement _ _ kids => flat_map text_content kids
  | HText t => t
  | HComment _ => []
  end.

(** Tags and characters of a tree, in document order. *)
Fixpoint toks (h : hnode) : list tok :=
  match h with
  | HElement n a kids =>
      if void n then [TOpen n a true] else TOpen n a false :: flat_map toks kids ++ [TClose n]
  | HText t => map TChar t
  | HComment _ => []
  end.

(** Names of elements and attributes: letters, digits, '-', '_', ':', '.'; elements start with a letter, and those of void
    elements are in lower case. *)
Definition name_char (c : N) : bool := letter c || digit c || existsb (N.eqb c) [45; 46; 58; 95]%N.
Definition attr_name (s : bytes) : Prop := s <> [] /\ forallb name_char s = true.
Definition elem_name (s : bytes) : Prop := attr_name s /\ match s with c :: _ => letter c = true | [] => False end /\
  (void s = true -> lower s = s).

Definition is_elem (h : hnode) : bool := match h with HElement _ _ _ => true | _ => false end.

(** Trees whose names are names and whose raw texts end where their element ends: elements with raw content
    have no child elements, and scripts and styles do not contain their own end tag. *)
Fixpoint renderable (h : hnode) : Prop :=
  match h with
  | HElement n a kids =>
      elem_name n /\ Forall (fun e => attr_name (fst e)) a /\
      (mode_of n = Data \/ existsb is_elem kids = false) /\
      (code n = true -> contains (60%N :: 47%N :: lower n) (lower (flat_map text_content kids)) = false) /\
      fold_right (fun k P => renderable k /\ P) True kids
  | _ => True
  end.

(** Moreover: the elements that cannot have content have no children, and the other elements with raw content
    contain no character that the renderer escapes. *)
Fixpoint plain (h : hnode) : Prop :=
  match h with
  | HElement n a kids =>
      (void n = true -> kids = []) /\
      (mode_of n = Raw n -> code n = false -> encode_safe (flat_map text_content kids) = flat_map text_content kids) /\
      fold_right (fun k P => plain k /\ P) True kids
  | _ => True
  end.

(** ** Reading back what is escaped *)

Lemma beqb_spec a b : reflect (a = b) (beqb a b).
Proof.
  revert b. induction a as [|x a IH]; intros [|y b]; simpl; try (constructor; congruence).
  destruct (N.eqb_spec x y); simpl; [|constructor; congruence]. destruct (IH b); constructor; congruence.
Qed.

Lemma letter_range c : letter c = true <-> (65 <= c <= 90 \/ 97 <= c <= 122)%N.
Proof. unfold letter. rewrite orb_true_iff, !andb_true_iff, !N.leb_le. tauto. Qed.
Lemma digit_range c : digit c = true <-> (48 <= c <= 57)%N.
Proof. unfold digit. rewrite andb_true_iff, !N.leb_le. tauto. Qed.
Lemma space_in c : space c = true <-> In c [9; 10; 12; 13; 32]%N.
Proof. unfold space. rewrite existsb_exists. split; [intros (x & I & E); apply N.eqb_eq in E; subst; auto|intros I; exists c; rewrite N.eqb_refl; auto]. Qed.

Lemma name_range c : name_char c = true -> (45 <= c <= 46 \/ 48 <= c <= 58 \/ 65 <= c <= 90 \/ c = 95 \/ 97 <= c <= 122)%N.
Proof.
  unfold name_char. rewrite !orb_true_iff, letter_range, digit_range, existsb_exists. simpl.
  intros [[H|H]|(x & H & E)]; [lia|lia|]. apply N.eqb_eq in E. subst. intuition lia.
Qed.

Lemma decode_esc c t : decode None (esc c ++ t) = c :: decode None t.
Proof.
  unfold esc. destruct (N.eqb_spec c 38); [subst; reflexivity|]. destruct (N.eqb_spec c 60); [subst; reflexivity|].
  destruct (N.eqb_spec c 62); [subst; reflexivity|]. destruct (N.eqb_spec c 34); [subst; reflexivity|].
  destruct (N.eqb_spec c 39); [subst; reflexivity|]. simpl. destruct (N.eqb_spec c 38); [contradiction|auto].
Qed.
Lemma decode_safe1 c t : decode None (esc_safe c ++ t) = c :: decode None t.
Proof. unfold esc_safe. destruct (N.eqb_spec c 47); [subst; reflexivity|apply decode_esc]. Qed.

Lemma decode_safe s t : decode None (encode_safe s ++ t) = s ++ decode None t.
Proof. induction s as [|c s IH]; simpl; auto. rewrite <- app_assoc, decode_safe1, IH. auto. Qed.
Lemma decode_attr s : decode None (encode_quoted_attribute s) = s.
Proof. induction s as [|c s IH]; simpl; auto. rewrite decode_esc, IH. auto. Qed.

Lemma esc_chars c x : In x (esc c) -> x <> 60%N /\ x <> 62%N /\ x <> 34%N /\ x <> 39%N.
Proof.
  unfold esc. destruct (N.eqb_spec c 38); [subst|destruct (N.eqb_spec c 60); [subst|destruct (N.eqb_spec c 62); [subst|
    destruct (N.eqb_spec c 34); [subst|destruct (N.eqb_spec c 39); [subst|]]]]]; simpl;
    intros I; repeat (destruct I as [<-|I]; [repeat split; auto; discriminate|]); destruct I.
Qed.
Lemma safe_chars s x : In x (encode_safe s) -> x <> 60%N /\ x <> 62%N.
Proof.
  unfold encode_safe. rewrite in_flat_map. intros (c & _ & I). unfold esc_safe in I. destruct (c =? 47)%N.
  - simpl in I. repeat (destruct I as [<-|I]; [split; discriminate|]). destruct I.
  - apply esc_chars in I. tauto.
Qed.
Lemma attr_chars s x : In x (encode_quoted_attribute s) -> x <> 34%N.
Proof. unfold encode_quoted_attribute. rewrite in_flat_map. intros (c & _ & I). apply esc_chars in I. tauto. Qed.

Lemma safe_name s : forallb name_char s = true -> encode_safe s = s.
Proof.
  induction s as [|c s IH]; simpl; auto. rewrite andb_true_iff. intros [A B]. rewrite IH by auto. apply name_range in A.
  unfold esc_safe, esc.
  destruct (N.eqb_spec c 47); [lia|]. destruct (N.eqb_spec c 38); [lia|]. destruct (N.eqb_spec c 60); [lia|].
  destruct (N.eqb_spec c 62); [lia|]. destruct (N.eqb_spec c 34); [lia|]. destruct (N.eqb_spec c 39); [lia|]. auto.
Qed.

(** ** Reading pieces of a document *)

Lemma lex_cons st c t : lex st (c :: t) =
  let opened name l self := TOpen name l self :: lex (SText (mode_of name) []) t in
  match st with
  | SText m acc =>
      if (c =? 60)%N && match m with Data => starts t | Esc n | Raw n => closes n t end
      then flush m acc ++ lex SLt t
      else lex (SText m (acc ++ [c])) t
  | SLt => if (c =? 47)%N then lex (SClose []) t else if (c =? 33)%N then lex (SDecl []) t else lex (SOpen [c]) t
  | SOpen n =>
      if space c then lex (SAttrs n []) t else if (c =? 62)%N then opened n [] false
      else if (c =? 47)%N then lex (SSlash n []) t else lex (SOpen (n ++ [c])) t
  | SClose n => if (c =? 62)%N then TClose n :: lex (SText Data []) t else lex (SClose (n ++ [c])) t
  | SDecl d => if (c =? 62)%N then TDecl d :: lex (SText Data []) t else lex (SDecl (d ++ [c])) t
  | SAttrs n l =>
      if space c then lex (SAttrs n l) t else if (c =? 62)%N then opened n l false
      else if (c =? 47)%N then lex (SSlash n l) t else lex (SName n l [c]) t
  | SName n l a =>
      if space c then lex (SAttrs n (l ++ [(a, [])])) t else if (c =? 62)%N then opened n (l ++ [(a, [])]) false
      else if (c =? 47)%N then lex (SSlash n (l ++ [(a, [])])) t
      else if (c =? 61)%N then lex (SEq n l a) t else lex (SName n l (a ++ [c])) t
  | SEq n l a => if (c =? 34)%N then lex (SVal n l a []) t else lex (SBare n l a [c]) t
  | SVal n l a v => if (c =? 34)%N then lex (SAttrs n (l ++ [(a, decode None v)])) t else lex (SVal n l a (v ++ [c])) t
  | SBare n l a v =>
      if space c then lex (SAttrs n (l ++ [(a, decode None v)])) t
      else if (c =? 62)%N then opened n (l ++ [(a, decode None v)]) false else lex (SBare n l a (v ++ [c])) t
  | SSlash n l => if (c =? 62)%N then opened n l true else lex (SName n l [c]) t
  end.
Proof. reflexivity. Qed.

Definition closed (a : bytes) : Prop := forall b, decode None (a ++ b) = decode None a ++ decode None b.

Lemma lex_split a : closed a -> forall s b, lex (SText Data (a ++ b)) s = map TChar (decode None a) ++ lex (SText Data b) s.
Proof.
  intros C. induction s as [|c s IH]; intros b.
  - simpl. unfold flush. rewrite C, map_app. auto.
  - rewrite !lex_cons. cbv zeta. destruct ((c =? 60)%N && starts s).
    + unfold flush. rewrite C, map_app, app_assoc. auto.
    + rewrite <- app_assoc. apply IH.
Qed.

Lemma lex_acc m s acc r : (forall x, In x s -> x <> 60%N) -> lex (SText m acc) (s ++ r) = lex (SText m (acc ++ s)) r.
Proof.
  revert acc. induction s as [|c s IH]; intros acc H; [rewrite app_nil_r; auto|]. cbn [app]. rewrite lex_cons. cbv zeta.
  destruct (N.eqb_spec c 60) as [E|_]; [destruct (H c); simpl; auto|]. cbn [andb].
  rewrite IH by (intros; apply H; simpl; auto). rewrite <- app_assoc. auto.
Qed.

Lemma lex_split0 a s : closed a -> lex (SText Data a) s = map TChar (decode None a) ++ read s.
Proof. intros C. pose proof (lex_split a C s []) as H. rewrite app_nil_r in H. exact H. Qed.
Lemma decode_safe0 s : decode None (encode_safe s) = s.
Proof. pose proof (decode_safe s []) as H. simpl in H. rewrite !app_nil_r in H. exact H. Qed.

Lemma read_text s r : read (encode_safe s ++ r) = map TChar s ++ read r.
Proof.
  unfold read at 1. rewrite lex_acc by (intros x I; apply safe_chars in I; tauto). cbn [app].
  rewrite lex_split0; [rewrite decode_safe0; auto|]. intros b. rewrite decode_safe, decode_safe0. auto.
Qed.

Lemma decode_spaces s t : forallb space s = true -> decode None (s ++ t) = s ++ decode None t.
Proof.
  induction s as [|c s IH]; simpl; auto. rewrite andb_true_iff. intros [A B]. rewrite IH by auto.
  destruct (N.eqb_spec c 38); [subst; discriminate|auto].
Qed.

Lemma space_not c x : space c = true -> space x = false -> c <> x.
Proof. intros A B ->. congruence. Qed.

Lemma decode_spaces0 s : forallb space s = true -> decode None s = s.
Proof. intros H. pose proof (decode_spaces s [] H) as E. simpl in E. rewrite !app_nil_r in E. exact E. Qed.

Lemma read_spaces s r : forallb space s = true -> read (s ++ r) = map TChar s ++ read r.
Proof.
  intros H. unfold read at 1. rewrite lex_acc.
  - cbn [app]. rewrite lex_split0; [rewrite decode_spaces0; auto|]. intros b. rewrite decode_spaces, (decode_spaces0 s); auto.
  - intros x I. rewrite forallb_forall in H. apply (space_not x 60%N); auto.
Qed.

Lemma name_not c : name_char c = true -> space c = false /\ (c =? 62)%N = false /\ (c =? 47)%N = false /\ (c =? 61)%N = false /\ (c =? 60)%N = false /\ (c =? 33)%N = false.
Proof.
  intros H. apply name_range in H. repeat split; try (apply N.eqb_neq; lia).
  destruct (space c) eqn:E; auto. apply space_in in E. simpl in E. lia.
Qed.

Lemma lex_open n : forall s r, forallb name_char s = true -> lex (SOpen n) (s ++ r) = lex (SOpen (n ++ s)) r.
Proof.
  intros s. revert n. induction s as [|c s IH]; intros n r H; [rewrite app_nil_r; auto|]. simpl in H. apply andb_true_iff in H as [A B].
  cbn [app]. rewrite lex_cons. cbv zeta. destruct (name_not c A) as (E1 & E2 & E3 & _). rewrite E1, E2, E3, IH by auto. rewrite <- app_assoc. auto.
Qed.
Lemma lex_close n : forall s r, forallb name_char s = true -> lex (SClose n) (s ++ r) = lex (SClose (n ++ s)) r.
Proof.
  intros s. revert n. induction s as [|c s IH]; intros n r H; [rewrite app_nil_r; auto|]. simpl in H. apply andb_true_iff in H as [A B].
  cbn [app]. rewrite lex_cons. cbv zeta. destruct (name_not c A) as (E1 & E2 & E3 & _). rewrite E2, IH by auto. rewrite <- app_assoc. auto.
Qed.
Lemma lex_name n l a : forall s r, forallb name_char s = true -> lex (SName n l a) (s ++ r) = lex (SName n l (a ++ s)) r.
Proof.
  intros s. revert a. induction s as [|c s IH]; intros a r H; [rewrite app_nil_r; auto|]. simpl in H. apply andb_true_iff in H as [A B].
  cbn [app]. rewrite lex_cons. cbv zeta. destruct (name_not c A) as (E1 & E2 & E3 & E4 & _). rewrite E1, E2, E3, E4, IH by auto. rewrite <- app_assoc. auto.
Qed.
Lemma lex_val n l a : forall s v r, (forall x, In x s -> x <> 34%N) -> lex (SVal n l a v) (s ++ r) = lex (SVal n l a (v ++ s)) r.
Proof.
  induction s as [|c s IH]; intros v r H; [rewrite app_nil_r; auto|].
  cbn [app]. rewrite lex_cons. cbv zeta. destruct (N.eqb_spec c 34) as [E|_]; [destruct (H c); simpl; auto|].
  rewrite IH by (intros; apply H; simpl; auto). rewrite <- app_assoc. auto.
Qed.

Definition one_attr (e : bytes * bytes) : bytes :=
  str " " ++ encode_safe (fst e) ++ str "=""" ++ encode_quoted_attribute (snd e) ++ str """".

(** The state before an attribute: right after the name, or after an attribute. *)
Definition before (n : bytes) (l : list (bytes * bytes)) : state := match l with [] => SOpen n | _ => SAttrs n l end.

Lemma lex_attr n l e r : attr_name (fst e) -> lex (before n l) (one_attr e ++ r) = lex (SAttrs n (l ++ [e])) r.
Proof.
  destruct e as [k v]. unfold one_attr. cbn [fst snd]. intros [NE H]. rewrite (safe_name k H).
  change (str " ") with [32%N]. rewrite <- !app_assoc. cbn [app].
  assert (E : lex (before n l) (32%N :: k ++ str "=""" ++ encode_quoted_attribute v ++ str """" ++ r) =
              lex (SAttrs n l) (k ++ str "=""" ++ encode_quoted_attribute v ++ str """" ++ r)) by (destruct l; reflexivity).
  rewrite E. clear E. destruct k as [|c k]; [congruence|]. cbn [app]. simpl in H. apply andb_true_iff in H as [A B].
  rewrite lex_cons. cbv zeta. destruct (name_not c A) as (E1 & E2 & E3 & E4 & _). rewrite E1, E2, E3.
  rewrite (lex_name n l [c] k) by auto. cbn [app]. change (str "=""") with [61%N; 34%N]. cbn [app].
  rewrite lex_cons. cbv zeta. change (space 61) with false. cbv iota. change (61 =? 62)%N with false. change (61 =? 47)%N with false. change (61 =? 61)%N with true. cbv iota.
  rewrite lex_cons. cbv zeta. change (34 =? 34)%N with true. cbv iota. rewrite lex_val by apply attr_chars. cbn [app].
  change (str """") with [34%N]. cbn [app]. rewrite lex_cons. cbv zeta. change (34 =? 34)%N with true. cbv iota. rewrite decode_attr. auto.
Qed.

Lemma before_snoc n l e : before n (l ++ [e]) = SAttrs n (l ++ [e]).
Proof. destruct l; auto. Qed.

Lemma lex_attrs n : forall a l r, Forall (fun e => attr_name (fst e)) a ->
  lex (before n l) (attributes_to_string a ++ r) = lex (before n (l ++ a)) r.
Proof.
  induction a as [|e a IH]; intros l r H; [rewrite app_nil_r; auto|]. inversion H; subst.
  change (attributes_to_string (e :: a)) with (one_attr e ++ attributes_to_string a). rewrite <- app_assoc, lex_attr, <- before_snoc, IH by auto.
  rewrite <- app_assoc. auto.
Qed.

Lemma lex_before_gt n l r : lex (before n l) (str ">" ++ r) = TOpen n l false :: lex (SText (mode_of n) []) r.
Proof. destruct l; reflexivity. Qed.
Lemma lex_before_slash n l r : lex (before n l) (str " />" ++ r) = TOpen n l true :: lex (SText (mode_of n) []) r.
Proof. destruct l; reflexivity. Qed.

Lemma letter_name c : letter c = true -> name_char c = true.
Proof. intros H. unfold name_char. rewrite H. auto. Qed.

Lemma read_tag n r : elem_name n -> read (str "<" ++ n ++ r) = lex (SOpen n) r.
Proof.
  intros [[NE H] [L _]]. destruct n as [|c n]; [contradiction|]. change (str "<") with [60%N]. cbn [app]. unfold read. rewrite lex_cons. cbv zeta.
  change (60 =? 60)%N with true. cbn [andb starts]. rewrite L. cbn [orb]. cbv iota. unfold flush. cbn [decode map app].
  rewrite lex_cons. cbv zeta. destruct (name_not c (letter_name c L)) as (_ & _ & E3 & _ & _ & E6). rewrite E3, E6.
  simpl in H. apply andb_true_iff in H as [_ B]. rewrite (lex_open [c]) by auto. auto.
Qed.

(** Tags. *)
Lemma read_open n a r : elem_name n -> Forall (fun e => attr_name (fst e)) a ->
  read (str "<" ++ n ++ attributes_to_string a ++ str ">" ++ r) = TOpen n a false :: lex (SText (mode_of n) []) r.
Proof.
  intros N A. rewrite read_tag by auto. change (SOpen n) with (before n []). rewrite lex_attrs by auto. cbn [app]. apply lex_before_gt.
Qed.
Lemma read_self n a r : elem_name n -> Forall (fun e => attr_name (fst e)) a ->
  read (str "<" ++ n ++ attributes_to_string a ++ str " />" ++ r) = TOpen n a true :: lex (SText (mode_of n) []) r.
Proof.
  intros N A. rewrite read_tag by auto. change (SOpen n) with (before n []). rewrite lex_attrs by auto. cbn [app]. apply lex_before_slash.
Qed.
Lemma lex_end n r : elem_name n -> lex SLt (47%N :: n ++ str ">" ++ r) = TClose n :: read r.
Proof.
  intros [[NE H] L]. rewrite lex_cons. cbv zeta. change (47 =? 47)%N with true. cbv iota. rewrite lex_close by auto. reflexivity.
Qed.
Lemma read_end n r : elem_name n -> read (str "</" ++ n ++ str ">" ++ r) = TClose n :: read r.
Proof.
  intros E. change (str "</") with [60%N; 47%N]. cbn [app]. unfold read at 1. rewrite lex_cons. cbv zeta.
  change (60 =? 60)%N with true. change (starts (47%N :: n ++ str ">" ++ r)) with true. cbn [andb]. cbv iota. rewrite lex_end by auto. auto.
Qed.

(** Raw content. *)
Lemma prefix_self p s : prefix_ci p (p ++ s) = Some s.
Proof. induction p as [|c p IH]; simpl; auto. rewrite N.eqb_refl. auto. Qed.

Lemma closes_end n r : closes n (47%N :: n ++ str ">" ++ r) = true.
Proof. unfold closes. change (47%N :: n ++ str ">" ++ r) with ((47%N :: n) ++ str ">" ++ r). rewrite prefix_self. reflexivity. Qed.

Lemma prefix_cut p : forall x r s, ~ In 60%N (lower p) -> prefix_ci p (x ++ 60%N :: r) = Some s -> exists y, lower x = lower p ++ y.
Proof.
  induction p as [|c p IH]; intros x r s NI H; [exists (lower x); auto|]. destruct x as [|d x].
  - cbn [app] in H. cbn [prefix_ci] in H. change (lowerc 60) with 60%N in H. destruct (N.eqb_spec (lowerc c) 60); [|discriminate].
    destruct NI. simpl. auto.
  - cbn [app prefix_ci] in H. destruct (N.eqb_spec (lowerc c) (lowerc d)); [|discriminate].
    apply IH in H as [y Y]; [|intros I; apply NI; simpl; auto]. exists y. simpl. rewrite Y. congruence.
Qed.

Lemma lower_name n : forallb name_char n = true -> ~ In 60%N (lower n).
Proof.
  intros H I. unfold lower in I. apply in_map_iff in I as (c & E & I). rewrite forallb_forall in H. apply H in I. apply name_range in I.
  unfold lowerc in E. destruct ((65 <=? c)%N && (c <=? 90)%N) eqn:Q; lia.
Qed.

Lemma lex_raw n x r : elem_name n -> contains (60%N :: 47%N :: lower n) (lower x) = false -> forall acc,
  lex (SText (Raw n) acc) (x ++ str "</" ++ n ++ str ">" ++ r) = map TChar (acc ++ x) ++ TClose n :: read r.
Proof.
  intros E. induction x as [|c x IH]; intros NC acc.
  - cbn [app]. change (str "</") with [60%N; 47%N]. cbn [app]. rewrite lex_cons. cbv zeta. rewrite closes_end. cbn [andb N.eqb]. change (60 =? 60)%N with true. cbv iota.
    rewrite lex_end by auto. unfold flush. rewrite app_nil_r. auto.
  - assert (NC' : contains (60%N :: 47%N :: lower n) (lower x) = false).
    { destruct (contains _ (lower x)) eqn:Q; auto. apply contains_iff in Q as (a & b & Q).
      rewrite (proj2 (contains_iff _ _)) in NC; [discriminate|]. exists (lowerc c :: a), b. simpl. rewrite Q. auto. }
    cbn [app]. rewrite lex_cons. cbv zeta.
    assert (Q : (c =? 60)%N && closes n (x ++ str "</" ++ n ++ str ">" ++ r) = false).
    { destruct (N.eqb_spec c 60); auto. subst c. cbn [andb]. unfold closes. change (str "</") with [60%N; 47%N]. cbn [app].
      destruct (prefix_ci (47%N :: n) (x ++ 60%N :: 47%N :: n ++ str ">" ++ r)) as [s|] eqn:P; auto. exfalso.
      apply prefix_cut in P as [y Y].
      - rewrite (proj2 (contains_iff _ _)) in NC; [discriminate|]. exists [], y. simpl in *. rewrite Y. reflexivity.
      - destruct E as [[_ E] _]. simpl. intros [Z|Z]; [discriminate|]. apply (lower_name n E Z). }
    rewrite Q. rewrite IH by auto. rewrite <- app_assoc. auto.
Qed.

Lemma lex_esc n x r : elem_name n -> lex (SText (Esc n) []) (encode_safe x ++ str "</" ++ n ++ str ">" ++ r) = map TChar x ++ TClose n :: read r.
Proof.
  intros E. rewrite lex_acc by (intros y I; apply safe_chars in I; tauto). cbn [app]. change (str "</") with [60%N; 47%N]. cbn [app].
  rewrite lex_cons. cbv zeta. rewrite closes_end. cbn [andb]. change (60 =? 60)%N with true. cbv iota. rewrite lex_end by auto.
  unfold flush. rewrite decode_safe0. auto.
Qed.

(** ** Reading trees *)

(** What is read back from a tree, without formatting. *)
Definition content (n : bytes) (t : bytes) : bytes := if unescaped n then t else encode_safe t.
Fixpoint gtoks (h : hnode) : list tok :=
  match h with
  | HElement n a kids =>
      if void n then [TOpen n a true]
      else TOpen n a false ::
        match mode_of n with
        | Data => flat_map gtoks kids
        | Esc _ => map TChar (flat_map text_content kids)
        | Raw _ => map TChar (content n (flat_map text_content kids))
        end ++ [TClose n]
  | HText t => map TChar t
  | HComment _ => []
  end.

Definition keep (t : tok) : bool := match t with TChar c => solid c | _ => true end.
Definition view (fmt : bool) (l : list tok) : list tok := if fmt then filter keep l else l.

Lemma view_app fmt a b : view fmt (a ++ b) = view fmt a ++ view fmt b.
Proof. destruct fmt; simpl; auto. apply filter_app. Qed.
Lemma view_cons fmt t b : keep t = true -> view fmt (t :: b) = t :: view fmt b.
Proof. intros H. destruct fmt; simpl; auto. rewrite H. auto. Qed.
Lemma view_spaces s : forallb space s = true -> view true (map TChar s) = [].
Proof. induction s as [|c s IH]; simpl; auto. rewrite andb_true_iff. intros [A B]. unfold solid. rewrite A. simpl. apply IH. auto. Qed.

Definition sep (fmt : bool) : bytes := if fmt then [newline] else [].
Definition ident_ok (fmt : bool) (i : ident) : Prop := fmt = false -> i = None.

Lemma sep_space fmt : forallb space (sep fmt) = true.
Proof. destruct fmt; reflexivity. Qed.
Lemma repeat_space n : forallb space (repeat 32%N n) = true.
Proof. induction n; simpl; auto. Qed.
Lemma ident_space i : forallb space (ident_get i) = true.
Proof. destruct i; [apply repeat_space|reflexivity]. Qed.
Lemma view_sep fmt : view fmt (map TChar (sep fmt)) = [].
Proof. destruct fmt; reflexivity. Qed.
Lemma view_ident fmt i : ident_ok fmt i -> view fmt (map TChar (ident_get i)) = [].
Proof. intros H. destruct fmt; [apply view_spaces, ident_space|]. rewrite H by auto. reflexivity. Qed.
Lemma ident_up fmt i n : ident_ok fmt i -> ident_ok fmt (ident_add i n).
Proof. intros H E. rewrite H by auto. reflexivity. Qed.

Lemma join_app sp : forall a b, a <> [] -> b <> [] -> join sp (a ++ b) = join sp a ++ sp ++ join sp b.
Proof.
  induction a as [|x a IH]; intros b A B; [congruence|]. destruct a as [|y a].
  - destruct b; [congruence|]. reflexivity.
  - change (join sp ((x :: y :: a) ++ b)) with (x ++ sp ++ join sp ((y :: a) ++ b)). rewrite IH by congruence.
    change (join sp (x :: y :: a)) with (x ++ sp ++ join sp (y :: a)). rewrite !app_assoc. auto.
Qed.

Lemma among_in n l : among n l = true <-> In n l.
Proof.
  unfold among. rewrite existsb_exists. split; [intros (x & I & E); destruct (beqb_spec n x); [subst; auto|discriminate]|].
  intros I. exists n. split; auto. destruct (beqb_spec n n); congruence.
Qed.

Lemma void_self n : (void n = true -> lower n = n) -> is_self_closing n = void n.
Proof.
  intros H. apply eq_true_iff_eq. unfold is_self_closing, void in *. rewrite among_in.
  assert (E : existsb (beqb (lower n)) (map str ["area"; "base"; "br"; "col"; "embed"; "hr"; "img"; "input"; "link"; "meta"; "source";
                             "track"; "wbr"; "param"]) = true <-> In (lower n) (map str ["area"; "base"; "br"; "col"; "embed"; "hr"; "img"; "input"; "link"; "meta"; "source";
                             "track"; "wbr"; "param"])) by apply among_in.
  split.
  - intros I. apply E. simpl in I. repeat (destruct I as [<-|I]; [simpl; tauto|]). destruct I.
  - intros I. specialize (H I). rewrite E, H in I. simpl in I |- *. tauto.
Qed.
Lemma code_unescaped n : unescaped n = code n.
Proof. unfold unescaped, code. simpl. rewrite orb_false_r. reflexivity. Qed.
Lemma void_data n : is_self_closing n = true -> mode_of n = Data.
Proof. unfold is_self_closing. rewrite among_in. simpl. intros H. repeat (destruct H as [<-|H]; [reflexivity|]). destruct H. Qed.
Lemma unescaped_raw n : unescaped n = true -> mode_of n = Raw n.
Proof. unfold unescaped, mode_of. rewrite among_in. intros [H|[H|[]]]; rewrite <- H; reflexivity. Qed.
Lemma mode_name n : mode_of n = Data \/ mode_of n = Esc n \/ mode_of n = Raw n.
Proof. unfold mode_of. destruct (among _ _); auto. destruct (among _ _); auto. Qed.

(** Merging texts. *)
Lemma merge_toks l : forall last, flat_map gtoks (merge last l) = map TChar (match last with Some t => t | None => [] end) ++ flat_map gtoks l.
Proof.
  induction l as [|h l IH]; intros last.
  - destruct last; simpl; rewrite ?app_nil_r; auto.
  - destruct h as [n a k|t|t].
    + cbn [merge]. rewrite flat_map_app. cbn [flat_map]. rewrite IH. destruct last; simpl; rewrite ?app_nil_r; auto.
    + cbn [merge flat_map gtoks]. rewrite IH. destruct last; rewrite ?map_app, ?app_assoc; auto.
    + cbn [merge flat_map gtoks app]. auto.
Qed.

Lemma merge_noelem l : forall last, existsb is_elem l = false ->
  (merge last l = [] /\ last = None /\ flat_map text_content l = []) \/
  merge last l = [HText (match last with Some t => t | None => [] end ++ flat_map text_content l)].
Proof.
  induction l as [|h l IH]; intros last H.
  - destruct last; simpl; rewrite ?app_nil_r; auto.
  - destruct h as [n a k|t|t]; cbn [existsb is_elem orb] in H; [discriminate| |].
    + cbn [merge flat_map text_content]. destruct (IH (Some (match last with Some p => p ++ t | None => t end)) H) as [(_ & E & _)|E]; [discriminate|].
      right. rewrite E. destruct last; rewrite <- ?app_assoc; auto.
    + cbn [merge flat_map text_content app]. auto.
Qed.

Lemma fold_all {A} (P : A -> Prop) l : fold_right (fun k Q => P k /\ Q) True l <-> Forall P l.
Proof. induction l; simpl; [split; auto|]. rewrite IHl. split; [intros []; auto|inversion 1; auto]. Qed.

Definition not_comment (h : hnode) : Prop := match h with HComment _ => False | _ => True end.
Lemma merge_forall (P : hnode -> Prop) l : (forall t, P (HText t)) -> forall last, Forall P l -> Forall (fun h => P h /\ not_comment h) (merge last l).
Proof.
  intros PT. induction l as [|h l IH]; intros last H.
  - destruct last; repeat constructor. auto.
  - inversion H; subst. destruct h as [n a k|t|t]; cbn [merge]; auto.
    apply Forall_app. split; [destruct last; repeat constructor; auto|]. constructor; [split; simpl; auto|auto].
Qed.

Lemma depth_kids f kids : (fold_right (fun k n => Nat.max (depth k) n) 0 kids <= f)%nat -> Forall (fun k => (depth k <= f)%nat) kids.
Proof. induction kids; simpl; intros H; constructor; [lia|apply IHkids; lia]. Qed.

Lemma lines_cons f i h : (depth h <= f)%nat -> html_lines f i h <> [].
Proof.
  intros H. destruct f as [|f]; [destruct h; simpl in H; lia|]. simpl. destruct h as [n a k|t|t]; try discriminate.
  destruct (is_self_closing n); [discriminate|]. destruct (get_render_child_mode k); discriminate.
Qed.

Lemma no_lt_contains p x : (forall y, In y x -> y <> 60%N) -> contains (60%N :: p) (lower x) = false.
Proof.
  intros H. destruct (contains _ _) eqn:C; auto. apply contains_iff in C as (a & b & E).
  assert (I : In 60%N (lower x)) by (rewrite E; apply in_app_iff; right; left; auto).
  unfold lower in I. apply in_map_iff in I as (c & Q & I). apply H in I. unfold lowerc in Q.
  destruct ((65 <=? c)%N && (c <=? 90)%N) eqn:Z; [|contradiction]. apply andb_true_iff in Z. rewrite !N.leb_le in Z. lia.
Qed.

Lemma lex_blank n x r : elem_name n -> forallb space x = true -> lex (SText (mode_of n) []) (x ++ str "</" ++ n ++ str ">" ++ r) = map TChar x ++ TClose n :: read r.
Proof.
  intros E S. assert (NL : forall y, In y x -> y <> 60%N) by (intros y I; rewrite forallb_forall in S; apply (space_not y 60%N); auto).
  destruct (mode_name n) as [M|[M|M]]; rewrite M.
  - change (lex (SText Data [])) with read. rewrite read_spaces, read_end; auto.
  - rewrite lex_acc by auto. cbn [app]. change (str "</") with [60%N; 47%N]. cbn [app].
    rewrite lex_cons. cbv zeta. rewrite closes_end. cbn [andb]. change (60 =? 60)%N with true. cbv iota. rewrite lex_end by auto.
    unfold flush. rewrite decode_spaces0; auto.
  - rewrite lex_raw; auto. apply no_lt_contains. auto.
Qed.

Lemma read_lines fmt : forall f i h rest, ident_ok fmt i -> (depth h <= f)%nat -> renderable h -> not_comment h ->
  view fmt (read (join (sep fmt) (html_lines f i h) ++ rest)) = view fmt (gtoks h) ++ view fmt (read rest).
Proof.
  induction f as [|f IH]; intros i h rest I D R NC; [destruct h; simpl in D; lia|].
  destruct h as [n a kids|t|t]; [| |contradiction].
  - cbn [renderable] in R. destruct R as (RN & RA & RM & RU & RK). apply fold_all in RK. rewrite <- code_unescaped in RU.
    cbn [depth] in D. apply le_S_n, depth_kids in D.
    assert (SN : encode_safe n = n) by (apply safe_name; apply RN).
    cbn [html_lines]. rewrite SN. cbn [gtoks]. rewrite <- (void_self n) by apply RN. destruct (is_self_closing n) eqn:SC.
    + cbn [join]. rewrite <- !app_assoc, read_spaces by apply ident_space. rewrite view_app, view_ident by auto. cbn [app].
      rewrite read_self by auto. rewrite view_cons by auto. rewrite (void_data n SC). rewrite (view_cons fmt (TOpen n a true) []) by auto. destruct fmt; reflexivity.
    + assert (TX : mode_of n <> Data -> existsb is_elem kids = false) by (destruct RM; [congruence|auto]).
      pose proof (merge_forall renderable kids (fun _ => Logic.I) None RK) as MR.
      assert (MD : Forall (fun h => (depth h <= f)%nat /\ not_comment h) (merge None kids) \/ (f = O /\ kids = [])).
      { destruct f as [|f0]; [right; split; auto; destruct kids as [|k0 ?]; auto; inversion D; subst; destruct k0; simpl in *; lia|].
        left. apply (merge_forall (fun h => (depth h <= S f0)%nat)); auto. intros; simpl; lia. }
      pose proof (merge_toks kids None) as MT. cbn [app map] in MT.
      unfold get_render_child_mode.
      assert (CASE : (exists t, merge None kids = [HText t]) \/
        (match merge None kids with [HText t] => Text t | l => Child l end = Child (merge None kids) /\ forall t, merge None kids <> [HText t])).
      { destruct (merge None kids) as [|[? ? ?|t|?] [|? ?]]; [right|right|right|left; eauto|right|right|right]; split; auto; congruence. }
      destruct CASE as [[t ME]|[-> NT]].
      * (* a single text *)
        rewrite ME. cbn [join]. rewrite <- !app_assoc, read_spaces by apply ident_space. rewrite view_app, view_ident by auto. cbn [app].
        rewrite read_open by auto. rewrite view_cons by auto. rewrite (view_cons fmt (TOpen n a false)) by auto. cbn [app]. f_equal.
        rewrite view_app. rewrite <- !app_assoc.
        assert (E : lex (SText (mode_of n) []) ((if unescaped n then t else encode_safe t) ++ str "</" ++ n ++ str ">" ++ rest) =
          match mode_of n with Data => flat_map gtoks kids | Esc _ => map TChar (flat_map text_content kids) | Raw _ => map TChar (content n (flat_map text_content kids)) end
          ++ TClose n :: read rest).
        { destruct (mode_name n) as [M|[M|M]]; rewrite M.
          - destruct (unescaped n) eqn:U; [rewrite unescaped_raw in M by auto; discriminate|]. change (lex (SText Data [])) with read.
            rewrite read_text, read_end by auto. rewrite ME in MT. simpl in MT. rewrite app_nil_r in MT. rewrite <- MT. auto.
          - destruct (unescaped n) eqn:U; [rewrite unescaped_raw in M by auto; discriminate|].
            destruct (merge_noelem kids None (TX ltac:(congruence))) as [(Z & _)|Z]; [congruence|]. rewrite ME in Z. inversion Z; subst t.
            rewrite lex_esc by auto. cbn [app]. auto.
          - destruct (merge_noelem kids None (TX ltac:(congruence))) as [(Z & _)|Z]; [congruence|]. rewrite ME in Z. inversion Z; subst t. clear Z.
            cbn [app]. fold (content n (flat_map text_content kids)). rewrite lex_raw; auto. unfold content. destruct (unescaped n) eqn:U; auto.
            apply no_lt_contains. intros y Y. apply safe_chars in Y. tauto. }
        rewrite E. rewrite view_app. f_equal. change (TClose n :: read rest) with ([TClose n] ++ read rest). rewrite view_app. auto.
      * (* children *)
        destruct (mode_name n) as [M|M].
        -- rewrite M. rewrite <- MT.
           set (close := ident_get i ++ str "</" ++ n ++ str ">").
           assert (KS : forall l, Forall (fun h => renderable h /\ not_comment h) l -> Forall (fun h => (depth h <= f)%nat /\ not_comment h) l ->
             view fmt (read (join (sep fmt) (flat_map (html_lines f (ident_add i 2)) l ++ [close]) ++ rest)) =
             view fmt (flat_map gtoks l) ++ TClose n :: view fmt (read rest)).
           { induction l as [|k l IHl]; intros R1 D1.
             - cbn [flat_map app join]. unfold close. rewrite <- !app_assoc, read_spaces by apply ident_space. rewrite view_app, view_ident by auto. cbn [app].
               rewrite read_end by auto. rewrite view_cons by auto. destruct fmt; reflexivity.
             - inversion R1 as [|? ? [Rk Ck] Rl]; subst. inversion D1 as [|? ? [Dk _] Dl]; subst. cbn [flat_map]. rewrite <- app_assoc.
               rewrite join_app; [|apply lines_cons; auto|intros Q; apply app_eq_nil in Q as [_ Q]; discriminate].
               rewrite <- !app_assoc. rewrite IH; auto; [|apply ident_up; auto]. rewrite read_spaces by apply sep_space. rewrite view_app, view_sep. cbn [app].
               rewrite IHl by auto. rewrite view_app, app_assoc. auto. }
           change (?x :: flat_map (html_lines f (ident_add i 2)) (merge None kids) ++ [close]) with ([x] ++ (flat_map (html_lines f (ident_add i 2)) (merge None kids) ++ [close])).
           rewrite join_app; [|discriminate|intros Q; apply app_eq_nil in Q as [_ Q]; discriminate].
           cbn [join]. rewrite <- !app_assoc, read_spaces by apply ident_space. rewrite view_app, view_ident by auto. cbn [app].
           rewrite read_open by auto. rewrite M. rewrite (view_cons fmt (TOpen n a false)) by auto. change (lex (SText Data [])) with read.
           rewrite read_spaces by apply sep_space. rewrite view_app, view_sep. cbn [app].
           assert (KE : view fmt (read (join (sep fmt) (flat_map (html_lines f (ident_add i 2)) (merge None kids) ++ [close]) ++ rest)) =
             view fmt (flat_map gtoks (merge None kids)) ++ TClose n :: view fmt (read rest)).
           { destruct MD as [MD|[-> ->]]; [apply KS; auto|apply KS; constructor]. }
           rewrite KE. rewrite (view_cons fmt (TOpen n a false)) by auto. rewrite view_app, (view_cons fmt (TClose n)) by auto.
           cbn [app]. f_equal. rewrite <- app_assoc. destruct fmt; reflexivity.
        -- assert (NE : existsb is_elem kids = false) by (apply TX; destruct M; congruence).
           destruct (merge_noelem kids None NE) as [(ME & _ & TE)|Z]; [|destruct (NT _ Z)]. rewrite ME. cbn [flat_map app join].
           rewrite <- !app_assoc, read_spaces by apply ident_space. rewrite view_app, view_ident by auto. cbn [app].
           rewrite read_open by auto. rewrite (app_assoc (sep fmt)). rewrite lex_blank by (auto; rewrite forallb_app, sep_space, ident_space; auto).
           rewrite TE. rewrite (view_cons fmt (TOpen n a false)) by auto. rewrite map_app, !view_app, view_sep, view_ident by auto.
           assert (CE : content n [] = []) by (unfold content; destruct (unescaped n); reflexivity).
           rewrite CE. rewrite (view_cons fmt (TOpen n a false)) by auto. cbn [app]. f_equal.
           destruct M as [M|M]; rewrite M; cbn [map app]; rewrite !(view_cons fmt (TClose n)) by auto; destruct fmt; reflexivity.
  - cbn [html_lines join gtoks]. rewrite <- app_assoc, read_spaces by apply ident_space. rewrite view_app, view_ident by auto. cbn [app].
    rewrite read_text, view_app. auto.
Qed.

(** ** Theorems *)

Lemma hnode_rect2 (P : hnode -> Prop) : (forall n a kids, Forall P kids -> P (HElement n a kids)) -> (forall t, P (HText t)) -> (forall t, P (HComment t)) ->
  forall h, P h.
Proof.
  intros HE HT HC. fix F 1. intros [n a kids|t|t]; [|apply HT|apply HC]. apply HE. induction kids as [|k kids IH]; constructor; [apply F|exact IH].
Qed.

Lemma noelem_tags kids : existsb is_elem kids = false -> flat_map tags kids = [].
Proof. induction kids as [|k kids IH]; simpl; auto. destruct k; simpl; [discriminate|auto|auto]. Qed.
Lemma filter_chars s : filter is_tag (map TChar s) = [].
Proof. induction s; simpl; auto. Qed.
Lemma filter_flat {A} (g : A -> list tok) l : filter is_tag (flat_map g l) = flat_map (fun x => filter is_tag (g x)) l.
Proof. induction l; simpl; auto. rewrite filter_app. congruence. Qed.
Lemma flat_map_eq {A B} (f g : A -> list B) l : Forall (fun x => f x = g x) l -> flat_map f l = flat_map g l.
Proof. induction 1; simpl; congruence. Qed.

Lemma gtoks_tags h : renderable h -> filter is_tag (gtoks h) = tags h.
Proof.
  induction h as [n a kids IH|t|t] using hnode_rect2; intros R; [| |reflexivity].
  - cbn [renderable] in R. destruct R as (RN & RA & RM & RU & RK). apply fold_all in RK. cbn [gtoks tags].
    destruct (void n); auto. cbn [filter is_tag]. f_equal. rewrite filter_app. cbn [filter is_tag]. f_equal.
    destruct (mode_name n) as [M|[M|M]]; rewrite M.
    + rewrite filter_flat. apply flat_map_eq. rewrite Forall_forall in *. intros x I. apply IH; auto.
    + rewrite filter_chars, noelem_tags; auto. destruct RM; [congruence|auto].
    + rewrite filter_chars, noelem_tags; auto. destruct RM; [congruence|auto].
  - apply filter_chars.
Qed.

Lemma noelem_toks kids : existsb is_elem kids = false -> flat_map toks kids = map TChar (flat_map text_content kids).
Proof.
  induction kids as [|k kids IH]; simpl; auto. destruct k; simpl; [discriminate| |auto]. intros H. rewrite map_app, IH by auto. auto.
Qed.

Lemma gtoks_plain h : renderable h -> plain h -> gtoks h = toks h.
Proof.
  induction h as [n a kids IH|t|t] using hnode_rect2; intros R PL; auto.
  cbn [renderable] in R. destruct R as (RN & RA & RM & RU & RK). cbn [plain] in PL. destruct PL as (P1 & P2 & PK). apply fold_all in RK. apply fold_all in PK.
  cbn [gtoks toks]. destruct (void n); auto. f_equal. f_equal.
  destruct (mode_name n) as [M|[M|M]]; rewrite M.
  - apply flat_map_eq. rewrite Forall_forall in *. intros x I. apply IH; auto.
  - rewrite noelem_toks; auto. destruct RM; [congruence|auto].
  - rewrite noelem_toks; [|destruct RM; [congruence|auto]]. f_equal. unfold content. rewrite code_unescaped. destruct (code n) eqn:U; auto.
Qed.

Lemma toks_text h : plain h -> chars (toks h) = text_content h.
Proof.
  induction h as [n a kids IH|t|t] using hnode_rect2; intros PL; [| |reflexivity].
  - cbn [plain] in PL. destruct PL as (P1 & P2 & PK). apply fold_all in PK. cbn [toks text_content]. destruct (void n) eqn:S.
    + rewrite P1 by auto. reflexivity.
    + unfold chars. cbn [flat_map app]. rewrite flat_map_app. cbn [flat_map app]. rewrite app_nil_r.
      clear S P1 P2. induction kids as [|k kids IHk]; [reflexivity|]. inversion IH as [|? ? X1 X2]; inversion PK as [|? ? Y1 Y2]; subst. cbn [flat_map].
      rewrite flat_map_app. f_equal; [exact (X1 Y1)|apply IHk; assumption].
  - clear PL. cbn [toks text_content]. unfold chars. induction t as [|c t IHt]; [reflexivity|]. cbn [map flat_map app]. rewrite IHt. reflexivity.
Qed.

Lemma read_doctype r : read (doctype ++ r) = TDecl (str "DOCTYPE html") :: read r.
Proof. reflexivity. Qed.

Lemma read_document fmt h : renderable h -> not_comment h ->
  view fmt (read (convert_to_string fmt h)) = TDecl (str "DOCTYPE html") :: view fmt (gtoks h).
Proof.
  intros R NC. unfold convert_to_string. fold (sep fmt). change (doctype :: ?l) with ([doctype] ++ l).
  rewrite join_app; [|discriminate|apply lines_cons; auto]. cbn [join]. rewrite read_doctype, view_cons by auto. f_equal.
  rewrite read_spaces by apply sep_space. rewrite view_app, view_sep. cbn [app].
  rewrite <- (app_nil_r (join _ _)). rewrite read_lines; auto.
  - destruct fmt; simpl; rewrite app_nil_r; auto.
  - intros E. subst. auto.
Qed.

Lemma view_tags fmt l : filter is_tag (view fmt l) = filter is_tag l.
Proof.
  destruct fmt; auto. simpl. induction l as [|x l IH]; simpl; auto. destruct x; simpl; rewrite ?IH; auto. destruct (solid c); simpl; auto.
Qed.

(** C29 in full: whatever the texts, attribute values and comments of a document are, its tags are those of its tree. *)
Definition C29_statement : Prop := forall fmt h, is_elem h = true -> filter is_tag (read (convert_to_string fmt h)) = tags h.

(** Proved for trees whose names are names, in which scripts and styles do not contain their end tag, and elements
    with raw content (see [mode_of]) contain no elements. *)
Theorem C29_no_injection_partial : forall fmt h, renderable h -> is_elem h = true ->
  filter is_tag (read (convert_to_string fmt h)) = tags h.
Proof.
  intros fmt h R E. rewrite <- (view_tags fmt), read_document by (auto; destruct h; simpl; auto; discriminate). cbn [filter is_tag].
  rewrite view_tags. apply gtoks_tags. auto.
Qed.

(** Text in a style element is written as it is. *)
Theorem C29_style_refuted : exists h, is_elem h = true /\
  In (TOpen (str "script") [] false) (read (convert_to_string true h)) /\ ~ In (TOpen (str "script") [] false) (tags h).
Proof.
  exists (HElement (str "style") [] [HText (str "a::after { content: '</style><script>' }")]). split; auto. split.
  - vm_compute. do 46 (try (left; reflexivity); right).
  - vm_compute. intuition congruence.
Qed.

(** A void element whose name is not in lower case gets an end tag (a browser makes a second line break of [</BR>]). *)
Theorem C29_case_refuted : exists h, is_elem h = true /\
  In (TClose (str "BR")) (read (convert_to_string true h)) /\ ~ In (TClose (str "BR")) (tags h).
Proof.
  exists (HElement (str "BR") [] []). split; auto. split.
  - vm_compute. do 6 (try (left; reflexivity); right).
  - vm_compute. intuition congruence.
Qed.

Theorem C29_statement_refuted : ~ C29_statement.
Proof.
  intros H. destruct C29_style_refuted as (h & E & I & NI). apply NI. rewrite <- (H true h E). apply filter_In. auto.
Qed.

(** C30 in full: the text read by the browser is the text of the tree. *)
Definition C30_statement : Prop := forall h, is_elem h = true -> chars (read (convert_to_string true h)) = text_content h.

(** Unformatted, all tags and characters are exactly those of the tree.  (The server formats.) *)
Theorem C30_exact_partial : forall h, renderable h -> plain h -> is_elem h = true ->
  read (convert_to_string false h) = TDecl (str "DOCTYPE html") :: toks h.
Proof.
  intros h R P E. pose proof (read_document false h R) as H. simpl in H. rewrite H; [|destruct h; simpl; auto; discriminate].
  rewrite gtoks_plain; auto.
Qed.

Lemma chars_view l : filter solid (chars l) = chars (view true l).
Proof.
  induction l as [|x l IH]; auto. destruct x; cbn [view filter keep]; auto. unfold chars. cbn [flat_map app filter].
  fold (chars l). destruct (solid c); cbn [flat_map app]; rewrite IH; auto.
Qed.

(** Formatted: the same tags, and the same characters apart from spaces and newlines. *)
Theorem C30_up_to_spaces_partial : forall h, renderable h -> plain h -> is_elem h = true ->
  filter keep (read (convert_to_string true h)) = TDecl (str "DOCTYPE html") :: filter keep (toks h) /\
  filter solid (chars (read (convert_to_string true h))) = filter solid (text_content h).
Proof.
  intros h R P E. pose proof (read_document true h R) as H. simpl in H. rewrite gtoks_plain in H by auto.
  assert (NC : not_comment h) by (destruct h; simpl; auto; discriminate). specialize (H NC). split; auto.
  rewrite chars_view. simpl. rewrite H. unfold chars. cbn [flat_map app]. fold (chars (filter keep (toks h))).
  pose proof (chars_view (toks h)) as C. simpl in C. rewrite <- C, toks_text; auto.
Qed.

(** Spaces are added between adjacent inline elements: "ab" becomes "a b". *)
Definition two_spans : hnode := HElement (str "p") [] [HElement (str "b") [] [HText (str "a")]; HElement (str "i") [] [HText (str "b")]].
Theorem C30_spaces_refuted : exists h, renderable h /\ plain h /\ is_elem h = true /\
  text_content h = str "ab" /\ In 32%N (chars (read (convert_to_string true h))).
Proof.
  exists two_spans. split; [|split; [|split; [|split]]]; auto.
  - cbn [two_spans renderable fold_right]. repeat split; try (intros; discriminate); auto; try (left; reflexivity).
  - cbn [two_spans plain fold_right]. repeat split; try (intros; discriminate); auto.
  - vm_compute. tauto.
Qed.
Theorem C30_statement_refuted : ~ C30_statement.
Proof.
  intros H. destruct C30_spaces_refuted as (h & _ & _ & E & T & I). rewrite (H h E), T in I. simpl in I. intuition discriminate.
Qed.

(** Text of other elements with raw content is escaped although browsers do not decode it there. *)
Theorem C30_raw_refuted : exists h, renderable h /\ is_elem h = true /\
  text_content h = str "a<b" /\ chars (read (convert_to_string true h)) = str "
a&lt;b".
Proof.
  exists (HElement (str "xmp") [] [HText (str "a<b")]). split; [|split; [|split]]; auto.
  cbn [renderable fold_right]. repeat split; try (intros; discriminate); auto.
Qed.

(** *** The whole response *)

Definition html_tree (attr : list (bytes * bytes)) (pre : list hnode) (battr : list (bytes * bytes)) (kids post : list hnode) : hnode :=
  HElement (str "html") attr (pre ++ HElement (str "body") battr kids :: post).

Lemma modify_first f battr kids post : forall pre,
  (forall n a k, In (HElement n a k) pre -> n <> str "body") ->
  modify_child (str "body") f (pre ++ HElement (str "body") battr kids :: post) = (pre ++ f (HElement (str "body") battr kids) :: post, true).
Proof.
  induction pre as [|h pre IH]; intros H; [reflexivity|]. cbn [app modify_child]. rewrite IH by (intros; eapply H; right; eauto).
  destruct h as [n a k|t|t]; auto. destruct (beqb_spec n (str "body")); auto. subst. destruct (H (str "body") a k); [left|]; auto.
Qed.

(** The attributes after setting some (last values win; C28 proves this of OrderedMap). *)
Fixpoint with_env (attr : list (bytes * bytes)) (env : list (bytes * bytes)) : list (bytes * bytes) :=
  match env with [] => attr | (k, v) :: t => with_env (add_attr attr (str "data-env-" ++ k) v) t end.

Lemma env_fold env : forall a, fold_left (fun a e => add_attr a (str "data-env-" ++ fst e) (snd e)) env a = with_env a env.
Proof. induction env as [|[k v] env IH]; intros a; [reflexivity|]. cbn [fold_left with_env fst snd]. apply IH. Qed.

(** The style element of a rule, and the script element that starts the program. *)
Definition style_of (rule : bytes * bytes) : hnode :=
  let '(selector, body) := rule in HElement (str "style") [] [HText (selector ++ str " { " ++ body ++ str " }")].
Definition starter (wasm js : bytes) : hnode := HElement (str "script") [(str "type", str "module"); (str "data-vertigo-run-wasm", wasm); (str "src", js)] [].
Lemma get_css_of css : get_css css = map style_of css.
Proof. apply map_ext. intros [a b]. reflexivity. Qed.
Lemma run_script_of wasm js : run_script wasm js = starter wasm js.
Proof. reflexivity. Qed.

(** For every tree with a body: the response shows the same document with the environment as attributes of html,
    the style rules first in the body and the start script last, up to spaces and newlines. *)
Theorem C30_response_partial : forall wasm js env css attr pre battr kids post,
  (forall n a k, In (HElement n a k) pre -> n <> str "body") ->
  let shown := html_tree (with_env attr env) pre battr (map style_of css ++ kids ++ [starter wasm js]) post in
  renderable shown -> plain shown ->
  exists out, build_response wasm js env (html_tree attr pre battr kids post) css = Some out /\
    filter keep (read out) = TDecl (str "DOCTYPE html") :: filter keep (toks shown).
Proof.
  intros wasm js env css attr pre battr kids post NB shown R P. unfold build_response, html_tree. rewrite get_css_of, run_script_of.
  change (beqb (str "html") (str "html")) with true. cbv iota. rewrite modify_first by auto.
  eexists. split; [reflexivity|]. cbn [fill_body].
  rewrite env_fold. apply C30_up_to_spaces_partial; auto.
Qed.

(** ** Cases *)

(** A tree with hostile texts and attribute values meets the premises. *)
Definition demo_tree : hnode :=
  html_tree [(str "lang", str "en")] [HElement (str "head") [] [HElement (str "title") [] [HText (str "a < b & </title>")]]]
    [(str "class", str "a""><script>")]
    [HText (str "x</body><script>alert(1)</script>"); HComment (str "--><b>"); HText (str "&lt;"); HElement (str "br") [] [];
     HElement (str "p") [] [HText (str "it's")]] [].

Example C29_case : renderable demo_tree /\ plain demo_tree /\ is_elem demo_tree = true.
Proof.
  unfold demo_tree, html_tree. split; [|split]; auto.
  - cbn [app renderable fold_right]. repeat split; try (intros; discriminate); auto; repeat constructor; try discriminate; try (left; reflexivity); try (right; reflexivity).
  - cbn [app plain fold_right]. repeat split; try (intros; discriminate); auto.
Qed.
Example C29_case_text : filter solid (chars (read (convert_to_string true demo_tree))) = str "a<b&</title>x</body><script>alert(1)</script>&lt;it's".
Proof. vm_compute. reflexivity. Qed.

Example C30_case : exists out, build_response (str "/a.wasm") (str "/a.js") [(str "X", str """")] demo_tree [(str ".a", str "color: red")] = Some out.
Proof. vm_compute. eexists. reflexivity. Qed.
Example C30_response_case : let shown := html_tree (with_env [(str "lang", str "en")] [(str "X", str """")]) [] []
    (map style_of [(str ".a", str "color: red")] ++ [HText (str "<")] ++ [starter (str "/a.wasm") (str "/a.js")]) [] in
  renderable shown /\ plain shown.
Proof.
  split.
  - cbn. repeat split; try (intros; discriminate); auto; repeat constructor; try discriminate; try (left; reflexivity); try (right; reflexivity).
  - cbn. repeat split; try (intros; discriminate); auto.
Qed.
