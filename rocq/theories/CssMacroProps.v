(** The [css!] macro gives the rules that were written. *)
From Coq Require Import String List NArith PeanoNat Wf_nat Bool Lia.
From Verif Require Import CodecModel DomWire CssMacroModel.
Import ListNotations.
Local Open Scope string_scope.
Local Open Scope list_scope.
Local Open Scope N_scope.

(** ** Sources: what is written, with its white space *)

Definition white (c : N) : Prop := c = 32 \/ c = 9 \/ c = 13 \/ c = 10.
Definition space (w : bytes) : Prop := Forall white w.
(** Not empty, and white neither at the beginning nor at the end. *)
Definition solid (t : bytes) : Prop := t <> [] /\ ~ white (hd 0 t) /\ ~ white (last t 0).
Definition without (cs : list N) (t : bytes) : Prop := forall c, In c t -> ~ In c cs.
Definition prefix (p t : bytes) : Prop := exists u, t = p ++ u.

(** Values: a text; a colour; an address, written or computed; expressions, the last of which may be followed by one of these. *)
Inductive val :=
| VText (t : bytes)
| VHex (h : bytes)
| VUrl (t : bytes)
| VUrlExpr (w1 e w2 : bytes)
| VEnd (w1 e w2 : bytes)
| VThen (w1 e w2 : bytes) (w : bytes) (v : val).
(** The declarations of a step of an animation: white space, name, white space, value. *)
Definition decl : Type := bytes * (bytes * bytes * val).
(** A step of an animation: white space, a number, white space, the declarations, white space. *)
Record step_src := Step { s_lead : bytes; s_num : bytes; s_w1 : bytes; s_rules : list decl; s_w2 : bytes }.
(** A declaration; rules for a pseudo-class (and pseudo-element) and elements of other classes; rules for a medium; a comment; an animation, with its steps or without.
    Every item of a list has white space before it. *)
Inductive item :=
| Decl (n w : bytes) (v : val)
| Sub (sel : option (bytes * option bytes)) (refs : list (bytes * bytes)) (w1 : bytes) (l : list (bytes * item)) (w2 w3 : bytes)
| Media (w1 q w2 : bytes) (l : list (bytes * item)) (w3 w4 : bytes)
| Comment (w1 t w2 : bytes)
| Anim (w1 p w2 : bytes) (fr : option (list step_src * bytes)) (w3 : bytes).

Definition braces (w1 e w2 : bytes) : bytes := str "{" ++ w1 ++ e ++ w2 ++ str "}".
Fixpoint print_val (v : val) : bytes :=
  match v with
  | VText t => t
  | VHex h => str "#" ++ h
  | VUrl t => str "url('" ++ t ++ str "')"
  | VUrlExpr w1 e w2 => str "url(" ++ braces w1 e w2 ++ str ")"
  | VEnd w1 e w2 => braces w1 e w2
  | VThen w1 e w2 w v => braces w1 e w2 ++ w ++ print_val v
  end.
Definition print_sel (s : option (bytes * option bytes)) : bytes :=
  match s with
  | None => []
  | Some (a, None) => str ":" ++ a
  | Some (a, Some b) => str ":" ++ a ++ str "::" ++ b
  end.
Definition print_decl (d : bytes * bytes * val) : bytes := match d with (n, w, v) => n ++ str ":" ++ w ++ print_val v ++ str ";" end.
Definition print_step (f : step_src) : bytes :=
  s_num f ++ str "%" ++ s_w1 f ++ str "{" ++ flat_map (fun d => fst d ++ print_decl (snd d)) (s_rules f) ++ s_w2 f ++ str "}".
Definition print_steps (l : list step_src) : bytes := flat_map (fun f => s_lead f ++ print_step f) l.
Fixpoint print (i : item) : bytes :=
  match i with
  | Decl n w v => n ++ str ":" ++ w ++ print_val v ++ str ";"
  | Sub sel refs w1 l w2 w3 =>
      print_sel sel ++ flat_map (fun r => fst r ++ str "[" ++ snd r ++ str "]") refs ++ w1 ++ str "{" ++
      flat_map (fun p => fst p ++ print (snd p)) l ++ w2 ++ str "}" ++ w3 ++ str ";"
  | Media w1 q w2 l w3 w4 =>
      str "@media" ++ w1 ++ q ++ w2 ++ str "{" ++ flat_map (fun p => fst p ++ print (snd p)) l ++ w3 ++ str "}" ++ w4 ++ str ";"
  | Comment w1 t w2 => str "/*" ++ w1 ++ t ++ w2 ++ str "*/"
  | Anim w1 p w2 fr w3 => str "animation:" ++ w1 ++ p ++ w2 ++
      match fr with None => [] | Some (l, w) => str "{" ++ print_steps l ++ w ++ str "}" end ++ w3 ++ str ";"
  end.
Definition print_all (l : list (bytes * item)) : bytes := flat_map (fun p => fst p ++ print (snd p)) l.

(** What may be written. *)
Definition name_char (c : N) : Prop := (97 <= c /\ c <= 122) \/ c = 45.
Definition hex_char (c : N) : Prop := (48 <= c /\ c <= 57) \/ (97 <= c /\ c <= 102) \/ (65 <= c /\ c <= 70).
(** No [;], [{] or [}]. *)
Definition simple (t : bytes) : Prop := solid t /\ without [59; 123; 125] t.
Definition ok_expr (w1 e w2 : bytes) : Prop := space w1 /\ space w2 /\ solid e /\ without [123; 125] e.
Definition ok_text (t : bytes) : Prop := simple t /\ hd 0 t <> 58 /\ hd 0 t <> 35 /\ ~ prefix (str "rgb(") t /\ ~ prefix (str "hsl(") t.
(** Between an expression and what follows: nothing before [px], and white space otherwise. *)
Definition px (v : val) : bool := match v with VText (112 :: 120 :: _) => true | _ => false end.
Fixpoint ok_val (v : val) : Prop :=
  match v with
  | VText t => ok_text t
  | VHex h => Forall hex_char h /\ (length h = 6%nat \/ length h = 8%nat)
  | VUrl t => simple t /\ without [39] t
  | VUrlExpr w1 e w2 | VEnd w1 e w2 => ok_expr w1 e w2
  | VThen w1 e w2 w v => ok_expr w1 e w2 /\ space w /\ (if px v then w = [] else w <> []) /\
      match v with VUrl _ | VUrlExpr _ _ _ => False | _ => ok_val v end
  end.
(** An address is a whole value. *)
Definition ok_whole (v : val) : Prop := ok_val v /\ match v with VText t => ~ prefix (str "url(") t | _ => True end.
Definition ok_name (n : bytes) : Prop := Forall name_char n /\ (2 <= length n)%nat /\ ~ prefix (str "animation") n.
Definition ok_sel (s : option (bytes * option bytes)) : Prop :=
  match s with
  | None => True
  | Some (a, None) => solid a /\ without [58; 91; 123; 125] a /\ (2 <= length a)%nat
  | Some (a, Some b) => (solid a /\ without [58; 91; 123; 125] a) /\ (solid b /\ without [58; 91; 123; 125] b)
  end.
Definition ident_char (c : N) : Prop := (97 <= c /\ c <= 122) \/ (65 <= c /\ c <= 90) \/ c = 95.
Definition ok_ref (r : bytes) : Prop :=
  match r with
  | c :: t => ident_char c /\ Forall (fun c => ident_char c \/ (48 <= c /\ c <= 57)) t
  | [] => False
  end.
Definition ok_decl (d : bytes * bytes * val) : Prop := match d with (n, w, v) => ok_name n /\ space w /\ ok_whole v end.
Definition ok_decls (l : list decl) : Prop := l <> [] /\ Forall (fun d => space (fst d) /\ ok_decl (snd d)) l.
Definition digit_char (c : N) : Prop := 48 <= c /\ c <= 57.
Definition ok_step (f : step_src) : Prop :=
  space (s_lead f) /\ s_num f <> [] /\ Forall digit_char (s_num f) /\ space (s_w1 f) /\ ok_decls (s_rules f) /\ space (s_w2 f).
Fixpoint ok (i : item) : Prop :=
  match i with
  | Decl n w v => ok_name n /\ space w /\ ok_whole v
  | Sub sel refs w1 l w2 w3 =>
      ok_sel sel /\ Forall (fun r => space (fst r) /\ ok_ref (snd r)) refs /\
      match sel, refs with None, [] => False | None, (w, _) :: _ => w = [] | _, _ => True end /\ space w1 /\
      l <> [] /\ fold_right (fun p P => (space (fst p) /\ ok (snd p)) /\ P) True l /\ space w2 /\ space w3
  | Media w1 q w2 l w3 w4 =>
      space w1 /\ simple q /\ space w2 /\ fold_right (fun p P => (space (fst p) /\ ok (snd p)) /\ P) True l /\ space w3 /\ space w4
  | Comment w1 t w2 => space w1 /\ space w2 /\ (t = [] \/ solid t) /\ (forall u v, t <> u ++ str "*/" ++ v)
  | Anim w1 p w2 fr w3 => space w1 /\ simple p /\ hd 0 p <> 58 /\ space w2 /\
      match fr with None => True | Some (l, w) => l <> [] /\ Forall ok_step l /\ space w end /\ space w3
  end.
Definition ok_all (l : list (bytes * item)) : Prop := fold_right (fun p P => (space (fst p) /\ ok (snd p)) /\ P) True l.

(** ** What is expected *)

Section Expected.
  (** The values of the expressions, and the names of the classes. *)
  Variable value_of : bytes -> bytes.
  Variable class : bytes -> bytes.
  Fixpoint val_out (v : val) : bytes :=
    match v with
    | VText t => t
    | VHex h => str "#" ++ h
    | VUrl t => str "url('" ++ t ++ str "')"
    | VUrlExpr _ e _ => str "url('" ++ value_of e ++ str "')"
    | VEnd _ e _ => value_of e
    | VThen _ e _ _ v => value_of e ++ (if px v then [] else str " ") ++ val_out v
    end.
  (** The parts of a selector. *)
  Definition sel_out (s : option (bytes * option bytes)) (refs : list (bytes * bytes)) : list bytes :=
    match s with None => [] | _ => [print_sel s] end ++ map (fun r => class (snd r)) refs.
  Fixpoint between (sep : bytes) (l : list bytes) : bytes :=
    match l with [] => [] | [x] => x | x :: t => x ++ sep ++ between sep t end.
  Definition decl_out (d : bytes * bytes * val) : bytes := match d with (n, _, v) => n ++ str ": " ++ val_out v ++ str ";" end.
  Definition step_out (f : step_src) : bytes := s_num f ++ str "% { " ++ between [10] (map (fun d => decl_out (snd d)) (s_rules f)) ++ str " }".
  (** The rules, each with its semicolon; comments are left out. *)
  Fixpoint out (i : item) : list bytes :=
    match i with
    | Decl n _ v => [n ++ str ": " ++ val_out v ++ str ";"]
    | Sub sel refs _ l _ _ =>
        [between (str " ") (sel_out sel refs) ++ str " { " ++ between [10] (flat_map (fun p => out (snd p)) l) ++ str " };"]
    | Media _ q _ l _ _ => [str "@media " ++ q ++ str " { " ++ between (str " ") (flat_map (fun p => out (snd p)) l) ++ str " };"]
    | Comment _ _ _ => []
    | Anim _ p _ fr _ => [str "animation: " ++ p ++ match fr with None => [] | Some (l, _) => str " { " ++ between [10] (map step_out l) ++ str " }" end ++ str ";"]
    end.
  Definition out_all (l : list (bytes * item)) : bytes := between [10] (flat_map (fun p => out (snd p)) l).
End Expected.

(** The expressions and the references that occur. *)
Fixpoint val_exprs (v : val) : list bytes :=
  match v with
  | VText _ | VHex _ | VUrl _ => []
  | VUrlExpr _ e _ | VEnd _ e _ => [e]
  | VThen _ e _ _ v => e :: val_exprs v
  end.
Definition decl_exprs (d : decl) : list bytes := match d with (_, (_, _, v)) => val_exprs v end.
Definition steps_exprs (l : list step_src) : list bytes := flat_map (fun f => flat_map decl_exprs (s_rules f)) l.
Fixpoint exprs (i : item) : list bytes :=
  match i with
  | Decl _ _ v => val_exprs v
  | Sub _ _ _ l _ _ | Media _ _ _ l _ _ => flat_map (fun p => exprs (snd p)) l
  | Comment _ _ _ => []
  | Anim _ _ _ fr _ => match fr with None => [] | Some (l, _) => steps_exprs l end
  end.
Fixpoint refs_of (i : item) : list bytes :=
  match i with
  | Sub _ refs _ l _ _ => map snd refs ++ flat_map (fun p => refs_of (snd p)) l
  | Media _ _ _ l _ _ => flat_map (fun p => refs_of (snd p)) l
  | _ => []
  end.

(** ** Parsing *)

Lemma is_ws_iff c : is_ws c = true <-> white c.
Proof. unfold is_ws, white. rewrite !orb_true_iff, !N.eqb_eq. tauto. Qed.
Lemma not_ws c : ~ white c -> is_ws c = false.
Proof. intros H. destruct (is_ws c) eqn:E; [|reflexivity]. apply is_ws_iff in E. contradiction. Qed.
Lemma skip_hd t : ~ white (hd 0 t) -> skip t = t.
Proof. destruct t as [|c t]; [reflexivity|]. cbn. intros H. rewrite (not_ws c H). reflexivity. Qed.
Lemma skip_space w t : space w -> skip (w ++ t) = skip t.
Proof. induction 1 as [|c w Hc _ IH]; [reflexivity|]. cbn. apply is_ws_iff in Hc. rewrite Hc. exact IH. Qed.
Lemma skip_to w t : space w -> ~ white (hd 0 t) -> skip (w ++ t) = t.
Proof. intros Hw Ht. rewrite skip_space by exact Hw. apply skip_hd, Ht. Qed.
Lemma hd_app (a b : bytes) : a <> [] -> hd 0 (a ++ b) = hd 0 a.
Proof. destruct a; [congruence|reflexivity]. Qed.

Lemma strip_app p s : strip p (p ++ s) = Some s.
Proof. induction p as [|c p IH]; [reflexivity|]. cbn. rewrite N.eqb_refl. exact IH. Qed.
Lemma strip_sound p s r : strip p s = Some r -> s = p ++ r.
Proof.
  revert s. induction p as [|a p IH]; cbn; intros s H; [congruence|]. destruct s as [|b s]; [discriminate|].
  destruct (N.eqb_spec a b) as [->|]; [|discriminate]. f_equal. apply IH, H.
Qed.
Lemma strip_hd c p s : hd 0 s <> c -> c <> 0 -> strip (c :: p) s = None.
Proof. destruct s as [|b s]; [reflexivity|]. cbn. intros H _. destruct (N.eqb_spec c b); congruence. Qed.
(** A prefix of a text and something it does not contain. *)
Lemma strip_none p t s c : ~ prefix p t -> ~ In c p -> strip p (t ++ c :: s) = None.
Proof.
  revert t. induction p as [|a p IH]; intros t H N; [exfalso; apply H; exists t; reflexivity|].
  destruct t as [|b t]; cbn.
  - destruct (N.eqb_spec a c) as [->|]; [exfalso; apply N; left; reflexivity|reflexivity].
  - destruct (N.eqb_spec a b) as [->|]; [|reflexivity]. apply IH; [|intros I; apply N; right; exact I].
    intros [u ->]. apply H. exists u. reflexivity.
Qed.

Lemma lit_app p s : lit p (p ++ s) = Some (s, []).
Proof. unfold lit. rewrite strip_app. reflexivity. Qed.
Lemma lit_none p s : strip p s = None -> lit p s = None.
Proof. unfold lit. intros ->. reflexivity. Qed.
Lemma seq_some p q s r a r' b : p s = Some (r, a) -> q (skip r) = Some (r', b) -> seq p q s = Some (r', a ++ b).
Proof. unfold seq. intros -> ->. reflexivity. Qed.
Lemma seq_none1 p q s : p s = None -> seq p q s = None.
Proof. unfold seq. intros ->. reflexivity. Qed.
Lemma alt_l p q s x : p s = Some x -> alt p q s = Some x.
Proof. unfold alt. intros ->. reflexivity. Qed.
Lemma alt_r p q s : p s = None -> alt p q s = q s.
Proof. unfold alt. intros ->. reflexivity. Qed.
Lemma pnot_ok p s : p s = None -> pnot p s = Some (s, []).
Proof. unfold pnot. intros ->. reflexivity. Qed.
Lemma node_some r p t rest l : p (t ++ rest) = Some (rest, l) -> node r p (t ++ rest) = Some (rest, [Pair r t l]).
Proof.
  unfold node. intros ->. do 4 f_equal. rewrite app_length. replace (length t + length rest - length rest)%nat with (length t) by lia.
  rewrite firstn_app, firstn_all, Nat.sub_diag. cbn. apply app_nil_r.
Qed.
Lemma node_none r p s : p s = None -> node r p s = None.
Proof. unfold node. intros ->. reflexivity. Qed.

(** A text that a repetition takes, in parts with white space before each. *)
Inductive runs (p : parser) (rest : bytes) : bytes -> list pair -> nat -> Prop :=
| runs_nil : runs p rest [] [] 0
| runs_cons w tok t a b n : space w -> tok <> [] -> ~ white (hd 0 tok) -> p (tok ++ t ++ rest) = Some (t ++ rest, a) ->
    runs p rest t b n -> runs p rest (w ++ tok ++ t) (a ++ b) (S n).
Lemma runs_len p rest t l n : runs p rest t l n -> (n <= length t)%nat.
Proof. induction 1 as [|w tok t a b n _ Ht _ _ _ IH]; [auto|]. rewrite !app_length. destruct tok; [congruence|]. cbn. lia. Qed.
Lemma runs_more p rest t l n k : runs p rest t l n -> p (skip rest) = None -> (n <= k)%nat -> more k p (t ++ rest) = (rest, l).
Proof.
  intros H Hs. revert k. induction H as [|w tok t a b n Hw Ht Hh Hp _ IH]; intros k Hk.
  - destruct k; cbn; [reflexivity|]. rewrite Hs. reflexivity.
  - destruct k as [|k]; [lia|]. cbn [more]. rewrite <- !app_assoc, skip_to by (try exact Hw; rewrite hd_app by exact Ht; exact Hh).
    rewrite Hp. rewrite IH by lia. reflexivity.
Qed.
Lemma runs_star p rest t l n : runs p rest t l n -> ~ white (hd 0 t) -> p (skip rest) = None -> (t = [] -> skip rest = rest) ->
  star p (t ++ rest) = Some (rest, l).
Proof.
  intros H Hh Hs Hn. unfold star. destruct H as [|w tok t a b n Hw Ht Ht' Hp Hr].
  - rewrite (Hn eq_refl) in Hs. cbn. rewrite Hs. reflexivity.
  - destruct w as [|c w]; [|exfalso; apply Hh; inversion Hw; assumption]. cbn [app] in *. rewrite <- app_assoc, Hp.
    rewrite (runs_more _ _ _ _ _ _ Hr Hs); [reflexivity|]. pose proof (runs_len _ _ _ _ _ Hr). rewrite !app_length. lia.
Qed.
Lemma runs_plus p rest t l n : runs p rest t l n -> t <> [] -> ~ white (hd 0 t) -> p (skip rest) = None -> ((2 <= n)%nat \/ skip rest = rest) ->
  plus p (t ++ rest) = Some (rest, l).
Proof.
  intros H Hne Hh Hs Hn. unfold plus. destruct H as [|w tok t a b n Hw Ht Ht' Hp Hr]; [congruence|].
  destruct w as [|c w]; [|exfalso; apply Hh; inversion Hw; assumption]. cbn [app] in *. rewrite <- app_assoc.
  eapply seq_some; [exact Hp|]. destruct Hr as [|w2 tok2 t2 a2 b2 n2 Hw2 Ht2 Ht2' Hp2 Hr2].
  - cbn [app]. unfold star. rewrite Hs. destruct Hn as [Hn|Hn]; [lia|]. rewrite Hn. reflexivity.
  - rewrite <- !app_assoc, skip_to by (try exact Hw2; rewrite hd_app by exact Ht2; exact Ht2').
    unfold star. rewrite Hp2. rewrite (runs_more _ _ _ _ _ _ Hr2 Hs); [reflexivity|]. pose proof (runs_len _ _ _ _ _ Hr2). rewrite !app_length. lia.
Qed.
Lemma runs_app p rest t1 t2 l1 l2 n1 n2 : runs p (t2 ++ rest) t1 l1 n1 -> runs p rest t2 l2 n2 -> runs p rest (t1 ++ t2) (l1 ++ l2) (n1 + n2).
Proof.
  intros H1 H2. induction H1 as [|w tok t a b n Hw Ht Hh Hp _ IH]; [exact H2|]. rewrite <- !app_assoc. cbn.
  apply runs_cons; try assumption. rewrite <- app_assoc. exact Hp.
Qed.
(** A text of which each character that is not white is taken. *)
Lemma runs_text p rest t : (t = [] \/ ~ white (last t 0)) ->
  (forall u c v, t = u ++ c :: v -> ~ white c -> p (c :: v ++ rest) = Some (v ++ rest, [])) ->
  exists n, runs p rest t [] n /\ (t <> [] -> (1 <= n)%nat) /\ ((2 <= length t)%nat -> ~ white (hd 0 t) -> (2 <= n)%nat).
Proof.
  remember (length t) as k eqn:Ek. revert t Ek. induction k as [k IH] using lt_wf_ind. intros t -> Hl Hp.
  destruct t as [|c t]; [exists 0%nat; split; [constructor|split; [congruence|cbn; lia]]|].
  assert (D : exists w d v, c :: t = w ++ d :: v /\ space w /\ ~ white d).
  { clear -Hl. destruct Hl as [|Hl]; [discriminate|]. revert c Hl. induction t as [|x t IH]; intros c Hl.
    - exists [], c, []. split; [reflexivity|]. split; [constructor|exact Hl].
    - destruct (is_ws c) eqn:E.
      + destruct (IH x Hl) as (w & d & v & Q & Hw & Hd). exists (c :: w), d, v. rewrite Q. split; [reflexivity|].
        split; [constructor; [apply is_ws_iff, E|exact Hw]|exact Hd].
      + exists [], c, (x :: t). split; [reflexivity|]. split; [constructor|]. intros W. apply is_ws_iff in W. congruence. }
  destruct D as (w & d & v & E & Hw & Hd).
  assert (Lv : v = [] \/ ~ white (last v 0)).
  { destruct v as [|y v]; [auto|]. right. destruct Hl as [|Hl]; [discriminate|]. rewrite E in Hl.
    assert (Q : forall (a : bytes), last (a ++ d :: y :: v) 0 = last (y :: v) 0).
    { induction a as [|z a IHa]; [reflexivity|]. rewrite <- IHa. cbn. destruct (a ++ d :: y :: v) eqn:Q; [destruct a; discriminate|reflexivity]. }
    rewrite Q in Hl. exact Hl. }
  destruct (IH (length v)) with (t := v) as (n & R & N1 & N2); try assumption; try reflexivity.
  { rewrite E. rewrite app_length. cbn. lia. }
  { intros u x y -> Hx. apply (Hp (w ++ d :: u)); [|exact Hx]. rewrite E, <- app_assoc. reflexivity. }
  exists (S n). split; [|split].
  - rewrite E. change (d :: v) with ([d] ++ v). change (@nil pair) with (@nil pair ++ []). apply runs_cons; try assumption; [discriminate|].
    cbn. apply (Hp w); [exact E|exact Hd].
  - lia.
  - intros H2 Hh. destruct w as [|x w].
    + cbn in E. injection E as -> ->. destruct v; [cbn in H2; lia|]. specialize (N1 ltac:(discriminate)). lia.
    + exfalso. apply Hh. inversion Hw; subst. cbn in E. injection E as -> _. assumption.
Qed.
(** Characters up to a stop. *)
Lemma take_char stop c s : stop (c :: s) = None -> ~ white c -> seq (pnot stop) any (c :: s) = Some (s, []).
Proof.
  intros H Hc. change (@nil pair) with (@nil pair ++ []). eapply seq_some; [apply pnot_ok, H|].
  rewrite skip_hd by exact Hc. reflexivity.
Qed.

Lemma lit_hd c p s : hd 0 s <> c -> lit (c :: p) s = None.
Proof. unfold lit. destruct s as [|b s]; [reflexivity|]. cbn. intros H. destruct (N.eqb_spec c b); [congruence|reflexivity]. Qed.
Lemma colon_n_none k s : hd 0 s <> 58 -> colon_n k s = None.
Proof. destruct k; [reflexivity|]. intros H. cbn [colon_n]. apply seq_none1, lit_hd, H. Qed.
Lemma colon_none s : hd 0 s <> 58 -> colon s = None.
Proof. apply colon_n_none. Qed.
Lemma colon_n_ok k w s : space w -> ~ white (hd 0 s) -> hd 0 s <> 58 -> colon_n (S k) (58 :: w ++ s) = Some (s, []).
Proof.
  intros Hw Hs Hn. cbn [colon_n]. change (@nil pair) with (@nil pair ++ []). eapply seq_some; [apply (lit_app [58])|].
  rewrite skip_to by assumption. apply pnot_ok, colon_n_none, Hn.
Qed.
Lemma colon_ok w s : space w -> ~ white (hd 0 s) -> hd 0 s <> 58 -> colon (58 :: w ++ s) = Some (s, []).
Proof. apply colon_n_ok. Qed.
Lemma colon_double s : ~ white (hd 0 s) -> hd 0 s <> 58 -> colon (58 :: 58 :: s) = None.
Proof.
  intros Hs Hn. unfold colon. change (seq (lit (str ":")) (pnot (colon_n (S (S (length s))))) (58 :: 58 :: s) = None). unfold seq.
  assert (Q : lit (str ":") (58 :: 58 :: s) = Some (58 :: s, [])) by reflexivity. rewrite Q. clear Q.
  rewrite skip_hd by (intros [H|[H|[H|H]]]; discriminate H). unfold pnot.
  pose proof (colon_n_ok (S (length s)) [] s (Forall_nil _) Hs Hn) as Q. cbn [app] in Q. rewrite Q. reflexivity.
Qed.

Ltac nw := let H := fresh in intros H; repeat destruct H as [H|H]; discriminate H.

(** *** Values *)

Definition expr_pair (w1 e w2 : bytes) : pair := Pair RExpression (braces w1 e w2) [Pair RExprValue e []].
Fixpoint val_pairs (v : val) : list pair :=
  match v with
  | VText t => [Pair RUnquoted t []]
  | VHex h => [Pair RColor (str "#" ++ h) [Pair ROther (str "#") []]]
  | VUrl t => [Pair RUrl (str "url('" ++ t ++ str "')") [Pair RQuoted (str "'" ++ t ++ str "'") []]]
  | VUrlExpr w1 e w2 => [Pair RUrl (str "url(" ++ braces w1 e w2 ++ str ")") [expr_pair w1 e w2]]
  | VEnd w1 e w2 => [expr_pair w1 e w2]
  | VThen w1 e w2 _ v => expr_pair w1 e w2 :: val_pairs v
  end.

Lemma in_hd (t : bytes) : t <> [] -> In (hd 0 t) t.
Proof. destruct t; [congruence|left; reflexivity]. Qed.
Lemma lit_not c p s : c <> hd 0 s -> lit (c :: p) s = None.
Proof. intros H. apply lit_hd. congruence. Qed.

Lemma expression_ok w1 e w2 rest : ok_expr w1 e w2 -> expression (braces w1 e w2 ++ rest) = Some (rest, [expr_pair w1 e w2]).
Proof.
  intros (Hw1 & Hw2 & (He & Hh & Hl) & Hb). unfold expression, expr_pair. apply node_some. unfold braces.
  change [Pair RExprValue e []] with ([] ++ [Pair RExprValue e []]).
  rewrite <- !app_assoc. eapply seq_some; [apply (lit_app [123])|].
  rewrite skip_to by (try exact Hw1; rewrite hd_app by exact He; exact Hh).
  change [Pair RExprValue e []] with ([Pair RExprValue e []] ++ []). eapply seq_some.
  - unfold expression_value. apply node_some.
    destruct (runs_text (seq (pnot brace_right) any) (w2 ++ str "}" ++ rest) e) as (n & R & _).
    + right. exact Hl.
    + intros u c v -> Hc. apply take_char; [|exact Hc]. apply lit_hd. cbn. intros ->. apply (Hb 125); [apply in_or_app; right; left; reflexivity|right; left; reflexivity].
    + eapply runs_star; [exact R|exact Hh| |congruence]. rewrite skip_to by (try exact Hw2; nw). reflexivity.
  - rewrite skip_to by (try exact Hw2; nw). apply (lit_app [125]).
Qed.
Lemma expression_none s : hd 0 s <> 123 -> expression s = None.
Proof. intros H. apply node_none, seq_none1, lit_hd, H. Qed.
Lemma color_none s : hd 0 s <> 35 -> strip (str "rgb(") s = None -> strip (str "hsl(") s = None -> color_value s = None.
Proof.
  intros H1 H2 H3. apply node_none. unfold hexa_value, hex_value, rgba_value, rgb_value, hsla_value, hsl_value.
  rewrite !alt_r; try (apply seq_none1); try (apply node_none); try (apply lit_hd; exact H1); apply lit_none; assumption.
Qed.
Lemma unquoted_ok t rest : simple t -> unquoted_value (t ++ 59 :: rest) = Some (59 :: rest, [Pair RUnquoted t []]).
Proof.
  intros ((He & Hh & Hl) & Hb). apply node_some.
  destruct (runs_text (seq (pnot semicolon) any) (59 :: rest) t) as (n & R & _).
  - right. exact Hl.
  - intros u c v -> Hc. apply take_char; [|exact Hc]. apply lit_hd. cbn. intros ->. apply (Hb 59); [apply in_or_app; right; left; reflexivity|left; reflexivity].
  - eapply runs_plus; [exact R|exact He|exact Hh|reflexivity|right; reflexivity].
Qed.
Lemma is_hex_ok c : hex_char c -> is_hex c = true /\ ~ white c.
Proof.
  intros H. split.
  - unfold is_hex, is_digit. destruct H as [[A B]|[[A B]|[A B]]]; apply N.leb_le in A, B; rewrite A, B; cbn; rewrite ?orb_true_r; reflexivity.
  - unfold white, hex_char in *. lia.
Qed.
Lemma times_ok n h rest : Forall hex_char h -> length h = S n -> times (S n) (one is_hex) (h ++ 59 :: rest) = Some (59 :: rest, []).
Proof.
  revert h. induction n as [|n IH]; intros [|c h] Hh Hl; try discriminate Hl; inversion Hh as [|? ? Hc Hh']; subst; destruct (is_hex_ok c Hc) as [H1 H2].
  - destruct h; [|discriminate Hl]. cbn. rewrite H1. reflexivity.
  - change (times (S (S n)) (one is_hex)) with (seq (one is_hex) (times (S n) (one is_hex))). change (@nil pair) with (@nil pair ++ []).
    eapply seq_some; [cbn; rewrite H1; reflexivity|]. destruct h as [|d h]; [discriminate Hl|]. inversion Hh' as [|? ? Hd _]; subst.
    rewrite skip_hd by (apply (is_hex_ok d Hd)). apply IH; [exact Hh'|cbn in *; lia].
Qed.
Lemma times_short n h rest : Forall hex_char h -> (length h < S n)%nat -> times (S n) (one is_hex) (h ++ 59 :: rest) = None.
Proof.
  revert h. induction n as [|n IH]; intros h Hh Hl.
  - destruct h; [reflexivity|cbn in Hl; lia].
  - change (times (S (S n)) (one is_hex)) with (seq (one is_hex) (times (S n) (one is_hex))). destruct h as [|c h]; [reflexivity|].
    inversion Hh as [|? ? Hc Hh']; subst. destruct (is_hex_ok c Hc) as [H1 H2]. unfold seq. cbn [app one]. rewrite H1.
    assert (Q : skip (h ++ 59 :: rest) = h ++ 59 :: rest).
    { destruct h as [|d h]; [reflexivity|]. inversion Hh' as [|? ? Hd _]; subst. apply skip_hd. apply (is_hex_ok d Hd). }
    rewrite Q, IH; [reflexivity|exact Hh'|cbn in Hl; lia].
Qed.
Lemma hex_ok h rest : Forall hex_char h -> (length h = 6%nat \/ length h = 8%nat) ->
  color_value ((str "#" ++ h) ++ 59 :: rest) = Some (59 :: rest, [Pair RColor (str "#" ++ h) [Pair ROther (str "#") []]]).
Proof.
  intros Hh Hl. apply node_some. rewrite <- app_assoc.
  assert (Hash : hash (str "#" ++ h ++ 59 :: rest) = Some (h ++ 59 :: rest, [Pair ROther (str "#") []])) by (apply node_some, (lit_app [35])).
  assert (Q : skip (h ++ 59 :: rest) = h ++ 59 :: rest).
  { destruct h as [|d h]; [reflexivity|]. inversion Hh as [|? ? Hd _]; subst. apply skip_hd. apply (is_hex_ok d Hd). }
  change [Pair ROther (str "#") []] with ([Pair ROther (str "#") []] ++ []).
  destruct Hl as [Hl|Hl].
  - rewrite alt_r by (unfold hexa_value, seq; rewrite Hash, Q, times_short by (try exact Hh; lia); reflexivity).
    apply alt_l. eapply seq_some; [exact Hash|]. rewrite Q. apply times_ok; assumption.
  - apply alt_l. eapply seq_some; [exact Hash|]. rewrite Q. apply times_ok; assumption.
Qed.
Lemma print_val_hd v : ok_val v -> print_val v <> [] /\ ~ white (hd 0 (print_val v)) /\ hd 0 (print_val v) <> 58.
Proof.
  destruct v; cbn [ok_val print_val].
  - intros [[(A & B & _) _] [C _]]. auto.
  - intros _. split; [discriminate|]. split; [nw|discriminate].
  - intros _. split; [discriminate|]. split; [nw|discriminate].
  - intros _. split; [discriminate|]. split; [nw|discriminate].
  - intros _. split; [discriminate|]. split; [nw|discriminate].
  - intros _. split; [discriminate|]. split; [nw|discriminate].
Qed.
Lemma simple_none rest : simple_value (59 :: rest) = None.
Proof. reflexivity. Qed.
Lemma not_in_hd cs c t : without cs t -> In c cs -> t <> [] -> hd 0 t <> c.
Proof. intros W I N <-. exact (W _ (in_hd t N) I). Qed.
Definition is_url (v : val) : bool := match v with VUrl _ | VUrlExpr _ _ _ => true | _ => false end.
Lemma val_runs v rest : ok_val v -> is_url v = false -> exists n, runs simple_value (59 :: rest) (print_val v) (val_pairs v) n.
Proof.
  assert (One : forall p tok r a, tok <> [] -> ~ white (hd 0 tok) -> p (tok ++ r) = Some (r, a) -> exists n, runs p r tok a n).
  { intros p tok r a H1 H2 H3. exists 1%nat. rewrite <- (app_nil_r tok), <- (app_nil_r a). change (tok ++ []) with ([] ++ tok ++ []).
    apply runs_cons; [constructor|exact H1|exact H2|exact H3|constructor]. }
  induction v as [t|h|t|w1 e w2|w1 e w2|w1 e w2 w v IH]; intros Hok Hu; try discriminate Hu; cbn [print_val val_pairs ok_val] in *.
  - destruct Hok as (Hs & H58 & H35 & Hr & Hq). destruct Hs as [(He & Hh & Hl) Hb]. apply One; try assumption. unfold simple_value.
    rewrite alt_r by (apply expression_none; rewrite hd_app by exact He; apply (not_in_hd _ _ _ Hb); [right; left; reflexivity|exact He]).
    rewrite alt_r by (apply color_none; [rewrite hd_app by exact He; exact H35|apply strip_none; [exact Hr|intros Q; cbn in Q; repeat destruct Q as [Q|Q]; discriminate Q || exact Q]|apply strip_none; [exact Hq|intros Q; cbn in Q; repeat destruct Q as [Q|Q]; discriminate Q || exact Q]]).
    apply alt_l, unquoted_ok. split; [split; [exact He|split; [exact Hh|exact Hl]]|exact Hb].
  - apply One; [discriminate|nw|]. unfold simple_value. rewrite alt_r by (apply expression_none; discriminate).
    apply alt_l, hex_ok; apply Hok.
  - apply One; [discriminate|nw|]. apply alt_l, expression_ok, Hok.
  - destruct Hok as (He & Hw & _ & Hv). assert (Hv' : ok_val v /\ is_url v = false) by (destruct v; try contradiction; auto).
    destruct Hv' as [Hv1 Hv2]. destruct (IH Hv1 Hv2) as [n R]. exists (S n).
    change (expr_pair w1 e w2 :: val_pairs v) with ([expr_pair w1 e w2] ++ val_pairs v).
    change (braces w1 e w2 ++ w ++ print_val v) with ([] ++ braces w1 e w2 ++ w ++ print_val v).
    apply runs_cons; [constructor|discriminate|nw| |].
    + apply alt_l, expression_ok, He.
    + destruct (print_val_hd v Hv1) as [Hne _]. inversion R as [Q|w' tok t a b m Hw' Ht Hh Hp R' Q1 Q2 Q3]; [congruence|].
      rewrite app_assoc. apply runs_cons; try assumption. apply Forall_app. auto.
Qed.
Ltac notin := let Q := fresh in intros Q; cbn in Q; repeat destruct Q as [Q|Q]; discriminate Q || exact Q.
Lemma quoted_ok t rest : simple t -> without [39] t ->
  quoted_value ((str "'" ++ t ++ str "'") ++ rest) = Some (rest, [Pair RQuoted (str "'" ++ t ++ str "'") []]).
Proof.
  intros ((He & Hh & Hl) & _) Hb. apply node_some. apply alt_l. unfold quoted_with. change (@nil pair) with (@nil pair ++ ([] ++ [])).
  rewrite <- !app_assoc. eapply seq_some; [apply (lit_app [39])|].
  rewrite skip_hd by (rewrite hd_app by exact He; exact Hh). eapply seq_some.
  - destruct (runs_text (seq (pnot (lit (str "'"))) any) (str "'" ++ rest) t) as (n & R & _).
    + right. exact Hl.
    + intros u c v -> Hc. apply take_char; [|exact Hc]. apply lit_hd. cbn. intros ->. apply (Hb 39); [apply in_or_app; right; left; reflexivity|left; reflexivity].
    + eapply runs_plus; [exact R|exact He|exact Hh|reflexivity|right; reflexivity].
  - rewrite skip_hd by nw. apply (lit_app [39]).
Qed.
Lemma url_none s : strip (str "url(") s = None -> url_value s = None.
Proof. intros H. apply node_none, seq_none1, lit_none, H. Qed.
Lemma value_ok v rest : ok_whole v -> value (print_val v ++ 59 :: rest) = Some (59 :: rest, val_pairs v).
Proof.
  intros [Hv Hu]. destruct (is_url v) eqn:U.
  - destruct v; try discriminate U; cbn [print_val val_pairs].
    + apply alt_l. apply node_some. cbn [ok_val] in Hv.
      match goal with |- _ = Some (_, ?l) => change l with ([] ++ l) end.
      change (str "url('" ++ t ++ str "')") with (str "url(" ++ str "'" ++ t ++ str "')"). rewrite <- !app_assoc. eapply seq_some; [apply (lit_app (str "url("))|].
      rewrite skip_hd by nw. match goal with |- _ = Some (_, ?l) => change l with (l ++ []) end.
      change (str "')" ++ 59 :: rest) with (str "'" ++ str ")" ++ 59 :: rest). eapply seq_some.
      * rewrite alt_r by (apply expression_none; discriminate). rewrite app_assoc, (app_assoc _ _ (str ")" ++ _)), <- (app_assoc (str "'")). apply quoted_ok; apply Hv.
      * rewrite skip_hd by nw. apply (lit_app (str ")")).
    + apply alt_l. apply node_some. cbn [ok_val] in Hv.
      match goal with |- _ = Some (_, ?l) => change l with ([] ++ l) end.
      rewrite <- !app_assoc. eapply seq_some; [apply (lit_app (str "url("))|].
      rewrite skip_hd by nw. match goal with |- _ = Some (_, ?l) => change l with (l ++ []) end. eapply seq_some.
      * apply alt_l, expression_ok, Hv.
      * rewrite skip_hd by nw. apply (lit_app (str ")")).
  - destruct (print_val_hd v Hv) as (N1 & N2 & _). unfold value. rewrite alt_r.
    + destruct (val_runs v rest Hv U) as [n R]. eapply runs_plus; [exact R|exact N1|exact N2|reflexivity|right; reflexivity].
    + apply url_none. destruct v; try discriminate U; try reflexivity.
      apply strip_none; [exact Hu|notin].
Qed.

(** *** Rules *)

Lemma name_char_ok c : name_char c -> (lower c || (c =? 45)) = true /\ ~ white c.
Proof.
  intros H. split.
  - unfold lower. destruct H as [[A B]| ->]; [apply N.leb_le in A, B; rewrite A, B|]; reflexivity.
  - unfold name_char, white in *. lia.
Qed.
Lemma ident_ok n rest : Forall name_char n -> (2 <= length n)%nat -> rule_ident (n ++ 58 :: rest) = Some (58 :: rest, [Pair RIdent n []]).
Proof.
  intros Hn Hl. apply node_some. destruct n as [|a [|b n]]; [cbn in Hl; lia|cbn in Hl; lia|]. clear Hl. inversion Hn as [|? ? Ha Hn']; subst.
  destruct (name_char_ok a Ha) as [A1 A2]. change (@nil pair) with (@nil pair ++ []). eapply seq_some.
  - cbn [app one]. replace (lower a || (a =? 64) || (a =? 45)) with true; [reflexivity|].
    destruct (lower a); [reflexivity|]. destruct (a =? 64); [reflexivity|]. symmetry. exact A1.
  - assert (Hb : ~ white b) by (inversion Hn'; subst; eapply name_char_ok; assumption). rewrite skip_hd by exact Hb.
    destruct (runs_text (one (fun c => lower c || (c =? 45))) (58 :: rest) (b :: n)) as (k & R & _).
    + right. assert (Q : In (last (b :: n) 0) (b :: n)).
      { clear. revert b. induction n as [|x n IH]; intros b; [left; reflexivity|]. right. apply IH. }
      rewrite Forall_forall in Hn'. eapply name_char_ok, Hn', Q.
    + intros u c v E _. assert (Hc : name_char c) by (rewrite Forall_forall in Hn'; apply Hn'; rewrite E; apply in_or_app; right; left; reflexivity).
      cbn [one]. rewrite (proj1 (name_char_ok c Hc)). reflexivity.
    + change (b :: n ++ 58 :: rest) with ((b :: n) ++ 58 :: rest). eapply runs_plus; [exact R|discriminate|exact Hb|reflexivity|right; reflexivity].
Qed.
Definition decl_pair (n w : bytes) (v : val) : pair := Pair RUnknown (print (Decl n w v)) (Pair RIdent n [] :: val_pairs v).
Lemma unknown_ok n w v rest : ok_name n -> space w -> ok_whole v ->
  unknown_rule (print (Decl n w v) ++ rest) = Some (rest, [decl_pair n w v]).
Proof.
  intros (N1 & N2 & N3) Hw Hv. apply node_some. cbn [print]. rewrite <- !app_assoc. cbn [app].
  assert (Hn : n <> [] /\ ~ white (hd 0 n)).
  { destruct n as [|a n]; [cbn in N2; lia|]. split; [discriminate|]. inversion N1; subst. eapply name_char_ok. eassumption. }
  change (Pair RIdent n [] :: val_pairs v) with ([] ++ ([Pair RIdent n []] ++ ([] ++ val_pairs v))).
  eapply seq_some; [apply pnot_ok, lit_none, strip_none; [exact N3|notin]|].
  rewrite skip_hd by (rewrite hd_app by apply Hn; apply Hn). eapply seq_some; [apply ident_ok; assumption|].
  rewrite skip_hd by nw. destruct (print_val_hd v (proj1 Hv)) as (V1 & V2 & V3). eapply seq_some.
  - apply colon_ok; [exact Hw|rewrite hd_app by exact V1; exact V2|rewrite hd_app by exact V1; exact V3].
  - rewrite skip_hd by (rewrite hd_app by exact V1; exact V2). rewrite <- (app_nil_r (val_pairs v)). eapply seq_some.
    + apply value_ok, Hv.
    + rewrite skip_hd by nw. apply (lit_app (str ";")).
Qed.
Lemma comment_ok w1 t w2 rest : ok (Comment w1 t w2) -> comment (print (Comment w1 t w2) ++ rest) = Some (rest, []).
Proof.
  intros (Hw1 & Hw2 & Ht & Hn). cbn [print]. rewrite <- !app_assoc. change (@nil pair) with (@nil pair ++ ([] ++ [])).
  eapply seq_some; [apply (lit_app (str "/*"))|].
  assert (St : forall u, seq (pnot (lit (str "*/"))) any (str "*/" ++ u) = None) by reflexivity.
  assert (C : forall u c v, t = u ++ c :: v -> ~ white c -> seq (pnot (lit (str "*/"))) any (c :: v ++ w2 ++ str "*/" ++ rest) = Some (v ++ w2 ++ str "*/" ++ rest, [])).
  { intros u c v -> Hc. apply take_char; [|exact Hc]. apply lit_none. destruct (strip (str "*/") (c :: v ++ w2 ++ str "*/" ++ rest)) as [r|] eqn:E; [|reflexivity].
    exfalso. apply strip_sound in E. change (str "*/" ++ r) with (42 :: 47 :: r) in E. injection E as -> E.
    destruct v as [|d v]; [|injection E as -> _; apply (Hn u v); reflexivity].
    destruct w2 as [|d w2]; [discriminate E|]. injection E as -> _. inversion Hw2 as [|? ? Hd _]; subst. revert Hd. nw. }
  destruct Ht as [->|(He & Hh & Hl)].
  - cbn [app]. rewrite app_assoc, skip_to by (try nw; apply Forall_app; auto). change (@nil pair) with (@nil pair ++ []).
    eapply seq_some; [unfold star; rewrite St; reflexivity|]. rewrite skip_hd by nw. apply (lit_app (str "*/")).
  - rewrite skip_to by (try exact Hw1; rewrite hd_app by exact He; exact Hh).
    destruct (runs_text _ _ t (or_intror Hl) C) as (n & R & _). eapply seq_some.
    + eapply runs_star; [exact R|exact Hh| |congruence]. rewrite skip_to by (try exact Hw2; nw). reflexivity.
    + rewrite skip_to by (try exact Hw2; nw). apply (lit_app (str "*/")).
Qed.

Definition cstop := alt colon (alt bracket_left brace_left).
Lemma cstop_none s : hd 0 s <> 58 -> hd 0 s <> 91 -> hd 0 s <> 123 -> cstop s = None.
Proof.
  intros A B C. unfold cstop. rewrite alt_r by (apply colon_none, A). rewrite alt_r by (apply node_none, lit_hd, B). apply lit_hd, C.
Qed.
(** What ends a selector. *)
Definition ends (s : bytes) : Prop := exists w c r, s = w ++ c :: r /\ space w /\ (c = 91 \/ c = 123).
Lemma ends_stop p s : ends s -> seq (pnot cstop) p (skip s) = None.
Proof.
  intros (w & c & r & -> & Hw & Hc). rewrite skip_to by (try exact Hw; destruct Hc as [-> | ->]; nw).
  apply seq_none1. unfold pnot, cstop. rewrite alt_r by (apply colon_none; destruct Hc as [-> | ->]; discriminate).
  destruct Hc as [-> | ->]; reflexivity.
Qed.
Lemma sel_text a rest : without [58; 91; 123; 125] a -> forall u c v, a = u ++ c :: v -> ~ white c ->
  seq (pnot cstop) (alt double_colon any) (c :: v ++ rest) = Some (v ++ rest, []).
Proof.
  intros Hb u c v -> Hc. assert (Hi : In c (u ++ c :: v)) by (apply in_or_app; right; left; reflexivity).
  assert (Q : forall x, In x [58; 91; 123; 125] -> c <> x) by (intros x Hx ->; exact (Hb _ Hi Hx)).
  change (@nil pair) with (@nil pair ++ []). eapply seq_some.
  - apply pnot_ok, cstop_none; apply Q; cbn; auto.
  - rewrite skip_hd by exact Hc. rewrite alt_r; [reflexivity|]. apply lit_hd. apply Q. cbn; auto.
Qed.
Lemma selector_ok s rest : ok_sel s -> s <> None -> ends rest ->
  sub_selector (print_sel s ++ rest) = Some (rest, [Pair RSubSelector (print_sel s) []]).
Proof.
  intros Hs Hn He. apply node_some. change (@nil pair) with (@nil pair ++ []).
  assert (Q : forall a x, solid a -> without [58; 91; 123; 125] a -> colon (str ":" ++ a ++ x) = Some (a ++ x, []) /\ skip (a ++ x) = a ++ x).
  { intros a x (A1 & A2 & A3) Hb. split.
    - apply (colon_ok []); [constructor| |]; cbn [app]; rewrite hd_app by exact A1; [exact A2|]. apply (not_in_hd _ _ _ Hb); [left; reflexivity|exact A1].
    - apply skip_hd. rewrite hd_app by exact A1. exact A2. }
  destruct s as [[a [b|]]|]; [| |congruence]; cbn [print_sel ok_sel] in *.
  - destruct Hs as [[Sa Wa] [Sb Wb]]. rewrite <- !app_assoc. destruct (Q a (str "::" ++ b ++ rest) Sa Wa) as [Q1 Q2].
    eapply seq_some; [exact Q1|]. rewrite Q2. destruct Sa as (A1 & A2 & A3). destruct Sb as (B1 & B2 & B3).
    destruct (runs_text _ (str "::" ++ b ++ rest) a (or_intror A3) (sel_text a _ Wa)) as (n & R1 & N1 & _).
    destruct (runs_text _ rest b (or_intror B3) (sel_text b rest Wb)) as (m & R2 & N2 & _).
    assert (R : runs (seq (pnot cstop) (alt double_colon any)) rest (a ++ str "::" ++ b) ([] ++ []) (n + S m)).
    { apply runs_app; [rewrite <- app_assoc; exact R1|]. change (str "::" ++ b) with ([] ++ str "::" ++ b). change (@nil pair) with (@nil pair ++ []).
      apply runs_cons; [constructor|discriminate|nw| |exact R2]. change (@nil pair) with (@nil pair ++ []). eapply seq_some.
      - apply pnot_ok. unfold cstop. rewrite alt_r; [reflexivity|]. apply colon_double; rewrite hd_app by exact B1; [exact B2|].
        apply (not_in_hd _ _ _ Wb); [left; reflexivity|exact B1].
      - rewrite skip_hd by nw. apply alt_l, (lit_app (str "::")). }
    replace (a ++ str "::" ++ b ++ rest) with ((a ++ str "::" ++ b) ++ rest) by (rewrite <- !app_assoc; reflexivity).
    eapply runs_plus; [exact R|destruct a; [congruence|discriminate]|rewrite hd_app by exact A1; exact A2|apply ends_stop, He|].
    left. specialize (N1 A1). lia.
  - destruct Hs as (Sa & Wa & La). rewrite <- !app_assoc. destruct (Q a rest Sa Wa) as [Q1 Q2].
    eapply seq_some; [exact Q1|]. rewrite Q2. destruct Sa as (A1 & A2 & A3).
    destruct (runs_text _ rest a (or_intror A3) (sel_text a rest Wa)) as (n & R & _ & N2).
    eapply runs_plus; [exact R|exact A1|exact A2|apply ends_stop, He|]. left. apply N2; assumption.
Qed.
Lemma ident_char_ok c : ident_char c \/ (48 <= c /\ c <= 57) -> ~ white c /\ ~ In c [58; 91; 93; 123; 125].
Proof. unfold ident_char, white. cbn. lia. Qed.
Lemma ok_ref_chars r : ok_ref r -> r <> [] /\ Forall (fun c => ident_char c \/ (48 <= c /\ c <= 57)) r.
Proof. destruct r as [|c r]; [contradiction|]. intros [H1 H2]. split; [discriminate|]. constructor; auto. Qed.
Definition ref_text (r : bytes) : bytes := str "[" ++ r ++ str "]".
Definition ref_pair (r : bytes) : pair := Pair RSubRef (ref_text r) [Pair ROther (str "[") []].
Lemma last_app_one (a : bytes) c d : last (a ++ [c]) d = c.
Proof. induction a as [|x a IH]; [reflexivity|]. cbn. destruct (a ++ [c]) eqn:E; [destruct a; discriminate|exact IH]. Qed.
Lemma ref_ok r rest : ok_ref r -> ends rest -> sub_selector_ref (ref_text r ++ rest) = Some (rest, [ref_pair r]).
Proof.
  intros Hr He. destruct (ok_ref_chars r Hr) as [Hn Hc]. apply node_some. unfold ref_text.
  change [Pair ROther (str "[") []] with ([Pair ROther (str "[") []] ++ []). rewrite <- !app_assoc. eapply seq_some; [apply node_some, (lit_app [91])|].
  assert (Hh : ~ white (hd 0 r)) by (rewrite Forall_forall in Hc; apply ident_char_ok, Hc, in_hd, Hn).
  rewrite skip_hd by (rewrite hd_app by exact Hn; exact Hh).
  destruct (runs_text (seq (pnot cstop) any) rest (r ++ str "]")) as (n & R & _ & N).
  - right. change (str "]") with [93]. rewrite last_app_one. nw.
  - intros u c v E _. assert (Hi : In c (r ++ [93])) by (change [93] with (str "]"); rewrite E; apply in_or_app; right; left; reflexivity).
    assert (Q : ~ white c /\ ~ In c [58; 91; 123]).
    { apply in_app_or in Hi. destruct Hi as [Hi|[<-|[]]].
      - rewrite Forall_forall in Hc. destruct (ident_char_ok c (Hc c Hi)) as [Q1 Q2]. split; [exact Q1|]. cbn in *. tauto.
      - split; [nw|notin]. }
    apply take_char; [|apply Q]. apply cstop_none; intros Q'; cbn in Q'; subst c; apply Q; cbn; auto.
  - rewrite app_assoc. eapply runs_plus; [exact R|destruct r; discriminate|rewrite hd_app by exact Hn; exact Hh|apply ends_stop, He|].
    left. apply N; [rewrite app_length; destruct r; [congruence|cbn; lia]|rewrite hd_app by exact Hn; exact Hh].
Qed.
Definition refs_text (refs : list (bytes * bytes)) : bytes := flat_map (fun r => fst r ++ ref_text (snd r)) refs.
Lemma refs_runs refs w rest : Forall (fun r => space (fst r) /\ ok_ref (snd r)) refs -> space w ->
  runs sub_selector_ref (w ++ 123 :: rest) (refs_text refs) (map (fun r => ref_pair (snd r)) refs) (length refs).
Proof.
  intros Hr Hw. induction Hr as [|[v r] refs [Hv Hr] Hrs IH]; [constructor|]. cbn [refs_text flat_map map fst snd length].
  rewrite <- app_assoc. change (ref_pair r :: map (fun r => ref_pair (snd r)) refs) with ([ref_pair r] ++ map (fun r => ref_pair (snd r)) refs).
  apply runs_cons; [exact Hv|discriminate|nw| |exact IH]. apply ref_ok; [exact Hr|]. destruct Hrs as [|[v' r'] refs [Hv' _] _].
  - exists w, 123, rest. auto.
  - exists v', 91, (r' ++ str "]" ++ flat_map (fun r => fst r ++ ref_text (snd r)) refs ++ w ++ 123 :: rest). split; [|auto].
    cbn [flat_map fst snd]. unfold ref_text. rewrite <- !app_assoc. reflexivity.
Qed.
Lemma skip_idem s : skip (skip s) = skip s.
Proof. induction s as [|c s IH]; [reflexivity|]. cbn. destruct (is_ws c) eqn:E; [exact IH|]. cbn. rewrite E. reflexivity. Qed.
Lemma runs_drop p rest t l n : runs p rest t l n -> t <> [] ->
  exists t', runs p rest t' l n /\ skip (t ++ rest) = t' ++ rest /\ t' <> [] /\ ~ white (hd 0 t').
Proof.
  intros H Hn. destruct H as [|w tok t a b n Hw Ht Hh Hp Hr]; [congruence|]. exists ([] ++ tok ++ t). split; [|split; [|split]].
  - apply runs_cons; try assumption. constructor.
  - rewrite <- !app_assoc. cbn [app]. apply skip_to; [exact Hw|]. rewrite hd_app by exact Ht. exact Hh.
  - destruct tok; [congruence|discriminate].
  - cbn [app]. rewrite hd_app by exact Ht. exact Hh.
Qed.
Lemma star_skip p rest t l n : runs p rest t l n -> p (skip rest) = None ->
  exists r, star p (skip (t ++ rest)) = Some (r, l) /\ skip r = skip rest.
Proof.
  intros H Hs. destruct t as [|c t].
  - exists (skip rest). split; [|apply skip_idem]. cbn [app]. unfold star. rewrite Hs.
    inversion H as [|w tok t a b m _ Ht _ _ _ Q]; [reflexivity|]. destruct w, tok; try discriminate Q; congruence.
  - destruct (runs_drop _ _ _ _ _ H) as (t' & R & E & Hn & Hh); [discriminate|]. exists rest. rewrite E. split; [|reflexivity].
    eapply runs_star; [exact R|exact Hh|exact Hs|congruence].
Qed.
Lemma plus_skip p rest t l n : runs p rest t l n -> p (skip rest) = None -> t <> [] ->
  exists r, plus p (skip (t ++ rest)) = Some (r, l) /\ skip r = skip rest.
Proof.
  intros H Hs Hn. destruct (runs_drop _ _ _ _ _ H Hn) as (t' & R & E & Hn' & Hh). rewrite E.
  destruct n as [|[|n]].
  - exists rest. split; [|reflexivity]. inversion R; subst; congruence.
  - exists (skip rest). split; [|apply skip_idem]. inversion R as [|w tok t2 a b m Hw Ht Hh2 Hp Hr Q1 Q2 Q3]; subst.
    inversion Hr; subst. cbn [app] in Hp. destruct w as [|x w]; [|exfalso; apply Hh; inversion Hw; assumption]. cbn [app].
    rewrite app_nil_r. unfold plus. eapply seq_some; [exact Hp|]. unfold star. rewrite Hs. reflexivity.
  - exists rest. split; [|reflexivity]. eapply runs_plus; [exact R|exact Hn'|exact Hh|exact Hs|left; lia].
Qed.

Section ItemInd.
  Variable P : item -> Prop.
  Hypothesis HD : forall n w v, P (Decl n w v).
  Hypothesis HS : forall sel refs w1 l w2 w3, Forall (fun p => P (snd p)) l -> P (Sub sel refs w1 l w2 w3).
  Hypothesis HM : forall w1 q w2 l w3 w4, Forall (fun p => P (snd p)) l -> P (Media w1 q w2 l w3 w4).
  Hypothesis HC : forall w1 t w2, P (Comment w1 t w2).
  Hypothesis HA : forall w1 p w2 fr w3, P (Anim w1 p w2 fr w3).
  Fixpoint item_rect' (i : item) : P i :=
    let all := fix all (l : list (bytes * item)) : Forall (fun p => P (snd p)) l :=
      match l with
      | [] => Forall_nil _
      | p :: t => Forall_cons p (item_rect' (snd p)) (all t)
      end in
    match i with
    | Decl n w v => HD n w v
    | Sub sel refs w1 l w2 w3 => HS sel refs w1 l w2 w3 (all l)
    | Media w1 q w2 l w3 w4 => HM w1 q w2 l w3 w4 (all l)
    | Comment w1 t w2 => HC w1 t w2
    | Anim w1 p w2 fr w3 => HA w1 p w2 fr w3
    end.
End ItemInd.

Definition dpair (d : decl) : pair := match d with (_, (n, w, v)) => decl_pair n w v end.
Definition step_pair (f : step_src) : pair := Pair RFrame (print_step f) (Pair RStep (s_num f ++ str "%") [] :: map dpair (s_rules f)).
Definition steps_text (x : list step_src * bytes) : bytes := str "{" ++ print_steps (fst x) ++ snd x ++ str "}".
Fixpoint item_pairs (i : item) : list pair :=
  match i with
  | Decl n w v => [decl_pair n w v]
  | Sub sel refs w1 l w2 w3 =>
      [Pair RSub (print i) (match sel with None => [] | _ => [Pair RSubSelector (print_sel sel) []] end ++
                            map (fun r => ref_pair (snd r)) refs ++ flat_map (fun p => item_pairs (snd p)) l)]
  | Media w1 q w2 l w3 w4 => [Pair RMedia (print i) (Pair RQuery q [] :: flat_map (fun p => item_pairs (snd p)) l)]
  | Comment _ _ _ => []
  | Anim w1 p w2 fr w3 => [Pair RAnimation (print i) (Pair RParams p [] ::
      match fr with None => [] | Some x => [Pair RFrames (steps_text x) (map step_pair (fst x))] end)]
  end.
Fixpoint depth (i : item) : nat :=
  match i with
  | Decl _ _ _ | Comment _ _ _ | Anim _ _ _ _ _ => 1
  | Sub _ _ _ l _ _ | Media _ _ _ l _ _ => S (fold_right (fun p m => Nat.max (depth (snd p)) m) 0%nat l)
  end.
Definition depth_all (l : list (bytes * item)) : nat := fold_right (fun p m => Nat.max (depth (snd p)) m) 0%nat l.

Lemma print_hd i : ok i -> print i <> [] /\ ~ white (hd 0 (print i)).
Proof.
  destruct i as [n w v|sel refs w1 l w2 w3|w1 q w2 l w3 w4|w1 t w2|w1 p w2 fr w3]; cbn [ok print]; intros H.
  - destruct H as [(N1 & N2 & _) _]. destruct n as [|c n]; [cbn in N2; lia|]. split; [discriminate|]. inversion N1; subst. eapply name_char_ok. eassumption.
  - destruct H as (H1 & H2 & H3 & _). destruct sel as [[a [b|]]|]; cbn [print_sel].
    + split; [discriminate|nw].
    + split; [discriminate|nw].
    + destruct refs as [|[v r] refs]; [contradiction|]. subst v. split; [discriminate|nw].
  - split; [discriminate|nw].
  - split; [discriminate|nw].
  - split; [discriminate|nw].
Qed.
Lemma rule_stop n r : rule n (125 :: r) = None.
Proof. destruct n; reflexivity. Qed.
Lemma rule_nil n : rule n [] = None.
Proof. destruct n; reflexivity. Qed.
Lemma ok_all_Forall l : ok_all l <-> Forall (fun p => space (fst p) /\ ok (snd p)) l.
Proof. unfold ok_all. induction l as [|p l IH]; cbn; split; auto; [intros [H1 H2]; constructor; tauto|intros H; inversion H; tauto]. Qed.
Lemma items_runs l n rest :
  Forall (fun p => ok (snd p) -> forall n rest, (depth (snd p) <= n)%nat -> rule n (print (snd p) ++ rest) = Some (rest, item_pairs (snd p))) l ->
  ok_all l -> (depth_all l <= n)%nat -> runs (rule n) rest (print_all l) (flat_map (fun p => item_pairs (snd p)) l) (length l).
Proof.
  intros IH. induction IH as [|[w i] l Hi _ IHl]; intros Ho Hd; [constructor|]. cbn [print_all flat_map fst snd length] in *.
  cbn [ok_all fold_right fst snd] in Ho. destruct Ho as [[Hw Hok] Ho]. cbn [depth_all fold_right snd] in Hd. destruct (print_hd i Hok) as [P1 P2].
  rewrite <- app_assoc. apply runs_cons; [exact Hw|exact P1|exact P2|apply Hi; [exact Hok|lia]|apply IHl; [exact Ho|]]. unfold depth_all. lia.
Qed.
Lemma unknown_none s : hd 0 s = 58 \/ hd 0 s = 91 -> s <> [] -> unknown_rule s = None.
Proof.
  intros H Hn. destruct s as [|c s]; [congruence|]. cbn in H. apply node_none. unfold seq at 1.
  rewrite pnot_ok by (apply lit_hd; cbn; destruct H as [-> | ->]; discriminate).
  rewrite skip_hd by (cbn; destruct H as [-> | ->]; nw). rewrite seq_none1; [reflexivity|]. apply node_none. destruct H as [-> | ->]; reflexivity.
Qed.
Lemma sub_ok rule' sel refs w1 l w2 w3 n rest :
  ok (Sub sel refs w1 l w2 w3) -> (forall r, rule' (125 :: r) = None) ->
  (forall rest, runs rule' rest (print_all l) (flat_map (fun p => item_pairs (snd p)) l) n) ->
  sub_rule rule' (print (Sub sel refs w1 l w2 w3) ++ rest) = Some (rest, item_pairs (Sub sel refs w1 l w2 w3)).
Proof.
  intros Hok Hstop Hruns. assert (Hok' := Hok). destruct Hok as (Hsel & Hrefs & Hsr & Hw1 & Hl & Hitems & Hw2 & Hw3).
  cbn [item_pairs]. apply node_some. cbn [print]. fold (print_all l). rewrite <- !app_assoc. cbn [app].
  change (flat_map (fun r => fst r ++ str "[" ++ snd r ++ str "]") refs) with (refs_text refs).
  set (body := print_all l ++ w2 ++ 125 :: w3 ++ 59 :: rest).
  change (str "{" ++ print_all l ++ w2 ++ str "}" ++ w3 ++ str ";" ++ rest) with (123 :: body).
  (* the rules and the end *)
  assert (B : seq brace_left (seq (plus rule') (seq brace_right (opt semicolon))) (123 :: body) = Some (rest, flat_map (fun p => item_pairs (snd p)) l)).
  { rewrite <- (app_nil_l (flat_map _ _)). eapply seq_some; [apply (lit_app [123])|].
    assert (Hne : print_all l <> []).
    { destruct l as [|[w i] l]; [congruence|]. cbn in Hitems. destruct Hitems as [[_ Hi] _]. destruct (print_hd i Hi) as [P _]. cbn.
      intros Q. apply app_eq_nil in Q. destruct Q as [Q _]. apply app_eq_nil in Q. tauto. }
    destruct (plus_skip rule' (w2 ++ 125 :: w3 ++ 59 :: rest) (print_all l) _ n (Hruns _)) as (r & R1 & R2).
    - rewrite skip_to by (try exact Hw2; nw). apply Hstop.
    - exact Hne.
    - unfold body. rewrite <- (app_nil_r (flat_map _ _)). eapply seq_some; [exact R1|]. rewrite R2, skip_to by (try exact Hw2; nw).
      change (@nil pair) with (@nil pair ++ []). eapply seq_some; [apply (lit_app [125])|]. rewrite skip_to by (try exact Hw3; nw).
      reflexivity. }
  assert (S0 : sub_selector_ref (skip (w1 ++ 123 :: body)) = None) by (rewrite skip_to by (try exact Hw1; nw); reflexivity).
  (* references, then the rules *)
  assert (C : forall refs, Forall (fun r => space (fst r) /\ ok_ref (snd r)) refs ->
    seq (star sub_selector_ref) (seq brace_left (seq (plus rule') (seq brace_right (opt semicolon)))) (skip (refs_text refs ++ w1 ++ 123 :: body)) =
      Some (rest, map (fun r => ref_pair (snd r)) refs ++ flat_map (fun p => item_pairs (snd p)) l)).
  { intros rs Hrs. destruct (star_skip _ _ _ _ _ (refs_runs rs w1 body Hrs Hw1) S0) as (r & R1 & R2).
    eapply seq_some; [exact R1|]. rewrite R2, skip_to by (try exact Hw1; nw). exact B. }
  assert (E : forall rs, Forall (fun r => space (fst r) /\ ok_ref (snd r)) rs -> ends (refs_text rs ++ w1 ++ 123 :: body)).
  { intros rs Hrs. destruct Hrs as [|[v r] rs [Hv _] _]; [exists w1, 123, body; auto|]. exists v, 91, (r ++ str "]" ++ refs_text rs ++ w1 ++ 123 :: body).
    split; [|auto]. cbn [refs_text flat_map fst snd]. unfold ref_text. rewrite <- !app_assoc. reflexivity. }
  destruct sel as [s|].
  - eapply seq_some.
    + unfold opt. rewrite (alt_l _ _ _ _ (selector_ok (Some s) _ Hsel ltac:(discriminate) (E refs Hrefs))). reflexivity.
    + apply C, Hrefs.
  - destruct refs as [|[v r] refs]; [contradiction|]. subst v. cbn [print_sel app]. inversion Hrefs as [|? ? [_ Hr] Hrefs']; subst. cbn [fst snd] in Hr.
    change (map (fun r0 => ref_pair (snd r0)) (([], r) :: refs) ++ flat_map (fun p => item_pairs (snd p)) l)
      with ([ref_pair r] ++ (map (fun r0 => ref_pair (snd r0)) refs ++ flat_map (fun p => item_pairs (snd p)) l)).
    eapply seq_some.
    + change (refs_text (([], r) :: refs)) with (ref_text r ++ refs_text refs). rewrite <- app_assoc. unfold opt.
      rewrite alt_r by (apply node_none, seq_none1, colon_none; discriminate).
      rewrite (ref_ok r _ Hr (E refs Hrefs')). reflexivity.
    + apply C, Hrefs'.
Qed.
Lemma media_ok rule' w1 q w2 l w3 w4 n rest :
  ok (Media w1 q w2 l w3 w4) -> (forall r, rule' (125 :: r) = None) ->
  (forall rest, runs rule' rest (print_all l) (flat_map (fun p => item_pairs (snd p)) l) n) ->
  media_rules rule' (print (Media w1 q w2 l w3 w4) ++ rest) = Some (rest, item_pairs (Media w1 q w2 l w3 w4)).
Proof.
  intros (Hw1 & ((Q1 & Q2 & Q3) & Qb) & Hw2 & Hitems & Hw3 & Hw4) Hstop Hruns.
  cbn [item_pairs]. apply node_some. cbn [print]. fold (print_all l). rewrite <- !app_assoc.
  match goal with |- _ = Some (_, ?x) => change x with ([] ++ ([Pair RQuery q []] ++ ([] ++ flat_map (fun p => item_pairs (snd p)) l))) end.
  eapply seq_some; [apply (lit_app (str "@media"))|]. rewrite skip_to by (try exact Hw1; rewrite hd_app by exact Q1; exact Q2).
  eapply seq_some.
  - apply node_some.
    destruct (runs_text (seq (pnot brace_left) any) (w2 ++ str "{" ++ print_all l ++ w3 ++ str "}" ++ w4 ++ str ";" ++ rest) q (or_intror Q3)) as (m & R & _).
    + intros u c v E Hc. apply take_char; [|exact Hc]. apply lit_hd. cbn. intros ->. apply (Qb 123); [rewrite E; apply in_or_app; right; left; reflexivity|cbn; auto].
    + eapply runs_star; [exact R|exact Q2| |congruence]. rewrite skip_to by (try exact Hw2; nw). reflexivity.
  - rewrite skip_to by (try exact Hw2; nw). eapply seq_some; [apply (lit_app [123])|].
    destruct (star_skip rule' (w3 ++ str "}" ++ w4 ++ str ";" ++ rest) (print_all l) _ n (Hruns _)) as (r & R1 & R2).
    + rewrite skip_to by (try exact Hw3; nw). apply Hstop.
    + rewrite <- (app_nil_r (flat_map _ _)). eapply seq_some; [exact R1|]. rewrite R2, skip_to by (try exact Hw3; nw).
      change (@nil pair) with (@nil pair ++ []). eapply seq_some; [apply (lit_app [125])|]. rewrite skip_to by (try exact Hw4; nw). apply (lit_app [59]).
Qed.
Lemma decls_runs l rest : Forall (fun d => space (fst d) /\ ok_decl (snd d)) l ->
  runs unknown_rule rest (flat_map (fun d : decl => fst d ++ print_decl (snd d)) l) (map dpair l) (length l).
Proof.
  induction 1 as [|[w [[n w'] v]] l [Hw Hd] _ IH]; [constructor|]. cbn [flat_map map fst snd length]. rewrite <- app_assoc.
  change (dpair (w, (n, w', v)) :: map dpair l) with ([decl_pair n w' v] ++ map dpair l).
  destruct (print_hd (Decl n w' v) Hd) as [P1 P2]. destruct Hd as (H1 & H2 & H3).
  apply runs_cons; [exact Hw|exact P1|exact P2| |exact IH]. apply (unknown_ok n w' v); assumption.
Qed.
Lemma step_ok f rest : ok_step f -> frame (print_step f ++ rest) = Some (rest, [step_pair f]).
Proof.
  destruct f as [w0 d w1 l w2]. intros (_ & Hd & Hc & Hw1 & (Hl & Hr) & Hw2). cbn [s_lead s_num s_w1 s_rules s_w2] in *. unfold frame, step_pair. apply node_some.
  unfold print_step. cbn [s_lead s_num s_w1 s_rules s_w2]. rewrite <- !app_assoc.
  change (Pair RStep (d ++ str "%") [] :: map dpair l) with ([Pair RStep (d ++ str "%") []] ++ ([] ++ map dpair l)).
  assert (Dw : forall c, In c d -> ~ white c) by (intros c Hi; rewrite Forall_forall in Hc; specialize (Hc c Hi); unfold digit_char, white in *; lia).
  eapply seq_some.
  - unfold step. rewrite app_assoc. apply node_some. rewrite <- app_assoc. change (@nil pair) with (@nil pair ++ []). eapply seq_some.
    + destruct (runs_text digit (str "%" ++ w1 ++ str "{" ++ flat_map (fun d : decl => fst d ++ print_decl (snd d)) l ++ w2 ++ str "}" ++ rest) d) as (n & R & _).
      * right. apply Dw. destruct d as [|c d]; [congruence|]. clear. revert c. induction d as [|x d IH]; intros c; [left; reflexivity|right; apply (IH x)].
      * intros u c v -> _. rewrite Forall_forall in Hc. assert (Hi : In c (u ++ c :: v)) by (apply in_or_app; right; left; reflexivity). specialize (Hc c Hi).
        unfold digit, one, is_digit, digit_char in *. destruct Hc as [A B]. apply N.leb_le in A, B. rewrite A, B. reflexivity.
      * eapply runs_plus; [exact R|exact Hd|apply Dw, in_hd, Hd|reflexivity|right; reflexivity].
    + rewrite skip_hd by nw. apply (lit_app (str "%")).
  - rewrite skip_to by (try exact Hw1; nw). eapply seq_some; [apply (lit_app (str "{"))|].
    assert (Hne : flat_map (fun d : decl => fst d ++ print_decl (snd d)) l <> []).
    { destruct l as [|[w [[n w'] v]] l]; [congruence|]. inversion Hr as [|? ? [_ Hk] _]; subst. destruct (print_hd (Decl n w' v) Hk) as [P _]. cbn [flat_map fst snd].
      intros Q. apply app_eq_nil in Q. destruct Q as [Q _]. apply app_eq_nil in Q. destruct Q as [_ Q]. exact (P Q). }
    destruct (plus_skip unknown_rule (w2 ++ str "}" ++ rest) _ _ _ (decls_runs l _ Hr)) as (r & R1 & R2).
    + rewrite skip_to by (try exact Hw2; nw). reflexivity.
    + exact Hne.
    + rewrite <- (app_nil_r (map dpair l)). eapply seq_some; [exact R1|]. rewrite R2, skip_to by (try exact Hw2; nw). apply (lit_app (str "}")).
Qed.
Lemma step_hd f : ok_step f -> print_step f <> [] /\ ~ white (hd 0 (print_step f)).
Proof.
  intros (_ & Hd & Hc & _). unfold print_step. destruct (s_num f) as [|c d]; [congruence|]. split; [discriminate|]. inversion Hc; subst. unfold digit_char, white in *. cbn. lia.
Qed.
Lemma steps_runs l rest : Forall ok_step l -> runs frame rest (print_steps l) (map step_pair l) (length l).
Proof.
  induction 1 as [|f l Hf _ IH]; [constructor|]. cbn [print_steps flat_map map length]. rewrite <- app_assoc. destruct (step_hd f Hf) as [P1 P2].
  change (step_pair f :: map step_pair l) with ([step_pair f] ++ map step_pair l).
  apply runs_cons; [apply Hf|exact P1|exact P2|apply step_ok, Hf|exact IH].
Qed.
Lemma frames_ok x rest : fst x <> [] -> Forall ok_step (fst x) -> space (snd x) ->
  frames (steps_text x ++ rest) = Some (rest, [Pair RFrames (steps_text x) (map step_pair (fst x))]).
Proof.
  destruct x as [l w]. cbn [fst snd]. intros Hl Ho Hw. apply node_some. unfold steps_text. cbn [fst snd]. rewrite <- !app_assoc.
  rewrite <- (app_nil_l (map step_pair l)). eapply seq_some; [apply (lit_app (str "{"))|].
  destruct (plus_skip frame (w ++ str "}" ++ rest) _ _ _ (steps_runs l _ Ho)) as (r & R1 & R2).
  - rewrite skip_to by (try exact Hw; nw). reflexivity.
  - destruct l as [|f l]; [congruence|]. inversion Ho as [|? ? Hf _]; subst. destruct (step_hd f Hf) as [P _]. cbn [print_steps flat_map].
    intros Q. apply app_eq_nil in Q. destruct Q as [Q _]. apply app_eq_nil in Q. destruct Q as [_ Q]. exact (P Q).
  - rewrite <- (app_nil_r (map step_pair l)). eapply seq_some; [exact R1|]. rewrite R2, skip_to by (try exact Hw; nw). apply (lit_app (str "}")).
Qed.
Lemma anim_ok w1 p w2 fr w3 rest : ok (Anim w1 p w2 fr w3) ->
  animation_rule (print (Anim w1 p w2 fr w3) ++ rest) = Some (rest, item_pairs (Anim w1 p w2 fr w3)).
Proof.
  intros (Hw1 & ((P1 & P2 & P3) & Pb) & Pc & Hw2 & Hf & Hw3). cbn [item_pairs]. apply node_some. cbn [print]. rewrite <- !app_assoc.
  set (tl := w2 ++ match fr with None => [] | Some (l, w) => str "{" ++ print_steps l ++ w ++ str "}" end ++ w3 ++ str ";" ++ rest).
  change (str "animation:" ++ w1 ++ p ++ tl) with (str "animation" ++ 58 :: w1 ++ p ++ tl).
  set (ps := match fr with None => [] | Some x => [Pair RFrames (steps_text x) (map step_pair (fst x))] end).
  change (Pair RParams p [] :: ps) with ([] ++ ([] ++ ([Pair RParams p []] ++ ps))).
  eapply seq_some; [apply (lit_app (str "animation"))|]. rewrite skip_hd by nw.
  eapply seq_some; [apply colon_ok; [exact Hw1|rewrite hd_app by exact P1; exact P2|rewrite hd_app by exact P1; exact Pc]|].
  rewrite skip_hd by (rewrite hd_app by exact P1; exact P2).
  assert (St : exists c x, skip tl = c :: x /\ (c = 123 \/ c = 59)).
  { unfold tl. destruct fr as [[l w]|]; [exists 123|exists 59]; eexists; (split; [|auto]).
    - rewrite skip_to by (try exact Hw2; nw). reflexivity.
    - cbn [app]. rewrite app_assoc, skip_to by (try nw; apply Forall_app; auto). reflexivity. }
  destruct St as (c0 & x0 & St & Hc0).
  eapply seq_some.
  - apply node_some. destruct (runs_text (seq (pnot (alt brace_left semicolon)) any) tl p (or_intror P3)) as (m & R & _).
    + intros u c v E Hc. apply take_char; [|exact Hc]. assert (Hi : In c p) by (rewrite E; apply in_or_app; right; left; reflexivity).
      rewrite alt_r by (apply lit_hd; cbn; intros ->; apply (Pb 123 Hi); cbn; auto). apply lit_hd. cbn. intros ->. apply (Pb 59 Hi). cbn; auto.
    + eapply runs_star; [exact R|exact P2| |congruence]. rewrite St. destruct Hc0 as [-> | ->]; reflexivity.
  - unfold tl, ps. destruct fr as [[l w]|].
    + destruct Hf as (L1 & L2 & L3). rewrite skip_to by (try exact Hw2; nw).
      change (str "{" ++ print_steps l ++ w ++ str "}") with (steps_text (l, w)).
      match goal with |- _ = Some (_, ?x) => change x with (x ++ []) end.
      eapply seq_some; [unfold opt; rewrite frames_ok by assumption; reflexivity|]. rewrite skip_to by (try exact Hw3; nw). apply (lit_app (str ";")).
    + cbn [app]. rewrite app_assoc, skip_to by (try nw; apply Forall_app; auto). change (@nil pair) with (@nil pair ++ []).
      eapply seq_some; [reflexivity|]. rewrite skip_hd by nw. apply (lit_app (str ";")).
Qed.
Lemma first_char c p s : lit (c :: p) s <> None -> hd 0 s = c.
Proof. intros H. destruct (N.eq_dec (hd 0 s) c); [assumption|]. elim H. apply lit_hd. assumption. Qed.
Lemma no_comment s : hd 0 s <> 47 -> comment s = None.
Proof. intros H. apply seq_none1, lit_hd, H. Qed.
Lemma no_media rule' s : hd 0 s <> 64 -> media_rules rule' s = None.
Proof. intros H. apply node_none, seq_none1, lit_hd, H. Qed.
Lemma no_animation s : hd 0 s <> 97 -> animation_rule s = None.
Proof. intros H. apply node_none, seq_none1, lit_hd, H. Qed.
Lemma rule_ok : forall i, ok i -> forall n rest, (depth i <= n)%nat -> rule n (print i ++ rest) = Some (rest, item_pairs i).
Proof.
  induction i as [m w v|sel refs w1 l w2 w3 IH|w1 q w2 l w3 w4 IH|w1 t w2|w1 p w2 fr w3] using item_rect'; intros Hok n rest Hn;
    (destruct n as [|n]; [cbn in Hn; lia|]); cbn [rule].
  - destruct Hok as (Hm & Hw & Hv). assert (Hm' := Hm). destruct Hm as (N1 & N2 & N3).
    assert (Hh : exists c t, m = c :: t /\ name_char c) by (destruct m as [|c t]; [cbn in N2; lia|]; inversion N1; eauto).
    destruct Hh as (c & t & -> & Hc).
    rewrite alt_r by (apply no_comment; cbn; unfold name_char in Hc; lia).
    rewrite alt_r.
    + apply alt_l, unknown_ok; assumption.
    + rewrite alt_r; [apply no_media; cbn; unfold name_char in Hc; lia|]. apply node_none, seq_none1, lit_none. cbn [print]. rewrite <- app_assoc.
      apply strip_none; [exact N3|notin].
  - assert (Hh : (hd 0 (print (Sub sel refs w1 l w2 w3) ++ rest) = 58 \/ hd 0 (print (Sub sel refs w1 l w2 w3) ++ rest) = 91)).
    { destruct Hok as (_ & _ & Hsr & _). destruct sel as [[a [b|]]|]; [left; reflexivity|left; reflexivity|].
      destruct refs as [|[v r] refs]; [contradiction|]. subst v. right. reflexivity. }
    destruct (print_hd _ Hok) as [P1 _].
    rewrite alt_r by (apply no_comment; destruct Hh as [-> | ->]; discriminate).
    rewrite alt_r by (rewrite alt_r by (apply no_animation; destruct Hh as [-> | ->]; discriminate); apply no_media; destruct Hh as [-> | ->]; discriminate).
    rewrite alt_r by (apply unknown_none; [exact Hh|intros Q; apply app_eq_nil in Q; tauto]).
    apply (sub_ok (rule n) _ _ _ _ _ _ (length l)); [exact Hok|apply rule_stop|]. intros r. apply items_runs; [exact IH|apply Hok|cbn in Hn; unfold depth_all; lia].
  - rewrite alt_r by (apply no_comment; discriminate). apply alt_l. rewrite alt_r by (apply no_animation; discriminate).
    apply (media_ok (rule n) _ _ _ _ _ _ (length l)); [exact Hok|apply rule_stop|]. intros r. apply items_runs; [exact IH|apply Hok|cbn in Hn; unfold depth_all; lia].
  - apply alt_l, comment_ok, Hok.
  - rewrite alt_r by (apply no_comment; discriminate). apply alt_l, alt_l, anim_ok, Hok.
Qed.
Lemma depth_len i : ok i -> (depth i <= length (print i))%nat.
Proof.
  induction i as [m w v|sel refs w1 l w2 w3 IH|w1 q w2 l w3 w4 IH|w1 t w2|w1 p w2 fr w3] using item_rect'; intros Hok.
  - destruct (print_hd _ Hok) as [P _]. destruct (print (Decl m w v)); [congruence|cbn; lia].
  - assert (H : ok_all l) by apply Hok. cbn [depth print]. change (str "{") with [123]. rewrite !app_length. cbn [length]. fold (print_all l).
    enough (fold_right (fun p m => Nat.max (depth (snd p)) m) 0%nat l <= length (print_all l))%nat by lia. clear -IH H.
    induction IH as [|[w i] l Hi _ IHl]; [cbn; lia|]. cbn [fold_right print_all flat_map fst snd]. rewrite !app_length.
    destruct H as [[_ Ho] H]. specialize (Hi Ho). specialize (IHl H). cbn [snd] in *. unfold print_all in IHl. lia.
  - assert (H : ok_all l) by apply Hok. cbn [depth print]. change (str "{") with [123]. rewrite !app_length. cbn [length]. fold (print_all l).
    enough (fold_right (fun p m => Nat.max (depth (snd p)) m) 0%nat l <= length (print_all l))%nat by lia. clear -IH H.
    induction IH as [|[w i] l Hi _ IHl]; [cbn; lia|]. cbn [fold_right print_all flat_map fst snd]. rewrite !app_length.
    destruct H as [[_ Ho] H]. specialize (Hi Ho). specialize (IHl H). cbn [snd] in *. unfold print_all in IHl. lia.
  - cbn. lia.
  - cbn. lia.
Qed.
Lemma block_ok l w : ok_all l -> space w -> css_block (print_all l ++ w) = Some (flat_map (fun p => item_pairs (snd p)) l).
Proof.
  intros Hok Hw. unfold css_block. set (n := S (length (print_all l ++ w))).
  assert (D : (depth_all l <= n)%nat).
  { unfold n. rewrite app_length. enough (depth_all l <= length (print_all l))%nat by lia. clear -Hok. induction l as [|[v i] l IH]; [cbn; lia|].
    cbn [depth_all fold_right print_all flat_map fst snd]. destruct Hok as [[_ Ho] H]. specialize (IH H). pose proof (depth_len i Ho).
    rewrite !app_length. unfold depth_all, print_all in IH. cbn [snd] in *. lia. }
  destruct (star_skip (rule n) w (print_all l) (flat_map (fun p => item_pairs (snd p)) l) (length l)) as (r & R1 & R2).
  - apply items_runs; [|exact Hok|exact D]. apply Forall_forall. intros p _. apply rule_ok.
  - rewrite <- (app_nil_r w), skip_space by exact Hw. apply rule_nil.
  - rewrite R1, R2. rewrite <- (app_nil_r w), skip_space by exact Hw. reflexivity.
Qed.
