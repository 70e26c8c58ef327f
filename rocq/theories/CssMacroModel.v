(** The [css!] macro: its grammar and the text it generates.

    Source: CP = /repo/crates/vertigo-macro/src/css_parser.rs, PE = /repo/crates/vertigo-macro/src/css.pest,
    ML = /repo/crates/vertigo-macro/src/lib.rs.  The grammar is that of the pest library: ordered choice without backtracking into a
    choice that has succeeded, [WHITESPACE] (PE 316) skipped between the parts of a sequence and of a repetition, [e+] is [e ~ e*]
    (as is [e] repeated n times a sequence), a rule that is not silent gives a pair with the text it has matched.  Texts are lists of
    characters. *)
From Coq Require Import String List NArith PeanoNat Bool.
From Verif Require Import CodecModel DomWire.
Import ListNotations.
Local Open Scope string_scope.
Local Open Scope list_scope.
Local Open Scope N_scope.

(** The rules of PE that are not silent and that CP asks for; [ROther] for others ([hash], [bracket_left], [step]). *)
Inductive rname := RSub | RSubSelector | RSubRef | RUnknown | RIdent | RUnquoted | RQuoted | RColor | RUrl | RExpression | RExprValue
                 | RAnimation | RMedia | RQuery | RParams | RFrames | RFrame | RStep | ROther.
(** pest's [Pair]: the rule, its text and the pairs within. *)
Inductive pair := Pair (r : rname) (t : bytes) (l : list pair).
(** What is left of the input, and the pairs. *)
Definition parser := bytes -> option (bytes * list pair).

(** PE 316: [WHITESPACE] *)
Definition is_ws (c : N) : bool := (c =? 32) || (c =? 9) || (c =? 13) || (c =? 10).
(** pest's [skip]. *)
Fixpoint skip (s : bytes) : bytes :=
  match s with
  | c :: t => if is_ws c then skip t else s
  | [] => []
  end.
(** [str::starts_with], with what follows. *)
Fixpoint strip (p s : bytes) : option bytes :=
  match p, s with
  | [], _ => Some s
  | a :: p', b :: s' => if a =? b then strip p' s' else None
  | _ :: _, [] => None
  end.

(** The expressions of pest. *)
Definition lit (p : bytes) : parser := fun s => match strip p s with Some r => Some (r, []) | None => None end.
(** A character of a class; [ANY] *)
Definition one (f : N -> bool) : parser := fun s => match s with c :: t => if f c then Some (t, []) else None | [] => None end.
(** [ANY] *)
Definition any : parser := one (fun _ => true).
(** [p ~ q] *)
Definition seq (p q : parser) : parser := fun s =>
  match p s with
  | Some (r, a) => match q (skip r) with Some (r', b) => Some (r', a ++ b) | None => None end
  | None => None
  end.
(** [p | q] *)
Definition alt (p q : parser) : parser := fun s => match p s with Some x => Some x | None => q s end.
(** [!p] *)
Definition pnot (p : parser) : parser := fun s => match p s with Some _ => None | None => Some (s, []) end.
(** [p?] *)
Definition opt (p : parser) : parser := fun s => match p s with Some x => Some x | None => Some (s, []) end.
(** The repetition after the first time: white space is skipped before each. *)
Fixpoint more (n : nat) (p : parser) (s : bytes) : bytes * list pair :=
  match n with
  | O => (s, [])
  | S n => match p (skip s) with
           | Some (r, a) => let (r', b) := more n p r in (r', a ++ b)
           | None => (s, [])
           end
  end.
(** [p*]; every [p] of PE that is repeated takes a character at least, so there are at most as many as characters. *)
Definition star (p : parser) : parser := fun s =>
  match p s with
  | Some (r, a) => let (r', b) := more (length s) p r in Some (r', a ++ b)
  | None => Some (s, [])
  end.
(** [p+] *)
Definition plus (p : parser) : parser := seq p (star p).
(** [p{n}] *)
Fixpoint times (n : nat) (p : parser) : parser :=
  match n with O => fun s => Some (s, []) | S O => p | S n => seq p (times n p) end.
(** A rule that is not silent. *)
Definition node (r : rname) (p : parser) : parser := fun s =>
  match p s with
  | Some (rest, l) => Some (rest, [Pair r (firstn (length s - length rest) s) l])
  | None => None
  end.

(** pest's classes of characters. *)
Definition lower (c : N) : bool := (97 <=? c) && (c <=? 122).
(** [ASCII_DIGIT] *)
Definition is_digit (c : N) : bool := (48 <=? c) && (c <=? 57).
(** [ASCII_HEX_DIGIT] *)
Definition is_hex (c : N) : bool := is_digit c || ((97 <=? c) && (c <=? 102)) || ((65 <=? c) && (c <=? 70)).
(** PE 299-314 *)
Definition digit : parser := one is_digit.
(** PE 300: a colon that no colon follows. *)
Fixpoint colon_n (n : nat) (s : bytes) : option (bytes * list pair) :=
  match n with O => None | S n => seq (lit (str ":")) (pnot (colon_n n)) s end.
(** PE 300; as many colons as characters at most. *)
Definition colon : parser := fun s => colon_n (S (length s)) s.
(** PE 301 *)
Definition double_colon := lit (str "::").
(** PE 302 *)
Definition semicolon := lit (str ";").
(** PE 303 *)
Definition comma := lit (str ",").
(** PE 306 *)
Definition percent := lit (str "%").
(** PE 308 *)
Definition hash := node ROther (lit (str "#")).
(** PE 309 *)
Definition brace_left := lit (str "{").
(** PE 310 *)
Definition brace_right := lit (str "}").
(** PE 311 *)
Definition bracket_left := node ROther (lit (str "[")).

(** PE 9, 313-314 *)
Definition comment := seq (lit (str "/*")) (seq (star (seq (pnot (lit (str "*/"))) any)) (lit (str "*/"))).
(** PE 12 *)
Definition sub_selector :=
  node RSubSelector (seq colon (plus (seq (pnot (alt colon (alt bracket_left brace_left))) (alt double_colon any)))).
(** PE 13 *)
Definition sub_selector_ref :=
  node RSubRef (seq bracket_left (plus (seq (pnot (alt colon (alt bracket_left brace_left))) any))).
(** PE 276 *)
Definition rule_ident :=
  node RIdent (seq (one (fun c => lower c || (c =? 64) || (c =? 45))) (plus (one (fun c => lower c || (c =? 45))))).
(** PE 280 *)
Definition unquoted_value := node RUnquoted (plus (seq (pnot semicolon) any)).
(** PE 281, 304-307: [PUSH(quote)], [PEEK] and [POP], for each of the quotes. *)
Definition quoted_with (q : bytes) := seq (lit q) (seq (plus (seq (pnot (lit q)) any)) (lit q)).
(** PE 281 *)
Definition quoted_value := node RQuoted (alt (quoted_with (str "'")) (quoted_with [34])).
(** PE 328 *)
Definition zero_to_one := alt (seq (lit (str "0.")) (plus digit)) (lit (str "1.0")).
(** PE 284-289 *)
Definition hex_value := seq hash (times 6 (one is_hex)).
(** PE 285 *)
Definition hexa_value := seq hash (times 8 (one is_hex)).
(** PE 286 *)
Definition rgb_value := seq (lit (str "rgb(")) (seq (times 2 (seq digit comma)) (seq digit (lit (str ")")))).
(** PE 287 *)
Definition rgba_value := seq (lit (str "rgb(")) (seq (times 3 (seq digit comma)) (seq zero_to_one (lit (str ")")))).
(** PE 288 *)
Definition hsl_value :=
  seq (lit (str "hsl(")) (seq digit (seq comma (seq digit (seq percent (seq comma (seq digit (seq percent (lit (str ")"))))))))).
(** PE 289 *)
Definition hsla_value :=
  seq (lit (str "hsl(")) (seq digit (seq comma (seq (times 2 (seq digit (seq percent comma))) (seq zero_to_one (lit (str ")")))))).
(** PE 283 *)
Definition color_value := node RColor (alt hexa_value (alt hex_value (alt rgba_value (alt rgb_value (alt hsla_value hsl_value))))).
(** PE 297 *)
Definition expression_value := node RExprValue (star (seq (pnot brace_right) any)).
(** PE 296 *)
Definition expression := node RExpression (seq brace_left (seq expression_value brace_right)).
(** PE 293 *)
Definition url_value := node RUrl (seq (lit (str "url(")) (seq (alt expression quoted_value) (lit (str ")")))).
(** PE 278 *)
Definition simple_value := alt expression (alt color_value (alt unquoted_value quoted_value)).
(** PE 277 *)
Definition value := alt url_value (plus simple_value).
(** PE 271-274 *)
Definition unknown_rule :=
  node RUnknown (seq (pnot (lit (str "animation"))) (seq rule_ident (seq colon (seq value semicolon)))).
(** PE 371 *)
Definition step := node RStep (seq (plus digit) percent).
(** PE 370, 372 *)
Definition frame := node RFrame (seq step (seq brace_left (seq (plus unknown_rule) brace_right))).
(** PE 369 *)
Definition frames := node RFrames (seq brace_left (seq (plus frame) brace_right)).
(** PE 367 *)
Definition animation_params := node RParams (star (seq (pnot (alt brace_left semicolon)) any)).
(** PE 332-342 *)
Definition animation_rule :=
  node RAnimation (seq (lit (str "animation")) (seq colon (seq animation_params (seq (opt frames) semicolon)))).
(** PE 348-350 *)
Definition media_query := node RQuery (star (seq (pnot brace_left) any)).
(** PE 344-346 *)
Definition media_rules (rule : parser) :=
  node RMedia (seq (lit (str "@media")) (seq media_query (seq brace_left (seq (star rule) (seq brace_right semicolon))))).
(** PE 11 *)
Definition sub_rule (rule : parser) :=
  node RSub (seq (opt (alt sub_selector sub_selector_ref)) (seq (star sub_selector_ref)
    (seq brace_left (seq (plus rule) (seq brace_right (opt semicolon)))))).
(** PE 7, 15-269: rules within rules, to a depth. *)
Fixpoint rule (n : nat) (s : bytes) : option (bytes * list pair) :=
  match n with
  | O => None
  | S n => alt comment (alt (alt animation_rule (media_rules (rule n))) (alt unknown_rule (sub_rule (rule n)))) s
  end.
(** PE 5: [SOI ~ rule* ~ EOI]; the depth is at most the number of characters. *)
Definition css_block (s : bytes) : option (list pair) :=
  match star (rule (S (length s))) (skip s) with
  | Some (r, l) => match skip r with [] => Some l | _ => None end
  | None => None
  end.

(** [str::replace]; [n] characters of a match are still to be dropped. *)
Fixpoint repl (n : nat) (p new s : bytes) : bytes :=
  match s with
  | [] => []
  | c :: t =>
      match n with
      | S k => repl k p new t
      | O => match strip p s with
             | Some _ => new ++ repl (length p - 1) p new t
             | None => c :: repl 0 p new t
             end
      end
  end.
(** [str::replace] *)
Definition replace (p new s : bytes) : bytes := repl 0 p new s.
(** [Vec<String>::join] *)
Fixpoint join (sep : bytes) (l : list bytes) : bytes :=
  match l with
  | [] => []
  | [x] => x
  | x :: t => x ++ sep ++ join sep t
  end.

(** CP 12-17, 258-261: the parameters with their keys, and the references. *)
Record gen := Gen { g_params : list (bytes * bytes); g_refs : list bytes }.
(** CP 263-275: the keys are aa to zz. *)
Definition key (i : N) : option bytes := if i <? 676 then Some [97 + i / 26; 97 + i mod 26] else None.
(** [HashMap::get] *)
Fixpoint lookup (k : bytes) (l : list (bytes * bytes)) : option bytes :=
  match l with
  | [] => None
  | (a, v) :: t => if list_eq_dec N.eq_dec k a then Some v else lookup k t
  end.
(** CP 278-288: the key of an expression, in braces; [None] is the panic when there are no more keys. *)
Definition insert (g : gen) (e : bytes) : option (gen * bytes) :=
  match lookup e (g_params g) with
  | Some k => Some (g, str "{" ++ k ++ str "}")
  | None => match key (N.of_nat (length (g_params g))) with
            | Some k => Some (Gen ((e, k) :: g_params g) (g_refs g), str "{" ++ k ++ str "}")
            | None => None
            end
  end.
(** The text of a pair. *)
Definition text (p : pair) : bytes := match p with Pair _ t _ => t end.
(** [into_inner().next().unwrap()] *)
Definition first (l : list pair) : option pair := match l with x :: _ => Some x | [] => None end.
(** CP 115-148: one value. *)
Definition gen_value (g : gen) (p : pair) : option (gen * bytes) :=
  match p with
  | Pair RColor t _ | Pair RUnquoted t _ | Pair RQuoted t _ => Some (g, t)
  | Pair RExpression _ l => match first l with Some e => insert g (text e) | None => None end
  | Pair RUrl t l =>
      match first l with
      | Some (Pair RExpression _ l') =>
          match first l' with
          | Some e => match insert g (text e) with Some (g', k) => Some (g', str "url('" ++ k ++ str "')") | None => None end
          | None => None
          end
      | Some _ => Some (g, t)
      | None => None
      end
  | _ => Some (g, [])
  end.
(** A loop over pairs that collects texts. *)
Fixpoint collect (f : gen -> pair -> option (gen * list bytes)) (g : gen) (l : list pair) : option (gen * list bytes) :=
  match l with
  | [] => Some (g, [])
  | p :: t => match f g p with
              | Some (g1, x) => match collect f g1 t with Some (g2, y) => Some (g2, x ++ y) | None => None end
              | None => None
              end
  end.
(** One text. *)
Definition single (r : option (gen * bytes)) : option (gen * list bytes) :=
  match r with Some (g, x) => Some (g, [x]) | None => None end.
(** CP 108-154 *)
Definition gen_unknown (g : gen) (l : list pair) : option (gen * bytes) :=
  match l with
  | ident :: vs =>
      match collect (fun g p => single (gen_value g p)) g vs with
      | Some (g', xs) => Some (g', text ident ++ str ": " ++ replace (str "} px") (str "}px") (join (str " ") xs) ++ str ";")
      | None => None
      end
  | [] => None
  end.
(** The pairs within. *)
Definition inner (p : pair) : list pair := match p with Pair _ _ l => l end.
(** CP 167-178: a frame. *)
Definition gen_frame (g : gen) (p : pair) : option (gen * list bytes) :=
  match inner p with
  | st :: rules =>
      match collect (fun g r => single (gen_unknown g (inner r))) g rules with
      | Some (g', xs) => Some (g', [text st ++ str " {{ " ++ join [10] xs ++ str " }}"])
      | None => None
      end
  | [] => None
  end.
(** CP 161-193 *)
Definition gen_anim (g : gen) (p : pair) : option (gen * list bytes) :=
  match p with
  | Pair RParams t _ => Some (g, [t])
  | Pair RFrames _ l => match collect gen_frame g l with
                        | Some (g', xs) => Some (g', [str "{{ " ++ join [10] xs ++ str " }}"])
                        | None => None
                        end
  | _ => Some (g, [[]])
  end.
(** CP 156-196 *)
Definition gen_animation (g : gen) (l : list pair) : option (gen * bytes) :=
  match collect gen_anim g l with
  | Some (g', xs) => Some (g', str "animation: " ++ join (str " ") xs ++ str ";")
  | None => None
  end.
(** [Ident::new] takes identifiers only; those of ASCII letters. *)
Definition is_ident (s : bytes) : bool :=
  match s with
  | c :: t => (lower c || ((65 <=? c) && (c <=? 90)) || (c =? 95)) &&
              forallb (fun c => lower c || ((65 <=? c) && (c <=? 90)) || (c =? 95) || is_digit c) t
  | [] => false
  end.
(** CP 237: [trim_matches] of brackets. *)
Fixpoint trim_left (s : bytes) : bytes :=
  match s with c :: t => if (c =? 91) || (c =? 93) then trim_left t else s | [] => [] end.
(** CP 237 *)
Definition trim_brackets (s : bytes) : bytes := rev (trim_left (rev (trim_left s))).
(** CP 231-241, 207: the selectors, or the query; all others are left to [f]. *)
Definition gen_part (f : gen -> pair -> option (gen * list bytes)) (g : gen) (p : pair) : option (gen * (list bytes * list bytes)) :=
  match p with
  | Pair RSubSelector t _ | Pair RQuery t _ => Some (g, ([t], []))
  | Pair RSubRef t _ => if is_ident (trim_brackets t) then Some (Gen (g_params g) (g_refs g ++ [trim_brackets t]), ([t], [])) else None
  | _ => match f g p with Some (g', xs) => Some (g', ([], xs)) | None => None end
  end.
(** CP 205-213, 229-246 *)
Fixpoint gen_parts (f : gen -> pair -> option (gen * list bytes)) (g : gen) (l : list pair) : option (gen * (list bytes * list bytes)) :=
  match l with
  | [] => Some (g, ([], []))
  | p :: t => match gen_part f g p with
              | Some (g1, (a, b)) => match gen_parts f g1 t with Some (g2, (c, d)) => Some (g2, (a ++ c, b ++ d)) | None => None end
              | None => None
              end
  end.
(** CP 84-106, 198-255; [n] is the depth of the pairs. *)
Fixpoint gen_rule (n : nat) (g : gen) (p : pair) : option (gen * list bytes) :=
  match n with
  | O => None
  | S n =>
      match p with
      | Pair RUnknown _ l => single (gen_unknown g l)
      | Pair RAnimation _ l => single (gen_animation g l)
      | Pair RMedia _ l =>
          match gen_parts (gen_rule n) g l with
          | Some (g', (q, xs)) => Some (g', [match q with
                                            | [] => []
                                            | _ => str "@media " ++ last q [] ++ str " {{ " ++ join (str " ") xs ++ str " }};"
                                            end])
          | None => None
          end
      | Pair RSub _ l =>
          match gen_parts (gen_rule n) g l with
          | Some (g', (q, xs)) => Some (g', [match q with
                                            | [] => []
                                            | _ => join (str " ") q ++ str " {{ " ++ join [10] xs ++ str " }};"
                                            end])
          | None => None
          end
      | _ => Some (g, [])
      end
  end.

(** [format!]: [{{] and [}}] are braces, a name in braces is an argument; anything else with a brace is refused. *)
Section Format.
  Variable arg : bytes -> option bytes.
  (** Inside an argument: up to the brace. *)
  Fixpoint until_brace (s : bytes) : option (bytes * bytes) :=
    match s with
    | [] => None
    | c :: t => if c =? 125 then Some ([], t) else if c =? 123 then None
                else match until_brace t with Some (a, r) => Some (c :: a, r) | None => None end
    end.
  (** At a place of the text; [n] bounds the number of places. *)
  Fixpoint format_n (n : nat) (s : bytes) : option bytes :=
    match n with
    | O => None
    | S n =>
        match s with
        | [] => Some []
        | c :: t =>
            if c =? 123 then
              match strip (str "{") t with
              | Some t' => match format_n n t' with Some r => Some (123 :: r) | None => None end
              | None => match until_brace t with
                        | Some (a, t') => match arg a, format_n n t' with Some v, Some r => Some (v ++ r) | _, _ => None end
                        | None => None
                        end
              end
            else if c =? 125 then
              match strip (str "}") t with
              | Some t' => match format_n n t' with Some r => Some (125 :: r) | None => None end
              | None => None
              end
            else match format_n n t with Some r => Some (c :: r) | None => None end
        end
    end.
  (** [format!] *)
  Definition format (s : bytes) : option bytes := format_n (S (length s)) s.
End Format.

Section Macro.
  (** The text of a Rust expression's value, where the macro is used; [None] if it does not parse or there is no such variable. *)
  Variable value_of : bytes -> option bytes.
  (** [Driver::class_name_for] of the variable of a name (CP 314). *)
  Variable class_of : bytes -> bytes.
  (** The expression with a key. *)
  Fixpoint by_key (k : bytes) (l : list (bytes * bytes)) : option bytes :=
    match l with
    | [] => None
    | (e, k') :: t => if list_eq_dec N.eq_dec k k' then Some e else by_key k t
    end.
  (** CP 47-71: the arguments of [format!]; a name that is no key is a variable where the macro is used. *)
  Definition argument (params : list (bytes * bytes)) (a : bytes) : option bytes :=
    match by_key a params with Some e => value_of e | None => value_of a end.
  (** CP 30-81: the text before references are replaced; [None] is an error of compilation. *)
  Definition parse_stream (s : bytes) : option (bytes * bool * list bytes) :=
    match css_block s with
    | Some pairs =>
        match collect (gen_rule (S (length s))) (Gen [] []) pairs with
        | Some (g, xs) =>
            let out := join [10] xs in
            match g_params g with
            | [] => Some (replace (str "}}") (str "}") (replace (str "{{") (str "{") out), false, g_refs g)
            | ps => if forallb (fun p => match value_of (fst p) with Some _ => true | None => false end) ps
                    then match format (argument ps) out with Some o => Some (o, true, g_refs g) | None => None end
                    else None
            end
        | None => None
        end
    | None => None
    end.
  (** CP 301-319, ML 54-76: the text of the [Css], and whether it is dynamic. *)
  Definition css_macro (s : bytes) : option (bytes * bool) :=
    match parse_stream s with
    | Some (out, dyn, refs) =>
        Some (fold_left (fun o r => replace (str "[" ++ r ++ str "]") (str "." ++ class_of r) o) refs out,
              dyn || negb match refs with [] => true | _ => false end)
    | None => None
    end.
End Macro.
