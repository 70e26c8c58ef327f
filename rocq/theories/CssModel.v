(** * Model of the processing of styles

    A [Css] value is a list of chunks of CSS text.  The driver turns each
    chunk into a class: the text is split into rows, the rows are sorted into
    declarations, nested rules, media queries and animations, and the outcome
    is handed to the document as a list of (selector, rules) pairs.

    Modelled code: crates/vertigo/src/css/ (transform_css/splits.rs,
    transform_css/mod.rs, css_manager.rs, next_id.rs, get_selector.rs,
    css_structs.rs) and crates/vertigo/src/dom/dom_element_class.rs.

    A [&str] is a list of code points.  Byte offsets into it are computed with
    the length of each code point in UTF-8, because [find_brackets] confuses
    the two.  [None] stands for a panic.  Logging is left out. *)

From Coq Require Import String List NArith Bool.
From Coq Require Decimal.
From Verif Require Import CodecModel DomWire.
Import ListNotations.
Local Open Scope string_scope.
Local Open Scope list_scope.
Local Open Scope N_scope.

(** A [&str] or [String] as the list of its code points. *)
Definition txt := list N.

(** Text equality, [==] on strings. *)
Fixpoint txt_eqb (a b : txt) : bool :=
  match a, b with
  | [], [] => true
  | x :: a', y :: b' => (x =? y) && txt_eqb a' b'
  | _, _ => false
  end.

(** The characters the code looks for (splits.rs:23-58, mod.rs:62, 106). *)
Definition c_open : N := 123.   (* { *)
Definition c_close : N := 125.  (* } *)
Definition c_colon : N := 58.   (* : *)
Definition c_semi : N := 59.    (* ; *)
Definition c_dot : N := 46.     (* . *)
Definition c_square : N := 91.  (* [ *)

(** Length in bytes of the UTF-8 form of a code point: char::len_utf8, which
    is what offsets into a [&str] count (splits.rs:22, 102-105). *)
Definition utf8_len (c : N) : N :=
  if c <? 128 then 1 else if c <? 2048 then 2 else if c <? 65536 then 3 else 4.

(** char::is_whitespace, the Unicode property White_Space, which str::trim
    uses (splits.rs:57, 63, 65, 76, 77, 105). *)
Definition is_ws (c : N) : bool :=
  ((9 <=? c) && (c <=? 13)) || (c =? 32) || (c =? 133) || (c =? 160)
  || (c =? 5760) || ((8192 <=? c) && (c <=? 8202))
  || (c =? 8232) || (c =? 8233) || (c =? 8239) || (c =? 8287) || (c =? 12288).

(** str::trim (splits.rs:57, 63): leading and trailing white space goes. *)
Fixpoint trim_start (s : txt) : txt :=
  match s with
  | [] => []
  | c :: r => if is_ws c then trim_start r else s
  end.

(** The trailing half of str::trim. *)
Definition trim_end (s : txt) : txt := rev (trim_start (rev s)).

(** str::trim. *)
Definition trim (s : txt) : txt := trim_end (trim_start s).

(** str::is_empty and the comparison with "" (splits.rs:65, mod.rs:34). *)
Definition is_nil {A} (s : list A) : bool :=
  match s with [] => true | _ => false end.

(** str::starts_with with a text (mod.rs:113). *)
Fixpoint starts_with (p s : txt) : bool :=
  match p, s with
  | [], _ => true
  | x :: p', y :: s' => (x =? y) && starts_with p' s'
  | _ :: _, [] => false
  end.

(** The join of texts with a separator: [join] on slices of strings
    (mod.rs:22, 83, 144; css_manager.rs:98; splits.rs:77). *)
Fixpoint join (sep : txt) (l : list txt) : txt :=
  match l with
  | [] => []
  | [x] => x
  | x :: r => x ++ sep ++ join sep r
  end.

(** ** Splitting (splits.rs) *)

(** RowSideState (splits.rs:2-6). *)
Inductive side := Left | Right | Brackets (n : N).

(** [row_side == RowSideState::Right] (splits.rs:24, 56). *)
Definition is_right (s : side) : bool :=
  match s with Right => true | _ => false end.

(** The changes of [row_side] at one character (splits.rs:23-54); [None]: a
    panic (30 and 44).  The counter is a [u16]: without overflow checks, as in
    a release build, it wraps. *)
Definition side_step (s : side) (c : N) : option side :=
  if c =? c_open then
    match s with
    | Right => Some (Brackets 1)
    | Brackets n => Some (Brackets ((n + 1) mod 65536))
    | Left => None
    end
  else if c =? c_close then
    match s with
    | Brackets n => Some (if 1 <? n then Brackets (n - 1) else Right)
    | _ => None
    end
  else if (c =? c_colon) || (c =? c_dot) then
    match s with
    | Left => Some Right
    | _ => Some s
    end
  else Some s.

(** The loop of css_split_rows (splits.rs:22-63).  [cur] is the part of the
    text since [start]; offsets here come from [char_indices], so the slices
    fall on character boundaries. *)
Fixpoint split_loop (s : side) (cur css : txt) : option (list txt) :=
  match css with
  | [] => Some [trim cur]
  | c :: r =>
      match side_step s c with
      | None => None
      | Some s' =>
          if (c =? c_semi) && is_right s'
          then match split_loop Left [] r with
               | None => None
               | Some rows => Some (trim cur :: rows)
               end
          else split_loop s' (cur ++ [c]) r
      end
  end.

(** css_split_rows (splits.rs:16-66). *)
Definition css_split_rows (css : txt) : option (list txt) :=
  match split_loop Left [] css with
  | None => None
  | Some rows => Some (filter (fun row => negb (is_nil (trim row))) rows)
  end.

(** str::split with one character (splits.rs:70): always at least one part. *)
Fixpoint split_on (sep : N) (s : txt) : list txt :=
  match s with
  | [] => [[]]
  | c :: r =>
      if c =? sep then [] :: split_on sep r
      else match split_on sep r with
           | [] => [[c]]
           | h :: t => (c :: h) :: t
           end
  end.

(** css_row_split_to_pair (splits.rs:69-80). *)
Definition css_row_split_to_pair (row : txt) : option (txt * txt) :=
  match split_on c_colon row with
  | key :: (x :: r) => Some (trim key, trim (join [c_colon] (x :: r)))
  | _ => None
  end.

(** The index of the first character equal to [x] (splits.rs:88-93). *)
Fixpoint first_index (x : N) (s : txt) : option N :=
  match s with
  | [] => None
  | c :: r => if c =? x then Some 0
              else match first_index x r with None => None | Some i => Some (i + 1) end
  end.

(** The index of the last character equal to [x] (splits.rs:95-100). *)
Definition last_index (x : N) (s : txt) : option N :=
  match first_index x (rev s) with
  | None => None
  | Some i => Some (N.of_nat (length s) - 1 - i)
  end.

(** The text behind the first [n] bytes; [None] when [n] is not on a character
    boundary or behind the end: indexing a [&str] then panics
    (splits.rs:103-105). *)
Fixpoint drop_bytes (n : N) (s : txt) : option txt :=
  if n =? 0 then Some s
  else match s with
       | [] => None
       | c :: r => if utf8_len c <=? n then drop_bytes (n - utf8_len c) r else None
       end.

(** The first [n] bytes of a text, with the same panics. *)
Fixpoint take_bytes (n : N) (s : txt) : option txt :=
  if n =? 0 then Some []
  else match s with
       | [] => None
       | c :: r =>
           if utf8_len c <=? n
           then match take_bytes (n - utf8_len c) r with
                | None => None
                | Some t => Some (c :: t)
                end
           else None
       end.

(** [&s[a..b]] (splits.rs:103-104). *)
Definition slice (s : txt) (a b : N) : option txt :=
  if a <=? b then
    match drop_bytes a s with
    | None => None
    | Some r => take_bytes (b - a) r
    end
  else None.

(** find_brackets (splits.rs:82-110).  The outer option is the panic, the
    inner one the result.  [start] and [end] are indices into the list of
    characters, used as byte offsets. *)
Definition find_brackets (line : txt) : option (option (txt * txt * txt)) :=
  match first_index c_open line, last_index c_close line with
  | Some a, Some b =>
      match slice line 0 a, slice line (a + 1) b, drop_bytes (b + 1) line with
      | Some x, Some y, Some z => Some (Some (trim x, trim y, trim z))
      | _, _, _ => None
      end
  | _, _ => Some None
  end.

(** ** Transformation (mod.rs) *)

(** The digits of a number in base ten, as [format!("{id}")] prints them. *)
Fixpoint digits (u : Decimal.uint) : txt :=
  match u with
  | Decimal.Nil => []
  | Decimal.D0 u => 48 :: digits u
  | Decimal.D1 u => 49 :: digits u
  | Decimal.D2 u => 50 :: digits u
  | Decimal.D3 u => 51 :: digits u
  | Decimal.D4 u => 52 :: digits u
  | Decimal.D5 u => 53 :: digits u
  | Decimal.D6 u => 54 :: digits u
  | Decimal.D7 u => 55 :: digits u
  | Decimal.D8 u => 56 :: digits u
  | Decimal.D9 u => 57 :: digits u
  end.

(** get_selector (get_selector.rs:1-3). *)
Definition get_selector (id : N) : txt := str "autocss_" ++ digits (N.to_uint id).

(** NextId::get_next_id (next_id.rs:14-18): the counter is given and returned.
    It does not overflow here; the code counts in [u64]. *)
Definition get_next_id (next : N) : N := next + 1.

(** transform_css_animation_value (mod.rs:9-28): the new value, the extra
    document and the counter. *)
Definition transform_css_animation_value (css : txt) (next : N)
  : option (txt * option (txt * txt) * N) :=
  match find_brackets css with
  | None => None
  | Some None => Some (css, None, next)
  | Some (Some (start_word, central_word, end_word)) =>
      let id := get_next_id next in
      let selector := get_selector id in
      Some (join (str " ") [start_word; selector; end_word],
            Some (str "@keyframes " ++ selector, central_word), id)
  end.

(** transform_css_selector_value (mod.rs:30-42). *)
Definition transform_css_selector_value (row parent_selector : txt)
  : option (option (txt * txt)) :=
  match find_brackets row with
  | None => None
  | Some None => Some None
  | Some (Some (pseudo_selector, rules, _)) =>
      Some (Some (parent_selector ++ pseudo_selector, rules))
  end.

(** [row.starts_with(':')] (mod.rs:62). *)
Definition starts_colon (row : txt) : bool :=
  match row with c :: _ => c =? c_colon | [] => false end.

(** [row.starts_with([':', '['])] (mod.rs:106). *)
Definition starts_selector (row : txt) : bool :=
  match row with c :: _ => (c =? c_colon) || (c =? c_square) | [] => false end.

(** The rows of a media query sorted into regular rules and rules of
    pseudo-selectors (mod.rs:57-74). *)
Fixpoint media_rows (parent_selector : txt) (rows : list txt)
  : option (list txt * list txt) :=
  match rows with
  | [] => Some ([], [])
  | row :: rest =>
      if starts_colon row then
        match transform_css_selector_value row parent_selector with
        | None => None
        | Some e =>
            match media_rows parent_selector rest with
            | None => None
            | Some (reg, pse) =>
                Some (reg, match e with
                           | Some (s, b) => (s ++ str " { " ++ b ++ str " }") :: pse
                           | None => pse
                           end)
            end
        end
      else
        match media_rows parent_selector rest with
        | None => None
        | Some (reg, pse) => Some (row :: reg, pse)
        end
  end.

(** The sets of rules added to the content of a media query (mod.rs:87-92). *)
Fixpoint media_add (content : txt) (sets : list txt) : txt :=
  match sets with
  | [] => content
  | set :: rest =>
      media_add ((if is_nil content then [] else content ++ [10]) ++ set) rest
  end.

(** The content of a media query (mod.rs:77-92). *)
Definition media_content (parent_selector : txt) (reg pse : list txt) : txt :=
  media_add
    (if is_nil reg then []
     else parent_selector ++ str " { " ++ join (str ";") reg ++ str " }") pse.

(** transform_css_media_query (mod.rs:44-96): the documents it adds. *)
Definition transform_css_media_query (row parent_selector : txt)
  : option (list (txt * txt)) :=
  match find_brackets row with
  | None => None
  | Some None => Some []
  | Some (Some (query, rules_input, _)) =>
      match css_split_rows rules_input with
      | None => None
      | Some rows =>
          match media_rows parent_selector rows with
          | None => None
          | Some (reg, pse) =>
              if is_nil reg && is_nil pse then Some []
              else Some [(query, media_content parent_selector reg pse)]
          end
      end
  end.

(** The loop of transform_css (mod.rs:105-142): what is added to [css_out], to
    [css_documents], and the counter. *)
Fixpoint transform_rows (selector : txt) (rows : list txt) (next : N)
  : option (list txt * list (txt * txt) * N) :=
  match rows with
  | [] => Some ([], [], next)
  | row :: rest =>
      if starts_selector row then
        match transform_css_selector_value row selector with
        | None => None
        | Some e =>
            match transform_rows selector rest next with
            | None => None
            | Some (out, docs, n) =>
                Some (out, match e with Some d => d :: docs | None => docs end, n)
            end
        end
      else if starts_with (str "@media") row then
        match transform_css_media_query row selector with
        | None => None
        | Some ds =>
            match transform_rows selector rest next with
            | None => None
            | Some (out, docs, n) => Some (out, ds ++ docs, n)
            end
        end
      else
        match css_row_split_to_pair row with
        | Some (name, value) =>
            let r := if txt_eqb (trim name) (str "animation")
                     then transform_css_animation_value value next
                     else Some (value, None, next) in
            match r with
            | None => None
            | Some (value_parsed, extra, next1) =>
                match transform_rows selector rest next1 with
                | None => None
                | Some (out, docs, n) =>
                    Some ((name ++ str ": " ++ value_parsed) :: out,
                          match extra with Some d => d :: docs | None => docs end, n)
                end
            end
        | None =>
            match transform_rows selector rest next with
            | None => None
            | Some (out, docs, n) => Some (row :: out, docs, n)
            end
        end
  end.

(** transform_css (mod.rs:98-149): the id of the class, the documents, and the
    counter. *)
Definition transform_css (css : txt) (next : N) : option (N * list (txt * txt) * N) :=
  let class_id := get_next_id next in
  let selector := str "." ++ get_selector class_id in
  match css_split_rows css with
  | None => None
  | Some rows =>
      match transform_rows selector rows class_id with
      | None => None
      | Some (out, docs, n) =>
          Some (class_id, docs ++ [(selector, join (str "; ") out)], n)
      end
  end.

(** ** The manager (css_manager.rs) *)

(** CssGroup (css_structs.rs:3-9). *)
Inductive group :=
| CssStatic (value : txt)
| CssDynamic (value : txt)
| CssMedia (query : txt) (rules : list txt).

(** Css (css_structs.rs:30-33). *)
Definition css := list group.

(** CssManagerInner (css_manager.rs:14-19); [m_log] is the list of the calls
    of the function [insert_css], which adds a rule to the document. *)
Record mgr := { m_next : N; m_static : list (txt * N); m_dynamic : list (txt * N);
                m_log : list (txt * txt) }.

(** CssManager::new (css_manager.rs:22-29, 48-52). *)
Definition mgr0 : mgr := {| m_next := 0; m_static := []; m_dynamic := []; m_log := [] |}.

(** HashMapMut::get on texts (css_manager.rs:55, 67). *)
Fixpoint lookup (t : txt) (l : list (txt * N)) : option N :=
  match l with
  | [] => None
  | (k, v) :: r => if txt_eqb k t then Some v else lookup t r
  end.

(** CssManagerInner::insert_css (css_manager.rs:31-39). *)
Definition insert_css (m : mgr) (t : txt) : option (N * mgr) :=
  match transform_css t (m_next m) with
  | None => None
  | Some (id, docs, n) =>
      Some (id, {| m_next := n; m_static := m_static m; m_dynamic := m_dynamic m;
                   m_log := m_log m ++ docs |})
  end.

(** CssManager::get_static (css_manager.rs:54-63).  The key is missing when
    [insert] runs, so an association list grows at the front. *)
Definition get_static (m : mgr) (t : txt) : option (txt * mgr) :=
  match lookup t (m_static m) with
  | Some id => Some (get_selector id, m)
  | None =>
      match insert_css m t with
      | None => None
      | Some (id, m') =>
          Some (get_selector id,
                {| m_next := m_next m'; m_static := (t, id) :: m_static m';
                   m_dynamic := m_dynamic m'; m_log := m_log m' |})
      end
  end.

(** CssManager::get_dynamic (css_manager.rs:65-75). *)
Definition get_dynamic (m : mgr) (t : txt) : option (txt * mgr) :=
  match lookup t (m_dynamic m) with
  | Some id => Some (get_selector id, m)
  | None =>
      match insert_css m t with
      | None => None
      | Some (id, m') =>
          Some (get_selector id,
                {| m_next := m_next m'; m_static := m_static m';
                   m_dynamic := (t, id) :: m_dynamic m'; m_log := m_log m' |})
      end
  end.

(** The rules of a CssMedia group (css_manager.rs:91-93). *)
Fixpoint dynamic_words (m : mgr) (rules : list txt) : option (list txt * mgr) :=
  match rules with
  | [] => Some ([], m)
  | r :: rest =>
      match get_dynamic m r with
      | None => None
      | Some (w, m1) =>
          match dynamic_words m1 rest with
          | None => None
          | Some (ws, m2) => Some (w :: ws, m2)
          end
      end
  end.

(** One round of the loop of get_class_name (css_manager.rs:81-95). *)
Definition group_words (m : mgr) (g : group) : option (list txt * mgr) :=
  match g with
  | CssStatic t =>
      match get_static m t with None => None | Some (w, m') => Some ([w], m') end
  | CssDynamic t =>
      match get_dynamic m t with None => None | Some (w, m') => Some ([w], m') end
  | CssMedia q rules =>
      match dynamic_words m rules with
      | None => None
      | Some (ws, m') => Some (str "@media" :: q :: ws, m')
      end
  end.

(** The loop of get_class_name (css_manager.rs:80-96). *)
Fixpoint class_words (m : mgr) (c : css) : option (list txt * mgr) :=
  match c with
  | [] => Some ([], m)
  | g :: rest =>
      match group_words m g with
      | None => None
      | Some (ws, m1) =>
          match class_words m1 rest with
          | None => None
          | Some (ws', m2) => Some (ws ++ ws', m2)
          end
      end
  end.

(** CssManager::get_class_name (css_manager.rs:77-99). *)
Definition get_class_name (m : mgr) (c : css) : option (txt * mgr) :=
  match class_words m c with
  | None => None
  | Some (ws, m') => Some (join (str " ") ws, m')
  end.

(** ** The class attribute of an element (dom_element_class.rs) *)

(** DomElementClassMergeInner (dom_element_class.rs:7-15) together with the
    manager of the driver; [e_sent] is the list of the values sent with
    [set_attr(id, "class", ..)].  The subscription [_suspense_drop] is in the
    model of suspense. *)
Record elem := { e_css : option css; e_attr : option txt; e_susp : option css;
                 e_last : option txt; e_mgr : mgr; e_sent : list txt }.

(** DomElementClassMergeInner::new (dom_element_class.rs:18-28). *)
Definition elem0 (m : mgr) : elem :=
  {| e_css := None; e_attr := None; e_susp := None; e_last := None; e_mgr := m;
     e_sent := [] |}.

(** The class name of an optional style (dom_element_class.rs:37-45). *)
Definition opt_class (m : mgr) (c : option css) : option (list txt * mgr) :=
  match c with
  | None => Some ([], m)
  | Some c =>
      match get_class_name m c with
      | None => None
      | Some (w, m') => Some ([w], m')
      end
  end.

(** get_new_command (dom_element_class.rs:30-52). *)
Definition get_new_command (e : elem) : option (option txt * mgr) :=
  match opt_class (e_mgr e) (e_css e) with
  | None => None
  | Some (w1, m1) =>
      match opt_class m1 (e_susp e) with
      | None => None
      | Some (w2, m2) =>
          let result := (match e_attr e with Some a => [a] | None => [] end) ++ w1 ++ w2 in
          Some (if is_nil result then None else Some (join (str " ") result), m2)
      end
  end.

(** Equality of [Option<String>] (dom_element_class.rs:57). *)
Definition opt_txt_eqb (a b : option txt) : bool :=
  match a, b with
  | Some x, Some y => txt_eqb x y
  | None, None => true
  | _, _ => false
  end.

(** refresh_dom (dom_element_class.rs:54-70). *)
Definition refresh_dom (e : elem) : option elem :=
  match get_new_command e with
  | None => None
  | Some (cmd, m) =>
      Some (if opt_txt_eqb (e_last e) cmd
            then {| e_css := e_css e; e_attr := e_attr e; e_susp := e_susp e;
                    e_last := e_last e; e_mgr := m; e_sent := e_sent e |}
            else {| e_css := e_css e; e_attr := e_attr e; e_susp := e_susp e;
                    e_last := cmd; e_mgr := m;
                    e_sent := e_sent e ++ [match cmd with Some c => c | None => [] end] |})
  end.

(** The ways in which the class of an element is changed: set_attribute (87),
    remove_attribute (94), set_css (101), the callback of a suspense layer
    (122-129) and the end of its subscription, set_suspense_attr with [None]
    (108-113); and requests of other elements to the manager they share. *)
Inductive class_op :=
| SetAttribute (value : txt)
| RemoveAttribute
| SetCss (c : css)
| SuspenseCss (c : css)
| SuspenseOff
| OtherRequest (c : css).

(** One change (dom_element_class.rs:87-134). *)
Definition class_step (e : elem) (o : class_op) : option elem :=
  match o with
  | SetAttribute v =>
      refresh_dom {| e_css := e_css e; e_attr := Some v; e_susp := e_susp e;
                     e_last := e_last e; e_mgr := e_mgr e; e_sent := e_sent e |}
  | RemoveAttribute =>
      refresh_dom {| e_css := e_css e; e_attr := None; e_susp := e_susp e;
                     e_last := e_last e; e_mgr := e_mgr e; e_sent := e_sent e |}
  | SetCss c =>
      refresh_dom {| e_css := Some c; e_attr := e_attr e; e_susp := e_susp e;
                     e_last := e_last e; e_mgr := e_mgr e; e_sent := e_sent e |}
  | SuspenseCss c =>
      refresh_dom {| e_css := e_css e; e_attr := e_attr e; e_susp := Some c;
                     e_last := e_last e; e_mgr := e_mgr e; e_sent := e_sent e |}
  | SuspenseOff => Some e
  | OtherRequest c =>
      match get_class_name (e_mgr e) c with
      | None => None
      | Some (_, m) =>
          Some {| e_css := e_css e; e_attr := e_attr e; e_susp := e_susp e;
                  e_last := e_last e; e_mgr := m; e_sent := e_sent e |}
      end
  end.

(** A sequence of changes. *)
Fixpoint class_run (e : elem) (ops : list class_op) : option elem :=
  match ops with
  | [] => Some e
  | o :: r => match class_step e o with None => None | Some e' => class_run e' r end
  end.
