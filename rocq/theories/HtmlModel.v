(** Model of the HTML text the server sends.

    Source: /repo/crates/vertigo-cli/src/serve/html/html_element.rs, element.rs:185-207,
    html_response.rs:75-120.  Texts are their UTF-8 bytes. *)

From Coq Require Import String List NArith Bool Arith.
From Verif Require Import CodecModel DomWire SmallModel SsrModel.
Import ListNotations.
Local Open Scope string_scope.
Local Open Scope list_scope.

Notation hnode := (html bytes).

(** Equality of strings. *)
Fixpoint beqb (a b : bytes) : bool :=
  match a, b with
  | [], [] => true
  | x :: a', y :: b' => (x =? y)%N && beqb a' b'
  | _, _ => false
  end.

(** <[&str]>::contains *)
Definition among (n : bytes) (l : list bytes) : bool := existsb (beqb n) l.

(** str::to_lowercase on ASCII letters.  (No letter outside of ASCII becomes one of "script" or "style", the
    only names compared with.) *)
Definition lowerc (c : N) : N := if (65 <=? c)%N && (c <=? 90)%N then (c + 32)%N else c.
(** [str::to_lowercase] on a text. *)
Definition lower (s : bytes) : bytes := map lowerc s.

(** The crate html-escape 0.2 (not part of the repository; as documented there): [encode_safe] escapes the six
    characters below, [encode_quoted_attribute] the same without the slash. *)
Definition esc (c : N) : bytes :=
  if (c =? 38)%N then str "&amp;" else if (c =? 60)%N then str "&lt;" else if (c =? 62)%N then str "&gt;"
  else if (c =? 34)%N then str "&quot;" else if (c =? 39)%N then str "&#x27;" else [c].
(** html-escape 0.2: the characters [encode_safe] replaces (also "/"). *)
Definition esc_safe (c : N) : bytes := if (c =? 47)%N then str "&#x2F;" else esc c.
(** html-escape 0.2: [encode_safe], used at html_element.rs:64, 145. *)
Definition encode_safe (s : bytes) : bytes := flat_map esc_safe s.
(** html-escape 0.2: [encode_quoted_attribute], used at html_element.rs:65. *)
Definition encode_quoted_attribute (s : bytes) : bytes := flat_map esc s.

(** html_element.rs:6-31: [Ident]; [None] when not formatting. *)
Definition ident := option nat.
(** html_element.rs:20-25 *)
Definition ident_get (i : ident) : bytes := match i with Some n => repeat 32%N n | None => [] end.
(** html_element.rs:27-31 *)
Definition ident_add (i : ident) (up : nat) : ident := option_map (fun v => (v + up)%nat) i.

(** html_element.rs:59-69: [attributes_to_string]; the attributes are those of [get_iter]. *)
Definition attributes_to_string (attr : list (bytes * bytes)) : bytes :=
  flat_map (fun e => str " " ++ encode_safe (fst e) ++ str "=""" ++ encode_quoted_attribute (snd e) ++ str """") attr.

(** html_element.rs:71-74 *)
Inductive child_mode := Child (l : list hnode) | Text (t : bytes).

(** html_element.rs:76-112: the loop of [get_render_child_mode]; [last] is [last_text]. *)
Fixpoint merge (last : option bytes) (l : list hnode) : list hnode :=
  let push := match last with Some t => [HText t] | None => [] end in
  match l with
  | [] => push
  | HText t :: r => merge (Some (match last with Some p => p ++ t | None => t end)) r
  | HComment _ :: r => merge last r
  | e :: r => push ++ e :: merge None r
  end.

(** html_element.rs:90-128: [get_render_child_mode]. *)
Definition get_render_child_mode (kids : list hnode) : child_mode :=
  match merge None kids with
  | [HText t] => Text t
  | l => Child l
  end.

(** html_element.rs:130-137: [is_self_closing]. *)
Definition is_self_closing (name : bytes) : bool :=
  among name (map str ["area"; "base"; "br"; "col"; "embed"; "hr"; "img"; "input"; "link"; "meta"; "param";
                       "source"; "track"; "wbr"]).

(** html_element.rs:171 *)
Definition unescaped (name : bytes) : bool := among (lower name) [str "script"; str "style"].

(** html_element.rs:139-206: [html_node_to_string]: the lines pushed.  [fuel] bounds the depth of the tree. *)
Fixpoint html_lines (fuel : nat) (i : ident) (node : hnode) : list bytes :=
  match fuel with
  | O => []
  | S f =>
      match node with
      | HElement name attr kids =>
          let el_name := encode_safe name in
          let attrs := attributes_to_string attr in
          if is_self_closing name then [ident_get i ++ str "<" ++ el_name ++ attrs ++ str " />"]
          else
            match get_render_child_mode kids with
            | Child l =>
                (ident_get i ++ str "<" ++ el_name ++ attrs ++ str ">")
                :: flat_map (html_lines f (ident_add i 2)) l
                ++ [ident_get i ++ str "</" ++ el_name ++ str ">"]
            | Text t =>
                [ident_get i ++ str "<" ++ el_name ++ attrs ++ str ">" ++
                 (if unescaped name then t else encode_safe t) ++ str "</" ++ el_name ++ str ">"]
            end
      | HText t => [ident_get i ++ encode_safe t]
      | HComment t => [ident_get i ++ str "<!--" ++ encode_safe t ++ str "-->"]
      end
  end.

(** The depth of a tree (enough fuel). *)
Fixpoint depth (h : hnode) : nat :=
  match h with
  | HElement _ _ kids => S (fold_right (fun k n => Nat.max (depth k) n) 0%nat kids)
  | _ => 1%nat
  end.

(** html_element.rs:44 *)
Definition doctype : bytes := str "<!DOCTYPE html>".

(** html_element.rs:43-56: [convert_to_string]. *)
Definition convert_to_string (format : bool) (root : hnode) : bytes :=
  let lines := html_lines (depth root) (if format then Some 0%nat else None) root in
  join (if format then [newline] else []) (doctype :: lines).

(** ** build_response *)

(** html_element.rs:261-263 with ordered_map.rs:17-38: [add_attr] on the attributes in order. *)
Definition add_attr (l : list (bytes * bytes)) (k v : bytes) : list (bytes * bytes) :=
  filter (fun e => negb (beqb k (fst e))) l ++ [(k, v)].

(** html_element.rs:290-312 and 215-225: [modify] with the path [(name, 0)]: the first child element of that name. *)
Fixpoint modify_child (name : bytes) (f : hnode -> hnode) (kids : list hnode) : list hnode * bool :=
  match kids with
  | [] => ([], false)
  | HElement n a k :: t =>
      if beqb n name then (f (HElement n a k) :: t, true)
      else let '(t', b) := modify_child name f t in (HElement n a k :: t', b)
  | x :: t => let '(t', b) := modify_child name f t in (x :: t', b)
  end.

(** element.rs:185-199: [get_css]. *)
Definition get_css (css : list (bytes * bytes)) : list hnode :=
  map (fun e => HElement (str "style") [] [HText (fst e ++ str " { " ++ snd e ++ str " }")]) css.

(** html_response.rs:102-105: the script element. *)
Definition run_script (wasm_path run_js : bytes) : hnode :=
  HElement (str "script")
    (add_attr (add_attr (add_attr [] (str "type") (str "module")) (str "data-vertigo-run-wasm") wasm_path) (str "src") run_js) [].

(** html_response.rs:107-113: the callback given to [modify]. *)
Definition fill_body (css : list hnode) (script : hnode) (body : hnode) : hnode :=
  match body with
  | HElement n a k => HElement n a (css ++ k ++ [script])
  | x => x
  end.

(** html_response.rs:75-120: [build_response]; [None] is one of the internal errors.  [env] is in the iteration
    order of the map. *)
Definition build_response (wasm_path run_js : bytes) (env : list (bytes * bytes)) (root : hnode) (css : list (bytes * bytes))
  : option bytes :=
  match root with
  | HElement name attr kids =>
      if beqb name (str "html") then
        let attr1 := fold_left (fun a e => add_attr a (str "data-env-" ++ fst e) (snd e)) env attr in
        let '(kids1, success) := modify_child (str "body") (fill_body (get_css css) (run_script wasm_path run_js)) kids in
        if success then Some (convert_to_string true (HElement name attr1 kids1)) else None
      else None
  | _ => None
  end.
