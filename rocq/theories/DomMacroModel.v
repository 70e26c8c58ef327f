(** The [dom!] macro: the code it generates for a tree of tags, and what this code does.

    Source: HP = /repo/crates/vertigo-macro/src/html_parser.rs, EM = /repo/crates/vertigo/src/dom_macro/dom.rs,
    DE = /repo/crates/vertigo/src/dom/dom_element.rs, EC = dom/dom_element_class.rs, DT = dom/dom_text.rs, DC = dom/dom_comment.rs,
    DV = render/dom_value.rs, DL = render/dom_list.rs, DI = dom/dom_id.rs, DD = driver_module/dom.rs.

    Reading tokens as tags is the library syn_rsx, outside of this repository: its result, a tree of [Node]s, is where the model
    begins.  Rust expressions in that tree are kept as their tokens; what they evaluate to is given by an environment. *)
From Coq Require Import String List NArith Bool.
From Verif Require Import CodecModel DomWire DomModel.
Import ListNotations.
Local Open Scope string_scope.
Local Open Scope list_scope.
Local Open Scope N_scope.

(** Equality of strings. *)
Fixpoint beq (a b : bytes) : bool :=
  match a, b with
  | [], [] => true
  | x :: a', y :: b' => (x =? y) && beq a' b'
  | _, _ => false
  end.
(** [str::starts_with] (HP 112, 124, 305). *)
Fixpoint starts (p s : bytes) : bool :=
  match p, s with
  | [], _ => true
  | x :: p', y :: s' => (x =? y) && starts p' s'
  | _ :: _, [] => false
  end.

(** ** What syn_rsx gives *)

(** proc_macro2's tokens as HP looks at them: a token with its text, and whether the printer puts no space after it; a group in braces.
    Other groups are one token here. *)
Inductive tok := Tok (t : bytes) (joint : bool) | TBrace (l : list tok).
(** [TokenStream::to_string] (HP 110, 112, 121, 124, 257, 304). *)
Fixpoint show_tok (t : tok) : bytes :=
  match t with
  | Tok x _ => x
  | TBrace [] => str "{}"
  | TBrace (x :: l) =>
      str "{ " ++ (fix go l := match l with [] => [] | t :: r => show_tok t ++ (match t with Tok _ true => [] | _ => [32] end) ++ go r end) (x :: l)
      ++ str "}"
  end.
(** The same for a whole stream. *)
Fixpoint show (l : list tok) : bytes :=
  match l with
  | [] => []
  | [t] => show_tok t
  | t :: r => show_tok t ++ (match t with Tok _ true => [] | _ => [32] end) ++ show r
  end.

(** [syn::Expr]: a block with its statements, or another expression (HP 67). *)
Inductive expr := EBlock (stmts : list (list tok)) | EPlain (l : list tok).
(** [to_token_stream] (HP 73, 85). *)
Definition to_tokens (e : expr) : list tok := match e with EBlock ss => [TBrace (concat ss)] | EPlain l => l end.

(** syn_rsx's [NodeType]. *)
Inductive ntype := NElement | NAttribute | NText | NComment | NDoctype | NBlock | NFragment.
(** Equality of them (HP 170, 174, 253, 264). *)
Definition ntype_eqb (a b : ntype) : bool :=
  match a, b with
  | NElement, NElement | NAttribute, NAttribute | NText, NText | NComment, NComment | NDoctype, NDoctype | NBlock, NBlock
  | NFragment, NFragment => true
  | _, _ => false
  end.
(** syn_rsx's [Node]. *)
Inductive rsx := Rsx (ty : ntype) (name : option bytes) (value : option expr) (attributes children : list rsx).

(** ** The macro *)

(** HP 66-86: [strip_brackets] *)
Definition strip_brackets (e : expr) : list tok := match e with EBlock [s] => s | _ => to_tokens e end.

(** [split("::").last()] (HP 90-91): what follows the last "::". *)
Fixpoint last_segment (s acc : bytes) : bytes :=
  match s with
  | 58 :: 58 :: t => last_segment t []
  | c :: t => last_segment t (acc ++ [c])
  | [] => acc
  end.
(** HP 89-97: [is_component_name]; upper case is that of ASCII here. *)
Definition is_component_name (s : bytes) : bool :=
  match last_segment s [] with c :: _ => (65 <=? c) && (c <=? 90) | [] => false end.

(** A field of the component's structure (HP 111, 113, 115): [Default::default()], [(v).clone()], [(v).into()]. *)
Inductive gfield := FDefault | FClone (l : list tok) | FInto (l : list tok).

(** The generated expression: [vertigo::DomElement::new(name)] followed by calls of methods (HP 331-345), or a component (HP 138-145).
    The calls: [.method(value)] for the fixed methods (HP 188-243, [.suspense(Some(value))] among them), [.attr(name, value)] (245-247),
    [.child(DomText::new(value))] (284-286), [.child(node)] (150-152, 295-297), [.children(...)] (307-314) and
    [.child(EmbedDom::embed(value))] (316-318). *)
Inductive gen :=
| GNew (name : bytes) (calls : list gcall)
| GComp (name : bytes) (fields : list (bytes * gfield))
with gcall :=
| GMethod (m : bytes) (v : list tok)
| GAttr (name : bytes) (v : list tok)
| GText (v : list tok)
| GChild (g : gen)
| GSpread (v : list tok)
| GEmbed (v : list tok).

(** HP 187-249: [push_attr]; the method of an attribute has the attribute's name, but for [vertigo-suspense]. *)
Definition push_attr (name : bytes) (v : list tok) : gcall :=
  if beq name (str "on_click") then GMethod (str "on_click") v
  else if beq name (str "on_mouse_down") then GMethod (str "on_mouse_down") v
  else if beq name (str "on_mouse_up") then GMethod (str "on_mouse_up") v
  else if beq name (str "on_mouse_enter") then GMethod (str "on_mouse_enter") v
  else if beq name (str "on_mouse_leave") then GMethod (str "on_mouse_leave") v
  else if beq name (str "on_input") then GMethod (str "on_input") v
  else if beq name (str "on_change") then GMethod (str "on_change") v
  else if beq name (str "on_blur") then GMethod (str "on_blur") v
  else if beq name (str "on_key_down") then GMethod (str "on_key_down") v
  else if beq name (str "on_dropfile") then GMethod (str "on_dropfile") v
  else if beq name (str "hook_key_down") then GMethod (str "hook_key_down") v
  else if beq name (str "on_load") then GMethod (str "on_load") v
  else if beq name (str "css") then GMethod (str "css") v
  else if beq name (str "vertigo-suspense") then GMethod (str "suspense") v
  else GAttr name v.

(** HP 155-165: [check_ident] *)
Definition check_ident (s : bytes) : bool :=
  forallb (fun c => ((48 <=? c) && (c <=? 57)) || ((65 <=? c) && (c <=? 90)) || ((97 <=? c) && (c <=? 122)) || (c =? 95)) s.

(** HP 348-357: [extract_value]; [None] is a reported error, and so it is in the functions below. *)
Definition extract_value (v : option expr) : option (list tok) := match v with Some e => Some (strip_brackets e) | None => None end.

(** HP 104-136: a field of a component. *)
Definition field (a : rsx) : option (bytes * gfield) :=
  match a with
  | Rsx _ name value _ _ =>
      match name, value with
      | Some key, Some e =>
          let v := strip_brackets e in
          if beq (show v) (str "{}") || beq (show v) (str "Default :: default()") then Some (key, FDefault)
          else if starts (str "&") (show v) then Some (key, FClone v)
          else Some (key, FInto v)
      | None, Some e =>
          let v := strip_brackets e in
          if beq (show v) (str "{}") || beq (show v) (str "Default :: default()") then None
          else if starts (str "&") (show v) then Some (show (skipn 1 v), FClone v)
          else Some (show v, FInto v)
      | _, None => None
      end
  end.

(** A list of results, an error if one of them is ([emit_error!] lets the macro go on; the compilation fails all the same). *)
Fixpoint all_some {A} (l : list (option A)) : option (list A) :=
  match l with
  | [] => Some []
  | Some a :: t => match all_some t with Some r => Some (a :: r) | None => None end
  | None :: _ => None
  end.

(** HP 99-146: [convert_to_component]: the children are not looked at. *)
Definition convert_to_component (n : rsx) : option gen :=
  match n with
  | Rsx _ name _ attributes _ =>
      match all_some (map field attributes) with
      | Some fs => Some (GComp (match name with Some s => s | None => [] end) fs)
      | None => None
      end
  end.

(** HP 251-276: an attribute. *)
Definition attribute (a : rsx) : option gcall :=
  match a with
  | Rsx ty name value _ _ =>
      if ntype_eqb ty NBlock then
        match extract_value value with
        | Some v => if check_ident (show v) then Some (push_attr (show v) v) else None
        | None => None
        end
      else if ntype_eqb ty NAttribute then
        match name with
        | Some s => match extract_value value with Some v => Some (push_attr s v) | None => None end
        | None => None
        end
      else None
  end.

(** HP 167-346: [convert_node] (whether [DomNode::from] is put around, 331-345, makes no difference to what is done). *)
Fixpoint convert_node (n : rsx) : option gen :=
  match n with
  | Rsx ty name _ attributes children =>
      if ntype_eqb ty NElement then
        let node_name := match name with Some s => s | None => [] end in
        if is_component_name node_name then convert_to_component n
        else
          let out_attr := map attribute attributes in
          let out_child := map (fun c =>
            match c with
            | Rsx NText _ value _ _ => match extract_value value with Some v => Some (GText v) | None => None end
            | Rsx NElement cname _ _ _ =>
                match cname with
                | Some tag => if is_component_name tag then match convert_to_component c with Some g => Some (GChild g) | None => None end
                              else match convert_node c with Some g => Some (GChild g) | None => None end
                | None => match convert_node c with Some g => Some (GChild g) | None => None end
                end
            | Rsx NBlock _ value _ _ =>
                match extract_value value with
                | Some b => if starts (str "..") (show b) then Some (GSpread (skipn 2 b)) else Some (GEmbed b)
                | None => None
                end
            | Rsx _ _ _ _ _ => None
            end) children in
          match all_some out_attr, all_some out_child with
          | Some a, Some c => Some (GNew node_name (a ++ c))
          | _, _ => None
          end
      else None
  end.

(** HP 20-38: one node, or a fragment of several. *)
Inductive gtop := GOne (g : gen) | GMany (l : list gen).
(** HP 7-39: [dom_inner] *)
Definition dom_inner (nodes : list rsx) : option gtop :=
  match all_some (map convert_node nodes) with
  | Some [g] => Some (GOne g)
  | Some [] => None
  | Some l => Some (GMany l)
  | None => None
  end.
(** HP 41-63: [dom_element_inner] *)
Definition dom_element_inner (nodes : list rsx) : option gen :=
  match all_some (map convert_node nodes) with
  | Some [g] => Some g
  | _ => None
  end.

(** ** What the generated code does *)

Section Run.
  (** Handlers. *)
  Context {H : Type}.

  (** The calls that make a [DomNode].  [PText]: [DomText::new]; [PElement]: [DomElement::new] and its methods; [PFragment]:
      [DomComment::dom_fragment]; [PValue]: [render_value_option] (DV 5-33) with what is rendered for the current value; [PList]:
      [render_list] (DL 38-79) with what is rendered for the current list, its keys distinct.
      [CAttr]: [attr] with the current value, [None] only for the optional ones (DE 86-123); [COn]: one of the methods for events, with
      the name of its event; [CCss]: [css], with the class the style has (C34); [CSuspense]: [suspense], with the class the callback gives
      for "not loading" (there is nothing loading below an element that is new). *)
  Inductive prog :=
  | PText (t : bytes)
  | PElement (name : bytes) (calls : list call)
  | PFragment (items : list prog)
  | PValue (p : option prog)
  | PList (items : list prog)
  with call :=
  | CAttr (name : bytes) (v : option bytes)
  | COn (event : bytes) (h : H)
  | CCss (c : bytes)
  | CSuspense (c : bytes)
  | CChild (p : prog)
  | CChildren (l : list prog).

  (** Values of fields of components. *)
  Context {V : Type}.
  (** What the expressions evaluate to: as the value of an attribute, as a text, as a handler, as the class of a style, as the class of a
      suspense callback, as an embedded node ([EmbedDom::embed], EM 4-65), as a list of embedded nodes, as (cloned, converted) fields of
      components; what mounting a component makes of its fields ([None]: the default).  EM 4-65, HP 99-146, 187-318. *)
  Record env := Env {
    e_attr : list tok -> option bytes;
    e_text : list tok -> bytes;
    e_hand : list tok -> H;
    e_css : list tok -> bytes;
    e_susp : list tok -> bytes;
    e_dom : list tok -> prog;
    e_doms : list tok -> list prog;
    e_clone : list tok -> V;
    e_into : list tok -> V;
    e_comp : bytes -> list (bytes * option V) -> prog
  }.

  (** DE 229-391: the methods for events and the events they listen to. *)
  Definition event_of (m : bytes) : option bytes :=
    if beq m (str "on_click") then Some (str "click")
    else if beq m (str "on_mouse_down") then Some (str "mousedown")
    else if beq m (str "on_mouse_up") then Some (str "mouseup")
    else if beq m (str "on_mouse_enter") then Some (str "mouseenter")
    else if beq m (str "on_mouse_leave") then Some (str "mouseleave")
    else if beq m (str "on_input") then Some (str "input")
    else if beq m (str "on_change") then Some (str "change")
    else if beq m (str "on_blur") then Some (str "blur")
    else if beq m (str "on_key_down") then Some (str "keydown")
    else if beq m (str "on_dropfile") then Some (str "drop")
    else if beq m (str "hook_key_down") then Some (str "hook_keydown")
    else if beq m (str "on_load") then Some (str "load")
    else None.

  (** The value of a field. *)
  Definition eval_field (v : env) (f : gfield) : option V :=
    match f with FDefault => None | FClone l => Some (e_clone v l) | FInto l => Some (e_into v l) end.

  (** The generated code with its expressions evaluated. *)
  Fixpoint eval (v : env) (g : gen) : prog :=
    match g with
    | GNew name calls => PElement name (map (eval_call v) calls)
    | GComp name fields => e_comp v name (map (fun f => (fst f, eval_field v (snd f))) fields)
    end
  with eval_call (v : env) (c : gcall) : call :=
    match c with
    | GMethod m l => match event_of m with
                     | Some ev => COn ev (e_hand v l)
                     | None => if beq m (str "suspense") then CSuspense (e_susp v l) else CCss (e_css v l)
                     end
    | GAttr name l => CAttr name (e_attr v l)
    | GText l => CChild (PText (e_text v l))
    | GChild g => CChild (eval v g)
    | GSpread l => CChildren (e_doms v l)
    | GEmbed l => CChild (e_dom v l)
    end.
  (** The same for the whole. *)
  Definition eval_top (v : env) (g : gtop) : prog :=
    match g with GOne g => eval v g | GMany l => PFragment (map (eval v) l) end.

  (** The counters of ids (DI 8-12) and of callbacks, the handlers registered (DE 187), the commands issued (DD 86-92). *)
  Record bworld := BW { w_next : N; w_cb : N; w_hand : N -> option H; w_q : list (dcmd bytes) }.
  (** DD 86-92: [add_command] *)
  Definition emit (w : bworld) (c : dcmd bytes) : bworld := BW (w_next w) (w_cb w) (w_hand w) (w_q w ++ [c]).
  (** DI 8-12: [get_unique_id] *)
  Definition next_id (w : bworld) : bworld := BW (w_next w + 1) (w_cb w) (w_hand w) (w_q w).
  (** DI 24-33: [from_name] *)
  Definition from_name (name : bytes) (w : bworld) : N * bworld :=
    if beq name (str "html") then (1, w)
    else if beq name (str "head") then (2, w)
    else if beq name (str "body") then (3, w)
    else (w_next w, next_id w).

  (** EC 7-15: [attr_name], [css_name], [suspense_css], [command_last_sent]; the styles by their classes. *)
  Record cls := Cls { k_attr : option bytes; k_css : option bytes; k_susp : option bytes; k_last : option bytes }.
  (** [join(" ")] (EC 50). *)
  Fixpoint join (l : list bytes) : bytes :=
    match l with [] => [] | [x] => x | x :: t => x ++ str " " ++ join t end.
  (** An option as a list. *)
  Definition olist (o : option bytes) : list bytes := match o with Some x => [x] | None => [] end.
  (** EC 30-52: [get_new_command] *)
  Definition get_new_command (k : cls) : option bytes :=
    match olist (k_attr k) ++ olist (k_css k) ++ olist (k_susp k) with [] => None | l => Some (join l) end.
  (** Equality of [Option<String>] (EC 57). *)
  Definition obeq (a b : option bytes) : bool :=
    match a, b with Some x, Some y => beq x y | None, None => true | _, _ => false end.
  (** EC 54-70: [refresh_dom] *)
  Definition refresh_dom (id : N) (k : cls) (w : bworld) : cls * bworld :=
    let new := get_new_command k in
    if obeq (k_last k) new then (k, w)
    else (Cls (k_attr k) (k_css k) (k_susp k) new, emit w (SetAttr id (str "class") (match new with Some v => v | None => [] end))).

  (** EC 136-161: [set_attr_value], with [set_attribute] (87-92) and [remove_attribute] (94-99). *)
  Definition set_attr_value (id : N) (name : bytes) (v : option bytes) (k : cls) (w : bworld) : cls * bworld :=
    if beq name (str "class") then refresh_dom id (Cls v (k_css k) (k_susp k) (k_last k)) w
    else (k, emit w (match v with Some x => SetAttr id name x | None => RemoveAttr id name end)).

  (** DE 182-203: [add_event_listener] *)
  Definition add_event_listener (id : N) (event : bytes) (h : H) (w : bworld) : bworld :=
    emit (BW (w_next w) (w_cb w + 1) (nupd (w_hand w) (w_cb w) (Some h)) (w_q w)) (CallbackAdd id event (w_cb w)).

  (** What [DriverDom::insert_before] (DD 223-235) does for a node: the command, then its callback of [node_parent] (242-250).  A function of
      the parent and the node before which it is put. *)
  Definition mount := N -> option N -> bworld -> bworld.
  (** A [DomNode]: its id, and what inserting it does. *)
  Definition dnode := (N * mount)%type.
  (** DD 223-235 for a node without such a callback. *)
  Definition plain_mount (id : N) : mount := fun parent before w => emit w (InsertBefore parent id before).
  (** DC 72-90: the callback of a fragment; the list is reversed first.  [prev] is [prev_node]. *)
  Fixpoint frag_mount (parent prev : N) (l : list dnode) (w : bworld) : bworld :=
    match l with
    | [] => w
    | (id, m) :: t => frag_mount parent id t (m parent (Some prev) w)
    end.

  (** The texts of the comments: DC 75, DV 11, DL 46. *)
  Definition frag_text : bytes := str "list dom node".
  (** DV 11 *)
  Definition value_text : bytes := str "value element".
  (** DL 46 *)
  Definition list_text : bytes := str "list element".

  (** DT 14-26 and DC 34-62: a node is made with a new id. *)
  Definition fresh (w : bworld) (c : N -> dcmd bytes) : N * bworld := (w_next w, emit (next_id w) (c (w_next w))).

  (** The nodes are made.  A component, a text and an element at once; what a value or a list shows when it is mounted (DC 40-46): the items of a list from
      the last to the first (DL 203-213), as there are none before ([find_first_dom], DL 92, gives the comment). *)
  Fixpoint exec (p : prog) (w : bworld) {struct p} : dnode * bworld :=
    match p with
    | PText t => let '(id, w1) := fresh w (fun i => CreateText i t) in ((id, plain_mount id), w1)
    | PElement name calls =>
        let '(id, w1) := from_name name w in
        let w2 := emit w1 (CreateNode id name) in
        let '(_, w3) := (fix go (l : list call) (k : cls) (w : bworld) {struct l} : cls * bworld :=
          match l with
          | [] => (k, w)
          | c :: t => let '(k1, w1) := exec_call c id k w in go t k1 w1
          end) calls (Cls None None None None) w2 in
        ((id, plain_mount id), w3)
    | PFragment items =>
        let '(nodes, w1) := (fix all (l : list prog) (w : bworld) {struct l} : list dnode * bworld :=
          match l with
          | [] => ([], w)
          | p :: t => let '(d, w1) := exec p w in let '(ds, w2) := all t w1 in (d :: ds, w2)
          end) items w in
        let '(id, w2) := fresh w1 (fun i => CreateComment i frag_text) in
        ((id, fun parent before w => frag_mount parent id (rev nodes) (emit w (InsertBefore parent id before))), w2)
    | PValue cur =>
        let '(id, w1) := fresh w (fun i => CreateComment i value_text) in
        ((id, fun parent before w =>
           let w1 := emit w (InsertBefore parent id before) in
           match cur with
           | None => w1
           | Some p => let '((_, m), w2) := exec p w1 in m parent (Some id) w2
           end), w1)
    | PList items =>
        let '(id, w1) := fresh w (fun i => CreateComment i list_text) in
        ((id, fun parent before w =>
           snd ((fix down (l : list prog) (w : bworld) {struct l} : N * bworld :=
                  match l with
                  | [] => (id, w)
                  | p :: t => let '(prev, w1) := down t w in
                              let '((i, m), w2) := exec p w1 in (i, m parent (Some prev) w2)
                  end) items (emit w (InsertBefore parent id before)))), w1)
    end
  (** DE 63-180: the methods. *)
  with exec_call (c : call) (id : N) (k : cls) (w : bworld) {struct c} : cls * bworld :=
    match c with
    | CAttr name v => set_attr_value id name v k w
    | COn event h => (k, add_event_listener id event h w)
    | CCss x => refresh_dom id (Cls (k_attr k) (Some x) (k_susp k) (k_last k)) w
    | CSuspense x => refresh_dom id (Cls (k_attr k) (k_css k) (Some x) (k_last k)) w
    | CChild p => let '((_, m), w1) := exec p w in (k, m id None w1)
    | CChildren l =>
        let '(nodes, w1) := (fix all (l : list prog) (w : bworld) {struct l} : list dnode * bworld :=
          match l with
          | [] => ([], w)
          | p :: t => let '(d, w1) := exec p w in let '(ds, w2) := all t w1 in (d :: ds, w2)
          end) l w in
        (k, fold_left (fun w d => snd d id None w) nodes w1)
    end.

  (** The inner functions by themselves. *)
  Fixpoint exec_all (l : list prog) (w : bworld) : list dnode * bworld :=
    match l with
    | [] => ([], w)
    | p :: t => let '(d, w1) := exec p w in let '(ds, w2) := exec_all t w1 in (d :: ds, w2)
    end.
  (** The calls one after the other (DE 63-180). *)
  Fixpoint exec_calls (id : N) (l : list call) (k : cls) (w : bworld) : cls * bworld :=
    match l with
    | [] => (k, w)
    | c :: t => let '(k1, w1) := exec_call c id k w in exec_calls id t k1 w1
    end.
  (** DL 203-213 *)
  Definition exec_down (id parent : N) : list prog -> bworld -> N * bworld :=
    fix down (l : list prog) (w : bworld) {struct l} : N * bworld :=
      match l with
      | [] => (id, w)
      | p :: t => let '(prev, w1) := down t w in
                  let '((i, m), w2) := exec p w1 in (i, m parent (Some prev) w2)
      end.
End Run.
Arguments prog : clear implicits.
Arguments call : clear implicits.
Arguments env : clear implicits.
Arguments bworld : clear implicits.
Arguments dnode : clear implicits.
Arguments mount : clear implicits.
