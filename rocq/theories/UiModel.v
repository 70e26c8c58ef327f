(** A user interface over time: nodes that are bound to values, and what is done to the document when the values change.

    Source: DE = /repo/crates/vertigo/src/dom/dom_element.rs, EC = dom/dom_element_class.rs, DT = dom/dom_text.rs, DC = dom/dom_comment.rs,
    DV = render/dom_value.rs, DL = render/dom_list.rs, DI = dom/dom_id.rs, DD = driver_module/dom.rs, CB = computed/computed_box.rs.

    Everything an application makes is here in one tree: elements with bound attributes, texts, bound texts, fragments, values and lists
    that render nodes, which can again be all of this.  Left out: listeners (C60, C61), the class attribute (C37, C80), styles, suspense, the
    elements html, head and body (C91).  Subscriptions are taken as C01-C06 say: one is called when it is made, after that when the value
    it is bound to has changed, and never after it was dropped; in which order those of one transaction are called is left open. *)
From Coq Require Import String List NArith Bool.
From Verif Require Import CodecModel DomWire DomModel DomMacroModel.
Import ListNotations.
Local Open Scope string_scope.
Local Open Scope list_scope.
Local Open Scope N_scope.

Section Ui.
  (** What identifies a [Computed], the values of them; the same for those that hold lists, with their items; the keys of items. *)
  Context {K V L I KT : Type}.
  (** [PartialEq] of values and items, [Eq] of keys. *)
  Variable veq : V -> V -> bool.
  Variable ieq : I -> I -> bool.
  Variable keq : KT -> KT -> bool.

  (** The current values. *)
  Record env := Env { e_val : K -> V; e_list : L -> list I }.

  (** What the application describes: a text (DT 14-25), a text bound to a value (DT 27-43), an element with attributes bound to values and children (DE
      31-48, 87-124, 141-151), a fragment (DC 72-90), [render_value_option] (DV 5-33), [render_list] (DL 37-79).  An attribute that is not bound is bound to a value
      that never changes. *)
  Inductive tmpl :=
  | TText (t : bytes)
  | TBound (k : K) (f : V -> bytes)
  | TElem (name : bytes) (attrs : list (bytes * (K * (V -> option bytes)))) (kids : list tmpl)
  | TFrag (items : list tmpl)
  | TValue (k : K) (render : V -> option tmpl)
  | TList (l : L) (key : I -> KT) (render : I -> tmpl).

  (** An attribute of an element: its name, what it is bound to, and [prev_value] of the subscription (CB 100). *)
  Record battr := BAttr { a_name : bytes; a_key : K; a_fun : V -> option bytes; a_last : V }.

  (** The nodes there are, each with what it owns: an element its children (DE 28) and subscriptions, a text its subscription, a fragment its
      list (DC 73-75), a value the node that is shown (DV 12), a list the items with their nodes (DL 47-48).  [last] is [prev_value] of the
      subscription (CB 100), [parent] the parent the marker was mounted in (DC 40). *)
  Inductive live :=
  | LText (id : N) (t : bytes)
  | LBound (id : N) (k : K) (f : V -> bytes) (last : V)
  | LElem (id : N) (name : bytes) (attrs : list battr) (kids : list live)
  | LFrag (id : N) (items : list live)
  | LValue (id parent : N) (k : K) (render : V -> option tmpl) (last : V) (cur : option live)
  | LList (id parent : N) (l : L) (key : I -> KT) (render : I -> tmpl) (last : list I) (cur : list (I * live)).

  (** dom_node.rs:21-27 *)
  Definition l_id (l : live) : N :=
    match l with LText i _ | LBound i _ _ _ | LElem i _ _ _ | LFrag i _ | LValue i _ _ _ _ _ | LList i _ _ _ _ _ _ => i end.

  (** The counter of ids (DI 8-12) and the commands so far (DD 86-92). *)
  Record uw := UW { u_next : N; u_q : list (dcmd bytes) }.
  (** DD 86-92 *)
  Definition uemit (w : uw) (c : dcmd bytes) : uw := UW (u_next w) (u_q w ++ [c]).
  (** DD 86-92, several. *)
  Definition uemits (w : uw) (cs : list (dcmd bytes)) : uw := UW (u_next w) (u_q w ++ cs).
  (** [DomId::default] (DI 17-21) and the command that makes a node for it. *)
  Definition ufresh (w : uw) (c : N -> dcmd bytes) : N * uw := (u_next w, UW (u_next w + 1) (u_q w ++ [c (u_next w)])).

  (** What inserting a node does (DD 223-235): the parent, the node it is put before. *)
  Definition umount : Type := N -> option N -> uw -> live * uw.
  (** A node that is not yet mounted. *)
  Definition unode : Type := N * umount.

  (** EC [set_attr_value] for an attribute other than the class (EC 90-105). *)
  Definition attr_cmd (id : N) (name : bytes) (v : option bytes) : dcmd bytes :=
    match v with Some x => SetAttr id name x | None => RemoveAttr id name end.
  (** DE 87-124 with CB 97-118: the attribute is set when the subscription is made. *)
  Definition add_attr (E : env) (id : N) (a : bytes * (K * (V -> option bytes))) (w : uw) : battr * uw :=
    let '(name, (k, f)) := a in
    (BAttr name k f (e_val E k), uemit w (attr_cmd id name (f (e_val E k)))).
  (** One attribute after the other. *)
  Fixpoint add_attrs (E : env) (id : N) (l : list (bytes * (K * (V -> option bytes)))) (w : uw) : list battr * uw :=
    match l with
    | [] => ([], w)
    | a :: t => let '(b, w1) := add_attr E id a w in let '(bs, w2) := add_attrs E id t w1 in (b :: bs, w2)
    end.

  (** DC 72-90: the nodes of a fragment are mounted from the last to the first, each before the one mounted before it; [l] is the list as it was
      given. *)
  Fixpoint frag_mount (parent comment : N) (l : list unode) (w : uw) : N * list live * uw :=
    match l with
    | [] => (comment, [], w)
    | (i, m) :: t => let '(prev, ls, w1) := frag_mount parent comment t w in
                     let '(x, w2) := m parent (Some prev) w1 in (i, x :: ls, w2)
    end.

  (** DL 242-252: the first node of the cache with the key is taken out.  The cache, a map from keys to queues, is here the list of its nodes
      in the order they were put in. *)
  Fixpoint take_key (k : KT) (c : list (KT * live)) : option (live * list (KT * live)) :=
    match c with
    | [] => None
    | (k', x) :: t => if keq k k' then Some (x, t)
                      else match take_key k t with Some (y, r) => Some (y, (k', x) :: r) | None => None end
    end.
  (** DL 203-213: [items] is [new_child] in reverse; a node of the cache is an element or a text (for a marker, inserting it again would mount it again: C32). *)
  Fixpoint middle_loop (key : I -> KT) (make : I -> uw -> unode * uw) (parent : N) (items : list I) (last_before : N)
      (c : list (KT * live)) (acc : list (I * live)) (w : uw) : list (I * live) * list (KT * live) * uw :=
    match items with
    | [] => (acc, c, w)
    | x :: t =>
        match take_key (key x) c with
        | Some (n, c1) => middle_loop key make parent t (l_id n) c1 ((x, n) :: acc) (uemit w (InsertBefore parent (l_id n) (Some last_before)))
        | None => let '((i, m), w1) := make x w in
                  let '(n, w2) := m parent (Some last_before) w1 in
                  middle_loop key make parent t i c ((x, n) :: acc) w2
        end
    end.

  (** Making a node; it is mounted by the function that is returned. *)
  Fixpoint make (E : env) (t : tmpl) (w : uw) {struct t} : unode * uw :=
    match t with
    | TText x =>
        let '(id, w1) := ufresh w (fun i => CreateText i x) in
        ((id, fun parent before w => (LText id x, uemit w (InsertBefore parent id before))), w1)
    | TBound k f =>
        let '(id, w1) := ufresh w (fun i => CreateText i []) in
        ((id, fun parent before w => (LBound id k f (e_val E k), uemit w (InsertBefore parent id before))), uemit w1 (UpdateText id (f (e_val E k))))
    | TElem name attrs kids =>
        let '(id, w1) := ufresh w (fun i => CreateNode i name) in
        let '(bs, w2) := add_attrs E id attrs w1 in
        let '(ls, w3) := (fix go (l : list tmpl) (w : uw) {struct l} : list live * uw :=
          match l with
          | [] => ([], w)
          | c :: r => let '((_, m), w1) := make E c w in
                      let '(x, w2) := m id None w1 in
                      let '(xs, w3) := go r w2 in (x :: xs, w3)
          end) kids w2 in
        ((id, fun parent before w => (LElem id name bs ls, uemit w (InsertBefore parent id before))), w3)
    | TFrag items =>
        let '(nodes, w1) := (fix all (l : list tmpl) (w : uw) {struct l} : list unode * uw :=
          match l with
          | [] => ([], w)
          | p :: r => let '(d, w1) := make E p w in let '(ds, w2) := all r w1 in (d :: ds, w2)
          end) items w in
        let '(id, w2) := ufresh w1 (fun i => CreateComment i frag_text) in
        ((id, fun parent before w =>
           let '(_, ls, w1) := frag_mount parent id nodes (uemit w (InsertBefore parent id before)) in (LFrag id ls, w1)), w2)
    | TValue k render =>
        let '(id, w1) := ufresh w (fun i => CreateComment i value_text) in
        ((id, fun parent before w =>
           let w1 := uemit w (InsertBefore parent id before) in
           match render (e_val E k) with
           | None => (LValue id parent k render (e_val E k) None, w1)
           | Some t1 => let '((_, m), w2) := make E t1 w1 in
                        let '(x, w3) := m parent (Some id) w2 in (LValue id parent k render (e_val E k) (Some x), w3)
           end), w1)
    | TList l key render =>
        let '(id, w1) := ufresh w (fun i => CreateComment i list_text) in
        ((id, fun parent before w =>
           let w1 := uemit w (InsertBefore parent id before) in
           let '(cur, _, w2) := middle_loop key (fun i w => make E (render i) w) parent (rev (e_list E l)) id [] [] w1 in
           (LList id parent l key render (e_list E l) cur, w2)), w1)
    end.
  (** The children of an element, one after the other (DE 141-151). *)
  Definition make_kids (E : env) (id : N) : list tmpl -> uw -> list live * uw :=
    fix go (l : list tmpl) (w : uw) {struct l} : list live * uw :=
          match l with
          | [] => ([], w)
          | c :: r => let '((_, m), w1) := make E c w in
                      let '(x, w2) := m id None w1 in
                      let '(xs, w3) := go r w2 in (x :: xs, w3)
          end.
  (** The nodes of a fragment (DC 72: they are given to it). *)
  Definition make_all (E : env) : list tmpl -> uw -> list unode * uw :=
    fix all (l : list tmpl) (w : uw) {struct l} : list unode * uw :=
          match l with
          | [] => ([], w)
          | p :: r => let '(d, w1) := make E p w in let '(ds, w2) := all r w1 in (d :: ds, w2)
          end.

  (** Dropping a node: DE 395-399, DT 50-54, DC 93-97, and then what it owns: the children of an element; the list of a fragment, which was
      reversed (DC 73); what a value shows; the nodes of a list. *)
  Fixpoint drop_live (l : live) : list (dcmd bytes) :=
    match l with
    | LText i _ | LBound i _ _ _ => [RemoveText i]
    | LElem i _ _ ks => RemoveNode i :: flat_map drop_live ks
    | LFrag i ls => RemoveComment i :: flat_map (fun d => d) (rev (map drop_live ls))
    | LValue i _ _ _ _ None => [RemoveComment i]
    | LValue i _ _ _ _ (Some x) => RemoveComment i :: drop_live x
    | LList i _ _ _ _ _ cur => RemoveComment i :: flat_map (fun e => drop_live (snd e)) cur
    end.

  (** DL 117-148 *)
  Fixpoint pairs_top (cur : list (I * live)) (new : list I) : list (I * live) * list (I * live) * list I :=
    match cur, new with
    | (i, x) :: c, j :: n => if ieq i j then let '(p, c1, n1) := pairs_top c n in ((i, x) :: p, c1, n1) else ([], cur, new)
    | _, _ => ([], cur, new)
    end.
  (** DL 151-182: the same from the other end. *)
  Definition pairs_bottom (cur : list (I * live)) (new : list I) : list (I * live) * list (I * live) * list I :=
    let '(p, c, n) := pairs_top (rev cur) (rev new) in (rev p, rev c, rev n).
  (** The order in which the nodes left in the cache are dropped (those of a [HashMap]: DL 218-222) is unspecified. *)
  Variable ord : list live -> list live.
  (** DL 81-106, 184-216 *)
  Definition reorder (E : env) (parent comment : N) (key : I -> KT) (render : I -> tmpl) (cur : list (I * live)) (new : list I) (w : uw) :
      list (I * live) * uw :=
    let '(top, cur1, new1) := pairs_top cur new in
    let '(bottom, cur2, new2) := pairs_bottom cur1 new1 in
    let last_before := match bottom with (_, x) :: _ => l_id x | [] => comment end in
    let '(middle, rest, w1) := middle_loop key (fun i w => make E (render i) w) parent (rev new2) last_before (map (fun e => (key (fst e), snd e)) cur2) [] w in
    (top ++ middle ++ bottom, uemits w1 (flat_map drop_live (ord (map snd rest)))).

  (** Equality of lists ([PartialEq] of [Vec]). *)
  Fixpoint leq (a b : list I) : bool :=
    match a, b with [], [] => true | x :: a', y :: b' => ieq x y && leq a' b' | _, _ => false end.

  (** CB 103-113 with DE 97-123: the subscription of an attribute is called. *)
  Definition call_attr (E : env) (id : N) (a : battr) (w : uw) : battr * uw :=
    let v := e_val E (a_key a) in
    if veq (a_last a) v then (a, w) else (BAttr (a_name a) (a_key a) (a_fun a) v, uemit w (attr_cmd id (a_name a) (a_fun a v))).
  (** The [j]th attribute. *)
  Fixpoint call_nth (E : env) (id : N) (j : nat) (l : list battr) (w : uw) : list battr * uw :=
    match l, j with
    | [], _ => ([], w)
    | a :: t, O => let '(b, w1) := call_attr E id a w in (b :: t, w1)
    | a :: t, S j' => let '(bs, w1) := call_nth E id j' t w in (a :: bs, w1)
    end.

  (** The subscription of the node [c] is called ([j]: for the [j]th attribute): CB 103-113; DT 36-39; DV 17-29: the new node is rendered and inserted before the
      comment, then the old one is dropped; DL 54-75.  If no node has the id, the subscription was dropped. *)
  Fixpoint call (E : env) (c : N) (j : nat) (l : live) (w : uw) {struct l} : live * uw :=
    match l with
    | LText _ _ => (l, w)
    | LBound i k f last =>
        if i =? c then
          let v := e_val E k in
          if veq last v then (l, w) else (LBound i k f v, uemit w (UpdateText i (f v)))
        else (l, w)
    | LElem i name attrs ks =>
        if i =? c then let '(bs, w1) := call_nth E i j attrs w in (LElem i name bs ks, w1)
        else let '(ks1, w1) := (fix go (ls : list live) (w : uw) {struct ls} : list live * uw :=
               match ls with
               | [] => ([], w)
               | x :: r => let '(y, w1) := call E c j x w in let '(ys, w2) := go r w1 in (y :: ys, w2)
               end) ks w in (LElem i name attrs ks1, w1)
    | LFrag i ls =>
        let '(ls1, w1) := (fix go (ls : list live) (w : uw) {struct ls} : list live * uw :=
               match ls with
               | [] => ([], w)
               | x :: r => let '(y, w1) := call E c j x w in let '(ys, w2) := go r w1 in (y :: ys, w2)
               end) ls w in (LFrag i ls1, w1)
    | LValue i parent k render last cur =>
        if i =? c then
          let v := e_val E k in
          if veq last v then (l, w)
          else
            let '(new, w1) := match render v with
                              | None => (None, w)
                              | Some t => let '((_, m), w1) := make E t w in let '(x, w2) := m parent (Some i) w1 in (Some x, w2)
                              end in
            (LValue i parent k render v new, uemits w1 (match cur with Some x => drop_live x | None => [] end))
        else match cur with
             | None => (l, w)
             | Some x => let '(y, w1) := call E c j x w in (LValue i parent k render last (Some y), w1)
             end
    | LList i parent k key render last cur =>
        if i =? c then
          let v := e_list E k in
          if leq last v then (l, w)
          else let '(cur1, w1) := reorder E parent i key render cur v w in (LList i parent k key render v cur1, w1)
        else let '(cur1, w1) := (fix go (ls : list (I * live)) (w : uw) {struct ls} : list (I * live) * uw :=
               match ls with
               | [] => ([], w)
               | (a, x) :: r => let '(y, w1) := call E c j x w in let '(ys, w2) := go r w1 in ((a, y) :: ys, w2)
               end) cur w in (LList i parent k key render last cur1, w1)
    end.
  (** The subscriptions of several nodes (plumbing of [call]). *)
  Definition call_all (E : env) (c : N) (j : nat) : list live -> uw -> list live * uw :=
    fix go (ls : list live) (w : uw) {struct ls} : list live * uw :=
               match ls with
               | [] => ([], w)
               | x :: r => let '(y, w1) := call E c j x w in let '(ys, w2) := go r w1 in (y :: ys, w2)
               end.
  (** The same for the nodes of a list. *)
  Definition call_items (E : env) (c : N) (j : nat) : list (I * live) -> uw -> list (I * live) * uw :=
    fix go (ls : list (I * live)) (w : uw) {struct ls} : list (I * live) * uw :=
               match ls with
               | [] => ([], w)
               | (a, x) :: r => let '(y, w1) := call E c j x w in let '(ys, w2) := go r w1 in ((a, y) :: ys, w2)
               end.

  (** What happens: the values change; the subscription of a node is called. *)
  Inductive event := Change (E : env) | Call (c : N) (j : nat).
  (** The application: the values, its nodes, the counter and the commands. *)
  Record ui := Ui { ui_env : env; ui_live : live; ui_w : uw }.
  (** The application begins: its node is made and becomes the last child of [root] (DE 141-151). *)
  Definition ui_start (E : env) (t : tmpl) (root next : N) : ui :=
    let '((_, m), w) := make E t (UW next []) in
    let '(l, w1) := m root None w in Ui E l w1.
  (** One event. *)
  Definition ui_step (u : ui) (e : event) : ui :=
    match e with
    | Change E => Ui E (ui_live u) (ui_w u)
    | Call c j => let '(l, w) := call (ui_env u) c j (ui_live u) (ui_w u) in Ui (ui_env u) l w
    end.
  (** Events one after the other. *)
  Definition ui_run (u : ui) (es : list event) : ui := fold_left ui_step es u.
End Ui.
Arguments env : clear implicits.
Arguments tmpl : clear implicits.
Arguments live : clear implicits.
Arguments battr : clear implicits.
Arguments ui : clear implicits.
Arguments event : clear implicits.
Arguments unode : clear implicits.
Arguments umount : clear implicits.
