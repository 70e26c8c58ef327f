(** Model of the reactive parts of a document: lists, values and fragments of nodes.

    Source: /repo/crates/vertigo/src/render/dom_list.rs, dom_value.rs, /repo/crates/vertigo/src/dom/dom_comment.rs,
    dom_node.rs, dom_element.rs, dom_text.rs, dom_id.rs and driver_module/dom.rs.

    Everything here happens among the children of one element: a marker inserts its content into the parent
    it was itself inserted into.  The functions return the DOM commands they issue.  What an element contains
    is left out (its own children are inserted into it, not into the parent). *)

From Coq Require Import List NArith Bool.
From Verif Require Import DomModel.
Import ListNotations.

(** ** Lists: dom_list.rs *)

Section RList.
  (** Items, keys, strings. *)
  Context {T K S : Type}.
  (** [PartialEq] of items, [Eq] of keys. *)
  Variable teq : T -> T -> bool.
  Variable keq : K -> K -> bool.
  Variable get_key : T -> K.
  (** What the [render] function makes of an item: an element with the given name or a text. *)
  Variable is_text : T -> bool.
  Variable label : T -> S.

  (** A [DomNode] made by [render] (dom_node.rs:6-10); [n_item] is the item it was rendered for. *)
  Record node := Node { n_id : N; n_item : T }.

  (** [render(item)]: dom_element.rs:31-39, dom_text.rs:14-19, dom_id.rs:8-18; [next] is the counter of ids. *)
  Definition create (x : T) (next : N) : node * N * list (dcmd S) :=
    (Node next x, (next + 1)%N, [if is_text x then CreateText next (label x) else CreateNode next (label x)]).

  (** [Drop]: dom_element.rs, dom_text.rs:50-54. *)
  Definition drop_node (n : node) : dcmd S := if is_text (n_item n) then RemoveText (n_id n) else RemoveNode (n_id n).

  (** dom_list.rs:117-148 *)
  Fixpoint get_pairs_top (current : list (T * node)) (new_child : list T) : list (T * node) * list (T * node) * list T :=
    match current, new_child with
    | (id1, nd) :: cur, id2 :: new =>
        if teq id1 id2 then let '(p, c, n) := get_pairs_top cur new in ((id1, nd) :: p, c, n)
        else ([], current, new_child)
    | _, _ => ([], current, new_child)
    end.

  (** dom_list.rs:151-182: the same from the other end. *)
  Definition get_pairs_bottom (current : list (T * node)) (new_child : list T) : list (T * node) * list (T * node) * list T :=
    let '(p, c, n) := get_pairs_top (rev current) (rev new_child) in (rev p, rev c, rev n).

  (** dom_list.rs:108-114 *)
  Definition find_first_dom (l : list (T * node)) : option N := match l with (_, n) :: _ => Some (n_id n) | [] => None end.

  (** dom_list.rs:218-222: [data] *)
  Definition cache := list (K * list node).

  (** dom_list.rs:236-240: [insert] *)
  Fixpoint cache_insert (c : cache) (k : K) (n : node) : cache :=
    match c with
    | [] => [(k, [n])]
    | (k', q) :: t => if keq k k' then (k', q ++ [n]) :: t else (k', q) :: cache_insert t k n
    end.

  (** dom_list.rs:244: [entry(key).or_default().pop_front()] *)
  Fixpoint cache_pop (c : cache) (k : K) : option node * cache :=
    match c with
    | [] => (None, [(k, [])])
    | (k', q) :: t =>
        if keq k k' then match q with n :: q' => (Some n, (k', q') :: t) | [] => (None, (k', []) :: t) end
        else let '(r, t') := cache_pop t k in (r, (k', q) :: t')
    end.

  (** dom_list.rs:242-252 *)
  Definition get_or_create (c : cache) (next : N) (x : T) : node * cache * N * list (dcmd S) :=
    match cache_pop c (get_key x) with
    | (Some n, c1) => (n, c1, next, [])
    | (None, c1) => let '(n, next1, cs) := create x next in (n, c1, next1, cs)
    end.

  (** dom_list.rs:203-213; [items] is [new_child] reversed, [acc] is [pairs_middle]. *)
  Fixpoint middle_loop (parent : N) (items : list T) (last_before : N) (c : cache) (next : N) (acc : list (T * node)) :
      list (T * node) * cache * N * list (dcmd S) :=
    match items with
    | [] => (acc, c, next, [])
    | x :: t =>
        let '(n, c1, next1, cs1) := get_or_create c next x in
        let '(r, c2, next2, cs2) := middle_loop parent t (n_id n) c1 next1 ((x, n) :: acc) in
        (r, c2, next2, cs1 ++ InsertBefore parent (n_id n) (Some last_before) :: cs2)
    end.

  (** The order in which the entries of a [HashMap] are dropped is unspecified. *)
  Variable ord : list node -> list node.

  (** dom_list.rs:184-216: the nodes left in [real_node] are dropped at the end. *)
  Definition get_pairs_middle (parent last_before : N) (real_child : list (T * node)) (new_child : list T) (next : N) :
      list (T * node) * N * list (dcmd S) :=
    let c := fold_left (fun c e => cache_insert c (get_key (fst e)) (snd e)) real_child [] in
    let '(r, c2, next2, cs) := middle_loop parent (rev new_child) last_before c next [] in
    (r, next2, cs ++ map drop_node (ord (flat_map snd c2))).

  (** dom_list.rs:81-106 *)
  Definition reorder_nodes (parent comment : N) (real_child : list (T * node)) (new_child : list T) (next : N) :
      list (T * node) * N * list (dcmd S) :=
    let '(top, real1, new1) := get_pairs_top real_child new_child in
    let '(bottom, real2, new2) := get_pairs_bottom real1 new1 in
    let last_before := match find_first_dom bottom with Some id => id | None => comment end in
    let '(middle, next1, cs) := get_pairs_middle parent last_before real2 new2 next in
    (top ++ middle ++ bottom, next1, cs).

  (** dom_list.rs:46-79: a mounted list: [current_list], the counter; [l_out] is what one value of the list issues. *)
  Record rlist := RList { l_current : list (T * node); l_next : N }.
  (** dom_list.rs:54-75: one new value of the list. *)
  Definition on_list (parent comment : N) (s : rlist) (new_list : list T) : rlist * list (dcmd S) :=
    let '(r, next, cs) := reorder_nodes parent comment (l_current s) new_list (l_next s) in (RList r next, cs).

  (** The values of the list one after the other, from the mount ([current_list] is empty). *)
  Fixpoint on_lists (parent comment : N) (s : rlist) (ls : list (list T)) : rlist * list (dcmd S) :=
    match ls with
    | [] => (s, [])
    | l :: t => let '(s1, c1) := on_list parent comment s l in let '(s2, c2) := on_lists parent comment s1 t in (s2, c1 ++ c2)
    end.
End RList.
Arguments node : clear implicits.
Arguments rlist : clear implicits.

(** ** Values, fragments and nesting: dom_value.rs, dom_comment.rs *)

Section RNode.
  Context {S : Type}.
  (** The text of a marker comment (dom_value.rs:11, dom_comment.rs:75, dom_list.rs:46). *)
  Variable mark : S.

  (** A [DomNode]: an element, a text, a marker with the nodes it inserts before itself when it is mounted.  The ids are the
      ones the nodes get.  [RFrag]: dom_comment.rs:72-90 with the list as given to [dom_fragment].  [RValue]: dom_value.rs:5-33
      with the node that is rendered for the current value.  [RListOf]: dom_list.rs:46-77 with the nodes that are rendered for the
      current list. *)
  Inductive rnode :=
  | RElement (id : N) (name : S)
  | RText (id : N) (text : S)
  | RFrag (id : N) (items : list rnode)
  | RValue (id : N) (cur : option rnode)
  | RListOf (id : N) (items : list rnode).

  (** dom_node.rs:21-27 *)
  Definition r_id (r : rnode) : N := match r with RElement i _ | RText i _ | RFrag i _ | RValue i _ | RListOf i _ => i end.

  (** What making a node issues: dom_element.rs:31-39, dom_text.rs:14-19, dom_comment.rs:34-62.  The nodes of a fragment are made
      before it; what a value or a list shows is made when it is mounted. *)
  Fixpoint build (r : rnode) : list (dcmd S) :=
    match r with
    | RElement i n => [CreateNode i n]
    | RText i t => [CreateText i t]
    | RFrag i l => flat_map build l ++ [CreateComment i mark]
    | RValue i _ | RListOf i _ => [CreateComment i mark]
    end.

  (** [DriverDom::insert_before] (dom.rs:223-235) with the mount callback (dom_comment.rs:40-46): the command, then the content.
      A value (dom_value.rs:17-24) renders its node and inserts it before the comment.  A list (dom_list.rs:203-213) does it from
      the last item to the first, each before the previous one ([find_first_dom] of nothing is the comment).  A fragment
      (dom_comment.rs:76-86) inserts its nodes in the same order. *)
  Fixpoint insert (parent : N) (r : rnode) (before : N) {struct r} : list (dcmd S) :=
    let items := fix items (make : bool) (l : list rnode) (comment : N) {struct l} : list (dcmd S) * N :=
      match l with
      | [] => ([], comment)
      | x :: t =>
          let '(cs, prev) := items make t comment in
          (cs ++ (if make then build x else []) ++ insert parent x prev, r_id x)
      end in
    InsertBefore parent (r_id r) (Some before) ::
    match r with
    | RElement _ _ | RText _ _ => []
    | RFrag c l => fst (items false l c)
    | RValue c None => []
    | RValue c (Some x) => build x ++ insert parent x c
    | RListOf c l => fst (items true l c)
    end.

  (** The nodes of a fragment or list by themselves (the inner function of [insert]). *)
  Fixpoint insert_items (parent : N) (make : bool) (l : list rnode) (comment : N) : list (dcmd S) * N :=
    match l with
    | [] => ([], comment)
    | x :: t =>
        let '(cs, prev) := insert_items parent make t comment in
        (cs ++ (if make then build x else []) ++ insert parent x prev, r_id x)
    end.

  (** Dropping a node: dom_element.rs, dom_text.rs:50-54, dom_comment.rs:93-97 (the comment first, then, with its
      subscription, its content). *)
  Fixpoint drop_rnode (r : rnode) : list (dcmd S) :=
    match r with
    | RElement i _ => [RemoveNode i]
    | RText i _ => [RemoveText i]
    | RFrag i l | RListOf i l => RemoveComment i :: flat_map drop_rnode l
    | RValue i None => [RemoveComment i]
    | RValue i (Some x) => RemoveComment i :: drop_rnode x
    end.

  (** dom_value.rs:17-29: a value of a mounted [render_value]: the new node is rendered and inserted before the comment, the
      old one dropped. *)
  Definition on_value (parent comment : N) (old new : option rnode) : list (dcmd S) :=
    match new with Some x => build x ++ insert parent x comment | None => [] end ++
    match old with Some x => drop_rnode x | None => [] end.

  (** The values one after the other. *)
  Fixpoint on_values (parent comment : N) (old : option rnode) (vs : list (option rnode)) : list (dcmd S) :=
    match vs with [] => [] | v :: t => on_value parent comment old v ++ on_values parent comment v t end.
End RNode.
Arguments rnode : clear implicits.
