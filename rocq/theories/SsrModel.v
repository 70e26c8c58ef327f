(** Model of the tree the server builds from DOM commands.

    Source: /repo/crates/vertigo-cli/src/serve/html/{element_children,ordered_map,element}.rs.
    A panic ([unreachable!], [assert_eq!], [unwrap]) is [None]. *)

From Coq Require Import List NArith Bool.
From Verif Require Import MapModel.
Import ListNotations.

(** ** ElementChildren *)

(** element_children.rs:3-6: [ChildrenNode]. *)
Record cnode := CNode { c_left : N; c_right : N }.

(** element_children.rs:8-11: [ElementChildren]. *)
Record children := Children { c_first : option N; c_nodes : hmap cnode }.

(** element_children.rs:14-19: [new]. *)
Definition children_new : children := Children None [].

(** element_children.rs:32-39: the loop of [childs]; returns the ids visited and where it ends. *)
Fixpoint childs_loop (fuel : nat) (nodes : hmap cnode) (wsk : N) : option (list N * N) :=
  match fuel with
  | O => Some ([], wsk)
  | S f =>
      match hget nodes wsk with
      | None => None
      | Some n =>
          match childs_loop f nodes (c_right n) with
          | None => None
          | Some (l, e) => Some (wsk :: l, e)
          end
      end
  end.

(** element_children.rs:21-45: [childs]. *)
Definition childs (c : children) : option (list N) :=
  match c_nodes c with
  | [] => Some []
  | _ =>
      match c_first c with
      | None => None
      | Some f =>
          match childs_loop (length (c_nodes c)) (c_nodes c) f with
          | None => None
          | Some (l, e) => if (e =? f)%N then Some l else None
          end
      end
  end.

(** element_children.rs:47-67: [insert_on_left]. *)
Definition insert_on_left (nodes : hmap cnode) (right_id id : N) : option (hmap cnode) :=
  match hget nodes right_id with
  | None => None
  | Some nr =>
      let left_id := c_left nr in
      let m1 := hset nodes right_id (CNode id (c_right nr)) in
      match hget m1 left_id with
      | None => None
      | Some nl =>
          let m2 := hset m1 left_id (CNode (c_left nl) id) in
          Some (hset m2 id (CNode left_id right_id))
      end
  end.

(** element_children.rs:103-130: [remove]. *)
Definition children_remove (c : children) (id : N) : option children :=
  match hget (c_nodes c) id with
  | None => Some c
  | Some n =>
      let m0 := hdel (c_nodes c) id in
      if (c_left n =? id)%N then
        if (c_right n =? id)%N then Some (Children None m0) else None
      else
        match hget m0 (c_right n) with
        | None => None
        | Some nr =>
            let m1 := hset m0 (c_right n) (CNode (c_left n) (c_right nr)) in
            match hget m1 (c_left n) with
            | None => None
            | Some nl =>
                let m2 := hset m1 (c_left n) (CNode (c_left nl) (c_right n)) in
                let first := match c_first c with
                             | Some f => if (f =? id)%N then Some (c_right n) else Some f
                             | None => None
                             end in
                Some (Children first m2)
            end
        end
  end.

(** Equality of optional ids ([PartialEq] of [Option<u64>]). *)
Definition oid_eqb (a b : option N) : bool :=
  match a, b with
  | None, None => true
  | Some x, Some y => (x =? y)%N
  | _, _ => false
  end.

(** element_children.rs:69-101: [insert_before]. *)
Definition children_insert (c : children) (ref : option N) (child : N) : option children :=
  if oid_eqb ref (Some child) then None
  else
    match children_remove c child with
    | None => None
    | Some c1 =>
        let right :=
          match ref with
          | Some r => Some r
          | None => c_first c1
          end in
        match right with
        | None =>
            match c_nodes c1 with
            | [] => Some (Children (Some child) (hset [] child (CNode child child)))
            | _ => None
            end
        | Some r =>
            match insert_on_left (c_nodes c1) r child with
            | None => None
            | Some m => Some (Children (if oid_eqb (c_first c1) ref then Some child else c_first c1) m)
            end
        end
    end.

(** ** OrderedMap *)

Section Text.
  (** Strings are abstract here: only their equality is used. *)
  Context {T : Type}.
  Variable teqb : T -> T -> bool.

  (** ordered_map.rs:4-7.  The [HashMap] is an association list. *)
  Record omap := OMap { o_order : list T; o_data : list (T * T) }.

  (** ordered_map.rs:10-15: [new]. *)
  Definition omap_new : omap := OMap [] [].

  (** [HashMap::get] on strings. *)
  Fixpoint tget (m : list (T * T)) (k : T) : option T :=
    match m with
    | [] => None
    | (k', v) :: t => if teqb k k' then Some v else tget t k
    end.

  (** [HashMap::insert] on strings. *)
  Definition tset (m : list (T * T)) (k v : T) : list (T * T) :=
    (k, v) :: filter (fun e => negb (teqb k (fst e))) m.

  (** ordered_map.rs:17-38: [set].  The key has just been inserted, so [contains_key] is always true. *)
  Definition omap_set (m : omap) (name value : T) : omap :=
    let data := tset (o_data m) name value in
    match tget data name with
    | Some _ => OMap (filter (fun x => negb (teqb name x)) (o_order m) ++ [name]) data
    | None => OMap (o_order m ++ [name]) data
    end.

  (** ordered_map.rs:40-49: [get_iter]. *)
  Definition omap_iter (m : omap) : option (list (T * T)) :=
    fold_right (fun key acc =>
      match tget (o_data m) key, acc with
      | Some v, Some l => Some ((key, v) :: l)
      | _, _ => None
      end) (Some []) (o_order m).

  (** ** AllElements *)

  (** element.rs:8-18: [Node], [Element]. *)
  Inductive snode :=
  | SElement (name : T) (attr : omap) (kids : children)
  | SText (t : T)
  | SComment (t : T).

  (** element.rs:32-36: [AllElements]. *)
  Record elements := Elements { e_parent : hmap N; e_all : hmap snode; e_css : list (T * T) }.

  (** element.rs:39-45: [new]. *)
  Definition elements_new : elements := Elements [] [] [].

  (** dom_command.rs:8-47 (of the server): [DomCommand]. *)
  Inductive scmd :=
  | SCreateNode (id : N) (name : T)
  | SCreateText (id : N) (value : T)
  | SUpdateText (id : N) (value : T)
  | SRemoveText (id : N)
  | SSetAttr (id : N) (name value : T)
  | SRemoveNode (id : N)
  | SInsertBefore (parent : N) (ref : option N) (child : N)
  | SInsertCss (selector value : T)
  | SCreateComment (id : N) (value : T)
  | SRemoveComment (id : N)
  | SCallbackAdd (id : N)
  | SCallbackRemove (id : N).

  (** element.rs:47-50, 52-56, 104-107: the three ways to create a node. *)
  Definition s_create (s : elements) (id : N) (n : snode) : elements :=
    Elements (e_parent s) (hset (e_all s) id n) (e_css s).

  (** element.rs:62-68: [set_attr]. *)
  Definition s_set_attr (s : elements) (id : N) (name value : T) : option elements :=
    match hget (e_all s) id with
    | Some (SElement n a k) =>
        Some (Elements (e_parent s) (hset (e_all s) id (SElement n (omap_set a name value) k)) (e_css s))
    | _ => None
    end.

  (** element.rs:70-80: [remove_from_parent]. *)
  Definition s_remove_from_parent (s : elements) (child : N) : option elements :=
    match hget (e_parent s) child with
    | None => Some s
    | Some p =>
        match hget (e_all s) p with
        | Some (SElement n a k) =>
            match children_remove k child with
            | None => None
            | Some k' => Some (Elements (e_parent s) (hset (e_all s) p (SElement n a k')) (e_css s))
            end
        | _ => Some s
        end
    end.

  (** element.rs:82-87: [remove]. *)
  Definition s_remove (s : elements) (child : N) : option elements :=
    match s_remove_from_parent s child with
    | None => None
    | Some s1 => Some (Elements (hdel (e_parent s1) child) (hdel (e_all s1) child) (e_css s1))
    end.

  (** element.rs:89-98: [insert_before]. *)
  Definition s_insert (s : elements) (parent : N) (ref : option N) (child : N) : option elements :=
    match s_remove_from_parent s child with
    | None => None
    | Some s1 =>
        match hget (e_all s1) parent with
        | Some (SElement n a k) =>
            match children_insert k ref child with
            | None => None
            | Some k' =>
                Some (Elements (hset (e_parent s1) child parent)
                               (hset (e_all s1) parent (SElement n a k')) (e_css s1))
            end
        | _ => None
        end
    end.

  (** element.rs:109-152: one round of the loop of [feed]. *)
  Definition s_step (s : elements) (c : scmd) : option elements :=
    match c with
    | SCallbackAdd _ | SCallbackRemove _ => Some s
    | SCreateNode id name => Some (s_create s id (SElement name omap_new children_new))
    | SCreateText id v => Some (s_create s id (SText v))
    | SUpdateText id v => Some (s_create s id (SText v))
    | SRemoveText id => s_remove s id
    | SSetAttr id n v => s_set_attr s id n v
    | SRemoveNode id => s_remove s id
    | SInsertBefore p r c => s_insert s p r c
    | SInsertCss sel v => Some (Elements (e_parent s) (e_all s) (e_css s ++ [(sel, v)]))
    | SCreateComment id v => Some (s_create s id (SComment v))
    | SRemoveComment id => s_remove s id
    end.

  (** element.rs:109-152: [feed]. *)
  Fixpoint s_feed (s : elements) (cs : list scmd) : option elements :=
    match cs with
    | [] => Some s
    | c :: t => match s_step s c with None => None | Some s1 => s_feed s1 t end
    end.

  (** html_element.rs: [HtmlNode]/[HtmlElement] as a tree. *)
  Inductive html :=
  | HElement (name : T) (attr : list (T * T)) (kids : list html)
  | HText (t : T)
  | HComment (t : T).

  (** Collect the results of a list of calls; the first panic wins. *)
  Fixpoint oseq {A} (l : list (option A)) : option (list A) :=
    match l with
    | [] => Some []
    | None :: _ => None
    | Some a :: t => match oseq t with None => None | Some r => Some (a :: r) end
    end.

  (** element.rs:154-183: [get_response_one_elements] with [with_id = false], cut off at depth [fuel]
      ([cut] stands for what is below).  [missing] is the comment of line 156.  The attributes are read
      off by [get_iter] when the node is written (html_element.rs:59-69). *)
  Fixpoint s_tree (fuel : nat) (cut missing : html) (s : elements) (id : N) : option html :=
    match fuel with
    | O => Some cut
    | S f =>
        match hget (e_all s) id with
        | None => Some missing
        | Some (SText t) => Some (HText t)
        | Some (SComment t) => Some (HComment t)
        | Some (SElement name attr kids) =>
            match childs kids, omap_iter attr with
            | Some l, Some a =>
                match oseq (map (s_tree f cut missing s) l) with
                | Some ks => Some (HElement name a ks)
                | None => None
                end
            | _, _ => None
            end
        end
    end.
End Text.
Arguments omap : clear implicits.
Arguments elements : clear implicits.
Arguments snode : clear implicits.
Arguments scmd : clear implicits.
Arguments html : clear implicits.
