(** The debug fragment: an HTML-like text recreated from DOM commands.

    Source: IN = /repo/crates/vertigo/src/inspect.rs.  The commands are those of [DomModel]. *)
From Coq Require Import String List NArith Bool Permutation.
From Verif Require Import CodecModel DomWire DomModel.
Import ListNotations.
Local Open Scope string_scope.
Local Open Scope list_scope.
Local Open Scope N_scope.

(** Equality of strings. *)
Definition same (a b : bytes) : bool := if list_eq_dec N.eq_dec a b then true else false.

(** IN 27-37: [DomDebugNode]; hash maps are association lists. *)
Record dnode := DNode { d_parent : N; d_name : bytes; d_attrs : list (bytes * bytes); d_cbs : list (bytes * N);
                        d_kids : list N; d_text : option bytes }.
(** IN 19-25: [DomDebugFragment] without its root. *)
Record frag := Frag { f_map : N -> option dnode; f_css : list (bytes * bytes) }.

(** [HashMap::insert] *)
Fixpoint assoc_set {A} (l : list (bytes * A)) (k : bytes) (v : A) : list (bytes * A) :=
  match l with
  | [] => [(k, v)]
  | (k', v') :: t => if same k k' then (k', v) :: t else (k', v') :: assoc_set t k v
  end.
(** [HashMap::get] *)
Fixpoint assoc_get {A} (l : list (bytes * A)) (k : bytes) : option A :=
  match l with
  | [] => None
  | (k', v) :: t => if same k k' then Some v else assoc_get t k
  end.
(** [HashMap::remove] *)
Definition assoc_del {A} (l : list (bytes * A)) (k : bytes) : list (bytes * A) := filter (fun e => negb (same k (fst e))) l.

(** IN 234-242 *)
Definition from_name (name : bytes) : dnode := DNode 0 name [] [] [] None.
(** IN 244-251 *)
Definition from_text (t : bytes) : dnode := DNode 0 [] [] [] [] (Some t).

(** IN 53, 56, 144: [map.insert] *)
Definition f_put (f : frag) (id : N) (d : dnode) : frag := Frag (nupd (f_map f) id (Some d)) (f_css f).
(** [map.get_mut] and [map.entry(id).and_modify] *)
Definition f_mod (f : frag) (id : N) (g : dnode -> dnode) : frag :=
  match f_map f id with Some d => f_put f id (g d) | None => f end.

(** Changes of one field. *)
Definition with_kids (d : dnode) (l : list N) : dnode := DNode (d_parent d) (d_name d) (d_attrs d) (d_cbs d) l (d_text d).
(** Changes of one field. *)
Definition with_attrs (d : dnode) (l : list (bytes * bytes)) : dnode := DNode (d_parent d) (d_name d) l (d_cbs d) (d_kids d) (d_text d).
(** Changes of one field. *)
Definition with_cbs (d : dnode) (l : list (bytes * N)) : dnode := DNode (d_parent d) (d_name d) (d_attrs d) l (d_kids d) (d_text d).

(** IN 94, 116: [children.retain] *)
Definition retain (l : list N) (id : N) : list N := filter (fun x => negb (x =? id)) l.
(** IN 122-135: before the reference, or last. *)
Fixpoint insert_at (l : list N) (r x : N) : list N :=
  match l with
  | [] => [x]
  | y :: t => if y =? r then x :: y :: t else y :: insert_at t r x
  end.

(** IN 61-78 *)
Definition set_attr (css : list (bytes * bytes)) (name value : bytes) (d : dnode) : dnode :=
  if same name (str "class") then
    match assoc_get css (str "." ++ value) with
    | Some new => let old := match assoc_get (d_attrs d) (str "style") with Some o => o | None => [] end in
                  with_attrs d (assoc_set (d_attrs d) (str "style") (old ++ new))
    | None => with_attrs d (assoc_set (d_attrs d) name value)
    end
  else with_attrs d (assoc_set (d_attrs d) name value).

(** IN 50-165: one command. *)
Definition dbg_step (f : frag) (c : dcmd bytes) : frag :=
  match c with
  | CreateNode id name => f_put f id (from_name name)
  | CreateText id v => f_put f id (from_text v)
  | UpdateText id v => f_mod f id (fun d => DNode (d_parent d) (d_name d) (d_attrs d) (d_cbs d) (d_kids d) (Some v))
  | SetAttr id n v => f_mod f id (set_attr (f_css f) n v)
  | RemoveAttr id n => f_mod f id (fun d => if same n (str "class") then d else with_attrs d (assoc_del (d_attrs d) n))
  | RemoveNode id | RemoveText id | RemoveComment id =>
      let f1 := match f_map f id with
                | Some d => f_mod f (d_parent d) (fun p => with_kids p (retain (d_kids p) id))
                | None => f
                end in
      Frag (fun x => if x =? id then None else f_map f1 x) (f_css f1)
  | InsertBefore parent child ref =>
      match f_map f child with
      | Some d =>
          let f1 := f_put f child (DNode parent (d_name d) (d_attrs d) (d_cbs d) (d_kids d) (d_text d)) in
          let f2 := f_mod f1 (d_parent d) (fun p => with_kids p (retain (d_kids p) child)) in
          f_mod f2 parent (fun p => with_kids p (match ref with
                                                 | Some r => insert_at (d_kids p) r child
                                                 | None => d_kids p ++ [child]
                                                 end))
      | None => f
      end
  | InsertCss sel v => Frag (f_map f) (assoc_set (f_css f) sel v)
  | CreateComment id v => f_put f id (from_text (str "<!-- " ++ v ++ str " -->"))
  | CallbackAdd id ev cb => f_mod f id (fun d => with_cbs d (assoc_set (d_cbs d) ev cb))
  | CallbackRemove id ev _ => f_mod f id (fun d => with_cbs d (assoc_del (d_cbs d) ev))
  end.
(** IN 46-165: [from_cmds] without the root. *)
Definition from_cmds (cs : list (dcmd bytes)) : frag := fold_left dbg_step cs (Frag (fun _ => None) []).

(** IN 167-181: the root is some node below the root of the document (id 1, dom_id.rs:35-37), or else some node without a parent; the
    order of the map is not determined. *)
Inductive root (f : frag) : option N -> Prop :=
| root_mounted id d : f_map f id = Some d -> d_parent d = 1 -> root f (Some id)
| root_free id d : (forall i e, f_map f i = Some e -> d_parent e <> 1) -> f_map f id = Some d -> d_parent d = 0 -> root f (Some id)
| root_none : (forall i e, f_map f i = Some e -> d_parent e <> 1 /\ d_parent e <> 0) -> root f None.

(** IN 213: an attribute. *)
Definition show_attr (kv : bytes * bytes) : bytes := str " " ++ fst kv ++ str "='" ++ snd kv ++ str "'".
Section Render.
  (** [CallbackId::as_u64], shown in decimal (IN 219). *)
  Variable decimal : N -> bytes.
  (** IN 219: a callback. *)
  Definition show_cb (kv : bytes * N) : bytes := str " " ++ fst kv ++ str "=" ++ decimal (snd kv).
  (** IN 199-231: [render]; attributes and callbacks come in any order. *)
  Inductive renders (f : frag) : N -> bytes -> Prop :=
  | render_none id : f_map f id = None -> renders f id []
  | render_text id d : f_map f id = Some d -> d_name d = [] -> renders f id (match d_text d with Some t => t | None => [] end)
  | render_node id d attrs cbs kids : f_map f id = Some d -> d_name d <> [] -> Permutation attrs (d_attrs d) -> Permutation cbs (d_cbs d) ->
      renders_all f (d_kids d) kids ->
      renders f id (str "<" ++ d_name d ++ flat_map show_attr attrs ++ flat_map show_cb cbs ++ str ">" ++ kids ++ str "</" ++ d_name d ++ str ">")
  with renders_all (f : frag) : list N -> bytes -> Prop :=
  | render_nil : renders_all f [] []
  | render_cons id t s ss : renders f id s -> renders_all f t ss -> renders_all f (id :: t) (s ++ ss).
  (** IN 193-197: [to_pseudo_html] *)
  Inductive pseudo_html (f : frag) : bytes -> Prop :=
  | ph_some id s : root f (Some id) -> renders f id s -> pseudo_html f s
  | ph_none : root f None -> pseudo_html f [].
End Render.
