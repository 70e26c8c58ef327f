(** Model of the dependency graph of vertigo.

    Source: /repo/crates/vertigo/src/computed/graph_id.rs and
    /repo/crates/vertigo/src/computed/dependencies/{graph_one_to_many,graph_connections}.rs.

    The Rust [BTreeSet<GraphId>] is a list sorted by the derived [Ord]; the Rust
    [BTreeMap<GraphId, _>] is an association list sorted by key.  Interior mutability
    ([ValueMut<GraphConnectionsInner>], graph_connections.rs:162-204) is replaced by returning
    the new graph. *)

From Coq Require Import List NArith Bool.
Import ListNotations.

(** graph_id.rs:3-8: [enum GraphIdKind].  The derived [Ord] orders the variants as declared. *)
Inductive kind := KValue | KComputed | KClient.

(** graph_id.rs:10-11: [struct GraphId(GraphIdKind, u64)].  The [u64] is an unbounded [N]: the
    counter (graph_id.rs:36-40) would have to be bumped 2^64 times to wrap. *)
Record gid := GId { gkind : kind; gnum : N }.

(** The position of a variant in the declaration, used by the derived [Ord]
    (graph_id.rs:3-8). *)
Definition kind_rank (k : kind) : N :=
  match k with KValue => 0 | KComputed => 1 | KClient => 2 end%N.

(** graph_id.rs:10: the derived lexicographic [Ord] of [GraphId]. *)
Definition gid_cmp (a b : gid) : comparison :=
  match N.compare (kind_rank (gkind a)) (kind_rank (gkind b)) with
  | Eq => N.compare (gnum a) (gnum b)
  | c => c
  end.

(** graph_id.rs:10: the derived [PartialEq] of [GraphId]. *)
Definition gid_eqb (a b : gid) : bool :=
  match gid_cmp a b with Eq => true | _ => false end.

(** [BTreeSet::insert] of the standard library, as used in graph_one_to_many.rs:49 and
    graph_connections.rs:127,148. *)
Fixpoint set_insert (x : gid) (l : list gid) : list gid :=
  match l with
  | [] => [x]
  | y :: t =>
      match gid_cmp x y with
      | Lt => x :: l
      | Eq => l
      | Gt => y :: set_insert x t
      end
  end.

(** [BTreeSet::remove], graph_one_to_many.rs:55. *)
Definition set_remove (x : gid) (l : list gid) : list gid :=
  filter (fun y => negb (gid_eqb x y)) l.

(** [BTreeSet::contains]. *)
Definition set_mem (x : gid) (l : list gid) : bool := existsb (gid_eqb x) l.

(** [BTreeSet::difference], graph_connections.rs:82,91. *)
Definition set_difference (a b : list gid) : list gid :=
  filter (fun y => negb (set_mem y b)) a.

(** [collect::<BTreeSet<_>>()], context.rs:22. *)
Definition set_of_list (l : list gid) : list gid := fold_left (fun s x => set_insert x s) l [].

(** graph_one_to_many.rs:37-39: [struct GraphOneToMany]. *)
Definition o2m := list (gid * list gid).

(** [BTreeMap::get], used by graph_one_to_many.rs:53,67. *)
Fixpoint map_get (m : o2m) (k : gid) : option (list gid) :=
  match m with
  | [] => None
  | (k', s) :: t => if gid_eqb k k' then Some s else map_get t k
  end.

(** graph_one_to_many.rs:48-50: [add]: [entry(left).or_default().insert(right)]. *)
Fixpoint o2m_add (m : o2m) (l r : gid) : o2m :=
  match m with
  | [] => [(l, [r])]
  | (k, s) :: t =>
      match gid_cmp l k with
      | Lt => (l, [r]) :: m
      | Eq => (k, set_insert r s) :: t
      | Gt => (k, s) :: o2m_add t l r
      end
  end.

(** graph_one_to_many.rs:52-64: [remove]: drop the edge, and the entry when its set is empty. *)
Fixpoint o2m_remove (m : o2m) (p c : gid) : o2m :=
  match m with
  | [] => []
  | (k, s) :: t =>
      if gid_eqb p k
      then match set_remove c s with
           | [] => t
           | s' => (k, s') :: t
           end
      else (k, s) :: o2m_remove t p c
  end.

(** graph_one_to_many.rs:66-69 and 16-34: [get_relation], as the list the iterator yields. *)
Definition rel (m : o2m) (k : gid) : list gid :=
  match map_get m k with Some s => s | None => [] end.

(** graph_one_to_many.rs:16-21: [GraphEdgeIter::is_empty]. *)
Definition is_empty (l : list gid) : bool := match l with [] => true | _ => false end.

(** graph_connections.rs:5-8: [enum UpdateConnection]. *)
Inductive update := UAdd (parent client : gid) | URemove (parent client : gid).

(** graph_connections.rs:11-16: [get_parent]. *)
Definition update_parent (u : update) : gid :=
  match u with UAdd p _ => p | URemove p _ => p end.

(** graph_connections.rs:19-22: [struct GraphConnectionsInner]. *)
Record graph := Graph { g_pc : o2m; g_cp : o2m }.

(** graph_connections.rs:25-30: [new]. *)
Definition graph_new : graph := Graph [] [].

(** graph_connections.rs:32-58: [exec_command]. *)
Definition exec_command (g : graph) (u : update) : graph * list update :=
  match u with
  | UAdd p c => (Graph (o2m_add (g_pc g) p c) (o2m_add (g_cp g) c p), [])
  | URemove p c =>
      let pc := o2m_remove (g_pc g) p c in
      let cp := o2m_remove (g_cp g) c p in
      (Graph pc cp,
       if is_empty (rel pc p)
       then map (fun q => URemove q p) (rel cp p)
       else [])
  end.

(** graph_connections.rs:60-68: [exec_command_list]. *)
Fixpoint exec_command_list (g : graph) (us : list update) : graph * list update :=
  match us with
  | [] => (g, [])
  | u :: t =>
      let '(g1, n1) := exec_command g u in
      let '(g2, n2) := exec_command_list g1 t in
      (g2, n1 ++ n2)
  end.

(** graph_connections.rs:71-99: [get_update_commands]. *)
Definition get_update_commands (g : graph) (client : gid) (new : list gid) : list update :=
  let prev := rel (g_cp g) client in
  map (fun p => UAdd p client) (set_difference new prev) ++
  map (fun p => URemove p client) (set_difference prev new).

(** graph_connections.rs:101-113: [get_info_about_active].  The resulting [BTreeMap] is
    iterated in key order (graph.rs:44), which is the order of the argument set. *)
Definition get_info_about_active (g : graph) (nodes : list gid) : list (gid * bool) :=
  map (fun n => (n, negb (is_empty (rel (g_pc g) n)))) nodes.

(** graph_connections.rs:125-135: the [loop] of [set_parent_for_client].  [None] = the fuel ran
    out; [C07] proves that this does not happen. *)
Fixpoint set_parent_loop (fuel : nat) (g : graph) (nodes : list gid) (us : list update)
  : option (graph * list (gid * bool)) :=
  match fuel with
  | O => None
  | S f =>
      let nodes' := fold_left (fun s u => set_insert (update_parent u) s) us nodes in
      let '(g', us') := exec_command_list g us in
      match us' with
      | [] => Some (g', get_info_about_active g' nodes')
      | _ => set_parent_loop f g' nodes' us'
      end
  end.

(** The number of recorded edges: [all_connections_len], graph_one_to_many.rs:71-80. *)
Definition edge_count (m : o2m) : nat := fold_right (fun e n => length (snd e) + n) 0 m.

(** graph_connections.rs:115-136: [set_parent_for_client].  [new] must be a set (sorted). *)
Definition set_parent_for_client (g : graph) (client : gid) (new : list gid)
  : option (graph * list (gid * bool)) :=
  set_parent_loop (2 + edge_count (g_cp g) + length new) g [client]
    (get_update_commands g client new).

(** graph_connections.rs:147-152: the inner [for] loop of [get_all_deps]; the stack [to_traverse]
    is kept with its top first. *)
Fixpoint deps_push (items result stack : list gid) : list gid * list gid :=
  match items with
  | [] => (result, stack)
  | i :: t =>
      if set_mem i result
      then deps_push t result stack
      else deps_push t (set_insert i result) (i :: stack)
  end.

(** graph_connections.rs:142-153: the outer [loop] of [get_all_deps]. *)
Fixpoint all_deps_loop (fuel : nat) (g : graph) (result stack : list gid) : option (list gid) :=
  match fuel with
  | O => None
  | S f =>
      match stack with
      | [] => Some result
      | next :: rest =>
          let '(result', stack') := deps_push (rel (g_pc g) next) result rest in
          all_deps_loop f g result' stack'
      end
  end.

(** graph_connections.rs:138-154: [get_all_deps]. *)
Definition get_all_deps (g : graph) (id : gid) : option (list gid) :=
  all_deps_loop (2 + edge_count (g_pc g)) g [] [id].
