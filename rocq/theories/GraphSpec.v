(** Specification vocabulary for the dependency graph (C07, C08): plain relations, independent of
    the functions of [GraphModel] except for the two lookups that observe a graph. *)

From Coq Require Import List NArith Relations.
From Verif Require Import GraphModel.
Import ListNotations.

(** Strict order of ids: by kind, then by number. *)
Definition gid_lt (a b : gid) : Prop :=
  (kind_rank (gkind a) < kind_rank (gkind b))%N \/
  (gkind a = gkind b /\ (gnum a < gnum b)%N).

(** A list that represents a set: strictly increasing. *)
Inductive sorted : list gid -> Prop :=
| sorted_nil : sorted []
| sorted_cons x l : Forall (gid_lt x) l -> sorted l -> sorted (x :: l).

(** [child g p c]: the graph records that [c] depends on [p]. *)
Definition child (g : graph) (p c : gid) : Prop := In c (rel (g_pc g) p).

(** [parent g c p]: the other adjacency map records that [c] depends on [p]. *)
Definition parent (g : graph) (c p : gid) : Prop := In p (rel (g_cp g) c).

(** No empty entries, keys and sets strictly increasing. *)
Definition tidy (m : o2m) : Prop :=
  sorted (map fst m) /\ Forall (fun e => snd e <> [] /\ sorted (snd e)) m.

(** The integrity of a graph: the maps are inverse to one another and tidy. *)
Definition intact (g : graph) : Prop :=
  (forall p c, child g p c <-> parent g c p) /\ tidy (g_pc g) /\ tidy (g_cp g).

(** Acyclic: dependencies can be ranked. *)
Definition acyclic (E : gid -> gid -> Prop) : Prop :=
  exists rank : gid -> nat, forall p c, E p c -> rank p < rank c.

(** [orphaned E client new n]: when the parents of [client] become [new] in the graph [E], the node
    [n] loses its last dependent: it had some, and each of them is either [client], which no longer
    reads it, or has itself been orphaned. *)
Inductive orphaned (E : gid -> gid -> Prop) (client : gid) (new : list gid) : gid -> Prop :=
| orphaned_intro n :
    (exists c, E n c) -> ~ In n new ->
    (forall c, E n c -> c = client \/ orphaned E client new c) ->
    orphaned E client new n.

(** Transitive dependents. *)
Definition dependents (E : gid -> gid -> Prop) : gid -> gid -> Prop := clos_trans gid E.
