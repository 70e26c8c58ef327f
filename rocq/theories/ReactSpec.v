(** Specification vocabulary for the reactive core (C01-C06, C09, C10).  Nothing here mentions
    caches or the dependency graph. *)

From Coq Require Import List NArith Bool.
From Verif Require Import GraphModel ReactModel.
Import ListNotations.

Section Spec.
  Context {V : Type}.
  Variable E : @env V.

  (** [den vs id v]: evaluated from scratch against the stored values [vs], the value or computed [id]
      is [v].  [runs vs p l v]: the program [p] returns [v] and reads exactly the ids in [l]. *)
  Inductive den (vs : gid -> V) : gid -> V -> Prop :=
  | den_value id : gkind id = KValue -> den vs id (vs id)
  | den_computed c l v : gkind c = KComputed -> runs vs (e_comp E c) l v -> den vs c v
  with runs (vs : gid -> V) : prog -> list gid -> V -> Prop :=
  | runs_ret v : runs vs (PRet v) [] v
  | runs_read id k x l v : den vs id x -> runs vs (k x) l v -> runs vs (PRead id k) (id :: l) v.

  (** Computeds only read things of smaller rank (no computed reads itself, directly or not), and
      never a subscription. *)
  Fixpoint reads_below (rank : gid -> nat) (n : nat) (p : @prog V) : Prop :=
    match p with
    | PRet _ => True
    | PRead id k => rank id < n /\ gkind id <> KClient /\ forall x, reads_below rank n (k x)
    end.

  Definition well_founded_env (rank : gid -> nat) : Prop :=
    (forall c, gkind c = KComputed -> reads_below rank (rank c) (e_comp E c)) /\
    (forall c, gkind (s_src (e_sub E c)) = KComputed).

  (** [e_eqb] decides equality. *)
  Definition decides_eq : Prop := forall a b, e_eqb E a b = true <-> a = b.

  (** The values delivered to subscription [c], newest first. *)
  Fixpoint delivered (c : gid) (l : list (@event V)) : list V :=
    match l with
    | [] => []
    | EDeliver c' v _ _ :: t => if gid_eqb c c' then v :: delivered c t else delivered c t
    | _ :: t => delivered c t
    end.

  (** Connects and disconnects of [id] alternate in a log (newest first), beginning with a connect;
      the flag tells whether it is connected at the end. *)
  Inductive conn_ok (id : gid) : list (@event V) -> bool -> Prop :=
  | conn_nil : conn_ok id [] false
  | conn_connect l : conn_ok id l false -> conn_ok id (EConnect id :: l) true
  | conn_disconnect l : conn_ok id l true -> conn_ok id (EDisconnect id :: l) false
  | conn_other e l b : e <> EConnect id -> e <> EDisconnect id -> conn_ok id l b -> conn_ok id (e :: l) b.

  (** An application run: some commands executed on a fresh driver. *)
  Definition run (vs : gid -> V) (cs : list cmd) (s : state) : Prop :=
    exists fuel, exec E fuel (TCmds cs) (init vs) = Ok s.
End Spec.
