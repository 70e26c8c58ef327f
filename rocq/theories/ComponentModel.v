(** The attribute [#[component]].

    Source: CM = /repo/crates/vertigo-macro/src/component.rs, HP = /repo/crates/vertigo-macro/src/html_parser.rs (how dom! uses a component;
    DomMacroModel.v).  What is generated is kept as a structure, and what the compiler makes of it is that of the Rust reference.  Generics,
    lifetimes and where clauses (CM 14) are left out; they are copied. *)
From Coq Require Import String List NArith Bool.
From Verif Require Import CodecModel DomWire DomMacroModel.
Import ListNotations.
Local Open Scope string_scope.
Local Open Scope list_scope.

(** [syn::Visibility] (CM 51). *)
Inductive visibility := Inherited | Public | Restricted (within : list bytes).
(** [syn::Pat] (CM 39): a name, a name with something to it ([mut], [ref], [@]), or another pattern. *)
Inductive pattern := Named (name : bytes) | Marked (name : bytes) | Shaped (l : list tok).
(** [syn::FnArg] (CM 38). *)
Inductive input := Receiver | Typed (p : pattern) (ty : bytes).
(** [syn::ItemFn] (CM 6-16, 33): [B] is the type of bodies. *)
Record item (B : Type) := Item { i_attrs : list bytes; i_vis : visibility; i_name : bytes; i_inputs : list input; i_output : bytes; i_body : B }.
Arguments Item {B}. Arguments i_attrs {B}. Arguments i_vis {B}. Arguments i_name {B}. Arguments i_inputs {B}. Arguments i_output {B}. Arguments i_body {B}.
(** What is generated (CM 62-75): a structure with a field [pub #field] for each input, and [mount] with its [let]s and the body. *)
Record generated (B : Type) := Generated { o_attrs : list bytes; o_pub : bool; o_name : bytes; o_fields : list input; o_lets : list bytes; o_body : B }.
Arguments Generated {B}. Arguments o_attrs {B}. Arguments o_pub {B}. Arguments o_name {B}. Arguments o_fields {B}. Arguments o_lets {B}. Arguments o_body {B}.

(** CM 36-47: the names for which there is a [let]. *)
Definition param_names (l : list input) : list bytes :=
  flat_map (fun i => match i with Typed (Named n) _ => [n] | Typed (Marked n) _ => [n] | _ => [] end) l.
(** CM 5-78; [None] is a reported error. *)
Definition component_inner {B} (f : item B) : option (generated B) :=
  match i_output f with
  | _ :: _ => None
  | [] => Some (Generated (i_attrs f) (match i_vis f with Public => true | _ => false end) (i_name f) (i_inputs f) (param_names (i_inputs f)) (i_body f))
  end.

(** ** What the compiler makes of it.  [None] is an error of the compiler. *)

(** The fields of the structure (CM 25-31, 64-66): [pub] and the input must be a field, that is a name and a type. *)
Fixpoint structure (l : list input) : option (list bytes) :=
  match l with
  | [] => Some []
  | Typed (Named n) _ :: r => match structure r with Some ns => if existsb (beq n) ns then None else Some (n :: ns) | None => None end
  | _ :: _ => None
  end.
(** A value of the structure (HP 140-142): every field once, in any order, and no others. *)
Fixpoint once {V} (fields : list bytes) (given : list (bytes * V)) : bool :=
  match given with
  | [] => match fields with [] => true | _ => false end
  | (k, _) :: r => existsb (beq k) fields && once (filter (fun n => negb (beq k n)) fields) r
  end.
(** [self.name] (CM 43). *)
Fixpoint self_field {V} (given : list (bytes * V)) (n : bytes) : option V :=
  match given with [] => None | (k, v) :: r => if beq k n then Some v else self_field r n end.
(** The variables a body sees (CM 69-73): those of the [let]s; a later one shadows. *)
Fixpoint lets_scope {V} (given : list (bytes * V)) (lets : list bytes) (sc : bytes -> option V) : bytes -> option V :=
  match lets with
  | [] => sc
  | n :: r => lets_scope given r (fun x => if beq n x then self_field given n else sc x)
  end.
(** [Name { key: value, … }.mount()] (HP 138-145, CM 68-74). *)
Definition use {V R} (o : generated ((bytes -> option V) -> R)) (given : list (bytes * V)) : option R :=
  match structure (o_fields o) with
  | Some fields => if once fields given then Some (o_body o (lets_scope given (o_lets o) (fun _ => None))) else None
  | None => None
  end.

(** A module is inside of another one. *)
Fixpoint inside (outer m : list bytes) : bool :=
  match outer, m with [], _ => true | a :: o, b :: r => beq a b && inside o r | _, [] => false end.
(** Where an item can be named, by the Rust reference: its module, and its visibility. *)
Definition nameable (v : visibility) (home from : list bytes) : bool :=
  match v with Public => true | Inherited => inside home from | Restricted w => inside w from end.
(** The structure (CM 49-60, 64). *)
Definition reachable {B} (o : generated B) (home from : list bytes) : bool := nameable (if o_pub o then Public else Inherited) home from.
