(** Resources: data that is loading, there, or failed to load.

    Source: RS = /repo/crates/vertigo/src/fetch/resource.rs. *)
From Coq Require Import List NArith Bool.
From Verif Require Import CodecModel.
Import ListNotations.

(** RS 7-12. *)
Inductive resource (T : Type) := Loading | Ready (data : T) | Error (message : bytes).
Arguments Loading {T}. Arguments Ready {T}. Arguments Error {T}.
(** RS 14-17. *)
Inductive resource_error := ELoading | EError (message : bytes).
(** core::ops::ControlFlow (RS 28). *)
Inductive flow (T : Type) := Continue (v : T) | Break (e : resource_error).
Arguments Continue {T}. Arguments Break {T}.

(** RS 23-26. *)
Definition from_output {T} (v : T) : resource T := Ready v.
(** RS 28-35. *)
Definition branch {T} (r : resource T) : flow T :=
  match r with Loading => Break ELoading | Error m => Break (EError m) | Ready v => Continue v end.
(** RS 38-45. *)
Definition from_residual {T} (e : resource_error) : resource T := match e with EError m => Error m | ELoading => Loading end.

(** RS 48-54. *)
Definition r_map {T K} (f : T -> K) (r : resource T) : resource K := match r with Loading => Loading | Ready d => Ready (f d) | Error m => Error m end.
(** RS 56-62. *)
Definition ref_map {T K} (f : T -> K) (r : resource T) : resource K := match r with Loading => Loading | Ready d => Ready (f d) | Error m => Error m end.
(** RS 65-74: [clone] is the [Clone] of the data. *)
Definition ref_clone {T} (clone : T -> T) (r : resource T) : resource T := match r with Loading => Loading | Ready d => Ready (clone d) | Error m => Error m end.
(** RS 76-85: [eq] is the [PartialEq] of the data. *)
Definition r_eq {T} (eq : T -> T -> bool) (a b : resource T) : bool :=
  match a, b with
  | Loading, Loading => true
  | Error m1, Error m2 => bytes_eqb m1 m2
  | Ready v1, Ready v2 => eq v1 v2
  | _, _ => false
  end.

(** A function of the application that returns a resource and uses the operator [?] on resources, each of them depending on the data before (the language: [?] is
    [branch], and a return of [from_residual] on [Break], RS 19-45). *)
Inductive code (T R : Type) := Give (r : resource R) | Ask (r : resource T) (next : T -> code T R).
Arguments Give {T R}. Arguments Ask {T R}.
(** What it returns, and the resources it looked at (RS 19-45). *)
Fixpoint run {T R} (c : code T R) : resource R * list (resource T) :=
  match c with
  | Give r => (r, [])
  | Ask r next => match branch r with Continue v => let '(x, l) := run (next v) in (x, r :: l) | Break e => (from_residual e, [r]) end
  end.
