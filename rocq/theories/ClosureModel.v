(** The macros [bind!], [bind_spawn!] and [bind_rc!].

    Source: B = /repo/crates/vertigo-macro/src/bind.rs. Tokens are what [proc_macro2] gives: a group is one token. A macro that
    reports an error (an [Err], [emit_error!]) is [None]. What is generated is kept as a structure: the [let]s, whether [move] is
    written before the body, and the tokens of the body. *)
From Coq Require Import String List NArith Bool.
From Verif Require Import CodecModel DomWire HtmlModel.
Import ListNotations.
Local Open Scope string_scope.
Local Open Scope list_scope.

(** [TokenTree] *)
Inductive tt := Id (s : bytes) | P (c : N) | Lit (s : bytes) | Grp (delim : N) (l : list tt).

(** B 133-139 *)
Definition is_char (t : tt) (c : N) : bool := match t with P d => (d =? c)%N | _ => false end.

(** [slice::split]: one piece more than there are separators. *)
Fixpoint split_on (c : N) (l : list tt) : list (list tt) :=
  match l with
  | [] => [[]]
  | t :: r => if is_char t c then [] :: split_on c r else match split_on c r with a :: s => (t :: a) :: s | [] => [[t]] end
  end.

(** B 141-159 *)
Definition find_param_name (params : list tt) : option bytes :=
  match rev params with Id s :: _ => Some s | _ => None end.

(** B 161-171 *)
Definition is_first_pipe_char (l : list tt) : bool := match l with P c :: _ => (c =? 124)%N | _ => false end.

(** B 173-177 *)
Record parts := Parts { bind_params : list (list tt); func_params : option (list (list tt)); body : list tt }.

(** B 179-189 *)
Definition contains_bracket (tokens : list tt) : bool := existsb (fun t => is_char t 124) tokens.

(** [filter(|item| !item.is_empty())] (B 204, 211) *)
Definition filled (l : list (list tt)) : list (list tt) := filter (fun i => match i with [] => false | _ => true end) l.
(** B 214-227: the tokens from the first bracket on *)
Fixpoint from_bracket (tokens : list tt) : list tt :=
  match tokens with [] => [] | t :: r => if is_char t 124 then t :: r else from_bracket r end.
(** B 191-235 *)
Definition split_params_and_body_function (tokens : list tt) : option parts :=
  match split_on 124 tokens with
  | [a; b; _] => Some (Parts (filled (split_on 44 a)) (Some (filled (split_on 44 b))) (from_bracket tokens))
  | _ => None
  end.

(** B 237-249 *)
Definition split_params_and_body_block (tokens : list tt) : option parts :=
  let chunks := split_on 44 tokens in Some (Parts (removelast chunks) None (last chunks [])).

(** B 251-259 *)
Definition split_params_and_body (tokens : list tt) : option parts :=
  if contains_bracket tokens then split_params_and_body_function tokens else split_params_and_body_block tokens.

(** What is generated (B 37-59): [let name = tokens.clone();] for each, then the body. *)
Record code := Code { lets : list (bytes * list tt); moves : bool; rest : list tt }.

(** B 25-41: the loop over the parameters, with the names seen before. *)
Fixpoint clone_stm (seen : list bytes) (l : list (list tt)) : option (list (bytes * list tt)) :=
  match l with
  | [] => Some []
  | item :: r =>
      match find_param_name item with
      | None => None
      | Some name => if existsb (beqb name) seen then None else option_map (cons (name, item)) (clone_stm (name :: seen) r)
      end
  end.

(** B 11-62 *)
Definition bind_inner (tokens : list tt) : option code :=
  match split_params_and_body tokens with
  | None => None
  | Some p => option_map (fun c => Code c (is_first_pipe_char (body p)) (body p)) (clone_stm [] (bind_params p))
  end.

(** [#(#bind_params,)*] *)
Definition with_commas (l : list (list tt)) : list tt := flat_map (fun p => p ++ [P 44]) l.
(** The tokens given to the inner and to the outer [bind!] (B 83-85). *)
Definition spawn_tokens (params : list (list tt)) (b : list tt) : list tt := with_commas params ++ b.
(** the closure around it (B 81-88) *)
Definition spawn_outer (params : list (list tt)) (b : list tt) : list tt :=
  with_commas params ++ [P 124; P 124; Grp 123
    [Id (str "vertigo"); P 58; P 58; Id (str "get_driver"); Grp 40 []; P 46; Id (str "spawn");
     Grp 40 [Id (str "vertigo"); P 58; P 58; Id (str "bind"); P 33; Grp 40 (spawn_tokens params b)]; P 59]].
(** B 64-89: the generated closure, and what the [bind!] inside of it generates. *)
Definition bind_spawn_inner (tokens : list tt) : option (code * code) :=
  match split_params_and_body tokens with
  | None => None
  | Some p => match bind_inner (spawn_outer (bind_params p) (body p)), bind_inner (spawn_tokens (bind_params p) (body p)) with
              | Some o, Some i => Some (o, i) | _, _ => None end
  end.

(** B 265-278 *)
Definition get_type (tokens : list tt) : option (list tt) := match split_on 58 tokens with [_; t] => Some t | _ => None end.
(** A list of results, if all succeed (B 112-121, [?]). *)
Fixpoint all_types (l : list (list tt)) : option (list (list tt)) :=
  match l with [] => Some [] | x :: r => match get_type x, all_types r with Some t, Some ts => Some (t :: ts) | _, _ => None end end.
(** B 91-131: the types of the parameters, and what the [bind!] inside generates. *)
Definition bind_rc_inner (tokens : list tt) : option (list (list tt) * code) :=
  match split_params_and_body tokens with
  | None => None
  | Some p =>
      match func_params p with
      | None => None
      | Some fp => match all_types fp, bind_inner (with_commas (bind_params p) ++ body p) with Some ts, Some c => Some (ts, c) | _, _ => None end
      end
  end.

(** ** What the generated code does *)
Section Run.
Context (V : Type) (field : V -> bytes -> option V) (clone : V -> V).
(** The variables in scope. *)
Definition scope := bytes -> option V.
(** a [let] shadows (B 38-40) *)
Definition bound (e : scope) (n : bytes) (v : V) : scope := fun m => if beqb n m then Some v else e m.
(** [.field] again and again *)
Fixpoint fields (v : V) (l : list tt) : option V :=
  match l with
  | [] => Some v
  | P d :: Id f :: r => if (d =? 46)%N then match field v f with Some w => fields w r | None => None end else None
  | _ => None
  end.
(** The value of [a.b.c]; other expressions are not modelled ([None]). *)
Definition expr (e : scope) (l : list tt) : option V :=
  match l with Id r :: t => match e r with Some v => fields v t | None => None end | _ => None end.
(** The [let]s in their order: each sees the names bound before it. *)
Fixpoint run_lets (e : scope) (l : list (bytes * list tt)) : option scope :=
  match l with
  | [] => Some e
  | (n, t) :: r => match expr e t with Some v => run_lets (bound e n (clone v)) r | None => None end
  end.
End Run.

(** The variables that tokens name: identifiers that do not come after a '.' (more than those that really are variables). *)
Fixpoint roots (t : tt) : list bytes :=
  match t with
  | Id s => [s]
  | Grp _ l => (fix go (dot : bool) (l : list tt) : list bytes :=
                  match l with
                  | [] => []
                  | Id s :: r => (if dot then [] else [s]) ++ go false r
                  | P c :: r => go (c =? 46)%N r
                  | x :: r => roots x ++ go false r
                  end) false l
  | _ => []
  end.
(** What the closure of generated code takes from around it: what its body names and the [let]s have not bound. *)
Definition captured (c : code) : list bytes := filter (fun n => negb (existsb (fun l => beqb (fst l) n) (lets c))) (roots (Grp 0 (rest c))).
