(** Models of small components: AutoMap, public paths, KEY=value arguments, the watch script.

    Source: /repo/crates/vertigo/src/computed/auto_map.rs, /repo/crates/vertigo-cli/src/serve/mount_path.rs,
    /repo/crates/vertigo-cli/src/commons/parse_key_val.rs, /repo/crates/vertigo-cli/src/serve/response_state.rs.
    Texts are their UTF-8 bytes; all patterns searched for are ASCII, so byte and char positions agree on
    matches. *)

From Coq Require Import String List NArith Bool.
From Verif Require Import CodecModel MapModel DomWire.
Import ListNotations.
Local Open Scope string_scope.
Local Open Scope list_scope.

(** ** AutoMap (auto_map.rs) *)

Section AutoMap.
  (** Keys are numbers (any type with a lawful Eq and Hash); [V] is the value type. *)
  Context {V : Type}.

  (** What the create function (auto_map.rs:6) does with the map it is given: it may get further keys, and
      finally returns the value. *)
  Inductive cprog := Ret (v : V) | Get (k : N) (c : V -> cprog).

  (** [create n k]: what the create function does for key [k] when it has been called [n] times before (it is
      a Rust closure, which may have state). *)
  Variable create : N -> N -> cprog.

  (** A get: answered from the map, or after creating the value (with the gets made meanwhile). *)
  Inductive gtree := Hit (k : N) (v : V) | Made (k : N) (v : V) (inner : list gtree).

  (** auto_map.rs:53-68; [None] is running out of fuel.  The result: number of calls of create, map, value, log. *)
  Fixpoint am_get (fuel : nat) (n : N) (m : hmap V) (k : N) {struct fuel} : option (N * hmap V * V * gtree) :=
    match fuel with
    | O => None
    | S f =>
        match hget m k with
        | Some v => Some (n, m, v, Hit k v)
        | None =>
            match am_prog f (n + 1)%N m (create n k) with
            | Some (n1, m1, v, inner) => Some (n1, hset m1 k v, v, Made k v inner)
            | None => None
            end
        end
    end
  with am_prog (fuel : nat) (n : N) (m : hmap V) (p : cprog) {struct fuel} : option (N * hmap V * V * list gtree) :=
    match fuel with
    | O => None
    | S f =>
        match p with
        | Ret v => Some (n, m, v, [])
        | Get k c =>
            match am_get f n m k with
            | Some (n1, m1, x, t) =>
                match am_prog f n1 m1 (c x) with
                | Some (n2, m2, v, ts) => Some (n2, m2, v, t :: ts)
                | None => None
                end
            | None => None
            end
        end
    end.

  (** A history of gets by the application. *)
  Fixpoint am_run (fuel : nat) (n : N) (m : hmap V) (ks : list N) : option (list gtree) :=
    match ks with
    | [] => Some []
    | k :: t =>
        match am_get fuel n m k with
        | Some (n1, m1, _, g) => option_map (cons g) (am_run fuel n1 m1 t)
        | None => None
        end
    end.
End AutoMap.
Arguments cprog : clear implicits.
Arguments gtree : clear implicits.

(** ** Texts (std::str) *)

(** str::strip_prefix *)
Fixpoint strip_prefix (pat s : bytes) : option bytes :=
  match pat, s with
  | [], _ => Some s
  | p :: pt, c :: st => if (p =? c)%N then strip_prefix pt st else None
  | _, [] => None
  end.

(** str::split with a char: always at least one chunk. *)
Fixpoint split_at (c : N) (s : bytes) : list bytes :=
  match s with
  | [] => [[]]
  | x :: t =>
      if (x =? c)%N then [] :: split_at c t
      else match split_at c t with
           | h :: r => (x :: h) :: r
           | [] => [[x]]
           end
  end.

(** <[&str]>::join *)
Fixpoint join (sep : bytes) (l : list bytes) : bytes :=
  match l with
  | [] => []
  | [x] => x
  | x :: t => x ++ sep ++ join sep t
  end.

(** str::find with a char *)
Fixpoint find_at (c : N) (s : bytes) : option nat :=
  match s with
  | [] => None
  | x :: t => if (x =? c)%N then Some O else option_map S (find_at c t)
  end.

(** str::contains *)
Fixpoint contains (pat s : bytes) : bool :=
  match strip_prefix pat s with
  | Some _ => true
  | None => match s with [] => false | _ :: t => contains pat t end
  end.

(** str::replace for a non-empty pattern: leftmost matches first, matches do not overlap; [skip] bytes of the
    current match are still to be passed over. *)
Fixpoint replace_go (pat by_ : bytes) (skip : nat) (s : bytes) : bytes :=
  match s with
  | [] => []
  | c :: t =>
      match skip with
      | S k => replace_go pat by_ k t
      | O => match strip_prefix pat s with
             | Some _ => by_ ++ replace_go pat by_ (length pat - 1) t
             | None => c :: replace_go pat by_ 0 t
             end
      end
  end.
(** [str::replace] (std), used at response_state.rs:74. *)
Definition replace (pat by_ s : bytes) : bytes := replace_go pat by_ 0 s.

(** ** Public paths (mount_path.rs) *)

(** mount_path.rs:63-72; [None] is [Err(-1)]. *)
Definition replace_prefix (public_path dest_dir path : bytes) : option bytes :=
  match strip_prefix public_path path with
  | Some rest => Some (dest_dir ++ rest)
  | None => None
  end.

(** mount_path.rs:75: the separator. *)
Definition slash : N := 47.

(** mount_path.rs:74-87 *)
Definition get_base_dir (path : bytes) : option bytes :=
  let chunks := removelast (split_at slash path) in
  match split_at slash path with
  | [] => None
  | _ => match chunks with [] => None | _ => Some (join [slash] chunks) end
  end.

(** ** KEY=value (parse_key_val.rs) *)

(** parse_key_val.rs:4-15; the conversions of the two halves are parameters. *)
Definition parse_key_val {T U : Type} (parse_t : bytes -> option T) (parse_u : bytes -> option U) (s : bytes) : option (T * U) :=
  match find_at 61 s with
  | None => None
  | Some pos =>
      match parse_t (firstn pos s), parse_u (skipn (pos + 1) s) with
      | Some t, Some u => Some (t, u)
      | _, _ => None
      end
  end.

(** ** The watch script (response_state.rs) *)

(** response_state.rs:3-7 ([ContentType]). *)
Inductive content_type := Plain | Html.

(** response_state.rs:18-22 *)
Record response := Response { r_status : N; r_type : content_type; r_body : bytes }.

(** http::StatusCode::is_success *)
Definition is_success (status : N) : bool := (200 <=? status)%N && (status <? 300)%N.

(** response_state.rs:73, 76: the separator of [join]. *)
Definition newline : N := 10.
(** response_state.rs:72: the pattern searched for. *)
Definition body_end : bytes := str "</body>".

(** response_state.rs:56-79; [watch] is the content of watch.js and [start] the call with the port filled in. *)
Definition add_watch_script (watch start : bytes) (r : response) : response :=
  if is_success (r_status r) && match r_type r with Html => true | Plain => false end
  then
    let chunks := [r_body r; str "<script>"; watch; start; str "</script>"; newline :: body_end] in
    if contains body_end (r_body r)
    then Response (r_status r) (r_type r) (replace body_end (join [newline] (skipn 1 chunks)) (r_body r))
    else Response (r_status r) (r_type r) (join [newline] (firstn 5 chunks))
  else r.
