(** The builder of requests: what is kept of the calls that describe a request, and for how long its answer counts as fresh.

    Source: RB = /repo/crates/vertigo/src/fetch/request_builder.rs, LC = /repo/crates/vertigo/src/fetch/lazy_cache.rs.
    A [HashMap] is a list of pairs with different keys; its order, which Rust leaves open, is that of the insertions. *)
From Coq Require Import String List NArith Bool.
From Verif Require Import CodecModel JsonModel DomWire FetchModel ClockModel.
Import ListNotations.
Local Open Scope string_scope.
Local Open Scope list_scope.
Local Open Scope N_scope.

(** RB 34-40; the time to live in whole seconds ([Duration::from_secs]). *)
Record builder := Builder { b_method : bytes; b_url : bytes; b_headers : list (bytes * bytes); b_body : option fbody; b_ttl : option N }.
(** RB 43-51: [new]; [get] and [post] (RB 54-61) are [new] with the name of the method. *)
Definition new (method url : bytes) : builder := Builder method url [] None None.
(** [HashMap::insert] *)
Fixpoint insert (m : list (bytes * bytes)) (n v : bytes) : list (bytes * bytes) :=
  match m with
  | [] => [(n, v)]
  | (k, w) :: t => if bytes_eqb k n then (k, v) :: t else (k, w) :: insert t n v
  end.
(** [HashMap::get] *)
Fixpoint get (m : list (bytes * bytes)) (n : bytes) : option bytes :=
  match m with [] => None | (k, w) :: t => if bytes_eqb k n then Some w else get t n end.

(** The calls on a builder. *)
Inductive op :=
| Body (b : fbody) | BodyJson (j : json) | BearerAuth (token : bytes) | SetHeader (n v : bytes) | Headers (h : list (bytes * bytes))
| TtlSeconds (k : N) | TtlMinutes (k : N) | TtlHours (k : N) | TtlDays (k : N).

(** Multiplication of u64: [None] is the panic of a build with overflow checks, otherwise it wraps. *)
Definition mul_u64 (checks : bool) (a b : N) : option N :=
  if a * b <? 18446744073709551616 then Some (a * b) else if checks then None else Some ((a * b) mod 18446744073709551616).
(** RB 64-67 *)
Definition set_body (b : builder) (x : fbody) : builder := Builder (b_method b) (b_url b) (b_headers b) (Some x) (b_ttl b).
(** RB 76-81 *)
Definition set_header (b : builder) (n v : bytes) : builder := Builder (b_method b) (b_url b) (insert (b_headers b) n v) (b_body b) (b_ttl b).
(** RB 90-93 *)
Definition set_headers (b : builder) (h : list (bytes * bytes)) : builder := Builder (b_method b) (b_url b) h (b_body b) (b_ttl b).
(** RB 97, 103, 109, 115 *)
Definition set_ttl (b : builder) (s : option N) : option builder :=
  option_map (fun s => Builder (b_method b) (b_url b) (b_headers b) (b_body b) (Some s)) s.
(** Two and three factors are multiplied from the left (RB 109, 115). *)
Definition then_mul (checks : bool) (a : option N) (b : N) : option N := match a with Some a => mul_u64 checks a b | None => None end.

(** RB 63-117: one call; [None]: it panics. *)
Definition apply (checks : bool) (b : builder) (o : op) : option builder :=
  match o with
  | Body x => Some (set_body b x)
  | BodyJson j => Some (set_body b (BJson j))
  | BearerAuth t => Some (set_header b (str "Authorization") (str "Bearer " ++ t))
  | SetHeader n v => Some (set_header b n v)
  | Headers h => Some (set_headers b h)
  | TtlSeconds k => set_ttl b (Some k)
  | TtlMinutes k => set_ttl b (mul_u64 checks k 60)
  | TtlHours k => set_ttl b (then_mul checks (mul_u64 checks k 60) 60)
  | TtlDays k => set_ttl b (then_mul checks (then_mul checks (mul_u64 checks k 24) 60) 60)
  end.
(** A chain of calls. *)
Fixpoint build (checks : bool) (b : builder) (ops : list op) : option builder :=
  match ops with [] => Some b | o :: t => match apply checks b o with Some b1 => build checks b1 t | None => None end end.

(** LC 208-211: when an answer stored at [now] expires; the outer [None]: a panic. *)
Definition expiry (checks : bool) (b : builder) (now : N) : option (option N) :=
  match b_ttl b with
  | None => Some None
  | Some s => option_map Some (add_duration checks now (s * 1000))
  end.
(** LC 48-59: whether an answer with this expiry is fetched again at [now]. *)
Definition stale (now : N) (e : option N) : bool := match e with Some i => is_expire now i | None => false end.
