(** Equality and hashing of JsJson and of the server's FetchRequest. *)
From Coq Require Import List NArith ZArith Bool.
From Verif Require Import CodecModel.
Import ListNotations.
Open Scope N_scope.

(** What is fed to a [std::hash::Hasher]: the byte sequence written. Two values hash equally for every hasher iff
    these sequences are equal. [u64] is written as 8 bytes (native order; big endian here, the choice is irrelevant).
    [str::hash] writes the bytes followed by 0xff (std). *)

(** HashMap::get *)
Fixpoint assoc_get {A} (k : bytes) (m : list (bytes * A)) : option A :=
  match m with
  | [] => None
  | (k', v) :: r => if bytes_eqb k k' then Some v else assoc_get k r
  end.

(** PartialEq for JsJson: crates/vertigo/src/driver_module/js_value/js_json_struct.rs:72-85; Vec and HashMap
    equality are those of std (a HashMap equals another if the sizes agree and every entry of the first is in the
    second with an equal value). *)
Fixpoint json_eqb (a b : json) : bool :=
  match a, b with
  | JTrue, JTrue => true
  | JFalse, JFalse => true
  | JNull, JNull => true
  | JString s1, JString s2 => bytes_eqb s1 s2
  | JNumber n1, JNumber n2 => n1 =? n2
  | JList l1, JList l2 =>
      (fix go (l1 l2 : list json) : bool :=
         match l1, l2 with
         | [], [] => true
         | x :: r1, y :: r2 => json_eqb x y && go r1 r2
         | _, _ => false
         end) l1 l2
  | JObject m1, JObject m2 =>
      (len m1 =? len m2) &&
      forallb (fun kv => match assoc_get (fst kv) m2 with Some v2 => json_eqb (snd kv) v2 | None => false end) m1
  | _, _ => false
  end.

(** Hash for str *)
Definition hash_str (s : bytes) : bytes := s ++ [255].

(** Hash for JsJson: js_json_struct.rs:87-123. Note that [JString] uses [write(as_bytes())] without terminator and
    that the entries of an object are hashed in iteration order. *)
Fixpoint json_hash (j : json) : bytes :=
  match j with
  | JTrue => [1]
  | JFalse => [2]
  | JNull => [3]
  | JString s => [4] ++ s
  | JNumber v => [5] ++ be 8 v
  | JList l => [6] ++ concat (map json_hash l)
  | JObject m => [7] ++ concat (map (fun kv => hash_str (fst kv) ++ json_hash (snd kv)) m)
  end.

(** crates/vertigo-cli/src/serve/html/send_request.rs:11-16 (RequestBody) and
    crates/vertigo-cli/src/serve/wasm/message.rs:25-31. Derived Hash of an enum writes the discriminant (8 bytes
    here) and then the fields; of an Option likewise. *)
Inductive req_body := RBText (s : bytes) | RBData (j : json) | RBBin (b : bytes).
(** message.rs:25-31 ([FetchRequest]). *)
Record fetch_request := { rq_method : bytes; rq_url : bytes; rq_headers : list (bytes * bytes); rq_body : option req_body }.

(** message.rs:33-40 *)
Definition body_eqb (a b : option req_body) : bool :=
  match a, b with
  | None, None => true
  | Some (RBText s), Some (RBText t) => bytes_eqb s t
  | Some (RBData s), Some (RBData t) => json_eqb s t
  | Some (RBBin s), Some (RBBin t) => bytes_eqb s t
  | _, _ => false
  end.
(** Equality of two [HashMap]s (std), used by the derived comparison of message.rs:33-40. *)
Definition headers_eqb (a b : list (bytes * bytes)) : bool :=
  (len a =? len b) &&
  forallb (fun kv => match assoc_get (fst kv) b with Some v => bytes_eqb (snd kv) v | None => false end) a.
(** message.rs:33-40 ([PartialEq]). *)
Definition request_eqb (a b : fetch_request) : bool :=
  bytes_eqb (rq_method a) (rq_method b) && bytes_eqb (rq_url a) (rq_url b)
  && headers_eqb (rq_headers a) (rq_headers b) && body_eqb (rq_body a) (rq_body b).

(** message.rs:49: the hash of the body (derived, send_request.rs:11-16). *)
Definition body_hash (b : option req_body) : bytes :=
  match b with
  | None => be 8 0
  | Some (RBText s) => be 8 1 ++ be 8 0 ++ hash_str s
  | Some (RBData j) => be 8 1 ++ be 8 1 ++ json_hash j
  | Some (RBBin s) => be 8 1 ++ be 8 2 ++ be 8 (len s) ++ s
  end.
(** message.rs:41-51 *)
Definition request_hash (r : fetch_request) : bytes :=
  hash_str (rq_method r) ++ hash_str (rq_url r)
  ++ concat (map (fun kv => hash_str (fst kv) ++ hash_str (snd kv)) (rq_headers r))
  ++ body_hash (rq_body r).
