(** Specification: which texts are JSON, and what they denote (RFC 8259, ECMA-404).  Nothing here refers to a reader or a
    writer. *)
From Coq Require Import String List NArith Bool.
From Verif Require Import CodecModel CodecUtf8 CodecSpec DomWire JsonModel.
Import ListNotations.
Local Open Scope string_scope.
Local Open Scope list_scope.
Local Open Scope N_scope.

(** RFC 8259, 2: white space. *)
Definition spaces (w : bytes) : Prop := Forall (fun c => c = 32 \/ c = 9 \/ c = 10 \/ c = 13) w.

(** RFC 8259, 6: numbers. *)
Definition some_digits (l : bytes) : Prop := l <> [] /\ Forall (fun c => 48 <= c <= 57) l.
Definition a_number (x : bytes) : Prop :=
  exists sign i f e, x = sign ++ i ++ f ++ e /\
    (sign = [] \/ sign = [45]) /\
    (i = [48] \/ some_digits i /\ hd 0 i <> 48) /\
    (f = [] \/ exists d, f = 46 :: d /\ some_digits d) /\
    (e = [] \/ exists c s d, e = c :: s ++ d /\ (c = 101 \/ c = 69) /\ (s = [] \/ s = [43] \/ s = [45]) /\ some_digits d).

(** A hexadecimal digit and its value; four of them. *)
Definition hex_is (c v : N) : Prop :=
  48 <= c <= 57 /\ v = c - 48 \/ 65 <= c <= 70 /\ v = c - 55 \/ 97 <= c <= 102 /\ v = c - 87.
Definition four (x : bytes) (n : N) : Prop :=
  exists a b c d va vb vc vd, x = [a; b; c; d] /\ hex_is a va /\ hex_is b vb /\ hex_is c vc /\ hex_is d vd /\
    n = va * 4096 + vb * 256 + vc * 16 + vd.
(** The halves of a surrogate pair. *)
Definition high (n : N) : Prop := 55296 <= n <= 56319.
Definition low (n : N) : Prop := 56320 <= n <= 57343.

(** RFC 8259, 7: the characters of a string; the escapes. *)
Definition short_escapes : list (N * N) := [(34, 34); (92, 92); (47, 47); (98, 8); (102, 12); (110, 10); (114, 13); (116, 9)].
(** [lone]: lone surrogates are allowed, and taken for U+FFFD. *)
Inductive chars (lone : bool) : bytes -> bytes -> Prop :=
| c_end : chars lone [] []
| c_raw c x s : 32 <= c -> c <> 34 -> c <> 92 -> chars lone x s -> chars lone (c :: x) (c :: s)
| c_short e v x s : In (e, v) short_escapes -> chars lone x s -> chars lone (92 :: e :: x) (v :: s)
| c_unicode h n x s : four h n -> ~ high n -> ~ low n -> chars lone x s -> chars lone (92 :: 117 :: h ++ x) (encode n ++ s)
| c_pair h n k m x s : four h n -> high n -> four k m -> low m -> chars lone x s ->
    chars lone (92 :: 117 :: h ++ 92 :: 117 :: k ++ x) (encode (65536 + (n - 55296) * 1024 + (m - 56320)) ++ s)
| c_lone h n x s : lone = true -> four h n -> low n \/ high n /\ ~ (exists k m y, x = 92 :: 117 :: k ++ y /\ four k m /\ low m) ->
    chars lone x s -> chars lone (92 :: 117 :: h ++ x) ([239; 191; 189] ++ s).

(** How many levels of lists and objects are left ([None]: any number). *)
Inductive deeper : option nat -> option nat -> Prop :=
| deeper_any : deeper None None
| deeper_one n : deeper (Some (S n)) (Some n).

Section Denotes.
  Variable lone : bool.
  (** Which strings are allowed, and what a number denotes. *)
  Variable text_ok : bytes -> Prop.
  Variable number_is : bytes -> N -> Prop.

  (** A text without white space around it denotes a value. *)
  Inductive den : option nat -> bytes -> json -> Prop :=
  | d_true d : den d (str "true") JTrue
  | d_false d : den d (str "false") JFalse
  | d_null d : den d (str "null") JNull
  | d_string d x s : chars lone x s -> text_ok s -> den d (34 :: x ++ [34]) (JString s)
  | d_number d x n : a_number x -> number_is x n -> den d x (JNumber n)
  | d_nil d d' w : deeper d d' -> spaces w -> den d (91 :: w ++ [93]) (JList [])
  | d_list d d' w t l : deeper d d' -> spaces w -> elems d' t l -> den d (91 :: w ++ t ++ [93]) (JList l)
  | d_none d d' w : deeper d d' -> spaces w -> den d (123 :: w ++ [125]) (JObject [])
  | d_object d d' w t l : deeper d d' -> spaces w -> membs d' t l -> den d (123 :: w ++ t ++ [125]) (JObject (hash_from l))
  with elems : option nat -> bytes -> list json -> Prop :=
  | e_last d t w j : den d t j -> spaces w -> elems d (t ++ w) [j]
  | e_more d t w1 w2 j r l : den d t j -> spaces w1 -> spaces w2 -> elems d r l -> elems d (t ++ w1 ++ 44 :: w2 ++ r) (j :: l)
  with membs : option nat -> bytes -> list (bytes * json) -> Prop :=
  | m_last d x k w1 w2 t j w3 : chars lone x k -> text_ok k -> spaces w1 -> spaces w2 -> den d t j -> spaces w3 ->
      membs d (34 :: x ++ 34 :: w1 ++ 58 :: w2 ++ t ++ w3) [(k, j)]
  | m_more d x k w1 w2 t j w3 w4 r l : chars lone x k -> text_ok k -> spaces w1 -> spaces w2 -> den d t j -> spaces w3 ->
      spaces w4 -> membs d r l -> membs d (34 :: x ++ 34 :: w1 ++ 58 :: w2 ++ t ++ w3 ++ 44 :: w4 ++ r) ((k, j) :: l).

  (** A JSON text. *)
  Definition text_of (d : option nat) (b : bytes) (j : json) : Prop :=
    exists w1 t w2, b = w1 ++ t ++ w2 /\ spaces w1 /\ spaces w2 /\ den d t j.
End Denotes.

(** Two values are the same up to the order of the entries of objects (which a [HashMap] does not have). *)
Inductive alike : json -> json -> Prop :=
| alike_true : alike JTrue JTrue
| alike_false : alike JFalse JFalse
| alike_null : alike JNull JNull
| alike_string s : alike (JString s) (JString s)
| alike_number n : alike (JNumber n) (JNumber n)
| alike_list l m : Forall2 alike l m -> alike (JList l) (JList m)
| alike_object l m :
    (forall k a, In (k, a) l -> exists b, In (k, b) m /\ alike a b) -> (forall k b, In (k, b) m -> exists a, In (k, a) l /\ alike a b) ->
    alike (JObject l) (JObject m).

(** How deep lists and objects are nested. *)
Fixpoint depth (j : json) : nat :=
  match j with
  | JList l => S (fold_right (fun x n => Nat.max (depth x) n) O l)
  | JObject m => S (fold_right (fun e n => Nat.max (depth (snd e)) n) O m)
  | _ => O
  end.
Definition within (d : option nat) (j : json) : Prop := match d with None => True | Some n => (depth j <= n)%nat end.

(** The strings of a value, keys included, satisfy [P]; its numbers satisfy [Q]; keys are distinct. *)
Fixpoint parts (P : bytes -> Prop) (Q : N -> Prop) (j : json) : Prop :=
  match j with
  | JString s => P s
  | JNumber n => Q n
  | JList l => all (parts P Q) l
  | JObject m => NoDup (map fst m) /\ all (fun e => P (fst e) /\ parts P Q (snd e)) m
  | _ => True
  end.

(** A piece of a text. *)
Definition infix (x t : bytes) : Prop := exists u v, t = u ++ x ++ v.

(** A number that occurs in a value. *)
Inductive occurs (n : N) : json -> Prop :=
| o_here : occurs n (JNumber n)
| o_list l j : In j l -> occurs n j -> occurs n (JList l)
| o_object m e : In e m -> occurs n (snd e) -> occurs n (JObject m).
