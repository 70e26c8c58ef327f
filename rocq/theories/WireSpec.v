(** Specification of requests and responses (C73 - C75): what a request of the application asks for, and what a response says.
    Nothing here refers to how requests are sent. *)
From Coq Require Import String List NArith Bool.
From Verif Require Import CodecModel CodecSpec DomWire FetchModel JsonTextModel JsonTextSpec JsonTextProps WireModel.
Import ListNotations.
Local Open Scope string_scope.
Local Open Scope list_scope.
Local Open Scope N_scope.

(** [d] is [c] in lower case (ASCII). *)
Definition lower_of (a b : bytes) : Prop :=
  Forall2 (fun c d => (65 <= c <= 90 /\ d = c + 32) \/ (~ (65 <= c <= 90) /\ d = c)) a b.

(** RFC 9110, 5.6.2: a name. *)
Definition tchar (c : N) : Prop :=
  48 <= c <= 57 \/ 65 <= c <= 90 \/ 97 <= c <= 122 \/ In c (str "!#$%&'*+-.^_`|~").
Definition name (s : bytes) : Prop := s <> [] /\ Forall tchar s.
(** RFC 9110, 5.5: a value, in ASCII. *)
Definition blank (c : N) : Prop := c = 32 \/ c = 9.
Definition value (v : bytes) : Prop :=
  Forall (fun c => 32 <= c <= 126 \/ c = 9) v /\
  (forall c t, v = c :: t -> ~ blank c) /\ (forall t c, v = t ++ [c] -> ~ blank c).
(** The names that belong to the browser (Fetch, 2.2.2). *)
Definition reserved (n : bytes) : Prop :=
  In n (map str ["accept-charset"; "accept-encoding"; "access-control-request-headers"; "access-control-request-method";
    "connection"; "content-length"; "cookie"; "cookie2"; "date"; "dnt"; "expect"; "host"; "keep-alive"; "origin"; "referer";
    "set-cookie"; "te"; "trailer"; "transfer-encoding"; "upgrade"; "via";
    "x-http-method"; "x-http-method-override"; "x-method-override"]%string) \/
  (exists r, n = str "proxy-" ++ r) \/ (exists r, n = str "sec-" ++ r).

(** The header [n] (in lower case) is asked to be [v]. *)
Definition asked (h : list (bytes * bytes)) (n v : bytes) : Prop := exists k, In (k, v) h /\ lower_of k n.
(** The headers of a request on which the platforms agree. *)
Definition plain_headers (h : list (bytes * bytes)) : Prop :=
  (forall k v, In (k, v) h -> name k /\ value v /\ k <> str "__proto__" /\ forall n, lower_of k n -> ~ reserved n) /\
  NoDup (map fst h) /\
  (forall k v k' v' n, In (k, v) h -> In (k', v') h -> lower_of k n -> lower_of k' n -> k = k').

(** What is sent in addition. *)
Definition default_type (b : option fbody) (v : bytes) : Prop :=
  match b with
  | Some (BText _) => v = str "text/plain; charset=utf-8"
  | Some (BJson _) => v = str "application/json; charset=utf-8"
  | _ => False
  end.

Section Carries.
  (** What the text of a number denotes. *)
  Variable number_is : bytes -> N -> Prop.

  (** A request carries what was asked for. *)
  Definition carries (m u : bytes) (h : list (bytes * bytes)) (b : option fbody) (r : request) : Prop :=
    r_method r = m /\ r_url r = u /\
    (forall n v, In (n, v) (r_headers r) <->
       asked h n v \/ (n = str "content-type" /\ (forall v', ~ asked h n v') /\ default_type b v)) /\
    NoDup (map fst (r_headers r)) /\
    match b with
    | None => r_body r = None
    | Some (BText s) | Some (BBin s) => r_body r = Some s
    | Some (BJson j) => exists t j', r_body r = Some t /\ alike j j' /\ text_of false utf8 number_is None t j'
    end.
End Carries.

(** The media type of a value of content-type, in lower case (RFC 9110, 8.3.1): what is before a semicolon, without blanks. *)
Definition media_type (t e : bytes) : Prop :=
  exists w e' w' rest, t = w ++ e' ++ w' ++ rest /\ Forall blank w /\ Forall blank w' /\ (rest = [] \/ exists r, rest = 59 :: r) /\
    ~ In 59 (e') /\ (forall c s, e' = c :: s -> ~ blank c) /\ (forall s c, e' = s ++ [c] -> ~ blank c) /\ lower_of e' e.

(** What the application is told, exactly. *)
Definition answered (status : N) (b : fbody) (params : jsval) : Prop :=
  forall show, fetch_answer show params = Some (Good (status, b)).
Definition failed (params : jsval) : Prop := forall show, exists e, fetch_answer show params = Some (Bad e).
