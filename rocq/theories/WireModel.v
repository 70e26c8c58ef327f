(** Requests on the wire: what the browser and the server send for a request of the application, and what the application is
    told about the response.

    FT = /repo/crates/vertigo/src/driver_module/src_js/api_browser/fetch.ts,
    SR = /repo/crates/vertigo-cli/src/serve/html/send_request.rs,
    HR = /repo/crates/vertigo-cli/src/serve/html/html_response.rs,
    WI = /repo/crates/vertigo-cli/src/serve/wasm/wasm_instance.rs.
    The browser's [Headers] and [fetch] follow the Fetch standard; reqwest and http are third-party crates, as documented.
    Strings are UTF-8 bytes; what travels are bytes.  Not modelled: the headers the platforms add of their own (host, accept,
    user-agent, content-length, ...), redirects, CORS, in which case the name of a header is written, and keys of one object
    that differ in lone surrogates only. *)
From Coq Require Import String List NArith Bool.
From Verif Require Import CodecModel CodecJsModel DomWire BridgeModel FetchModel JsonTextModel.
Import ListNotations.
Local Open Scope string_scope.
Local Open Scope list_scope.
Local Open Scope N_scope.

(** A request that left; header names in lower case. *)
Record request := Request { r_method : bytes; r_url : bytes; r_headers : list (bytes * bytes); r_body : option bytes }.
(** Sent; refused, about which the application is told; or nothing, ever: an exception nobody catches, or a panic. *)
Inductive outcome := Sent (r : request) | Refused | Silent.

(** A response: the status, the values of the headers content-type, and the body ([None]: the connection broke). *)
Record response := Response { p_status : N; p_types : list bytes; p_body : option bytes }.

(** ASCII letters in lower case: [toLowerCase] (ECMAScript 22.1.3.28), [str::to_lowercase].  Other letters are left alone. *)
Definition lower1 (c : N) : N := if in_range 65 90 c then c + 32 else c.
(** A text in lower case (same places). *)
Definition lower (s : bytes) : bytes := map lower1 s.

(** Both ends without the characters [p] ([trim]). *)
Fixpoint drop_while (p : N -> bool) (s : bytes) : bytes := match s with c :: t => if p c then drop_while p t else s | [] => [] end.
(** Fetch, 2.2.2 (normalize); ECMAScript 22.1.3.32; [str::trim]. *)
Definition strip (p : N -> bool) (s : bytes) : bytes := rev (drop_while p (rev (drop_while p s))).

(** RFC 9110, 5.6.2: the characters of a token. *)
Definition token_char (c : N) : bool :=
  in_range 48 57 c || in_range 65 90 c || in_range 97 122 c ||
  existsb (N.eqb c) [33; 35; 36; 37; 38; 39; 42; 43; 45; 46; 94; 95; 96; 124; 126].
(** Fetch, 2.2.2 (header name); the crate http: [HeaderName::from_bytes]. *)
Definition is_name (s : bytes) : bool := match s with [] => false | _ => forallb token_char s end.

(** What is before the first [c] ([split(c)[0]], FT 12; [split(c)] and [pop_front], SR 158-161). *)
Fixpoint up_to (c : N) (s : bytes) : bytes := match s with [] => [] | x :: t => if x =? c then [] else x :: up_to c t end.

(** ** The browser *)

(** Web IDL, 3.2.9 (ByteString): every character must fit into a byte; an exception is [None]. *)
Fixpoint byte_string (s : bytes) : option bytes :=
  match s with
  | [] => Some []
  | a :: t =>
      if a <? 128 then match byte_string t with Some r => Some (a :: r) | None => None end
      else if (a =? 194) || (a =? 195) then
        match t with
        | b :: t' => match byte_string t' with Some r => Some ((a - 192) * 64 + (b - 128) :: r) | None => None end
        | [] => None
        end
      else None
  end.

(** Fetch, 2.2.2 (HTTP whitespace bytes). *)
Definition http_space (c : N) : bool := (c =? 9) || (c =? 10) || (c =? 13) || (c =? 32).
(** Fetch, 2.2.2 (header value), after normalizing. *)
Definition js_value_ok (v : bytes) : bool := forallb (fun c => negb ((c =? 0) || (c =? 10) || (c =? 13))) v.

(** Fetch, 2.2.2 (append): values of one name are combined. *)
Fixpoint append_header (n v : bytes) (l : list (bytes * bytes)) : list (bytes * bytes) :=
  match l with
  | [] => [(n, v)]
  | (k, w) :: t => if bytes_eqb k n then (k, w ++ [44; 32] ++ v) :: t else (k, w) :: append_header n v t
  end.
(** Fetch, 5.1 ([headers.append]); [None]: TypeError. *)
Definition js_append (l : list (bytes * bytes)) (n v : bytes) : option (list (bytes * bytes)) :=
  match byte_string n, byte_string v with
  | Some n, Some v =>
      let v := strip http_space v in
      if is_name n && js_value_ok v then Some (append_header (lower n) v l) else None
  | _, _ => None
  end.
(** Fetch, 5.1: [new Headers(record)] (FT 54). *)
Definition new_headers (h : list (bytes * bytes)) : option (list (bytes * bytes)) :=
  fold_left (fun acc e => match acc with Some l => js_append l (fst e) (snd e) | None => None end) h (Some []).
(** The record made of the headers (JS/jsjson.ts:108: [out[key] = value]). *)
Definition record (h : list (bytes * bytes)) : list (bytes * bytes) :=
  fold_left (fun m e => js_assign (fst e) (snd e) m) h [].

(** [headers.has], and [HashMap::contains_key] (SR 105, 113). *)
Definition has (n : bytes) (l : list (bytes * bytes)) : bool := existsb (fun e => bytes_eqb (fst e) n) l.
(** FT 64-66, 76-78, 87-89 and SR 105-107, 113-118: a header is set unless it is there. *)
Definition default_header (n v : bytes) (l : list (bytes * bytes)) : list (bytes * bytes) := if has n l then l else l ++ [(n, v)].

(** Fetch, 2.2.2 (forbidden request-header): the names. *)
Definition forbidden_names : list bytes :=
  [str "accept-charset"; str "accept-encoding"; str "access-control-request-headers"; str "access-control-request-method";
   str "connection"; str "content-length"; str "cookie"; str "cookie2"; str "date"; str "dnt"; str "expect"; str "host";
   str "keep-alive"; str "origin"; str "referer"; str "set-cookie"; str "te"; str "trailer"; str "transfer-encoding";
   str "upgrade"; str "via"].
(** Fetch, 2.2.2: the names that may not name a forbidden method. *)
Definition method_names : list bytes := [str "x-http-method"; str "x-http-method-override"; str "x-method-override"].
(** Fetch, 2.2.1 (forbidden method). *)
Definition forbidden_methods : list bytes := [str "connect"; str "trace"; str "track"].
(** Membership. *)
Definition among (s : bytes) (l : list bytes) : bool := existsb (bytes_eqb s) l.
(** [String.prototype.startsWith]. *)
Fixpoint starts (p s : bytes) : bool :=
  match p, s with [], _ => true | x :: p, y :: s => (x =? y) && starts p s | _ :: _, [] => false end.
(** Fetch, 2.2.2 (get, decode, and split), without quoted strings. *)
Fixpoint comma_parts (s : bytes) : list bytes :=
  match s with
  | [] => [[]]
  | c :: t => if c =? 44 then [] :: comma_parts t else match comma_parts t with p :: r => (c :: p) :: r | [] => [[c]] end
  end.
(** Fetch, 2.2.2 (forbidden request-header), of a name in lower case. *)
Definition forbidden (n v : bytes) : bool :=
  among n forbidden_names || starts (str "proxy-") n || starts (str "sec-") n ||
  (among n method_names && existsb (fun p => among (lower (strip http_space p)) forbidden_methods) (comma_parts v)).

Section Browser.
  (** How a number is written (see JsonTextModel), how it is read, what is made of bytes that are not UTF-8, and which texts are
      addresses. *)
  Variable number : N -> bytes.
  Variable read : bytes -> N.
  Variable lossy : bytes -> bytes.
  Variable address : bytes -> bool.
  (** The text of an exception (FT 43, 176). *)
  Variable message : bytes.

  (** FT 53-95: [getHeadersAndBody]; [None]: line 54 throws. *)
  Definition js_headers_body (headers : list (bytes * bytes)) (body : jval) : option (list (bytes * bytes) * option bytes) :=
    match new_headers headers with
    | None => None
    | Some h =>
        match body with
        | KUndef => Some (h, None)
        | KStr s => Some (default_header (str "content-type") (str "text/plain; charset=utf-8") h, Some s)
        | KBytes b => Some (default_header (str "content-type") (str "application/octet-stream") h, Some b)
        | _ => Some (default_header (str "content-type") (str "application/json; charset=utf-8") h, Some (js_stringify number body))
        end
    end.

  (** FT 126-130: [fetch(url, ...)], as far as the request leaves (Fetch, 5.4, the constructor of [Request]). *)
  Definition js_fetch (method url : bytes) (h : list (bytes * bytes)) (body : option bytes) : outcome :=
    if negb (is_name method) || among (lower method) forbidden_methods then Refused
    else if negb (address url) then Refused
    else match body with
         | Some _ => if among (lower method) [str "get"; str "head"] then Refused
                     else Sent (Request method url (filter (fun e => negb (forbidden (fst e) (snd e))) h) body)
         | None => Sent (Request method url (filter (fun e => negb (forbidden (fst e) (snd e))) h) None)
         end.

  (** FT 114-130: line 123 is outside of the [try]. *)
  Definition js_send (method url : bytes) (headers : list (bytes * bytes)) (body : jval) : outcome :=
    match js_headers_body headers body with
    | None => Silent
    | Some (h, b) => js_fetch method url h b
    end.

  (** ECMAScript 12.2, 12.3: white space among the first 256 characters. *)
  Definition js_space (c : N) : bool := in_range 9 13 c || (c =? 32) || (c =? 160).
  (** [response.headers.get] (FT 132; Fetch, 2.2.2): the values are joined. *)
  Fixpoint joined (l : list bytes) : bytes := match l with [] => [] | [x] => x | x :: t => x ++ [44; 32] ++ joined t end.
  (** FT 6-31: [getTypeResponse]. *)
  Definition js_type (types : list bytes) : bytes :=
    match types with
    | [] => str "bin"
    | _ => let t := strip js_space (lower (up_to 59 (joined types))) in
           if bytes_eqb t (str "application/json") then str "json"
           else if bytes_eqb t (str "text/plain") then str "text" else str "bin"
    end.

  (** FT 139-146, 155-159, 168-172: what wasm is called with. *)
  Definition told (status : N) (body : jsval) : jsval := VList [VTrue; VU32 status; body].
  (** FT 45-49, 178-182. *)
  Definition told_failure (status : N) : jsval := VList [VFalse; VU32 status; VString message].

  (** FT 132-173 with 33-51. *)
  Definition js_receive (p : response) : jsval :=
    let t := js_type (p_types p) in
    match p_body p with
    | None => told_failure (p_status p)
    | Some b =>
        if bytes_eqb t (str "json") then
          match js_parse read (text_decode lossy b) with
          | Some j => told (p_status p) (VJson j)
          | None => told_failure (p_status p)
          end
        else if bytes_eqb t (str "text") then told (p_status p) (VString (text_decode lossy b))
        else told (p_status p) (VVec b)
    end.

  (** FT 114-184: the calls of wasm made for one request, the network being a function ([None]: a network error). *)
  Definition js_calls (net : request -> option response) (method url : bytes) (headers : list (bytes * bytes)) (body : jval) : list jsval :=
    match js_send method url headers body with
    | Silent => []
    | Refused => [told_failure 0]
    | Sent r => match net r with None => [told_failure 0] | Some p => [js_receive p] end
    end.
End Browser.

(** ** The server *)

Section Server.
  (** How a number is written (the crate ryu), how it is read, which texts are addresses. *)
  Variable number : N -> bytes.
  Variable read : bytes -> option N.
  Variable address : bytes -> bool.

  (** The white space of ASCII ([str::trim]). *)
  Definition ascii_space (c : N) : bool := in_range 9 13 c || (c =? 32).

  (** SR 128-136: [clear_headers]; the order is that of the [HashMap]. *)
  Definition clear_headers (h : list (bytes * bytes)) : list (bytes * bytes) :=
    fold_left (fun m e => assoc_insert (strip ascii_space (lower (fst e))) (snd e) m) h [].

  (** SR 98-126: [get_headers_and_body]; [None]: a panic (line 59). *)
  Definition serde_headers_body (h : list (bytes * bytes)) (body : option fbody) : option (list (bytes * bytes) * option bytes) :=
    match body with
    | None => Some (h, None)
    | Some (BText s) => Some (default_header (str "content-type") (str "text/plain; charset=utf-8") h, Some s)
    | Some (BBin b) => Some (h, Some b)
    | Some (BJson j) =>
        match to_serde j with
        | Some j => Some (default_header (str "content-type") (str "application/json; charset=utf-8") h, Some (serde_text number j))
        | None => None
        end
    end.

  (** The crate http: [HeaderValue::from_bytes]. *)
  Definition value_ok (v : bytes) : bool := forallb (fun c => ((32 <=? c) && negb (c =? 127)) || (c =? 9)) v.

  (** SR 178-212: as far as the request leaves (reqwest keeps the error of a bad address, name or value until [send]). *)
  Definition server_send (method url : bytes) (headers : list (bytes * bytes)) (body : option fbody) : outcome :=
    let m := lower (strip ascii_space method) in
    if bytes_eqb m (str "get") || bytes_eqb m (str "post") then
      match serde_headers_body (clear_headers headers) body with
      | None => Silent
      | Some (h, b) =>
          if address url && forallb (fun e => is_name (fst e) && value_ok (snd e)) h
          then Sent (Request (if bytes_eqb m (str "get") then str "GET" else str "POST") url h b)
          else Refused
      end
    else Silent (* SR 184: a panic *).

  (** SR 144-176: [get_response_type]. *)
  Definition server_type (types : list bytes) : bytes :=
    match types with
    | [] => str "bin"
    | t :: _ =>
        if forallb (fun c => in_range 32 126 c || (c =? 9)) t then
          let t := lower (strip ascii_space (up_to 59 t)) in
          if bytes_eqb t (str "application/json") then str "json"
          else if bytes_eqb t (str "text/plain") then str "text" else str "bin"
        else str "bin"
    end.

  (** SR 77-90 with WI 189-195: what wasm is called with. *)
  Definition server_failure : jsval := VList [VFalse; VU32 0; VString []].

  (** SR 214-246. *)
  Definition server_receive (p : response) : jsval :=
    let t := server_type (p_types p) in
    match p_body p with
    | None => server_failure
    | Some b =>
        if bytes_eqb t (str "text") then if utf8_valid b then told (p_status p) (VString b) else server_failure
        else if bytes_eqb t (str "json") then
          match serde_parse read b with Some j => told (p_status p) (VJson j) | None => server_failure end
        else told (p_status p) (VVec b)
    end.

  (** HR 149-209 for one request: the calls of wasm.  After a panic of the task nothing is sent (HR 171-176). *)
  Definition server_calls (net : request -> option response) (method url : bytes) (headers : list (bytes * bytes)) (body : option fbody) : list jsval :=
    match server_send method url headers body with
    | Silent => []
    | Refused => [server_failure]
    | Sent r => match net r with None => [server_failure] | Some p => [server_receive p] end
    end.
End Server.
