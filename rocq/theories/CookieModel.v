(** Cookies: the functions of the driver, the ones of the page, and the cookie store of the browser.

    Source: CK = /repo/crates/vertigo/src/driver_module/src_js/api_browser/cookies.ts,
    API = /repo/crates/vertigo/src/driver_module/api/api_import.rs:109-176.
    Strings are UTF-8 bytes.  The browser: RFC 6265bis (parsing 5.6, storing 5.7, serialising 5.8.3) for a page whose
    cookies all have the path "/"; ECMAScript for [encodeURIComponent], [decodeURIComponent], [trim] and [split]. *)
From Coq Require Import String List NArith ZArith Bool.
From Verif Require Import CodecModel CodecJsModel DomWire BridgeModel.
Import ListNotations.
Local Open Scope string_scope.
Local Open Scope list_scope.
Local Open Scope N_scope.

(** ** Texts *)

(** ECMAScript 22.1.3.23: [s.split(c)] for one character; the result is never empty. *)
Fixpoint split (c : N) (s : bytes) : list bytes :=
  match s with
  | [] => [[]]
  | b :: t => if b =? c then [] :: split c t
              else match split c t with p :: r => (b :: p) :: r | [] => [[b]] end
  end.

(** ECMAScript 12.2 and 12.3 (WhiteSpace, LineTerminator): the characters of one, two and three bytes. *)
Definition white1 (a : N) : bool := in_range 9 13 a || (a =? 32).
(** ECMAScript 12.2: the white space of two bytes (U+00A0). *)
Definition white2 (a b : N) : bool := (a =? 194) && (b =? 160).
(** ECMAScript 12.2, 12.3: the white space and line ends of three bytes. *)
Definition white3 (a b c : N) : bool :=
  ((a =? 225) && (b =? 154) && (c =? 128)) ||
  ((a =? 226) && (b =? 128) && (in_range 128 138 c || (c =? 168) || (c =? 169) || (c =? 175))) ||
  ((a =? 226) && (b =? 129) && (c =? 159)) ||
  ((a =? 227) && (b =? 128) && (c =? 128)) ||
  ((a =? 239) && (b =? 187) && (c =? 191)).
(** the text after a white space at its start *)
Definition after_white (s : bytes) : option bytes :=
  match s with
  | [] => None
  | a :: r1 =>
      if white1 a then Some r1
      else match r1 with
           | [] => None
           | b :: r2 =>
               if white2 a b then Some r2
               else match r2 with [] => None | c :: r3 => if white3 a b c then Some r3 else None end
           end
  end.
(** the same at the end of a text, given in reverse *)
Definition before_white (s : bytes) : option bytes :=
  match s with
  | [] => None
  | a :: r1 =>
      if white1 a then Some r1
      else match r1 with
           | [] => None
           | b :: r2 =>
               if white2 b a then Some r2
               else match r2 with [] => None | c :: r3 => if white3 c b a then Some r3 else None end
           end
  end.
(** [f] repeatedly *)
Fixpoint drop_while (f : bytes -> option bytes) (fuel : nat) (s : bytes) : bytes :=
  match fuel with
  | O => s
  | S n => match f s with Some r => drop_while f n r | None => s end
  end.
(** ECMAScript 22.1.3.32: [trim] *)
Definition js_trim (s : bytes) : bytes :=
  let s1 := drop_while after_white (length s) s in
  rev (drop_while before_white (length s1) (rev s1)).

(** ECMAScript 19.2.6.5: the characters [encodeURIComponent] leaves as they are. *)
Definition unreserved (b : N) : bool :=
  in_range 65 90 b || in_range 97 122 b || in_range 48 57 b ||
  (b =? 45) || (b =? 95) || (b =? 46) || (b =? 33) || (b =? 126) || (b =? 42) || (b =? 39) || (b =? 40) || (b =? 41).

(** ECMAScript 19.2.6.5: an upper case hexadecimal digit. *)
Definition hex_digit (n : N) : N := if n <? 10 then 48 + n else 55 + n.
(** ECMAScript 19.2.6.5: one escaped octet. *)
Definition escape (b : N) : bytes := [37; hex_digit (b / 16); hex_digit (b mod 16)].

(** ECMAScript 19.2.6.4 (with 19.2.6.6): [encodeURIComponent] of a text without lone surrogates. *)
Definition encode_component (s : bytes) : bytes := flat_map (fun b => if unreserved b then [b] else escape b) s.

(** ECMAScript 19.2.6.7 (ParseHexOctet): the value of a digit. *)
Definition hex_value (b : N) : option N :=
  if in_range 48 57 b then Some (b - 48)
  else if in_range 65 70 b then Some (b - 55)
  else if in_range 97 102 b then Some (b - 87)
  else None.

(** ECMAScript 19.2.6.2 (with 19.2.6.7): [decodeURIComponent]; [None] is a URIError.  [run] holds the bytes of the
    escapes read since the last other character: they have to be whole characters. *)
Fixpoint decode_run (run s : bytes) : option bytes :=
  let flush (k : option bytes) := if utf8_valid run then match k with Some r => Some (run ++ r) | None => None end else None in
  match s with
  | [] => flush (Some [])
  | b :: t =>
      if b =? 37 then
        match t with
        | h :: l :: r => match hex_value h, hex_value l with Some x, Some y => decode_run (run ++ [16 * x + y]) r | _, _ => None end
        | _ => None
        end
      else flush (match decode_run [] t with Some r => Some (b :: r) | None => None end)
  end.
(** ECMAScript 19.2.6.2: [decodeURIComponent]. *)
Definition decode_component (s : bytes) : option bytes := decode_run [] s.

(** ** The browser *)

(** A cookie: name, value, when it expires ([None]: at the end of the session) in seconds, and whether a request from
    another site carries it. *)
Inductive same_site := SiteDefault | SiteStrict | SiteLax | SiteNone.
(** RFC 6265bis 5.7: what is stored of a cookie (name, value, expiry, same-site). *)
Record cookie := Cookie { c_name : bytes; c_value : bytes; c_expires : option N; c_site : same_site }.

(** 6265bis 5.6: spaces and tabs are removed at both ends of names and values. *)
Definition wsp (s : bytes) : option bytes := match s with b :: r => if (b =? 9) || (b =? 32) then Some r else None | [] => None end.
(** 6265bis 5.6: spaces and tabs at both ends are removed. *)
Definition cookie_trim (s : bytes) : bytes :=
  let s1 := drop_while wsp (length s) s in rev (drop_while wsp (length s1) (rev s1)).

(** up to the first [c], and what follows it *)
Fixpoint cut (c : N) (s : bytes) : bytes * option bytes :=
  match s with
  | [] => ([], None)
  | b :: t => if b =? c then ([], Some t) else let '(p, r) := cut c t in (b :: p, r)
  end.

(** 6265bis 5.6: attribute names are compared without regard to ASCII case. *)
Definition lower (b : N) : N := if in_range 65 90 b then b + 32 else b.
(** 6265bis 5.6: an attribute name is the given word. *)
Definition is_word (s : bytes) (w : string) : bool := bytes_eqb (map lower s) (str w).
(** 6265bis 5.7: a cookie name begins with the given word (compared without regard to case). *)
Definition has_prefix (w : string) (s : bytes) : bool := is_word (firstn (String.length w) s) w.

Section Browser.
  (** The date of an [expires] attribute (6265bis 5.1.1), and [toUTCString] (ECMAScript 21.4.4.43), in seconds. *)
  Variable parse_date : bytes -> option N.
  Variable utc : N -> bytes.

  (** 6265bis 5.6.1-5.6.7 for the attributes that matter here; each is [name=value] or [name]. *)
  Definition attribute (c : cookie) (av : bytes) : cookie :=
    let '(n, v) := cut 61 av in
    let name := cookie_trim n in
    let value := cookie_trim (match v with Some v => v | None => [] end) in
    if 1024 <? len value then c
    else if is_word name "expires" then
      match parse_date value with Some d => Cookie (c_name c) (c_value c) (Some d) (c_site c) | None => c end
    else if is_word name "samesite" then
      Cookie (c_name c) (c_value c) (c_expires c)
        (if is_word value "none" then SiteNone else if is_word value "strict" then SiteStrict
         else if is_word value "lax" then SiteLax else SiteDefault)
    else c.

  (** 6265bis 5.6, 5.7: the cookie of a text assigned to [document.cookie]; [None]: it is ignored.  Secure cookies are
      never asked for here, so names with a prefix that demands them are refused. *)
  Definition parse_cookie (s : bytes) : option cookie :=
    if existsb (fun b => (b <? 9) || in_range 10 31 b || (b =? 127)) s then None
    else
      match split 59 s with
      | [] => None
      | nv :: attrs =>
          let '(n, v) := match cut 61 nv with (n, Some v) => (cookie_trim n, cookie_trim v) | (v, None) => ([], cookie_trim v) end in
          if (4096 <? len n + len v) || (len n + len v =? 0) then None
          else if has_prefix "__secure-" n || has_prefix "__host-" n then None
          else Some (fold_left attribute attrs (Cookie n v None SiteDefault))
      end.

  (** A cookie is there until it expires; [now] in milliseconds. *)
  Definition alive (now : N) (c : cookie) : bool := match c_expires c with None => true | Some d => now <? d * 1000 end.

  (** 6265bis 5.7: a cookie of the same name is replaced, keeping its place; a new one is last; one that expired is
      removed. *)
  Definition store (now : N) (c : cookie) (jar : list cookie) : list cookie :=
    let same x := bytes_eqb (c_name x) (c_name c) in
    let jar1 := if existsb same jar then map (fun x => if same x then c else x) jar else jar ++ [c] in
    filter (alive now) jar1.

  (** 6265bis 5.8.3: [document.cookie] *)
  Definition show (c : cookie) : bytes := match c_name c with [] => c_value c | n => n ++ 61 :: c_value c end.
  (** 6265bis 5.8.3: the cookies are separated by "; ". *)
  Fixpoint join (l : list bytes) : bytes :=
    match l with [] => [] | [x] => x | x :: t => x ++ 59 :: 32 :: join t end.
  (** HTML standard 3.1.4: reading [document.cookie]. *)
  Definition document_cookie (now : N) (jar : list cookie) : bytes := join (map show (filter (alive now) jar)).

  (** assigning to [document.cookie] *)
  Definition assign_cookie (now : N) (s : bytes) (jar : list cookie) : list cookie :=
    match parse_cookie s with Some c => store now c jar | None => jar end.

  (** ** The page: CK *)

  (** CK 5-26: the loop of [get] *)
  Fixpoint get_loop (cname : bytes) (l : list bytes) : option bytes :=
    match l with
    | [] => Some []
    | cookie :: t =>
        match cookie with
        | [] => get_loop cname t
        | _ =>
            match split 61 (js_trim cookie) with
            | [name; value] => if bytes_eqb name cname then decode_component value else get_loop cname t
            | _ => get_loop cname t
            end
        end
    end.
  (** CK 4-29: [get]; [None] is an exception *)
  Definition js_get (now : N) (jar : list cookie) (cname : bytes) : option bytes :=
    get_loop cname (split 59 (document_cookie now jar)).

  (** CK 52-54: the date, as text; beyond the range of [Date] (ECMAScript 21.4.1.1) it is "Invalid Date". *)
  Definition expires_text (now expires_in : N) : bytes :=
    if now + expires_in * 1000 <=? 8640000000000000 then utc ((now + expires_in * 1000) / 1000) else str "Invalid Date".

  (** CK 45-57: [set] *)
  Definition js_set (now : N) (jar : list cookie) (cname cvalue : bytes) (expires_in : N) : list cookie :=
    assign_cookie now
      (cname ++ 61 :: encode_component cvalue ++ 59 :: str "expires=" ++ expires_text now expires_in ++
       str ";path=/;samesite=strict" ++ [34]) jar.

  (** JSON.stringify and JSON.parse (ECMAScript 25.5); [None] is an exception. *)
  Variable stringify : jval -> bytes.
  Variable parse : bytes -> option jval.

  (** CK 31-43: [get_json] *)
  Definition js_get_json (now : N) (jar : list cookie) (cname : bytes) : option jval :=
    match js_get now jar cname with
    | None => None
    | Some [] => Some KNull
    | Some s => match parse s with Some v => Some v | None => Some KNull end
    end.

  (** CK 59-67: [set_json] *)
  Definition js_set_json (now : N) (jar : list cookie) (cname : bytes) (cvalue : jval) (expires_in : N) : list cookie :=
    js_set now jar cname (stringify cvalue) expires_in.

  (** ** The driver: API, over the engine of BridgeModel *)

  (** The state of the page: the time and the cookies. *)
  Definition page := (N * list cookie)%type.
  (** api_browser.ts:11-47: the object [api] of the page (a host object). *)
  Definition api : jval := KHost 1.
  (** api_browser.ts:12, 21: the object [cookie] of the api. *)
  Definition cookies : jval := KHost 2.
  (** The identity of a host object of the page. *)
  Definition is_host (v : jval) (n : N) : bool := match v with KHost m => m =? n | _ => false end.

  (** src_js/api_browser.ts:12-21: the property [cookie] of the api. *)
  Definition eget (s : page) (o : jval) (name : bytes) : option jval :=
    if is_host o 1 && bytes_eqb name (str "cookie") then Some cookies else None.
  (** CK 3-68: a call of a method of the api object [cookie]. *)
  Definition ecall (s : page) (o : jval) (name : bytes) (args : list jval) : page * option jval :=
    let '(now, jar) := s in
    if negb (is_host o 2) then (s, None)
    else if bytes_eqb name (str "get") then
      match args with [KStr n] => (s, option_map KStr (js_get now jar n)) | _ => (s, None) end
    else if bytes_eqb name (str "set") then
      match args with [KStr n; KStr v; KBig e] => ((now, js_set now jar n v (Z.to_N e)), Some KUndef) | _ => (s, None) end
    else if bytes_eqb name (str "get_json") then
      match args with [KStr n] => (s, js_get_json now jar n) | _ => (s, None) end
    else if bytes_eqb name (str "set_json") then
      match args with [KStr n; v; KBig e] => ((now, js_set_json now jar n v (Z.to_N e)), Some KUndef) | _ => (s, None) end
    else (s, None).

  Variable lossy : bytes -> bytes.
  (** API 109-176: a call through the bridge begins with the api and its property "cookie". *)
  Definition access (s : page) (steps : list jsval) : page * fres :=
    fetch page eget (fun _ _ _ _ => None) ecall (fun _ _ => None) api KNull KNull lossy s (b_api :: b_get (str "cookie") :: steps).

  (** API 109-123: [cookie_get]; [None] is a panic or an exception. *)
  Definition cookie_get (s : page) (cname : bytes) : option bytes :=
    match access s [b_call (str "get") [VString cname]] with
    | (_, FVal (VString value)) => Some value
    | (_, FVal _) => Some []
    | _ => None
    end.

  (** API 125-142: [cookie_get_json], in the browser. *)
  Definition cookie_get_json (s : page) (cname : bytes) : option json :=
    match access s [b_call (str "get_json") [VString cname]] with
    | (_, FVal (VJson value)) => Some value
    | (_, FVal _) => Some JNull
    | _ => None
    end.

  (** API 144-161: [cookie_set], in the browser; [exec] (api_dom_access.rs:102-112) only reports other results. *)
  Definition cookie_set (s : page) (cname cvalue : bytes) (expires_in : N) : option page :=
    match access s [b_call (str "set") [VString cname; VString cvalue; VU64 expires_in]] with
    | (s1, FVal _) => Some s1
    | _ => None
    end.

  (** API 163-176: [cookie_set_json] *)
  Definition cookie_set_json (s : page) (cname : bytes) (cvalue : json) (expires_in : N) : option page :=
    match access s [b_call (str "set_json") [VString cname; VJson cvalue; VU64 expires_in]] with
    | (s1, FVal _) => Some s1
    | _ => None
    end.
End Browser.
