(** The proxies of the server: `vertigo serve --proxy /path=http://domain.com/path`.

    Source: SR = /repo/crates/vertigo-cli/src/serve/serve_run.rs, SO = /repo/crates/vertigo-cli/src/serve/serve_opts.rs.
    The crates axum 0.6 (routing, extractors), reqwest 0.11 and serde_json 1.0 are third-party; what is used of them is as documented.
    Requests have the usual form, a path and perhaps a query after `?`.  What reqwest does with the request it is given is a parameter
    (it may fail, follow redirects, add headers). *)
From Coq Require Import String List NArith Bool.
From Verif Require Import CodecModel DomWire BridgeModel JsonTextModel.
Import ListNotations.
Local Open Scope string_scope.
Local Open Scope list_scope.
Local Open Scope N_scope.

(** A request as the server receives it; names of headers in lower case, as in a [HeaderMap] (http crate). *)
Record request := Request { q_method : bytes; q_path : bytes; q_query : option bytes; q_headers : list (bytes * bytes); q_body : bytes }.
(** An answer: status, headers, body. *)
Record response := Response { p_status : N; p_headers : list (bytes * bytes); p_body : bytes }.
(** What is given to reqwest (SR 76, 114-119). *)
Record outgoing := Outgoing { o_method : bytes; o_url : bytes; o_headers : list (bytes * bytes); o_body : option bytes }.
(** What reqwest gives back: an answer, an error of [send] (SR 78, 122), or an error while the body is read (SR 92, 136), with its text. *)
Inductive answer := Answer (r : response) | SendError (message : bytes) | BodyError (message : bytes).

(** [str::strip_prefix] (std). *)
Fixpoint without (p s : bytes) : option bytes :=
  match p, s with
  | [], _ => Some s
  | a :: p', b :: s' => if a =? b then without p' s' else None
  | _ :: _, [] => None
  end.
(** axum: [nest_service] takes the path itself, the path with `/`, and everything below it; what it nests sees the rest, `/` if nothing is left. *)
Definition nested (path p : bytes) : option bytes :=
  match without path p with
  | Some [] => Some [47]
  | Some (47 :: t) => Some (47 :: t)
  | _ => None
  end.
(** axum (matchit): of several routes that match, the one that is longest in fixed parts is taken.  [best] is the best so far. *)
Fixpoint pick {A} (routes : list (bytes * A)) (p : bytes) (best : option (nat * A * bytes)) : option (nat * A * bytes) :=
  match routes with
  | [] => best
  | (path, a) :: t =>
      pick t p (match nested path p with
                | Some rest => match best with
                               | Some (n, _, _) => if Nat.ltb n (length path) then Some (length path, a, rest) else best
                               | None => Some (length path, a, rest)
                               end
                | None => best
                end)
  end.
(** Who answers. *)
Inductive handler_of := Static (rest : bytes) | Proxy (target rest : bytes) | App.
(** SR 52-59: static files below the mount path, the proxies, and the application for everything else. *)
Definition route (mount : bytes) (proxies : list (bytes * bytes)) (p : bytes) : handler_of :=
  match pick ((mount, None) :: map (fun e => (fst e, Some (snd e))) proxies) p None with
  | Some (_, None, rest) => Static rest
  | Some (_, Some target, rest) => Proxy target rest
  | None => App
  end.

(** [Display] of the [Uri] (http crate): the path and the query. *)
Definition show_uri (path : bytes) (query : option bytes) : bytes := path ++ match query with Some q => 63 :: q | None => [] end.

(** ASCII lower case. *)
Definition lower_char (c : N) : N := if (65 <=? c) && (c <=? 90) then c + 32 else c.
(** Up to a semicolon or a space. *)
Fixpoint essence (s : bytes) : bytes := match s with [] => [] | c :: t => if (c =? 59) || (c =? 32) then [] else lower_char c :: essence t end.
(** axum json.rs [json_content_type]: application/json or application/*+json.  Simplified: the mime crate also refuses malformed parameters. *)
Definition json_type (headers : list (bytes * bytes)) : bool :=
  match find (fun e => bytes_eqb (fst e) (str "content-type")) headers with
  | Some (_, v) =>
      let e := essence v in
      bytes_eqb e (str "application/json") ||
      match without (str "application/") e, without (rev (str "+json")) (rev e) with Some _, Some _ => true | _, _ => false end
  | None => false
  end.
(** axum: the default limit of a body. *)
Definition limit : nat := N.to_nat 2097152.

Section Proxy.
  (** How serde_json reads and writes the numbers of a [Value]; [N] stands for a [serde_json::Number]. *)
  Variable read_number : bytes -> option N.
  Variable write_number : N -> bytes.
  (** reqwest and the target. *)
  Variable send : outgoing -> answer.

  (** serde_json: the objects of a [Value] are [BTreeMap]s, so they are in the order of their keys (JsonTextModel [sort_entries]). *)
  Fixpoint ordered (j : json) : json :=
    match j with
    | JList l => JList (map ordered l)
    | JObject m => JObject (sort_entries (map (fun e => (fst e, ordered (snd e))) m))
    | _ => j
    end.
  (** The text of an answer of the server itself (axum, [String] as a response). *)
  Definition text_response (status : N) (t : bytes) : response := Response status [(str "content-type", str "text/plain; charset=utf-8")] t.
  (** SR 78-108, 122-152: the answer is passed on; an error is told with status 500. *)
  Definition pass_on (url : bytes) (a : answer) : response :=
    match a with
    | Answer r => r
    | SendError e => text_response 500 (str "Error fetching from url=" ++ url ++ str " error=" ++ e)
    | BodyError e => text_response 500 (str "Error fetching body from url=" ++ url ++ str " error=" ++ e)
    end.
  (** SR 75-76, 167-173: [reqwest::get]. *)
  Definition get_out (target uri : bytes) : outgoing := Outgoing (str "GET") (target ++ uri) [] None.
  (** SR 111-119, 178-185. *)
  Definition post_out (target uri : bytes) (headers : list (bytes * bytes)) (j : json) : outgoing :=
    Outgoing (str "POST") (target ++ uri) headers (Some (serde_text write_number (ordered j))).
  (** SR 178: [Json<Value>] (axum json.rs): the type, the size, and the text of the body are looked at in this order. *)
  Definition json_body (q : request) : json + N :=
    if negb (json_type (q_headers q)) then inr 415
    else if Nat.ltb limit (length (q_body q)) then inr 413
    else match serde_parse read_number (q_body q) with Some j => inl j | None => inr 400 end.
  (** SR 161-188: what is nested for a proxy; [uri] is what it sees.  Also said: what was sent, if anything.  A handler for GET answers HEAD, too, without the
      body; other methods are not allowed (axum, [MethodRouter]). *)
  Definition proxy (target uri : bytes) (q : request) : list outgoing * response :=
    let m := q_method q in
    if bytes_eqb m (str "GET") then let o := get_out target uri in ([o], pass_on (o_url o) (send o))
    else if bytes_eqb m (str "HEAD") then
      let o := get_out target uri in let r := pass_on (o_url o) (send o) in ([o], Response (p_status r) (p_headers r) [])
    else if bytes_eqb m (str "POST") then
      match json_body q with
      | inl j => let o := post_out target uri (q_headers q) j in ([o], pass_on (o_url o) (send o))
      | inr status => ([], text_response status [])
      end
    else ([], Response 405 [(str "allow", str "GET,HEAD,POST")] []).
  (** SR 52-59: a request to the server; [other] answers what no proxy answers. *)
  Definition serve (mount : bytes) (proxies : list (bytes * bytes)) (other : handler_of -> request -> response) (q : request) : list outgoing * response :=
    match route mount proxies (q_path q) with
    | Proxy target rest => proxy target (show_uri rest (q_query q)) q
    | h => ([], other h q)
    end.
End Proxy.
