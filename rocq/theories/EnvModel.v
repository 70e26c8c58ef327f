(** Settings of the server ([--env name=value]) and how the application reads them, on the server and in the browser.

    Source: PK = /repo/crates/vertigo-cli/src/commons/parse_key_val.rs, SS = /repo/crates/vertigo-cli/src/serve/server_state.rs,
    RS = /repo/crates/vertigo-cli/src/serve/request_state.rs, WI = /repo/crates/vertigo-cli/src/serve/wasm/wasm_instance.rs,
    AB = /repo/crates/vertigo/src/driver_module/src_js/api_browser.ts, AI = /repo/crates/vertigo/src/driver_module/api/api_import.rs.
    The response the settings travel in is [build_response] of [HtmlModel]. *)
From Coq Require Import String List NArith Bool.
From Verif Require Import CodecModel DomWire HtmlModel.
Import ListNotations.
Local Open Scope string_scope.
Local Open Scope list_scope.

(** PK 4-15: the text before and after the first '='; [None]: the argument is refused (parsing a [String] never fails). *)
Fixpoint parse_key_val (s : bytes) : option (bytes * bytes) :=
  match s with
  | [] => None
  | c :: t => if (c =? 61)%N then Some ([], t) else match parse_key_val t with Some (k, v) => Some (c :: k, v) | None => None end
  end.

(** [HashMap::insert]: the map as the list of its entries. *)
Fixpoint map_insert (k v : bytes) (m : list (bytes * bytes)) : list (bytes * bytes) :=
  match m with
  | [] => [(k, v)]
  | (k', v') :: t => if beqb k k' then (k', v) :: t else (k', v') :: map_insert k v t
  end.
(** SS 30 *)
Definition collect (l : list (bytes * bytes)) : list (bytes * bytes) := fold_left (fun m e => map_insert (fst e) (snd e) m) l [].
(** [HashMap::get] (RS 10-15) *)
Fixpoint map_get (m : list (bytes * bytes)) (k : bytes) : option bytes :=
  match m with [] => None | (k', v) :: t => if beqb k k' then Some v else map_get t k end.

(** What the call "get_env" returns. *)
Inductive answer := AString (v : bytes) | ANull.
(** WI 67-75 *)
Definition server_answer (m : list (bytes * bytes)) (name : bytes) : answer :=
  match map_get m name with Some v => AString v | None => ANull end.
(** AI 679-696 *)
Definition get_env (a : answer) : option bytes :=
  match a with ANull => None | AString v => Some v end.
(** AB 40-42: [doc] is what [getAttribute] of the root element does. *)
Definition browser_answer (doc : bytes -> option bytes) (name : bytes) : answer :=
  match doc (str "data-env-" ++ name) with Some v => AString v | None => ANull end.
