(** Static files: their hashed names, the directory [vertigo build] writes, what is served from it, and the caches of browsers.

    Source: WP = /repo/crates/vertigo-cli/src/build/wasm_path.rs (the same code is in
    /repo/crates/vertigo-macro/src/wasm_path.rs:19-85), IS = /repo/crates/vertigo-macro/src/include_static.rs,
    BR = /repo/crates/vertigo-cli/src/build/build_run.rs, BO = /repo/crates/vertigo-cli/src/build/build_opts.rs,
    SR = /repo/crates/vertigo-cli/src/serve/serve_run.rs, /repo/crates/vertigo-cli/src/serve/mount_path.rs.
    Texts and contents are lists of bytes; names are valid UTF-8 ([to_string_lossy] changes nothing).  Simplified: one flat
    directory is a list of names and contents; the directory the macro writes to is the one the build reads (CARGO_TARGET_DIR
    is not set); it exists. *)
From Coq Require Import String List NArith Bool.
From Verif Require Import CodecModel DomWire CookieModel SmallModel.
Import ListNotations.
Local Open Scope string_scope.
Local Open Scope list_scope.
Local Open Scope N_scope.

(** ** The hash *)

(** WP 106: the polynomial of CRC-64/ECMA-182 (crate [crc]); initial value 0, no reflection, no final xor. *)
Definition poly : N := 0x42f0e1eba9ea3693.
(** WP 106: the register is a [u64]. *)
Definition two64 : N := 18446744073709551616.
(** WP 106 ([Crc::new]): one step of the table's construction. *)
Definition bit_step (s : N) : N := N.lxor ((2 * s) mod two64) (if N.testbit s 63 then poly else 0).
(** WP 106: [Crc::new] computes the entry of a byte by eight steps. *)
Definition table (b : N) : N := Nat.iter 8 bit_step (N.shiftl b 56).
(** WP 110: [Digest::update], one byte ([table[((crc >> 56) ^ byte) & 0xff] ^ (crc << 8)]). *)
Definition crc_byte (s b : N) : N := N.lxor (table (N.land (N.lxor (N.shiftr s 56) b) 255)) ((256 * s) mod two64).
(** WP 109-111: [digest], [update], [finalize]. *)
Definition crc (data : bytes) : N := fold_left crc_byte data 0.
(** WP 111: [to_be_bytes] of a [u64]. *)
Definition be_bytes (x : N) : bytes := map (fun i => N.land (N.shiftr x (8 * i)) 255) [7; 6; 5; 4; 3; 2; 1; 0].

(** WP 1, 111: the alphabet of [URL_SAFE_NO_PAD]. *)
Definition sextet (v : N) : N :=
  if v <? 26 then 65 + v else if v <? 52 then 71 + v else if v <? 62 then v - 4 else if v =? 62 then 45 else 95.
(** WP 111: [encode]: three bytes give four characters; no padding. *)
Fixpoint base64 (data : bytes) : bytes :=
  match data with
  | a :: b :: c :: t => [sextet (a / 4); sextet (a mod 4 * 16 + b / 16); sextet (b mod 16 * 4 + c / 64); sextet (c mod 64)] ++ base64 t
  | [a; b] => [sextet (a / 4); sextet (a mod 4 * 16 + b / 16); sextet (b mod 16 * 4)]
  | [a] => [sextet (a / 4); sextet (a mod 4 * 16)]
  | [] => []
  end.
(** WP 108-112 *)
Definition get_hash (data : bytes) : bytes := base64 (be_bytes (crc data)).

(** ** Names *)

(** A name split at its last dot. *)
Fixpoint last_dot (name : bytes) : option (bytes * bytes) :=
  match name with
  | [] => None
  | c :: t => match last_dot t with
              | Some (a, b) => Some (c :: a, b)
              | None => if c =? 46 then Some ([], t) else None
              end
  end.
(** WP 19-25, 35-41: [Path::file_stem] and [Path::extension] of a file name; [None]: there is no extension and [unwrap]
    panics (also for a name whose only dot is the first character). *)
Definition stem_ext (name : bytes) : option (bytes * bytes) :=
  match last_dot name with
  | Some ([], _) | None => None
  | Some (a, b) => Some (a, b)
  end.
(** WP 52-57: the name a content is saved under. *)
Definition hashed_name (name content : bytes) : option bytes :=
  match stem_ext name with
  | Some (stem, ext) => Some (stem ++ [46] ++ get_hash content ++ [46] ++ ext)
  | None => None
  end.

(** ** Directories *)

(** A flat directory. *)
Definition dir := list (bytes * bytes).
(** Equality of names. *)
Definition named (n : bytes) (f : bytes * bytes) : bool := if list_eq_dec N.eq_dec n (fst f) then true else false.
(** WP 64-66 and [ServeDir] (SR 48): the content of a file. *)
Definition content (d : dir) (n : bytes) : option bytes := option_map snd (find (named n) d).
(** WP 95-99: [remove_file] *)
Definition remove (n : bytes) (d : dir) : dir := filter (fun f => negb (named n f)) d.
(** WP 43-49: [save] creates the file or replaces its content. *)
Definition save (n c : bytes) (d : dir) : dir := (n, c) :: remove n d.
(** WP 51-62: [save_with_hash]; [None] is a panic. *)
Definition save_with_hash (n c : bytes) (d : dir) : option (bytes * dir) :=
  match hashed_name n c with
  | Some h => Some (h, save h c d)
  | None => None
  end.

(** ** The build *)

(** BO 28-31 and IS 63: [format!("{public_path}/{hash}")] *)
Definition public_to (public n : bytes) : bytes := public ++ slash :: n.

(** What is built: the files named in [include_static!] invocations (file name and content, IS 40, 55), wasm_run.js, its
    source map if asked for (BR 70), the name of the package with underscores (find_target.rs:5-11), the compiled program, and
    what [wasm-opt] makes of it if it runs (BR 89). *)
Record project := Project {
  p_static : list (bytes * bytes); p_js : bytes; p_map : option bytes; p_package : bytes; p_wasm : bytes; p_opt : option bytes }.

(** IS 21-67, for all invocations, in release mode: the paths they stand for and the directory "static/included", which is
    never emptied; [None]: an invocation panicked and the compilation fails. *)
Fixpoint include_static (public : bytes) (files : list (bytes * bytes)) (inc : dir) : option (list bytes) * dir :=
  match files with
  | [] => (Some [], inc)
  | (n, c) :: t =>
      match save_with_hash n c inc with
      | None => (None, inc)
      | Some (h, inc') =>
          match include_static public t inc' with
          | (Some urls, inc'') => (Some (public_to public h :: urls), inc'')
          | (None, inc'') => (None, inc'')
          end
      end
  end.

(** commons/models.rs:4-8 *)
Record index := Index { run_js : bytes; wasm : bytes }.

Section Build.
  (** BR 107: [serde_json::to_string_pretty] of the index (JSON texts are C71-C74). *)
  Variable index_text : index -> bytes.

  (** BR 45-46, 63-125: from the cleaned destination and "static/included"; [None] is a panic of [save_with_hash]. *)
  Definition write_dest (public : bytes) (p : project) (inc : dir) : option (index * dir) :=
    match save_with_hash (str "wasm_run.js") (p_js p) [] with
    | None => None
    | Some (js, d1) =>
        let d2 := match p_map p with
                  | Some m => save (str "wasm_run.js.map") (replace (str "wasm_run.js") js m) d1
                  | None => d1
                  end in
        let file := p_package p ++ str ".wasm" in
        let r := match p_opt p with
                 | Some o => match save_with_hash file o (save file o d2) with
                             | Some (h, d3) => Some (h, remove file d3)
                             | None => None
                             end
                 | None => save_with_hash file (p_wasm p) d2
                 end in
        match r with
        | None => None
        | Some (w, d3) =>
            let i := Index (public_to public js) (public_to public w) in
            let d4 := save (str "index.json") (index_text i) d3 in
            Some (i, fold_left (fun d f => save (fst f) (snd f) d) inc d4)
        end
    end.

  (** BR 21-125 (with [cargo build] expanding the macros, BR 54): the paths of the static files, the index and the destination,
      and what is in "static/included" afterwards. *)
  Definition build (public : bytes) (p : project) (inc : dir) : option (list bytes * index * dir) * dir :=
    match include_static public (p_static p) inc with
    | (None, inc') => (None, inc')
    | (Some urls, inc') =>
        match write_dest public p inc' with
        | Some (i, d) => (Some (urls, i, d), inc')
        | None => (None, inc')
        end
    end.

  (** ** Serving *)

  (** [percent_decode] (crate percent-encoding), used by [ServeDir] (tower-http): other uses of "%" are kept. *)
  Fixpoint percent_decode (s : bytes) : bytes :=
    match s with
    | [] => []
    | c :: t =>
        if c =? 37 then
          match t with
          | a :: b :: u => match hex_value a, hex_value b with
                           | Some x, Some y => (16 * x + y) :: percent_decode u
                           | _, _ => c :: percent_decode t
                           end
          | _ => c :: percent_decode t
          end
        else c :: percent_decode t
    end.
  (** SR 46-53 with mount_path.rs:22-25, 35-37: the file a path of a request stands for is looked for below the directory part of
      the wasm's path; [None] is a response with status 404.  Simplified: a path that is not below the mount point is answered
      by the application, not here. *)
  Definition serve (i : index) (d : dir) (path : bytes) : option bytes :=
    match get_base_dir (wasm i) with
    | None => None
    | Some root => match strip_prefix (root ++ [slash]) path with
                   | Some rest => content d (percent_decode rest)
                   | None => None
                   end
    end.

  (** ** Browsers *)

  (** URL standard 1.3: the path percent-encode set, for bytes. *)
  Definition path_escaped (b : N) : bool :=
    (b <? 33) || (126 <? b) || existsb (N.eqb b) [34; 35; 60; 62; 63; 94; 96; 123; 125].
  (** URL standard 4.4: C0 controls and spaces at both ends of an address are removed. *)
  Fixpoint trim (s : bytes) : bytes := match s with c :: t => if c <? 33 then trim t else s | [] => [] end.
  (** URL standard 4.4: the path ends before "?" or "#". *)
  Fixpoint until_query (s : bytes) : bytes :=
    match s with c :: t => if (c =? 63) || (c =? 35) then [] else c :: until_query t | [] => [] end.
  (** URL standard 4.4: the path requested for an address that starts with one "/".  Simplified: segments "." and ".." are kept,
      and an address that does not start so is not understood (its path is requested as it is). *)
  Definition request_path (address : bytes) : bytes :=
    let a1 := rev (trim (rev (trim address))) in
    let a2 := filter (fun b => negb ((b =? 9) || (b =? 10) || (b =? 13))) a1 in
    flat_map (fun b => if b =? 92 then [slash] else if path_escaped b then escape b else [b]) (until_query a2).

  (** The browser's cache, the server and the clock (in seconds): what is in the cache is an address, the response ([None]: 404) and
      the time it was received. *)
  Record world := World { w_inc : dir; w_built : option (list bytes * index * dir); w_cache : list (bytes * (option bytes * N)); w_now : N }.

  (** SR 234-240: responses of the static directory, found or not, may be used for 86400 seconds. *)
  Definition max_age : N := 86400.
  (** RFC 9111, 4: a stored response that is still fresh is used without asking the server. *)
  Definition cached (path : bytes) (w : world) : option (option bytes) :=
    match find (fun e => if list_eq_dec N.eq_dec path (fst e) then true else false) (w_cache w) with
    | Some (_, (r, t)) => if w_now w <? t + max_age then Some r else None
    | None => None
    end.
  (** The page loads a file; without a build the server does not start (mount_path.rs:49-57) and nothing is stored. *)
  Definition get (address : bytes) (w : world) : option bytes * world :=
    let path := request_path address in
    match cached path w with
    | Some r => (r, w)
    | None => match w_built w with
              | None => (None, w)
              | Some (_, i, d) => let r := serve i d path in
                                  (r, World (w_inc w) (w_built w) ((path, (r, w_now w)) :: w_cache w) (w_now w))
              end
    end.
  (** What happens: a build (the server is started again, also with what an incomplete build left: nothing), a request of a
      page, time. *)
  Inductive event := EBuild (public : bytes) (p : project) | EGet (address : bytes) | ETime (seconds : N).
  (** One event (BR 21-125, SR 25-73). *)
  Definition happen (w : world) (e : event) : world :=
    match e with
    | EBuild public p => let '(r, inc) := build public p (w_inc w) in World inc r (w_cache w) (w_now w)
    | EGet a => snd (get a w)
    | ETime s => World (w_inc w) (w_built w) (w_cache w) (w_now w + s)
    end.
  (** Everything so far, from the beginning. *)
  Definition play (es : list event) : world := fold_left happen es (World [] None [] 0).
End Build.
