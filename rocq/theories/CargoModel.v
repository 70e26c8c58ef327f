(** Which program [vertigo build] takes.

    Source: CW = /repo/crates/vertigo-cli/src/build/cargo_workspace.rs, BR = /repo/crates/vertigo-cli/src/build/build_run.rs,
    CB = /repo/crates/vertigo-cli/src/build/cargo_build.rs, FT = /repo/crates/vertigo-cli/src/build/find_target.rs,
    WP = /repo/crates/vertigo-cli/src/build/wasm_path.rs.  What is written besides the program (wasm_run.js, index.json, included files) is in
    StaticModel.v and left out here.  Paths are absolute and lists of names; relative ones continue the current directory; there are no
    symbolic links. *)
From Coq Require Import String List NArith ZArith Bool.
From Verif Require Import CodecModel DomWire StaticModel.
Import ListNotations.
Local Open Scope string_scope.
Local Open Scope list_scope.

(** ** The workspace *)

(** A path. *)
Definition path := list bytes.
(** CW 14-25: [Package]; its targets by their kinds. *)
Record package := Package { pk_id : bytes; pk_name : bytes; pk_manifest : path; pk_kinds : list (list bytes) }.
(** CW 6-12: [Workspace] *)
Record workspace := Workspace { ws_packages : list package; ws_target : path; ws_members : list bytes; ws_root : path }.
(** Equality of texts (CW 34, 46, 63). *)
Definition teq (a b : bytes) : bool := if list_eq_dec N.eq_dec a b then true else false.
(** CW 60-66: [is_cdylib] *)
Definition is_cdylib (p : package) : bool := existsb (existsb (teq (str "cdylib"))) (pk_kinds p).
(** CW 68-83: [get_workspace]: of what [cargo metadata] gives, the packages of the workspace are kept. *)
Definition get_workspace (m : workspace) : workspace :=
  Workspace (filter (fun p => existsb (teq (pk_id p)) (ws_members m)) (ws_packages m)) (ws_target m) (ws_members m) (ws_root m).
(** CW 29-41, from one member on. *)
Fixpoint infer (packages : list package) (members : list bytes) : option bytes :=
  match members with
  | [] => None
  | id :: r =>
      match find (fun p => teq (pk_id p) id) packages with
      | Some p => if is_cdylib p then Some (pk_name p) else infer packages r
      | None => infer packages r
      end
  end.
(** CW 28-41: [infer_package_name] *)
Definition infer_package_name (w : workspace) : option bytes := infer (ws_packages w) (ws_members w).
(** CW 43-49: [find_package_path]: the directory of the manifest. *)
Definition find_package_path (w : workspace) (name : bytes) : option path :=
  match find (fun p => teq (pk_name p) name) (ws_packages w) with
  | Some p => match pk_manifest p with [] => None | l => Some (removelast l) end
  | None => None
  end.

(** ** Files *)

(** The files there are. *)
Definition files := path -> option bytes.
(** Equality of paths. *)
Definition peq (a b : path) : bool := if list_eq_dec (list_eq_dec N.eq_dec) a b then true else false.
(** [p] is [d] or inside of it. *)
Fixpoint below (d p : path) : bool :=
  match d, p with [], _ => true | a :: d', b :: p' => teq a b && below d' p' | _ :: _, [] => false end.
(** WP 72-84: [remove_dir_all] *)
Definition remove_dir (d : path) (f : files) : files := fun p => if below d p then None else f p.
(** WP 95-99: [remove_file] *)
Definition remove_one (q : path) (f : files) : files := fun p => if peq q p then None else f p.
(** WP 43-49: [save] *)
Definition put (q : path) (c : bytes) (f : files) : files := fun p => if peq q p then Some c else f p.

(** [package_name.replace('-', "_")] (FT 6, 14). *)
Definition underscores (n : bytes) : bytes := map (fun c => if (c =? 45)%N then 95%N else c) n.
(** CB 7-8, FT 8, 16: where cargo puts what it builds for this target and mode. *)
Definition release : path := [str "wasm32-unknown-unknown"; str "release"].
(** FT 5-11: [find_wasm_in_target]: relative to the current directory. *)
Definition find_wasm (cwd : path) (name : bytes) : path := cwd ++ [str "target"] ++ release ++ [underscores name ++ str ".wasm"].
(** FT 13-19: [find_package_rlib_in_target] *)
Definition find_rlib (cwd : path) (name : bytes) : path :=
  cwd ++ [str "target"] ++ release ++ [str "deps"; str "lib" ++ underscores name ++ str ".rlib"].

(** ** The build *)

(** What [cargo build --release --target wasm32-unknown-unknown --package name] (CB 17-26) does, by the book of Cargo: outside of the directory of
    targets nothing; if it succeeds, the program of the package is in there, under the name of its library. *)
Definition cargo (w : workspace) (library : bytes -> bytes) (program : bytes -> bytes) (name : bytes) (f : files) (ok : bool) (f' : files) : Prop :=
  (forall p, below (ws_target w) p = false -> f' p = f p) /\
  (ok = true -> f' (ws_target w ++ release ++ [library name ++ str ".wasm"]) = Some (program name)).

(** What became of a build (BR 21-125). *)
Inductive outcome := Failed (code : Z) | Panicked | Done (wasm : bytes).
(** BR 21-125: [asked] is the name given on the command line; [opt] what wasm-opt makes of a program, if it is to run and succeeds (BR 88-98).
    The program is saved in [dest] under its hashed name, which goes into index.json (BR 102-109). *)
Inductive build (w : workspace) (library program : bytes -> bytes) (opt : bytes -> option bytes) (cwd dest : path) (asked : option bytes) (f : files)
  : outcome -> files -> Prop :=
| build_none : asked = None -> infer_package_name w = None -> build w library program opt cwd dest asked f (Failed (-1)) f
| build_error name f1 : match asked with Some n => Some n | None => infer_package_name w end = Some name ->
    cargo w library program name (remove_one (find_rlib cwd name) (remove_dir (cwd ++ dest) f)) false f1 ->
    build w library program opt cwd dest asked f (Failed (-2)) f1
| build_panic name f1 : match asked with Some n => Some n | None => infer_package_name w end = Some name ->
    cargo w library program name (remove_one (find_rlib cwd name) (remove_dir (cwd ++ dest) f)) true f1 ->
    f1 (find_wasm cwd name) = None -> build w library program opt cwd dest asked f Panicked f1
| build_done name f1 c h : match asked with Some n => Some n | None => infer_package_name w end = Some name ->
    cargo w library program name (remove_one (find_rlib cwd name) (remove_dir (cwd ++ dest) f)) true f1 ->
    f1 (find_wasm cwd name) = Some c ->
    hashed_name (underscores name ++ str ".wasm") (match opt c with Some o => o | None => c end) = Some h ->
    build w library program opt cwd dest asked f (Done h) (put (cwd ++ dest ++ [h]) (match opt c with Some o => o | None => c end) f1).
