(** [vertigo new]: a project from the template.

    Source: NW = /repo/crates/vertigo-cli/src/new/mod.rs, /repo/crates/vertigo-cli/src/new/template/Cargo.toml_,
    /repo/crates/vertigo-cli/src/new/template/.gitignore and /repo/crates/vertigo-cli/src/new/template/src/lib.rs (all of them).  Paths are those of CargoModel.v, with what is there: a file or a
    directory.  The name of the package is one name of a path (no slashes, not "." and ".."); errors of the disk are left out. *)
From Coq Require Import String List NArith ZArith Bool.
From Verif Require Import CodecModel DomWire SmallModel CargoModel.
Import ListNotations.
Local Open Scope string_scope.
Local Open Scope list_scope.
Local Open Scope N_scope.

(** new/template/Cargo.toml_:1-12 *)
Definition template_toml : bytes :=
  str "[package]" ++ [10] ++
  str "name = ""my_app""" ++ [10] ++
  str "version = ""0.1.0""" ++ [10] ++
  str "edition = ""2021""" ++ [10] ++
  str "" ++ [10] ++
  str "# See more keys and their definitions at https://doc.rust-lang.org/cargo/reference/manifest.html" ++ [10] ++
  str "" ++ [10] ++
  str "[lib]" ++ [10] ++
  str "crate-type = [""cdylib"", ""rlib""]" ++ [10] ++
  str "" ++ [10] ++
  str "[dependencies]" ++ [10] ++
  str "vertigo = ""0.6""" ++ [10].
(** new/template/src/lib.rs:1-14 *)
Definition template_lib : bytes :=
  str "use vertigo::{dom, main, DomNode, Value};" ++ [10] ++
  str "" ++ [10] ++
  str "#[main]" ++ [10] ++
  str "fn app() -> DomNode {" ++ [10] ++
  str "    let message = Value::new(""world"");" ++ [10] ++
  str "    dom! {" ++ [10] ++
  str "        <html>" ++ [10] ++
  str "            <head />" ++ [10] ++
  str "            <body>" ++ [10] ++
  str "                <div>""Hello "" {message}</div>" ++ [10] ++
  str "            </body>" ++ [10] ++
  str "        </html>" ++ [10] ++
  str "    }" ++ [10] ++
  str "}" ++ [10].
(** new/template/.gitignore:1-3 *)
Definition template_ignore : bytes :=
  str "/build" ++ [10] ++
  str "/target" ++ [10] ++
  str "Cargo.lock" ++ [10].

(** What is at a path. *)
Inductive entry := Dir | File (c : bytes).
(** A file system. *)
Definition disk := path -> option entry.
(** The path [d] and those above it. *)
Definition above (d : path) : list path := map (fun n => firstn n d) (seq 0 (S (length d))).
(** [fs::create_dir_all] (NW 31): [None] if one of the directories is a file. *)
Definition create_dir_all (d : path) (f : disk) : option disk :=
  if existsb (fun p => match f p with Some (File _) => true | _ => false end) (above d) then None
  else Some (fun p => if existsb (peq p) (above d) then Some Dir else f p).
(** [fs::write] (NW 60) into a directory that is there. *)
Definition write_file (q : path) (c : bytes) (f : disk) : disk := fun p => if peq q p then Some (File c) else f p.
(** [fs::remove_file] (NW 51). *)
Definition unlink (q : path) (f : disk) : disk := fun p => if peq q p then None else f p.
(** [TEMPLATE.extract] (NW 41): .gitignore, Cargo.toml_ and src/lib.rs. *)
Definition extract (d : path) (f : disk) : disk :=
  write_file (d ++ [str "src"; str "lib.rs"]) template_lib
    (fun p => if peq (d ++ [str "src"]) p then Some Dir else write_file (d ++ [str "Cargo.toml_"]) template_toml
      (write_file (d ++ [str ".gitignore"]) template_ignore f) p).

(** NW 14-70: [run]; [listed] says whether the directory can be read and has an entry (NW 20-28). *)
Definition run (listed : bool) (dest : path) (name : bytes) (f : disk) : Z * disk :=
  let target := dest ++ [name] in
  if listed then ((-1)%Z, f)
  else match create_dir_all target f with
       | None => ((-2)%Z, f)
       | Some f1 =>
           (0%Z, write_file (target ++ [str "Cargo.toml"]) (replace (str "my_app") name template_toml)
                   (unlink (target ++ [str "Cargo.toml_"]) (extract target f1)))
       end.
