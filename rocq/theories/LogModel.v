(** Log records of the application: the logger that [start_app] installs, the console that shows what it is given, and
    the log of the server.

    Source: /repo/crates/vertigo/src/driver_module/init_env.rs (IE/ below),
    /repo/crates/vertigo/src/driver_module/api/api_import.rs (A/ below),
    /repo/crates/vertigo-cli/src/serve/wasm/wasm_instance.rs (W/ below). *)
From Coq Require Import String List NArith Bool.
From Verif Require Import CodecModel DomWire FetchModel ApiModel.
Import ListNotations.
Local Open Scope string_scope.
Local Open Scope list_scope.
Local Open Scope N_scope.

(** The levels of the crate log (IE/init_env.rs:95-113), from the most to the least important. *)
Inductive severity := SError | SWarn | SInfo | SDebug | STrace.

(** [Level as Display] (IE/init_env.rs:83). *)
Definition severity_name (l : severity) : bytes :=
  match l with
  | SError => str "ERROR" | SWarn => str "WARN" | SInfo => str "INFO" | SDebug => str "DEBUG" | STrace => str "TRACE"
  end.

(** A record of the crate log as IE/init_env.rs:76-91 reads it; [e_args] is the text of the message. *)
Record entry := Entry { e_level : severity; e_target : bytes; e_file : option bytes; e_line : option N; e_args : bytes }.

(** IE/init_env.rs:22-28, 133: records above the maximal level, [Debug], do not get to the logger. *)
Definition passes (l : severity) : bool := match l with STrace => false | _ => true end.

(** IE/init_env.rs:84-87: where the record comes from. *)
Definition place (e : entry) : bytes :=
  (match e_file e with Some f => f | None => e_target e end) ++ str ":" ++
  (match e_line e with Some n => dec n | None => str "[Unknown]" end).

(** IE/init_env.rs:81-91; the separator (79) is a space. *)
Definition format_string (e : entry) : bytes :=
  str "%c" ++ severity_name (e_level e) ++ str "%c " ++ place e ++ str "%c" ++ str " " ++ e_args e.

(** IE/init_env.rs:41-53: the style of the level, of the place and of the message. *)
Definition level_style (l : severity) : bytes :=
  str "color: white; padding: 0 3px; background:" ++
  match l with
  | STrace => str " gray;" | SDebug => str " blue;" | SInfo => str " green;" | SWarn => str " orange;" | SError => str " darkred;"
  end.
(** IE/init_env.rs:50 *)
Definition place_style : bytes := str "font-weight: bold; color: inherit".
(** IE/init_env.rs:51 *)
Definition args_style : bytes := str "background: inherit; color: inherit".

(** IE/init_env.rs:95-113 with A/api_import.rs:89-107: which function of the console. *)
Definition console_level (l : severity) : ApiModel.level :=
  match l with STrace => LDebug | SDebug => LLog | SInfo => LInfo | SWarn => LWarn | SError => LError end.

(** IE/init_env.rs:66-115: the call made for a record ([enabled] is [true] without a prefix of modules, 24-27). *)
Definition logged (e : entry) : option call :=
  if passes (e_level e)
  then Some (CConsole (console_level (e_level e)) (format_string e) (level_style (e_level e)) place_style args_style)
  else None.

(** ** The console of a browser (Console Standard, 2.2.1 Formatter; consulted by A/api_import.rs:73-87).

    The first argument is read from left to right.  [%c] ends the text so far and gives the style of what follows;
    [%s %d %i %f %o %O] are replaced by a text made of the next argument ([show]; it is not read again, which is a
    simplification); without an argument left the two characters stay.  [collapse]: some browsers show [%%] as [%],
    which the standard does not say.  The result is the runs of text with their styles. *)
Section Console.
  Variable collapse : bool.
  Variable show : N -> bytes -> bytes.

  (** The characters after [%] that the standard (table in 2.2.1) replaces; A/api_import.rs:73-87. *)
  Definition specifier (c : N) : bool := existsb (N.eqb c) (str "sdifoO").

  (** The runs, given the style and the text so far (Console Standard 2.2.1; A/api_import.rs:73-87). *)
  Fixpoint runs_of (style acc : bytes) (target : bytes) (args : list bytes) : list (bytes * bytes) :=
    match target with
    | [] => [(style, acc)]
    | x :: t0 =>
        match t0 with
        | c :: t =>
            if x =? 37 then
              if (c =? 37) && collapse then runs_of style (acc ++ [37]) t args
              else if c =? 99 then
                match args with
                | a :: rest => (style, acc) :: runs_of a [] t rest
                | [] => runs_of style (acc ++ [x; c]) t args
                end
              else if specifier c then
                match args with
                | a :: rest => runs_of style (acc ++ show c a) t rest
                | [] => runs_of style (acc ++ [x; c]) t args
                end
              else runs_of style (acc ++ [x]) t0 args
            else runs_of style (acc ++ [x]) t0 args
        | [] => runs_of style (acc ++ [x]) t0 args
        end
    end.

  (** What is to be seen (A/api_import.rs:73-87): the runs that are not empty. *)
  Definition console_shows (target : bytes) (args : list bytes) : list (bytes * bytes) :=
    filter (fun r => match snd r with [] => false | _ => true end) (runs_of [] [] target args).
End Console.

(** W/wasm_instance.rs:87-94 with W/decode_commands.rs:115-137: the line of the server's log for a record. *)
Definition server_line (e : entry) : option (severity * bytes) :=
  match logged e with
  | Some c =>
      match dispatch (message c) with
      | HLog ty msg => Some (if bytes_eqb ty (str "error") then SWarn else SInfo, msg)
      | _ => None
      end
  | None => None
  end.
