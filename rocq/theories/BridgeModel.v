(** Model of the way from Rust into JavaScript and back: the builder [DomAccess], the interpreter of its commands in
    the browser and the conversion between JavaScript values and the values of the codec.

    API/ abbreviates crates/vertigo/src/driver_module/api/, JS/ crates/vertigo/src/driver_module/src_js/.
    A JavaScript string without lone surrogates is its UTF-8 bytes, a number its 64-bit pattern. *)
From Coq Require Import String List NArith ZArith Bool.
From Coq Require Import DecimalString.
From Coq Require Decimal.
From Verif Require Import CodecModel CodecJsModel FloatModel DomWire.
Import ListNotations.
Local Open Scope string_scope.
Local Open Scope list_scope.
Local Open Scope N_scope.

(** ** JavaScript values *)

(** A value as the conversions of JS/jsvalue.ts see it.  [KObj]: a plain object with its own enumerable entries.
    [KHost]: an object of the browser (window, document, a node) or an instance of a class of JS/, taken to have no
    own enumerable properties.  [KFun]: everything whose [typeof] is "function" or "symbol". *)
Inductive jval : Type :=
| KStr (s : bytes)
| KBool (b : bool)
| KUndef
| KNull
| KNum (bits : N)
| KBig (z : Z)
| KBytes (b : bytes)
| KArr (l : list jval)
| KObj (m : list (bytes * jval))
| KHost (r : N)
| KFun (r : N).

(** [value | 0] (ECMAScript ToInt32): truncated, modulo 2^32, signed; 0 for NaN and infinities. *)
Definition to_int32 (bits : N) : Z :=
  match f64_trunc bits with
  | FInt neg m =>
      let z := if neg then (- Z.of_N m)%Z else Z.of_N m in
      ((z + 2147483648) mod 4294967296 - 2147483648)%Z
  | _ => 0%Z
  end.

(** [value === z] for an integer [z]: the two zeros are equal. *)
Definition num_is (bits : N) (z : Z) : bool := (f64_of_Z z =? bits) || ((z =? 0)%Z && (bits =? p63)).

(** The key of an array element ([Object.entries] of an array or a typed array). *)
Definition index_key (i : N) : bytes := str (NilZero.string_of_uint (N.to_uint i)).

(** [Object.entries] of an array *)
Fixpoint entries_from (i : N) (l : list jval) : list (bytes * jval) :=
  match l with [] => [] | x :: t => (index_key i, x) :: entries_from (i + 1) t end.

(** All or nothing: [map] with a function that may throw. *)
Fixpoint all_some {A} (l : list (option A)) : option (list A) :=
  match l with
  | [] => Some []
  | x :: t => match x with None => None | Some a => match all_some t with None => None | Some r => Some (a :: r) end end
  end.

(** [const result = {}; for (const [name, value] of entries) result[name] = ...] *)
Definition build_obj {A} (l : list (bytes * A)) : list (bytes * A) :=
  fold_left (fun acc e => js_assign (fst e) (snd e) acc) l [].

(** the elements of a typed array seen as an object: numbers *)
Definition byte_entries (b : bytes) : list (bytes * jsjson) :=
  map (fun e => (fst e, match snd e with KNum v => SNum v | _ => SNull end))
      (entries_from 0 (map (fun x => KNum (f64_of_N x)) b)).

(** convertToJsJson (JS/jsvalue.ts:488-509); [None] is a thrown error. *)
Fixpoint conv_json (v : jval) : option jsjson :=
  match v with
  | KBool b => Some (SBool b)
  | KNull => Some SNull
  | KNum n => Some (SNum n)
  | KStr s => Some (SStr s)
  | KArr l => match all_some (map conv_json l) with Some r => Some (SArr r) | None => None end
  | KBytes b => Some (SObj (build_obj (byte_entries b)))
  | KObj m =>
      match all_some (map (fun e => match conv_json (snd e) with Some x => Some (fst e, x) | None => None end) m) with
      | Some r => Some (SObj (build_obj r))
      | None => None
      end
  | KHost _ => Some (SObj [])
  | KUndef | KBig _ | KFun _ => None
  end.

(** convertToJsValue (JS/jsvalue.ts:406-485); [None] is a thrown error.  Arrays have [typeof] "object", so the branch
    for arrays (lines 471-481) is never reached. *)
Fixpoint conv_val (v : jval) : option jsv :=
  match v with
  | KStr s => Some (SVStr s)
  | KBool b => Some (SVBool b)
  | KUndef => Some SVUndef
  | KNull => Some SVNull
  | KNum n =>
      let z := to_int32 n in
      if num_is n z
      then (if ((- 2147483648 <=? z) && (z <? 2147483648))%Z then Some (SI32 z) else Some (SI64 z))
      else Some (SF64 n)
  | KBig z => Some (SI64 z)
  | KBytes b => Some (SVBytes b)
  | KArr l =>
      match conv_json v with
      | Some j => Some (SVJson j)
      | None =>
          match all_some (map conv_val l) with
          | Some r => Some (SVObj (build_obj (combine (map fst (entries_from 0 l)) r)))
          | None => None
          end
      end
  | KObj m =>
      match conv_json v with
      | Some j => Some (SVJson j)
      | None =>
          match all_some (map (fun e => match conv_val (snd e) with Some x => Some (fst e, x) | None => None end) m) with
          | Some r => Some (SVObj (build_obj r))
          | None => None
          end
      end
  | KHost _ => Some (SVJson (SObj []))
  | KFun _ => None
  end.

(** A JsJsonType (JS/jsjson.ts:14-24) is itself a JavaScript value. *)
Fixpoint jval_of_json (j : jsjson) : jval :=
  match j with
  | SBool b => KBool b
  | SNull => KNull
  | SNum n => KNum n
  | SStr s => KStr s
  | SArr l => KArr (map jval_of_json l)
  | SObj m => KObj (map (fun e => (fst e, jval_of_json (snd e))) m)
  end.

(** convertFromJsValue (JS/jsvalue.ts:345-403) *)
Fixpoint conv_from (v : jsv) : jval :=
  match v with
  | SVBool b => KBool b
  | SVNull => KNull
  | SVUndef => KUndef
  | SVBytes b => KBytes b
  | SVStr s => KStr s
  | SVArr l => KArr (map conv_from l)
  | SU32 n => KNum (f64_of_N n)
  | SI32 z => KNum (f64_of_Z z)
  | SU64 n => KBig (Z.of_N n)
  | SI64 z => KBig z
  | SF64 n => KNum n
  | SVObj m => KObj (build_obj (map (fun e => (fst e, conv_from (snd e))) m))
  | SVJson j => jval_of_json j
  end.

(** A JsValueType (JS/jsvalue.ts:25-42) as the JavaScript value it is: numbers, objects and JSON are objects with the
    properties [type] and [value] (constants JS/jsvalue.ts:6-23). *)
Definition tagged (t : N) (v : jval) : jval := KObj [(str "type", KNum (f64_of_N t)); (str "value", v)].
(** JS/jsvalue.ts:25-42, continued: the values themselves. *)
Fixpoint raw (v : jsv) : jval :=
  match v with
  | SVBool b => KBool b
  | SVNull => KNull
  | SVUndef => KUndef
  | SVBytes b => KBytes b
  | SVStr s => KStr s
  | SVArr l => KArr (map raw l)
  | SU32 n => tagged 1 (KNum (f64_of_N n))
  | SI32 z => tagged 2 (KNum (f64_of_Z z))
  | SU64 n => tagged 3 (KBig (Z.of_N n))
  | SI64 z => tagged 4 (KBig z)
  | SF64 n => tagged 5 (KNum n)
  | SVObj m => tagged 13 (KObj (map (fun e => (fst e, raw (snd e))) m))
  | SVJson j => tagged 14 (jval_of_json j)
  end.

(** ** The builder: API/api_dom_access.rs *)

(** API/api_dom_access.rs:27-31 *)
Definition b_api : jsval := VList [VString (str "api")].
(** API/api_dom_access.rs:34-41: the id of the element is sent as a u64. *)
Definition b_element (id : N) : jsval := VList [VString (str "root"); VU64 id].
(** API/api_dom_access.rs:44-51 *)
Definition b_root (name : bytes) : jsval := VList [VString (str "root"); VString name].
(** API/api_dom_access.rs:54-59 *)
Definition b_get (name : bytes) : jsval := VList [VString (str "get"); VString name].
(** API/api_dom_access.rs:62-70 *)
Definition b_set (name : bytes) (v : jsval) : jsval := VList [VString (str "set"); VString name; v].
(** API/api_dom_access.rs:73-80 *)
Definition b_call (name : bytes) (params : list jsval) : jsval :=
  VList (VString (str "call") :: VString name :: params).
(** API/api_dom_access.rs:92-99 *)
Definition b_get_props (props : list bytes) : jsval := VList (VString (str "get_props") :: map VString props).

(** ** The interpreter: JS/js_node.ts and JS/wasm_module.ts *)
Section Engine.
  (** The JavaScript engine: its state, reading a property, assigning one and calling a method; [None] is an exception
      ([ecall] may have had effects before).  [enode]: MapNodes.get_any_option (JS/api_browser/dom/map_nodes.ts:29-43);
      [api], [window], [document]: the global objects (JS/wasm_module.ts:45, JS/js_node.ts:89-95). *)
  Variable S : Type.
  Variable eget : S -> jval -> bytes -> option jval.
  Variable eset : S -> jval -> bytes -> jval -> option S.
  Variable ecall : S -> jval -> bytes -> list jval -> S * option jval.
  Variable enode : S -> Z -> option jval.
  Variables api window document : jval.

  (** What a step returns: [null], a new pointer, or an exception that is not caught. *)
  Inductive nres := NNull | NOk (v : jval) | NThrow.

  (** JS/guard.ts:12-18 *)
  Definition is_number (v : jsv) : option Z :=
    match v with SI32 z => Some z | SU32 n => Some (Z.of_N n) | _ => None end.

  (** JS/js_node.ts:76-83 *)
  Definition next_api (args : list jsv) : nres := match args with [] => NOk api | _ => NNull end.

  (** JS/js_node.ts:85-116 *)
  Definition next_root (s : S) (args : list jsv) : nres :=
    match args with
    | [SVStr name] =>
        if bytes_eqb name (str "window") then NOk window
        else if bytes_eqb name (str "document") then NOk document else NNull
    | [v] =>
        match is_number v with
        | Some id => match enode s id with Some n => NOk n | None => NNull end
        | None => NNull
        end
    | _ => NNull
    end.

  (** JS/js_node.ts:21-34, 118-127 *)
  Definition next_get (s : S) (wsk : jval) (args : list jsv) : nres :=
    match args with
    | [SVStr property] => match eget s wsk property with Some v => NOk v | None => NNull end
    | _ => NNull
    end.

  (** JS/js_node.ts:129-149; without a second argument the value is [undefined]. *)
  Definition next_set (s : S) (wsk : jval) (args : list jsv) : S * nres :=
    match args with
    | [SVStr property; value] =>
        match eset s wsk property (conv_from value) with Some s1 => (s1, NOk KUndef) | None => (s, NNull) end
    | [SVStr property] =>
        match eset s wsk property KUndef with Some s1 => (s1, NOk KUndef) | None => (s, NNull) end
    | _ => (s, NNull)
    end.

  (** JS/js_node.ts:151-172 *)
  Definition next_call (s : S) (wsk : jval) (args : list jsv) : S * nres :=
    match args with
    | SVStr property :: params =>
        let '(s1, r) := ecall s wsk property (map conv_from params) in
        (s1, match r with Some v => NOk v | None => NNull end)
    | _ => (s, NNull)
    end.

  (** JS/js_node.ts:174-192; [toValue] (36-38) is not within a [try]. *)
  Fixpoint next_get_props (s : S) (wsk : jval) (args : list jsv) (result : list (bytes * jval)) : nres :=
    match args with
    | [] => NOk (KObj result)
    | SVStr property :: t =>
        match eget s wsk property with
        | None => NNull
        | Some v =>
            match conv_val v with
            | None => NThrow
            | Some x => next_get_props s wsk t (js_assign property (raw x) result)
            end
        end
    | _ => NNull
    end.

  (** JS/js_node.ts:40-74 *)
  Definition next (s : S) (wsk : jval) (command : jsv) : S * nres :=
    match command with
    | SVArr (SVStr name :: args) =>
        if bytes_eqb name (str "api") then (s, next_api args)
        else if bytes_eqb name (str "root") then (s, next_root s args)
        else if bytes_eqb name (str "get") then (s, next_get s wsk args)
        else if bytes_eqb name (str "set") then next_set s wsk args
        else if bytes_eqb name (str "call") then next_call s wsk args
        else if bytes_eqb name (str "get_props") then (s, next_get_props s wsk args [])
        else (s, NNull)
    | _ => (s, NNull)
    end.

  (** JS/wasm_module.ts:64-72: the loop over the path. *)
  Fixpoint walk (s : S) (wsk : jval) (path : list jsv) : S * nres :=
    match path with
    | [] => (s, NOk wsk)
    | c :: t => match next s wsk c with (s1, NOk w) => walk s1 w t | other => other end
    end.

  (** What the import returns to the application: pointer 0, a block, or an exception. *)
  Inductive dres := DZero | DBlock (b : bytes) | DThrow.

  (** JS/wasm_module.ts:58-79 with JS/wasm_init.ts:58-60: [dom_access]. *)
  Definition dom_access (lossy : bytes -> bytes) (s : S) (block : bytes) : S * dres :=
    match js_value_decode lossy block with
    | ROk (SVArr path) =>
        match walk s KNull path with
        | (s1, NNull) => (s1, DZero)
        | (s1, NThrow) => (s1, DThrow)
        | (s1, NOk v) =>
            match conv_val v with
            | None => (s1, DThrow)
            | Some x =>
                match js_save_to_buffer x with
                | None => (s1, DThrow)
                | Some None => (s1, DZero)
                | Some (Some b) => (s1, DBlock b)
                end
            end
        end
    | ROk _ => (s, DZero)
    | _ => (s, DThrow)
    end.

  (** The result of [fetch]: a value, a Rust panic, or an exception coming out of the import. *)
  Inductive fres := FVal (v : jsval) | FPanic | FThrow.

  (** API/arguments.rs:26-45: [get_by_ptr] on what the import returned (see StoreModel for the table of blocks). *)
  Definition get_by_ptr (d : dres) : fres :=
    match d with
    | DZero => FVal VUndefined
    | DBlock b => match from_block b with ROk v => FVal v | RErr => FVal VUndefined | _ => FPanic end
    | DThrow => FThrow
    end.

  (** API/api_dom_access.rs:114-120: [fetch] *)
  Definition fetch (lossy : bytes -> bytes) (s : S) (builder : list jsval) : S * fres :=
    match to_snapshot (VList builder) with
    | None => (s, FPanic)
    | Some blk => let '(s1, d) := dom_access lossy s (w_out blk) in (s1, get_by_ptr d)
    end.
End Engine.
