(** The macros [window!] and [document!].

    Source: AA = /repo/crates/vertigo-macro/src/api_access.rs, ML = /repo/crates/vertigo-macro/src/lib.rs,
    VS = /repo/crates/vertigo/src/driver_module/js_value/js_value_struct.rs.  What the macro expands to is the path of [DomAccess] that
    BridgeModel.v sends; an error of the compiler is [None]. *)
From Coq Require Import String List NArith ZArith Bool.
From Verif Require Import CodecModel DomWire BridgeModel JsonModel.
Import ListNotations.
Local Open Scope string_scope.
Local Open Scope list_scope.
Local Open Scope N_scope.

(** ** The literal *)

(** A string literal as it is written (AA 22): between quotes, or raw, with so many hashes.  Literals with a suffix are left out. *)
Inductive literal := Cooked (body : bytes) | Raw (hashes : nat) (body : bytes).
(** [param_lit.token().to_string()] (AA 22): the source text. *)
Definition token (l : literal) : bytes :=
  match l with
  | Cooked b => 34 :: b ++ [34]
  | Raw n b => 114 :: repeat 35 n ++ 34 :: b ++ 34 :: repeat 35 n
  end.
(** Quotes at the start (AA 23). *)
Fixpoint trim_front (s : bytes) : bytes := match s with c :: t => if c =? 34 then trim_front t else s | [] => [] end.
(** [trim_matches] (AA 23): quotes at both ends. *)
Definition trim_matches (s : bytes) : bytes := rev (trim_front (rev (trim_front s))).
(** [strip_suffix("()")] (AA 24). *)
Definition strip_call (s : bytes) : option bytes :=
  match rev s with 41 :: 40 :: t => Some (rev t) | _ => None end.

(** ** The arguments *)

(** The integer types with [impl_from!] (VS 367-377). *)
Inductive int_type := I8 | I16 | I32 | I64 | ISize | U8 | U16 | U32 | U64 | USize.
(** A Rust value given as an argument: what [JsValue::from] is implemented for (VS 357-435).  A [HashMap] is given by its entries, as are
    vectors of pairs; the order of a [HashMap] is kept as that of the list. *)
Inductive arg :=
| AInt (t : int_type) (z : Z) | AFloat (bits : N) | AText (s : bytes) | ABool (b : bool) | AObject (m : list (bytes * jsval)) | AValue (v : jsval).
(** [JsValue::from] (VS 357-435; a [JsValue] is itself, by the reflexive impl of core). *)
Definition from_arg (a : arg) : jsval :=
  match a with
  | AInt (I8 | I16 | I32) z => VI32 z
  | AInt (I64 | ISize) z => VI64 z
  | AInt (U8 | U16 | U32) z => VU32 (Z.to_N z)
  | AInt (U64 | USize) z => VU64 (Z.to_N z)
  | AFloat b => VF64 b
  | AText s => VString s
  | ABool b => if b then VTrue else VFalse
  | AObject m => VObject (hash_from m)
  | AValue v => v
  end.

(** ** The macro *)

(** A parameter of the macro (AA 10-18): a literal string, or any other expression with its value. *)
Inductive param := PString (l : literal) | POther (a : arg).
(** The value of a parameter that is an argument (AA 29): [JsValue::from(#arg)].  [unescape] gives the text of a literal. *)
Definition argument (unescape : literal -> bytes) (p : param) : jsval :=
  match p with PString l => from_arg (AText (unescape l)) | POther a => from_arg a end.
(** The roots (ML 132-140). *)
Inductive global := GWindow | GDocument.
(** ML 133, 139 *)
Definition root_name (g : global) : bytes := match g with GWindow => str "window" | GDocument => str "document" end.
(** [api_access_inner] (AA 6-67). *)
Definition expand (unescape : literal -> bytes) (g : global) (params : list param) : option (list jsval) :=
  match params with
  | PString l :: rest =>
      let s := trim_matches (token l) in
      match strip_call s with
      | Some f => Some [b_root (root_name g); b_call f (map (argument unescape) rest)]
      | None => match rest with [] => Some [b_root (root_name g); BridgeModel.b_get s] | _ => None end
      end
  | _ => None
  end.
