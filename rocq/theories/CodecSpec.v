(** Specification vocabulary for the codec: which values are meant, and which JavaScript value a Rust value denotes.
    Nothing here refers to encoders or decoders. *)
From Coq Require Import List NArith ZArith Bool.
From Verif Require Import CodecModel CodecJsModel.
Import ListNotations.
Open Scope N_scope.

(** all members of a list / all values of a map satisfy P *)
Definition all {A} (P : A -> Prop) (l : list A) : Prop := fold_right (fun x acc => P x /\ acc) True l.

(** a Rust string: valid UTF-8 bytes *)
Definition rust_string (s : bytes) : Prop := all (fun b => b < 256) s /\ utf8_valid s = true.

(** JsJson values: well-formed strings, f64 bit patterns, maps with distinct keys. *)
Fixpoint json_ok (j : json) : Prop :=
  match j with
  | JTrue | JFalse | JNull => True
  | JString s => rust_string s
  | JNumber b => b < two64
  | JList l => all json_ok l
  | JObject m => NoDup (map fst m) /\ all (fun kv => rust_string (fst kv) /\ json_ok (snd kv)) m
  end.

(** no object in the value has 65536 keys or more *)
Fixpoint json_small (j : json) : Prop :=
  match j with
  | JList l => all json_small l
  | JObject m => len m < 65536 /\ all (fun kv => json_small (snd kv)) m
  | _ => True
  end.

(** size in bytes of the wire format, computed without overflow: one tag byte, 4 bytes per length, 2 per object count *)
Fixpoint json_total (j : json) : N :=
  match j with
  | JTrue | JFalse | JNull => 1
  | JString s => 5 + len s
  | JNumber _ => 9
  | JList l => 5 + fold_right (fun x acc => json_total x + acc) 0 l
  | JObject m => 3 + fold_right (fun kv acc => 4 + len (fst kv) + json_total (snd kv) + acc) 0 m
  end.

Fixpoint val_ok (v : jsval) : Prop :=
  match v with
  | VU32 n => n < two32
  | VI32 z => (- 2147483648 <= z < 2147483648)%Z
  | VU64 n => n < two64
  | VI64 z => (- 9223372036854775808 <= z < 9223372036854775808)%Z
  | VF64 b => b < two64
  | VTrue | VFalse | VNull | VUndefined => True
  | VVec b => all (fun x => x < 256) b
  | VString s => rust_string s
  | VList l => all val_ok l
  | VObject m => NoDup (map fst m) /\ all (fun kv => rust_string (fst kv) /\ val_ok (snd kv)) m
  | VJson j => json_ok j
  end.

Fixpoint val_small (v : jsval) : Prop :=
  match v with
  | VList l => all val_small l
  | VObject m => len m < 65536 /\ all (fun kv => val_small (snd kv)) m
  | VJson j => json_small j
  | _ => True
  end.

Fixpoint val_total (v : jsval) : N :=
  match v with
  | VU32 _ | VI32 _ => 5
  | VU64 _ | VI64 _ | VF64 _ => 9
  | VTrue | VFalse | VNull | VUndefined => 1
  | VVec b => 5 + len b
  | VString s => 5 + len s
  | VList l => 5 + fold_right (fun x acc => val_total x + acc) 0 l
  | VObject m => 3 + fold_right (fun kv acc => 4 + len (fst kv) + val_total (snd kv) + acc) 0 m
  | VJson j => 1 + json_total j
  end.

(** no (non-empty) JsValue::Object anywhere; objects inside JsValue::Json are allowed *)
Fixpoint val_no_object (v : jsval) : Prop :=
  match v with
  | VList l => all val_no_object l
  | VObject m => m = []
  | _ => True
  end.

(** ** The JavaScript value denoted by a Rust value *)
Fixpoint js_of_json (j : json) : jsjson :=
  match j with
  | JTrue => SBool true
  | JFalse => SBool false
  | JNull => SNull
  | JString s => SStr s
  | JNumber b => SNum b
  | JList l => SArr (map js_of_json l)
  | JObject m => SObj (map (fun kv => (fst kv, js_of_json (snd kv))) m)
  end.

Fixpoint js_of_val (v : jsval) : jsv :=
  match v with
  | VU32 n => SU32 n
  | VI32 z => SI32 z
  | VU64 n => SU64 n
  | VI64 z => SI64 z
  | VF64 b => SF64 b
  | VTrue => SVBool true
  | VFalse => SVBool false
  | VNull => SVNull
  | VUndefined => SVUndef
  | VVec b => SVBytes b
  | VString s => SVStr s
  | VList l => SVArr (map js_of_val l)
  | VObject m => SVObj (map (fun kv => (fst kv, js_of_val (snd kv))) m)
  | VJson j => SVJson (js_of_json j)
  end.

(** strings that the TextDecoder leaves alone: no leading byte order mark *)
Definition no_bom (s : bytes) : Prop := forall r, s <> 239 :: 187 :: 191 :: r.
(** keys that are ordinary property names *)
Definition plain_key (s : bytes) : Prop := no_bom s /\ s <> [95; 95; 112; 114; 111; 116; 111; 95; 95].

Fixpoint json_plain (j : json) : Prop :=
  match j with
  | JString s => no_bom s
  | JList l => all json_plain l
  | JObject m => all (fun kv => plain_key (fst kv) /\ json_plain (snd kv)) m
  | _ => True
  end.

Fixpoint val_plain (v : jsval) : Prop :=
  match v with
  | VString s => no_bom s
  | VList l => all val_plain l
  | VObject m => all (fun kv => plain_key (fst kv) /\ val_plain (snd kv)) m
  | VJson j => json_plain j
  | _ => True
  end.

(** no object has more than one key *)
Fixpoint json_narrow (j : json) : Prop :=
  match j with
  | JList l => all json_narrow l
  | JObject m => len m <= 1 /\ all (fun kv => json_narrow (snd kv)) m
  | _ => True
  end.
