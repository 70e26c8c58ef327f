(** Model of the JSON traits [JsJsonSerialize] / [JsJsonDeserialize] and of the code generated by
    [#[derive(AutoJsJson)]].

    Source: /repo/crates/vertigo/src/driver_module/js_value/serialize.rs, js_json_struct.rs and
    /repo/crates/vertigo-macro/src/jsjson/*.rs.  Not modelled: the chrono types (serialize_chrono.rs).

    Trait dispatch is by type, so types are data ([ty]); derived types are looked up by name in an
    environment, which allows recursive types.  A Rust value is a [val].  A [HashMap] is an association
    list in iteration order (a [BTreeMap] is treated the same way). *)

From Coq Require Import List NArith ZArith Bool.
From Verif Require Import CodecModel FloatModel.
Import ListNotations.

(** The types with an implementation: serialize.rs:62-301 and derived ones. *)
Inductive ty :=
| TString | TU64 | TI64 | TU32 | TI32 | TBool | TUnit
| TVec (t : ty)
| TOption (t : ty)
| TMap (t : ty)
| TName (n : N).

(** Values. [WRec]: the fields of a struct or tuple struct; [WVar]: an enum variant with its fields. *)
Inductive val :=
| WStr (s : bytes)
| WNat (n : N)
| WInt (z : Z)
| WBool (b : bool)
| WUnit
| WVec (l : list val)
| WNone
| WSome (v : val)
| WMap (m : list (bytes * val))
| WRec (l : list val)
| WVar (name : bytes) (l : list val).

(** A named field with its optional [#[js_json(default = ...)]] (jsjson/structs.rs:6-9). *)
Record field := Field { f_name : bytes; f_ty : ty; f_default : option val }.

(** The fields of an enum variant (jsjson/enums.rs:31-163); no defaults there. *)
Inductive variant :=
| VtUnit
| VtTuple (ts : list ty)
| VtNamed (fs : list (bytes * ty)).

(** Derived types (jsjson/mod.rs:9-17, structs.rs, newtypes.rs, enums.rs). *)
Inductive tydef :=
| DStruct (fs : list field)
| DTuple (ts : list ty)
| DEnum (vs : list (bytes * variant)).

Section Json.
  Variable env : N -> tydef.

  (** HashMap::get *)
  Fixpoint aget {A} (m : list (bytes * A)) (k : bytes) : option A :=
    match m with
    | [] => None
    | (k', v) :: t => if bytes_eqb k k' then Some v else aget t k
    end.

  (** HashMap::remove *)
  Definition adel {A} (m : list (bytes * A)) (k : bytes) : list (bytes * A) :=
    filter (fun e => negb (bytes_eqb k (fst e))) m.

  (** HashMap::from([...]), and the loops of serialize.rs:249-255 and 277-283: insertion one by one. *)
  Definition hash_from {A} (l : list (bytes * A)) : list (bytes * A) :=
    fold_left (fun m e => assoc_insert (fst e) (snd e) m) l [].

  (** serialize.rs:62-66, 80-84, 98-102, 116-120, 134-138, 152-159, 174-178, 199-209, 228-235, 247-257,
      275-285; jsjson/structs.rs:31-33, 49-55; newtypes.rs:10-31; enums.rs:35, 45-54, 71-82, 121-142.
      Ill-typed values (impossible in Rust) give null. *)
  Fixpoint to_json (v : val) (t : ty) {struct v} : json :=
    let fields := fix fields (l : list val) (ts : list ty) : list json :=
      match l, ts with
      | v :: l', t :: ts' => to_json v t :: fields l' ts'
      | _, _ => []
      end in
    match v with
    | WStr s => JString s
    | WNat n => JNumber (f64_of_N n)
    | WInt z => JNumber (f64_of_Z z)
    | WBool b => if b then JTrue else JFalse
    | WUnit => JObject []
    | WVec l => match t with TVec t' => JList (map (fun x => to_json x t') l) | _ => JNull end
    | WNone => JNull
    | WSome x => match t with TOption t' => to_json x t' | _ => JNull end
    | WMap m =>
        match t with
        | TMap t' => JObject (hash_from (map (fun e => (fst e, to_json (snd e) t')) m))
        | _ => JNull
        end
    | WRec l =>
        match t with
        | TName n =>
            match env n with
            | DStruct fs => JObject (hash_from (combine (map f_name fs) (fields l (map f_ty fs))))
            | DTuple ts =>
                match l, ts with
                | [x], [t'] => to_json x t'
                | _, _ => JList (fields l ts)
                end
            | DEnum _ => JNull
            end
        | _ => JNull
        end
    | WVar name l =>
        match t with
        | TName n =>
            match env n with
            | DEnum vs =>
                match aget vs name with
                | None => JNull
                | Some VtUnit => JString name
                | Some (VtTuple ts) =>
                    JObject [(name, match l, ts with
                                    | [x], [t'] => to_json x t'
                                    | _, _ => JList (fields l ts)
                                    end)]
                | Some (VtNamed fs) =>
                    JObject [(name, JObject (hash_from (combine (map fst fs) (fields l (map snd fs)))))]
                end
            | _ => JNull
            end
        | _ => JNull
        end
    end.

  (** serialize.rs:6-49: the context is the path from the root, outermost first; messages are not kept. *)
  Inductive citem := CField (name : bytes) | CIndex (i : nat) | CMsg.

  (** Result of decoding: a value, an error with its context, a panic, or fuel exhausted. *)
  Inductive jres (A : Type) :=
  | JOk (a : A)
  | JErr (ctx : list citem)
  | JPanic
  | JFuel.
  Arguments JOk {A}. Arguments JErr {A}. Arguments JPanic {A}. Arguments JFuel {A}.

  (** The operator [?] of serialize.rs and of the derived code. *)
  Definition jbind {A B} (m : jres A) (f : A -> jres B) : jres B :=
    match m with JOk a => f a | JErr c => JErr c | JPanic => JPanic | JFuel => JFuel end.

  (** serialize.rs:220-222: the loop over a list. *)
  Fixpoint dec_list (item : nat -> json -> jres val) (i : nat) (l : list json) : jres (list val) :=
    match l with
    | [] => JOk []
    | j :: t => jbind (item i j) (fun v => jbind (dec_list item (S i) t) (fun vs => JOk (v :: vs)))
    end.

  (** serialize.rs:265-269, 293-297: the loop over a map; [acc] is the map being built. *)
  Fixpoint dec_map (item : bytes -> json -> jres val) (acc : list (bytes * val)) (m : list (bytes * json)) :
      jres (list (bytes * val)) :=
    match m with
    | [] => JOk acc
    | (k, j) :: t => jbind (item k j) (fun v => dec_map item (assoc_insert k v acc) t)
    end.

  (** jsjson/tuple_fields.rs:26-35: [fields_rev.pop().unwrap()] for every field; [fields_rev] is the
      reversed list, so this takes the elements from the front. *)
  Fixpoint dec_tuple (item : ty -> json -> jres val) (ts : list ty) (rest : list json) : jres (list val) :=
    match ts with
    | [] => JOk []
    | t :: ts' =>
        match rest with
        | [] => JPanic
        | j :: rest' => jbind (item t j) (fun v => jbind (dec_tuple item ts' rest') (fun vs => JOk (v :: vs)))
        end
    end.

  (** js_json_struct.rs:226-246: [get_property]; also returns the object without the property. *)
  Definition get_property (item : list citem -> json -> jres val) (ctx : list citem) (j : json) (name : bytes) :
      json * jres val :=
    match j with
    | JObject m =>
        match aget m name with
        | None => (j, JErr (ctx ++ [CField name; CMsg]))
        | Some x => (JObject (adel m name), item (ctx ++ [CField name]) x)
        end
    | _ => (j, JErr (ctx ++ [CMsg]))
    end.

  (** jsjson/structs.rs:35-45, 59-61. *)
  Fixpoint dec_struct (item : ty -> list citem -> json -> jres val) (ctx : list citem) (fs : list field) (j : json) :
      jres (list val) :=
    match fs with
    | [] => JOk []
    | f :: fs' =>
        let '(j1, r) := get_property (item (f_ty f)) ctx j (f_name f) in
        let r1 := match r, f_default f with JErr _, Some d => JOk d | _, _ => r end in
        jbind r1 (fun v => jbind (dec_struct item ctx fs' j1) (fun vs => JOk (v :: vs)))
    end.

  (** jsjson/enums.rs:145-160: the fields of a named variant. *)
  Definition plain_fields (fs : list (bytes * ty)) : list field := map (fun f => Field (fst f) (snd f) None) fs.

  (** jsjson/enums.rs:57-63, 88-107, 155-161, 188: the object cases, one variant after the other. *)
  Fixpoint dec_variants (item : ty -> list citem -> json -> jres val) (ctx : list citem)
      (vs : list (bytes * variant)) (m : list (bytes * json)) : jres val :=
    match vs with
    | [] => JErr (ctx ++ [CMsg])
    | (name, VtUnit) :: t => dec_variants item ctx t m
    | (name, VtTuple ts) :: t =>
        match aget m name with
        | None => dec_variants item ctx t m
        | Some x =>
            match ts with
            | [t1] => jbind (item t1 ctx x) (fun v => JOk (WVar name [v]))
            | _ =>
                match x with
                | JList l =>
                    if Nat.eqb (length l) (length ts)
                    then jbind (dec_tuple (fun t => item t ctx) ts l) (fun vs => JOk (WVar name vs))
                    else JErr (ctx ++ [CMsg])
                | _ => JErr (ctx ++ [CMsg])
                end
            end
        end
    | (name, VtNamed fs) :: t =>
        match aget m name with
        | None => dec_variants item ctx t m
        | Some x => jbind (dec_struct item ctx (plain_fields fs) x) (fun vs => JOk (WVar name vs))
        end
    end.

  (** jsjson/enums.rs:181-186: the string cases. *)
  Fixpoint dec_simple (ctx : list citem) (vs : list (bytes * variant)) (s : bytes) : jres val :=
    match vs with
    | [] => JErr (ctx ++ [CMsg])
    | (name, VtUnit) :: t => if bytes_eqb s name then JOk (WVar name []) else dec_simple ctx t s
    | _ :: t => dec_simple ctx t s
    end.

  (** serialize.rs:68-78, 86-96, 104-114, 122-132, 140-150, 161-172, 180-191, 211-226, 237-245, 259-273,
      287-301; jsjson/structs.rs:57-63; newtypes.rs:16-19, 33-55; enums.rs:175-195. *)
  Fixpoint from_json (fuel : nat) (t : ty) (ctx : list citem) (j : json) {struct fuel} : jres val :=
    match fuel with
    | O => JFuel
    | S f =>
        let err := JErr (ctx ++ [CMsg]) in
        match t with
        | TString => match j with JString s => JOk (WStr s) | _ => err end
        | TU64 => match j with JNumber b => JOk (WNat (f64_to_N (p64 - 1) b)) | _ => err end
        | TI64 => match j with
                  | JNumber b => JOk (WInt (f64_to_Z (- 9223372036854775808) 9223372036854775807 b))
                  | _ => err
                  end
        | TU32 => match j with JNumber b => JOk (WNat (f64_to_N 4294967295 b)) | _ => err end
        | TI32 => match j with JNumber b => JOk (WInt (f64_to_Z (- 2147483648) 2147483647 b)) | _ => err end
        | TBool => match j with JTrue => JOk (WBool true) | JFalse => JOk (WBool false) | _ => err end
        | TUnit => match j with JObject [] => JOk WUnit | _ => err end
        | TVec t' =>
            match j with
            | JList l => jbind (dec_list (fun i => from_json f t' (ctx ++ [CIndex i])) 0 l) (fun vs => JOk (WVec vs))
            | _ => err
            end
        | TOption t' =>
            match j with
            | JNull => JOk WNone
            | _ => jbind (from_json f t' ctx j) (fun v => JOk (WSome v))
            end
        | TMap t' =>
            match j with
            | JObject m => jbind (dec_map (fun k => from_json f t' (ctx ++ [CField k])) [] m) (fun vs => JOk (WMap vs))
            | _ => err
            end
        | TName n =>
            match env n with
            | DStruct fs => jbind (dec_struct (from_json f) ctx fs j) (fun vs => JOk (WRec vs))
            | DTuple [t1] => jbind (from_json f t1 ctx j) (fun v => JOk (WRec [v]))
            | DTuple ts =>
                match j with
                | JList l =>
                    if Nat.eqb (length l) (length ts)
                    then jbind (dec_tuple (fun t => from_json f t ctx) ts l) (fun vs => JOk (WRec vs))
                    else err
                | _ => err
                end
            | DEnum vs =>
                match j with
                | JString s => dec_simple ctx vs s
                | JObject m => dec_variants (from_json f) ctx vs m
                | _ => err
                end
            end
        end
    end.
End Json.
Arguments JOk {A}. Arguments JErr {A}. Arguments JPanic {A}. Arguments JFuel {A}.
