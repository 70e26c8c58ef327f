(** Specification of the JSON traits (properties C20, C21, C22). *)

From Coq Require Import List NArith ZArith Bool.
From Verif Require Import CodecModel FloatModel JsonModel.
Import ListNotations.
Local Open Scope nat_scope.

(** Field names of a struct and variant names of an enum are distinct (enforced by Rust). *)
Definition env_ok (env : N -> tydef) : Prop := forall n,
  match env n with
  | DStruct fs => NoDup (map f_name fs)
  | DTuple _ => True
  | DEnum vs => NoDup (map fst vs) /\ forall name fs, In (name, VtNamed fs) vs -> NoDup (map fst fs)
  end.

Section Spec.
  Variable env : N -> tydef.

  (** [v] is a value of type [t]. *)
  Fixpoint has_ty (v : val) (t : ty) {struct v} : Prop :=
    let fields := fix fields (l : list val) (ts : list ty) : Prop :=
      match l, ts with
      | [], [] => True
      | v :: l', t :: ts' => has_ty v t /\ fields l' ts'
      | _, _ => False
      end in
    match v, t with
    | WStr _, TString => True
    | WNat n, TU64 => (n < 18446744073709551616)%N
    | WNat n, TU32 => (n < 4294967296)%N
    | WInt z, TI64 => (-9223372036854775808 <= z <= 9223372036854775807)%Z
    | WInt z, TI32 => (-2147483648 <= z <= 2147483647)%Z
    | WBool _, TBool => True
    | WUnit, TUnit => True
    | WVec l, TVec t' => (fix all l := match l with [] => True | x :: r => has_ty x t' /\ all r end) l
    | WNone, TOption _ => True
    | WSome x, TOption t' => has_ty x t'
    | WMap m, TMap t' =>
        NoDup (map fst m) /\ (fix all m := match m with [] => True | e :: r => has_ty (snd e) t' /\ all r end) m
    | WRec l, TName n =>
        match env n with
        | DStruct fs => fields l (map f_ty fs)
        | DTuple ts => fields l ts
        | DEnum _ => False
        end
    | WVar name l, TName n =>
        match env n with
        | DEnum vs => exists vt, In (name, vt) vs /\
            match vt with
            | VtUnit => l = []
            | VtTuple ts => fields l ts
            | VtNamed fs => fields l (map snd fs)
            end
        | _ => False
        end
    | _, _ => False
    end.

  (** The typed components of a value. *)
  Inductive part : val -> ty -> val -> ty -> Prop :=
  | pt_vec l t x : In x l -> part (WVec l) (TVec t) x t
  | pt_some x t : part (WSome x) (TOption t) x t
  | pt_map m t k x : In (k, x) m -> part (WMap m) (TMap t) x t
  | pt_struct n fs l i x f : env n = DStruct fs -> nth_error l i = Some x -> nth_error fs i = Some f ->
      part (WRec l) (TName n) x (f_ty f)
  | pt_tuple n ts l i x t : env n = DTuple ts -> nth_error l i = Some x -> nth_error ts i = Some t ->
      part (WRec l) (TName n) x t
  | pt_vtuple n vs name ts l i x t : env n = DEnum vs -> In (name, VtTuple ts) vs ->
      nth_error l i = Some x -> nth_error ts i = Some t -> part (WVar name l) (TName n) x t
  | pt_vnamed n vs name fs l i x k t : env n = DEnum vs -> In (name, VtNamed fs) vs ->
      nth_error l i = Some x -> nth_error fs i = Some (k, t) -> part (WVar name l) (TName n) x t.

  (** All components, the value included. *)
  Inductive parts : val -> ty -> val -> ty -> Prop :=
  | parts_refl v t : parts v t v t
  | parts_step v t v1 t1 v2 t2 : part v t v1 t1 -> parts v1 t1 v2 t2 -> parts v t v2 t2.

  (** Values written as null: [None], and through [Some] and newtypes. *)
  Inductive null_like : val -> ty -> Prop :=
  | nl_none t : null_like WNone (TOption t)
  | nl_some x t : null_like x t -> null_like (WSome x) (TOption t)
  | nl_newtype n t x : env n = DTuple [t] -> null_like x t -> null_like (WRec [x]) (TName n).

  (** The two reasons for not surviving: 64-bit integers an f64 cannot hold, and [Some] of a value written
      as null. *)
  Definition survives (v : val) (t : ty) : Prop :=
    match v, t with
    | WNat n, TU64 => representable n \/ n = 18446744073709551615%N
    | WInt z, TI64 => representable (Z.to_N (Z.abs z)) \/ z = 9223372036854775807%Z
    | WSome x, TOption t' => ~ null_like x t'
    | _, _ => True
    end.

  Definition lossless (v : val) (t : ty) : Prop := forall v' t', parts v t v' t' -> survives v' t'.
End Spec.

(** ** What a JSON document means at a type (property C22) *)

(** The f64 with pattern [b] times 2^1074, an integer; [None] for infinities and NaN. *)
Definition f64_scaled (b : N) : option Z :=
  let e := ((b / 4503599627370496) mod 2048)%N in
  let m := (b mod 4503599627370496)%N in
  if (e =? 2047)%N then None
  else
    let mag := if (e =? 0)%N then m else ((4503599627370496 + m) * 2 ^ (e - 1))%N in
    Some (if (b / 9223372036854775808 =? 0)%N then Z.of_N mag else (- Z.of_N mag)%Z).

(** [z] is the number [b], exactly. *)
Definition exactly (lo hi : Z) (b : N) (z : Z) : Prop := f64_scaled b = Some (z * 2 ^ 1074)%Z.

(** [z] is the number [b] truncated towards zero and saturated; for NaN it is 0. *)
Definition roughly (lo hi : Z) (b : N) (z : Z) : Prop :=
  match f64_scaled b with
  | Some s => z = Z.max lo (Z.min hi (Z.quot s (2 ^ 1074)))
  | None =>
      if (b mod 4503599627370496 =? 0)%N
      then z = (if (b / 9223372036854775808 =? 0)%N then hi else lo)
      else z = 0%Z
  end.

Section Reads.
  Variable env : N -> tydef.
  (** How numbers are read, and whether a struct without fields is read from anything. *)
  Variable num : Z -> Z -> N -> Z -> Prop.
  Variable lax : bool.

  (** The first variant (in the order of declaration) with data whose name is a key. *)
  Definition selects (vs : list (bytes * variant)) (m : list (bytes * json)) (name : bytes) (vt : variant) (x : json) : Prop :=
    exists pre post, vs = pre ++ (name, vt) :: post /\ vt <> VtUnit /\ aget m name = Some x /\
      forall n' vt', In (n', vt') pre -> vt' <> VtUnit -> aget m n' = None.

  (** [j] is a document for the value [v] of type [t]. *)
  Inductive reads : ty -> json -> val -> Prop :=
  | rd_str s : reads TString (JString s) (WStr s)
  | rd_u64 b n : num 0 18446744073709551615 b (Z.of_N n) -> reads TU64 (JNumber b) (WNat n)
  | rd_u32 b n : num 0 4294967295 b (Z.of_N n) -> reads TU32 (JNumber b) (WNat n)
  | rd_i64 b z : num (- 9223372036854775808)%Z 9223372036854775807 b z -> reads TI64 (JNumber b) (WInt z)
  | rd_i32 b z : num (- 2147483648)%Z 2147483647 b z -> reads TI32 (JNumber b) (WInt z)
  | rd_true : reads TBool JTrue (WBool true)
  | rd_false : reads TBool JFalse (WBool false)
  | rd_unit : reads TUnit (JObject []) WUnit
  | rd_vec t l vs : Forall2 (reads t) l vs -> reads (TVec t) (JList l) (WVec vs)
  | rd_none t : reads (TOption t) JNull WNone
  | rd_some t j v : j <> JNull -> reads t j v -> reads (TOption t) j (WSome v)
  | rd_map t m w : Forall2 (fun e u => fst e = fst u /\ reads t (snd e) (snd u)) m w -> reads (TMap t) (JObject m) (WMap w)
  | rd_empty n j : env n = DStruct [] -> lax = true -> reads (TName n) j (WRec [])
  | rd_struct n fs m l : env n = DStruct fs -> reads_fields (map f_name fs) (map f_ty fs) m l -> reads (TName n) (JObject m) (WRec l)
  | rd_newtype n t j v : env n = DTuple [t] -> reads t j v -> reads (TName n) j (WRec [v])
  | rd_tuple n ts l vs : env n = DTuple ts -> length ts <> 1 -> reads_items ts l vs -> reads (TName n) (JList l) (WRec vs)
  | rd_name n vs s : env n = DEnum vs -> In (s, VtUnit) vs -> reads (TName n) (JString s) (WVar s [])
  | rd_var1 n vs m name t x v : env n = DEnum vs -> selects vs m name (VtTuple [t]) x -> reads t x v ->
      reads (TName n) (JObject m) (WVar name [v])
  | rd_vart n vs m name ts l us : env n = DEnum vs -> selects vs m name (VtTuple ts) (JList l) -> length ts <> 1 ->
      reads_items ts l us -> reads (TName n) (JObject m) (WVar name us)
  | rd_varn n vs m name fs m' us : env n = DEnum vs -> selects vs m name (VtNamed fs) (JObject m') ->
      reads_fields (map fst fs) (map snd fs) m' us -> reads (TName n) (JObject m) (WVar name us)
  | rd_vare n vs m name x : env n = DEnum vs -> selects vs m name (VtNamed []) x -> lax = true ->
      reads (TName n) (JObject m) (WVar name [])
  with reads_items : list ty -> list json -> list val -> Prop :=
  | ri_nil : reads_items [] [] []
  | ri_cons t ts j l v vs : reads t j v -> reads_items ts l vs -> reads_items (t :: ts) (j :: l) (v :: vs)
  with reads_fields : list bytes -> list ty -> list (bytes * json) -> list val -> Prop :=
  | rf_nil m : reads_fields [] [] m []
  | rf_cons k ks t ts m x v vs : aget m k = Some x -> reads t x v -> reads_fields ks ts m vs ->
      reads_fields (k :: ks) (t :: ts) m (v :: vs).

  (** [wrong t j q]: at the end of the path [q] into [j] the document does not have the shape of [t].
      The path does not mention the position in a tuple, nor the variant of an enum. *)
  Inductive wrong : ty -> json -> list citem -> Prop :=
  | wr_str j : (forall s, j <> JString s) -> wrong TString j []
  | wr_num t j : In t [TU64; TU32; TI64; TI32] -> (forall b, j <> JNumber b) -> wrong t j []
  | wr_bool j : j <> JTrue -> j <> JFalse -> wrong TBool j []
  | wr_unit j : j <> JObject [] -> wrong TUnit j []
  | wr_vec t j : (forall l, j <> JList l) -> wrong (TVec t) j []
  | wr_item t l i x q : nth_error l i = Some x -> wrong t x q -> wrong (TVec t) (JList l) (CIndex i :: q)
  | wr_some t j q : j <> JNull -> wrong t j q -> wrong (TOption t) j q
  | wr_map t j : (forall m, j <> JObject m) -> wrong (TMap t) j []
  | wr_key t m k x q : In (k, x) m -> wrong t x q -> wrong (TMap t) (JObject m) (CField k :: q)
  | wr_struct n fs j q : env n = DStruct fs -> wrong_fields (map f_name fs) (map f_ty fs) j q -> wrong (TName n) j q
  | wr_newtype n t j q : env n = DTuple [t] -> wrong t j q -> wrong (TName n) j q
  | wr_tuple n ts j q : env n = DTuple ts -> length ts <> 1 -> wrong_items ts j q -> wrong (TName n) j q
  | wr_enum n vs j : env n = DEnum vs -> (forall s, j = JString s -> ~ In (s, VtUnit) vs) ->
      (forall m name vt x, j = JObject m -> ~ selects vs m name vt x) -> wrong (TName n) j []
  | wr_var1 n vs m name t x q : env n = DEnum vs -> selects vs m name (VtTuple [t]) x -> wrong t x q ->
      wrong (TName n) (JObject m) q
  | wr_vart n vs m name ts x q : env n = DEnum vs -> selects vs m name (VtTuple ts) x -> length ts <> 1 ->
      wrong_items ts x q -> wrong (TName n) (JObject m) q
  | wr_varn n vs m name fs x q : env n = DEnum vs -> selects vs m name (VtNamed fs) x ->
      wrong_fields (map fst fs) (map snd fs) x q -> wrong (TName n) (JObject m) q
  with wrong_items : list ty -> json -> list citem -> Prop :=
  | wi_list ts j : (forall l, j = JList l -> length l <> length ts) -> wrong_items ts j []
  | wi_item ts l i t x q : length l = length ts -> nth_error ts i = Some t -> nth_error l i = Some x -> wrong t x q ->
      wrong_items ts (JList l) q
  with wrong_fields : list bytes -> list ty -> json -> list citem -> Prop :=
  | wf_object ks ts j : ks <> [] -> (forall m, j <> JObject m) -> wrong_fields ks ts j []
  | wf_missing ks ts m k : In k ks -> aget m k = None -> wrong_fields ks ts (JObject m) [CField k]
  | wf_field ks ts m i k t x q : nth_error ks i = Some k -> nth_error ts i = Some t -> aget m k = Some x -> wrong t x q ->
      wrong_fields ks ts (JObject m) (CField k :: q).
End Reads.

(** No [#[js_json(default = ...)]]. *)
Definition no_defaults (env : N -> tydef) : Prop := forall n fs f, env n = DStruct fs -> In f fs -> f_default f = None.

(** Types have a finite size (enforced by Rust): following newtypes and options ends. *)
Fixpoint head (t : ty) : option N :=
  match t with TName n => Some n | TOption t' => head t' | _ => None end.
Definition finite_types (env : N -> tydef) : Prop := exists rank : N -> nat, forall n t n',
  env n = DTuple [t] -> head t = Some n' -> rank n' < rank n.
