(** The wire format of DOM commands: written as JSON on the wasm side, read on the server (property C25).

    Source: /repo/crates/vertigo/src/driver_module/dom_command.rs, dom.rs, js_value/js_json_struct.rs and
    /repo/crates/vertigo-cli/src/serve/html/dom_command.rs. *)

From Coq Require Import List NArith ZArith Bool Lia String Ascii.
From Verif Require Import CodecModel CodecSpec CodecProofs CodecProps FloatModel JsonModel JsonSpec JsonProofs DomModel.
Import ListNotations.
Local Open Scope nat_scope.

(** A string literal, as bytes. *)
Definition str (s : string) : bytes := map N_of_ascii (list_ascii_of_string s).

(** No derived types are involved. *)
Definition no_env (n : N) : tydef := DStruct [].

(** js_json_struct.rs:306-322: [JsJsonObjectBuilder]. *)
Definition build (l : list (bytes * json)) : json := JObject (hash_from l).

(** The [to_json] of the three field types: u64, String, Option<u64>. *)
Definition j_id (n : N) : json := to_json no_env (WNat n) TU64.
Definition j_str (s : bytes) : json := to_json no_env (WStr s) TString.
Definition j_opt (r : option N) : json :=
  to_json no_env (match r with None => WNone | Some n => WSome (WNat n) end) (TOption TU64).

(** dom_command.rs:71-154: [into_string]. *)
Definition into_json (c : dcmd bytes) : json :=
  match c with
  | CreateNode id name => build [(str "type", j_str (str "create_node")); (str "id", j_id id); (str "name", j_str name)]
  | CreateText id v => build [(str "type", j_str (str "create_text")); (str "id", j_id id); (str "value", j_str v)]
  | UpdateText id v => build [(str "type", j_str (str "update_text")); (str "id", j_id id); (str "value", j_str v)]
  | SetAttr id name v =>
      build [(str "type", j_str (str "set_attr")); (str "id", j_id id); (str "name", j_str name); (str "value", j_str v)]
  | RemoveAttr id name => build [(str "type", j_str (str "remove_attr")); (str "id", j_id id); (str "name", j_str name)]
  | RemoveNode id => build [(str "type", j_str (str "remove_node")); (str "id", j_id id)]
  | RemoveText id => build [(str "type", j_str (str "remove_text")); (str "id", j_id id)]
  | InsertBefore p ch r =>
      build [(str "type", j_str (str "insert_before")); (str "parent", j_id p); (str "child", j_id ch); (str "ref_id", j_opt r)]
  | InsertCss sel v => build [(str "type", j_str (str "insert_css")); (str "selector", j_str sel); (str "value", j_str v)]
  | CreateComment id v => build [(str "type", j_str (str "create_comment")); (str "id", j_id id); (str "value", j_str v)]
  | RemoveComment id => build [(str "type", j_str (str "remove_comment")); (str "id", j_id id)]
  | CallbackAdd id e cb =>
      build [(str "type", j_str (str "callback_add")); (str "id", j_id id); (str "event_name", j_str e); (str "callback_id", j_id cb)]
  | CallbackRemove id e cb =>
      build [(str "type", j_str (str "callback_remove")); (str "id", j_id id); (str "event_name", j_str e); (str "callback_id", j_id cb)]
  end.

(** dom.rs:97-108: a batch is a list of commands. *)
Definition batch_json (cs : list (dcmd bytes)) : json := JList (map into_json cs).

(** vertigo-cli dom_command.rs:6-47: the server's own enum. *)
Inductive wcmd :=
| WCreateNode (id : N) (name : bytes)
| WCreateText (id : N) (value : bytes)
| WUpdateText (id : N) (value : bytes)
| WSetAttr (id : N) (name value : bytes)
| WRemoveNode (id : N)
| WRemoveText (id : N)
| WInsertBefore (parent child : N) (ref : option N)
| WInsertCss (selector value : bytes)
| WCreateComment (id : N) (value : bytes)
| WRemoveComment (id : N)
| WCallbackAdd (id : N) (event : bytes) (callback : N)
| WCallbackRemove (id : N) (event : bytes) (callback : N).

(** [get_property] at the three types: the value is removed from the object, and the rest returned.
    The trait implementations are those of JsonModel.v, so the last cases cannot happen. *)
Definition prop {A} (t : ty) (out : val -> option A) (ctx : list citem) (j : json) (name : bytes)
    (k : A -> json -> jres wcmd) : jres wcmd :=
  let '(j1, r) := get_property (from_json no_env 2 t) ctx j name in
  jbind r (fun v => match out v with Some a => k a j1 | None => JPanic end).
Definition out_str (v : val) : option bytes := match v with WStr s => Some s | _ => None end.
Definition out_id (v : val) : option N := match v with WNat n => Some n | _ => None end.
Definition out_opt (v : val) : option (option N) :=
  match v with WNone => Some None | WSome (WNat n) => Some (Some n) | _ => None end.
Notation p_str := (prop TString out_str).
Notation p_id := (prop TU64 out_id).
Notation p_opt := (prop (TOption TU64) out_opt).

(** vertigo-cli dom_command.rs:49-110: [from_json]; any other type is [unreachable!()]. *)
Definition w_from_json (ctx : list citem) (j : json) : jres wcmd :=
  p_str ctx j (str "type") (fun ty j =>
  if bytes_eqb ty (str "create_node") then
    p_id ctx j (str "id") (fun id j => p_str ctx j (str "name") (fun n j => JOk (WCreateNode id n)))
  else if bytes_eqb ty (str "create_text") then
    p_id ctx j (str "id") (fun id j => p_str ctx j (str "value") (fun v j => JOk (WCreateText id v)))
  else if bytes_eqb ty (str "update_text") then
    p_id ctx j (str "id") (fun id j => p_str ctx j (str "value") (fun v j => JOk (WUpdateText id v)))
  else if bytes_eqb ty (str "set_attr") then
    p_id ctx j (str "id") (fun id j => p_str ctx j (str "name") (fun n j =>
    p_str ctx j (str "value") (fun v j => JOk (WSetAttr id n v))))
  else if bytes_eqb ty (str "remove_node") then p_id ctx j (str "id") (fun id j => JOk (WRemoveNode id))
  else if bytes_eqb ty (str "remove_text") then p_id ctx j (str "id") (fun id j => JOk (WRemoveText id))
  else if bytes_eqb ty (str "insert_before") then
    p_id ctx j (str "parent") (fun p j => p_id ctx j (str "child") (fun c j =>
    p_opt ctx j (str "ref_id") (fun r j => JOk (WInsertBefore p c r))))
  else if bytes_eqb ty (str "insert_css") then
    p_str ctx j (str "selector") (fun s j => p_str ctx j (str "value") (fun v j => JOk (WInsertCss s v)))
  else if bytes_eqb ty (str "create_comment") then
    p_id ctx j (str "id") (fun id j => p_str ctx j (str "value") (fun v j => JOk (WCreateComment id v)))
  else if bytes_eqb ty (str "remove_comment") then p_id ctx j (str "id") (fun id j => JOk (WRemoveComment id))
  else if bytes_eqb ty (str "callback_add") then
    p_id ctx j (str "id") (fun id j => p_str ctx j (str "event_name") (fun e j =>
    p_id ctx j (str "callback_id") (fun c j => JOk (WCallbackAdd id e c))))
  else if bytes_eqb ty (str "callback_remove") then
    p_id ctx j (str "id") (fun id j => p_str ctx j (str "event_name") (fun e j =>
    p_id ctx j (str "callback_id") (fun c j => JOk (WCallbackRemove id e c))))
  else JPanic).

(** vertigo-cli dom_command.rs:112-114 with serialize.rs:211-226: [from_json::<Vec<DomCommand>>]. *)
Fixpoint w_items (ctx : list citem) (i : nat) (l : list json) : jres (list wcmd) :=
  match l with
  | [] => JOk []
  | j :: t => jbind (w_from_json (ctx ++ [CIndex i]) j) (fun c => jbind (w_items ctx (S i) t) (fun cs => JOk (c :: cs)))
  end.
Definition w_batch (j : json) : jres (list wcmd) :=
  match j with JList l => w_items [CMsg] 0 l | _ => JErr [CMsg; CMsg] end.

(** ** Specification *)

(** The same command on both sides. *)
Definition same_command (c : dcmd bytes) (w : wcmd) : Prop :=
  match c, w with
  | CreateNode i n, WCreateNode i' n' => i = i' /\ n = n'
  | CreateText i v, WCreateText i' v' => i = i' /\ v = v'
  | UpdateText i v, WUpdateText i' v' => i = i' /\ v = v'
  | SetAttr i n v, WSetAttr i' n' v' => i = i' /\ n = n' /\ v = v'
  | RemoveNode i, WRemoveNode i' => i = i'
  | RemoveText i, WRemoveText i' => i = i'
  | InsertBefore p ch r, WInsertBefore p' ch' r' => p = p' /\ ch = ch' /\ r = r'
  | InsertCss s v, WInsertCss s' v' => s = s' /\ v = v'
  | CreateComment i v, WCreateComment i' v' => i = i' /\ v = v'
  | RemoveComment i, WRemoveComment i' => i = i'
  | CallbackAdd i e cb, WCallbackAdd i' e' cb' => i = i' /\ e = e' /\ cb = cb'
  | CallbackRemove i e cb, WCallbackRemove i' e' cb' => i = i' /\ e = e' /\ cb = cb'
  | _, _ => False
  end.

(** All numbers in a command fit into an f64 exactly. *)
Definition ids_small (c : dcmd bytes) : Prop :=
  let b n := (n <= 9007199254740992)%N in
  match c with
  | CreateNode i _ | CreateText i _ | UpdateText i _ | SetAttr i _ _ | RemoveAttr i _ | RemoveNode i | RemoveText i
  | CreateComment i _ | RemoveComment i => b i
  | InsertBefore p ch r => b p /\ b ch /\ match r with None => True | Some n => b n end
  | InsertCss _ _ => True
  | CallbackAdd i _ cb | CallbackRemove i _ cb => b i /\ b cb
  end.

Definition C25_statement : Prop := forall c ctx, ids_small c ->
  exists w, w_from_json ctx (into_json c) = JOk w /\ same_command c w.

Definition is_remove_attr (c : dcmd bytes) : Prop := match c with RemoveAttr _ _ => True | _ => False end.

(** ** Proofs *)

Lemma id_back n : (n <= 9007199254740992)%N -> f64_to_N (p64 - 1) (f64_of_N n) = n.
Proof. intros H. apply u64_roundtrip; [unfold p64; lia|]. left. apply representable_small. exact H. Qed.

Lemma prop_str ctx m name s k : aget m name = Some (JString s) ->
  p_str ctx (JObject m) name k = k s (JObject (adel m name)).
Proof. intros E. unfold prop, get_property. rewrite E. reflexivity. Qed.
Lemma prop_id ctx m name n k : aget m name = Some (j_id n) -> (n <= 9007199254740992)%N ->
  p_id ctx (JObject m) name k = k n (JObject (adel m name)).
Proof. intros E H. unfold prop, get_property. rewrite E. simpl. change 18446744073709551615%N with (p64 - 1)%N. rewrite id_back; auto. Qed.
Lemma prop_opt ctx m name r k : aget m name = Some (j_opt r) -> match r with None => True | Some n => (n <= 9007199254740992)%N end ->
  p_opt ctx (JObject m) name k = k r (JObject (adel m name)).
Proof.
  intros E H. unfold prop, get_property. rewrite E. destruct r; simpl; auto. change 18446744073709551615%N with (p64 - 1)%N. rewrite id_back; auto.
Qed.

Ltac wire :=
  cbv beta iota delta [into_json w_from_json build];
  match goal with |- context [hash_from ?l] => let e := eval cbv beta iota zeta delta [hash_from fold_left assoc_insert bytes_eqb str map N_of_ascii list_ascii_of_string N.eqb Pos.eqb N_of_digits N.add N.mul Pos.add Pos.mul fst snd andb Pos.succ] in (hash_from l) in change (hash_from l) with e end;
  erewrite prop_str by reflexivity;
  repeat match goal with |- context [bytes_eqb ?a ?b] => let e := eval vm_compute in (bytes_eqb a b) in change (bytes_eqb a b) with e end;
  cbv iota.

Theorem C25_same_command_partial : forall c ctx, ids_small c -> ~ is_remove_attr c ->
  exists w, w_from_json ctx (into_json c) = JOk w /\ same_command c w.
Proof.
  intros c ctx S NR. destruct c; simpl in S, NR; try tauto; wire.
  - rewrite (prop_id _ _ _ id) by (auto || reflexivity). rewrite (prop_str _ _ _ name) by reflexivity. eexists; split; [reflexivity|]. simpl; auto.
  - rewrite (prop_id _ _ _ id) by (auto || reflexivity). rewrite (prop_str _ _ _ value) by reflexivity. eexists; split; [reflexivity|]. simpl; auto.
  - rewrite (prop_id _ _ _ id) by (auto || reflexivity). rewrite (prop_str _ _ _ value) by reflexivity. eexists; split; [reflexivity|]. simpl; auto.
  - rewrite (prop_id _ _ _ id) by (auto || reflexivity). rewrite (prop_str _ _ _ name) by reflexivity. rewrite (prop_str _ _ _ value) by reflexivity. eexists; split; [reflexivity|]. simpl; auto.
  - rewrite (prop_id _ _ _ id) by (auto || reflexivity). eexists; split; [reflexivity|]. simpl; auto.
  - rewrite (prop_id _ _ _ id) by (auto || reflexivity). eexists; split; [reflexivity|]. simpl; auto.
  - destruct S as (S1 & S2 & S3).
    rewrite (prop_id _ _ _ parent) by (auto || reflexivity). rewrite (prop_id _ _ _ child) by (auto || reflexivity).
    rewrite (prop_opt _ _ _ ref) by (auto || reflexivity). eexists; split; [reflexivity|]. simpl; auto.
  - rewrite (prop_str _ _ _ selector) by reflexivity. rewrite (prop_str _ _ _ value) by reflexivity. eexists; split; [reflexivity|]. simpl; auto.
  - rewrite (prop_id _ _ _ id) by (auto || reflexivity). rewrite (prop_str _ _ _ value) by reflexivity. eexists; split; [reflexivity|]. simpl; auto.
  - rewrite (prop_id _ _ _ id) by (auto || reflexivity). eexists; split; [reflexivity|]. simpl; auto.
  - destruct S as (S1 & S2). rewrite (prop_id _ _ _ id) by (auto || reflexivity). rewrite (prop_str _ _ _ event) by reflexivity.
    rewrite (prop_id _ _ _ callback) by (auto || reflexivity). eexists; split; [reflexivity|]. simpl; auto.
  - destruct S as (S1 & S2). rewrite (prop_id _ _ _ id) by (auto || reflexivity). rewrite (prop_str _ _ _ event) by reflexivity.
    rewrite (prop_id _ _ _ callback) by (auto || reflexivity). eexists; split; [reflexivity|]. simpl; auto.
Qed.

(** Whole batches, in order. Missing for the full statement: RemoveAttr (the server panics on it). *)
Theorem C25_batch_partial : forall cs, Forall ids_small cs -> Forall (fun c => ~ is_remove_attr c) cs ->
  exists ws, w_batch (batch_json cs) = JOk ws /\ Forall2 same_command cs ws.
Proof.
  intros cs S NR. unfold w_batch, batch_json. generalize 0. induction cs as [|c cs IH]; simpl; intros i; [eauto|].
  inversion S; inversion NR; subst.
  destruct (C25_same_command_partial c ([CMsg] ++ [CIndex i]) ltac:(auto) ltac:(auto)) as (w & E & SC). simpl in E. rewrite E. simpl.
  destruct (IH ltac:(auto) ltac:(auto) (Datatypes.S i)) as (ws & E2 & F). rewrite E2. simpl. eauto.
Qed.

(** All strings in a command are Rust strings. *)
Definition strings_ok (c : dcmd bytes) : Prop :=
  match c with
  | CreateNode _ s | CreateText _ s | UpdateText _ s | RemoveAttr _ s | CreateComment _ s
  | CallbackAdd _ s _ | CallbackRemove _ s _ => rust_string s
  | SetAttr _ s1 s2 | InsertCss s1 s2 => rust_string s1 /\ rust_string s2
  | RemoveNode _ | RemoveText _ | RemoveComment _ | InsertBefore _ _ _ => True
  end.

Lemma f64_bits n : (n <= 9007199254740992)%N -> (f64_of_N n < two64)%N.
Proof.
  intros H. unfold f64_of_N. destruct (N.eqb_spec n 0); [reflexivity|].
  assert (L : (N.log2 n <= 53)%N) by (change 53%N with (N.log2 9007199254740992); apply N.log2_le_mono; auto).
  assert (P : (n < 2 ^ N.succ (N.log2 n))%N) by (apply N.log2_spec; lia).
  destruct (N.leb_spec (N.log2 n) 52) as [K|K].
  - assert (n * 2 ^ (52 - N.log2 n) < 2 ^ 53)%N.
    { replace 53%N with (N.succ (N.log2 n) + (52 - N.log2 n))%N by lia. rewrite N.pow_add_r.
      apply N.mul_lt_mono_pos_r; auto. apply N.neq_0_lt_0, N.pow_nonzero; lia. }
    change (2 ^ 53)%N with 9007199254740992%N in *. unfold p52, two64. nia.
  - assert (N.log2 n = 53%N) by lia. rewrite H0.
    assert (n = 9007199254740992%N).
    { assert (2 ^ 53 <= n)%N by (rewrite <- H0; apply N.log2_spec; lia). change (2 ^ 53)%N with 9007199254740992%N in *. lia. }
    subst n. vm_compute. reflexivity.
Qed.

Definition entry_ok (kv : bytes * json) : Prop := rust_string (fst kv) /\ json_ok (snd kv) /\ json_small (snd kv).

Lemma build_ok l : NoDup (map fst l) -> Forall entry_ok l -> (len l < 65536)%N -> json_ok (build l) /\ json_small (build l).
Proof.
  intros ND F L. unfold build. rewrite hash_from_id by auto. cbn [json_ok json_small]. rewrite !all_Forall.
  split; split; auto; eapply Forall_impl; try exact F; intros kv (A & B & C); auto.
Qed.

Lemma e_str k s : rust_string k -> rust_string s -> entry_ok (k, j_str s).
Proof. intros. split; [auto|]. split; [auto|exact Logic.I]. Qed.
Lemma e_id k n : rust_string k -> (n <= 9007199254740992)%N -> entry_ok (k, j_id n).
Proof. intros. split; [auto|]. split; [apply f64_bits; auto|exact Logic.I]. Qed.
Lemma e_opt k r : rust_string k -> match r with None => True | Some n => (n <= 9007199254740992)%N end -> entry_ok (k, j_opt r).
Proof. intros. split; [auto|]. destruct r; (split; [|exact Logic.I]); [apply f64_bits; auto|exact Logic.I]. Qed.

Ltac lit := split; [vm_compute; tauto|reflexivity].

Lemma into_json_ok c : ids_small c -> strings_ok c -> json_ok (into_json c) /\ json_small (into_json c).
Proof.
  intros S R. destruct c; cbn [ids_small strings_ok] in S, R; cbv beta iota delta [into_json];
    (apply build_ok;
     [vm_compute; repeat (constructor; [simpl; intuition discriminate|]); constructor
     |repeat (apply Forall_cons); try apply Forall_nil;
      first [apply e_id; [lit|tauto] | apply e_opt; [lit|tauto] | apply e_str; [lit|first [tauto|lit]]]
     |reflexivity]).
Qed.

(** Through the binary encoding as well: the block written on the wasm side is decoded on the server to the
    same commands. *)
Theorem C25_bytes_partial : forall cs, Forall ids_small cs -> Forall strings_ok cs -> Forall (fun c => ~ is_remove_attr c) cs ->
  (json_total (batch_json cs) < two32)%N ->
  exists w out ws, json_write (batch_json cs) {| w_size := json_total (batch_json cs); w_out := [] |} = Some w /\
    w_out w = out /\ json_from_block out = ROk (batch_json cs, []) /\
    w_batch (batch_json cs) = JOk ws /\ Forall2 same_command cs ws.
Proof.
  intros cs S R NR T. destruct (C25_batch_partial cs S NR) as (ws & E & F).
  assert (OK : json_ok (batch_json cs) /\ json_small (batch_json cs)).
  { cbn [batch_json json_ok json_small]. rewrite !all_Forall. split; apply Forall_forall; intros j I; apply in_map_iff in I;
      destruct I as (c & <- & I); rewrite Forall_forall in S, R; apply into_json_ok; auto. }
  destruct (C12_json_roundtrip (batch_json cs) {| w_size := json_total (batch_json cs); w_out := [] |} []) as (out & W & B); try tauto.
  - simpl. unfold len. simpl. lia.
  - rewrite app_nil_r in B. eexists _, out, ws. split; [exact W|]. simpl. auto.
Qed.

(** Removing an attribute (a dynamic attribute that becomes [None]) kills the server's decoder. *)
Theorem C25_remove_attr_refuted : forall ctx id name, w_from_json ctx (into_json (RemoveAttr id name)) = JPanic.
Proof. intros. wire. reflexivity. Qed.

Theorem C25_statement_refuted : ~ C25_statement.
Proof.
  intros H. destruct (H (RemoveAttr 4 (str "href")) [] ltac:(simpl; lia)) as (w & E & _).
  rewrite C25_remove_attr_refuted in E. discriminate.
Qed.

Example C25_example :
  let cs := [CreateNode 4 (str "div"); SetAttr 4 (str "class") (str "a"); InsertBefore 3 4 (Some 9007199254740992%N);
             CallbackAdd 4 (str "click") 17] in
  Forall ids_small cs /\ Forall (fun c => ~ is_remove_attr c) cs /\
  w_batch (batch_json cs) = JOk [WCreateNode 4 (str "div"); WSetAttr 4 (str "class") (str "a");
                                 WInsertBefore 3 4 (Some 9007199254740992%N); WCallbackAdd 4 (str "click") 17].
Proof.
  split; [repeat (constructor; [simpl; lia|]); constructor|]. split; [repeat (constructor; [simpl; tauto|]); constructor|].
  vm_compute. reflexivity.
Qed.
