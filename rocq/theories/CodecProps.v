(** Property theorems of the codec: C12 - C19. *)
From Coq Require Import List NArith ZArith Bool.
From Verif Require Import CodecModel CodecJsModel CodecSpec CodecHashModel CodecProofs CodecJsProofs CodecMoreProofs CodecFinal.
Import ListNotations.
Open Scope N_scope.

(** A value used as non-trivial instance: {"k": [1.0, "ab", null], "": {}} *)
Definition sample_json : json :=
  JObject [([107], JList [JNumber 4607182418800017408; JString [97; 98]; JNull]); ([], JObject [])].
Definition sample_val : jsval := VList [VU32 7; VI64 (-5); VString [195; 179]; VVec [0; 255]; VJson sample_json; VUndefined].
Ltac sample := repeat match goal with
  | |- rust_string _ => split; cbn
  | |- no_bom _ => intros r; discriminate
  | |- _ /\ _ => split
  | |- ?x <> ?y => discriminate
  | |- NoDup (_ :: _) => constructor
  | |- NoDup [] => constructor
  | |- ~ _ => intros H; cbn in H; intuition discriminate
  | |- True => exact I
  | |- (_ < _)%N => reflexivity
  | |- (_ <= _)%N => discriminate
  | |- (_ <= _)%Z => discriminate
  | |- (_ < _)%Z => reflexivity
  | |- _ = _ => reflexivity
  end.

(** *** C12. A JsJson written into any block with enough room is read back unchanged, whatever follows it. *)
Theorem C12_json_roundtrip : forall j w rest,
  json_ok j -> json_small j -> json_total j < two32 ->
  w_size w < two32 -> len (w_out w) + json_total j <= w_size w ->
  exists out, json_write j w = Some {| w_size := w_size w; w_out := w_out w ++ out |}
              /\ json_from_block (out ++ rest) = ROk (j, rest).
Proof. exact json_roundtrip. Qed.
Print Assumptions C12_json_roundtrip.
Example C12_nonvacuous : json_ok sample_json /\ json_small sample_json /\ json_total sample_json < two32
  /\ len (@nil N) + json_total sample_json <= 100 /\ 100 < two32.
Proof. cbn; sample. Qed.

(** *** C13. Full statement: every JsValue survives to_snapshot followed by from_block. *)
Definition C13_statement : Prop := forall v,
  val_ok v -> val_small v -> val_total v < two32 ->
  exists blk, to_snapshot v = Some blk /\ from_block (w_out blk) = ROk v.

(** Proved for values without a non-empty JsValue::Object (objects inside of JsValue::Json are included). *)
Theorem C13_value_roundtrip_partial : forall v,
  val_ok v -> val_small v -> val_no_object v -> val_total v < two32 ->
  exists blk, to_snapshot v = Some blk /\ len (w_out blk) = w_size blk /\ from_block (w_out blk) = ROk v.
Proof. exact value_roundtrip. Qed.
Print Assumptions C13_value_roundtrip_partial.
Example C13_nonvacuous : val_ok sample_val /\ val_small sample_val /\ val_no_object sample_val /\ val_total sample_val < two32.
Proof. cbn; sample. Qed.

(** Refuted in general: {"a": null} is written with an untagged key but read expecting a tagged one. *)
Theorem C13_value_roundtrip_refuted : exists v,
  val_ok v /\ val_small v /\ val_total v < two32 /\
  exists blk, to_snapshot v = Some blk /\ from_block (w_out blk) <> ROk v.
Proof.
  exists (VObject [([97], VNull)]). split; [cbn; sample|]. split; [cbn; sample|]. split; [reflexivity|].
  eexists. split; [vm_compute; reflexivity|]. vm_compute. discriminate.
Qed.
Print Assumptions C13_value_roundtrip_refuted.

(** ... and so for every non-empty object with a first key below 16 MiB: decoding always fails. *)
Theorem C13_objects_never_decode_refuted : forall k x m,
  len k < 16777216 -> len m < 65535 -> val_total (VObject ((k, x) :: m)) < two32 ->
  exists blk, to_snapshot (VObject ((k, x) :: m)) = Some blk /\ from_block (w_out blk) = RErr.
Proof. exact object_undecodable. Qed.
Print Assumptions C13_objects_never_decode_refuted.

(** *** C14. The block allocated for a snapshot has exactly the size of what is written into it. *)
Theorem C14_size_exact : forall v, val_total v < two32 ->
  exists blk, to_snapshot v = Some blk /\ w_size blk = val_total v /\ len (w_out blk) = val_total v.
Proof. exact snapshot_size. Qed.
Print Assumptions C14_size_exact.
Example C14_nonvacuous : val_total (VObject [([97; 98], sample_val); ([], VObject [])]) < two32.
Proof. reflexivity. Qed.

(** *** C15. Full statement: JavaScript reads what Rust wrote. *)
Definition C15_statement : Prop := forall lossy v,
  val_ok v -> val_small v -> val_total v < two32 ->
  exists blk, to_snapshot v = Some blk /\ js_value_decode lossy (w_out blk) = ROk (js_of_val v).

(** Proved when no string starts with a byte order mark and no key is "__proto__". *)
Theorem C15_rust_to_js_partial : forall lossy v,
  val_ok v -> val_small v -> val_plain v -> val_total v < two32 ->
  exists blk, to_snapshot v = Some blk /\ js_value_decode lossy (w_out blk) = ROk (js_of_val v).
Proof. exact rust_to_js. Qed.
Print Assumptions C15_rust_to_js_partial.
Example C15_nonvacuous : let v := VObject [([97; 98], sample_val); ([], VObject [])] in
  val_ok v /\ val_small v /\ val_plain v /\ val_total v < two32.
Proof. cbn; unfold plain_key; sample. Qed.

(** Refuted by the string U+FEFF "a" ... *)
Theorem C15_byte_order_mark_refuted : exists v,
  val_ok v /\ val_small v /\ val_total v < two32 /\
  exists blk, to_snapshot v = Some blk /\ forall lossy, js_value_decode lossy (w_out blk) = ROk (SVStr [97])
              /\ SVStr [97] <> js_of_val v.
Proof.
  exists (VString [239; 187; 191; 97]). split; [cbn; sample|]. split; [exact I|]. split; [reflexivity|].
  eexists. split; [vm_compute; reflexivity|]. intros lossy. split; [reflexivity|discriminate].
Qed.
Print Assumptions C15_byte_order_mark_refuted.
(** ... and by an object with the key "__proto__", which is dropped. *)
Theorem C15_proto_key_refuted : exists v,
  val_ok v /\ val_small v /\ val_total v < two32 /\
  exists blk, to_snapshot v = Some blk /\ forall lossy, js_value_decode lossy (w_out blk) = ROk (SVJson (SObj []))
              /\ SVJson (SObj []) <> js_of_val v.
Proof.
  exists (VJson (JObject [(proto_key, JTrue)])). split; [cbn; sample|]. split; [cbn; sample|]. split; [reflexivity|].
  eexists. split; [vm_compute; reflexivity|]. intros lossy. split; [reflexivity|discriminate].
Qed.
Print Assumptions C15_proto_key_refuted.

(** *** C16. Full statement: Rust reads what JavaScript wrote. Every JavaScript value is [js_of_val v] for some v
    ([C16_covers_all]). A top level [undefined] is sent as pointer 0 and handled by the argument table (C40). *)
Definition C16_statement : Prop := forall v,
  val_ok v -> val_small v -> val_total v < two32 -> v <> VUndefined ->
  exists out, js_save_to_buffer (js_of_val v) = Some (Some out) /\ from_block out = ROk v.

Theorem C16_js_to_rust_partial : forall v,
  val_ok v -> val_small v -> val_no_object v -> val_total v < two32 -> v <> VUndefined ->
  exists out, js_save_to_buffer (js_of_val v) = Some (Some out) /\ from_block out = ROk v.
Proof. exact js_to_rust. Qed.
Print Assumptions C16_js_to_rust_partial.
Theorem C16_covers_all : forall s : jsv, exists v, js_of_val v = s.
Proof. exact js_of_val_surj. Qed.
Print Assumptions C16_covers_all.
Example C16_nonvacuous : val_ok sample_val /\ val_small sample_val /\ val_no_object sample_val /\ val_total sample_val < two32
  /\ sample_val <> VUndefined.
Proof. cbn; sample. Qed.

Theorem C16_js_to_rust_refuted : exists v,
  val_ok v /\ val_small v /\ val_total v < two32 /\ v <> VUndefined /\
  exists out, js_save_to_buffer (js_of_val v) = Some (Some out) /\ from_block out = RErr.
Proof.
  exists (VObject [([97], VNull)]). split; [cbn; sample|]. split; [cbn; sample|]. split; [reflexivity|].
  split; [discriminate|]. eexists. split; [vm_compute; reflexivity|]. vm_compute. reflexivity.
Qed.
Print Assumptions C16_js_to_rust_refuted.

(** *** C17. Full statement: decoding never panics. *)
Definition C17_statement : Prop := forall b, all (fun x => x < 256) b -> from_block b <> RPanic.

Theorem C17_no_panic_refuted : exists b, all (fun x => x < 256) b /\ from_block b = RPanic.
Proof. exists [11; 0; 0; 0; 5; 97]. split; [cbn; sample|reflexivity]. Qed.
Print Assumptions C17_no_panic_refuted.

(** What remains true: decoding terminates on every block, and only a truncated block makes it panic - every block
    has an extension on which it does not. *)
Theorem C17_only_truncation_panics_partial : forall b, all (fun x => x < 256) b ->
  from_block b <> RFuel /\ exists ext, all (fun x => x < 256) ext /\ from_block (b ++ ext) <> RPanic.
Proof. exact (fun b H => conj (from_block_nofuel b) (panic_only_if_truncated b H)). Qed.
Print Assumptions C17_only_truncation_panics_partial.
Example C17_nonvacuous : all (fun x => x < 256) [12; 0; 0; 0; 2; 14; 7; 0; 1].
Proof. cbn; sample. Qed.

(** *** C18. Full statement: equal values feed the hasher identically. *)
Definition C18_statement : Prop := forall a b, json_eqb a b = true -> json_hash a = json_hash b.

(** Refuted: the same two entries in two iteration orders. *)
Theorem C18_hash_refuted : exists a b, json_ok a /\ json_ok b /\ json_eqb a b = true /\ json_hash a <> json_hash b.
Proof.
  exists (JObject [([97], JTrue); ([98], JNull)]), (JObject [([98], JNull); ([97], JTrue)]).
  split; [cbn; sample|]. split; [cbn; sample|]. split; [reflexivity|]. vm_compute. discriminate.
Qed.
Print Assumptions C18_hash_refuted.
Theorem C18_request_hash_refuted : exists a b, request_eqb a b = true /\ request_hash a <> request_hash b.
Proof.
  exists {| rq_method := [71]; rq_url := [47]; rq_headers := [([97], [49]); ([98], [50])]; rq_body := None |},
         {| rq_method := [71]; rq_url := [47]; rq_headers := [([98], [50]); ([97], [49])]; rq_body := None |}.
  split; [reflexivity|]. vm_compute. discriminate.
Qed.
Print Assumptions C18_request_hash_refuted.
(** Proved when no object (and not the header map) has more than one entry. *)
Theorem C18_hash_partial : forall a b, json_narrow a -> json_eqb a b = true -> json_hash a = json_hash b.
Proof. exact json_hash_eq. Qed.
Print Assumptions C18_hash_partial.
Theorem C18_request_hash_partial : forall a b,
  len (rq_headers a) <= 1 -> match rq_body a with Some (RBData j) => json_narrow j | _ => True end ->
  request_eqb a b = true -> request_hash a = request_hash b.
Proof. exact request_hash_eq. Qed.
Print Assumptions C18_request_hash_partial.
Example C18_nonvacuous : let j := JList [JObject [([97], JNumber 3)]; JString [98]] in
  json_narrow j /\ json_eqb j j = true.
Proof. cbn; sample. Qed.

(** *** C19. Full statement: the number of keys does not matter. *)
Definition C19_statement : Prop := forall m rest, json_ok (JObject m) -> json_total (JObject m) < two32 ->
  exists blk, json_write (JObject m) {| w_size := json_total (JObject m); w_out := [] |} = Some blk
              /\ json_from_block (w_out blk ++ rest) = ROk (JObject m, rest).

(** Refuted by an object with 65536 keys: it is written with count 0 and read back as the empty object. *)
Theorem C19_large_objects_refuted : exists m, json_ok (JObject m) /\ json_total (JObject m) < two32 /\ len m = 65536 /\
  exists blk, json_write (JObject m) {| w_size := json_total (JObject m); w_out := [] |} = Some blk
              /\ forall rest, json_from_block (w_out blk ++ rest) <> ROk (JObject m, rest).
Proof. exact large_object_written_lost. Qed.
Print Assumptions C19_large_objects_refuted.
(** Proved up to 65535 keys: this is C12. *)
