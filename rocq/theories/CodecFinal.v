(** The codec lemmas in the shape in which CodecProps states them. *)
From Coq Require Import List NArith ZArith Bool Lia.
From Coq Require Import ZifyBool ZifyNat ZifyN.
From Verif Require Import CodecModel CodecJsModel CodecSpec CodecHashModel CodecProofs CodecJsProofs CodecMoreProofs.
Import ListNotations.
Open Scope N_scope.

Lemma json_roundtrip : forall j w rest,
  json_ok j -> json_small j -> json_total j < two32 ->
  w_size w < two32 -> len (w_out w) + json_total j <= w_size w ->
  exists out, json_write j w = Some {| w_size := w_size w; w_out := w_out w ++ out |}
              /\ json_from_block (out ++ rest) = ROk (j, rest).
Proof.
  intros j w rest Hok Hsm Ht Hs Hroom. exists (enc_json j). split.
  - apply json_write_ok; [assumption|]. rewrite len_enc_json. assumption.
  - apply json_decode_enc; try assumption. rewrite app_length. lia.
Qed.

Lemma value_roundtrip : forall v,
  val_ok v -> val_small v -> val_no_object v -> val_total v < two32 ->
  exists blk, to_snapshot v = Some blk /\ len (w_out blk) = w_size blk /\ from_block (w_out blk) = ROk v.
Proof.
  intros v Hok Hsm Hno Ht. eexists. split; [apply to_snapshot_enc; assumption|]. cbn [w_size w_out].
  split; [apply len_enc_val|]. unfold from_block.
  pose proof (val_decode_enc v Hok Hsm Hno Ht (S (length (enc_val v))) [] ltac:(lia)) as H.
  rewrite app_nil_r in H. rewrite H. reflexivity.
Qed.

Lemma snapshot_size : forall v, val_total v < two32 ->
  exists blk, to_snapshot v = Some blk /\ w_size blk = val_total v /\ len (w_out blk) = val_total v.
Proof.
  intros v Ht. eexists. split; [apply to_snapshot_enc; assumption|]. cbn [w_size w_out]. split; [reflexivity|apply len_enc_val].
Qed.

Lemma be4_small n : n < 16777216 -> exists r, be 4 n = 0 :: r.
Proof.
  intros H. cbn [be app]. assert (E : n / 256 / 256 / 256 mod 256 = 0).
  { rewrite !N.div_div by lia. rewrite N.div_small by lia. reflexivity. }
  rewrite E. eexists; reflexivity.
Qed.

Lemma object_undecodable : forall k x m, len k < 16777216 -> len m < 65535 -> val_total (VObject ((k, x) :: m)) < two32 ->
  exists blk, to_snapshot (VObject ((k, x) :: m)) = Some blk /\ from_block (w_out blk) = RErr.
Proof.
  intros k x m Hk Hm Ht. eexists. split; [apply to_snapshot_enc; assumption|]. cbn [w_out enc_val].
  unfold from_block. cbn [app val_decode get_byte rbind]. rewrite get_uint2 by apply as_u16_lt. cbn [rbind].
  rewrite as_u16_id by (rewrite len_cons; unfold two16; lia). rewrite len_cons.
  cbn [map concat fst snd].
  assert (Hne : exists n, length (be 2 (1 + len m) ++ (enc_str k ++ enc_val x) ++ concat (map (fun kv => enc_str (fst kv) ++ enc_val (snd kv)) m)) = S (S n)).
  { rewrite app_length, be_length. eexists; reflexivity. }
  destruct Hne as [n Hn]. cbn [length]. rewrite Hn. cbn [read_map].
  destruct (N.eqb_spec (1 + len m) 0); [lia|].
  unfold enc_str at 1. rewrite as_u32_id by (unfold two32; lia).
  destruct (be4_small (len k) Hk) as [r ->]. cbn [app]. unfold val_key. cbn [val_decode get_byte rbind]. reflexivity.
Qed.

Lemma rust_to_js : forall lossy v,
  val_ok v -> val_small v -> val_plain v -> val_total v < two32 ->
  exists blk, to_snapshot v = Some blk /\ js_value_decode lossy (w_out blk) = ROk (js_of_val v).
Proof.
  intros lossy v Hok Hsm Hpl Ht. eexists. split; [apply to_snapshot_enc; assumption|]. cbn [w_out].
  apply js_value_decode_enc; assumption.
Qed.

Lemma js_to_rust : forall v,
  val_ok v -> val_small v -> val_no_object v -> val_total v < two32 -> v <> VUndefined ->
  exists out, js_save_to_buffer (js_of_val v) = Some (Some out) /\ from_block out = ROk v.
Proof.
  intros v Hok Hsm Hno Ht Hu. exists (enc_val v). split; [apply js_save_enc; assumption|].
  unfold from_block. pose proof (val_decode_enc v Hok Hsm Hno Ht (S (length (enc_val v))) [] ltac:(lia)) as H.
  rewrite app_nil_r in H. rewrite H. reflexivity.
Qed.

Lemma large_object_written_lost : exists m, json_ok (JObject m) /\ json_total (JObject m) < two32 /\ len m = 65536 /\
  exists blk, json_write (JObject m) {| w_size := json_total (JObject m); w_out := [] |} = Some blk
              /\ forall rest, json_from_block (w_out blk ++ rest) <> ROk (JObject m, rest).
Proof.
  destruct large_object_lost as [m [Hok [Ht [Hl H]]]]. exists m. refine (conj Hok (conj Ht (conj Hl _))).
  eexists. split; [apply json_write_ok; [exact Ht|rewrite len_enc_json; cbn [w_out w_size]; apply N.le_refl]|exact H].
Qed.
