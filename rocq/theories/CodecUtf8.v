(** What the decoder accepts as a string (C17): exactly the UTF-8 encodings of sequences of Unicode scalar
    values.  The specification encodes code points; it does not mention the validity test of the model. *)

From Coq Require Import List NArith ZArith Bool Lia ZifyN.
From Verif Require Import CodecModel CodecSpec.
Import ListNotations.
Local Open Scope N_scope.

(** A Unicode scalar value (a Rust [char]). *)
Definition scalar (c : N) : Prop := c < 55296 \/ 57343 < c < 1114112.

(** The UTF-8 encoding of a code point (RFC 3629, section 3). *)
Definition encode (c : N) : bytes :=
  if c <? 128 then [c]
  else if c <? 2048 then [192 + c / 64; 128 + c mod 64]
  else if c <? 65536 then [224 + c / 4096; 128 + c / 64 mod 64; 128 + c mod 64]
  else [240 + c / 262144; 128 + c / 4096 mod 64; 128 + c / 64 mod 64; 128 + c mod 64].

Ltac Zify.zify_post_hook ::= Z.div_mod_to_equations.

Ltac split_ranges :=
  repeat match goal with
  | H : _ && _ = true |- _ => apply andb_prop in H as [? ?]
  | H : cont _ = true |- _ => unfold cont in H
  | H : in_range _ _ _ = true |- _ => unfold in_range in H
  | H : (_ <=? _) = true |- _ => apply N.leb_le in H
  | H : (_ =? _) = true |- _ => apply N.eqb_eq in H
  end.

Lemma encode_head2 b1 b2 : 194 <= b1 <= 223 -> 128 <= b2 <= 191 ->
  encode ((b1 - 192) * 64 + (b2 - 128)) = [b1; b2] /\ scalar ((b1 - 192) * 64 + (b2 - 128)).
Proof.
  intros A B. set (c := (b1 - 192) * 64 + (b2 - 128)).
  assert (H : 128 <= c < 2048) by (unfold c; lia). split; [|left; lia].
  unfold encode. rewrite (proj2 (N.ltb_ge c 128)), (proj2 (N.ltb_lt c 2048)) by lia.
  assert (192 + c / 64 = b1) as -> by (unfold c; lia).
  assert (128 + c mod 64 = b2) as -> by (unfold c; lia). reflexivity.
Qed.

Lemma encode_head3 b1 b2 b3 : 224 <= b1 <= 239 -> 128 <= b2 <= 191 -> 128 <= b3 <= 191 ->
  (b1 = 224 -> 160 <= b2) -> (b1 = 237 -> b2 <= 159) ->
  let c := (b1 - 224) * 4096 + (b2 - 128) * 64 + (b3 - 128) in
  encode c = [b1; b2; b3] /\ scalar c.
Proof.
  intros A B C D F c. assert (H : 2048 <= c < 65536) by (unfold c; lia).
  split; [|unfold scalar, c in *; lia].
  unfold encode. rewrite (proj2 (N.ltb_ge c 128)), (proj2 (N.ltb_ge c 2048)), (proj2 (N.ltb_lt c 65536)) by lia.
  assert (224 + c / 4096 = b1) as -> by (unfold c; lia).
  assert (c / 64 = (b1 - 224) * 64 + (b2 - 128)) as -> by (unfold c; lia).
  assert (128 + ((b1 - 224) * 64 + (b2 - 128)) mod 64 = b2) as -> by lia.
  assert (128 + c mod 64 = b3) as -> by (unfold c; lia). reflexivity.
Qed.

Lemma encode_head4 b1 b2 b3 b4 : 240 <= b1 <= 244 -> 128 <= b2 <= 191 -> 128 <= b3 <= 191 -> 128 <= b4 <= 191 ->
  (b1 = 240 -> 144 <= b2) -> (b1 = 244 -> b2 <= 143) ->
  let c := (b1 - 240) * 262144 + (b2 - 128) * 4096 + (b3 - 128) * 64 + (b4 - 128) in
  encode c = [b1; b2; b3; b4] /\ scalar c.
Proof.
  intros A B C C' D F c. assert (H : 65536 <= c < 1114112) by (unfold c; lia).
  split; [|unfold scalar; lia].
  unfold encode. rewrite (proj2 (N.ltb_ge c 128)), (proj2 (N.ltb_ge c 2048)), (proj2 (N.ltb_ge c 65536)) by lia.
  assert (240 + c / 262144 = b1) as -> by (unfold c; lia).
  assert (c / 4096 = (b1 - 240) * 64 + (b2 - 128)) as -> by (unfold c; lia).
  assert (c / 64 = ((b1 - 240) * 64 + (b2 - 128)) * 64 + (b3 - 128)) as -> by (unfold c; lia).
  assert (128 + ((b1 - 240) * 64 + (b2 - 128)) mod 64 = b2) as -> by lia.
  assert (128 + (((b1 - 240) * 64 + (b2 - 128)) * 64 + (b3 - 128)) mod 64 = b3) as -> by lia.
  assert (128 + c mod 64 = b4) as -> by (unfold c; lia). reflexivity.
Qed.

Definition text (b : bytes) : Prop := exists cps, Forall scalar cps /\ b = flat_map encode cps.

Lemma text_cons c h r : encode c = h /\ scalar c -> text r -> text (h ++ r).
Proof. intros [<- S] (cps & F & ->). exists (c :: cps). split; auto. Qed.

Lemma valid_text n : forall b, (length b <= n)%nat -> utf8_valid b = true -> text b.
Proof.
  induction n as [|n IH]; intros b L V.
  { destruct b; [|simpl in L; lia]. exists []; auto. }
  destruct b as [|b1 r1]; [exists []; auto|]. simpl in L. cbn [utf8_valid] in V.
  destruct (b1 <=? 127) eqn:Q1.
  { apply N.leb_le in Q1. apply (text_cons b1 [b1]); [|apply IH; auto; lia].
    split; [|left; lia]. unfold encode. rewrite (proj2 (N.ltb_lt b1 128)) by lia. auto. }
  destruct r1 as [|b2 r2]; [discriminate|]. simpl in L.
  destruct (in_range 194 223 b1) eqn:Q2.
  { split_ranges. apply (text_cons ((b1 - 192) * 64 + (b2 - 128)) [b1; b2]); [apply encode_head2; lia|].
    apply IH; auto; lia. }
  destruct r2 as [|b3 r3]; [discriminate|]. simpl in L.
  destruct (b1 =? 224) eqn:Q3.
  { split_ranges. apply (text_cons _ [b1; b2; b3] r3 (encode_head3 b1 b2 b3 ltac:(lia) ltac:(lia) ltac:(lia) ltac:(lia) ltac:(lia))).
    apply IH; auto; lia. }
  destruct (in_range 225 236 b1 || in_range 238 239 b1) eqn:Q4.
  { apply orb_prop in Q4. assert (225 <= b1 <= 236 \/ 238 <= b1 <= 239) by (destruct Q4; split_ranges; lia).
    split_ranges. apply (text_cons _ [b1; b2; b3] r3 (encode_head3 b1 b2 b3 ltac:(lia) ltac:(lia) ltac:(lia) ltac:(lia) ltac:(lia))).
    apply IH; auto; lia. }
  destruct (b1 =? 237) eqn:Q5.
  { split_ranges. apply (text_cons _ [b1; b2; b3] r3 (encode_head3 b1 b2 b3 ltac:(lia) ltac:(lia) ltac:(lia) ltac:(lia) ltac:(lia))).
    apply IH; auto; lia. }
  destruct r3 as [|b4 r4]; [discriminate|]. simpl in L.
  assert (K : (240 <= b1 <= 244) /\ (128 <= b2 <= 191) /\ (128 <= b3 <= 191) /\ (128 <= b4 <= 191) /\
              (b1 = 240 -> 144 <= b2) /\ (b1 = 244 -> b2 <= 143) /\ utf8_valid r4 = true).
  { destruct (b1 =? 240) eqn:Q6; [split_ranges; repeat split; auto; lia|].
    destruct (in_range 241 243 b1) eqn:Q7; [split_ranges; repeat split; auto; lia|].
    destruct (b1 =? 244) eqn:Q8; [split_ranges; repeat split; auto; lia|discriminate]. }
  destruct K as (K1 & K2 & K3 & K4 & K5 & K6 & K7).
  apply (text_cons _ [b1; b2; b3; b4] r4 (encode_head4 b1 b2 b3 b4 K1 K2 K3 K4 K5 K6)). apply IH; auto; lia.
Qed.

Lemma leb_t a b : a <= b -> (a <=? b) = true. Proof. apply N.leb_le. Qed.
Lemma leb_f a b : b < a -> (a <=? b) = false. Proof. apply N.leb_gt. Qed.
Lemma eqb_f a b : a <> b -> (a =? b) = false. Proof. apply N.eqb_neq. Qed.
Lemma range_t lo hi b : lo <= b -> b <= hi -> in_range lo hi b = true.
Proof. intros; unfold in_range; rewrite !leb_t; auto. Qed.
Lemma range_f lo hi b : b < lo \/ hi < b -> in_range lo hi b = false.
Proof. intros [H|H]; unfold in_range; rewrite (leb_f _ _ H); auto using andb_false_r. Qed.
Lemma cont_t x : x < 64 -> cont (128 + x) = true.
Proof. intros; apply range_t; lia. Qed.

Lemma valid_encode c r : scalar c -> utf8_valid (encode c ++ r) = utf8_valid r.
Proof.
  intros S. unfold encode.
  destruct (N.ltb_spec c 128) as [L1|L1]; [cbn [app utf8_valid]; rewrite leb_t by lia; auto|].
  assert (M0 : c mod 64 < 64) by lia. assert (M1 : c / 64 mod 64 < 64) by lia.
  assert (M2 : c / 4096 mod 64 < 64) by lia.
  destruct (N.ltb_spec c 2048) as [L2|L2].
  { cbn [app utf8_valid]. rewrite leb_f by lia. rewrite range_t by lia. rewrite cont_t by auto. auto. }
  destruct (N.ltb_spec c 65536) as [L3|L3].
  { cbn [app utf8_valid]. rewrite leb_f by lia. rewrite (range_f 194 223) by lia.
    rewrite (cont_t (c mod 64)), (cont_t (c / 64 mod 64)) by auto.
    destruct (N.eqb_spec (224 + c / 4096) 224) as [Q|Q]; [rewrite range_t by lia; auto|].
    destruct (N.eqb_spec (224 + c / 4096) 237) as [Q2|Q2].
    - rewrite (range_f 225 236), (range_f 238 239) by lia. cbn [orb].
      rewrite range_t by (unfold scalar in S; lia). auto.
    - assert (in_range 225 236 (224 + c / 4096) || in_range 238 239 (224 + c / 4096) = true) as ->; [|auto].
      apply orb_true_iff. destruct (N.le_gt_cases (224 + c / 4096) 236); [left|right]; apply range_t; lia. }
  cbn [app utf8_valid]. rewrite leb_f by lia.
  set (h := 240 + c / 262144). assert (HH : 240 <= h) by (unfold h; lia).
  rewrite (range_f 194 223 h), (eqb_f h 224), (range_f 225 236 h), (range_f 238 239 h), (eqb_f h 237) by lia.
  cbn [orb]. unfold h. clear HH h.
  rewrite (cont_t (c mod 64)), (cont_t (c / 64 mod 64)), (cont_t (c / 4096 mod 64)) by auto.
  assert (U : c < 1114112) by (unfold scalar in S; lia).
  assert (D : c / 262144 = c / 4096 / 64) by (rewrite N.div_div by discriminate; reflexivity).
  assert (D1 : 16 <= c / 4096 <= 271) by lia. rewrite D. clear D. set (d := c / 4096) in *.
  destruct (N.eqb_spec (240 + d / 64) 240) as [Q|Q]; [rewrite (range_t 144 191 (128 + d mod 64)) by lia; auto|].
  destruct (N.eqb_spec (240 + d / 64) 244) as [Q2|Q2].
  - rewrite (range_f 241 243 (240 + d / 64)), (range_t 128 143 (128 + d mod 64)) by lia. auto.
  - rewrite (range_t 241 243 (240 + d / 64)) by lia. auto.
Qed.

(** The decoder accepts as the bytes of a string exactly the encodings of sequences of scalar values. *)
Theorem C17_strings_are_utf8 b :
  utf8_valid b = true <-> exists cps, Forall scalar cps /\ b = flat_map encode cps.
Proof.
  split; [apply (valid_text (length b)); auto|].
  intros (cps & F & ->). induction F as [|c cps S F IH]; [reflexivity|].
  cbn [flat_map]. rewrite valid_encode; auto.
Qed.
Print Assumptions C17_strings_are_utf8.

(** All four lengths, and the two sides of the surrogates. *)
Example C17_utf8_case :
  Forall scalar [97; 955; 8364; 128169; 55295; 57344; 1114111] /\
  flat_map encode [97; 955; 8364; 128169] = [97; 206; 187; 226; 130; 172; 240; 159; 146; 169] /\
  utf8_valid [97; 206; 187; 226; 130; 172; 240; 159; 146; 169] = true /\
  utf8_valid [237; 160; 128] = false /\ utf8_valid [192; 128] = false /\ utf8_valid [244; 144; 128; 128] = false.
Proof.
  split; [repeat constructor; unfold scalar; lia|]. repeat split; vm_compute; reflexivity.
Qed.
