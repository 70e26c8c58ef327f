(** Hashing, large objects, truncated blocks. *)
From Coq Require Import List NArith ZArith Bool Lia.
From Coq Require Import ZifyBool ZifyNat ZifyN.
From Verif Require Import CodecModel CodecJsModel CodecSpec CodecHashModel CodecProofs.
Import ListNotations.
Open Scope N_scope.
Ltac Zify.zify_post_hook ::= Z.div_mod_to_equations.

(** ** Hashing *)
Lemma json_hash_eq a : forall b, json_narrow a -> json_eqb a b = true -> json_hash a = json_hash b.
Proof.
  induction a as [| | |s|n|l IH|m IH] using json_ind2; intros b Hn; destruct b as [| | |s2|n2|l2|m2]; cbn [json_eqb]; try discriminate; intros He; try reflexivity.
  - destruct (bytes_eqb_spec s s2); [subst; reflexivity|discriminate].
  - apply N.eqb_eq in He. subst; reflexivity.
  - cbn [json_hash]. f_equal. cbn [json_narrow] in Hn. apply all_Forall in Hn.
    revert l2 He. induction IH as [|x r Hx Hr IHr]; intros [|y r2] He; try discriminate; [reflexivity|].
    apply andb_prop in He. destruct He as [He1 He2]. inversion Hn; subst.
    cbn [map concat]. rewrite (Hx y) by assumption. f_equal. apply IHr; assumption.
  - cbn [json_hash]. f_equal. cbn [json_narrow] in Hn. destruct Hn as [Hlen Hn].
    apply andb_prop in He. destruct He as [Hl He]. apply N.eqb_eq in Hl.
    destruct m as [|[k x] [|kv2 r]]; destruct m2 as [|[k' x'] [|kv2' r']]; unfold len in *; cbn [length] in *; try lia; [reflexivity|].
    cbn [map concat fst snd]. rewrite !app_nil_r. cbn [forallb fst snd assoc_get] in He.
    destruct (bytes_eqb_spec k k') as [->|]; [|discriminate]. rewrite andb_true_r in He.
    inversion IH as [|? ? Hx Hr]; subst. cbn [snd] in Hx. cbn [all fold_right snd] in Hn.
    f_equal. apply Hx; tauto.
Qed.

Lemma bytes_eqb_refl a : bytes_eqb a a = true.
Proof. destruct (bytes_eqb_spec a a); congruence. Qed.
Lemma bytes_eqb_eq a b : bytes_eqb a b = true -> a = b.
Proof. destruct (bytes_eqb_spec a b); congruence. Qed.

Lemma request_hash_eq a b :
  len (rq_headers a) <= 1 ->
  match rq_body a with Some (RBData j) => json_narrow j | _ => True end ->
  request_eqb a b = true -> request_hash a = request_hash b.
Proof.
  destruct a as [ma ua ha ba], b as [mb ub hb bb]; unfold request_eqb, request_hash; cbn [rq_method rq_url rq_headers rq_body].
  intros Hh Hb He. repeat (apply andb_prop in He; destruct He as [He ?]).
  apply bytes_eqb_eq in He. subst mb. match goal with H : bytes_eqb ua ub = true |- _ => apply bytes_eqb_eq in H; subst ub end.
  f_equal. f_equal. f_equal.
  - unfold headers_eqb in *. match goal with H : ((len ha =? len hb) && _) = true |- _ => apply andb_prop in H; destruct H as [Hl Hf] end.
    apply N.eqb_eq in Hl.
    destruct ha as [|[k x] [|]]; destruct hb as [|[k' x'] [|]]; unfold len in *; cbn [length] in *; try lia; [reflexivity|].
    cbn [forallb fst snd assoc_get] in Hf. destruct (bytes_eqb_spec k k') as [->|]; [|discriminate].
    rewrite andb_true_r in Hf. apply bytes_eqb_eq in Hf. subst; reflexivity.
  - unfold body_eqb in *. destruct ba as [[s|j|s]|]; destruct bb as [[t|j'|t]|]; try discriminate; try reflexivity;
    cbn [body_hash]; try (match goal with H : bytes_eqb _ _ = true |- _ => apply bytes_eqb_eq in H; subst; reflexivity end).
    rewrite (json_hash_eq j j'); auto.
Qed.

(** ** An object with 65536 keys *)
Definition big_obj (n : nat) : list (bytes * json) := map (fun i => (repeat 97 i, JNull)) (seq 0 n).

Lemma big_obj_nodup n : NoDup (map fst (big_obj n)).
Proof.
  unfold big_obj. rewrite map_map. cbn [fst].
  assert (H : forall a, NoDup (map (fun i => repeat 97 i) (seq a n))).
  { induction n as [|n IH]; intros a; cbn [seq map]; constructor; [|apply IH].
    intros Hin. apply in_map_iff in Hin. destruct Hin as [i [Hi Hin]]. apply in_seq in Hin.
    apply (f_equal (@length N)) in Hi. rewrite !repeat_length in Hi. lia. }
  apply H.
Qed.
Lemma repeat_a_ok i : rust_string (repeat 97 i).
Proof.
  split.
  - apply all_Forall, Forall_forall. intros x Hx. apply repeat_spec in Hx. lia.
  - induction i as [|i IH]; [reflexivity|]. exact IH.
Qed.
Lemma big_obj_ok n : json_ok (JObject (big_obj n)).
Proof.
  cbn [json_ok]. split; [apply big_obj_nodup|]. apply all_Forall, Forall_forall. intros kv Hin.
  unfold big_obj in Hin. apply in_map_iff in Hin. destruct Hin as [i [<- _]]. split; [apply repeat_a_ok|exact I].
Qed.
Lemma big_obj_len n : len (big_obj n) = N.of_nat n.
Proof. unfold len, big_obj. rewrite map_length, seq_length. reflexivity. Qed.
Lemma big_obj_total n : 2 * json_total (JObject (big_obj n)) = 6 + N.of_nat n * (N.of_nat n + 9).
Proof.
  cbn [json_total]. unfold big_obj.
  assert (H : forall a, 2 * fold_right (fun (kv : bytes * json) acc => 4 + len (fst kv) + json_total (snd kv) + acc) 0
                 (map (fun i => (repeat 97 i, JNull)) (seq a n)) = N.of_nat n * (N.of_nat n + 9 + 2 * N.of_nat a)).
  { induction n as [|n IH]; intros a; cbn [seq map fold_right fst snd json_total]; [lia|].
    specialize (IH (S a)). unfold len at 1. rewrite repeat_length. nia. }
  specialize (H 0%nat). lia.
Qed.

Lemma big_obj_lost n rest : len (big_obj n) = two16 ->
  enc_json (JObject (big_obj n)) ++ rest = [7; 0; 0] ++ concat (map (fun kv => enc_str (fst kv) ++ enc_json (snd kv)) (big_obj n)) ++ rest.
Proof. intros H. cbn [enc_json]. rewrite H. rewrite <- !app_assoc. reflexivity. Qed.

Lemma decode_empty_obj f b : json_decode (S f) ([7; 0; 0] ++ b) = ROk (JObject [], b).
Proof.
  cbn [app json_decode get_byte rbind].
  change (0 :: 0 :: b) with (be 2 0 ++ b). rewrite get_uint2 by (unfold two16; lia). cbn [rbind]. destruct f; reflexivity.
Qed.

Lemma large_object_lost : exists m, json_ok (JObject m) /\ json_total (JObject m) < two32 /\ len m = 65536 /\
  forall rest, json_from_block (enc_json (JObject m) ++ rest) <> ROk (JObject m, rest).
Proof.
  exists (big_obj (N.to_nat 65536)).
  pose proof (big_obj_len (N.to_nat 65536)) as Hlen. rewrite N2Nat.id in Hlen.
  refine (conj (big_obj_ok _) (conj _ (conj Hlen _))).
  - pose proof (big_obj_total (N.to_nat 65536)) as H. rewrite N2Nat.id in H. unfold two32. lia.
  - intros rest. rewrite big_obj_lost by exact Hlen. unfold json_from_block. rewrite decode_empty_obj.
    intros H. apply (f_equal (fun x => match x with ROk (JObject m, _) => len m | _ => 0 end)) in H. cbv beta iota in H.
    rewrite Hlen in H. discriminate.
Qed.

(** ** Truncation is the only cause of a panic *)
(** [b] padded with [k] zero bytes *)
Definition zeros (k : N) : bytes := repeat 0 (N.to_nat k).
Lemma len_zeros k : len (zeros k) = k.
Proof. unfold len, zeros. rewrite repeat_length. lia. Qed.
Lemma zeros_split k n : n <= k -> zeros k = zeros n ++ zeros (k - n).
Proof. intros H. unfold zeros. rewrite <- repeat_app. f_equal. lia. Qed.
Lemma zeros_cons k : 1 <= k -> zeros k = 0 :: zeros (k - 1).
Proof. intros H. rewrite (zeros_split k 1) by assumption. reflexivity. Qed.

Definition is_byte (x : N) : Prop := x < 256.
Definition pad_min : N := 2 * two32.
(** real data followed by a long zero tail *)
Definition inside (r : bytes) : Prop := exists b k, r = b ++ zeros k /\ all (fun x => x < 256) b /\ pad_min <= k.
(** inside of the zero tail, at least n bytes from its end *)
Definition tail (n : N) (r : bytes) : Prop := exists k, r = zeros k /\ n <= k.
Definition padded (r : bytes) : Prop := inside r \/ tail 16 r.

Lemma unbe_bound b : all (fun x => x < 256) b -> unbe b < 256 ^ len b.
Proof.
  induction b as [|x b IH] using rev_ind; intros H; [cbn; lia|].
  apply all_Forall in H. apply Forall_app in H. destruct H as [Hb Hx]. inversion Hx; subst.
  apply all_Forall in Hb. specialize (IH Hb). rewrite unbe_app, len_app. change (len [x]) with 1.
  rewrite N.pow_add_r. change (256 ^ 1) with 256. nia.
Qed.
Lemma all_app {A} (P : A -> Prop) a b : all P (a ++ b) <-> all P a /\ all P b.
Proof. rewrite !all_Forall. apply Forall_app. Qed.
Lemma all_zeros k : all (fun x => x < 256) (zeros k).
Proof. apply all_Forall, Forall_forall. intros x Hx. apply repeat_spec in Hx. subst; lia. Qed.
Lemma all_firstn {A} (P : A -> Prop) n l : all P l -> all P (firstn n l).
Proof. rewrite !all_Forall. intros H. rewrite <- (firstn_skipn n l) in H. apply Forall_app in H. tauto. Qed.
Lemma all_skipn {A} (P : A -> Prop) n l : all P l -> all P (skipn n l).
Proof. rewrite !all_Forall. intros H. rewrite <- (firstn_skipn n l) in H. apply Forall_app in H. tauto. Qed.


Lemma get_vec_zeros n k : n <= k -> get_vec n (zeros k) = ROk (zeros n, zeros (k - n)).
Proof.
  intros H. rewrite (zeros_split k n) by assumption. rewrite <- (len_zeros n) at 1. rewrite get_vec_app. reflexivity.
Qed.

(** reading [n] bytes, n < 2^32, from data + long tail: succeeds *)
Lemma get_vec_inside n r : n < two32 -> inside r ->
  exists v r', get_vec n r = ROk (v, r') /\ all (fun x => x < 256) v /\ (inside r' \/ tail (pad_min - n) r').
Proof.
  intros Hn [b [k [-> [Hb Hk]]]].
  destruct (N.leb_spec n (len b)) as [Hle|Hgt].
  - exists (firstn (N.to_nat n) b), (skipn (N.to_nat n) b ++ zeros k). repeat split.
    + unfold get_vec. rewrite len_app. destruct (N.leb_spec n (len b + len (zeros k))); [|lia].
      rewrite firstn_app, skipn_app. replace (N.to_nat n - length b)%nat with 0%nat by (unfold len in *; lia).
      cbn [firstn skipn]. rewrite app_nil_r. reflexivity.
    + apply all_firstn; assumption.
    + left. exists (skipn (N.to_nat n) b), k. repeat split; auto. apply all_skipn; assumption.
  - exists (b ++ zeros (n - len b)), (zeros (k - (n - len b))). repeat split.
    + unfold pad_min in *. rewrite (zeros_split k (n - len b)) by lia. rewrite app_assoc.
      replace n with (len (b ++ zeros (n - len b))) at 1 by (rewrite len_app, len_zeros; lia).
      apply get_vec_app.
    + apply all_app. split; [assumption|apply all_zeros].
    + right. exists (k - (n - len b)). split; [reflexivity|lia].
Qed.

Lemma get_uint_inside n r : n <= 8 -> inside r ->
  exists v r', get_uint n r = ROk (v, r') /\ v < 256 ^ n /\ (inside r' \/ tail (pad_min - 8) r').
Proof.
  intros Hn Hi. destruct (get_vec_inside n r ltac:(unfold two32; lia) Hi) as [v [r' [E [Hv Hr]]]].
  exists (unbe v), r'. unfold get_uint. rewrite E. cbn [rbind]. split; [reflexivity|]. split.
  - apply get_vec_len in E. destruct E as [_ <-]. apply unbe_bound; assumption.
  - destruct Hr as [Hr|[k [-> Hk]]]; [left; assumption|right; exists k; split; [reflexivity|lia]].
Qed.

Lemma get_vec_padded n r : n < two32 -> inside r \/ tail (pad_min - 8) r ->
  exists v r', get_vec n r = ROk (v, r') /\ padded r'.
Proof.
  intros Hn [Hi|[k [-> Hk]]].
  - destruct (get_vec_inside n r Hn Hi) as [v [r' [E [_ Hr]]]]. exists v, r'. split; [assumption|].
    destruct Hr as [Hr|[k [-> Hk]]]; [left; assumption|right; exists k; split; [reflexivity|unfold pad_min, two32 in *; lia]].
  - exists (zeros n), (zeros (k - n)). unfold pad_min, two32 in *. split; [apply get_vec_zeros; lia|].
    right. exists (k - n). split; [reflexivity|lia].
Qed.

Lemma padded_of r : inside r \/ tail (pad_min - 8) r -> padded r.
Proof. intros [H|[k [-> Hk]]]; [left; assumption|right; exists k; unfold pad_min, two32 in *; split; [reflexivity|lia]]. Qed.

(** never a panic, and the rest stays padded *)
Definition fine {A} (m : res (A * bytes)) : Prop :=
  match m with ROk (_, r) => padded r | RErr => True | RPanic => False | RFuel => True end.
(** neither a panic nor a success *)
Definition fails {A} (m : res (A * bytes)) : Prop :=
  match m with ROk _ => False | RErr => True | RPanic => False | RFuel => True end.
Definition good {A} (dec : bytes -> res (A * bytes)) : Prop :=
  (forall r, inside r -> fine (dec r)) /\ (forall r, tail 1 r -> fails (dec r)).

Lemma tail_weaken n n' r : n' <= n -> tail n r -> tail n' r.
Proof. intros H [k [-> Hk]]. exists k. split; [reflexivity|lia]. Qed.

Lemma fine_lstring r : inside r -> fine (get_lstring r).
Proof.
  intros Hi. unfold get_lstring. destruct (get_uint_inside 4 r ltac:(lia) Hi) as [v [r' [E [Hv Hr]]]].
  rewrite E. cbn [rbind]. unfold get_string. destruct (get_vec_padded v r' Hv Hr) as [s [r2 [E2 Hp]]].
  rewrite E2. cbn [rbind]. destruct (utf8_valid s); cbn; auto.
Qed.
Lemma lstring_tail r : tail 16 r -> exists s r', get_lstring r = ROk (s, r') /\ tail 1 r'.
Proof.
  intros [k [-> Hk]]. unfold get_lstring, get_uint. rewrite get_vec_zeros by lia. cbn [rbind].
  change (unbe (zeros 4)) with 0. unfold get_string. rewrite get_vec_zeros by lia. cbn [rbind].
  exists [], (zeros (k - 4 - 0)). split; [reflexivity|]. eexists; split; [reflexivity|lia].
Qed.

Lemma fine_good {A} (dec : bytes -> res (A * bytes)) r : good dec -> padded r -> fine (dec r).
Proof.
  intros [G1 G2] [Hi|Ht]; [apply G1; assumption|].
  specialize (G2 r (tail_weaken 16 1 r ltac:(lia) Ht)). unfold fine, fails in *. destruct (dec r) as [[? ?]| | |]; tauto.
Qed.

Lemma fine_read_list {A} (item : bytes -> res (A * bytes)) : good item ->
  forall fuel n r, padded r -> fine (read_list item fuel n r).
Proof.
  intros G fuel; induction fuel as [|f IH]; intros n r Hp; cbn [read_list]; destruct (n =? 0); cbn; auto.
  pose proof (fine_good item r G Hp) as Hf. destruct (item r) as [[x r1]| | |]; cbn [rbind fine] in *; auto.
  specialize (IH (n - 1) r1 Hf). destruct (read_list item f (n - 1) r1) as [[xs r2]| | |]; cbn [rbind fine] in *; auto.
Qed.

Lemma fine_read_map {A} key (item : bytes -> res (A * bytes)) :
  (forall r, inside r -> fine (key r)) ->
  (forall r, tail 16 r -> fails (key r) \/ exists s r', key r = ROk (s, r') /\ tail 1 r') ->
  good item ->
  forall fuel n acc r, padded r -> fine (read_map key item fuel n acc r).
Proof.
  intros K1 K2 G fuel; induction fuel as [|f IH]; intros n acc r Hp; cbn [read_map]; destruct (n =? 0); cbn; auto.
  destruct Hp as [Hi|Ht].
  - specialize (K1 r Hi). destruct (key r) as [[k r1]| | |]; cbn [rbind fine] in *; auto.
    pose proof (fine_good item r1 G K1) as Hf. destruct (item r1) as [[x r2]| | |]; cbn [rbind fine] in *; auto.
  - specialize (K2 r Ht). destruct K2 as [K2|[s [r' [E Hr]]]].
    + destruct (key r) as [[k r1]| | |]; cbn [rbind fine fails] in *; tauto.
    + rewrite E. cbn [rbind]. destruct G as [_ G2]. specialize (G2 r' Hr). destruct (item r') as [[x r2]| | |]; cbn [rbind fine fails] in *; tauto.
Qed.

Lemma fine_bind_ok {A B} (m : res (A * bytes)) (g : A -> B) : fine m -> fine (rbind m (fun p => let (x, r) := p in ROk (g x, r))).
Proof. destruct m as [[x r]| | |]; cbn; auto. Qed.

Lemma fine_uint_ok {B} n (g : N -> B) r : n <= 8 -> inside r -> fine (rbind (get_uint n r) (fun p => let (x, r) := p in ROk (g x, r))).
Proof.
  intros Hn Hi. destruct (get_uint_inside n r Hn Hi) as [v [r' [E [_ Hr]]]]. rewrite E. cbn. apply padded_of; assumption.
Qed.

Lemma inside_cons r : inside r -> exists x r', r = x :: r' /\ (inside r' \/ (x = 0 /\ tail 1 r')).
Proof.
  intros [b [k [-> [Hb Hk]]]]. destruct b as [|x b].
  - unfold pad_min, two32 in *. exists 0, (zeros (k - 1)). cbn [app]. split; [apply zeros_cons; lia|]. right. split; [reflexivity|].
    eexists; split; [reflexivity|lia].
  - exists x, (b ++ zeros k). split; [reflexivity|]. left. exists b, k. cbn [all fold_right] in Hb. repeat split; try tauto.
Qed.

Lemma json_good fuel : good (json_decode fuel).
Proof.
  induction fuel as [|f IH]; [split; intros; exact I|]. split.
  - intros r Hi. destruct (inside_cons r Hi) as [tag [r' [-> Hr]]]. cbn [json_decode get_byte rbind].
    destruct Hr as [Hr|[-> _]]; [|exact I].
    destruct tag as [|[[[p|p|]|[p|p|]|]|[[p|p|]|[p|p|]|]|]]; try exact I; try (left; assumption).
    + destruct (get_uint_inside 2 r' ltac:(lia) Hr) as [v [r2 [E [_ Hr2]]]]. rewrite E. cbn [rbind].
      apply (fine_bind_ok _ JObject). apply fine_read_map; auto using fine_lstring, padded_of.
      intros; right; apply lstring_tail; assumption.
    + apply (fine_uint_ok 8 JNumber); [lia|assumption].
    + destruct (get_uint_inside 4 r' ltac:(lia) Hr) as [v [r2 [E [_ Hr2]]]]. rewrite E. cbn [rbind].
      apply (fine_bind_ok _ JList). apply fine_read_list; auto using padded_of.
    + apply (fine_bind_ok _ JString). apply fine_lstring; assumption.
  - intros r [k [-> Hk]]. rewrite zeros_cons by lia. exact I.
Qed.

Lemma val_good fuel : good (val_decode fuel).
Proof.
  induction fuel as [|f IH]; [split; intros; exact I|]. split.
  - intros r Hi. destruct (inside_cons r Hi) as [tag [r' [-> Hr]]]. cbn [val_decode get_byte rbind].
    destruct Hr as [Hr|[-> _]]; [|exact I].
    destruct tag as [|[[[[p|p|]|[p|p|]|]|[[p|p|]|[p|p|]|]|]|[[[p|p|]|[p|p|]|]|[[p|p|]|[p|p|]|]|]|]]; try exact I; try (left; assumption);
      try (match goal with |- fine (rbind (get_uint ?n _) (fun p => let (v, r2) := p in ROk (?g, _))) =>
             apply (fine_uint_ok n _); [lia|assumption] end).
    all: try (apply (fine_bind_ok _ VString); apply fine_lstring; assumption).
    all: try (apply (fine_bind_ok _ VJson); apply json_good; assumption).
    all: try (destruct (get_uint_inside 4 r' ltac:(lia) Hr) as [v [r2 [E [Hv Hr2]]]]; rewrite E; cbn [rbind]).
    all: try (destruct (get_uint_inside 2 r' ltac:(lia) Hr) as [v [r2 [E [Hv Hr2]]]]; rewrite E; cbn [rbind]).
    all: try (destruct (get_uint_inside 8 r' ltac:(lia) Hr) as [v [r2 [E [Hv Hr2]]]]; rewrite E; cbn [rbind]).
    all: try (apply padded_of; assumption).
    all: try (apply (fine_bind_ok _ VList); apply fine_read_list; auto using padded_of).
    all: try (destruct (get_vec_padded v r2 Hv Hr2) as [s [r3 [E3 Hp]]]; rewrite E3; exact Hp).
    apply (fine_bind_ok _ VObject). apply fine_read_map; auto using padded_of.
    + intros q Hq. unfold val_key. pose proof (proj1 IH q Hq) as Hf. destruct (val_decode f q) as [[w q']| | |]; cbn [rbind fine] in *; auto.
      destruct w; cbn; auto.
    + intros q Hq. left. unfold val_key. pose proof (proj2 IH q (tail_weaken 16 1 q ltac:(lia) Hq)) as Hf.
      destruct (val_decode f q) as [[w q']| | |]; cbn [rbind fails] in *; tauto.
  - intros r [k [-> Hk]]. rewrite zeros_cons by lia. exact I.
Qed.

Lemma panic_only_if_truncated b : all (fun x => x < 256) b -> exists ext, all (fun x => x < 256) ext /\ from_block (b ++ ext) <> RPanic.
Proof.
  intros Hb. exists (zeros pad_min). split; [apply all_zeros|].
  unfold from_block.
  pose proof (proj1 (val_good (S (length (b ++ zeros pad_min)))) (b ++ zeros pad_min)) as H.
  assert (Hi : inside (b ++ zeros pad_min)) by (exists b, pad_min; repeat split; auto; lia).
  specialize (H Hi). destruct (val_decode _ _) as [[v r]| | |]; cbn [rbind fine] in *; congruence || tauto.
Qed.
