(** Lemmas about the TypeScript side of the codec. *)
From Coq Require Import List NArith ZArith Bool Lia.
From Coq Require Import ZifyBool ZifyNat ZifyN.
From Verif Require Import CodecModel CodecJsModel CodecSpec CodecProofs.
Import ListNotations.
Open Scope N_scope.
Ltac Zify.zify_post_hook ::= Z.div_mod_to_equations.

Lemma strip_bom_plain s : no_bom s -> strip_bom s = s.
Proof.
  intros H. unfold strip_bom.
  destruct s as [|a s]; [reflexivity|].
  destruct s as [|b s]; [repeat (match goal with |- context [match ?x with _ => _ end] => is_var x; destruct x end; try reflexivity)|].
  destruct s as [|c s]; [repeat (match goal with |- context [match ?x with _ => _ end] => is_var x; destruct x end; try reflexivity)|].
  destruct (N.eqb_spec a 239) as [->|Ha].
  - destruct (N.eqb_spec b 187) as [->|Hb].
    + destruct (N.eqb_spec c 191) as [->|Hc]; [exfalso; eapply H; reflexivity|].
      repeat (match goal with |- context [match ?x with _ => _ end] => is_var x; destruct x end; try reflexivity; try congruence).
    + repeat (match goal with |- context [match ?x with _ => _ end] => is_var x; destruct x end; try reflexivity; try congruence).
  - repeat (match goal with |- context [match ?x with _ => _ end] => is_var x; destruct x end; try reflexivity; try congruence).
Qed.

Section Dec.
Variable lossy : bytes -> bytes.

Lemma js_get_string_enc s rest : utf8_valid s = true -> no_bom s -> len s < two32 ->
  js_get_string lossy (enc_str s ++ rest) = ROk (s, rest).
Proof.
  intros Hu Hb Hl. unfold js_get_string, enc_str. rewrite <- app_assoc, get_uint4 by apply as_u32_lt.
  cbn [rbind]. rewrite as_u32_id by assumption. rewrite get_vec_app. cbn [rbind].
  unfold text_decode. rewrite strip_bom_plain by assumption. rewrite Hu. reflexivity.
Qed.

Lemma js_assign_fresh {A} k (x : A) m : k <> proto_key -> ~ In k (map fst m) -> js_assign k x m = m ++ [(k, x)].
Proof.
  intros Hp Hn. unfold js_assign. destruct (bytes_eqb_spec k proto_key); [contradiction|]. apply assoc_insert_fresh; assumption.
Qed.

(** decoding [e] yields [x] *)
Lemma read_list_js {A B} (dec : nat -> bytes -> res (B * bytes)) (enc : A -> bytes) (g : A -> B) (l : list A) :
  Forall (fun x => decodes dec (g x) (enc x)) l -> Forall (fun x => (1 <= length (enc x))%nat) l ->
  forall f fuel rest, (length (concat (map enc l)) <= f)%nat -> (length (concat (map enc l)) <= fuel)%nat ->
    read_list (dec f) fuel (len l) (concat (map enc l) ++ rest) = ROk (map g l, rest).
Proof.
  intros HF. induction HF as [|x r Hx Hr IH]; intros Hpos f fuel rest Hf Hfuel; cbn [map concat] in *.
  - destruct fuel; reflexivity.
  - inversion Hpos as [|? ? Hp Hps]; subst. rewrite app_length in *.
    rewrite len_cons. destruct fuel as [|fuel]; [lia|].
    cbn [read_list]. destruct (N.eqb_spec (1 + len r) 0); [lia|].
    rewrite <- app_assoc. rewrite Hx by lia. cbn [rbind].
    replace (1 + len r - 1) with (len r) by lia. rewrite IH by (auto; lia). reflexivity.
Qed.

Lemma js_read_map_ok {A B} (dec : nat -> bytes -> res (B * bytes)) (enc : A -> bytes) (g : A -> B) (m : list (bytes * A)) :
  Forall (fun kv => decodes dec (g (snd kv)) (enc (snd kv))) m ->
  Forall (fun kv => utf8_valid (fst kv) = true /\ plain_key (fst kv) /\ len (fst kv) < two32) m ->
  forall acc f fuel rest, NoDup (map fst acc ++ map fst m) ->
    let e := concat (map (fun kv => enc_str (fst kv) ++ enc (snd kv)) m) in
    (length e <= f)%nat -> (length e <= fuel)%nat ->
    js_read_map lossy (dec f) fuel (len m) acc (e ++ rest) = ROk (acc ++ map (fun kv => (fst kv, g (snd kv))) m, rest).
Proof.
  intros HF. induction HF as [|[k x] r Hx Hr IH]; intros Hk acc f fuel rest Hnd e Hf Hfuel; subst e; cbn [map concat fst snd] in *.
  - destruct fuel; cbn [js_read_map]; rewrite app_nil_r; reflexivity.
  - inversion Hk as [|? ? [Hu [[Hb Hp] Hl]] Hks]; subst. cbn [fst] in Hu, Hb, Hp, Hl.
    pose proof (len_enc_str k) as Hes. unfold len in Hes. rewrite !app_length in *.
    rewrite len_cons. destruct fuel as [|fuel]; [lia|].
    cbn [js_read_map]. destruct (N.eqb_spec (1 + len r) 0); [lia|].
    rewrite <- !app_assoc. rewrite js_get_string_enc by assumption. cbn [rbind].
    rewrite Hx by lia. cbn [rbind]. replace (1 + len r - 1) with (len r) by lia.
    rewrite js_assign_fresh.
    + replace (acc ++ (k, g x) :: map (fun kv => (fst kv, g (snd kv))) r)
        with ((acc ++ [(k, g x)]) ++ map (fun kv => (fst kv, g (snd kv))) r) by (rewrite <- app_assoc; reflexivity).
      apply IH; auto; try lia. rewrite map_app. cbn [map fst]. rewrite <- app_assoc. exact Hnd.
    + exact Hp.
    + apply NoDup_remove_2 in Hnd. intros Hin. apply Hnd, in_or_app; tauto.
Qed.

Lemma jsjson_decode_enc j : json_ok j -> json_small j -> json_plain j -> json_total j < two32 ->
  decodes (jsjson_decode lossy) (js_of_json j) (enc_json j).
Proof.
  induction j as [| | |s|b|l IH|m IH] using json_ind2; intros Hok Hsm Hpl Htot fuel rest Hfuel;
    cbn [json_ok json_small json_total json_plain] in *;
    (destruct fuel as [|fuel]; [pose proof (enc_json_pos JNull); cbn [enc_json length app] in Hfuel; lia|]).
  1-3: reflexivity.
  - destruct Hok as [_ Hu]. cbn [enc_json app jsjson_decode get_byte rbind]. rewrite js_get_string_enc by (auto; lia). reflexivity.
  - cbn [enc_json app jsjson_decode get_byte rbind]. rewrite get_uint8 by assumption. reflexivity.
  - cbn [enc_json] in *. rewrite !app_length, be_length in Hfuel. cbn [length] in Hfuel.
    cbn [app jsjson_decode get_byte rbind]. rewrite <- app_assoc. rewrite get_uint4 by apply as_u32_lt. cbn [rbind].
    pose proof (len_le_total_list json_total l json_total_pos).
    rewrite as_u32_id by lia. rewrite (read_list_js (jsjson_decode lossy) enc_json js_of_json l); [reflexivity| | |lia|lia].
    + apply all_Forall in Hok, Hsm, Hpl. assert (Hm := total_member json_total l two32 ltac:(lia)).
      rewrite Forall_forall in *. intros x Hx. apply IH; auto.
    + apply Forall_forall; intros; apply enc_json_pos.
  - cbn [enc_json] in *. rewrite !app_length, be_length in Hfuel. cbn [length] in Hfuel.
    cbn [app jsjson_decode get_byte rbind]. rewrite <- app_assoc. rewrite get_uint2 by apply as_u16_lt. cbn [rbind].
    destruct Hok as [Hnd Hok]. destruct Hsm as [Hlen Hsm].
    rewrite as_u16_id by assumption.
    assert (Hm := total_member_map json_total m two32 ltac:(lia)).
    apply all_Forall in Hok, Hsm, Hpl.
    rewrite (js_read_map_ok (jsjson_decode lossy) enc_json js_of_json m); [reflexivity| | |exact Hnd|lia|lia].
    + rewrite Forall_forall in *. intros kv Hkv. apply IH; auto; [apply (Hok kv Hkv)|apply (Hpl kv Hkv)|apply (Hm kv Hkv)].
    + rewrite Forall_forall in *. intros kv Hkv. repeat split; [apply (Hok kv Hkv)|apply (Hpl kv Hkv)|apply (Hpl kv Hkv)|apply (Hm kv Hkv)].
Qed.

Lemma jsv_decode_enc v : val_ok v -> val_small v -> val_plain v -> val_total v < two32 ->
  decodes (jsv_decode lossy) (js_of_val v) (enc_val v).
Proof.
  induction v as [n|n|n|n|n| | | | |b|s|l IH|m IH|j] using val_ind2; intros Hok Hsm Hpl Htot fuel rest Hfuel;
    cbn [val_ok val_small val_plain val_total] in *;
    (destruct fuel as [|fuel]; [cbn [enc_val length app] in Hfuel; lia|]).
  6-9: reflexivity.
  1-5: cbn [enc_val app jsv_decode get_byte rbind].
  - rewrite get_uint4 by assumption; reflexivity.
  - rewrite get_uint4 by apply of_signed_lt32; cbn [rbind]; rewrite signed_rt32 by assumption; reflexivity.
  - rewrite get_uint8 by assumption; reflexivity.
  - rewrite get_uint8 by apply of_signed_lt64; cbn [rbind]; rewrite signed_rt64 by assumption; reflexivity.
  - rewrite get_uint8 by assumption; reflexivity.
  - cbn [enc_val app jsv_decode get_byte rbind]. unfold enc_str. rewrite <- app_assoc, get_uint4 by apply as_u32_lt.
    cbn [rbind]. rewrite as_u32_id by lia. rewrite get_vec_app. reflexivity.
  - destruct Hok as [_ Hu]. cbn [enc_val app jsv_decode get_byte rbind]. rewrite js_get_string_enc by (auto; lia). reflexivity.
  - cbn [enc_val] in *. rewrite !app_length, be_length in Hfuel. cbn [length] in Hfuel.
    cbn [app jsv_decode get_byte rbind]. rewrite <- app_assoc. rewrite get_uint4 by apply as_u32_lt. cbn [rbind].
    pose proof (len_le_total_list val_total l val_total_pos).
    rewrite as_u32_id by lia. rewrite (read_list_js (jsv_decode lossy) enc_val js_of_val l); [reflexivity| | |lia|lia].
    + apply all_Forall in Hok, Hsm, Hpl. assert (Hm := total_member val_total l two32 ltac:(lia)).
      rewrite Forall_forall in *. intros x Hx. apply IH; auto.
    + apply Forall_forall; intros; apply enc_val_pos.
  - cbn [enc_val] in *. rewrite !app_length, be_length in Hfuel. cbn [length] in Hfuel.
    cbn [app jsv_decode get_byte rbind]. rewrite <- app_assoc. rewrite get_uint2 by apply as_u16_lt. cbn [rbind].
    destruct Hok as [Hnd Hok]. destruct Hsm as [Hlen Hsm].
    rewrite as_u16_id by assumption.
    assert (Hm := total_member_map val_total m two32 ltac:(lia)).
    apply all_Forall in Hok, Hsm, Hpl.
    rewrite (js_read_map_ok (jsv_decode lossy) enc_val js_of_val m); [reflexivity| | |exact Hnd|lia|lia].
    + rewrite Forall_forall in *. intros kv Hkv. apply IH; auto; [apply (Hok kv Hkv)|apply (Hpl kv Hkv)|apply (Hm kv Hkv)].
    + rewrite Forall_forall in *. intros kv Hkv. repeat split; [apply (Hok kv Hkv)|apply (Hpl kv Hkv)|apply (Hpl kv Hkv)|apply (Hm kv Hkv)].
  - cbn [enc_val] in *. rewrite app_length in Hfuel. cbn [length] in Hfuel.
    cbn [app jsv_decode get_byte rbind]. rewrite jsjson_decode_enc by (auto; lia). reflexivity.
Qed.

Lemma js_value_decode_enc v : val_ok v -> val_small v -> val_plain v -> val_total v < two32 ->
  js_value_decode lossy (enc_val v) = ROk (js_of_val v).
Proof.
  intros. unfold js_value_decode. pose proof (jsv_decode_enc v ltac:(assumption) ltac:(assumption) ltac:(assumption) ltac:(assumption)) as Hd.
  specialize (Hd (S (length (enc_val v))) [] ltac:(lia)). rewrite app_nil_r in Hd. rewrite Hd. reflexivity.
Qed.
End Dec.

(** ** Encoding in JavaScript produces the same bytes *)
Definition jok (f : wblock -> option wblock) (data : bytes) : Prop :=
  forall w, len (w_out w) + len data <= w_size w ->
    f w = Some {| w_size := w_size w; w_out := w_out w ++ data |}.

Lemma js_put_ok data : jok (js_put data) data.
Proof. intros w Hl. unfold js_put. destruct (N.leb_spec (len (w_out w) + len data) (w_size w)); [reflexivity|lia]. Qed.

Lemma js_put_buffer_ok s : jok (js_put_buffer s) (enc_str s).
Proof.
  intros w Hl. unfold js_put_buffer, enc_str in *. rewrite len_app in Hl.
  rewrite js_put_ok by lia. cbn [w_size w_out]. rewrite app_assoc. reflexivity.
Qed.

Lemma jok_seq f g a b : jok f a -> jok g b -> jok (fun w => obind (f w) g) (a ++ b).
Proof.
  intros Hf Hg w Hl. rewrite len_app in Hl. cbn beta. rewrite Hf by lia. cbn [obind].
  rewrite Hg; cbn [w_size w_out]; rewrite ?len_app; try lia. rewrite app_assoc. reflexivity.
Qed.
Lemma jok_fold_list {A} (f : A -> wblock -> option wblock) (enc : A -> bytes) (l : list A) :
  Forall (fun x => jok (f x) (enc x)) l ->
  jok (fun w => fold_left (fun acc (g : wblock -> option wblock) => obind acc g) (map f l) (Some w)) (concat (map enc l)).
Proof.
  intros HF. induction HF as [|x r Hx Hr IH]; intros w Hl; cbn [map fold_left concat] in *.
  - rewrite app_nil_r. destruct w; reflexivity.
  - rewrite len_app in Hl. cbn [obind]. rewrite Hx by lia.
    rewrite IH; cbn [w_size w_out]; rewrite ?len_app; try lia. rewrite app_assoc. reflexivity.
Qed.
Lemma jok_fold_map {A} (f : A -> wblock -> option wblock) (enc : A -> bytes) (m : list (bytes * A)) :
  Forall (fun kv => jok (f (snd kv)) (enc (snd kv))) m ->
  jok (fun w => fold_left (fun acc (kf : bytes * (wblock -> option wblock)) => obind (obind acc (js_put_buffer (fst kf))) (snd kf))
                          (map (fun kv => (fst kv, f (snd kv))) m) (Some w))
      (concat (map (fun kv => enc_str (fst kv) ++ enc (snd kv)) m)).
Proof.
  intros HF. induction HF as [|[k x] r Hx Hr IH]; intros w Hl; cbn [map fold_left concat fst snd] in *.
  - rewrite app_nil_r. destruct w; reflexivity.
  - rewrite !len_app in Hl. cbn [obind].
    rewrite (js_put_buffer_ok k) by lia. cbn [obind]. rewrite Hx; cbn [w_size w_out]; rewrite ?len_app; try lia.
    rewrite IH; cbn [w_size w_out]; rewrite ?len_app; try lia. rewrite !app_assoc. reflexivity.
Qed.

Lemma Forall_map_iff {A B} (P : B -> Prop) (g : A -> B) l : Forall (fun x => P (g x)) l -> Forall P (map g l).
Proof. induction 1; cbn; constructor; auto. Qed.

Lemma jsjson_save_ok j : jok (jsjson_save (js_of_json j)) (enc_json j).
Proof.
  induction j as [| | |s|b|l IH|m IH] using json_ind2; cbn [js_of_json jsjson_save enc_json].
  1-3: apply js_put_ok.
  - exact (jok_seq _ _ _ _ (js_put_ok _) (js_put_buffer_ok s)).
  - exact (jok_seq _ _ _ _ (js_put_ok _) (js_put_ok _)).
  - rewrite app_assoc. unfold len at 1. rewrite map_length, map_map.
    apply (jok_seq _ _ _ _ (jok_seq _ _ _ _ (js_put_ok _) (js_put_ok _)) (jok_fold_list _ _ _ IH)).
  - rewrite app_assoc. unfold len at 1. rewrite map_length, map_map. cbn [fst snd].
    apply (jok_seq _ _ _ _ (jok_seq _ _ _ _ (js_put_ok _) (js_put_ok _))
             (jok_fold_map (fun x => jsjson_save (js_of_json x)) _ _ IH)).
Qed.

Lemma jsv_save_ok v : val_ok v -> jok (jsv_save (js_of_val v)) (enc_val v).
Proof.
  induction v as [n|n|n|n|n| | | | |b|s|l IH|m IH|j] using val_ind2; cbn [js_of_val jsv_save enc_val val_ok]; intros Hok;
    try apply js_put_ok; try exact (jok_seq _ _ _ _ (js_put_ok _) (js_put_ok _)).
  - rewrite as_u32_id by assumption. exact (jok_seq _ _ _ _ (js_put_ok _) (js_put_ok _)).
  - rewrite N.mod_small by assumption. exact (jok_seq _ _ _ _ (js_put_ok _) (js_put_ok _)).
  - exact (jok_seq _ _ _ _ (js_put_ok _) (js_put_buffer_ok b)).
  - exact (jok_seq _ _ _ _ (js_put_ok _) (js_put_buffer_ok s)).
  - rewrite app_assoc. unfold len at 1. rewrite map_length, map_map.
    apply all_Forall in Hok.
    assert (IH' : Forall (fun x => jok (jsv_save (js_of_val x)) (enc_val x)) l)
      by (rewrite Forall_forall in *; intros x Hx; apply IH; auto).
    apply (jok_seq _ _ _ _ (jok_seq _ _ _ _ (js_put_ok _) (js_put_ok _)) (jok_fold_list _ _ _ IH')).
  - rewrite app_assoc. unfold len at 1. rewrite map_length, map_map. cbn [fst snd].
    destruct Hok as [_ Hok]. apply all_Forall in Hok.
    assert (IH' : Forall (fun kv => jok (jsv_save (js_of_val (snd kv))) (enc_val (snd kv))) m)
      by (rewrite Forall_forall in *; intros x Hx; apply IH; auto; apply (Hok x Hx)).
    apply (jok_seq _ _ _ _ (jok_seq _ _ _ _ (js_put_ok _) (js_put_ok _))
             (jok_fold_map (fun x => jsv_save (js_of_val x)) _ _ IH')).
  - exact (jok_seq _ _ _ _ (js_put_ok _) (jsjson_save_ok j)).
Qed.

Lemma jfold_list {A} (tot : A -> N) (l : list A) : forall a,
  fold_left (fun sum p => sum + p) (map tot l) a = a + fold_right (fun x acc => tot x + acc) 0 l.
Proof. induction l as [|x r IH]; intros a; cbn [map fold_left fold_right]; [lia|]. rewrite IH. lia. Qed.
Lemma jfold_map {A} (tot : A -> N) (m : list (bytes * A)) : forall a,
  fold_left (fun sum kv => sum + (4 + len (fst kv)) + snd kv) (map (fun kv => (fst kv, tot (snd kv))) m) a
  = a + fold_right (fun kv acc => 4 + len (fst kv) + tot (snd kv) + acc) 0 m.
Proof. induction m as [|[k x] r IH]; intros a; cbn [map fold_left fold_right fst snd]; [lia|]. rewrite IH. lia. Qed.

Lemma map_ext_Forall' {A B} (f g : A -> B) l : Forall (fun x => f x = g x) l -> map f l = map g l.
Proof. induction 1; cbn; congruence. Qed.

Lemma jsjson_size_total j : jsjson_size (js_of_json j) = json_total j.
Proof.
  induction j as [| | |s|b|l IH|m IH] using json_ind2; cbn [js_of_json jsjson_size json_total]; try reflexivity.
  - rewrite map_map, (map_ext_Forall' _ json_total _ IH), jfold_list. lia.
  - rewrite map_map. cbn [fst snd].
    rewrite (map_ext_Forall' _ (fun kv => (fst kv, json_total (snd kv)))).
    + rewrite jfold_map. lia.
    + rewrite Forall_forall in *. intros x Hx. rewrite (IH x Hx). reflexivity.
Qed.
Lemma jsv_size_total v : jsv_size (js_of_val v) = val_total v.
Proof.
  induction v as [n|n|n|n|n| | | | |b|s|l IH|m IH|j] using val_ind2; cbn [js_of_val jsv_size val_total]; try reflexivity; try lia.
  - rewrite map_map, (map_ext_Forall' _ val_total _ IH), jfold_list. lia.
  - rewrite map_map. cbn [fst snd].
    rewrite (map_ext_Forall' _ (fun kv => (fst kv, val_total (snd kv)))).
    + rewrite jfold_map. lia.
    + rewrite Forall_forall in *. intros x Hx. rewrite (IH x Hx). reflexivity.
  - rewrite jsjson_size_total. reflexivity.
Qed.

Lemma js_save_enc v : val_ok v -> v <> VUndefined -> js_save_to_buffer (js_of_val v) = Some (Some (enc_val v)).
Proof.
  intros Hok Hu. unfold js_save_to_buffer.
  assert (E : match jsv_save (js_of_val v) {| w_size := jsv_size (js_of_val v); w_out := [] |} with
    | Some w => if w_size w =? len (w_out w) then Some (Some (w_out w)) else None
    | None => None end = Some (Some (enc_val v))).
  { rewrite (jsv_save_ok v Hok); cbn [w_size w_out app]; rewrite jsv_size_total.
    - rewrite len_enc_val, N.eqb_refl. reflexivity.
    - rewrite len_enc_val. cbn. lia. }
  destruct v; try exact E. contradiction.
Qed.

(** every JavaScript value is the denotation of a Rust value *)
Section JsInd.
  Variable P : jsjson -> Prop.
  Hypothesis HB : forall b, P (SBool b).
  Hypothesis HN : P SNull.
  Hypothesis HM : forall b, P (SNum b).
  Hypothesis HS : forall s, P (SStr s).
  Hypothesis HL : forall l, Forall P l -> P (SArr l).
  Hypothesis HO : forall m, Forall (fun kv => P (snd kv)) m -> P (SObj m).
  Fixpoint jsjson_ind2 (j : jsjson) : P j :=
    match j with
    | SBool b => HB b | SNull => HN | SNum b => HM b | SStr s => HS s
    | SArr l => HL l ((fix go (l : list jsjson) : Forall P l :=
        match l with [] => Forall_nil _ | x :: r => Forall_cons _ (jsjson_ind2 x) (go r) end) l)
    | SObj m => HO m ((fix go (m : list (bytes * jsjson)) : Forall (fun kv => P (snd kv)) m :=
        match m with [] => Forall_nil _ | kv :: r => Forall_cons _ (jsjson_ind2 (snd kv)) (go r) end) m)
    end.
End JsInd.
Section JsvInd.
  Variable P : jsv -> Prop.
  Hypothesis H1 : forall n, P (SU32 n).
  Hypothesis H2 : forall n, P (SI32 n).
  Hypothesis H3 : forall n, P (SU64 n).
  Hypothesis H4 : forall n, P (SI64 n).
  Hypothesis H5 : forall n, P (SF64 n).
  Hypothesis H6 : forall b, P (SVBool b).
  Hypothesis H7 : P SVNull.
  Hypothesis H8 : P SVUndef.
  Hypothesis H9 : forall s, P (SVStr s).
  Hypothesis H10 : forall l, Forall P l -> P (SVArr l).
  Hypothesis H11 : forall b, P (SVBytes b).
  Hypothesis H12 : forall m, Forall (fun kv => P (snd kv)) m -> P (SVObj m).
  Hypothesis H13 : forall j, P (SVJson j).
  Fixpoint jsv_ind2 (v : jsv) : P v :=
    match v with
    | SU32 n => H1 n | SI32 n => H2 n | SU64 n => H3 n | SI64 n => H4 n | SF64 n => H5 n
    | SVBool b => H6 b | SVNull => H7 | SVUndef => H8 | SVStr s => H9 s
    | SVArr l => H10 l ((fix go (l : list jsv) : Forall P l :=
        match l with [] => Forall_nil _ | x :: r => Forall_cons _ (jsv_ind2 x) (go r) end) l)
    | SVBytes b => H11 b
    | SVObj m => H12 m ((fix go (m : list (bytes * jsv)) : Forall (fun kv => P (snd kv)) m :=
        match m with [] => Forall_nil _ | kv :: r => Forall_cons _ (jsv_ind2 (snd kv)) (go r) end) m)
    | SVJson j => H13 j
    end.
End JsvInd.

Lemma Forall_ex_map {A B} (g : A -> B) l : Forall (fun y => exists x, g x = y) l -> exists l', map g l' = l.
Proof. induction 1 as [|y r [x Hx] _ [l' IH]]; [exists []; reflexivity|]. exists (x :: l'). cbn. congruence. Qed.
Lemma Forall_ex_map2 {A B} (g : A -> B) (m : list (bytes * B)) : Forall (fun kv => exists x, g x = snd kv) m ->
  exists m', map (fun kv => (fst kv, g (snd kv))) m' = m.
Proof.
  induction 1 as [|[k y] r [x Hx] _ [l' IH]]; [exists []; reflexivity|]. exists ((k, x) :: l'). cbn in *. congruence.
Qed.
Lemma js_of_json_surj s : exists j, js_of_json j = s.
Proof.
  induction s as [b| |b|s|l IH|m IH] using jsjson_ind2.
  - destruct b; [exists JTrue|exists JFalse]; reflexivity.
  - exists JNull; reflexivity.
  - exists (JNumber b); reflexivity.
  - exists (JString s); reflexivity.
  - destruct (Forall_ex_map _ _ IH) as [l' H]. exists (JList l'). cbn. congruence.
  - destruct (Forall_ex_map2 _ _ IH) as [l' H]. exists (JObject l'). cbn. congruence.
Qed.
Lemma js_of_val_surj s : exists v, js_of_val v = s.
Proof.
  induction s as [n|n|n|n|n|b| | |s|l IH|b|m IH|j] using jsv_ind2.
  - exists (VU32 n); reflexivity.
  - exists (VI32 n); reflexivity.
  - exists (VU64 n); reflexivity.
  - exists (VI64 n); reflexivity.
  - exists (VF64 n); reflexivity.
  - destruct b; [exists VTrue|exists VFalse]; reflexivity.
  - exists VNull; reflexivity.
  - exists VUndefined; reflexivity.
  - exists (VString s); reflexivity.
  - destruct (Forall_ex_map _ _ IH) as [l' H]. exists (VList l'). cbn. congruence.
  - exists (VVec b); reflexivity.
  - destruct (Forall_ex_map2 _ _ IH) as [l' H]. exists (VObject l'). cbn. congruence.
  - destruct (js_of_json_surj j) as [j' H]. exists (VJson j'). cbn. congruence.
Qed.
