(** Lemmas about the Rust side of the codec. *)
From Coq Require Import List NArith ZArith Bool Lia.
From Coq Require Import ZifyBool ZifyNat ZifyN.
From Verif Require Import CodecModel CodecJsModel CodecSpec.
Import ListNotations.
Open Scope N_scope.
Ltac Zify.zify_post_hook ::= Z.div_mod_to_equations.

(** ** Induction principles for nested values *)
Section JsonInd.
  Variable P : json -> Prop.
  Hypothesis HT : P JTrue.
  Hypothesis HF : P JFalse.
  Hypothesis HN : P JNull.
  Hypothesis HS : forall s, P (JString s).
  Hypothesis HB : forall b, P (JNumber b).
  Hypothesis HL : forall l, Forall P l -> P (JList l).
  Hypothesis HO : forall m, Forall (fun kv => P (snd kv)) m -> P (JObject m).
  Fixpoint json_ind2 (j : json) : P j :=
    match j with
    | JTrue => HT | JFalse => HF | JNull => HN
    | JString s => HS s
    | JNumber b => HB b
    | JList l => HL l ((fix go (l : list json) : Forall P l :=
        match l with [] => Forall_nil _ | x :: r => Forall_cons _ (json_ind2 x) (go r) end) l)
    | JObject m => HO m ((fix go (m : list (bytes * json)) : Forall (fun kv => P (snd kv)) m :=
        match m with [] => Forall_nil _ | kv :: r => Forall_cons _ (json_ind2 (snd kv)) (go r) end) m)
    end.
End JsonInd.

Section ValInd.
  Variable P : jsval -> Prop.
  Hypothesis H1 : forall n, P (VU32 n).
  Hypothesis H2 : forall n, P (VI32 n).
  Hypothesis H3 : forall n, P (VU64 n).
  Hypothesis H4 : forall n, P (VI64 n).
  Hypothesis H5 : forall n, P (VF64 n).
  Hypothesis H6 : P VTrue.
  Hypothesis H7 : P VFalse.
  Hypothesis H8 : P VNull.
  Hypothesis H9 : P VUndefined.
  Hypothesis H10 : forall b, P (VVec b).
  Hypothesis H11 : forall s, P (VString s).
  Hypothesis H12 : forall l, Forall P l -> P (VList l).
  Hypothesis H13 : forall m, Forall (fun kv => P (snd kv)) m -> P (VObject m).
  Hypothesis H14 : forall j, P (VJson j).
  Fixpoint val_ind2 (v : jsval) : P v :=
    match v with
    | VU32 n => H1 n | VI32 n => H2 n | VU64 n => H3 n | VI64 n => H4 n | VF64 n => H5 n
    | VTrue => H6 | VFalse => H7 | VNull => H8 | VUndefined => H9
    | VVec b => H10 b | VString s => H11 s
    | VList l => H12 l ((fix go (l : list jsval) : Forall P l :=
        match l with [] => Forall_nil _ | x :: r => Forall_cons _ (val_ind2 x) (go r) end) l)
    | VObject m => H13 m ((fix go (m : list (bytes * jsval)) : Forall (fun kv => P (snd kv)) m :=
        match m with [] => Forall_nil _ | kv :: r => Forall_cons _ (val_ind2 (snd kv)) (go r) end) m)
    | VJson j => H14 j
    end.
End ValInd.

(** ** Pure encodings (proof device) *)
Definition enc_str (s : bytes) : bytes := be 4 (as_u32 (len s)) ++ s.

Fixpoint enc_json (j : json) : bytes :=
  match j with
  | JTrue => [1] | JFalse => [2] | JNull => [3]
  | JString s => [4] ++ enc_str s
  | JNumber b => [5] ++ be 8 b
  | JList l => [6] ++ be 4 (as_u32 (len l)) ++ concat (map enc_json l)
  | JObject m => [7] ++ be 2 (as_u16 (len m)) ++ concat (map (fun kv => enc_str (fst kv) ++ enc_json (snd kv)) m)
  end.

Fixpoint enc_val (v : jsval) : bytes :=
  match v with
  | VU32 n => [1] ++ be 4 n
  | VI32 z => [2] ++ be 4 (of_signed two32 z)
  | VU64 n => [3] ++ be 8 n
  | VI64 z => [4] ++ be 8 (of_signed two64 z)
  | VF64 b => [5] ++ be 8 b
  | VTrue => [6] | VFalse => [7] | VNull => [8] | VUndefined => [9]
  | VVec b => [10] ++ enc_str b
  | VString s => [11] ++ enc_str s
  | VList l => [12] ++ be 4 (as_u32 (len l)) ++ concat (map enc_val l)
  | VObject m => [13] ++ be 2 (as_u16 (len m)) ++ concat (map (fun kv => enc_str (fst kv) ++ enc_val (snd kv)) m)
  | VJson j => [14] ++ enc_json j
  end.

(** ** Big endian *)
Lemma be_length n v : length (be n v) = n.
Proof.
  revert v; induction n as [|n IH]; intros v; cbn [be length]; [reflexivity|].
  rewrite app_length, IH; cbn [length]; lia.
Qed.

Lemma len_app {A} (a b : list A) : len (a ++ b) = len a + len b.
Proof. unfold len; rewrite app_length; lia. Qed.
Lemma len_cons {A} (a : A) b : len (a :: b) = 1 + len b.
Proof. unfold len; cbn [length]; lia. Qed.
Lemma len_nil {A} : len (@nil A) = 0.
Proof. reflexivity. Qed.
Lemma len_be n v : len (be n v) = N.of_nat n.
Proof. unfold len; rewrite be_length; reflexivity. Qed.

Lemma unbe_app a x : unbe (a ++ [x]) = unbe a * 256 + x.
Proof. unfold unbe; rewrite fold_left_app; reflexivity. Qed.

Lemma unbe_be n : forall v, v < 256 ^ N.of_nat n -> unbe (be n v) = v.
Proof.
  induction n as [|n IH]; intros v Hv.
  - cbn [be]. change (256 ^ N.of_nat 0) with 1 in Hv. assert (v = 0) by lia. subst; reflexivity.
  - cbn [be]. rewrite unbe_app. rewrite IH.
    + pose proof (N.div_mod v 256); lia.
    + replace (N.of_nat (S n)) with (N.succ (N.of_nat n)) in Hv by lia.
      rewrite N.pow_succ_r' in Hv. apply N.div_lt_upper_bound; lia.
Qed.

Lemma unbe_be2 v : v < two16 -> unbe (be 2 v) = v.
Proof. intros; apply unbe_be; exact H. Qed.
Lemma unbe_be4 v : v < two32 -> unbe (be 4 v) = v.
Proof. intros; apply unbe_be; exact H. Qed.
Lemma unbe_be8 v : v < two64 -> unbe (be 8 v) = v.
Proof. intros; apply unbe_be; exact H. Qed.

Lemma as_u32_lt n : as_u32 n < two32.
Proof. unfold as_u32; apply N.mod_lt; discriminate. Qed.
Lemma as_u16_lt n : as_u16 n < two16.
Proof. unfold as_u16; apply N.mod_lt; discriminate. Qed.
Lemma as_u32_id n : n < two32 -> as_u32 n = n.
Proof. intros; apply N.mod_small; assumption. Qed.
Lemma as_u16_id n : n < two16 -> as_u16 n = n.
Proof. intros; apply N.mod_small; assumption. Qed.
Lemma add32_id a b : a + b < two32 -> add32 a b = a + b.
Proof. intros; apply N.mod_small; assumption. Qed.

Lemma of_signed_lt32 z : of_signed two32 z < two32.
Proof. unfold of_signed, two32; lia. Qed.
Lemma of_signed_lt64 z : of_signed two64 z < two64.
Proof. unfold of_signed, two64; lia. Qed.
Lemma signed_rt32 z : (- 2147483648 <= z < 2147483648)%Z -> to_signed two32 (of_signed two32 z) = z.
Proof.
  intros H. unfold to_signed. change (two32 / 2) with 2147483648.
  destruct (N.ltb_spec (of_signed two32 z) 2147483648) as [Hl|Hl]; unfold of_signed, two32 in *; lia.
Qed.
Lemma signed_rt64 z : (- 9223372036854775808 <= z < 9223372036854775808)%Z -> to_signed two64 (of_signed two64 z) = z.
Proof.
  intros H. unfold to_signed. change (two64 / 2) with 9223372036854775808.
  destruct (N.ltb_spec (of_signed two64 z) 9223372036854775808) as [Hl|Hl]; unfold of_signed, two64 in *; lia.
Qed.

(** ** Sizes *)
Lemma len_enc_str s : len (enc_str s) = 4 + len s.
Proof. unfold enc_str; rewrite len_app, len_be; reflexivity. Qed.

Lemma len_enc_json j : len (enc_json j) = json_total j.
Proof.
  induction j as [| | |s|b|l IH|m IH] using json_ind2; cbn [enc_json json_total]; try reflexivity.
  - rewrite len_app, len_enc_str. change (len [4]) with 1. lia.
  - rewrite !len_app, len_be. change (len [6]) with 1.
    replace (len (concat (map enc_json l))) with (fold_right (fun x acc => json_total x + acc) 0 l); [lia|].
    induction IH as [|x r Hx Hr IHr]; [reflexivity|]. cbn [map concat fold_right]. rewrite len_app, Hx, IHr. reflexivity.
  - rewrite !len_app, len_be. change (len [7]) with 1.
    replace (len (concat (map (fun kv => enc_str (fst kv) ++ enc_json (snd kv)) m)))
      with (fold_right (fun kv acc => 4 + len (fst kv) + json_total (snd kv) + acc) 0 m); [lia|].
    induction IH as [|x r Hx Hr IHr]; [reflexivity|]. cbn [map concat fold_right].
    rewrite !len_app, len_enc_str, Hx, IHr. lia.
Qed.

Lemma len_enc_val v : len (enc_val v) = val_total v.
Proof.
  induction v as [n|n|n|n|n| | | | |b|s|l IH|m IH|j] using val_ind2; cbn [enc_val val_total]; try reflexivity.
  - rewrite len_app, len_enc_str. change (len [10]) with 1. lia.
  - rewrite len_app, len_enc_str. change (len [11]) with 1. lia.
  - rewrite !len_app, len_be. change (len [12]) with 1.
    replace (len (concat (map enc_val l))) with (fold_right (fun x acc => val_total x + acc) 0 l); [lia|].
    induction IH as [|x r Hx Hr IHr]; [reflexivity|]. cbn [map concat fold_right]. rewrite len_app, Hx, IHr. reflexivity.
  - rewrite !len_app, len_be. change (len [13]) with 1.
    replace (len (concat (map (fun kv => enc_str (fst kv) ++ enc_val (snd kv)) m)))
      with (fold_right (fun kv acc => 4 + len (fst kv) + val_total (snd kv) + acc) 0 m); [lia|].
    induction IH as [|x r Hx Hr IHr]; [reflexivity|]. cbn [map concat fold_right].
    rewrite !len_app, len_enc_str, Hx, IHr. lia.
  - rewrite len_app, len_enc_json. reflexivity.
Qed.

Lemma len_le_total_list {A} (f : A -> N) (l : list A) :
  (forall x, 1 <= f x) -> len l <= fold_right (fun x acc => f x + acc) 0 l.
Proof.
  intros Hf; induction l as [|x r IH]; cbn [fold_right]; [rewrite len_nil; lia|].
  rewrite len_cons. specialize (Hf x). lia.
Qed.

Lemma json_total_pos j : 1 <= json_total j.
Proof. destruct j; cbn [json_total]; lia. Qed.
Lemma val_total_pos v : 1 <= val_total v.
Proof. destruct v; cbn [val_total]; lia. Qed.

(** get_size computes the exact size when it fits *)
Lemma fold_size_list {A} (tot sz : A -> N) (l : list A) : forall a,
  Forall (fun x => tot x < two32 -> sz x = tot x) l ->
  a + fold_right (fun x acc => tot x + acc) 0 l < two32 ->
  fold_left (fun sum p => add32 sum p) (map sz l) a = a + fold_right (fun x acc => tot x + acc) 0 l.
Proof.
  induction l as [|x r IH]; intros a HF Hlt; cbn [map fold_left fold_right] in *; [lia|].
  inversion HF as [|? ? Hx Hr]; subst. rewrite Hx by lia. rewrite add32_id by lia.
  rewrite IH by (auto; lia). lia.
Qed.
Lemma fold_size_map {A} (tot sz : A -> N) (m : list (bytes * A)) : forall a,
  Forall (fun kv => tot (snd kv) < two32 -> sz (snd kv) = tot (snd kv)) m ->
  a + fold_right (fun kv acc => 4 + len (fst kv) + tot (snd kv) + acc) 0 m < two32 ->
  fold_left (fun sum kv => add32 (add32 sum (add32 4 (as_u32 (len (fst kv))))) (snd kv))
            (map (fun kv => (fst kv, sz (snd kv))) m) a
  = a + fold_right (fun kv acc => 4 + len (fst kv) + tot (snd kv) + acc) 0 m.
Proof.
  induction m as [|[k x] r IH]; intros a HF Hlt; cbn [map fold_left fold_right fst snd] in *; [lia|].
  inversion HF as [|? ? Hx Hr]; subst. cbn [fst snd] in Hx. rewrite Hx by lia.
  rewrite (as_u32_id (len k)) by lia.
  rewrite (add32_id 4 (len k)) by lia. rewrite (add32_id a) by lia. rewrite add32_id by lia.
  rewrite IH by (auto; lia). lia.
Qed.

Lemma json_size_total j : json_total j < two32 -> json_size j = json_total j.
Proof.
  induction j as [| | |s|b|l IH|m IH] using json_ind2; cbn [json_size json_total]; intros Hlt; try reflexivity.
  - rewrite as_u32_id by lia. rewrite add32_id by lia. lia.
  - apply fold_size_list; assumption.
  - apply fold_size_map; assumption.
Qed.

Lemma val_size_total v : val_total v < two32 -> val_size v = val_total v.
Proof.
  induction v as [n|n|n|n|n| | | | |b|s|l IH|m IH|j] using val_ind2; cbn [val_size val_total]; intros Hlt; try reflexivity.
  - rewrite as_u32_id by lia. rewrite add32_id by lia. lia.
  - rewrite as_u32_id by lia. rewrite add32_id by lia. lia.
  - apply fold_size_list; assumption.
  - apply fold_size_map; assumption.
  - rewrite json_size_total by lia. apply add32_id; lia.
Qed.

(** ** Writing *)
Definition wok (f : wblock -> option wblock) (data : bytes) : Prop :=
  forall w, w_size w < two32 -> len (w_out w) + len data <= w_size w ->
    f w = Some {| w_size := w_size w; w_out := w_out w ++ data |}.

Lemma wr_ok data : wok (wr data) data.
Proof.
  intros w Hs Hl. unfold wr.
  rewrite (as_u32_id (len (w_out w))) by lia. rewrite (as_u32_id (len data)) by lia.
  rewrite add32_id by lia. destruct (N.leb_spec (len (w_out w) + len data) (w_size w)); [reflexivity|lia].
Qed.

Lemma wok_seq f g a b : wok f a -> wok g b -> wok (fun w => obind (f w) g) (a ++ b).
Proof.
  intros Hf Hg w Hs Hl. rewrite len_app in Hl. cbn beta. rewrite Hf by lia. cbn [obind].
  rewrite Hg; cbn [w_size w_out]; rewrite ?len_app; try lia. rewrite app_assoc. reflexivity.
Qed.

Lemma wr_string_ok s : wok (wr_string s) (enc_str s).
Proof. exact (wok_seq _ _ _ _ (wr_ok _) (wr_ok _)). Qed.

Lemma wok_fold_list {A} (f : A -> wblock -> option wblock) (enc : A -> bytes) (l : list A) :
  Forall (fun x => wok (f x) (enc x)) l ->
  wok (fun w => fold_left (fun acc (g : wblock -> option wblock) => obind acc g) (map f l) (Some w)) (concat (map enc l)).
Proof.
  intros HF. induction HF as [|x r Hx Hr IH]; intros w Hs Hl; cbn [map fold_left concat] in *.
  - rewrite app_nil_r. destruct w; reflexivity.
  - rewrite len_app in Hl. cbn [obind]. rewrite Hx by lia.
    rewrite IH; cbn [w_size w_out]; rewrite ?len_app; try lia. rewrite app_assoc. reflexivity.
Qed.
Lemma wok_fold_map {A} (ks : bytes -> wblock -> option wblock) (f : A -> wblock -> option wblock)
      (enc : A -> bytes) (m : list (bytes * A)) :
  (forall s, wok (ks s) (enc_str s)) ->
  Forall (fun kv => wok (f (snd kv)) (enc (snd kv))) m ->
  wok (fun w => fold_left (fun acc (kf : bytes * (wblock -> option wblock)) => obind (obind acc (ks (fst kf))) (snd kf))
                          (map (fun kv => (fst kv, f (snd kv))) m) (Some w))
      (concat (map (fun kv => enc_str (fst kv) ++ enc (snd kv)) m)).
Proof.
  intros Hk HF. induction HF as [|[k x] r Hx Hr IH]; intros w Hs Hl; cbn [map fold_left concat fst snd] in *.
  - rewrite app_nil_r. destruct w; reflexivity.
  - rewrite !len_app in Hl. cbn [obind].
    rewrite (Hk k) by lia. cbn [obind]. rewrite Hx; cbn [w_size w_out]; rewrite ?len_app; try lia.
    rewrite IH; cbn [w_size w_out]; rewrite ?len_app; try lia. rewrite !app_assoc. reflexivity.
Qed.

Lemma json_write_ok j : wok (json_write j) (enc_json j).
Proof.
  induction j as [| | |s|b|l IH|m IH] using json_ind2; cbn [json_write enc_json].
  1-3: apply wr_ok.
  - exact (wok_seq _ _ _ _ (wr_ok _) (wr_string_ok s)).
  - exact (wok_seq _ _ _ _ (wr_ok _) (wr_ok _)).
  - rewrite app_assoc. apply (wok_seq _ _ _ _ (wok_seq _ _ _ _ (wr_ok _) (wr_ok _)) (wok_fold_list _ _ _ IH)).
  - rewrite app_assoc.
    apply (wok_seq _ _ _ _ (wok_seq _ _ _ _ (wr_ok _) (wr_ok _)) (wok_fold_map _ _ _ _ wr_string_ok IH)).
Qed.

Lemma val_write_ok v : wok (val_write v) (enc_val v).
Proof.
  induction v as [n|n|n|n|n| | | | |b|s|l IH|m IH|j] using val_ind2; cbn [val_write enc_val];
    try apply wr_ok; try exact (wok_seq _ _ _ _ (wr_ok _) (wr_ok _)).
  - unfold enc_str. rewrite app_assoc. apply (wok_seq _ _ _ _ (wok_seq _ _ _ _ (wr_ok _) (wr_ok _)) (wr_ok _)).
  - exact (wok_seq _ _ _ _ (wr_ok _) (wr_string_ok s)).
  - rewrite app_assoc. apply (wok_seq _ _ _ _ (wok_seq _ _ _ _ (wr_ok _) (wr_ok _)) (wok_fold_list _ _ _ IH)).
  - rewrite app_assoc.
    apply (wok_seq _ _ _ _ (wok_seq _ _ _ _ (wr_ok _) (wr_ok _)) (wok_fold_map _ _ _ _ wr_string_ok IH)).
  - exact (wok_seq _ _ _ _ (wr_ok _) (json_write_ok j)).
Qed.

Lemma to_snapshot_enc v : val_total v < two32 ->
  to_snapshot v = Some {| w_size := val_total v; w_out := enc_val v |}.
Proof.
  intros Hlt. unfold to_snapshot. rewrite val_size_total by assumption.
  pose proof (val_total_pos v). destruct (N.eqb_spec (val_total v) 0); [lia|].
  rewrite (val_write_ok v); cbn [w_size w_out app]; [reflexivity|assumption|].
  rewrite len_enc_val. cbn. lia.
Qed.

(** ** Reading *)
Lemma len_firstn_le (n : N) (b : bytes) : n <= len b -> len (firstn (N.to_nat n) b) = n.
Proof. unfold len; intros H. rewrite firstn_length. lia. Qed.

Lemma get_vec_app a rest : get_vec (len a) (a ++ rest) = ROk (a, rest).
Proof.
  unfold get_vec. rewrite len_app. destruct (N.leb_spec (len a) (len a + len rest)); [|lia].
  unfold len; rewrite Nnat.Nat2N.id. rewrite firstn_app, skipn_app, firstn_all, skipn_all, Nat.sub_diag.
  cbn [firstn skipn]. rewrite app_nil_r. reflexivity.
Qed.

Lemma get_uint_be n v rest : v < 256 ^ N.of_nat n -> get_uint (N.of_nat n) (be n v ++ rest) = ROk (v, rest).
Proof.
  intros Hv. unfold get_uint. rewrite <- (len_be n v), get_vec_app. cbn [rbind].
  rewrite unbe_be by assumption. reflexivity.
Qed.
Lemma get_uint2 v rest : v < two16 -> get_uint 2 (be 2 v ++ rest) = ROk (v, rest).
Proof. exact (get_uint_be 2 v rest). Qed.
Lemma get_uint4 v rest : v < two32 -> get_uint 4 (be 4 v ++ rest) = ROk (v, rest).
Proof. exact (get_uint_be 4 v rest). Qed.
Lemma get_uint8 v rest : v < two64 -> get_uint 8 (be 8 v ++ rest) = ROk (v, rest).
Proof. exact (get_uint_be 8 v rest). Qed.

Lemma get_lstring_enc s rest : utf8_valid s = true -> len s < two32 -> get_lstring (enc_str s ++ rest) = ROk (s, rest).
Proof.
  intros Hu Hl. unfold get_lstring, enc_str. rewrite <- app_assoc, get_uint4 by apply as_u32_lt.
  cbn [rbind]. rewrite as_u32_id by assumption. unfold get_string. rewrite get_vec_app. cbn [rbind]. rewrite Hu. reflexivity.
Qed.

Lemma bytes_eqb_spec a b : reflect (a = b) (bytes_eqb a b).
Proof.
  revert b; induction a as [|x a IH]; intros [|y b]; cbn [bytes_eqb]; try (constructor; congruence).
  destruct (N.eqb_spec x y) as [->|Hn]; cbn [andb].
  - destruct (IH b) as [->|Hn]; constructor; congruence.
  - constructor; congruence.
Qed.

Lemma assoc_insert_fresh {A} k (x : A) m : ~ In k (map fst m) -> assoc_insert k x m = m ++ [(k, x)].
Proof.
  induction m as [|[k' x'] r IH]; intros Hn; cbn [assoc_insert map fst In app] in *; [reflexivity|].
  destruct (bytes_eqb_spec k k') as [->|Hk]; [exfalso; tauto|]. rewrite IH by tauto. reflexivity.
Qed.

Definition decodes {A} (dec : nat -> bytes -> res (A * bytes)) (x : A) (e : bytes) : Prop :=
  forall fuel rest, (length e <= fuel)%nat -> dec fuel (e ++ rest) = ROk (x, rest).

Lemma read_list_ok {A} (dec : nat -> bytes -> res (A * bytes)) (enc : A -> bytes) (l : list A) :
  Forall (fun x => decodes dec x (enc x)) l -> Forall (fun x => (1 <= length (enc x))%nat) l ->
  forall f fuel rest, (length (concat (map enc l)) <= f)%nat -> (length (concat (map enc l)) <= fuel)%nat ->
    read_list (dec f) fuel (len l) (concat (map enc l) ++ rest) = ROk (l, rest).
Proof.
  intros HF. induction HF as [|x r Hx Hr IH]; intros Hpos f fuel rest Hf Hfuel; cbn [map concat] in *.
  - destruct fuel; reflexivity.
  - inversion Hpos as [|? ? Hp Hps]; subst. rewrite app_length in *.
    rewrite len_cons. destruct fuel as [|fuel]; [lia|].
    cbn [read_list]. destruct (N.eqb_spec (1 + len r) 0); [lia|].
    rewrite <- app_assoc. rewrite Hx by lia. cbn [rbind].
    replace (1 + len r - 1) with (len r) by lia. rewrite IH by (auto; lia). reflexivity.
Qed.

Lemma read_map_ok {A} (dec : nat -> bytes -> res (A * bytes)) (enc : A -> bytes) (m : list (bytes * A)) :
  Forall (fun kv => decodes dec (snd kv) (enc (snd kv))) m ->
  Forall (fun kv => utf8_valid (fst kv) = true /\ len (fst kv) < two32) m ->
  forall acc f fuel rest, NoDup (map fst (acc ++ m)) ->
    let e := concat (map (fun kv => enc_str (fst kv) ++ enc (snd kv)) m) in
    (length e <= f)%nat -> (length e <= fuel)%nat ->
    read_map get_lstring (dec f) fuel (len m) acc (e ++ rest) = ROk (acc ++ m, rest).
Proof.
  intros HF. induction HF as [|[k x] r Hx Hr IH]; intros Hk acc f fuel rest Hnd e Hf Hfuel; subst e; cbn [map concat fst snd] in *.
  - destruct fuel; cbn [read_map]; rewrite app_nil_r; reflexivity.
  - inversion Hk as [|? ? [Hu Hl] Hks]; subst. cbn [fst] in Hu, Hl.
    pose proof (len_enc_str k) as Hes. unfold len in Hes. rewrite !app_length in *.
    rewrite len_cons. destruct fuel as [|fuel]; [lia|].
    cbn [read_map]. destruct (N.eqb_spec (1 + len r) 0); [lia|].
    rewrite <- !app_assoc. rewrite get_lstring_enc by assumption. cbn [rbind].
    rewrite Hx by lia. cbn [rbind]. replace (1 + len r - 1) with (len r) by lia.
    rewrite assoc_insert_fresh.
    + replace (acc ++ (k, x) :: r) with ((acc ++ [(k, x)]) ++ r) by (rewrite <- app_assoc; reflexivity).
      apply IH; auto; try lia. rewrite <- app_assoc. exact Hnd.
    + rewrite map_app in Hnd. cbn [map fst] in Hnd. apply NoDup_remove_2 in Hnd. intros Hin. apply Hnd, in_or_app; tauto.
Qed.

Lemma all_Forall {A} (P : A -> Prop) l : all P l <-> Forall P l.
Proof.
  split.
  - induction l as [|x r IH]; cbn; intros H; constructor; tauto.
  - induction 1; cbn; auto.
Qed.

Lemma total_member {A} (f : A -> N) l B : fold_right (fun x acc => f x + acc) 0 l < B -> Forall (fun x => f x < B) l.
Proof. induction l as [|x r IH]; cbn [fold_right]; intros H; constructor; [lia|apply IH; lia]. Qed.
Lemma total_member_map {A} (f : A -> N) (m : list (bytes * A)) B :
  fold_right (fun kv acc => 4 + len (fst kv) + f (snd kv) + acc) 0 m < B ->
  Forall (fun kv => len (fst kv) < B /\ f (snd kv) < B) m.
Proof. induction m as [|x r IH]; cbn [fold_right]; intros H; constructor; [lia|apply IH; lia]. Qed.

Lemma enc_json_pos j : (1 <= length (enc_json j))%nat.
Proof. pose proof (len_enc_json j); pose proof (json_total_pos j); unfold len in *; lia. Qed.
Lemma enc_val_pos j : (1 <= length (enc_val j))%nat.
Proof. pose proof (len_enc_val j); pose proof (val_total_pos j); unfold len in *; lia. Qed.

Lemma Forall_and4 {A} (P Q R S : A -> Prop) l :
  Forall P l -> Forall Q l -> Forall R l -> (forall x, P x -> Q x -> R x -> S x) -> Forall S l.
Proof. intros HP HQ HR H. rewrite Forall_forall in *. intros x Hx. apply H; auto. Qed.

Lemma json_decode_enc j : json_ok j -> json_small j -> json_total j < two32 -> decodes json_decode j (enc_json j).
Proof.
  induction j as [| | |s|b|l IH|m IH] using json_ind2; intros Hok Hsm Htot fuel rest Hfuel;
    cbn [json_ok json_small json_total] in *;
    (destruct fuel as [|fuel]; [pose proof (enc_json_pos JNull); cbn [enc_json length app] in Hfuel; lia|]).
  1-3: reflexivity.
  - destruct Hok as [_ Hu]. cbn [enc_json app json_decode get_byte rbind]. rewrite get_lstring_enc by (auto; lia). reflexivity.
  - cbn [enc_json app json_decode get_byte rbind]. rewrite get_uint8 by assumption. reflexivity.
  - cbn [enc_json] in *. rewrite !app_length, be_length in Hfuel. cbn [length] in Hfuel.
    cbn [app json_decode get_byte rbind]. rewrite <- app_assoc. rewrite get_uint4 by apply as_u32_lt. cbn [rbind].
    pose proof (len_le_total_list json_total l json_total_pos).
    rewrite as_u32_id by lia. rewrite (read_list_ok json_decode enc_json l); [reflexivity| | |lia|lia].
    + apply all_Forall in Hok, Hsm. assert (Hm := total_member json_total l two32 ltac:(lia)).
      rewrite Forall_forall in *. intros x Hx. apply IH; auto.
    + apply Forall_forall; intros; apply enc_json_pos.
  - cbn [enc_json] in *. rewrite !app_length, be_length in Hfuel. cbn [length] in Hfuel.
    cbn [app json_decode get_byte rbind]. rewrite <- app_assoc. rewrite get_uint2 by apply as_u16_lt. cbn [rbind].
    destruct Hok as [Hnd Hok]. destruct Hsm as [Hlen Hsm].
    rewrite as_u16_id by assumption.
    assert (Hm := total_member_map json_total m two32 ltac:(lia)).
    apply all_Forall in Hok, Hsm.
    rewrite (read_map_ok json_decode enc_json m); [reflexivity| | |exact Hnd|lia|lia].
    + rewrite Forall_forall in *. intros kv Hkv. apply IH; auto; [apply (Hok kv Hkv)|apply (Hm kv Hkv)].
    + rewrite Forall_forall in *. intros kv Hkv. split; [apply (Hok kv Hkv)|apply (Hm kv Hkv)].
Qed.

Lemma val_decode_enc v : val_ok v -> val_small v -> val_no_object v -> val_total v < two32 -> decodes val_decode v (enc_val v).
Proof.
  induction v as [n|n|n|n|n| | | | |b|s|l IH|m IH|j] using val_ind2; intros Hok Hsm Hno Htot fuel rest Hfuel;
    cbn [val_ok val_small val_no_object val_total] in *;
    (destruct fuel as [|fuel]; [cbn [enc_val length app] in Hfuel; lia|]).
  6-9: reflexivity.
  1-5: cbn [enc_val app val_decode get_byte rbind].
  - rewrite get_uint4 by assumption; reflexivity.
  - rewrite get_uint4 by apply of_signed_lt32; cbn [rbind]; rewrite signed_rt32 by assumption; reflexivity.
  - rewrite get_uint8 by assumption; reflexivity.
  - rewrite get_uint8 by apply of_signed_lt64; cbn [rbind]; rewrite signed_rt64 by assumption; reflexivity.
  - rewrite get_uint8 by assumption; reflexivity.
  - cbn [enc_val app val_decode get_byte rbind]. unfold enc_str. rewrite <- app_assoc, get_uint4 by apply as_u32_lt.
    cbn [rbind]. rewrite as_u32_id by lia. rewrite get_vec_app. reflexivity.
  - destruct Hok as [_ Hu]. cbn [enc_val app val_decode get_byte rbind]. rewrite get_lstring_enc by (auto; lia). reflexivity.
  - cbn [enc_val] in *. rewrite !app_length, be_length in Hfuel. cbn [length] in Hfuel.
    cbn [app val_decode get_byte rbind]. rewrite <- app_assoc. rewrite get_uint4 by apply as_u32_lt. cbn [rbind].
    pose proof (len_le_total_list val_total l val_total_pos).
    rewrite as_u32_id by lia. rewrite (read_list_ok val_decode enc_val l); [reflexivity| | |lia|lia].
    + apply all_Forall in Hok, Hsm, Hno. assert (Hm := total_member val_total l two32 ltac:(lia)).
      rewrite Forall_forall in *. intros x Hx. apply IH; auto.
    + apply Forall_forall; intros; apply enc_val_pos.
  - subst m. cbn [enc_val] in *. cbn [map concat app val_decode get_byte rbind]. rewrite app_nil_r, get_uint2 by apply as_u16_lt.
    cbn [rbind]. destruct fuel; reflexivity.
  - cbn [enc_val] in *. rewrite app_length in Hfuel. cbn [length] in Hfuel.
    cbn [app val_decode get_byte rbind]. rewrite json_decode_enc by (auto; lia). reflexivity.
Qed.

(** ** Fuel is never exhausted; progress *)
Definition progresses {A} (dec : bytes -> res (A * bytes)) : Prop :=
  forall b x r, dec b = ROk (x, r) -> (length r < length b)%nat.

Lemma get_vec_len n b v r : get_vec n b = ROk (v, r) -> (length r <= length b)%nat /\ len v = n.
Proof.
  unfold get_vec. destruct (N.leb_spec n (len b)); [|discriminate]. intros [= <- <-].
  rewrite skipn_length. split; [lia|]. apply len_firstn_le; assumption.
Qed.
Lemma get_uint_len n b v r : get_uint n b = ROk (v, r) -> (length r <= length b)%nat.
Proof. unfold get_uint. destruct (get_vec n b) as [[x y]| | |] eqn:E; cbn [rbind]; try discriminate. intros [= <- <-]. apply get_vec_len in E; tauto. Qed.
Lemma get_string_len n b v r : get_string n b = ROk (v, r) -> (length r <= length b)%nat.
Proof. unfold get_string. destruct (get_vec n b) as [[x y]| | |] eqn:E; cbn [rbind]; try discriminate. destruct (utf8_valid x); [|discriminate]. intros [= <- <-]. apply get_vec_len in E; tauto. Qed.
Lemma get_lstring_len b v r : get_lstring b = ROk (v, r) -> (length r <= length b)%nat.
Proof. unfold get_lstring. destruct (get_uint 4 b) as [[x y]| | |] eqn:E; cbn [rbind]; try discriminate. intros H. apply get_uint_len in E. apply get_string_len in H. lia. Qed.

Lemma get_vec_nofuel n b : get_vec n b <> RFuel.
Proof. unfold get_vec. destruct (n <=? len b); discriminate. Qed.
Lemma get_uint_nofuel n b : get_uint n b <> RFuel.
Proof. unfold get_uint. pose proof (get_vec_nofuel n b). destruct (get_vec n b) as [[x y]| | |]; cbn [rbind]; congruence. Qed.
Lemma get_lstring_nofuel b : get_lstring b <> RFuel.
Proof.
  unfold get_lstring, get_string. pose proof (get_uint_nofuel 4 b).
  destruct (get_uint 4 b) as [[x y]| | |]; cbn [rbind]; try congruence.
  pose proof (get_vec_nofuel x y). destruct (get_vec x y) as [[v r]| | |]; cbn [rbind]; try congruence.
  destruct (utf8_valid v); discriminate.
Qed.

Lemma read_list_len {A} (item : bytes -> res (A * bytes)) : progresses item ->
  forall fuel n b l r, read_list item fuel n b = ROk (l, r) -> (length r <= length b)%nat.
Proof.
  intros Hp fuel; induction fuel as [|f IH]; intros n b l r; cbn [read_list]; destruct (n =? 0); try discriminate;
    try (intros [= <- <-]; lia).
  destruct (item b) as [[x r1]| | |] eqn:E; cbn [rbind]; try discriminate.
  destruct (read_list item f (n - 1) r1) as [[xs r2]| | |] eqn:E2; cbn [rbind]; try discriminate.
  intros [= <- <-]. apply Hp in E. apply IH in E2. lia.
Qed.
Lemma read_list_nofuel {A} (item : bytes -> res (A * bytes)) B :
  (forall b x r, (length b <= B)%nat -> item b = ROk (x, r) -> (length r < length b)%nat) ->
  (forall b, (length b <= B)%nat -> item b <> RFuel) ->
  forall fuel n b, (length b < fuel)%nat -> (length b <= B)%nat -> read_list item fuel n b <> RFuel.
Proof.
  intros Hp Hi fuel; induction fuel as [|f IH]; intros n b Hl HB; cbn [read_list]; destruct (n =? 0); try discriminate; [lia|].
  pose proof (Hi b HB). destruct (item b) as [[x r1]| | |] eqn:E; cbn [rbind]; try congruence.
  apply Hp in E; [|assumption]. specialize (IH (n - 1) r1 ltac:(lia) ltac:(lia)).
  destruct (read_list item f (n - 1) r1) as [[xs r2]| | |] eqn:E2; cbn [rbind]; congruence.
Qed.

Lemma read_map_len {A} key (item : bytes -> res (A * bytes)) :
  (forall b k r, key b = ROk (k, r) -> (length r <= length b)%nat) -> progresses item ->
  forall fuel n acc b l r, read_map key item fuel n acc b = ROk (l, r) -> (length r <= length b)%nat.
Proof.
  intros Hk Hp fuel; induction fuel as [|f IH]; intros n acc b l r; cbn [read_map]; destruct (n =? 0); try discriminate;
    try (intros [= <- <-]; lia).
  destruct (key b) as [[k r0]| | |] eqn:E0; cbn [rbind]; try discriminate.
  destruct (item r0) as [[x r1]| | |] eqn:E; cbn [rbind]; try discriminate.
  intros E2. apply Hk in E0. apply Hp in E. apply IH in E2. lia.
Qed.
Lemma read_map_nofuel {A} key (item : bytes -> res (A * bytes)) B :
  (forall b k r, (length b <= B)%nat -> key b = ROk (k, r) -> (length r <= length b)%nat) ->
  (forall b, (length b <= B)%nat -> key b <> RFuel) ->
  (forall b x r, (length b <= B)%nat -> item b = ROk (x, r) -> (length r < length b)%nat) ->
  (forall b, (length b <= B)%nat -> item b <> RFuel) ->
  forall fuel n acc b, (length b < fuel)%nat -> (length b <= B)%nat -> read_map key item fuel n acc b <> RFuel.
Proof.
  intros Hk Hkf Hp Hi fuel; induction fuel as [|f IH]; intros n acc b Hl HB; cbn [read_map]; destruct (n =? 0); try discriminate; [lia|].
  pose proof (Hkf b HB). destruct (key b) as [[k r0]| | |] eqn:E0; cbn [rbind]; try congruence.
  apply Hk in E0; [|assumption]. pose proof (Hi r0 ltac:(lia)).
  destruct (item r0) as [[x r1]| | |] eqn:E; cbn [rbind]; try congruence.
  apply Hp in E; [|lia]. apply IH; lia.
Qed.

Ltac inv_bind :=
  repeat match goal with
  | H : rbind ?m _ = ROk _ |- _ =>
      let E := fresh "E" in let p := fresh "p" in
      destruct m as [p| | |] eqn:E; cbn [rbind] in H; try discriminate H; try (destruct p)
  end.

Lemma json_decode_progress fuel : progresses (json_decode fuel).
Proof.
  induction fuel as [|f IH]; intros b x r; cbn [json_decode]; [discriminate|].
  destruct b as [|tag b]; cbn [get_byte rbind length]; [discriminate|].
  intros H.
  destruct tag as [|[[[p|p|]|[p|p|]|]|[[p|p|]|[p|p|]|]|]]; try discriminate H; inv_bind;
    repeat match goal with
    | H : ROk _ = ROk _ |- _ => injection H as <- <-
    | H : get_uint _ _ = _ |- _ => apply get_uint_len in H
    | H : get_lstring _ = _ |- _ => apply get_lstring_len in H
    | H : read_list _ _ _ _ = _ |- _ => apply read_list_len in H; [|exact IH]
    | H : read_map _ _ _ _ _ _ = _ |- _ => apply read_map_len in H; [|exact get_lstring_len|exact IH]
    end; try lia.
Qed.

Lemma json_decode_nofuel fuel : forall b, (length b < fuel)%nat -> json_decode fuel b <> RFuel.
Proof.
  induction fuel as [|f IH]; intros b Hl; [lia|]. cbn [json_decode].
  destruct b as [|tag b]; cbn [get_byte rbind length] in *; [discriminate|].
  assert (Hbind : forall (A B : Type) (m : res A) (k : A -> res B), m <> RFuel -> (forall a, m = ROk a -> k a <> RFuel) -> rbind m k <> RFuel)
    by (intros A B m k Hm Hk; destruct m; cbn [rbind]; auto; congruence).
  destruct tag as [|[[[p|p|]|[p|p|]|]|[[p|p|]|[p|p|]|]|]]; try discriminate.
  - apply Hbind; [apply get_uint_nofuel|intros [n r] E; apply get_uint_len in E].
    apply Hbind; [|intros [? ?] ?; discriminate].
    apply (read_map_nofuel _ _ (length b)).
    + intros; eapply get_lstring_len; eassumption.
    + intros; apply get_lstring_nofuel.
    + intros; eapply json_decode_progress; eassumption.
    + intros; apply IH; lia.
    + lia.
    + lia.
  - apply Hbind; [apply get_uint_nofuel|intros [? ?] ?; discriminate].
  - apply Hbind; [apply get_uint_nofuel|intros [n r] E; apply get_uint_len in E].
    apply Hbind; [|intros [? ?] ?; discriminate].
    apply (read_list_nofuel _ (length b)).
    + intros; eapply json_decode_progress; eassumption.
    + intros; apply IH; lia.
    + lia.
    + lia.
  - apply Hbind; [apply get_lstring_nofuel|intros [? ?] ?; discriminate].
Qed.

Lemma val_key_len dec b k r : progresses dec -> val_key dec b = ROk (k, r) -> (length r < length b)%nat.
Proof.
  intros Hp. unfold val_key. destruct (dec b) as [[v r0]| | |] eqn:E; cbn [rbind]; try discriminate.
  destruct v; try discriminate. intros [= <- <-]. apply Hp in E; assumption.
Qed.

Lemma val_decode_progress fuel : progresses (val_decode fuel).
Proof.
  induction fuel as [|f IH]; intros b x r; cbn [val_decode]; [discriminate|].
  destruct b as [|tag b]; cbn [get_byte rbind length]; [discriminate|].
  intros H.
  assert (Hk : forall b k r, val_key (val_decode f) b = ROk (k, r) -> (length r <= length b)%nat)
    by (intros b0 k r0 E; apply val_key_len in E; [lia|exact IH]).
  destruct tag as [|[[[[p|p|]|[p|p|]|]|[[p|p|]|[p|p|]|]|]|[[[p|p|]|[p|p|]|]|[[p|p|]|[p|p|]|]|]|]]; try discriminate H; inv_bind;
    repeat match goal with
    | H : ROk _ = ROk _ |- _ => injection H as <- <-
    | H : get_uint _ _ = _ |- _ => apply get_uint_len in H
    | H : get_vec _ _ = _ |- _ => apply get_vec_len in H
    | H : json_decode _ _ = _ |- _ => apply json_decode_progress in H
    | H : get_lstring _ = _ |- _ => apply get_lstring_len in H
    | H : read_list _ _ _ _ = _ |- _ => apply read_list_len in H; [|exact IH]
    | H : read_map _ _ _ _ _ _ = _ |- _ => apply read_map_len in H; [|exact Hk|exact IH]
    end; try lia.
Qed.

Lemma val_decode_nofuel fuel : forall b, (length b < fuel)%nat -> val_decode fuel b <> RFuel.
Proof.
  induction fuel as [|f IH]; intros b Hl; [lia|]. cbn [val_decode].
  destruct b as [|tag b]; cbn [get_byte rbind length] in *; [discriminate|].
  assert (Hbind : forall (A B : Type) (m : res A) (k : A -> res B), m <> RFuel -> (forall a, m = ROk a -> k a <> RFuel) -> rbind m k <> RFuel)
    by (intros A B m k Hm Hk; destruct m; cbn [rbind]; auto; congruence).
  assert (Hu : forall n (k : N * bytes -> jsval * bytes), rbind (get_uint n b) (fun p => ROk (k p)) <> RFuel)
    by (intros; apply Hbind; [apply get_uint_nofuel|discriminate]).
  destruct tag as [|[[[[p|p|]|[p|p|]|]|[[p|p|]|[p|p|]|]|]|[[[p|p|]|[p|p|]|]|[[p|p|]|[p|p|]|]|]|]]; try discriminate;
    try (apply Hbind; [apply get_uint_nofuel|intros [? ?] ?; discriminate]);
    try (apply Hbind; [apply get_lstring_nofuel|intros [? ?] ?; discriminate]);
    try (apply Hbind; [apply json_decode_nofuel; lia|intros [? ?] ?; discriminate]);
    try (apply Hbind; [apply get_uint_nofuel|intros [n r] E; apply get_uint_len in E];
         apply Hbind; [apply get_vec_nofuel|intros [? ?] ?; discriminate]).
  - apply Hbind; [apply get_uint_nofuel|intros [n r] E; apply get_uint_len in E].
    apply Hbind; [|intros [? ?] ?; discriminate].
    apply (read_map_nofuel _ _ (length b)).
    + intros b0 k r0 _ E0. apply val_key_len in E0; [lia|apply val_decode_progress].
    + intros b0 Hb0. unfold val_key. apply Hbind; [apply IH; lia|]. intros [v r0] _. destruct v; discriminate.
    + intros; eapply val_decode_progress; eassumption.
    + intros; apply IH; lia.
    + lia.
    + lia.
  - apply Hbind; [apply get_uint_nofuel|intros [n r] E; apply get_uint_len in E].
    apply Hbind; [|intros [? ?] ?; discriminate].
    apply (read_list_nofuel _ (length b)).
    + intros; eapply val_decode_progress; eassumption.
    + intros; apply IH; lia.
    + lia.
    + lia.
Qed.

Lemma from_block_nofuel b : from_block b <> RFuel.
Proof.
  unfold from_block. pose proof (val_decode_nofuel (S (length b)) b ltac:(lia)).
  destruct (val_decode (S (length b)) b) as [[v r]| | |]; cbn [rbind]; congruence.
Qed.
