(** JSON texts: what is written denotes the value, what both sides read is the same.

    The properties are C76 and the parts about JSON of C65, C73 and C74. *)
From Coq Require Import String List NArith Bool Lia ZifyN Permutation.
From Verif Require Import CodecModel CodecUtf8 CodecSpec CodecProofs FloatModel DomWire JsonModel JsonProofs CodecJsModel BridgeModel BridgeProps
  JsonTextModel JsonTextSpec JsonTextProofs.
Import ListNotations.
Local Open Scope string_scope.
Local Open Scope list_scope.
Local Open Scope N_scope.

(** *** Writing *)

Lemma hex_lower_is n : n < 16 -> hex_is (hex_lower n) n.
Proof. unfold hex_lower, hex_is. intro L. destruct (n <? 10) eqn:E; [apply N.ltb_lt in E|apply N.ltb_ge in E]; lia. Qed.

Lemma escaped lone s : chars lone (flat_map escape_json s) s.
Proof.
  induction s as [|b s IH]; [constructor|]. cbn [flat_map]. unfold escape_json at 1.
  repeat match goal with |- context [if ?b =? ?k then _ else _] =>
    let H := fresh "E" in destruct (b =? k) eqn:H; [apply N.eqb_eq in H as ->; apply (c_short lone _ _ _ _); [cbn; auto 10|exact IH]|] end.
  repeat match goal with H : (_ =? _) = false |- _ => apply N.eqb_neq in H end. destruct (b <? 32) eqn:L; [apply N.ltb_lt in L|apply N.ltb_ge in L].
  - replace (b :: s) with (encode b ++ s) by (unfold encode; replace (b <? 128) with true by (symmetry; apply N.ltb_lt; lia); reflexivity).
    apply (c_unicode lone [48; 48; hex_lower (b / 16); hex_lower (b mod 16)] b); auto.
    + exists 48, 48, (hex_lower (b / 16)), (hex_lower (b mod 16)), 0, 0, (b / 16), (b mod 16). split; auto.
      assert (A : b / 16 < 16) by (apply N.div_lt_upper_bound; lia). assert (B : b mod 16 < 16) by (apply N.mod_lt; lia).
      split; [left; lia|]. split; [left; lia|]. split; [apply hex_lower_is; auto|]. split; [apply hex_lower_is; auto|].
      pose proof (N.div_mod b 16). lia.
    + unfold high. lia.
    + unfold low. lia.
  - apply c_raw; auto.
Qed.

Section Print.
  Variable number : N -> bytes.
  Variable lone : bool.
  Variable P : bytes -> Prop.
  Variable num : bytes -> N -> Prop.

  Definition written_number (n : N) : Prop := a_number (number n) /\ num (number n) n.

  Lemma serde_den j : forall d, parts P written_number j -> within d j -> den lone P num d (serde_text number j) j.
  Proof.
    induction j as [| | |s|n|l IH|m IH] using json_ind2; intros d H W; cbn [serde_text].
    - constructor.
    - constructor.
    - constructor.
    - unfold quote. constructor; auto using escaped.
    - destruct H. constructor; auto.
    - assert (D : exists d', deeper d d' /\ forall x, In x l -> within d' x).
      { destruct d as [n|]; cbn in W |- *; [|exists None; split; [constructor|auto]]. destruct n as [|n]; [lia|]. exists (Some n). split; [constructor|].
        intros x I. cbn. assert (G : forall l, In x l -> (depth x <= fold_right (fun x n => Nat.max (depth x) n) O l)%nat).
        { intros k. induction k as [|y k IHk]; cbn; [contradiction|]. intros [->|J]; [|specialize (IHk J)]; lia. }
        specialize (G l I). lia. }
      destruct D as (d' & D1 & D2). destruct l as [|x l]; [apply (d_nil lone P num d d' []); [auto|constructor]|].
      apply (d_list lone P num d d' [] (commas (map (serde_text number) (x :: l)))); [auto|constructor|].
      cbn [parts] in H. rewrite all_Forall in H. clear W D1.
      revert x IH H D2. induction l as [|y l IHl]; intros x IH H D2.
      + cbn. rewrite <- (app_nil_r (serde_text number x)). constructor; [|constructor]. inversion_clear IH. inversion_clear H. apply H0; auto. apply D2; cbn; auto.
      + change (commas (map (serde_text number) (x :: y :: l))) with (serde_text number x ++ [] ++ 44 :: [] ++ commas (map (serde_text number) (y :: l))).
        inversion_clear IH. inversion_clear H.
        constructor; [apply H0; auto; apply D2; cbn; auto|constructor|constructor|].
        apply IHl; auto. intros z Z. apply D2. right. auto.
    - assert (D : exists d', deeper d d' /\ forall x, In x m -> within d' (snd x)).
      { destruct d as [n|]; cbn in W |- *; [|exists None; split; [constructor|auto]]. destruct n as [|n]; [lia|]. exists (Some n). split; [constructor|].
        intros x I. cbn. assert (G : forall l, In x l -> (depth (snd x) <= fold_right (fun e n => Nat.max (depth (snd e)) n) O l)%nat).
        { intros k. induction k as [|y k IHk]; cbn; [contradiction|]. intros [->|J]; [|specialize (IHk J)]; lia. }
        specialize (G m I). lia. }
      destruct D as (d' & D1 & D2). destruct m as [|e m]; [apply (d_none lone P num d d' []); [auto|constructor]|].
      cbn [parts] in H. destruct H as [ND H]. rewrite <- (hash_from_id _ ND) at 2.
      apply (d_object lone P num d d' [] (commas (map (fun e => quote (fst e) ++ 58 :: serde_text number (snd e)) (e :: m)))); [auto|constructor|].
      rewrite all_Forall in H. clear W D1 ND.
      revert e IH H D2. induction m as [|f m IHm]; intros e IH H D2; inversion_clear IH; inversion_clear H; destruct H2 as [K1 K2].
      + cbn. unfold quote. destruct e as [k j]. cbn in *. rewrite <- app_assoc. cbn.
        change (58 :: serde_text number j) with ([] ++ 58 :: [] ++ serde_text number j). rewrite <- (app_nil_r (serde_text number j)).
        constructor; auto using escaped; try constructor. apply H0; auto. apply (D2 (k, j)); auto.
      + change (commas (map (fun e => quote (fst e) ++ 58 :: serde_text number (snd e)) (e :: f :: m)))
          with ((quote (fst e) ++ 58 :: serde_text number (snd e)) ++ 44 :: commas (map (fun e => quote (fst e) ++ 58 :: serde_text number (snd e)) (f :: m))).
        unfold quote at 1. destruct e as [k j]. cbn [fst snd] in *. rewrite <- !app_assoc. cbn [app]. rewrite <- app_assoc. cbn [app].
        apply (m_more lone P num d' _ k [] [] (serde_text number j) j [] [] _ _); auto using escaped; try constructor.
        * apply H0; auto. apply (D2 (k, j)); cbn; auto.
        * apply IHm; auto. intros z Z. apply D2. right. auto.
  Qed.
End Print.

Lemma stringify_serde number j : js_stringify number (denotes_json j) = serde_text (js_number number) j.
Proof.
  induction j as [| | |s|n|l IH|m IH] using json_ind2; cbn [denotes_json js_stringify serde_text]; auto.
  - rewrite map_map. do 3 f_equal. apply map_ext_in. rewrite Forall_forall in IH. auto.
  - rewrite map_map. do 3 f_equal. apply map_ext_in. rewrite Forall_forall in IH. intros a A. cbn. rewrite (IH a A). auto.
Qed.

(** *** Valid UTF-8 *)

Lemma valid_split run b r : b < 128 \/ 192 <= b -> utf8_valid (run ++ b :: r) = true -> utf8_valid run = true /\ utf8_valid (b :: r) = true.
Proof.
  intros B V. apply C17_strings_are_utf8 in V. destruct V as (cps & F & E).
  revert run E. induction F as [|c cps Sc F IH]; intros run E; [destruct run; discriminate|]. cbn [flat_map] in E.
  destruct run as [|x run].
  - split; [reflexivity|]. change (b :: r) with ([] ++ b :: r). rewrite E. change (encode c ++ flat_map encode cps) with (flat_map encode (c :: cps)).
    apply C17_strings_are_utf8. exists (c :: cps). auto.
  - assert (Pr : exists rest, x :: run = encode c ++ rest /\ flat_map encode cps = rest ++ b :: r).
    { assert (T : Forall (fun y => 128 <= y < 192) (tl (encode c)) /\ encode c <> []).
      { clear -Sc. unfold encode.
        assert (M : forall k, 128 <= 128 + k mod 64 < 192) by (intro k; pose proof (N.mod_lt k 64); lia).
        destruct (c <? 128); [split; [constructor|discriminate]|].
        destruct (c <? 2048); [|destruct (c <? 65536)]; (split; [cbn [tl]; repeat (apply Forall_cons; [apply M|]); apply Forall_nil|discriminate]). }
      destruct T as [T1 T2]. destruct (encode c) as [|e es]; [congruence|]. simpl in E, T1. injection E as -> E. clear T2.
      revert run E. induction T1 as [|y es Y T1 IHT]; intros run E; simpl in E.
      - exists run. auto.
      - destruct run as [|z run]; simpl in E; [injection E as ->; lia|]. injection E as -> E. destruct (IHT run E) as (rest & R1 & R2).
        injection R1 as R1. exists rest. split; [simpl; f_equal; f_equal; auto|auto]. }
    destruct Pr as (rest & P1 & P2). destruct (IH rest (eq_sym P2)) as [V1 V2]. split; auto. rewrite P1, valid_encode; auto.
Qed.

Lemma valid_join a b : utf8_valid a = true -> utf8_valid b = true -> utf8_valid (a ++ b) = true.
Proof.
  intros A B. apply C17_strings_are_utf8 in A, B. destruct A as (c & C & ->), B as (d & D & ->). apply C17_strings_are_utf8.
  exists (c ++ d). rewrite flat_map_app. split; auto. apply Forall_app; auto.
Qed.

Lemma valid_cons b r : b < 128 -> utf8_valid (b :: r) = utf8_valid r.
Proof. intros H. cbn [utf8_valid]. replace (b <=? 127) with true by (symmetry; apply N.leb_le; lia). auto. Qed.

Lemma valid_cut run b r : b < 128 -> utf8_valid (run ++ b :: r) = true <-> utf8_valid run = true /\ utf8_valid r = true.
Proof.
  intro B. split.
  - intro V. apply valid_split in V as [V1 V2]; auto. rewrite valid_cons in V2; auto.
  - intros [V1 V2]. apply valid_join; auto. rewrite valid_cons; auto.
Qed.

Lemma ascii_valid a : Forall (fun b => b < 128) a -> utf8_valid a = true.
Proof. induction 1; auto. rewrite valid_cons; auto. Qed.

Lemma four_ascii h n : four h n -> Forall (fun b => b < 128) h /\ n < 65536.
Proof.
  intros (a & b & c & d & va & vb & vc & vd & -> & A & B & C & D & ->). unfold hex_is in *. split; [repeat constructor; lia|lia].
Qed.

Lemma encode_lead n : scalar n -> exists b r, encode n = b :: r /\ (b < 128 \/ 192 <= b).
Proof.
  intros _. unfold encode. destruct (n <? 128) eqn:L; [apply N.ltb_lt in L; eauto|].
  destruct (n <? 2048); [|destruct (n <? 65536)]; (eexists; eexists; split; [reflexivity|lia]).
Qed.

Lemma short_ascii e v : In (e, v) short_escapes -> e < 128 /\ v < 128.
Proof. cbn. intro H. repeat (destruct H as [H|H]; [injection H as <- <-; lia|]). contradiction. Qed.

Lemma chars_valid x s : chars false x s -> forall p, utf8_valid (p ++ s) = true -> utf8_valid (p ++ x) = true.
Proof.
  assert (U : forall h n x s p, scalar n -> Forall (fun b => b < 128) h -> (forall p, utf8_valid (p ++ s) = true -> utf8_valid (p ++ x) = true) ->
              utf8_valid (p ++ encode n ++ s) = true -> utf8_valid (p ++ 92 :: h ++ x) = true).
  { intros h n x0 s0 p Sc A IH V. destruct (encode_lead n Sc) as (b & r & E & L). rewrite E in V. cbn [app] in V.
    apply valid_split in V as [V1 V2]; auto. change (b :: r ++ s0) with ((b :: r) ++ s0) in V2. rewrite <- E, valid_encode in V2 by auto.
    apply valid_cut; [lia|]. split; auto. apply valid_join; [apply ascii_valid; auto|]. apply (IH []). auto. }
  induction 1; intros p V; auto.
  - change (c :: x) with ([c] ++ x). rewrite app_assoc. apply IHchars. rewrite <- app_assoc. auto.
  - destruct (short_ascii _ _ H). apply valid_cut in V as [V1 V2]; auto. apply valid_cut; [lia|]. split; auto. rewrite valid_cons by auto. apply (IHchars []). auto.
  - destruct (four_ascii _ _ H) as [A B]. apply (U (117 :: h) n x s p); auto.
    + unfold scalar, high, low in *. lia.
    + constructor; auto. lia.
  - destruct (four_ascii _ _ H) as [A B]. destruct (four_ascii _ _ H1) as [C D].
    change (92 :: 117 :: h ++ 92 :: 117 :: k ++ x) with (92 :: (117 :: h) ++ (92 :: 117 :: k) ++ x). rewrite (app_assoc (117 :: h)).
    apply (U _ (65536 + (n - 55296) * 1024 + (m - 56320)) x s p); auto.
    + unfold scalar, high, low in *. lia.
    + cbn. constructor; [lia|]. apply Forall_app. split; auto. repeat (constructor; [lia|]). auto.
  - discriminate.
Qed.

Lemma spaces_valid w : spaces w -> utf8_valid w = true.
Proof. intro W. apply ascii_valid. eapply Forall_impl; [|exact W]. cbn. intros. lia. Qed.

Lemma number_ascii x : a_number x -> Forall (fun b => b < 128) x.
Proof.
  assert (G : forall d, some_digits d -> Forall (fun b => b < 128) d) by (intros d [_ D]; eapply Forall_impl; [|exact D]; cbn; intros; lia).
  intros (sign & i & f & e & -> & S & I & F & E). repeat (apply Forall_app; split).
  - destruct S as [-> | ->]; repeat constructor; lia.
  - destruct I as [->|[I _]]; auto. repeat constructor; lia.
  - destruct F as [->|(d & -> & D)]; auto. constructor; auto. lia.
  - destruct E as [->|(c & s & d & -> & C & S' & D)]; auto. constructor; [lia|]. apply Forall_app. split; auto.
    destruct S' as [->|[->| ->]]; repeat constructor; lia.
Qed.

Ltac pieces := repeat first [apply valid_join | rewrite valid_cons by lia | assumption | apply spaces_valid; assumption | reflexivity].

Lemma chars_valid0 x s : chars false x s -> utf8_valid s = true -> utf8_valid x = true.
Proof. intros C V. apply (chars_valid x s C []). auto. Qed.

Lemma den_valid num :
  (forall d t j, den false (fun s => utf8_valid s = true) num d t j -> utf8_valid t = true) /\
  (forall d t l, elems false (fun s => utf8_valid s = true) num d t l -> utf8_valid t = true) /\
  (forall d t l, membs false (fun s => utf8_valid s = true) num d t l -> utf8_valid t = true).
Proof.
  apply (den_all false _ num (fun d t j => utf8_valid t = true) (fun d t j => utf8_valid t = true) (fun d t j => utf8_valid t = true)); intros;
    try (match goal with H : chars false _ _ |- _ => apply chars_valid0 in H; auto end); pieces.
  apply ascii_valid, number_ascii; auto.
Qed.

Lemma number_first x : a_number x -> exists c t, x = c :: t /\ c < 128.
Proof.
  intro A. pose proof (number_ascii x A) as F. destruct A as (sign & i & f & e & -> & S & I & _).
  destruct (sign ++ i ++ f ++ e) as [|c t] eqn:E.
  - exfalso. apply app_eq_nil in E as [_ E]. apply app_eq_nil in E as [E _]. destruct I as [I|[[I _] _]]; congruence.
  - inversion_clear F. eauto.
Qed.
Lemma text_first lone P num d b j : text_of lone P num d b j -> strip_bom b = b.
Proof.
  intros (w & t & w2 & -> & W & _ & D).
  assert (X : exists c r, w ++ t ++ w2 = c :: r /\ c < 128).
  { destruct w as [|c w]; [|inversion_clear W; eexists _, _; split; [reflexivity|lia]].
    destruct D as [d|d|d|d x s C K|d x n H R|d d' w D W'|d d' w t l D W' E|d d' w D W'|d d' w t l D W' E];
      try (eexists _, _; split; [reflexivity|reflexivity]).
    destruct (number_first x H) as (c & r & -> & L). eexists _, _; split; [reflexivity|auto]. }
  destruct X as (c & r & -> & L). unfold strip_bom.
  destruct c as [|q]; auto. do 8 (destruct q as [q|q|]; auto; try lia).
Qed.

(** *** What one reader reads the other reads too *)

Lemma chars_weaken lone x s : chars false x s -> chars lone x s.
Proof. induction 1; econstructor; eauto; discriminate. Qed.

Lemma infix_self x : infix x x.
Proof. exists [], []. rewrite app_nil_r. auto. Qed.
Lemma infix_cons x c t : infix x t -> infix x (c :: t).
Proof. intros (u & v & ->). exists (c :: u), v. auto. Qed.
Lemma infix_l x a t : infix x t -> infix x (a ++ t).
Proof. intros (u & v & ->). exists (a ++ u), v. rewrite <- app_assoc. auto. Qed.
Lemma infix_r x t b : infix x t -> infix x (t ++ b).
Proof. intros (u & v & ->). exists u, (v ++ b). rewrite <- !app_assoc. auto. Qed.
#[local] Hint Resolve infix_self infix_cons infix_l infix_r : infix.

Lemma den_weaken lone (P Q : bytes -> Prop) (num num' : bytes -> N -> Prop) : (forall s, P s -> Q s) ->
  (forall d t j, den false P num d t j -> (forall x n, infix x t -> num x n -> num' x n) -> den lone Q num' None t j) /\
  (forall d t l, elems false P num d t l -> (forall x n, infix x t -> num x n -> num' x n) -> elems lone Q num' None t l) /\
  (forall d t l, membs false P num d t l -> (forall x n, infix x t -> num x n -> num' x n) -> membs lone Q num' None t l).
Proof.
  intro PQ.
  apply (den_all false P num
    (fun d t j => (forall x n, infix x t -> num x n -> num' x n) -> den lone Q num' None t j)
    (fun d t l => (forall x n, infix x t -> num x n -> num' x n) -> elems lone Q num' None t l)
    (fun d t l => (forall x n, infix x t -> num x n -> num' x n) -> membs lone Q num' None t l)); intros;
    try (constructor; auto using chars_weaken; fail).
  - constructor; auto with infix.
  - apply (d_nil lone Q num' None None); [constructor|auto].
  - apply (d_list lone Q num' None None); [constructor|auto|]. eauto 8 with infix.
  - apply (d_none lone Q num' None None); [constructor|auto].
  - apply (d_object lone Q num' None None); [constructor|auto|]. eauto 8 with infix.
  - constructor; auto. eauto with infix.
  - constructor; auto; eauto 8 with infix.
  - constructor; auto using chars_weaken. eauto 12 with infix.
  - constructor; auto using chars_weaken; eauto 14 with infix.
Qed.

Lemma den_ext lone (P Q : bytes -> Prop) (num num' : bytes -> N -> Prop) : (forall s, P s -> Q s) -> (forall x n, num x n -> num' x n) ->
  (forall d t j, den lone P num d t j -> den lone Q num' d t j) /\
  (forall d t l, elems lone P num d t l -> elems lone Q num' d t l) /\
  (forall d t l, membs lone P num d t l -> membs lone Q num' d t l).
Proof.
  intros PQ NN.
  apply (den_all lone P num (fun d t j => den lone Q num' d t j) (fun d t l => elems lone Q num' d t l)
    (fun d t l => membs lone Q num' d t l)); intros; econstructor; eauto.
Qed.

Lemma text_ext lone (P Q : bytes -> Prop) (num num' : bytes -> N -> Prop) d b j : (forall s, P s -> Q s) -> (forall x n, num x n -> num' x n) ->
  text_of lone P num d b j -> text_of lone Q num' d b j.
Proof.
  intros PQ NN (w & t & w2 & E & W & W2 & D). exists w, t, w2. do 3 (split; auto). apply (proj1 (den_ext lone P Q num num' PQ NN)). auto.
Qed.

(** The strings of Rust. *)
Definition utf8 (s : bytes) : Prop := utf8_valid s = true.

Section Both.
  (** How the browser and the server read a number. *)
  Variable js_read : bytes -> N.
  Variable serde_read : bytes -> option N.
  (** What a decoder makes of bytes that are not UTF-8. *)
  Variable lossy : bytes -> bytes.

  (** What [response.json()] gives in the browser (Fetch, 5.3): the bytes are decoded and the text is parsed. *)
  Definition js_json (b : bytes) : option json := js_parse js_read (text_decode lossy b).

  (** What the two readers accept, and what they read. *)
  Lemma serde_text_of b j : serde_parse serde_read b = Some j <->
    text_of false utf8 (fun x n => serde_read x = Some n) (Some 127%nat) b j.
  Proof.
    unfold serde_parse. rewrite read_text_iff. unfold ok, is_number. split; apply text_ext; unfold utf8; auto.
  Qed.
  Lemma js_text_of b j : js_parse js_read b = Some j <-> text_of true (fun _ => True) (fun x n => js_read x = n) None b j.
  Proof.
    unfold js_parse. rewrite read_text_iff. unfold ok, is_number. split; apply text_ext; auto; congruence.
  Qed.

  (** What the server reads as JSON the browser reads as the same value, provided the numbers in it are read the same. *)
  Theorem serde_then_js b j : (forall x n, infix x b -> serde_read x = Some n -> js_read x = n) ->
    serde_parse serde_read b = Some j -> js_json b = Some j.
  Proof.
    intros A E. apply serde_text_of in E. unfold js_json. assert (V : text_decode lossy b = b).
    { unfold text_decode. rewrite (text_first _ _ _ _ _ _ E). destruct E as (w & t & w2 & -> & W & W2 & D).
      pose proof (proj1 (den_valid _) _ _ _ D) as V. rewrite (valid_join w); [auto|auto using spaces_valid|].
      apply valid_join; auto using spaces_valid. }
    rewrite V. apply js_text_of. destruct E as (w & t & w2 & -> & W & W2 & D). exists w, t, w2. do 3 (split; auto).
    apply (proj1 (den_weaken true _ _ _ _ (fun s _ => Logic.I)) _ _ _ D). intros x n I. apply A. auto with infix.
  Qed.
End Both.

(** *** To serde_json and back *)

Lemma sorted_insert_perm {A} k (v : A) m : Permutation (sorted_insert k v m) ((k, v) :: m).
Proof.
  induction m as [|[k' v'] m IH]; cbn; auto. destruct (before k k'); auto. rewrite IH. apply perm_swap.
Qed.
Lemma sort_perm {A} (m : list (bytes * A)) : Permutation (sort_entries m) m.
Proof.
  unfold sort_entries. rewrite <- (app_nil_r m) at 2. generalize (@nil (bytes * A)).
  induction m as [|[k v] m IH]; intro acc; cbn; auto. rewrite IH, sorted_insert_perm. symmetry. apply Permutation_middle.
Qed.

Lemma all_some_forall {A B} (f : A -> option B) (R : A -> B -> Prop) l : Forall (fun a => exists b, f a = Some b /\ R a b) l ->
  exists r, all_some (map f l) = Some r /\ Forall2 R l r.
Proof.
  induction 1 as [|a l (b & E & H) _ (r & F & G)]; cbn; [eauto|]. rewrite E, F. eauto.
Qed.

Lemma depth_alike_list l r : Forall2 (fun a b => depth b = depth a) l r ->
  fold_right (fun x n => Nat.max (depth x) n) O r = fold_right (fun x n => Nat.max (depth x) n) O l.
Proof. induction 1; cbn; congruence. Qed.
Lemma depth_perm (m m' : list (bytes * json)) : Permutation m m' ->
  fold_right (fun e n => Nat.max (depth (snd e)) n) O m = fold_right (fun e n => Nat.max (depth (snd e)) n) O m'.
Proof. induction 1; cbn; lia. Qed.

Lemma Forall2_in {A B} (R : A -> B -> Prop) l r : Forall2 R l r ->
  (forall a, In a l -> exists b, In b r /\ R a b) /\ (forall b, In b r -> exists a, In a l /\ R a b).
Proof.
  induction 1 as [|a b l r H _ [I J]]; [split; intros ? []|]. split.
  - intros x [->|X]; [exists b; cbn; auto|]. destruct (I x X) as (y & Y & Z). exists y. cbn. auto.
  - intros x [->|X]; [exists a; cbn; auto|]. destruct (J x X) as (y & Y & Z). exists y. cbn. auto.
Qed.

(** A value without infinities and NaN is sent by the server up to the order of the entries of objects. *)
Lemma to_serde_alike (P : bytes -> Prop) (Q : N -> Prop) j : (forall n, Q n -> finite n = true) -> parts P Q j ->
  exists j', to_serde j = Some j' /\ alike j j' /\ parts P Q j' /\ depth j' = depth j.
Proof.
  intro QF. induction j as [| | |s|n|l IH|m IH] using json_ind2; intro H; cbn [to_serde];
    try (eexists; split; [reflexivity|split; [constructor|split; [exact H|reflexivity]]]; fail).
  - rewrite (QF n H). eexists; split; [reflexivity|split; [constructor|split; [exact H|reflexivity]]].
  - cbn [parts] in H. rewrite all_Forall in H.
    destruct (all_some_forall to_serde (fun a b => alike a b /\ parts P Q b /\ depth b = depth a) l) as (r & E & F).
    { rewrite Forall_forall in *. intros x X. apply IH; auto. }
    rewrite E. exists (JList r). split; auto. repeat split.
    + constructor. clear -F. induction F as [|? ? ? ? (?&_)]; constructor; auto.
    + cbn [parts]. rewrite all_Forall. clear -F. induction F as [|? ? ? ? (_&?&_)]; constructor; auto.
    + cbn [depth]. f_equal. apply depth_alike_list. clear -F. induction F as [|? ? ? ? (_&_&?)]; constructor; auto.
  - cbn [parts] in H. destruct H as [ND H]. rewrite all_Forall in H.
    destruct (all_some_forall (fun e => match to_serde (snd e) with Some x => Some (fst e, x) | None => None end)
      (fun a b => fst b = fst a /\ P (fst b) /\ alike (snd a) (snd b) /\ parts P Q (snd b) /\ depth (snd b) = depth (snd a)) m) as (r & E & F).
    { rewrite Forall_forall in *. intros x X. destruct (H x X) as [K1 K2]. destruct (IH x X K2) as (y & -> & Y1 & Y2 & Y3). eexists. split; [reflexivity|]. cbn. auto. }
    rewrite E. exists (JObject (sort_entries r)). split; auto. pose proof (sort_perm r) as SP.
    assert (FS : map fst r = map fst m). { clear -F. induction F as [|? ? ? ? (?&_)]; cbn; congruence. }
    destruct (Forall2_in _ _ _ F) as [I J]. repeat split.
    + constructor.
      * intros k a X. destruct (I _ X) as ([k' b] & Y & K & _ & AL & _). cbn in *. subst k'. exists b. split; auto.
        eapply Permutation_in; [symmetry; exact SP|auto].
      * intros k b X. apply (Permutation_in _ SP) in X. destruct (J _ X) as ([k' a] & Y & K & _ & AL & _). cbn in *. subst k'. eauto.
    + cbn [parts]. eapply Permutation_NoDup; [symmetry; apply Permutation_map, SP|]. rewrite FS. auto.
    + rewrite all_Forall. rewrite Forall_forall. intros e X. apply (Permutation_in _ SP) in X. destruct (J _ X) as (a & _ & _ & K & _ & L & _). auto.
    + cbn [depth]. f_equal. rewrite (depth_perm _ _ SP). clear -F. induction F as [|? ? ? ? (_&_&_&_&?)]; cbn; congruence.
Qed.

(** With an infinity or NaN anywhere in it, the server panics. *)
Lemma to_serde_none n j : occurs n j -> finite n = false -> to_serde j = None.
Proof.
  intros O F. assert (AN : forall A (l : list (option A)), In None l -> all_some l = None).
  { intros A l. induction l as [|[x|] l IH]; cbn; [contradiction| |auto]. intros [X|X]; [discriminate|]. rewrite (IH X). auto. }
  induction O as [|l j I _ IH|m e I _ IH]; cbn [to_serde].
  - rewrite F. auto.
  - rewrite AN; auto. rewrite <- IH. apply in_map. auto.
  - rewrite AN; auto. apply in_map_iff. exists e. rewrite IH. auto.
Qed.

Lemma parts_weaken (P P' : bytes -> Prop) (Q Q' : N -> Prop) j : (forall s, P s -> P' s) -> (forall n, Q n -> Q' n) -> parts P Q j -> parts P' Q' j.
Proof.
  intros PP QQ. induction j as [| | |s|n|l IH|m IH] using json_ind2; cbn [parts]; auto.
  - rewrite !all_Forall, !Forall_forall in *. auto.
  - rewrite !all_Forall, !Forall_forall in *. intros [ND H]. split; auto. intros x X. destruct (H x X). auto.
Qed.

(** *** C76 *)

Section RoundTrip.
  Variables js_num serde_num : N -> bytes.
  Variable js_read : bytes -> N.
  Variable serde_read : bytes -> option N.
  Variable lossy : bytes -> bytes.

  (** A number whose texts both sides read as the number. *)
  Definition stable (write : N -> bytes) (n : N) : Prop :=
    a_number (write n) /\ js_read (write n) = n /\ serde_read (write n) = Some n.

  Lemma printed_read write j : parts utf8 (stable write) j ->
    js_json js_read lossy (serde_text write j) = Some j /\ ((depth j <= 127)%nat -> serde_parse serde_read (serde_text write j) = Some j).
  Proof.
    intro P.
    assert (W1 : parts utf8 (written_number write (fun x n => js_read x = n)) j).
    { revert P. apply parts_weaken; auto. intros n (A & B & _). split; auto. }
    assert (W2 : parts utf8 (written_number write (fun x n => serde_read x = Some n)) j).
    { revert P. apply parts_weaken; auto. intros n (A & _ & B). split; auto. }
    assert (D1 := serde_den write false utf8 (fun x n => js_read x = n) j None W1 Logic.I).
    assert (TX : forall num d t, den false utf8 num d t j -> text_of false utf8 num d t j).
    { intros num d t D. exists [], t, []. rewrite app_nil_r. repeat split; auto; constructor. }
    assert (T1 := TX _ _ _ D1). split.
    - unfold js_json. assert (V : text_decode lossy (serde_text write j) = serde_text write j).
      { unfold text_decode. rewrite (text_first _ _ _ _ _ _ T1). pose proof (proj1 (den_valid _) _ _ _ D1) as V. rewrite V. auto. }
      rewrite V. apply js_text_of. exists [], (serde_text write j), []. rewrite app_nil_r. repeat split; try constructor.
      apply (proj1 (den_weaken true utf8 (fun _ => True) _ _ (fun _ _ => Logic.I)) _ _ _ D1). auto.
    - intro L. apply serde_text_of. apply TX. apply serde_den; auto.
  Qed.

  (** *** C76, the part that holds.  Full statement: a JSON value written as text in the browser or on the server is read on
      either side as that value.  Missing: numbers that are not finite, or whose text is not read back, and values that nest
      deeper than 127 levels; see the refutations below.

      A JSON text written in the browser or on the server is read, in the browser and on the server, as the value that was
      written; on the server if it nests at most 127 levels.  The server orders the entries of objects. *)
  Theorem C76_texts_partial j :
    parts utf8 (fun n => finite n = true /\ stable (js_number js_num) n /\ stable serde_num n) j ->
    js_json js_read lossy (js_stringify js_num (denotes_json j)) = Some j /\
    ((depth j <= 127)%nat -> serde_parse serde_read (js_stringify js_num (denotes_json j)) = Some j) /\
    exists j', to_serde j = Some j' /\ alike j j' /\
      js_json js_read lossy (serde_text serde_num j') = Some j' /\
      ((depth j <= 127)%nat -> serde_parse serde_read (serde_text serde_num j') = Some j').
  Proof.
    intros P.
    assert (P1 : parts utf8 (stable (js_number js_num)) j) by (revert P; apply parts_weaken; tauto).
    rewrite stringify_serde. destruct (printed_read _ _ P1) as [A B]. split; auto. split; auto.
    destruct (to_serde_alike utf8 (fun n => finite n = true /\ stable (js_number js_num) n /\ stable serde_num n) j) as (j' & E & AL & P' & D); auto.
    { tauto. }
    exists j'. split; auto. split; auto. rewrite <- D. apply printed_read. revert P'. apply parts_weaken; tauto.
  Qed.
End RoundTrip.

(** Numbers for the examples: one, written "1" by the browser and "1.0" by the server. *)
Module Demo.
  Definition one : N := 4607182418800017408.
  Definition nan : N := 9221120237041090560.
  Definition js_num (n : N) : bytes := str "1".
  Definition serde_num (n : N) : bytes := str "1.0".
  Definition js_read (x : bytes) : N := if bytes_eqb x (str "0") then 0 else one.
  Definition serde_read (x : bytes) : option N := if bytes_eqb x (str "0") then Some 0 else Some one.
  Definition lossy (b : bytes) : bytes := [239; 191; 189].
  Fixpoint nested (n : nat) : json := match n with O => JList [] | S n => JList [nested n] end.
  Fixpoint brackets (n : nat) : bytes := match n with O => [91; 93] | S n => 91 :: brackets n ++ [93] end.
End Demo.
Import Demo.

Example C76_example :
  let j := JObject [(str "name", JString [195; 169; 34; 10] ); (str "list", JList [JNumber one; JTrue; JNull; JObject []])] in
  parts utf8 (fun n => finite n = true /\ stable js_read serde_read (js_number js_num) n /\ stable js_read serde_read serde_num n) j.
Proof.
  cbn zeta. assert (A : a_number (str "1")).
  { exists [], (str "1"), [], []. split; auto. split; auto. split; [right|auto]. split; [split; [discriminate|repeat constructor; vm_compute; discriminate]|vm_compute; discriminate]. }
  assert (B : a_number (str "1.0")).
  { exists [], (str "1"), (str ".0"), []. split; auto. split; auto. split; [right|split; [right|auto]].
    - split; [split; [discriminate|repeat constructor; vm_compute; discriminate]|vm_compute; discriminate].
    - exists (str "0"). split; auto. split; [discriminate|repeat constructor; vm_compute; discriminate]. }
  repeat split; auto; try (repeat constructor; cbn; intuition discriminate).
Qed.

(** NaN is written "null" in the browser, and read back as null; the server panics. *)
Theorem C76_nan_refuted : exists n, js_json js_read lossy (js_stringify js_num (denotes_json (JList [JNumber n]))) = Some (JList [JNull]) /\
  to_serde (JList [JNumber n]) = None.
Proof. exists nan. vm_compute. auto. Qed.

(** Minus zero is written "0" in the browser, and read back as zero. *)
Theorem C76_minus_zero_refuted : exists n m, js_json js_read lossy (js_stringify js_num (denotes_json (JNumber n))) = Some (JNumber m) /\ n <> m.
Proof. exists p63, 0. split; [vm_compute; reflexivity|discriminate]. Qed.

(** 128 levels are written and read in the browser, and not read on the server. *)
Theorem C76_depth_refuted : exists j, js_json js_read lossy (js_stringify js_num (denotes_json j)) = Some j /\
  serde_parse serde_read (js_stringify js_num (denotes_json j)) = None.
Proof. exists (nested 127). vm_compute. auto. Qed.

Print Assumptions C76_texts_partial.
