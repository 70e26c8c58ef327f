(** Cookies: what is set is what is read (C62), what others set is not always (C63), who gets them (C64), and cookies holding
    JSON (C65). *)
From Coq Require Import String List NArith ZArith Bool Lia ZifyN.
From Verif Require Import CodecModel CodecJsModel CodecSpec CodecProofs CodecProps CodecUtf8 FloatModel DomWire BridgeModel BridgeProps CookieModel.
Import ListNotations.
Local Open Scope string_scope.
Local Open Scope list_scope.
Local Open Scope N_scope.

(** ** Specification *)

(** RFC 7230: a token, the names cookies may have (RFC 6265, 4.1.1). *)
Definition tchar (b : N) : Prop :=
  48 <= b <= 57 \/ 65 <= b <= 90 \/ 97 <= b <= 122 \/
  In b [33; 35; 36; 37; 38; 39; 42; 43; 45; 46; 94; 95; 96; 124; 126].
Definition token (n : bytes) : Prop := n <> [] /\ Forall tchar n.
(** Names that demand a secure cookie (RFC 6265bis, 4.1.3), in any case. *)
Definition small_letter (b : N) : N := if (65 <=? b) && (b <=? 90) then b + 32 else b.
Definition reserved (n : bytes) : Prop :=
  exists r, map small_letter n = str "__secure-" ++ r \/ map small_letter n = str "__host-" ++ r.

(** What a browser may hold: token names, each once, values without semicolon, of limited size. *)
Definition cookie_ok (c : cookie) : Prop := token (c_name c) /\ ~ In 59 (c_value c) /\ len (c_name c) + len (c_value c) <= 4096.
Definition jar_ok (jar : list cookie) : Prop := Forall cookie_ok jar /\ NoDup (map c_name jar).

(** The length of a text in a cookie: letters, digits and [-_.!~*'()] are kept, every other byte takes three. *)
Definition kept (b : N) : bool :=
  ((65 <=? b) && (b <=? 90)) || ((97 <=? b) && (b <=? 122)) || ((48 <=? b) && (b <=? 57)) || existsb (N.eqb b) (str "-_.!~*'()").
Definition room (v : bytes) : N := fold_right (fun b n => (if kept b then 1 else 3) + n) 0 v.

(** RFC 6265, 4.1.1: the characters of values. *)
Definition cookie_octet (b : N) : Prop := b = 33 \/ 35 <= b <= 43 \/ 45 <= b <= 58 \/ 60 <= b <= 91 \/ 93 <= b <= 126.

(** A cookie that is there at a time (in milliseconds). *)
Definition lives (now : N) (c : cookie) : Prop := forall d, c_expires c = Some d -> now < d * 1000.

(** The browser is closed: cookies without date go (RFC 6265, 5.3). *)
Definition restart (jar : list cookie) : list cookie := filter (fun c => match c_expires c with Some _ => true | None => false end) jar.

(** Dates (of the range of [Date], in seconds) are written without semicolon and read back. *)
Definition dates_ok (parse_date : bytes -> option N) (utc : N -> bytes) : Prop :=
  (forall d, d <= 8640000000000 -> exists a m z, utc d = a :: m ++ [z] /\ Forall (fun b => 32 <= b < 127 /\ b <> 59) (utc d) /\ a <> 32 /\ z <> 32 /\
             len (utc d) <= 1024 /\ parse_date (utc d) = Some d) /\
  parse_date (str "Invalid Date") = None.

(** ** Texts *)

Lemma split_one c s : ~ In c s -> split c s = [s].
Proof.
  induction s as [|b s IH]; simpl; auto. intros H. destruct (N.eqb_spec b c); [subst; tauto|]. rewrite IH; auto.
Qed.

Lemma split_app c a b : ~ In c a -> split c (a ++ c :: b) = a :: split c b.
Proof.
  induction a as [|x a IH]; simpl; [rewrite N.eqb_refl; auto|]. intros H. destruct (N.eqb_spec x c); [subst; tauto|]. rewrite IH; auto.
Qed.

Lemma cut_app c a b : ~ In c a -> cut c (a ++ c :: b) = (a, Some b).
Proof.
  induction a as [|x a IH]; simpl; [rewrite N.eqb_refl; auto|]. intros H. destruct (N.eqb_spec x c); [subst; tauto|]. rewrite IH; auto.
Qed.

(** Visible ASCII: nothing is trimmed at it. *)
Definition visible (b : N) : Prop := 32 < b < 127.

Lemma range_f lo hi b : b < lo \/ hi < b -> in_range lo hi b = false.
Proof. unfold in_range. intros H. apply andb_false_iff. destruct H; [left|right]; apply N.leb_gt; auto. Qed.
Lemma range_t lo hi b : lo <= b <= hi -> in_range lo hi b = true.
Proof. unfold in_range. intros H. apply andb_true_intro. split; apply N.leb_le; lia. Qed.
Lemma eqb_f a b : a <> b -> (a =? b) = false.
Proof. apply N.eqb_neq. Qed.

Lemma visible1 a : visible a -> white1 a = false.
Proof. intros [A B]. unfold white1. rewrite range_f, eqb_f by lia. auto. Qed.
Lemma visible2 a b : visible a \/ visible b -> white2 a b = false.
Proof. unfold white2, visible. intros [H|H]; [rewrite (eqb_f a) by lia; auto|rewrite (eqb_f b), andb_false_r by lia; auto]. Qed.
Lemma visible3 a b c : visible a \/ visible b \/ visible c -> white3 a b c = false.
Proof.
  unfold white3, visible. intros [H|[H|H]].
  - rewrite !(eqb_f a) by lia. auto.
  - rewrite !(eqb_f b) by lia. rewrite !andb_false_r. auto.
  - rewrite !(eqb_f c) by lia. rewrite range_f by lia. rewrite !andb_false_r. auto.
Qed.

Lemma after_visible b r : visible b -> after_white (b :: r) = None.
Proof.
  intros V. simpl. rewrite visible1 by auto. destruct r as [|c r]; auto. rewrite visible2 by auto. destruct r as [|d r]; auto.
  rewrite visible3 by auto. auto.
Qed.
Lemma before_visible b r : visible b -> before_white (b :: r) = None.
Proof.
  intros V. simpl. rewrite visible1 by auto. destruct r as [|c r]; auto. rewrite visible2 by auto. destruct r as [|d r]; auto.
  rewrite visible3 by auto. auto.
Qed.

(** Trimming does not pass a visible character. *)
Lemma before_stop x v r y : visible v -> before_white (x ++ v :: r) = Some y -> exists x', y = x' ++ v :: r.
Proof.
  intros V. destruct x as [|a [|b [|c x]]].
  - simpl app. rewrite before_visible by auto. discriminate.
  - simpl. destruct (white1 a); [intros [= <-]; exists []; auto|]. rewrite visible2 by auto. destruct r; [discriminate|].
    rewrite visible3 by auto. discriminate.
  - simpl. destruct (white1 a); [intros [= <-]; exists [b]; auto|]. destruct (white2 b a); [intros [= <-]; exists []; auto|].
    rewrite visible3 by auto. discriminate.
  - simpl. destruct (white1 a); [intros [= <-]; exists (b :: c :: x); auto|]. destruct (white2 b a); [intros [= <-]; exists (c :: x); auto|].
    destruct (white3 c b a); [intros [= <-]; exists x; auto|discriminate].
Qed.
Lemma drop_stop fuel : forall x v r, visible v -> exists x', drop_while before_white fuel (x ++ v :: r) = x' ++ v :: r.
Proof.
  induction fuel as [|n IH]; intros x v r V; simpl; [eauto|].
  destruct (before_white (x ++ v :: r)) as [y|] eqn:E; [|eauto]. destruct (before_stop x v r y V E) as (x' & ->). auto.
Qed.
Lemma drop_visible f fuel b r : f (b :: r) = None -> drop_while f fuel (b :: r) = b :: r.
Proof. intros H. destruct fuel; simpl; auto. rewrite H. auto. Qed.

(** A piece of [document.cookie]: the name is kept. *)
Lemma trim_pair b n v : visible b -> exists v', js_trim ((b :: n) ++ 61 :: v) = (b :: n) ++ 61 :: v'.
Proof.
  intros V. unfold js_trim. cbn [app length]. rewrite drop_visible by (apply after_visible; auto).
  cbn [rev]. rewrite rev_app_distr. simpl. rewrite <- !app_assoc. simpl.
  destruct (drop_stop (S (length (n ++ 61 :: v))) (rev v) 61 (rev n ++ [b])) as (x' & E); [unfold visible; lia|].
  change (rev v ++ [61]) with (rev v ++ [61]) in E. simpl in E. rewrite E.
  exists (rev x'). rewrite rev_app_distr. simpl. rewrite rev_app_distr. simpl. rewrite rev_involutive, <- app_assoc. auto.
Qed.
Lemma trim_keep b n v : visible b -> Forall visible v -> js_trim ((b :: n) ++ 61 :: v) = (b :: n) ++ 61 :: v.
Proof.
  intros V F. unfold js_trim. cbn [app length]. rewrite drop_visible by (apply after_visible; auto).
  assert (E : exists z w, rev (b :: n ++ 61 :: v) = z :: w /\ visible z).
  { destruct v as [|y v] using rev_ind.
    - cbn [rev]. rewrite rev_app_distr. simpl. eexists _, _. split; [reflexivity|]. unfold visible; lia.
    - clear IHv. apply Forall_app in F. destruct F as [_ F]. inversion F; subst. exists y.
      replace (b :: n ++ 61 :: v ++ [y]) with ((b :: n ++ 61 :: v) ++ [y]) by (simpl; rewrite <- app_assoc; auto).
      rewrite rev_app_distr. simpl. eauto. }
  destruct E as (z & w & E & Z). rewrite E. rewrite drop_visible by (apply before_visible; auto). rewrite <- E. apply rev_involutive.
Qed.

(** The same for the trimming of the browser. *)
Lemma cookie_trim_visible s : Forall visible s -> cookie_trim s = s.
Proof.
  intros F. assert (W : forall b r, visible b -> wsp (b :: r) = None).
  { intros b r V. simpl. unfold visible in V. rewrite !eqb_f by lia. auto. }
  unfold cookie_trim. destruct s as [|b s]; [reflexivity|]. inversion F; subst. rewrite drop_visible by auto.
  destruct (rev (b :: s)) as [|z w] eqn:E; [apply (f_equal (@length N)) in E; rewrite rev_length in E; discriminate|].
  rewrite drop_visible; [rewrite <- E; apply rev_involutive|]. apply W.
  assert (I : In z (b :: s)) by (apply in_rev; rewrite E; left; auto). exact (proj1 (Forall_forall _ _) F z I).
Qed.

Lemma cookie_trim_ends a m z : a <> 32 -> z <> 32 -> a <> 9 -> z <> 9 -> cookie_trim (a :: m ++ [z]) = a :: m ++ [z].
Proof.
  intros A Z A2 Z2. unfold cookie_trim. rewrite drop_visible by (simpl; rewrite !eqb_f by auto; auto).
  replace (a :: m ++ [z]) with ((a :: m) ++ [z]) by auto. rewrite rev_app_distr. cbn [rev app].
  rewrite drop_visible by (simpl; rewrite !eqb_f by auto; auto). cbn [rev]. rewrite rev_app_distr, rev_involutive. auto.
Qed.

(** ** Escapes *)

Lemma hex_round n : n < 16 -> hex_value (hex_digit n) = Some n.
Proof.
  intros H. unfold hex_digit. destruct (N.ltb_spec n 10).
  - unfold hex_value. rewrite range_t by lia. f_equal. lia.
  - unfold hex_value. rewrite range_f by lia. rewrite range_t by lia. f_equal. lia.
Qed.
Lemma hex_visible n : n < 16 -> visible (hex_digit n) /\ hex_digit n <> 61 /\ hex_digit n <> 59 /\ hex_digit n <> 37.
Proof. intros H. unfold hex_digit, visible. destruct (N.ltb_spec n 10); lia. Qed.

Lemma unreserved_visible b : unreserved b = true -> visible b /\ b <> 61 /\ b <> 59 /\ b <> 37 /\ b < 128.
Proof.
  unfold unreserved, in_range, visible. rewrite !orb_true_iff, !andb_true_iff, !N.leb_le, !N.eqb_eq. intros H.
  repeat (destruct H as [H|H]); lia.
Qed.

Lemma escape_byte b r run : b < 256 -> decode_run run (escape b ++ r) = decode_run (run ++ [b]) r.
Proof.
  intros H. unfold escape. cbn [app decode_run]. rewrite N.eqb_refl.
  rewrite hex_round by (apply N.div_lt_upper_bound; lia). rewrite hex_round by (apply N.mod_lt; lia).
  replace (16 * (b / 16) + b mod 16) with b by (apply N.div_mod; lia). auto.
Qed.

Lemma decode_flush run b t : b <> 37 -> utf8_valid run = true ->
  decode_run run (b :: t) = match decode_run [] t with Some r => Some (run ++ b :: r) | None => None end.
Proof.
  intros H V. cbn [decode_run]. rewrite eqb_f by auto. rewrite V. destruct (decode_run [] t); auto.
Qed.

Ltac Zify.zify_post_hook ::= Z.div_mod_to_equations.
Lemma encode_bytes c : scalar c -> all (fun b => b < 256) (encode c) /\ (c < 128 -> encode c = [c]) /\
  (128 <= c -> Forall (fun b => unreserved b = false) (encode c)).
Proof.
  intros S. assert (U : forall b, 128 <= b -> unreserved b = false).
  { intros b H. destruct (unreserved b) eqn:E; auto. apply unreserved_visible in E. lia. }
  unfold encode, scalar in *. destruct (N.ltb_spec c 128); [simpl; split; [lia|split; [auto|lia]]|].
  destruct (N.ltb_spec c 2048); [|destruct (N.ltb_spec c 65536)].
  - unfold all; cbn [fold_right]. split; [lia|]. split; [lia|]. intros _. repeat constructor; apply U; lia.
  - unfold all; cbn [fold_right]. split; [lia|]. split; [lia|]. intros _. repeat constructor; apply U; lia.
  - unfold all; cbn [fold_right]. split; [lia|]. split; [lia|]. intros _. repeat constructor; apply U; lia.
Qed.

Ltac Zify.zify_post_hook ::= idtac.

Lemma decode_escaped l r : forall run, all (fun b => b < 256) l -> Forall (fun b => unreserved b = false) l ->
  decode_run run (encode_component l ++ r) = decode_run (run ++ l) r.
Proof.
  induction l as [|b l IH]; intros run B U; simpl; [rewrite app_nil_r; auto|].
  destruct B as [B1 B2]. inversion U as [|? ? U1 U2]; subst. rewrite U1. rewrite <- app_assoc. rewrite escape_byte by auto.
  unfold encode_component in IH. rewrite IH by auto. rewrite <- app_assoc. auto.
Qed.

Lemma encode_component_app a b : encode_component (a ++ b) = encode_component a ++ encode_component b.
Proof. unfold encode_component. apply flat_map_app. Qed.

Lemma valid_app cps d : Forall scalar cps -> Forall scalar d -> utf8_valid (flat_map encode (cps ++ d)) = true.
Proof. intros A B. apply C17_strings_are_utf8. exists (cps ++ d). split; auto. apply Forall_app; auto. Qed.

(** What is encoded decodes to itself. *)
Lemma decode_encode s : utf8_valid s = true -> decode_component (encode_component s) = Some s.
Proof.
  intros V. apply C17_strings_are_utf8 in V. destruct V as (cps & F & ->).
  assert (G : forall cps done, Forall scalar cps -> Forall scalar done ->
    decode_run (flat_map encode done) (encode_component (flat_map encode cps)) = Some (flat_map encode done ++ flat_map encode cps)).
  { clear. induction cps as [|c cps IH]; intros done F D.
    - simpl. rewrite app_nil_r. pose proof (valid_app done [] D (Forall_nil _)) as V. rewrite app_nil_r in V. rewrite V. auto.
    - inversion F as [|? ? S F2]; subst. cbn [flat_map]. rewrite encode_component_app. destruct (encode_bytes c S) as (B & A & U).
      assert (E : unreserved c = true /\ c < 128 \/ Forall (fun b => unreserved b = false) (encode c)).
      { destruct (N.lt_ge_cases c 128) as [L|L]; [|right; auto]. rewrite (A L). destruct (unreserved c) eqn:X; [left; auto|right; auto]. }
      destruct E as [[E L]|E].
      + rewrite (A L). unfold encode_component at 1. cbn [flat_map]. rewrite E. cbn [app].
        rewrite decode_flush; [|apply unreserved_visible; auto|pose proof (valid_app done [] D (Forall_nil _)) as V; rewrite app_nil_r in V; auto].
        pose proof (IH [] F2 (Forall_nil _)) as Q. cbn [flat_map app] in Q. rewrite Q. auto.
      + rewrite decode_escaped by auto. replace (flat_map encode done ++ encode c) with (flat_map encode (done ++ [c]))
          by (rewrite flat_map_app; simpl; rewrite app_nil_r; auto).
        rewrite IH; auto; [|apply Forall_app; auto]. rewrite flat_map_app. simpl. rewrite app_nil_r, <- app_assoc. auto. }
  apply (G cps [] F (Forall_nil _)).
Qed.

Lemma encode_clean s : all (fun b => b < 256) s -> Forall (fun b => visible b /\ b <> 61 /\ b <> 59) (encode_component s).
Proof.
  induction s as [|b s IH]; simpl; [constructor|]. intros [B BS]. apply Forall_app. split; auto.
  destruct (unreserved b) eqn:U.
  - apply unreserved_visible in U. constructor; [tauto|constructor].
  - unfold escape. constructor; [unfold visible; lia|].
    destruct (hex_visible (b / 16)) as (? & ? & ? & ?); [apply N.div_lt_upper_bound; lia|].
    destruct (hex_visible (b mod 16)) as (? & ? & ? & ?); [apply N.mod_lt; lia|]. constructor; [auto|]. constructor; [auto|constructor].
Qed.

(** ** The jar *)

Lemma tchar_visible b : tchar b -> visible b /\ b <> 61 /\ b <> 59.
Proof. unfold tchar, visible. simpl. intros H. repeat (destruct H as [H|H]); lia. Qed.

Lemma token_facts n : token n -> exists b r, n = b :: r /\ visible b /\ ~ In 61 n /\ ~ In 59 n /\ Forall visible n.
Proof.
  intros [E F]. destruct n as [|b r]; [congruence|]. exists b, r. split; auto.
  assert (G : forall x, In x (b :: r) -> visible x /\ x <> 61 /\ x <> 59)
    by (intros x I; apply tchar_visible; exact (proj1 (Forall_forall _ _) F x I)).
  split; [apply G; left; auto|]. split; [intros I; apply G in I; tauto|]. split; [intros I; apply G in I; tauto|].
  apply Forall_forall. intros x I. apply G; auto.
Qed.

Lemma show_token c : token (c_name c) -> show c = c_name c ++ 61 :: c_value c.
Proof. intros [E _]. unfold show. destruct (c_name c); [congruence|auto]. Qed.

Lemma trim_space s : js_trim (32 :: s) = js_trim s.
Proof. reflexivity. Qed.

(** A piece of the text of another name is passed over. *)
Lemma loop_other c cname sp t : token (c_name c) -> c_name c <> cname -> (sp = [] \/ sp = [32]) ->
  get_loop cname ((sp ++ show c) :: t) = get_loop cname t.
Proof.
  intros T NE SP. rewrite (show_token c T). destruct (token_facts _ T) as (b & r & E & V & N61 & _ & _).
  assert (R : forall v', match split 61 (c_name c ++ 61 :: v') with
                 | [name; value] => if bytes_eqb name cname then decode_component value else get_loop cname t
                 | _ => get_loop cname t end = get_loop cname t).
  { intros v'. rewrite split_app by auto. destruct (split 61 v') as [|x [|? ?]]; auto. destruct (bytes_eqb_spec (c_name c) cname); [congruence|auto]. }
  assert (TR : exists v', js_trim (sp ++ c_name c ++ 61 :: c_value c) = c_name c ++ 61 :: v').
  { rewrite E. destruct SP as [-> | ->]; [|cbn [app]; rewrite trim_space]; apply (trim_pair b r (c_value c) V). }
  destruct TR as (v' & TR).
  destruct (sp ++ c_name c ++ 61 :: c_value c) as [|x y] eqn:X; [destruct sp; simpl in X; [destruct (c_name c)|]; discriminate|].
  cbn [get_loop]. rewrite TR. apply R.
Qed.

(** What one cookie gives. *)
Definition value_of (c : cookie) : option bytes := get_loop (c_name c) [show c].

Lemma loop_last c sp : token (c_name c) -> (sp = [] \/ sp = [32]) -> get_loop (c_name c) [sp ++ show c] = value_of c.
Proof.
  intros T SP. unfold value_of. rewrite (show_token c T). destruct (token_facts _ T) as (b & r & E & _).
  destruct SP as [-> | ->]; auto. rewrite E. cbn [app get_loop]. rewrite trim_space. auto.
Qed.

Lemma loop_jar cname l : forall sps, Forall (fun c => token (c_name c)) l -> NoDup (map c_name l) -> length sps = length l ->
  Forall (fun sp => sp = [] \/ sp = [32]) sps ->
  get_loop cname (map (fun p => fst p ++ show (snd p)) (combine sps l)) =
    match find (fun c => bytes_eqb (c_name c) cname) l with Some c => value_of c | None => Some [] end.
Proof.
  induction l as [|c l IH]; intros sps T D L F; destruct sps as [|sp sps]; simpl in L; try discriminate; [reflexivity|].
  inversion T as [|? ? T1 T2]; inversion D as [|? ? D1 D2]; inversion F as [|? ? F1 F2]; subst. cbn [combine map find fst snd].
  injection L as L. destruct (bytes_eqb_spec (c_name c) cname) as [E|NE].
  - assert (Z : forall t, Forall (fun x => c_name x <> cname) (map snd t) -> Forall (fun x => token (c_name x)) (map snd t) ->
        Forall (fun sp => sp = [] \/ sp = [32]) (map fst t) ->
        get_loop cname ((sp ++ show c) :: map (fun p => fst p ++ show (snd p)) t) = get_loop cname [sp ++ show c]).
    { intros t A B C.
      assert (Q : get_loop cname (map (fun p => fst p ++ show (snd p)) t) = Some []).
      { induction t as [|p t IHt]; [reflexivity|]. cbn [map] in *. inversion A; inversion B; inversion C; subst.
        rewrite loop_other; auto. }
      cbn [get_loop]. rewrite Q. auto. }
    rewrite Z.
    + subst cname. apply loop_last; auto.
    + apply Forall_forall. intros x I. apply in_map_iff in I. destruct I as ([a y] & <- & I). apply in_combine_r in I. simpl.
      intros X. apply D1. rewrite E, <- X. apply in_map; auto.
    + apply Forall_forall. intros x I. apply in_map_iff in I. destruct I as ([a y] & <- & I). apply in_combine_r in I. simpl.
      exact (proj1 (Forall_forall _ _) T2 y I).
    + apply Forall_forall. intros x I. apply in_map_iff in I. destruct I as ([a y] & <- & I). apply in_combine_l in I. simpl.
      exact (proj1 (Forall_forall _ _) F2 a I).
  - rewrite loop_other by auto. auto.
Qed.

Lemma split_join l : Forall (fun s => ~ In 59 s) l -> l <> [] ->
  split 59 (join l) = match l with [] => [] | x :: t => x :: map (fun s => 32 :: s) t end.
Proof.
  induction l as [|x l IH]; [congruence|]. intros F _. inversion F as [|? ? F1 F2]; subst. destruct l as [|y l].
  - simpl. apply split_one; auto.
  - change (join (x :: y :: l)) with (x ++ 59 :: 32 :: join (y :: l)). rewrite split_app by auto. f_equal.
    assert (E : split 59 (32 :: join (y :: l)) = match split 59 (join (y :: l)) with p :: r => (32 :: p) :: r | [] => [[32]] end) by reflexivity.
    rewrite E, IH by (auto; discriminate). reflexivity.
Qed.

Lemma filter_names f l : NoDup (map c_name l) -> NoDup (map c_name (filter f l)).
Proof.
  induction l as [|c l IH]; simpl; auto. intros D. inversion D as [|? ? D1 D2]; subst. destruct (f c); simpl; auto. constructor; auto.
  intros I. apply D1. apply in_map_iff in I. destruct I as (x & E & I). apply filter_In in I. rewrite <- E. apply in_map. tauto.
Qed.
Lemma filter_jar f l : jar_ok l -> jar_ok (filter f l).
Proof.
  intros [A B]. split; [|apply filter_names; auto]. apply Forall_forall. intros c I. apply filter_In in I.
  exact (proj1 (Forall_forall _ _) A c (proj1 I)).
Qed.

Definition named (n : bytes) (c : cookie) : bool := bytes_eqb (c_name c) n.

(** What the page reads: the value of the cookie of the name, as the loop makes it. *)
Lemma get_is now jar n : jar_ok jar ->
  js_get now jar n = match find (named n) (filter (alive now) jar) with Some c => value_of c | None => Some [] end.
Proof.
  intros J. apply (filter_jar (alive now)) in J. unfold js_get, document_cookie. set (l := filter (alive now) jar) in *. destruct J as [A B].
  assert (T : Forall (fun c => token (c_name c)) l) by (eapply Forall_impl; [|exact A]; unfold cookie_ok; simpl; tauto).
  destruct l as [|c l]; [reflexivity|].
  rewrite split_join; [|apply Forall_forall; intros s I; apply in_map_iff in I; destruct I as (x & <- & I)|discriminate].
  - change (match map show (c :: l) with [] => [] | x :: t => x :: map (fun s => 32 :: s) t end) with (show c :: map (fun s => 32 :: s) (map show l)).
    replace (show c :: map (fun s => 32 :: s) (map show l))
      with (map (fun p => fst p ++ show (snd p)) (combine ([] :: map (fun _ => [32]) l) (c :: l))).
    + apply loop_jar; auto; [simpl; rewrite map_length; auto|]. constructor; auto. apply Forall_forall. intros x I.
      apply in_map_iff in I. destruct I as (? & <- & _). auto.
    + cbn [combine map fst snd app]. f_equal. clear. induction l; simpl; auto. rewrite IHl. auto.
  - destruct (proj1 (Forall_forall _ _) A x I) as [X [Y _]]. rewrite (show_token x X). intros Z. apply in_app_or in Z.
    destruct (token_facts _ X) as (_ & _ & _ & _ & _ & N & _). destruct Z as [Z|[Z|Z]]; [auto|discriminate|auto].
Qed.

Lemma value_plain c : token (c_name c) -> Forall visible (c_value c) -> ~ In 61 (c_value c) -> value_of c = decode_component (c_value c).
Proof.
  intros T V N. unfold value_of. rewrite (show_token c T). destruct (token_facts _ T) as (b & r & E & Vb & N61 & _).
  assert (TK : js_trim (c_name c ++ 61 :: c_value c) = c_name c ++ 61 :: c_value c) by (rewrite E; apply trim_keep; auto).
  destruct (c_name c ++ 61 :: c_value c) as [|x y] eqn:X; [destruct (c_name c); discriminate|]. cbn [get_loop]. rewrite TK, <- X.
  rewrite split_app, split_one by auto. destruct (bytes_eqb_spec (c_name c) (c_name c)); [auto|congruence].
Qed.

(** ** Setting *)

Section Setting.
  Variable parse_date : bytes -> option N.
  Variable utc : N -> bytes.
  Hypothesis dates : dates_ok parse_date utc.
  Notation js_set := (js_set parse_date utc).
  Notation parse_cookie := (parse_cookie parse_date).

  (** The date of [set]: rounded down to seconds; none if it is out of the range of dates. *)
  Definition expiry (now expires_in : N) : option N :=
    if now + expires_in * 1000 <=? 8640000000000000 then Some (now / 1000 + expires_in) else None.

  Lemma date_text now e : let t := expires_text utc now e in
    (exists a m z, t = a :: m ++ [z] /\ a <> 32 /\ z <> 32) /\ Forall (fun b => 32 <= b < 127 /\ b <> 59) t /\ len t <= 1024 /\
    parse_date t = expiry now e.
  Proof.
    destruct dates as [D1 D2]. unfold expires_text, expiry. destruct (N.leb_spec (now + e * 1000) 8640000000000000).
    - destruct (D1 ((now + e * 1000) / 1000)) as (a & m & z & E & F & A & Z & L & P); [apply N.div_le_upper_bound; lia|]. split; [exists a, m, z; auto|]. split; auto. split; auto.
      rewrite P. f_equal. rewrite N.div_add by lia. auto.
    - split; [exists 73, (str "nvalid Dat"), 101; split; [reflexivity|split; discriminate]|]. split; [|split; [vm_compute; discriminate|auto]].
      apply Forall_forall. intros b I. vm_compute in I. repeat (destruct I as [<-|I]; [lia|]). contradiction.
  Qed.

  Lemma expires_attr n v x s now e : attribute parse_date (Cookie n v x s) (str "expires=" ++ expires_text utc now e) =
    match expiry now e with Some d => Cookie n v (Some d) s | None => Cookie n v x s end.
  Proof.
    destruct (date_text now e) as ((a & m & z & E & A & Z) & F & L & P). unfold attribute.
    change (str "expires=" ++ expires_text utc now e) with (str "expires" ++ 61 :: expires_text utc now e).
    rewrite cut_app by (vm_compute; intuition discriminate). change (cookie_trim (str "expires")) with (str "expires").
    assert (T : cookie_trim (expires_text utc now e) = expires_text utc now e).
    { assert (RA : forall b, In b (expires_text utc now e) -> b <> 9) by (intros b I; destruct (proj1 (Forall_forall _ _) F b I); lia).
      rewrite E in *. apply cookie_trim_ends; auto; apply RA; [left; auto|right; apply in_or_app; right; left; auto]. }
    rewrite T. replace (1024 <? len (expires_text utc now e)) with false by (symmetry; apply N.ltb_ge; auto).
    change (is_word (str "expires") "expires") with true. cbv iota. rewrite P. destruct (expiry now e); auto.
  Qed.

  Lemma reserved_prefix n : ~ reserved n -> has_prefix "__secure-" n = false /\ has_prefix "__host-" n = false.
  Proof.
    intros NR. assert (G : forall w, has_prefix w n = true -> exists r, map small_letter n = str w ++ r).
    { intros w H. unfold has_prefix, is_word in H. destruct (bytes_eqb_spec (map lower (firstn (String.length w) n)) (str w)) as [E|]; [|discriminate].
      exists (map small_letter (skipn (String.length w) n)). rewrite <- E. change lower with small_letter. rewrite <- map_app, firstn_skipn. auto. }
    split.
    - destruct (has_prefix "__secure-" n) eqn:X; auto. exfalso. apply NR. destruct (G _ X) as (r & R). exists r. auto.
    - destruct (has_prefix "__host-" n) eqn:X; auto. exfalso. apply NR. destruct (G _ X) as (r & R). exists r. auto.
  Qed.

  Lemma parse_set n v now e : token n -> ~ reserved n -> all (fun b => b < 256) v -> len n + len (encode_component v) <= 4096 ->
    parse_cookie (n ++ 61 :: encode_component v ++ 59 :: str "expires=" ++ expires_text utc now e ++ str ";path=/;samesite=strict" ++ [34]) =
      Some (Cookie n (encode_component v) (expiry now e) SiteDefault).
  Proof.
    intros T NR B L. destruct (date_text now e) as ((a & m & z & E & A & Z) & F & LT & P).
    destruct (token_facts _ T) as (b0 & r0 & E0 & V0 & N61 & N59 & VN). pose proof (encode_clean v B) as EC.
    unfold CookieModel.parse_cookie.
    match goal with |- context [existsb ?f ?l] => replace (existsb f l) with false end.
    2:{ symmetry. match goal with |- existsb ?f ?l = false => destruct (existsb f l) eqn:X; auto end. exfalso.
        apply existsb_exists in X. destruct X as (b & I & C).
        assert (R : 32 <= b < 127).
        { apply in_app_or in I. destruct I as [I|I]; [pose proof (proj1 (Forall_forall _ _) VN b I) as Q; unfold visible in Q; lia|].
          destruct I as [<-|I]; [lia|]. apply in_app_or in I.
          destruct I as [I|I]; [pose proof (proj1 (Forall_forall _ _) EC b I) as [Q _]; unfold visible in Q; lia|].
          destruct I as [<-|I]; [lia|]. apply in_app_or in I. destruct I as [I|I].
          - vm_compute in I. repeat (destruct I as [<-|I]; [lia|]). contradiction.
          - apply in_app_or in I. destruct I as [I|I]; [destruct (proj1 (Forall_forall _ _) F b I); lia|].
            vm_compute in I. repeat (destruct I as [<-|I]; [lia|]). contradiction. }
        rewrite range_f in C by lia. rewrite (proj2 (N.ltb_ge b 9)) in C by lia. rewrite eqb_f in C by lia. discriminate. }
    assert (N59E : ~ In 59 (encode_component v)) by (intros I; destruct (proj1 (Forall_forall _ _) EC 59 I) as (? & ? & ?); congruence).
    replace (n ++ 61 :: encode_component v ++ 59 :: str "expires=" ++ expires_text utc now e ++ str ";path=/;samesite=strict" ++ [34])
      with ((n ++ 61 :: encode_component v) ++ 59 :: (str "expires=" ++ expires_text utc now e) ++ 59 :: str "path=/;samesite=strict" ++ [34])
      by (rewrite <- !app_assoc; cbn [app]; reflexivity).
    rewrite split_app by (intros I; apply in_app_or in I; destruct I as [I|[I|I]]; [auto|discriminate|auto]).
    rewrite split_app by (intros I; apply in_app_or in I; destruct I as [I|I];
      [vm_compute in I; intuition discriminate|destruct (proj1 (Forall_forall _ _) F 59 I); congruence]).
    rewrite cut_app by auto. rewrite !cookie_trim_visible; auto;
      [|eapply Forall_impl; [|exact EC]; simpl; tauto].
    replace (4096 <? len n + len (encode_component v)) with false by (symmetry; apply N.ltb_ge; auto).
    assert (L0 : len n + len (encode_component v) =? 0 = false) by (apply N.eqb_neq; rewrite E0; unfold len; cbn [length]; lia).
    rewrite L0. cbn [orb]. destruct (reserved_prefix n NR) as [-> ->]. cbn [orb]. f_equal.
    cbn [fold_left]. rewrite expires_attr.
    assert (PA : forall x, attribute parse_date (Cookie n (encode_component v) x SiteDefault) (str "path=/") = Cookie n (encode_component v) x SiteDefault) by reflexivity.
    assert (SA : forall x, attribute parse_date (Cookie n (encode_component v) x SiteDefault) (str "samesite=strict" ++ [34]) = Cookie n (encode_component v) x SiteDefault) by reflexivity.
    change (split 59 (str "path=/;samesite=strict" ++ [34])) with [str "path=/"; str "samesite=strict" ++ [34]]. cbn [fold_left].
    destruct (expiry now e); rewrite PA, SA; auto.
  Qed.

  Lemma set_is now jar n v e : token n -> ~ reserved n -> all (fun b => b < 256) v -> len n + len (encode_component v) <= 4096 ->
    js_set now jar n v e = store now (Cookie n (encode_component v) (expiry now e) SiteDefault) jar.
  Proof. intros T NR B L. unfold CookieModel.js_set, assign_cookie. rewrite parse_set; auto. Qed.

  Lemma store_ok now c jar : jar_ok jar -> cookie_ok c -> jar_ok (store now c jar).
  Proof.
    intros [A B] C. unfold store. apply filter_jar.
    assert (SM : forall x, bytes_eqb (c_name x) (c_name c) = true <-> c_name x = c_name c).
    { intros x. destruct (bytes_eqb_spec (c_name x) (c_name c)); intuition discriminate. }
    destruct (existsb _ jar) eqn:X; split.
    - apply Forall_forall. intros y I. apply in_map_iff in I. destruct I as (x & <- & I). destruct (bytes_eqb _ _); auto.
      exact (proj1 (Forall_forall _ _) A x I).
    - rewrite map_map. rewrite (map_ext _ c_name); auto. intros x. destruct (bytes_eqb_spec (c_name x) (c_name c)); auto.
    - apply Forall_app. split; auto.
    - rewrite map_app. simpl. assert (NI : ~ In (c_name c) (map c_name jar)).
      { intros I. apply in_map_iff in I. destruct I as (x & E & I). assert (Y : existsb (fun x => bytes_eqb (c_name x) (c_name c)) jar = true).
        { apply existsb_exists. exists x. split; auto. apply SM; auto. } congruence. }
      clear -B NI. induction jar as [|y jar IH]; simpl in *; [constructor; [tauto|constructor]|]. inversion B; subst. constructor; [|apply IH; auto].
      intros I. apply in_app_or in I. destruct I as [I|[I|[]]]; [auto|]. apply NI. auto.
  Qed.

  Lemma find_store_same now now' c jar : now <= now' -> NoDup (map c_name jar) ->
    find (named (c_name c)) (filter (alive now') (store now c jar)) = if alive now' c then Some c else None.
  Proof.
    intros L D. assert (SM : forall x, bytes_eqb (c_name x) (c_name c) = true <-> c_name x = c_name c).
    { intros x. destruct (bytes_eqb_spec (c_name x) (c_name c)); intuition discriminate. }
    assert (AL : alive now' c = true -> alive now c = true).
    { unfold alive. destruct (c_expires c); auto. rewrite !N.ltb_lt. lia. }
    assert (SELF : named (c_name c) c = true) by (apply SM; auto).
    unfold store. destruct (existsb _ jar) eqn:X.
    - induction jar as [|x jar IH]; [discriminate|]. cbn [map filter existsb] in *.
      destruct (bytes_eqb (c_name x) (c_name c)) eqn:E.
      + inversion D as [|? ? D1 D2]; subst.
        assert (REST : forall f g, find (named (c_name c)) (filter f (filter g (map (fun y => if bytes_eqb (c_name y) (c_name c) then c else y) jar))) = None).
        { intros f g. match goal with |- ?e = None => destruct e as [y|] eqn:F end; auto. exfalso. apply find_some in F. destruct F as [F1 F2]. apply filter_In in F1. destruct F1 as [F1 _].
          apply filter_In in F1. destruct F1 as [F1 _]. apply in_map_iff in F1. destruct F1 as (z & Z & I). apply D1. apply SM in E. rewrite E.
          destruct (bytes_eqb (c_name z) (c_name c)) eqn:Q; [apply SM in Q; rewrite <- Q; apply in_map; auto|].
          subst y. apply SM in F2. rewrite <- F2. apply in_map; auto. }
        destruct (alive now c) eqn:A; cbn [filter find].
        * destruct (alive now' c) eqn:A'; cbn [find]; [rewrite SELF; auto|apply REST].
        * destruct (alive now' c) eqn:A'; [exfalso; clear -AL A'; try rewrite A' in AL; specialize (AL eq_refl); discriminate|]. apply REST.
      + inversion D as [|? ? D1 D2]; subst. cbn [orb] in X. pose proof (IH D2 X) as Y.
        destruct (alive now x); cbn [filter find]; auto. destruct (alive now' x); cbn [find]; auto. unfold named at 1. rewrite E. exact Y.
    - assert (NO : forall y, In y jar -> named (c_name c) y = false).
      { intros y I. unfold named. destruct (bytes_eqb (c_name y) (c_name c)) eqn:Q; auto. exfalso.
        assert (existsb (fun x => bytes_eqb (c_name x) (c_name c)) jar = true) by (apply existsb_exists; eauto). congruence. }
      rewrite filter_app, filter_app. cbn [filter].
      assert (NF : find (named (c_name c)) (filter (alive now') (filter (alive now) jar)) = None).
      { destruct (find _ _) as [y|] eqn:F; auto. apply find_some in F. destruct F as [F1 F2]. apply filter_In in F1. destruct F1 as [F1 _].
        apply filter_In in F1. destruct F1 as [F1 _]. rewrite NO in F2 by auto. discriminate. }
      assert (FA : forall l, find (named (c_name c)) (filter (alive now') (filter (alive now) jar) ++ l) = find (named (c_name c)) l).
      { intros l. revert NF. generalize (filter (alive now') (filter (alive now) jar)). induction l0 as [|y l0 IH0]; simpl; auto.
        destruct (named (c_name c) y); [discriminate|auto]. }
      rewrite FA. destruct (alive now c) eqn:A; cbn [filter find].
      + destruct (alive now' c) eqn:A'; cbn [find]; [rewrite SELF|]; auto.
      + destruct (alive now' c) eqn:A'; [exfalso; specialize (AL eq_refl); discriminate|auto].
  Qed.

  Lemma find_store_other now now' c jar n : now <= now' -> n <> c_name c ->
    find (named n) (filter (alive now') (store now c jar)) = find (named n) (filter (alive now') jar).
  Proof.
    intros L NE.
    assert (AL : forall x, alive now' x = true -> alive now x = true).
    { intros x. unfold alive. destruct (c_expires x); auto. rewrite !N.ltb_lt. lia. }
    assert (NC : named n c = false) by (unfold named; destruct (bytes_eqb_spec (c_name c) n); congruence).
    unfold store. destruct (existsb _ jar).
    - induction jar as [|x jar IH]; [reflexivity|]. cbn [map filter]. destruct (bytes_eqb_spec (c_name x) (c_name c)) as [E|E].
      + assert (NX : named n x = false) by (unfold named; destruct (bytes_eqb_spec (c_name x) n); congruence).
        assert (R : find (named n) (filter (alive now') (x :: jar)) = find (named n) (filter (alive now') jar)).
        { cbn [filter]. destruct (alive now' x); cbn [find]; [rewrite NX|]; auto. }
        cbn [filter] in R. rewrite R, <- IH. destruct (alive now c); cbn [filter find]; auto. destruct (alive now' c); cbn [find]; [rewrite NC|]; auto.
      + destruct (alive now x) eqn:A; cbn [filter find].
        * destruct (alive now' x); cbn [find]; auto. destruct (named n x); auto.
        * destruct (alive now' x) eqn:A'; [rewrite AL in A by auto; discriminate|]. auto.
    - rewrite filter_app, filter_app. cbn [filter].
      assert (FF : filter (alive now') (filter (alive now) jar) = filter (alive now') jar).
      { induction jar as [|x jar IH]; simpl; auto. destruct (alive now x) eqn:A; simpl; destruct (alive now' x) eqn:A'; rewrite ?IH; auto.
        rewrite AL in A by auto. discriminate. }
      rewrite FF. assert (FA : forall l m, find (named n) m = None -> find (named n) (l ++ m) = find (named n) l).
      { induction l as [|y l IH]; simpl; auto. intros m M. destruct (named n y); auto. }
      apply FA. destruct (alive now c); cbn [filter find]; auto. destruct (alive now' c); cbn [find]; [rewrite NC|]; auto.
  Qed.
End Setting.

(** ** Percent-encoding, as a relation *)

(** [unescapes v t]: [t] is [v] with every %XY replaced by the byte it stands for. *)
Definition hex_of (b x : N) : Prop := (b = 48 + x /\ x < 10) \/ (b = 55 + x /\ 10 <= x < 16) \/ (b = 87 + x /\ 10 <= x < 16).
Inductive unescapes : bytes -> bytes -> Prop :=
| u_nil : unescapes [] []
| u_char b v t : b <> 37 -> unescapes v t -> unescapes (b :: v) (b :: t)
| u_byte h l x y v t : hex_of h x -> hex_of l y -> unescapes v t -> unescapes (37 :: h :: l :: v) (16 * x + y :: t).

Lemma hex_value_spec b x : hex_value b = Some x <-> hex_of b x.
Proof.
  unfold hex_value, hex_of, in_range.
  assert (SO : forall k, (Some k = Some x <-> k = x)) by (intros k; split; [intros [= ->]; auto|intros ->; auto]).
  assert (NO : (@None N = Some x <-> False)) by (split; [discriminate|tauto]).
  destruct (N.leb_spec 48 b), (N.leb_spec b 57); cbn [andb]; rewrite ?SO; try lia;
  destruct (N.leb_spec 65 b), (N.leb_spec b 70); cbn [andb]; rewrite ?SO; try lia;
  destruct (N.leb_spec 97 b), (N.leb_spec b 102); cbn [andb]; rewrite ?SO, ?NO; lia.
Qed.

Lemma valid_cons b r : b < 128 -> utf8_valid (b :: r) = utf8_valid r.
Proof. intros H. cbn [utf8_valid]. replace (b <=? 127) with true by (symmetry; apply N.leb_le; lia). auto. Qed.

(** An ASCII character separates: what stands before and after it is a text. *)
Lemma valid_cut run b r : b < 128 -> utf8_valid (run ++ b :: r) = true <-> utf8_valid run = true /\ utf8_valid r = true.
Proof.
  intros B. split.
  - intros V. apply C17_strings_are_utf8 in V. destruct V as (cps & F & E).
    revert run E. induction F as [|c cps S F IH]; intros run E; [destruct run; discriminate|]. cbn [flat_map] in E.
    destruct run as [|x run].
    + split; [reflexivity|]. rewrite <- (valid_cons b) by auto. change (b :: r) with ([] ++ b :: r). rewrite E. change (encode c ++ flat_map encode cps) with (flat_map encode (c :: cps)).
      apply C17_strings_are_utf8. exists (c :: cps). auto.
    + assert (P : exists rest, x :: run = encode c ++ rest /\ flat_map encode cps = rest ++ b :: r).
      { assert (T : Forall (fun y => 128 <= y) (tl (encode c)) /\ encode c <> []).
        { clear -S. unfold encode. destruct (c <? 128); [split; [constructor|discriminate]|].
          destruct (c <? 2048); [|destruct (c <? 65536)]; (split; [cbn [tl]; repeat (apply Forall_cons; [lia|]); apply Forall_nil|discriminate]). }
        destruct T as [T1 T2]. destruct (encode c) as [|e es]; [congruence|]. simpl in E, T1. injection E as -> E. clear T2.
        revert run E. induction T1 as [|y es Y T1 IHT]; intros run E; simpl in E.
        - exists run. auto.
        - destruct run as [|z run]; simpl in E; [injection E as ->; lia|]. injection E as -> E. destruct (IHT run E) as (rest & R1 & R2).
          injection R1 as R1. exists rest. split; [simpl; f_equal; f_equal; auto|auto]. }
      destruct P as (rest & P1 & P2). destruct (IH rest (eq_sym P2)) as [V1 V2]. split; auto. rewrite P1, valid_encode; auto.
  - intros [V1 V2]. apply C17_strings_are_utf8 in V1, V2. destruct V1 as (c1 & F1 & ->), V2 as (c2 & F2 & ->).
    apply C17_strings_are_utf8. exists (c1 ++ b :: c2). split.
    + apply Forall_app. split; auto. constructor; auto. left. lia.
    + rewrite flat_map_app. cbn [flat_map]. assert (EB : encode b = [b]) by (unfold encode; rewrite (proj2 (N.ltb_lt b 128) B); auto). rewrite EB. auto.
Qed.

Lemma decode_spec v : Forall (fun b => b < 128) v -> forall run t,
  decode_run run v = Some t <-> exists u, unescapes v u /\ t = run ++ u /\ utf8_valid t = true.
Proof.
  intros F. remember (length v) as n eqn:L. assert (LE : (length v <= n)%nat) by lia. clear L. revert v F LE.
  induction n as [|n IH]; intros v F LE run t.
  - destruct v; [|simpl in LE; lia]. simpl. split.
    + destruct (utf8_valid run) eqn:V; [|discriminate]. intros [= <-]. exists []. rewrite app_nil_r. split; [constructor|auto].
    + intros (u & U & -> & V). inversion U; subst. rewrite app_nil_r in *. rewrite V. auto.
  - destruct v as [|b v].
    + simpl. split.
      * destruct (utf8_valid run) eqn:V; [|discriminate]. intros [= <-]. exists []. rewrite app_nil_r. split; [constructor|auto].
      * intros (u & U & -> & V). inversion U; subst. rewrite app_nil_r in *. rewrite V. auto.
    + inversion F as [|? ? F1 F2]; subst. simpl in LE. cbn [decode_run]. destruct (N.eqb_spec b 37) as [->|NE].
      * destruct v as [|h [|l v]].
        -- split; [discriminate|]. intros (u & U & _). inversion U; congruence.
        -- split; [discriminate|]. intros (u & U & _). inversion U; congruence.
        -- assert (F3 : Forall (fun b => b < 128) v) by (inversion F2; subst; inversion H2; auto). simpl in LE.
           split.
           ++ destruct (hex_value h) as [x|] eqn:X; [|discriminate]. destruct (hex_value l) as [y|] eqn:Y; [|discriminate].
              intros D. apply IH in D; auto; [|lia]. destruct D as (u & U & -> & V). apply hex_value_spec in X, Y.
              exists (16 * x + y :: u). split; [constructor; auto|]. split; auto. rewrite <- app_assoc. auto.
           ++ intros (u & U & -> & V). inversion U as [|? ? ? ? ?|? ? x y ? u1 HH HL U1]; subst; [congruence|].
              apply hex_value_spec in HH, HL. rewrite HH, HL.
              apply IH; auto; [lia|]. exists u1. split; auto. rewrite <- app_assoc. split; auto.
      * split.
        -- destruct (utf8_valid run) eqn:V; [|discriminate]. destruct (decode_run [] v) as [r|] eqn:D; [|discriminate]. intros [= <-].
           apply IH in D; auto; [|lia]. destruct D as (u & U & -> & V2). exists (b :: u). split; [constructor; auto|]. split; auto.
           apply valid_cut; auto.
        -- intros (u & U & -> & V). inversion U as [|? ? u1 NB U1|]; subst; [|congruence]. apply valid_cut in V; auto. destruct V as [V1 V2]. rewrite V1.
           assert (D : decode_run [] v = Some u1) by (apply IH; auto; [lia|]; exists u1; auto).
           rewrite D. auto.
Qed.

(** ** The functions of the driver *)

Section Driver.
  Variable parse_date : bytes -> option N.
  Variable utc : N -> bytes.
  Variable stringify : jval -> bytes.
  Variable parse : bytes -> option jval.
  Variable lossy : bytes -> bytes.
  Notation access := (access parse_date utc stringify parse lossy).
  Notation ecall := (ecall parse_date utc stringify parse).
  Notation cookie_get := (cookie_get parse_date utc stringify parse lossy).
  Notation cookie_set := (cookie_set parse_date utc stringify parse lossy).
  Notation cookie_get_json := (cookie_get_json parse_date utc stringify parse lossy).
  Notation cookie_set_json := (cookie_set_json parse_date utc stringify parse lossy).

  Lemma calls s m args s1 v : rust_string m /\ no_bom m -> all sendable args ->
    val_total (VList (builder Api [Get (str "cookie"); Call m args])) < two32 ->
    ecall s cookies m (map denotes args) = (s1, Some v) -> readable v ->
    exists x, access s [b_call m args] = (s1, FVal x) /\ kind x /\ same (denotes x) v.
  Proof.
    intros M A T E R. unfold CookieModel.access.
    apply (C57_access_partial page eget (fun _ _ _ _ => None) ecall (fun _ _ => None) api KNull KNull lossy s Api
             [Get (str "cookie"); Call m args] api s1 v); auto.
    - constructor.
    - eapply runs_get; [reflexivity|]. eapply runs_call; [exact E|constructor].
    - split; [|split; [split; auto|exact Logic.I]]. split; [split; vm_compute; repeat split|intros ? ?; discriminate].
  Qed.

  Lemma small_text t : rust_string t -> len t <= 4096 -> readable (KStr t).
  Proof.
    intros R L. exists (VString t). split; auto. split; [exact Logic.I|]. split; [exact R|]. split; [exact Logic.I|].
    split; [|exact Logic.I]. unfold val_total. unfold two32. lia.
  Qed.

  Lemma text_result x t : kind x -> same (denotes x) (KStr t) -> x = VString t.
  Proof.
    intros K [E|[_ E]]; [|discriminate]. destruct x; simpl in *; try discriminate; try contradiction; try congruence.
    destruct j; try contradiction; discriminate.
  Qed.

  Lemma token_string n : token n -> rust_string n /\ no_bom n.
  Proof.
    intros T. destruct (token_facts n T) as (b & r & E & V & _ & _ & F). split.
    - split.
      + clear -F. induction F as [|x l X F IH]; simpl; auto. unfold visible in X. split; [lia|auto].
      + clear -F. induction F as [|x l X F IH]; auto. rewrite valid_cons; auto. unfold visible in X. lia.
    - intros q Q. rewrite E in Q. injection Q as -> _. unfold visible in V. lia.
  Qed.

  Lemma len_encode v : len v <= len (encode_component v).
  Proof.
    induction v as [|b v IH]; [simpl; lia|]. cbn [encode_component flat_map]. fold (encode_component v). unfold len in *. rewrite app_length.
    destruct (unreserved b); simpl length; lia.
  Qed.

  (** What [cookie_get] gives for what the page gives. *)
  Definition from_page (r : option bytes) : option bytes :=
    match get_by_ptr (match r with
                      | None => DZero
                      | Some t => match js_save_to_buffer (SVStr t) with
                                  | None => DThrow | Some None => DZero | Some (Some b) => DBlock b end
                      end) with
    | FVal (VString value) => Some value
    | FVal _ => Some []
    | _ => None
    end.
  Lemma get_fun now jar n : token n -> len n <= 4096 -> cookie_get (now, jar) n = from_page (js_get now jar n).
  Proof.
    intros T L. unfold CookieModel.cookie_get, CookieModel.access. destruct (token_string n T) as [N1 N2].
    destruct (access_decoded lossy Api [Get (str "cookie"); Call (str "get") [VString n]]) as (blk & B1 & B2).
    - exact Logic.I.
    - split; [split; [split; vm_compute; repeat split|intros ? ?; discriminate]|]. split; [|exact Logic.I].
      split; [split; [split; vm_compute; repeat split|intros ? ?; discriminate]|]. split; [|exact Logic.I].
      split; [exact N1|]. split; [exact Logic.I|exact N2].
    - unfold builder. cbn [map start_cmd step_cmd b_api b_call val_total fold_right].
      unfold BridgeModel.b_get. cbn [val_total fold_right]. change (len (str "api")) with 3. change (len (str "get")) with 3. change (len (str "call")) with 4.
      change (len (str "cookie")) with 6. unfold two32. lia.
    - unfold fetch, builder in *. cbn [map start_cmd step_cmd] in *. rewrite B1. unfold dom_access. rewrite B2.
      assert (W : walk page eget (fun _ _ _ _ => None) ecall (fun _ _ => None) api KNull KNull (now, jar) KNull
        (js_of_val b_api :: [js_of_val (BridgeModel.b_get (str "cookie")); js_of_val (b_call (str "get") [VString n])]) =
        ((now, jar), match js_get now jar n with Some t => NOk (KStr t) | None => NNull end)).
      { cbn [walk js_of_val map b_api BridgeModel.b_get b_call].
        change (next page eget (fun _ _ _ _ => None) ecall (fun _ _ => None) api KNull KNull (now, jar) KNull (SVArr [SVStr (str "api")])) with ((now, jar), NOk api).
        cbv iota beta.
        change (next page eget (fun _ _ _ _ => None) ecall (fun _ _ => None) api KNull KNull (now, jar) api (SVArr [SVStr (str "get"); SVStr (str "cookie")])) with ((now, jar), NOk cookies).
        cbv iota beta.
        change (next page eget (fun _ _ _ _ => None) ecall (fun _ _ => None) api KNull KNull (now, jar) cookies (SVArr [SVStr (str "call"); SVStr (str "get"); SVStr n]))
          with (let '(s1, r) := ecall (now, jar) cookies (str "get") [KStr n] in (s1, match r with Some v => NOk v | None => NNull end)).
        unfold CookieModel.ecall. change (negb (is_host cookies 2)) with false. cbv iota. change (bytes_eqb (str "get") (str "get")) with true. cbv iota.
        destruct (js_get now jar n); reflexivity. }
      cbn [map] in W |- *. rewrite W. destruct (js_get now jar n) as [t|]; [|reflexivity]. cbn [conv_val].
      unfold from_page. destruct (js_save_to_buffer (SVStr t)) as [[?|]|]; reflexivity.
  Qed.

  Lemma get_works now jar n t : token n -> len n <= 4096 -> js_get now jar n = Some t -> rust_string t -> len t <= 4096 ->
    cookie_get (now, jar) n = Some t.
  Proof.
    intros T L G R LT. rewrite get_fun, G by auto.
    destruct (small_text t R LT) as (r & D & K & O & Sm & TT & _).
    assert (E : r = VString t) by (apply text_result; [auto|left; auto]). subst r. unfold from_page.
    destruct (C16_js_to_rust_partial (VString t) O Sm Logic.I TT) as (b & B1 & B2); [discriminate|].
    change (js_of_val (VString t)) with (SVStr t) in B1. rewrite B1. unfold get_by_ptr. rewrite B2. auto.
  Qed.

  Lemma set_works now jar n v e : token n -> len n + len v <= 4096 -> rust_string v -> no_bom v -> e < two64 ->
    cookie_set (now, jar) n v e = Some (now, js_set parse_date utc now jar n v e).
  Proof.
    intros T L R B E. unfold CookieModel.cookie_set. destruct (token_string n T) as [N1 N2].
    destruct (calls (now, jar) (str "set") [VString n; VString v; VU64 e] (now, js_set parse_date utc now jar n v e) KUndef) as (x & X & K & S).
    - split; [split; vm_compute; repeat split|intros ? ?; discriminate].
    - split; [split; [exact N1|split; [exact Logic.I|exact N2]]|]. split; [split; [exact R|split; [exact Logic.I|exact B]]|].
      split; [split; [exact E|split; exact Logic.I]|exact Logic.I].
    - unfold builder. cbn [map start_cmd step_cmd b_api b_call val_total fold_right].
      unfold BridgeModel.b_get. cbn [val_total fold_right]. change (len (str "api")) with 3. change (len (str "get")) with 3. change (len (str "call")) with 4.
      change (len (str "cookie")) with 6. change (len (str "set")) with 3. unfold two32. lia.
    - cbn [map denotes]. unfold CookieModel.ecall. change (negb (is_host cookies 2)) with false. cbv iota.
      change (bytes_eqb (str "set") (str "get")) with false. change (bytes_eqb (str "set") (str "set")) with true. cbv iota. rewrite N2Z.id. auto.
    - exists VUndefined. repeat split.
    - rewrite X. auto.
  Qed.

  Lemma room_is v : len (encode_component v) = room v.
  Proof.
    assert (K : forall b, unreserved b = kept b).
    { intros b. unfold unreserved, kept, in_range. change (str "-_.!~*'()") with [45; 95; 46; 33; 126; 42; 39; 40; 41]. cbn [existsb].
      apply Bool.eq_iff_eq_true. rewrite !orb_true_iff, !andb_true_iff. intuition congruence. }
    induction v as [|b v IH]; auto. cbn [room fold_right]. fold (room v). rewrite <- IH. cbn [encode_component flat_map]. fold (encode_component v).
    rewrite K. unfold len. rewrite app_length. destruct (kept b); simpl length; lia.
  Qed.

  Hypothesis dates : dates_ok parse_date utc.

  Lemma in_range_expiry now e : now + e * 1000 <= 8640000000000000 -> expiry now e = Some (now / 1000 + e).
  Proof. intros H. unfold expiry. apply N.leb_le in H. rewrite H. auto. Qed.

  Lemma find_in now (jar : list cookie) c : NoDup (map c_name jar) -> In c jar -> alive now c = true ->
    find (named (c_name c)) (filter (alive now) jar) = Some c.
  Proof.
    intros JN I A. induction jar as [|x jar IH]; [destruct I|]. simpl in JN. inversion JN as [|? ? D1 D2]; subst.
    assert (N : forall y, named (c_name c) y = true <-> c_name y = c_name c)
      by (intros y; unfold named; destruct (bytes_eqb_spec (c_name y) (c_name c)); intuition discriminate).
    destruct I as [->|I].
    - cbn [filter]. rewrite A. cbn [find]. rewrite (proj2 (N c) eq_refl). auto.
    - cbn [filter]. destruct (alive now x); auto. cbn [find]. destruct (named (c_name c) x) eqn:X; auto. apply N in X. exfalso.
      apply D1. rewrite X. apply in_map; auto.
  Qed.

  Lemma find_none now (jar : list cookie) n : (forall c, In c jar -> c_name c <> n) -> find (named n) (filter (alive now) jar) = None.
  Proof.
    intros H. induction jar as [|x jar IH]; auto. cbn [filter].
    assert (R : find (named n) (filter (alive now) jar) = None) by (apply IH; intros; apply H; right; auto).
    destruct (alive now x); auto. cbn [find]. unfold named at 1. destruct (bytes_eqb_spec (c_name x) n) as [E|]; auto.
    exfalso. apply (H x); auto. left; auto.
  Qed.

  Lemma restart_ok jar : jar_ok jar -> jar_ok (restart jar).
  Proof.
    intros [A B]. unfold restart. split.
    - apply Forall_forall. intros c I. apply filter_In in I. apply (proj1 (Forall_forall _ _) A). tauto.
    - clear A. induction jar as [|x jar IH]; simpl in *; auto. inversion B as [|? ? B1 B2]; subst.
      destruct (c_expires x); auto. simpl. constructor; auto. intros I. apply B1. apply in_map_iff in I. destruct I as (y & E & I).
      apply filter_In in I. rewrite <- E. apply in_map. tauto.
  Qed.

  (** What a kept cookie gives after a restart. *)
  Lemma get_restart now jar n : jar_ok jar -> (forall c, In c jar -> c_name c = n -> c_expires c <> None) ->
    js_get now (restart jar) n = js_get now jar n.
  Proof.
    intros J H. rewrite !get_is by (auto; apply restart_ok; auto). destruct J as [_ JN].
    assert (E : find (named n) (filter (alive now) (restart jar)) = find (named n) (filter (alive now) jar)); [|rewrite E; auto].
    unfold restart. clear JN. induction jar as [|x jar IH]; auto.
    assert (R := IH (fun c I => H c (or_intror I))). cbn [filter].
    destruct (c_expires x) eqn:X.
    - cbn [filter]. destruct (alive now x); auto. cbn [find]. rewrite R. auto.
    - destruct (alive now x); auto. cbn [find]. rewrite R. unfold named at 2. destruct (bytes_eqb_spec (c_name x) n) as [E|]; auto.
      exfalso. apply (H x); auto. left; auto.
  Qed.

  Lemma set_get now jar n v e : jar_ok jar -> token n -> ~ reserved n -> rust_string v -> len n + room v <= 4096 ->
    let jar' := js_set parse_date utc now jar n v e in
    jar_ok jar' /\
    (forall now', now <= now' -> js_get now' jar' n = if alive now' (Cookie n (encode_component v) (expiry now e) SiteDefault) then Some v else Some []) /\
    (forall now' n', now <= now' -> n' <> n -> js_get now' jar' n' = js_get now' jar n') /\
    (forall c, In c jar' -> c_name c = n -> c = Cookie n (encode_component v) (expiry now e) SiteDefault).
  Proof.
    intros J T NR R L jar'. rewrite <- room_is in L. destruct R as [R1 R2].
    pose proof (encode_clean v R1) as EC.
    assert (SI : jar' = store now (Cookie n (encode_component v) (expiry now e) SiteDefault) jar) by (apply set_is; auto).
    set (c := Cookie n (encode_component v) (expiry now e) SiteDefault) in *.
    assert (CO : cookie_ok c).
    { split; [exact T|]. split; [|exact L]. intros I. destruct (proj1 (Forall_forall _ _) EC 59 I) as (? & ? & ?). congruence. }
    assert (J' : jar_ok jar') by (rewrite SI; apply store_ok; auto).
    split; auto. split; [|split].
    - intros now' LE. rewrite (get_is now' jar' n J'), SI. change n with (c_name c) at 1.
      rewrite find_store_same by (auto; apply J). destruct (alive now' c); auto. rewrite value_plain.
      + apply decode_encode; auto.
      + exact T.
      + eapply Forall_impl; [|exact EC]. simpl. tauto.
      + intros I. destruct (proj1 (Forall_forall _ _) EC 61 I) as (? & ? & ?). congruence.
    - intros now' n' LE NE. rewrite !get_is by auto. rewrite SI, find_store_other by auto. auto.
    - intros x I E. rewrite SI in I. unfold store in I. apply filter_In in I. destruct I as [I _].
      destruct (existsb (fun x => bytes_eqb (c_name x) (c_name c)) jar) eqn:X.
      + apply in_map_iff in I. destruct I as (y & Y & I). destruct (bytes_eqb_spec (c_name y) (c_name c)) as [Q|Q]; [auto|]. exfalso. subst y. apply Q. rewrite E. auto.
      + apply in_app_or in I. destruct I as [I|[I|[]]]; auto. exfalso.
        assert (existsb (fun x => bytes_eqb (c_name x) (c_name c)) jar = true).
        { apply existsb_exists. exists x. split; auto. destruct (bytes_eqb_spec (c_name x) (c_name c)); auto. }
        congruence.
  Qed.

  (** *** C62, the part that holds.  Full statement: after [cookie_set name value expires_in] the value is read by
      [cookie_get name] until it expires and not later, other cookies are not changed.  Proved for names that are tokens and do
      not demand a secure connection, values that fit into a cookie and do not start with a byte order mark, and times that are
      dates.  Missing (see the refutations): other names, and times beyond the range of dates. *)
  Theorem C62_set_get_partial now jar n v e :
    jar_ok jar -> token n -> ~ reserved n -> rust_string v -> no_bom v -> len n + room v <= 4096 ->
    now + e * 1000 <= 8640000000000000 ->
    exists jar', cookie_set (now, jar) n v e = Some (now, jar') /\ jar_ok jar' /\
      (forall now', now <= now' -> now' < (now / 1000 + e) * 1000 ->
         cookie_get (now', jar') n = Some v /\ cookie_get (now', restart jar') n = Some v) /\
      (forall now', now <= now' -> (now / 1000 + e) * 1000 <= now' -> cookie_get (now', jar') n = Some []) /\
      (forall now' n', now <= now' -> token n' -> len n' <= 4096 -> n' <> n -> cookie_get (now', jar') n' = cookie_get (now', jar) n').
  Proof.
    intros J T NR R B L D. pose proof (len_encode v) as LE. rewrite room_is in LE.
    exists (js_set parse_date utc now jar n v e).
    split; [apply set_works; auto; [lia|unfold two64; lia]|].
    destruct (set_get now jar n v e J T NR R L) as (J' & G & O & U). rewrite (in_range_expiry now e D) in G, U.
    unfold alive in G. cbn [c_expires] in G.
    split; auto. split; [|split].
    - intros now' A X. apply N.ltb_lt in X. split; apply get_works; auto; try lia.
      + rewrite G, X by auto. auto.
      + rewrite get_restart, G, X; auto. intros c I E. rewrite (U c I E). discriminate.
    - intros now' A X. apply get_works; auto; [lia| |split; [exact Logic.I|reflexivity]|unfold len; simpl; lia]. rewrite G by auto. apply N.ltb_ge in X. rewrite X. auto.
    - intros now' n' A T' L' NE. rewrite !get_fun, O by auto. auto.
  Qed.

  (** A time beyond the range of dates: the cookie goes when the browser is closed. *)
  Theorem C62_far now jar n v e :
    jar_ok jar -> token n -> ~ reserved n -> rust_string v -> no_bom v -> len n + room v <= 4096 ->
    8640000000000000 < now + e * 1000 -> e < two64 ->
    exists jar', cookie_set (now, jar) n v e = Some (now, jar') /\
      forall now', now <= now' -> cookie_get (now', jar') n = Some v /\ cookie_get (now', restart jar') n = Some [].
  Proof.
    intros J T NR R B L D E. pose proof (len_encode v) as LE. rewrite room_is in LE.
    exists (js_set parse_date utc now jar n v e).
    split; [apply set_works; auto; lia|].
    destruct (set_get now jar n v e J T NR R L) as (J' & G & O & U).
    assert (X : expiry now e = None) by (unfold expiry; apply N.leb_gt in D; rewrite D; auto). rewrite X in G, U.
    intros now' A. split; apply get_works; auto; try lia; [rewrite G by auto; auto| |split; [exact Logic.I|reflexivity]|unfold len; simpl; lia].
    rewrite get_is by (apply restart_ok; auto). rewrite find_none; auto.
    intros c I Y. unfold restart in I. apply filter_In in I. destruct I as [I I2]. rewrite (U c I Y) in I2. discriminate.
  Qed.

  (** *** C63, the part that holds.  Full statement: [cookie_get] gives the value of any cookie of the name that the browser
      holds, with percent-encoded bytes decoded.  Proved for values without '='.  Missing: values with '='; see the refutation. *)
  Theorem C63_foreign_partial now jar c t :
    jar_ok jar -> In c jar -> lives now c -> Forall cookie_octet (c_value c) -> ~ In 61 (c_value c) ->
    unescapes (c_value c) t -> utf8_valid t = true -> cookie_get (now, jar) (c_name c) = Some t.
  Proof.
    intros J I L O NE U V. destruct J as [JA JN]. assert (J : jar_ok jar) by (split; auto).
    destruct (proj1 (Forall_forall _ _) JA c I) as (T & _ & SZ).
    assert (OV : forall b, cookie_octet b -> visible b /\ b < 128) by (intros b; unfold cookie_octet, visible; lia).
    assert (UL : len t <= len (c_value c) /\ all (fun b => b < 256) t).
    { assert (VV : Forall (fun b => b < 128) (c_value c)) by (eapply Forall_impl; [|exact O]; intros b X; apply OV; auto).
      clear -U VV. unfold len. induction U as [|b v t NB U IH|h l x y v t H1 H2 U IH]; [simpl; split; [lia|auto]| |].
      - inversion VV; subst. destruct IH as [IH1 IH2]; auto. cbn [length]. split; [lia|]. split; [lia|auto].
      - inversion VV as [|? ? _ V1]; subst. inversion V1 as [|? ? _ V2]; subst. inversion V2; subst. destruct IH as [IH1 IH2]; auto.
        cbn [length]. split; [lia|]. split; [unfold hex_of in *; lia|auto]. }
    destruct UL as [UL UB].
    apply get_works; auto; [lia| |split; auto|lia].
    rewrite get_is by auto.
    assert (A : alive now c = true).
    { unfold alive. destruct (c_expires c) as [d|] eqn:X; auto. apply N.ltb_lt. apply L. auto. }
    assert (F : find (named (c_name c)) (filter (alive now) jar) = Some c) by (apply find_in; auto).
    rewrite F, value_plain; auto.
    - unfold decode_component. apply decode_spec; [eapply Forall_impl; [|exact O]; intros b X; apply OV; auto|]. exists t. auto.
    - eapply Forall_impl; [|exact O]. intros b X. apply OV. auto.
  Qed.

  (** *** C64: no cookie set by the application is restricted to the site. *)
  Theorem C64_never_strict now jar n v e :
    jar_ok jar -> token n -> ~ reserved n -> rust_string v -> no_bom v -> len n + room v <= 4096 -> e < two64 ->
    exists jar', cookie_set (now, jar) n v e = Some (now, jar') /\ forall c, In c jar' -> c_name c = n -> c_site c = SiteDefault.
  Proof.
    intros J T NR R B L E. pose proof (len_encode v) as LE. rewrite room_is in LE.
    exists (js_set parse_date utc now jar n v e). split; [apply set_works; auto; lia|].
    destruct (set_get now jar n v e J T NR R L) as (_ & _ & _ & S). intros c I X. rewrite (S c I X). auto.
  Qed.

  (** ** JSON *)

  Lemma denotes_json_inj a : forall b, denotes_json a = denotes_json b -> a = b.
  Proof.
    induction a using json_ind3; intros b E; destruct b; simpl in E; try discriminate; try congruence.
    - injection E as E. f_equal. revert l0 E. induction H as [|x l X H IH]; intros [|y l0] E; simpl in E; try discriminate; auto.
      injection E as E1 E2. f_equal; auto.
    - injection E as E. f_equal. revert m0 E. induction H as [|x l X H IH]; intros [|y l0] E; simpl in E; try discriminate; auto.
      injection E as E1 E2 E3. f_equal; auto. destruct x, y. simpl in *. f_equal; auto.
  Qed.

  Lemma set_json_works now jar n j e : token n -> len n <= 4096 -> sendable (VJson j) -> val_total (VJson j) < 4000000000 -> e < two64 ->
    cookie_set_json (now, jar) n j e = Some (now, js_set parse_date utc now jar n (stringify (denotes_json j)) e).
  Proof.
    intros T L R SZ E. unfold CookieModel.cookie_set_json. destruct (token_string n T) as [N1 N2].
    destruct (calls (now, jar) (str "set_json") [VString n; VJson j; VU64 e] (now, js_set parse_date utc now jar n (stringify (denotes_json j)) e) KUndef) as (x & X & K & S).
    - split; [split; vm_compute; repeat split|intros ? ?; discriminate].
    - split; [split; [exact N1|split; [exact Logic.I|exact N2]]|]. split; [exact R|].
      split; [split; [exact E|split; exact Logic.I]|exact Logic.I].
    - unfold builder. cbn [map start_cmd step_cmd b_api b_call]. unfold BridgeModel.b_get, b_api, b_call. cbn [map val_total fold_right] in *.
      change (len (str "api")) with 3. change (len (str "get")) with 3. change (len (str "call")) with 4.
      change (len (str "cookie")) with 6. change (len (str "set_json")) with 8. unfold two32. lia.
    - cbn [map denotes]. unfold CookieModel.ecall. change (negb (is_host cookies 2)) with false. cbv iota.
      change (bytes_eqb (str "set_json") (str "get")) with false. change (bytes_eqb (str "set_json") (str "set")) with false.
      change (bytes_eqb (str "set_json") (str "get_json")) with false. change (bytes_eqb (str "set_json") (str "set_json")) with true. cbv iota. rewrite N2Z.id. auto.
    - exists VUndefined. repeat split.
    - rewrite X. auto.
  Qed.

  Lemma get_json_call now jar n v : token n -> len n <= 4096 -> js_get_json parse now jar n = Some v -> readable v ->
    exists x, cookie_get_json (now, jar) n = Some (match x with VJson j => j | _ => JNull end) /\ kind x /\ same (denotes x) v.
  Proof.
    intros T L G R. unfold CookieModel.cookie_get_json. destruct (token_string n T) as [N1 N2].
    destruct (calls (now, jar) (str "get_json") [VString n] (now, jar) v) as (x & X & K & S).
    - split; [split; vm_compute; repeat split|intros ? ?; discriminate].
    - split; [|exact Logic.I]. split; [exact N1|]. split; [exact Logic.I|exact N2].
    - unfold builder. cbn [map start_cmd step_cmd b_api b_call]. unfold BridgeModel.b_get, b_api, b_call. cbn [map val_total fold_right] in *.
      change (len (str "api")) with 3. change (len (str "get")) with 3. change (len (str "call")) with 4.
      change (len (str "cookie")) with 6. change (len (str "get_json")) with 8. unfold two32. lia.
    - cbn [map denotes]. unfold CookieModel.ecall. change (negb (is_host cookies 2)) with false. cbv iota.
      change (bytes_eqb (str "get_json") (str "get")) with false. change (bytes_eqb (str "get_json") (str "set")) with false.
      change (bytes_eqb (str "get_json") (str "get_json")) with true. cbv iota. rewrite G. auto.
    - exact R.
    - exists x. rewrite X. split; auto. destruct x; auto.
  Qed.

  (** The text of a value, read back. *)
  Definition written (j : json) (text : bytes) : Prop :=
    stringify (denotes_json j) = text /\ parse text = Some (denotes_json j) /\ text <> [] /\ rust_string text.

  (** *** C65, the part that holds.  Full statement: [cookie_get_json] gives what [cookie_set_json] stored.  Proved for
      lists, objects and null, for which JSON.parse gives back what JSON.stringify was given, and which fit into a cookie.
      Missing: booleans, numbers and strings; see [C65_scalars]. *)
  Theorem C65_set_get_partial now jar n j e text :
    jar_ok jar -> token n -> ~ reserved n -> sendable (VJson j) -> json_keys j -> written j text -> len n + room text <= 4096 ->
    val_total (VJson j) < 4000000000 -> now + e * 1000 <= 8640000000000000 ->
    match j with JList _ | JObject _ | JNull => True | _ => False end ->
    exists jar', cookie_set_json (now, jar) n j e = Some (now, jar') /\
      (forall now', now <= now' -> now' < (now / 1000 + e) * 1000 -> cookie_get_json (now', jar') n = Some j) /\
      (forall now', now <= now' -> (now / 1000 + e) * 1000 <= now' -> cookie_get_json (now', jar') n = Some JNull).
  Proof.
    intros J T NR SD JK (W1 & W2 & W3 & W4) L SZ D KJ.
    exists (js_set parse_date utc now jar n (stringify (denotes_json j)) e). split; [apply set_json_works; auto; [lia|unfold two64; lia]|].
    rewrite W1. destruct (set_get now jar n text e J T NR W4 L) as (_ & G & _ & _). rewrite (in_range_expiry now e D) in G. unfold alive in G. cbn [c_expires] in G.
    split; intros now' A X; [apply N.ltb_lt in X|apply N.ltb_ge in X].
    {
    destruct (get_json_call now' (js_set parse_date utc now jar n text e) n (denotes_json j)) as (x & E & K & S); auto; [lia| | |].
    - unfold js_get_json. rewrite G, X by auto. destruct text; [congruence|]. rewrite W2. auto.
    - destruct SD as (S1 & S2 & S3). destruct j; try contradiction.
      + exists VNull. repeat split.
      + exists (VJson (JList l)). split; [reflexivity|]. split; [exact Logic.I|]. split; [auto|]. split; [auto|]. split; [unfold two32; lia|exact JK].
      + exists (VJson (JObject m)). split; [reflexivity|]. split; [exact Logic.I|]. split; [auto|]. split; [auto|]. split; [unfold two32; lia|exact JK].
    - rewrite E. f_equal. destruct S as [S|[_ S]]; [|destruct j; try contradiction; discriminate].
      destruct j; try contradiction; destruct x; simpl in *; try contradiction; try discriminate; auto.
      + destruct j; try contradiction; discriminate.
      + apply denotes_json_inj. exact S.
      + apply denotes_json_inj. exact S.
    }
    destruct (get_json_call now' (js_set parse_date utc now jar n text e) n KNull) as (x & E & K & S); auto; [lia| | |].
    - unfold js_get_json. rewrite G, X by auto. auto.
    - exists VNull. repeat split.
    - rewrite E. f_equal. destruct S as [S|[_ S]]; [|discriminate]. destruct x; auto. destruct j0; try contradiction; discriminate.
  Qed.

  (** Booleans, numbers and strings are stored but read as null. *)
  Theorem C65_scalars now jar n j e text :
    jar_ok jar -> token n -> ~ reserved n -> sendable (VJson j) -> written j text -> len n + room text <= 4096 ->
    val_total (VJson j) < 4000000000 -> now + e * 1000 <= 8640000000000000 ->
    match j with JList _ | JObject _ => False | _ => True end ->
    exists jar', cookie_set_json (now, jar) n j e = Some (now, jar') /\
      forall now', now <= now' -> now' < (now / 1000 + e) * 1000 ->
        cookie_get (now', jar') n = Some text /\ cookie_get_json (now', jar') n = Some JNull.
  Proof.
    intros J T NR SD (W1 & W2 & W3 & W4) L SZ D KJ.
    pose proof (len_encode text) as LE. rewrite room_is in LE.
    exists (js_set parse_date utc now jar n (stringify (denotes_json j)) e). split; [apply set_json_works; auto; [lia|unfold two64; lia]|].
    rewrite W1. destruct (set_get now jar n text e J T NR W4 L) as (_ & G & _ & _). rewrite (in_range_expiry now e D) in G. unfold alive in G. cbn [c_expires] in G.
    intros now' A X. apply N.ltb_lt in X. split; [apply get_works; auto; [lia| |lia]; rewrite G, X by auto; auto|].
    destruct (get_json_call now' (js_set parse_date utc now jar n text e) n (denotes_json j)) as (x & E & K & S); auto; [lia| | |].
    - unfold js_get_json. rewrite G, X by auto. destruct text; [congruence|]. rewrite W2. auto.
    - destruct SD as (S1 & S2 & S3). assert (Q : val_total (VJson j) < two32) by (unfold two32; lia). cbn [val_total] in Q.
      destruct j; try contradiction.
      + exists VTrue. repeat split.
      + exists VFalse. repeat split.
      + exists VNull. repeat split.
      + exists (VString s). split; [reflexivity|]. split; [exact Logic.I|]. split; [exact S1|]. split; [exact Logic.I|]. split; [|exact Logic.I].
        cbn [val_total json_total] in *. lia.
      + exists (VF64 bits). split; [reflexivity|]. split; [exact Logic.I|]. split; [exact S1|]. split; [exact Logic.I|]. split; [reflexivity|exact Logic.I].
    - rewrite E. f_equal. destruct x; auto. destruct j0; try contradiction; destruct j; try contradiction; simpl in S; destruct S as [S|[S _]]; discriminate.
  Qed.
End Driver.

(** ** A concrete engine *)
Module Demo.
  (** Dates as thirteen decimal digits, the last first, between two letters. *)
  Fixpoint digits (k : nat) (d : N) : bytes := match k with O => [] | S k => 48 + d mod 10 :: digits k (d / 10) end.
  Definition number (s : bytes) : N := fold_right (fun b n => (b - 48) + 10 * n) 0 s.
  Definition utc (d : N) : bytes := 84 :: digits 13 d ++ [90].
  Definition parse_date (s : bytes) : option N := match s with 84 :: r => Some (number (removelast r)) | _ => None end.
  (** JSON of a list, a string and a number. *)
  Definition a_list := JList [JTrue; JNull].
  Definition a_string := JString (str "a").
  Definition a_number := JNumber 4611686018427387904.
  Definition stringify (v : jval) : bytes :=
    match v with
    | KArr _ => str "[true,null]"
    | KStr _ => [34; 97; 34]
    | KNum _ => str "2"
    | _ => str "null"
    end.
  Definition parse (s : bytes) : option jval :=
    if bytes_eqb s (str "[true,null]") then Some (denotes_json a_list)
    else if bytes_eqb s [34; 97; 34] then Some (denotes_json a_string)
    else if bytes_eqb s (str "2") then Some (denotes_json a_number)
    else if bytes_eqb s (str "null") then Some KNull else None.
  Definition lossy (s : bytes) : bytes := s.
  Definition cookie_set := cookie_set parse_date utc stringify parse lossy.
  Definition cookie_get := cookie_get parse_date utc stringify parse lossy.
  Definition cookie_set_json := cookie_set_json parse_date utc stringify parse lossy.
  Definition cookie_get_json := cookie_get_json parse_date utc stringify parse lossy.

  Lemma digits_ok k : forall d, Forall (fun b => 48 <= b < 58) (digits k d) /\ length (digits k d) = k.
  Proof.
    induction k as [|k IH]; intros d; cbn [digits length]; auto. destruct (IH (d / 10)). split; auto. constructor; auto.
    assert (d mod 10 < 10) by (apply N.mod_lt; lia). lia.
  Qed.
  Lemma number_digits k : forall d, d < 10 ^ N.of_nat k -> number (digits k d) = d.
  Proof.
    induction k as [|k IH]; intros d H; [simpl in H; simpl; lia|]. cbn [digits number fold_right]. fold (number (digits k (d / 10))).
    rewrite IH.
    - assert (d = 10 * (d / 10) + d mod 10) by (apply N.div_mod; lia). assert (d mod 10 < 10) by (apply N.mod_lt; lia). lia.
    - apply N.div_lt_upper_bound; [lia|]. rewrite Nat2N.inj_succ, N.pow_succ_r in H by lia. exact H.
  Qed.
  Lemma dates : dates_ok parse_date utc.
  Proof.
    split; [|reflexivity]. intros d D. destruct (digits_ok 13 d) as [F L]. exists 84, (digits 13 d), 90. split; [reflexivity|].
    split; [|split; [discriminate|split; [discriminate|split]]].
    - unfold utc. constructor; [lia|]. apply Forall_app. split; [|constructor; [lia|auto]].
      eapply Forall_impl; [|exact F]. simpl. intros. lia.
    - unfold utc, len. cbn [length]. rewrite app_length, L. simpl length. lia.
    - unfold utc, parse_date. rewrite removelast_last, number_digits; auto. change (10 ^ N.of_nat 13) with 10000000000000. lia.
  Qed.

  (** Two cookies: one of the server (with a percent-encoded space), one of the session. *)
  Definition start : list cookie := [Cookie (str "sid") (str "a%20b") (Some 2000) SiteLax; Cookie (str "t") (str "x") None SiteDefault].
  Lemma token_str n : n <> [] -> forallb (fun b => (in_range 48 57 b || in_range 65 90 b || in_range 97 122 b || existsb (N.eqb b) [33; 35; 36; 37; 38; 39; 42; 43; 45; 46; 94; 95; 96; 124; 126])%bool) n = true -> token n.
  Proof.
    intros NE H. split; auto. apply Forall_forall. intros b I. apply (proj1 (forallb_forall _ _) H) in I. unfold tchar, in_range in *.
    destruct (existsb (N.eqb b) _) eqn:X in I; [|lia]. do 3 right. apply existsb_exists in X. destruct X as (y & I1 & I2). apply N.eqb_eq in I2. subst. auto.
  Qed.
  Lemma start_ok : jar_ok start.
  Proof.
    split.
    - constructor; [|constructor; [|constructor]]; (split; [apply token_str; [discriminate|reflexivity]|]); split; vm_compute; intuition discriminate.
    - repeat constructor; vm_compute; intuition discriminate.
  Qed.
  Lemma not_reserved n : has_prefix "__secure-" n = false -> has_prefix "__host-" n = false -> ~ reserved n.
  Proof.
    intros A B (r & [H|H]).
    - unfold has_prefix, is_word in A. rewrite <- firstn_map in A. change (map lower) with (map small_letter) in A. rewrite H in A. discriminate.
    - unfold has_prefix, is_word in B. rewrite <- firstn_map in B. change (map lower) with (map small_letter) in B. rewrite H in B. discriminate.
  Qed.

End Demo.
Import Demo.

(** The text "é;=" is set at 1 second for 10 seconds. *)
Definition text : bytes := [195; 169; 59; 61].
Example C62_case : exists jar', cookie_set (1500, start) (str "t") text 10 = Some (1500, jar') /\
  cookie_get (2000, jar') (str "t") = Some text /\ cookie_get (2000, restart jar') (str "t") = Some text /\
  cookie_get (11000, jar') (str "t") = Some [] /\ cookie_get (2000, jar') (str "sid") = Some (str "a b").
Proof.
  destruct (C62_set_get_partial parse_date utc stringify parse lossy dates 1500 start (str "t") text 10) as (jar' & S & _ & G & X & O);
    [exact start_ok|apply token_str; [discriminate|reflexivity]|apply not_reserved; reflexivity|split; [vm_compute; intuition reflexivity|reflexivity]
    |intros ? ?; discriminate|vm_compute; discriminate|vm_compute; discriminate|].
  destruct (G 2000) as [G1 G2]; [vm_compute; congruence|vm_compute; congruence|].
  assert (X1 := X 11000). exists jar'. split; [exact S|]. split; [exact G1|]. split; [exact G2|].
  split; [apply X1; vm_compute; congruence|].
  transitivity (cookie_get (2000, start) (str "sid")); [|vm_compute; reflexivity].
  assert (O1 := O 2000 (str "sid")). apply O1; [vm_compute; congruence|apply token_str; [discriminate|reflexivity]|vm_compute; congruence|discriminate].
Qed.

(** C62 in full: whatever is set is read before it expires. *)
Definition C62_statement : Prop :=
  forall now jar n v e now', jar_ok jar -> rust_string n -> rust_string v -> e < two64 -> now <= now' < (now / 1000 + e) * 1000 ->
  exists jar', cookie_set (now, jar) n v e = Some (now, jar') /\ cookie_get (now', jar') n = Some v /\ cookie_get (now', restart jar') n = Some v.
Lemma empty_ok : jar_ok []. Proof. split; constructor. Qed.
Ltac rust := split; [vm_compute; intuition reflexivity|reflexivity].
(** "for ever", as the largest number: gone when the browser is closed. *)
Theorem C62_far_refuted : exists e jar', e < two64 /\ cookie_set (0, []) (str "a") (str "v") e = Some (0, jar') /\
  cookie_get (0, jar') (str "a") = Some (str "v") /\ cookie_get (0, restart jar') (str "a") = Some [].
Proof.
  destruct (C62_far parse_date utc stringify parse lossy dates 0 [] (str "a") (str "v") (two64 - 1)) as (jar' & S & G);
    [exact empty_ok|apply token_str; [discriminate|reflexivity]|apply not_reserved; reflexivity|rust|intros ? ?; discriminate|vm_compute; discriminate|reflexivity|reflexivity|].
  exists (two64 - 1), jar'. split; [reflexivity|]. split; [exact S|]. assert (G1 := G 0). apply G1. lia.
Qed.
(** A name with '=', a value with a byte order mark, a value that is too long, a name of secure cookies. *)
Theorem C62_name_refuted : exists n jar', rust_string n /\ cookie_set (0, []) n (str "v") 9 = Some (0, jar') /\ cookie_get (0, jar') n = Some [].
Proof.
  exists (str "a=b"), [Cookie (str "a") (str "b=v") (Some 9) SiteDefault]. split; [rust|].
  split; vm_compute; reflexivity.
Qed.
Theorem C62_prefix_refuted : exists n jar', token n /\ cookie_set (0, []) n (str "v") 9 = Some (0, jar') /\ cookie_get (0, jar') n = Some [].
Proof.
  exists (str "__Host-a"), []. split; [apply token_str; [discriminate|reflexivity]|].
  split; vm_compute; reflexivity.
Qed.
Theorem C62_mark_refuted : exists v jar', rust_string v /\ cookie_set (0, []) (str "a") v 9 = Some (0, jar') /\ cookie_get (0, jar') (str "a") = Some [118] /\ v <> [118].
Proof.
  exists [239; 187; 191; 118], [Cookie (str "a") (str "v") (Some 9) SiteDefault]. split; [rust|].
  split; [vm_compute; reflexivity|]. split; [vm_compute; reflexivity|discriminate].
Qed.
Theorem C62_long_refuted : exists v jar', rust_string v /\ cookie_set (0, []) (str "a") v 9 = Some (0, jar') /\ cookie_get (0, jar') (str "a") = Some [] /\ v <> [].
Proof.
  exists (repeat 38 (N.to_nat 1366)), []. split; [|split; [vm_compute; reflexivity|split; [vm_compute; reflexivity|discriminate]]].
  split; [|vm_compute; reflexivity]. induction (N.to_nat 1366); simpl; auto. split; [reflexivity|auto].
Qed.
Theorem C62_refuted : ~ C62_statement.
Proof.
  intros H. destruct (H 0 [] (str "a=b") (str "v") 9 0) as (jar' & S & G & _); [exact empty_ok|rust|rust|reflexivity|vm_compute; intuition congruence|].
  assert (X : cookie_set (0, []) (str "a=b") (str "v") 9 = Some (0, [Cookie (str "a") (str "b=v") (Some 9) SiteDefault])) by (vm_compute; reflexivity).
  rewrite X in S. injection S as <-. clear -G. vm_compute in G. discriminate.
Qed.

(** The server's cookie. *)
Example C63_case : cookie_get (1000, start) (str "sid") = Some (str "a b").
Proof.
  change (str "sid") with (c_name (Cookie (str "sid") (str "a%20b") (Some 2000) SiteLax)).
  apply (C63_foreign_partial parse_date utc stringify parse lossy); [exact start_ok|left; reflexivity|intros d [= <-]; reflexivity| | | |reflexivity].
  - apply Forall_forall. intros b I. unfold cookie_octet. vm_compute in I. repeat (destruct I as [<-|I]; [lia|]). contradiction.
  - vm_compute. intuition discriminate.
  - change (c_value _) with (97 :: 37 :: 50 :: 48 :: [98]). change (str "a b") with (97 :: (16 * 2 + 0) :: [98]).
    apply u_char; [discriminate|]. apply u_byte; [unfold hex_of; lia|unfold hex_of; lia|]. apply u_char; [discriminate|]. apply u_nil.
Qed.
(** A value with '=', as in base64. *)
Theorem C63_refuted : exists c t, jar_ok [c] /\ lives 0 c /\ Forall cookie_octet (c_value c) /\ unescapes (c_value c) t /\ utf8_valid t = true /\
  t <> [] /\ cookie_get (0, [c]) (c_name c) = Some [].
Proof.
  exists (Cookie (str "a") (str "YQ==") None SiteDefault), (str "YQ=="). split.
  { split; [|repeat constructor; simpl; tauto]. constructor; [|constructor]. split; [apply token_str; [discriminate|reflexivity]|]. split; vm_compute; intuition discriminate. }
  split; [intros d; discriminate|]. split.
  { apply Forall_forall. intros b I. unfold cookie_octet. vm_compute in I. repeat (destruct I as [<-|I]; [lia|]). contradiction. }
  split; [cbn [c_value]; change (str "YQ==") with [89; 81; 61; 61]; repeat (apply u_char; [discriminate|]); apply u_nil|].
  split; [reflexivity|]. split; [discriminate|]. vm_compute. reflexivity.
Qed.

(** C64 in full: cookies of the application are sent to its own site only. *)
Definition C64_statement : Prop :=
  forall now jar n v e jar' c, cookie_set (now, jar) n v e = Some (now, jar') -> jar = [] -> In c jar' -> c_site c = SiteStrict.
Theorem C64_refuted : exists jar' c, cookie_set (0, []) (str "a") (str "v") 9 = Some (0, jar') /\ In c jar' /\ c_site c <> SiteStrict.
Proof.
  destruct (C64_never_strict parse_date utc stringify parse lossy dates 0 [] (str "a") (str "v") 9) as (jar' & S & G);
    [exact empty_ok|apply token_str; [discriminate|reflexivity]|apply not_reserved; reflexivity|rust|intros ? ?; discriminate|vm_compute; discriminate|reflexivity|].
  assert (X : cookie_set (0, []) (str "a") (str "v") 9 = Some (0, [Cookie (str "a") (str "v") (Some 9) SiteDefault])) by (vm_compute; reflexivity).
  exists jar', (Cookie (str "a") (str "v") (Some 9) SiteDefault). split; [exact S|].
  assert (Y : jar' = [Cookie (str "a") (str "v") (Some 9) SiteDefault]).
  { unfold cookie_set in X. rewrite S in X. injection X as X. exact X. }
  subst jar'. split; [left; auto|]. rewrite (G (Cookie (str "a") (str "v") (Some 9) SiteDefault)); [discriminate|left; auto|auto].
Qed.

Example C65_case : exists jar', cookie_set_json (1500, start) (str "t") a_list 10 = Some (1500, jar') /\
  cookie_get_json (2000, jar') (str "t") = Some a_list.
Proof.
  destruct (C65_set_get_partial parse_date utc stringify parse lossy dates 1500 start (str "t") a_list 10 (str "[true,null]")) as (jar' & S & G & _);
    [exact start_ok|apply token_str; [discriminate|reflexivity]|apply not_reserved; reflexivity|vm_compute; intuition congruence|vm_compute; tauto
    | |vm_compute; discriminate|vm_compute; reflexivity|vm_compute; discriminate|exact Logic.I|].
  { split; [reflexivity|]. split; [reflexivity|]. split; [discriminate|rust]. }
  exists jar'. split; [exact S|].
  assert (G1 := G 2000). apply G1; vm_compute; congruence.
Qed.
(** Full statement of C65, and a string and a number that come back as null. *)
Theorem C65_refuted : exists j jar', cookie_set_json (1500, start) (str "t") j 10 = Some (1500, jar') /\ j <> JNull /\
  cookie_get (2000, jar') (str "t") = Some (str "2") /\ cookie_get_json (2000, jar') (str "t") = Some JNull.
Proof.
  destruct (C65_scalars parse_date utc stringify parse lossy dates 1500 start (str "t") a_number 10 (str "2")) as (jar' & S & G);
    [exact start_ok|apply token_str; [discriminate|reflexivity]|apply not_reserved; reflexivity|vm_compute; intuition congruence
    | |vm_compute; discriminate|vm_compute; reflexivity|vm_compute; discriminate|exact Logic.I|].
  { split; [reflexivity|]. split; [reflexivity|]. split; [discriminate|rust]. }
  exists a_number, jar'. split; [exact S|]. split; [discriminate|].
  assert (G1 := G 2000). apply G1; vm_compute; congruence.
Qed.
