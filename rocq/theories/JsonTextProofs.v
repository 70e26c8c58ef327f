(** The readers of JSON texts against the grammar: a reader accepts exactly the texts that denote something. *)
From Coq Require Import String List NArith Bool Lia ZifyN.
From Verif Require Import CodecModel CodecUtf8 FloatModel DomWire BridgeModel JsonModel JsonTextModel JsonTextSpec.
Import ListNotations.
Local Open Scope string_scope.
Local Open Scope list_scope.
Local Open Scope N_scope.

Scheme den_mut := Minimality for den Sort Prop
  with elems_mut := Minimality for elems Sort Prop
  with membs_mut := Minimality for membs Sort Prop.
Combined Scheme den_all from den_mut, elems_mut, membs_mut.

(** *** White space *)

Lemma space_iff c : is_space c = true <-> (c = 32 \/ c = 9 \/ c = 10 \/ c = 13).
Proof. unfold is_space. rewrite !orb_true_iff, !N.eqb_eq. tauto. Qed.

Lemma skip_spaces w b : spaces w -> skip (w ++ b) = skip b.
Proof. induction 1; auto. cbn. apply space_iff in H. rewrite H. auto. Qed.

Lemma skip_split b : exists w, spaces w /\ b = w ++ skip b.
Proof.
  induction b as [|c b (w & W & E)]; [exists []; split; [constructor|auto]|]. cbn. destruct (is_space c) eqn:S.
  - exists (c :: w). split; [constructor; auto; apply space_iff; auto|cbn; congruence].
  - exists []. split; [constructor|auto].
Qed.

Lemma skip_length b : (length (skip b) <= length b)%nat.
Proof. induction b; cbn; auto. destruct (is_space a); cbn; lia. Qed.

(** What may follow a value. *)
Definition follow (r : bytes) : Prop :=
  match r with [] => True | c :: _ => is_space c = true \/ c = 44 \/ c = 93 \/ c = 125 end.

Lemma follow_spaces w b : spaces w -> follow b -> follow (w ++ b).
Proof. intros W F. destruct W; auto. left. apply space_iff. auto. Qed.

(** *** Numbers *)

Lemma digit_iff c : is_digit c = true <-> 48 <= c <= 57.
Proof. unfold is_digit, in_range. rewrite andb_true_iff, !N.leb_le. tauto. Qed.

Definition nondigit (r : bytes) : Prop := match r with [] => True | c :: _ => is_digit c = false end.

Lemma digits_app d r : Forall (fun c => 48 <= c <= 57) d -> nondigit r -> digits (d ++ r) = (d, r).
Proof.
  induction 1; intro R; cbn.
  - destruct r; auto. cbn in R |- *. rewrite R. auto.
  - apply digit_iff in H. rewrite H, IHForall by auto. auto.
Qed.

Lemma digits1_app d r : some_digits d -> nondigit r -> digits1 (d ++ r) = Some (d, r).
Proof. intros [N D] R. unfold digits1. rewrite digits_app by auto. destruct d; congruence. Qed.

Lemma digits_ok b d r : digits b = (d, r) -> b = d ++ r /\ Forall (fun c => 48 <= c <= 57) d.
Proof.
  revert d r. induction b as [|c b IH]; intros d r E; cbn in E; [injection E as <- <-; auto|].
  destruct (is_digit c) eqn:D.
  - destruct (digits b) as [d' r'] eqn:E'. injection E as <- <-. destruct (IH _ _ eq_refl) as [-> F]. split; auto. constructor; auto. apply digit_iff. auto.
  - injection E as <- <-. auto.
Qed.

Lemma digits1_ok b d r : digits1 b = Some (d, r) -> b = d ++ r /\ some_digits d.
Proof.
  unfold digits1. destruct (digits b) as [d' r'] eqn:E. apply digits_ok in E as [-> F]. destruct d'; [discriminate|].
  intro X. injection X as <- <-. split; auto. split; auto. discriminate.
Qed.

(** What may follow the parts of a number: no digit, no point, no exponent. *)
Definition stop (r : bytes) : Prop := match r with [] => True | c :: _ => is_digit c = false /\ c <> 46 /\ c <> 101 /\ c <> 69 end.

Lemma follow_stop r : follow r -> stop r.
Proof.
  destruct r as [|c r]; auto. cbn. intro F.
  assert (X : c = 32 \/ c = 9 \/ c = 10 \/ c = 13 \/ c = 44 \/ c = 93 \/ c = 125) by (rewrite space_iff in F; tauto).
  decompose [or] X; subst; cbn; repeat split; try lia; reflexivity.
Qed.

Lemma exp_app e r : (e = [] \/ exists c s d, e = c :: s ++ d /\ (c = 101 \/ c = 69) /\ (s = [] \/ s = [43] \/ s = [45]) /\ some_digits d) ->
  stop r -> exp_part (e ++ r) = Some (e, r).
Proof.
  intros [->|(c & s & d & -> & C & S & D)] R.
  - destruct r as [|c r]; auto. cbn in *. destruct R as (_ & _ & A & B).
    replace (c =? 101) with false by (symmetry; apply N.eqb_neq; auto). replace (c =? 69) with false by (symmetry; apply N.eqb_neq; auto). auto.
  - assert (ND : nondigit r) by (destruct r; cbn in *; tauto).
    unfold exp_part. cbn [app].
    replace ((c =? 101) || (c =? 69)) with true by (destruct C as [-> | ->]; auto).
    destruct S as [->|[->| ->]]; cbn [app].
    + destruct D as [D1 D2]. destruct d as [|x d]; [congruence|]. cbn [app].
      replace ((x =? 43) || (x =? 45)) with false.
      * change (x :: d ++ r) with ((x :: d) ++ r). rewrite digits1_app; auto. split; auto.
      * inversion_clear D2. symmetry. apply orb_false_iff. split; apply N.eqb_neq; lia.
    + cbn. rewrite digits1_app; auto.
    + cbn. rewrite digits1_app; auto.
Qed.

Lemma exp_ok b e r : exp_part b = Some (e, r) ->
  b = e ++ r /\ (e = [] \/ exists c s d, e = c :: s ++ d /\ (c = 101 \/ c = 69) /\ (s = [] \/ s = [43] \/ s = [45]) /\ some_digits d).
Proof.
  unfold exp_part. destruct b as [|c t]; [intro X; injection X as <- <-; auto|].
  destruct ((c =? 101) || (c =? 69)) eqn:C; [|intro X; injection X as <- <-; auto].
  rewrite orb_true_iff, !N.eqb_eq in C. destruct t as [|s t]; [discriminate|].
  destruct ((s =? 43) || (s =? 45)) eqn:S.
  - rewrite orb_true_iff, !N.eqb_eq in S. destruct (digits1 t) as [[d r']|] eqn:D; [|discriminate]. intro X. injection X as <- <-.
    apply digits1_ok in D as [-> D]. split; auto. right. exists c, [s], d. destruct S as [-> | ->]; auto 10.
  - destruct (digits1 (s :: t)) as [[d r']|] eqn:D; [|discriminate]. intro X. injection X as <- <-.
    apply digits1_ok in D as [-> D]. split; auto. right. exists c, [], d. auto 10.
Qed.

Lemma frac_app f r : (f = [] \/ exists d, f = 46 :: d /\ some_digits d) -> (match r with [] => True | c :: _ => is_digit c = false /\ c <> 46 end) ->
  frac_part (f ++ r) = Some (f, r).
Proof.
  intros [->|(d & -> & D)] R.
  - destruct r as [|c r]; auto. cbn in *. replace (c =? 46) with false by (symmetry; apply N.eqb_neq; tauto). auto.
  - assert (ND : nondigit r) by (destruct r; cbn in *; tauto). cbn. rewrite digits1_app; auto.
Qed.

Lemma frac_ok b f r : frac_part b = Some (f, r) -> b = f ++ r /\ (f = [] \/ exists d, f = 46 :: d /\ some_digits d).
Proof.
  unfold frac_part. destruct b as [|c t]; [intro X; injection X as <- <-; auto|].
  destruct (c =? 46) eqn:C; [|intro X; injection X as <- <-; auto].
  apply N.eqb_eq in C as ->. destruct (digits1 t) as [[d r']|] eqn:D; [|discriminate]. intro X. injection X as <- <-.
  apply digits1_ok in D as [-> D]. split; auto. right. eauto.
Qed.

Lemma int_app i r : (i = [48] \/ some_digits i /\ hd 0 i <> 48) -> nondigit r -> int_part (i ++ r) = Some (i, r).
Proof.
  intros [->|[D H]] R; auto. destruct i as [|c i]; [destruct D; congruence|]. cbn in H.
  cbn [app int_part]. replace (c =? 48) with false by (symmetry; apply N.eqb_neq; auto).
  change (c :: i ++ r) with ((c :: i) ++ r). apply digits1_app; auto.
Qed.

Lemma int_ok b i r : int_part b = Some (i, r) -> b = i ++ r /\ (i = [48] \/ some_digits i /\ hd 0 i <> 48).
Proof.
  unfold int_part. destruct b as [|c t]; [discriminate|]. destruct (c =? 48) eqn:C.
  - apply N.eqb_eq in C as ->. intro X. injection X as <- <-. auto.
  - intro D. apply digits1_ok in D as [E D]. split; auto. right. split; auto.
    destruct i as [|x i]; [destruct D; congruence|]. injection E as <- _. apply N.eqb_neq. auto.
Qed.

Lemma number_app x r : a_number x -> follow r -> number_text (x ++ r) = Some (x, r).
Proof.
  intros (sign & i & f & e & -> & S & I & F & X) R. apply follow_stop in R.
  assert (R1 : match e ++ r with [] => True | c :: _ => is_digit c = false /\ c <> 46 end).
  { destruct X as [->|(c & s & d & -> & [-> | ->] & _)]; [destruct r; cbn in *; tauto|cbn; split; [reflexivity|lia]|cbn; split; [reflexivity|lia]]. }
  assert (R2 : nondigit (f ++ e ++ r)).
  { destruct F as [->|(d & -> & _)]; [|reflexivity]. cbn. destruct (e ++ r); cbn in *; tauto. }
  unfold number_text. rewrite <- !app_assoc.
  assert (E0 : (match sign ++ i ++ f ++ e ++ r with c :: t => if c =? 45 then ([45], t) else ([], sign ++ i ++ f ++ e ++ r) | [] => ([], []) end)
             = (sign, i ++ f ++ e ++ r)).
  { destruct S as [-> | ->]; [|reflexivity]. cbn [app].
    destruct i as [|c i]; [destruct I as [I|[[I _] _]]; congruence|]. cbn [app].
    replace (c =? 45) with false; auto. symmetry. apply N.eqb_neq.
    destruct I as [I|[[_ I] _]]; [injection I as -> _; lia|inversion_clear I; lia]. }
  rewrite E0. rewrite int_app by auto. rewrite frac_app by auto. rewrite exp_app by auto. reflexivity.
Qed.

Lemma number_ok b x r : number_text b = Some (x, r) -> b = x ++ r /\ a_number x.
Proof.
  unfold number_text. destruct (match b with c :: t => if c =? 45 then ([45], t) else ([], b) | [] => ([], []) end) as [sign b1] eqn:E.
  assert (E1 : b = sign ++ b1 /\ (sign = [] \/ sign = [45])).
  { destruct b as [|c t]; [injection E as <- <-; auto|]. destruct (c =? 45) eqn:C; injection E as <- <-; auto. apply N.eqb_eq in C as ->. auto. }
  destruct E1 as [-> S]. destruct (int_part b1) as [[i b2]|] eqn:I; [|discriminate]. apply int_ok in I as [-> I].
  destruct (frac_part b2) as [[f b3]|] eqn:F; [|discriminate]. apply frac_ok in F as [-> F].
  destruct (exp_part b3) as [[e b4]|] eqn:X; [|discriminate]. apply exp_ok in X as [-> X].
  intro Y. injection Y as <- <-. split; [rewrite <- !app_assoc; auto|]. exists sign, i, f, e. auto 10.
Qed.

(** *** Strings *)

Lemma hex_iff c v : hex_digit_value c = Some v <-> hex_is c v.
Proof.
  unfold hex_digit_value, hex_is, in_range.
  destruct ((48 <=? c) && (c <=? 57)) eqn:A; [apply andb_true_iff in A as [A B]; apply N.leb_le in A, B|].
  { split; [intro X; injection X as <-; left; lia|intros [[_ ->]|[[? _]|[? _]]]; auto; lia]. }
  apply andb_false_iff in A. rewrite !N.leb_gt in A.
  destruct ((65 <=? c) && (c <=? 70)) eqn:B; [apply andb_true_iff in B as [B C]; apply N.leb_le in B, C|].
  { split; [intro X; injection X as <-; right; left; lia|intros [[? _]|[[_ ->]|[? _]]]; auto; lia]. }
  apply andb_false_iff in B. rewrite !N.leb_gt in B.
  destruct ((97 <=? c) && (c <=? 102)) eqn:C; [apply andb_true_iff in C as [C D]; apply N.leb_le in C, D|].
  { split; [intro X; injection X as <-; right; right; lia|intros [[? _]|[[? _]|[_ ->]]]; auto; lia]. }
  apply andb_false_iff in C. rewrite !N.leb_gt in C.
  split; [discriminate|intros [[? _]|[[? _]|[? _]]]; lia].
Qed.

Lemma hex4_iff a b c d n : hex4 a b c d = Some n <-> four [a; b; c; d] n.
Proof.
  unfold hex4. split.
  - destruct (hex_digit_value a) as [va|] eqn:A; [|discriminate]. destruct (hex_digit_value b) as [vb|] eqn:B; [|discriminate].
    destruct (hex_digit_value c) as [vc|] eqn:C; [|discriminate]. destruct (hex_digit_value d) as [vd|] eqn:D; [|discriminate].
    apply hex_iff in A, B, C, D. intro X. injection X as <-. exists a, b, c, d, va, vb, vc, vd. do 5 (split; auto). lia.
  - intros (a' & b' & c' & d' & va & vb & vc & vd & E & A & B & C & D & ->). injection E as <- <- <- <-.
    apply hex_iff in A, B, C, D. rewrite A, B, C, D. f_equal. lia.
Qed.

Lemma four_form x n : four x n -> exists a b c d, x = [a; b; c; d].
Proof. intros (a & b & c & d & _ & _ & _ & _ & -> & _). eauto. Qed.

Lemma high_iff n : is_high n = true <-> high n.
Proof. unfold is_high, in_range, high. rewrite andb_true_iff, !N.leb_le. tauto. Qed.
Lemma low_iff n : is_low n = true <-> low n.
Proof. unfold is_low, in_range, low. rewrite andb_true_iff, !N.leb_le. tauto. Qed.
Lemma high_f n : ~ high n -> is_high n = false.
Proof. rewrite <- high_iff. destruct (is_high n); congruence. Qed.
Lemma low_f n : ~ low n -> is_low n = false.
Proof. rewrite <- low_iff. destruct (is_low n); congruence. Qed.

Lemma short_iff e v : simple_escape e = Some v <-> In (e, v) short_escapes.
Proof.
  split.
  - unfold simple_escape.
    destruct (e =? 34) eqn:A; [apply N.eqb_eq in A as ->; cbn; intro X; injection X as <-; auto|].
    destruct (e =? 92) eqn:B; [apply N.eqb_eq in B as ->; cbn; intro X; injection X as <-; auto|].
    destruct (e =? 47) eqn:C; [apply N.eqb_eq in C as ->; cbn; intro X; injection X as <-; auto|]. cbn [orb].
    destruct (e =? 98) eqn:D; [apply N.eqb_eq in D as ->; cbn; intro X; injection X as <-; auto 10|].
    destruct (e =? 102) eqn:F; [apply N.eqb_eq in F as ->; cbn; intro X; injection X as <-; auto 10|].
    destruct (e =? 110) eqn:G; [apply N.eqb_eq in G as ->; cbn; intro X; injection X as <-; auto 10|].
    destruct (e =? 114) eqn:H; [apply N.eqb_eq in H as ->; cbn; intro X; injection X as <-; auto 10|].
    destruct (e =? 116) eqn:I; [apply N.eqb_eq in I as ->; cbn; intro X; injection X as <-; auto 10|]. discriminate.
  - intro I. cbn in I. repeat (destruct I as [I|I]; [injection I as <- <-; reflexivity|]). contradiction.
Qed.

Lemma neqb a b : a <> b -> (a =? b) = false.
Proof. apply N.eqb_neq. Qed.

(** The test of [string_body] for a second half. *)
Definition second (t : bytes) : option (N * bytes) :=
  match t with
  | b1 :: u :: k1 :: k2 :: k3 :: k4 :: t3 =>
      match (if (b1 =? 92) && (u =? 117) then hex4 k1 k2 k3 k4 else None) with
      | Some m => if is_low m then Some (m, t3) else None
      | None => None
      end
  | _ => None
  end.

Lemma body_unicode lone h1 h2 h3 h4 t n : hex4 h1 h2 h3 h4 = Some n ->
  string_body lone (92 :: 117 :: h1 :: h2 :: h3 :: h4 :: t) =
    if is_high n then
      match second t with
      | Some (m, t3) => push_chars (encode (pair n m)) (string_body lone t3)
      | None => if lone then push_chars replacement (string_body lone t) else None
      end
    else if is_low n then if lone then push_chars replacement (string_body lone t) else None
    else push_chars (encode n) (string_body lone t).
Proof.
  intro H. cbn [string_body]. change (92 =? 34) with false. change (92 =? 92) with true. change (117 =? 117) with true. cbv iota.
  rewrite H. destruct (is_high n); auto.
  destruct t as [|b1 [|u [|k1 [|k2 [|k3 [|k4 t3]]]]]]; try reflexivity. cbn [second].
  destruct ((b1 =? 92) && (u =? 117)); [|reflexivity].
  destruct (hex4 k1 k2 k3 k4) as [m|]; [|reflexivity]. destruct (is_low m); reflexivity.
Qed.

Lemma second_some t m t3 : second t = Some (m, t3) -> exists k, t = 92 :: 117 :: k ++ t3 /\ four k m /\ low m.
Proof.
  unfold second. destruct t as [|b1 [|u [|k1 [|k2 [|k3 [|k4 t']]]]]]; try discriminate.
  destruct ((b1 =? 92) && (u =? 117)) eqn:B; [|discriminate]. apply andb_true_iff in B as [B U]. apply N.eqb_eq in B as ->, U as ->.
  destruct (hex4 k1 k2 k3 k4) as [m'|] eqn:H; [|discriminate]. destruct (is_low m') eqn:L; [|discriminate].
  intro X. injection X as <- <-. exists [k1; k2; k3; k4]. apply hex4_iff in H. apply low_iff in L. auto.
Qed.

Lemma second_four k m t : four k m -> low m -> second (92 :: 117 :: k ++ t) = Some (m, t).
Proof.
  intros F L. destruct (four_form _ _ F) as (a & b & c & d & ->). apply hex4_iff in F. apply low_iff in L.
  cbn. rewrite F, L. auto.
Qed.

Lemma second_none x r : ~ (exists k m y, x = 92 :: 117 :: k ++ y /\ four k m /\ low m) -> second (x ++ 34 :: r) = None.
Proof.
  intro N. destruct (second (x ++ 34 :: r)) as [[m t3]|] eqn:E; auto. exfalso.
  destruct (second_some _ _ _ E) as (k & Q & F & L). destruct (four_form _ _ F) as (a & b & c & d & ->).
  assert (Z : ~ In 34 [92; 117; a; b; c; d]).
  { destruct F as (a' & b' & c' & d' & va & vb & vc & vd & Y & A & B & C & D & _). injection Y as <- <- <- <-.
    unfold hex_is in *. cbn. intros [X|[X|[X|[X|[X|[X|[]]]]]]]; lia. }
  cbn [app] in Q. apply N. exists [a; b; c; d], m.
  destruct x as [|x1 [|x2 [|x3 [|x4 [|x5 [|x6 x]]]]]]; cbn in Q;
    try discriminate Q; injection Q; intros; subst; try (exfalso; apply Z; cbn; tauto).
  eexists. split; [reflexivity|auto].
Qed.

Lemma string_app lone x s r : chars lone x s -> string_body lone (x ++ 34 :: r) = Some (s, r).
Proof.
  induction 1.
  - reflexivity.
  - cbn. rewrite (neqb c 34), (neqb c 92) by auto. replace (c <? 32) with false by (symmetry; apply N.ltb_ge; auto).
    rewrite IHchars. reflexivity.
  - cbn [app string_body]. change (92 =? 34) with false. change (92 =? 92) with true. cbv iota.
    replace (e =? 117) with false.
    + apply short_iff in H. rewrite H, IHchars. reflexivity.
    + symmetry. apply neqb. intros ->. cbn in H. repeat (destruct H as [H|H]; [discriminate|]). auto.
  - destruct (four_form _ _ H) as (a & b & c & d & ->). apply hex4_iff in H. cbn [app]. rewrite (body_unicode _ _ _ _ _ _ _ H).
    rewrite (high_f _ H0), (low_f _ H1), IHchars. reflexivity.
  - destruct (four_form _ _ H) as (a & b & c & d & ->). apply hex4_iff in H. cbn [app].
    rewrite (body_unicode _ _ _ _ _ _ _ H). apply high_iff in H0. rewrite H0. rewrite <- app_assoc.
    rewrite (second_four _ _ _ H1 H2), IHchars. reflexivity.
  - subst. destruct (four_form _ _ H0) as (a & b & c & d & ->). apply hex4_iff in H0. cbn [app].
    rewrite (body_unicode _ _ _ _ _ _ _ H0). destruct H1 as [L|[Hi NX]].
    + replace (is_high n) with false. { apply low_iff in L. rewrite L, IHchars. reflexivity. }
      symmetry. apply high_f. unfold low, high in *. lia.
    + apply high_iff in Hi. rewrite Hi, (second_none _ _ NX), IHchars. reflexivity.
Qed.

Lemma push_some s o t r : push_chars s o = Some (t, r) -> exists t', o = Some (t', r) /\ t = s ++ t'.
Proof. destruct o as [[t' r']|]; cbn; [|discriminate]. intro X. injection X as <- <-. eauto. Qed.

Lemma string_ok lone n : forall b s r, (length b <= n)%nat -> string_body lone b = Some (s, r) -> exists x, b = x ++ 34 :: r /\ chars lone x s.
Proof.
  induction n as [|n IH]; intros b s r L E; [destruct b; [discriminate|cbn in L; lia]|].
  destruct b as [|c t]; [discriminate|]. cbn in L.
  destruct (c =? 34) eqn:Q.
  { cbn in E. rewrite Q in E. apply N.eqb_eq in Q as ->. injection E as <- <-. exists []. split; [auto|constructor]. }
  destruct (c =? 92) eqn:B.
  - apply N.eqb_eq in B as ->. destruct t as [|e t]; [discriminate|]. cbn in L. destruct (e =? 117) eqn:U.
    + apply N.eqb_eq in U as ->. destruct t as [|h1 [|h2 [|h3 [|h4 t]]]]; try discriminate. cbn in L.
      destruct (hex4 h1 h2 h3 h4) as [m|] eqn:H; [|cbn in E; rewrite H in E; discriminate].
      rewrite (body_unicode _ _ _ _ _ _ _ H) in E. apply hex4_iff in H.
      destruct (is_high m) eqn:HI.
      * apply high_iff in HI. destruct (second t) as [[m2 t3]|] eqn:S2.
        -- apply push_some in E as (s' & E & ->). destruct (second_some _ _ _ S2) as (k & -> & F & LO).
           destruct (four_form _ _ F) as (a & b & c & d & ->). cbn in L.
           destruct (IH t3 s' r) as (x & -> & C); auto; [lia|].
           exists (92 :: 117 :: [h1; h2; h3; h4] ++ 92 :: 117 :: [a; b; c; d] ++ x). split; auto. apply c_pair; auto.
        -- destruct lone; [|discriminate]. apply push_some in E as (s' & E & ->). destruct (IH t s' r) as (x & -> & C); auto; [lia|].
           exists (92 :: 117 :: [h1; h2; h3; h4] ++ x). split; auto. apply c_lone with m; auto. right. split; auto.
           intros (k & m2 & y & -> & F & LO). cbn in S2. rewrite <- app_assoc in S2.
           pose proof (second_four k m2 (y ++ 34 :: r) F LO) as Z. cbn in Z. rewrite Z in S2. discriminate.
      * assert (NH : ~ high m) by (rewrite <- high_iff, HI; discriminate). destruct (is_low m) eqn:LO.
        -- apply low_iff in LO. destruct lone; [|discriminate]. apply push_some in E as (s' & E & ->).
           destruct (IH t s' r) as (x & -> & C); auto; [lia|].
           exists (92 :: 117 :: [h1; h2; h3; h4] ++ x). split; auto. apply c_lone with m; auto.
        -- assert (NL : ~ low m) by (rewrite <- low_iff, LO; discriminate). apply push_some in E as (s' & E & ->).
           destruct (IH t s' r) as (x & -> & C); auto; [lia|].
           exists (92 :: 117 :: [h1; h2; h3; h4] ++ x). split; auto. apply c_unicode; auto.
    + cbn in E. rewrite U in E. destruct (simple_escape e) as [v|] eqn:SE; [|discriminate].
      apply push_some in E as (s' & E & ->). destruct (IH t s' r) as (x & -> & C); auto; [lia|].
      exists (92 :: e :: x). split; auto. apply (c_short lone e v x s'); auto. apply short_iff; auto.
  - cbn in E. rewrite Q, B in E. destruct (c <? 32) eqn:S; [discriminate|]. apply N.ltb_ge in S.
    apply push_some in E as (s' & E & ->). destruct (IH t s' r) as (x & -> & C); auto; [lia|].
    exists (c :: x). split; auto. apply N.eqb_neq in Q, B. apply c_raw; auto.
Qed.

(** *** Values *)

Lemma word_app w r : word w (w ++ r) = Some r.
Proof. induction w; cbn; auto. rewrite N.eqb_refl. auto. Qed.
Lemma word_ok w : forall b r, word w b = Some r -> b = w ++ r.
Proof.
  induction w as [|x w IH]; intros b r E; cbn in E; [injection E as ->; reflexivity|]. destruct b as [|y b]; [discriminate|].
  destruct (x =? y) eqn:Q; [|discriminate]. apply N.eqb_eq in Q as ->. cbn. f_equal. auto.
Qed.

Lemma enter_iff d d' : enter d = Some d' <-> deeper d d'.
Proof.
  split.
  - destruct d as [[|n]|]; cbn; intro E; try discriminate; injection E as <-; constructor.
  - destruct 1; reflexivity.
Qed.

Section Reader.
  Variables lone checked : bool.
  Variable read_number : bytes -> option N.

  (** What the reader accepts as a string, and what it reads as a number. *)
  Definition ok (s : bytes) : Prop := checked = true -> utf8_valid s = true.
  Definition is_number (x : bytes) (n : N) : Prop := read_number x = Some n.

  Notation den := (den lone ok is_number).
  Notation elems := (elems lone ok is_number).
  Notation membs := (membs lone ok is_number).
  Notation value := (value lone checked read_number).
  Notation elements := (elements lone checked read_number).
  Notation members := (members lone checked read_number).

  Lemma read_string_app x s r : chars lone x s -> ok s -> read_string lone checked (x ++ 34 :: r) = Some (s, r).
  Proof.
    intros C K. unfold read_string. rewrite (string_app _ _ _ _ C). unfold ok in K. destruct checked; cbn; auto. rewrite K; auto.
  Qed.
  Lemma read_string_ok b s r : read_string lone checked b = Some (s, r) -> exists x, b = x ++ 34 :: r /\ chars lone x s /\ ok s.
  Proof.
    unfold read_string. destruct (string_body lone b) as [[s' r']|] eqn:E; [|discriminate].
    destruct (negb checked || utf8_valid s') eqn:K; [|discriminate]. intro X. injection X as <- <-.
    destruct (string_ok lone _ _ _ _ (le_n _) E) as (x & -> & C). exists x. do 2 (split; auto). intros ->. auto.
  Qed.

  (** The first character of a value is not white space, and tells its kind. *)
  Lemma den_first d t j : den d t j -> exists c t', t = c :: t' /\ is_space c = false /\ c <> 93 /\ c <> 125.
  Proof.
    destruct 1 as [d|d|d|d x s C K|d x n H R|d d' w D W|d d' w t l D W E|d d' w D W|d d' w t l D W E];
      try (eexists _, _; split; [reflexivity|split; [reflexivity|split; discriminate]]).
    destruct H as (sign & i & f & e & -> & S & I & _).
    assert (X : exists c t', sign ++ i ++ f ++ e = c :: t' /\ (c = 45 \/ 48 <= c <= 57)).
    { destruct S as [-> | ->]; [|eexists _, _; split; [reflexivity|auto]].
      destruct I as [->|[[I1 I2] _]]; [eexists _, _; split; [reflexivity|lia]|].
      destruct i as [|c i]; [congruence|]. inversion_clear I2. eexists _, _; split; [reflexivity|auto]. }
    destruct X as (c & t' & -> & K). exists c, t'. split; auto. split; [|lia].
    destruct (is_space c) eqn:E; auto. apply space_iff in E. lia.
  Qed.

  Lemma skip_first d t j r : den d t j -> skip (t ++ r) = t ++ r.
  Proof. intro D. destruct (den_first _ _ _ D) as (c & t' & -> & S & _). cbn. rewrite S. auto. Qed.

  Lemma elems_first d t l : elems d t l -> exists c t', t = c :: t' /\ is_space c = false /\ c <> 93.
  Proof.
    destruct 1 as [? ? ? ? D W|? ? ? ? ? ? ? D W1 W2 R]; destruct (den_first _ _ _ D) as (c & t' & -> & S & A & _);
      exists c; eexists; split; try reflexivity; auto.
  Qed.
  Lemma membs_first d t l : membs d t l -> exists t', t = 34 :: t'.
  Proof. destruct 1; eauto. Qed.

  (** One step of each reader. *)
  Lemma value_S f d c t : value (S f) d (c :: t) =
        if c =? 123 then
          match enter d with
          | None => None
          | Some d => match skip t with
                      | [] => None
                      | x :: r => if x =? 125 then Some (JObject [], r)
                                  else match members f d [] (x :: r) with Some (m, r) => Some (JObject m, r) | None => None end
                      end
          end
        else if c =? 91 then
          match enter d with
          | None => None
          | Some d => match skip t with
                      | [] => None
                      | x :: r => if x =? 93 then Some (JList [], r)
                                  else match elements f d (x :: r) with Some (l, r) => Some (JList l, r) | None => None end
                      end
          end
        else if c =? 34 then match read_string lone checked t with Some (s, r) => Some (JString s, r) | None => None end
        else if c =? 116 then match word (str "true") (c :: t) with Some r => Some (JTrue, r) | None => None end
        else if c =? 102 then match word (str "false") (c :: t) with Some r => Some (JFalse, r) | None => None end
        else if c =? 110 then match word (str "null") (c :: t) with Some r => Some (JNull, r) | None => None end
        else match number_text (c :: t) with
             | Some (x, r) => match read_number x with Some n => Some (JNumber n, r) | None => None end
             | None => None
             end.
  Proof. reflexivity. Qed.
  Lemma elements_S f d b : elements (S f) d b =
      match value f d b with
      | None => None
      | Some (j, r) =>
          match skip r with
          | c :: r => if c =? 44 then match elements f d (skip r) with Some (l, r) => Some (j :: l, r) | None => None end
                      else if c =? 93 then Some ([j], r) else None
          | [] => None
          end
      end.
  Proof. reflexivity. Qed.
  Lemma members_S f d acc q t : members (S f) d acc (q :: t) =
        if q =? 34 then
          match read_string lone checked t with
          | None => None
          | Some (k, r) =>
            match skip r with
            | c :: r =>
              if c =? 58 then
                match value f d (skip r) with
                | None => None
                | Some (j, r) =>
                    match skip r with
                    | c :: r => if c =? 44 then members f d (assoc_insert k j acc) (skip r) else if c =? 125 then Some (assoc_insert k j acc, r) else None
                    | [] => None
                    end
                end
              else None
            | [] => None
            end
          end
        else None.
  Proof. reflexivity. Qed.

  Lemma value_number f d x r n : a_number x -> is_number x n -> follow r -> value (S f) d (x ++ r) = Some (JNumber n, r).
  Proof.
    intros A R F. pose proof (number_app _ _ A F) as E. destruct A as (sign & i & fr & e & -> & Sg & I & _).
    assert (X : exists c t', (sign ++ i ++ fr ++ e) ++ r = c :: t' /\ (c = 45 \/ 48 <= c <= 57)).
    { rewrite <- !app_assoc. destruct Sg as [-> | ->]; [|eexists _, _; split; [reflexivity|auto]].
      destruct I as [->|[[I1 I2] _]]; [eexists _, _; split; [reflexivity|lia]|].
      destruct i as [|c i]; [congruence|]. inversion_clear I2. eexists _, _; split; [reflexivity|auto]. }
    destruct X as (c & t' & EQ & K). rewrite EQ in *. rewrite value_S.
    rewrite (neqb c 123), (neqb c 91), (neqb c 34), (neqb c 116), (neqb c 102), (neqb c 110) by lia.
    rewrite E. unfold is_number in R. rewrite R. auto.
  Qed.

  Ltac len H := repeat first [rewrite app_length in H | progress cbn [length] in H].

  Theorem reads_all :
    (forall d t j, den d t j -> forall f r, (2 * length t <= f)%nat -> follow r -> value f d (t ++ r) = Some (j, r)) /\
    (forall d t l, elems d t l -> forall f r, (2 * length t + 1 <= f)%nat -> elements f d (t ++ 93 :: r) = Some (l, r)) /\
    (forall d t l, membs d t l -> forall f acc r, (2 * length t + 1 <= f)%nat ->
       members f d acc (t ++ 125 :: r) = Some (fold_left (fun m e => assoc_insert (fst e) (snd e) m) l acc, r)).
  Proof.
    apply (den_all lone ok is_number
      (fun d t j => forall f r, (2 * length t <= f)%nat -> follow r -> value f d (t ++ r) = Some (j, r))
      (fun d t l => forall f r, (2 * length t + 1 <= f)%nat -> elements f d (t ++ 93 :: r) = Some (l, r))
      (fun d t l => forall f acc r, (2 * length t + 1 <= f)%nat ->
         members f d acc (t ++ 125 :: r) = Some (fold_left (fun m e => assoc_insert (fst e) (snd e) m) l acc, r))).
    - intros d f r L F. destruct f; [cbn in L; lia|]. reflexivity.
    - intros d f r L F. destruct f; [cbn in L; lia|]. reflexivity.
    - intros d f r L F. destruct f; [cbn in L; lia|]. reflexivity.
    - intros d x s C K f r L F. destruct f; [cbn in L; lia|]. cbn [app]. rewrite value_S. rewrite <- app_assoc. cbn [app].
      rewrite (read_string_app _ _ _ C K). reflexivity.
    - intros d x n A R f r L F. destruct f; [|apply value_number; auto].
      exfalso. destruct x; [|cbn in L; lia]. destruct A as (sign & i & fr & e & E & _ & I & _).
      destruct sign; [|discriminate]. destruct i; [destruct I as [I|[[I _] _]]; congruence|discriminate].
    - intros d d' w D W f r L F. destruct f; [cbn in L; lia|]. cbn [app]. rewrite value_S. rewrite <- app_assoc.
      change (91 =? 123) with false. change (91 =? 91) with true. cbv iota. apply enter_iff in D. rewrite D.
      rewrite skip_spaces by auto. reflexivity.
    - intros d d' w t l D W E IH f r L F. destruct f; [cbn in L; lia|]. cbn [app]. rewrite value_S. rewrite <- !app_assoc.
      change (91 =? 123) with false. change (91 =? 91) with true. cbv iota. apply enter_iff in D. rewrite D.
      rewrite skip_spaces by auto. destruct (elems_first _ _ _ E) as (c & t' & -> & S & NC). cbn [app skip]. rewrite S.
      rewrite (neqb c 93) by auto. specialize (IH f r). cbn [app] in IH. rewrite IH; auto. len L. cbn [length]. lia.
    - intros d d' w D W f r L F. destruct f; [cbn in L; lia|]. cbn [app]. rewrite value_S. rewrite <- app_assoc.
      change (123 =? 123) with true. cbv iota. apply enter_iff in D. rewrite D. rewrite skip_spaces by auto. reflexivity.
    - intros d d' w t l D W E IH f r L F. destruct f; [cbn in L; lia|]. cbn [app]. rewrite value_S. rewrite <- !app_assoc.
      change (123 =? 123) with true. cbv iota. apply enter_iff in D. rewrite D.
      rewrite skip_spaces by auto. destruct (membs_first _ _ _ E) as (t' & ->). cbn [app skip]. change (is_space 34) with false. cbv iota.
      change (34 =? 125) with false. cbv iota. specialize (IH f [] r). cbn [app] in IH. rewrite IH; auto. len L. cbn [length]. lia.
    - intros d t w j D IH W f r L. destruct f; [lia|]. rewrite app_length in L. rewrite elements_S. rewrite <- app_assoc.
      rewrite IH; [|lia|apply follow_spaces; auto; cbn; auto]. rewrite skip_spaces by auto. reflexivity.
    - intros d t w1 w2 j r l D IH W1 W2 E IHE f rest L. destruct f; [lia|]. len L.
      rewrite elements_S. rewrite <- !app_assoc. cbn [app]. rewrite <- app_assoc.
      rewrite IH; [|lia|apply follow_spaces; auto; cbn; auto]. rewrite skip_spaces by auto. cbn [skip]. change (is_space 44) with false. cbv iota.
      change (44 =? 44) with true. cbv iota. rewrite skip_spaces by auto.
      destruct (elems_first _ _ _ E) as (c & t' & -> & S & NC). cbn [app skip]. rewrite S.
      specialize (IHE f rest). cbn [app] in IHE. rewrite IHE; auto. cbn [length] in L |- *. lia.
    - intros d x k w1 w2 t j w3 C K W1 W2 D IH W3 f acc r L. destruct f; [lia|]. len L. cbn [app]. rewrite members_S.
      change (34 =? 34) with true. cbv iota.
      rewrite <- app_assoc. cbn [app]. rewrite (read_string_app _ _ _ C K).
      rewrite <- app_assoc. rewrite skip_spaces by auto. cbn [app skip]. change (is_space 58) with false. cbv iota. change (58 =? 58) with true. cbv iota.
      rewrite <- !app_assoc. rewrite skip_spaces by auto. rewrite (skip_first _ _ _ _ D).
      rewrite IH; [|lia|apply follow_spaces; auto; cbn; auto].  rewrite skip_spaces by auto. reflexivity.
    - intros d x k w1 w2 t j w3 w4 r l C K W1 W2 D IH W3 W4 E IHE f acc rest L. destruct f; [lia|]. len L. cbn [app]. rewrite members_S.
      change (34 =? 34) with true. cbv iota.
      rewrite <- app_assoc. cbn [app]. rewrite (read_string_app _ _ _ C K).
      rewrite <- app_assoc. rewrite skip_spaces by auto. cbn [app skip]. change (is_space 58) with false. cbv iota. change (58 =? 58) with true. cbv iota.
      rewrite <- !app_assoc. cbn [app]. rewrite <- app_assoc. rewrite skip_spaces by auto. rewrite (skip_first _ _ _ _ D).
      rewrite IH; [|lia|apply follow_spaces; auto; cbn; auto].  rewrite skip_spaces by auto. cbn [skip]. change (is_space 44) with false. cbv iota.
      change (44 =? 44) with true. cbv iota. rewrite skip_spaces by auto.
      destruct (membs_first _ _ _ E) as (t' & ->). cbn [app skip]. change (is_space 34) with false. cbv iota.
      specialize (IHE f (assoc_insert k j acc) rest). cbn [app] in IHE. rewrite IHE; auto. cbn [length] in L |- *. lia.
  Qed.

  Lemma take_space b : exists w, spaces w /\ b = w ++ skip b.
  Proof. apply skip_split. Qed.

  Theorem reads_ok n :
    (forall d b j r, value n d b = Some (j, r) -> exists t, b = t ++ r /\ den d t j) /\
    (forall d b l r, elements n d b = Some (l, r) -> exists t, b = t ++ 93 :: r /\ elems d t l) /\
    (forall d acc b l r, members n d acc b = Some (l, r) ->
       exists t m, b = t ++ 125 :: r /\ membs d t m /\ l = fold_left (fun m e => assoc_insert (fst e) (snd e) m) m acc).
  Proof.
    induction n as [|n (IHv & IHe & IHm)]; [repeat split; discriminate|]. split; [|split].
    - intros d b j r E. destruct b as [|c t]; [discriminate|]. rewrite value_S in E.
      destruct (c =? 123) eqn:C1; [apply N.eqb_eq in C1 as ->|].
      { destruct (enter d) as [d'|] eqn:D; [|discriminate]. apply enter_iff in D. destruct (take_space t) as (w & W & Q).
        destruct (skip t) as [|x r0]; [discriminate|]. destruct (x =? 125) eqn:X.
        - apply N.eqb_eq in X as ->. injection E as <- <-. exists (123 :: w ++ [125]). split; [rewrite Q; cbn; rewrite <- app_assoc; auto|econstructor; eauto].
        - destruct (members n d' [] (x :: r0)) as [[m r1]|] eqn:M; [|discriminate]. injection E as <- <-.
          destruct (IHm _ _ _ _ _ M) as (t0 & m0 & Q2 & MM & ->). exists (123 :: w ++ t0 ++ [125]).
          split; [rewrite Q, Q2; cbn; rewrite <- !app_assoc; auto|]. eapply d_object; eauto. }
      destruct (c =? 91) eqn:C2; [apply N.eqb_eq in C2 as ->|].
      { destruct (enter d) as [d'|] eqn:D; [|discriminate]. apply enter_iff in D. destruct (take_space t) as (w & W & Q).
        destruct (skip t) as [|x r0]; [discriminate|]. destruct (x =? 93) eqn:X.
        - apply N.eqb_eq in X as ->. injection E as <- <-. exists (91 :: w ++ [93]). split; [rewrite Q; cbn; rewrite <- app_assoc; auto|econstructor; eauto].
        - destruct (elements n d' (x :: r0)) as [[m r1]|] eqn:M; [|discriminate]. injection E as <- <-.
          destruct (IHe _ _ _ _ M) as (t0 & Q2 & MM). exists (91 :: w ++ t0 ++ [93]).
          split; [rewrite Q, Q2; cbn; rewrite <- !app_assoc; auto|]. eapply d_list; eauto. }
      destruct (c =? 34) eqn:C3; [apply N.eqb_eq in C3 as ->|].
      { destruct (read_string lone checked t) as [[s r1]|] eqn:R; [|discriminate]. injection E as <- <-.
        destruct (read_string_ok _ _ _ R) as (x & -> & C & K). exists (34 :: x ++ [34]). split; [cbn; rewrite <- app_assoc; auto|constructor; auto]. }
      destruct (c =? 116) eqn:C4.
      { destruct (word (str "true") (c :: t)) as [r1|] eqn:R; [|discriminate]. injection E as <- <-. apply word_ok in R. rewrite R. eexists; split; [reflexivity|constructor]. }
      destruct (c =? 102) eqn:C5.
      { destruct (word (str "false") (c :: t)) as [r1|] eqn:R; [|discriminate]. injection E as <- <-. apply word_ok in R. rewrite R. eexists; split; [reflexivity|constructor]. }
      destruct (c =? 110) eqn:C6.
      { destruct (word (str "null") (c :: t)) as [r1|] eqn:R; [|discriminate]. injection E as <- <-. apply word_ok in R. rewrite R. eexists; split; [reflexivity|constructor]. }
      destruct (number_text (c :: t)) as [[x r1]|] eqn:R; [|discriminate]. destruct (read_number x) as [m|] eqn:RN; [|discriminate]. injection E as <- <-.
      apply number_ok in R as [-> A]. exists x. split; auto. constructor; auto.
    - intros d b l r E. rewrite elements_S in E. destruct (value n d b) as [[j r1]|] eqn:V; [|discriminate].
      destruct (IHv _ _ _ _ V) as (t & -> & D). destruct (take_space r1) as (w & W & Q). destruct (skip r1) as [|c r2]; [discriminate|].
      destruct (c =? 44) eqn:C.
      + apply N.eqb_eq in C as ->. destruct (take_space r2) as (w2 & W2 & Q2). destruct (elements n d (skip r2)) as [[l' r3]|] eqn:X; [|discriminate].
        injection E as <- <-. destruct (IHe _ _ _ _ X) as (t2 & Q3 & D2). exists (t ++ w ++ 44 :: w2 ++ t2).
        split; [rewrite Q, Q2, Q3; cbn; repeat rewrite <- !app_assoc; cbn; rewrite <- app_assoc; auto|constructor; auto].
      + destruct (c =? 93) eqn:C9; [|discriminate]. apply N.eqb_eq in C9 as ->. injection E as <- <-. exists (t ++ w).
        split; [rewrite Q, <- app_assoc; auto|constructor; auto].
    - intros d acc b l r E. destruct b as [|q t]; [discriminate|]. rewrite members_S in E. destruct (q =? 34) eqn:QQ; [|discriminate].
      apply N.eqb_eq in QQ as ->. destruct (read_string lone checked t) as [[k r1]|] eqn:R; [|discriminate].
      destruct (read_string_ok _ _ _ R) as (x & -> & C & K). destruct (take_space r1) as (w1 & W1 & Q1). destruct (skip r1) as [|c r2]; [discriminate|].
      destruct (c =? 58) eqn:C58; [|discriminate]. apply N.eqb_eq in C58 as ->. destruct (take_space r2) as (w2 & W2 & Q2).
      destruct (value n d (skip r2)) as [[j r3]|] eqn:V; [|discriminate]. destruct (IHv _ _ _ _ V) as (t2 & Q3 & D).
       destruct (take_space r3) as (w3 & W3 & Q4). destruct (skip r3) as [|c r4]; [discriminate|].
      destruct (c =? 44) eqn:C44.
      + apply N.eqb_eq in C44 as ->. destruct (take_space r4) as (w4 & W4 & Q5). destruct (IHm _ _ _ _ _ E) as (t3 & m & Q6 & M & ->).
        exists (34 :: x ++ 34 :: w1 ++ 58 :: w2 ++ t2 ++ w3 ++ 44 :: w4 ++ t3), ((k, j) :: m).
        split; [rewrite Q1, Q2, Q3, Q4, Q5, Q6; cbn; repeat (rewrite <- !app_assoc; cbn); auto|]. split; [constructor; auto|reflexivity].
      + destruct (c =? 125) eqn:C9; [|discriminate]. apply N.eqb_eq in C9 as ->. injection E as <- <-.
        exists (34 :: x ++ 34 :: w1 ++ 58 :: w2 ++ t2 ++ w3), [(k, j)].
        split; [rewrite Q1, Q2, Q3, Q4; cbn; repeat (rewrite <- !app_assoc; cbn); auto|]. split; [constructor; auto|reflexivity].
  Qed.

  (** A reader reads exactly what a text denotes. *)
  Theorem read_text_iff d b j : read_text lone checked read_number d b = Some j <-> text_of lone ok is_number d b j.
  Proof.
    unfold read_text, text_of. split.
    - destruct (value (2 * length b + 2) d (skip b)) as [[j' r]|] eqn:V; [|discriminate]. destruct (skip r) eqn:K; [|discriminate].
      intro X. injection X as ->. destruct (take_space b) as (w & W & Q). destruct (take_space r) as (w2 & W2 & Q2). rewrite K, app_nil_r in Q2. subst r.
      destruct (proj1 (reads_ok _) _ _ _ _ V) as (t & Q3 & D). exists w, t, w2. rewrite <- Q3. auto.
    - intros (w1 & t & w2 & -> & W1 & W2 & D). rewrite skip_spaces by auto. rewrite (skip_first _ _ _ _ D).
      rewrite (proj1 reads_all _ _ _ D); [| |rewrite <- (app_nil_r w2); apply follow_spaces; [auto|exact I]].
      + rewrite <- (app_nil_r w2), skip_spaces by auto. reflexivity.
      + rewrite !app_length. lia.
  Qed.
End Reader.
