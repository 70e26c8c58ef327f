(** Dates and times in JSON: specification and theorems (C98). *)
From Coq Require Import String List NArith ZArith Bool Lia.
From Verif Require Import CodecModel DomWire ChronoModel.
Import ListNotations.
Local Open Scope string_scope.
Local Open Scope list_scope.
Local Open Scope Z_scope.

(** ** Specification *)

(** The Gregorian calendar. *)
Definition leap_year (y : Z) : Prop := (4 | y) /\ (~ (100 | y) \/ (400 | y)).
Definition length_of (y m n : Z) : Prop :=
  (In m [1; 3; 5; 7; 8; 10; 12] /\ n = 31) \/ (In m [4; 6; 9; 11] /\ n = 30) \/
  (m = 2 /\ ((leap_year y /\ n = 29) \/ (~ leap_year y /\ n = 28))).
(** A day of the calendar, in the years chrono has. *)
Definition real (d : date) : Prop :=
  -262143 <= d_year d <= 262142 /\ exists n, length_of (d_year d) (d_month d) n /\ 1 <= d_day d <= n.
(** A time of day; leap seconds are the last of a minute. *)
Definition real_time (t : time) : Prop :=
  0 <= t_secs t < 86400 /\ 0 <= t_nano t /\ (t_nano t < 1000000000 \/ (t_nano t < 2000000000 /\ t_secs t mod 60 = 59)).

(** The number of a day: 1 is the first of January of the year 1. *)
Definition leap_days (y : Z) : Z := y / 4 - y / 100 + y / 400.
Definition day_number (d : date) : Z :=
  365 * (d_year d - 1) + leap_days (d_year d - 1) +
  nth (Z.to_nat (d_month d - 1)) [0; 31; 59; 90; 120; 151; 181; 212; 243; 273; 304; 334] 0 +
  (if 2 <? d_month d then leap_days (d_year d) - leap_days (d_year d - 1) else 0) + d_day d.
(** Seconds since the first of January of the year 0. *)
Definition instant (d : date) (secs : Z) : Z := 86400 * day_number d + secs.

(** [w] decimal digits that say [n]. *)
Definition value (bs : bytes) : Z := fold_left (fun a c => a * 10 + (Z.of_N c - 48)) bs 0.
Definition numeral (w : nat) (n : Z) (bs : bytes) : Prop :=
  length bs = w /\ Forall (fun c => (48 <= c <= 57)%N) bs /\ value bs = n.

(** RFC 3339: the fraction and the offset of a time.  A fraction of [k] digits says [n] times 10^-k seconds. *)
Inductive fraction : bytes -> Z -> Prop :=
| no_fraction : fraction [] 0
| some_fraction k n bs : (1 <= k <= 9)%nat -> numeral k n bs -> fraction (46%N :: bs) (n * 10 ^ (9 - Z.of_nat k)).
Inductive zone : bytes -> Z -> Prop :=
| zulu : zone (str "Z") 0
| east h m b1 b2 : 0 <= h < 24 -> 0 <= m < 60 -> numeral 2 h b1 -> numeral 2 m b2 -> zone (43%N :: b1 ++ 58%N :: b2) (h * 3600 + m * 60)
| west h m b1 b2 : 0 <= h < 24 -> 0 <= m < 60 -> numeral 2 h b1 -> numeral 2 m b2 -> zone (45%N :: b1 ++ 58%N :: b2) (- (h * 3600 + m * 60)).
(** The text of a local time with its offset. *)
Inductive rfc3339 (d : date) (secs nano off : Z) : bytes -> Prop :=
| rfc3339_text b1 b2 b3 b4 b5 b6 h mi s f z :
    numeral 4 (d_year d) b1 -> numeral 2 (d_month d) b2 -> numeral 2 (d_day d) b3 ->
    0 <= h < 24 -> 0 <= mi < 60 -> 0 <= s < 60 -> secs = h * 3600 + mi * 60 + s ->
    numeral 2 h b4 -> numeral 2 mi b5 -> numeral 2 s b6 -> fraction f nano -> zone z off ->
    rfc3339 d secs nano off (b1 ++ 45%N :: b2 ++ 45%N :: b3 ++ 84%N :: b4 ++ 58%N :: b5 ++ 58%N :: b6 ++ f ++ z).

(** ** The calendar *)
Ltac div_lia := Z.div_mod_to_equations; lia.
Ltac months :=
  repeat match goal with
         | |- context [Z.to_nat ?x] => let v := eval vm_compute in (Z.to_nat x) in change (Z.to_nat x) with v
         | |- context [2 <? ?x] => let v := eval vm_compute in (2 <? x) in change (2 <? x) with v
         | |- context [?x =? ?k] => let v := eval vm_compute in (x =? k) in change (x =? k) with v
         end; cbn [nth orb]; cbn iota.

Lemma leap_spec y : leap y = true <-> leap_year y.
Proof.
  unfold leap, leap_year. rewrite andb_true_iff, orb_true_iff, negb_true_iff, Z.eqb_neq, !Z.eqb_eq.
  assert (M : forall k, 0 < k -> (y mod k = 0 <-> (k | y))) by (intros k K; rewrite Z.mod_divide by lia; reflexivity).
  rewrite (M 4), (M 100), (M 400) by lia. reflexivity.
Qed.

Lemma month_days_spec y m n : 1 <= m <= 12 -> (length_of y m n <-> n = month_days y m).
Proof.
  intros M. unfold length_of, month_days. pose proof (leap_spec y) as L.
  assert (C : m = 1 \/ m = 2 \/ m = 3 \/ m = 4 \/ m = 5 \/ m = 6 \/ m = 7 \/ m = 8 \/ m = 9 \/ m = 10 \/ m = 11 \/ m = 12) by lia.
  repeat destruct C as [->|C]; try subst m; cbn [In Z.eqb Pos.eqb orb]; try (split; [intros H|intros ->; auto 12]; lia).
  destruct (leap y); split; intros H.
  - destruct H as [H|[H|(_ & [[_ H]|[H _]])]]; try lia. exfalso. apply H, L. reflexivity.
  - right. right. split; auto. left. split; auto. apply L. reflexivity.
  - destruct H as [H|[H|(_ & [[H _]|[_ H]])]]; try lia. apply L in H. discriminate.
  - right. right. split; auto. right. split; auto. intros X. apply L in X. discriminate.
Qed.

Lemma length_of_month y m n : length_of y m n -> 1 <= m <= 12.
Proof. unfold length_of. cbn [In]. intuition lia. Qed.

Lemma from_ymd_real y m d : real (Date y m d) -> from_ymd y m d = Some (Date y m d).
Proof.
  intros (Y & n & L & D). cbn [d_year d_month d_day] in *. pose proof (length_of_month _ _ _ L) as M.
  apply month_days_spec in L; auto. subst n. unfold from_ymd.
  repeat (rewrite (proj2 (Z.leb_le _ _)) by lia). reflexivity.
Qed.

Lemma from_ymd_some y m d x : from_ymd y m d = Some x -> x = Date y m d /\ real x.
Proof.
  unfold from_ymd. destruct (_ && _) eqn:E; [|discriminate]. intros [= <-]. split; auto.
  rewrite !andb_true_iff, !Z.leb_le in E. destruct E as (((((E1 & E2) & E3) & E4) & E5) & E6).
  split; [cbn; lia|]. exists (month_days y m). cbn [d_year d_month d_day]. split; [apply month_days_spec; lia|lia].
Qed.

Lemma leap_days_step y : leap_days y - leap_days (y - 1) = if leap y then 1 else 0.
Proof.
  unfold leap_days, leap.
  destruct (Z.eqb_spec (y mod 4) 0), (Z.eqb_spec (y mod 100) 0), (Z.eqb_spec (y mod 400) 0); cbn [andb orb negb]; div_lia.
Qed.

Lemma next_day_number d x : real d -> next_day d = Some x -> real x /\ day_number x = day_number d + 1.
Proof.
  destruct d as [y m d]. intros (Y & n & L & D) E. cbn [d_year d_month d_day] in *. pose proof (length_of_month _ _ _ L) as M.
  apply month_days_spec in L; auto. subst n. unfold next_day in E. cbn [d_year d_month d_day] in E.
  pose proof (leap_days_step y) as S. pose proof (leap_days_step (y + 1)) as S1. replace (y + 1 - 1) with y in S1 by lia.
  destruct (Z.ltb_spec d (month_days y m)).
  - apply from_ymd_some in E. destruct E as [-> R]. split; auto. unfold day_number. cbn [d_year d_month d_day]. lia.
  - assert (d = month_days y m) by lia. subst d. destruct (Z.ltb_spec m 12).
    + apply from_ymd_some in E. destruct E as [-> R]. split; auto. unfold day_number. cbn [d_year d_month d_day].
      unfold month_days.
      assert (C : m = 1 \/ m = 2 \/ m = 3 \/ m = 4 \/ m = 5 \/ m = 6 \/ m = 7 \/ m = 8 \/ m = 9 \/ m = 10 \/ m = 11) by lia.
      destruct C as [->|[->|[->|[->|[->|[->|[->|[->|[->|[->| ->]]]]]]]]]]; months; destruct (leap y) eqn:?; try lia.
    + assert (m = 12) by lia. subst m. apply from_ymd_some in E. destruct E as [-> R]. split; auto.
      unfold day_number. cbn [d_year d_month d_day]. replace (y + 1 - 1) with y by lia. cbn -[leap_days leap Z.mul Z.sub Z.add].
      change (Z.to_nat (12 - 1)) with 11%nat. change (Z.to_nat (1 - 1)) with 0%nat. cbn [nth].
      change (month_days y 12) with 31. lia.
Qed.

Lemma day_before_number d x : real d -> day_before d = Some x -> real x /\ day_number x = day_number d - 1.
Proof.
  destruct d as [y m d]. intros (Y & n & L & D) E. cbn [d_year d_month d_day] in *. pose proof (length_of_month _ _ _ L) as M.
  apply month_days_spec in L; auto. subst n. unfold day_before in E. cbn [d_year d_month d_day] in E.
  pose proof (leap_days_step y) as S. pose proof (leap_days_step (y - 1)) as S1.
  destruct (Z.ltb_spec 1 d).
  - apply from_ymd_some in E. destruct E as [-> R]. split; auto. unfold day_number. cbn [d_year d_month d_day]. lia.
  - assert (d = 1) by lia. subst d. destruct (Z.ltb_spec 1 m).
    + apply from_ymd_some in E. destruct E as [-> R]. split; auto. unfold day_number. cbn [d_year d_month d_day].
      unfold month_days.
      assert (C : m = 2 \/ m = 3 \/ m = 4 \/ m = 5 \/ m = 6 \/ m = 7 \/ m = 8 \/ m = 9 \/ m = 10 \/ m = 11 \/ m = 12) by lia.
      destruct C as [->|[->|[->|[->|[->|[->|[->|[->|[->|[->| ->]]]]]]]]]]; months; destruct (leap y) eqn:?; try lia.
    + assert (m = 1) by lia. subst m. apply from_ymd_some in E. destruct E as [-> R]. split; auto.
      unfold day_number. cbn [d_year d_month d_day]. change (Z.to_nat (12 - 1)) with 11%nat. change (Z.to_nat (1 - 1)) with 0%nat. cbn [nth].
      change (2 <? 12) with true. change (2 <? 1) with false. cbn iota. lia.
Qed.

Lemma next_day_exists d : real d -> d_year d <= 9999 -> exists x, next_day d = Some x.
Proof.
  destruct d as [y m d]. intros (Y & n & L & D) B. cbn [d_year d_month d_day] in *. pose proof (length_of_month _ _ _ L) as M.
  apply month_days_spec in L; auto. subst n. unfold next_day. cbn [d_year d_month d_day].
  assert (P : forall a b, 28 <= month_days a b) by (intros a b; unfold month_days; destruct (leap a), (b =? 2); repeat destruct (b =? _); cbn [orb]; lia).
  pose proof (P y (m + 1)). pose proof (P (y + 1) 1). unfold from_ymd.
  destruct (Z.ltb_spec d (month_days y m)); [|destruct (Z.ltb_spec m 12)]; repeat (rewrite (proj2 (Z.leb_le _ _)) by lia); cbn [andb]; eauto.
Qed.

Lemma day_before_exists d : real d -> 0 <= d_year d -> exists x, day_before d = Some x.
Proof.
  destruct d as [y m d]. intros (Y & n & L & D) B. cbn [d_year d_month d_day] in *. pose proof (length_of_month _ _ _ L) as M.
  apply month_days_spec in L; auto. subst n. unfold day_before. cbn [d_year d_month d_day].
  assert (P : forall a b, 28 <= month_days a b) by (intros a b; unfold month_days; destruct (leap a), (b =? 2); repeat destruct (b =? _); cbn [orb]; lia).
  pose proof (P y (m - 1)). unfold from_ymd. change (month_days (y - 1) 12) with 31.
  destruct (Z.ltb_spec 1 d); [|destruct (Z.ltb_spec 1 m)]; repeat (rewrite (proj2 (Z.leb_le _ _)) by lia); cbn [andb]; eauto.
Qed.

Lemma less_offset_instant d secs off : real d -> 0 <= d_year d <= 9999 -> 0 <= secs < 86400 -> Z.abs off < 86400 ->
  exists x t, less_offset d secs off = Some (x, t) /\ real x /\ 0 <= t < 86400 /\ instant x t = instant d secs - off.
Proof.
  intros R Y S O. unfold less_offset, instant.
  destruct (Z.ltb_spec (secs - off) 0); [|destruct (Z.leb_spec 86400 (secs - off))].
  - destruct (day_before_exists d) as [x E]; try lia; auto. pose proof (day_before_number _ _ R E) as [R' N].
    rewrite E. cbn [option_map]. exists x, (secs - off + 86400). repeat split; auto; try apply R'; lia.
  - destruct (next_day_exists d) as [x E]; try lia; auto. pose proof (next_day_number _ _ R E) as [R' N].
    rewrite E. cbn [option_map]. exists x, (secs - off - 86400). repeat split; auto; try apply R'; lia.
  - exists d, (secs - off). repeat split; auto; try apply R; lia.
Qed.

(** ** Digits *)
Definition from (a : Z) (bs : bytes) : Z := fold_left (fun a c => a * 10 + (Z.of_N c - 48)) bs a.

Lemma scan_some bs : forall k a n rest, Forall (fun c => (48 <= c <= 57)%N) bs ->
  scan (Some (length bs + k)%nat) (bs ++ rest) a n = scan (Some k) rest (from a bs) (n + length bs).
Proof.
  induction bs as [|c bs IH]; intros k a n rest F; cbn [length app Nat.add from fold_left].
  - rewrite Nat.add_0_r. reflexivity.
  - inversion F; subst. cbn [scan]. assert (D : digit c = true) by (unfold digit; rewrite andb_true_iff, !N.leb_le; lia).
    rewrite D, IH by assumption. unfold from. cbn [fold_left]. replace (Z.of_N (c - 48)) with (Z.of_N c - 48) by lia.
    f_equal. lia.
Qed.

Lemma scan_none bs : forall a n rest, Forall (fun c => (48 <= c <= 57)%N) bs ->
  scan None (bs ++ rest) a n = scan None rest (from a bs) (n + length bs).
Proof.
  induction bs as [|c bs IH]; intros a n rest F; cbn [length app from fold_left].
  - rewrite Nat.add_0_r. reflexivity.
  - inversion F; subst. cbn [scan]. assert (D : digit c = true) by (unfold digit; rewrite andb_true_iff, !N.leb_le; lia).
    rewrite D, IH by assumption. unfold from. cbn [fold_left]. replace (Z.of_N (c - 48)) with (Z.of_N c - 48) by lia.
    f_equal. lia.
Qed.

Lemma scan_stop max rest a n : match rest with c :: _ => digit c = false | [] => True end -> scan max rest a n = (a, n, rest).
Proof. destruct rest as [|c r]; cbn [scan]; intros H; [|rewrite H]; reflexivity. Qed.

Lemma scan_full rest a n : scan (Some 0%nat) rest a n = (a, n, rest).
Proof. destruct rest as [|c r]; cbn [scan]; [|destruct (digit c)]; reflexivity. Qed.

Lemma number_numeral w n bs min rest : numeral w n bs -> (min <= w)%nat -> number min (Some w) (bs ++ rest) = Some (n, rest).
Proof.
  intros (L & F & V) M. unfold number. rewrite <- L at 1. rewrite <- (Nat.add_0_r (length bs)) at 1.
  rewrite scan_some, scan_full by assumption. rewrite (proj2 (Nat.leb_le _ _)) by lia. rewrite <- V. reflexivity.
Qed.

Lemma number_long w n bs rest : numeral w n bs -> (1 <= w)%nat -> match rest with c :: _ => digit c = false | [] => True end ->
  number 1 None (bs ++ rest) = Some (n, rest).
Proof.
  intros (L & F & V) M R. unfold number. rewrite scan_none, scan_stop by assumption. rewrite (proj2 (Nat.leb_le _ _)) by lia. rewrite <- V. reflexivity.
Qed.

Lemma value_app a x : value (a ++ [x]) = value a * 10 + (Z.of_N x - 48).
Proof. unfold value. rewrite fold_left_app. reflexivity. Qed.

Lemma digits_numeral w : forall n, 0 <= n < 10 ^ Z.of_nat w -> numeral w n (digits w n).
Proof.
  induction w as [|w IH]; intros n H.
  - change (10 ^ Z.of_nat 0) with 1 in H. repeat split; cbn; auto. lia.
  - rewrite Nat2Z.inj_succ, Z.pow_succ_r in H by lia.
    destruct (IH (n / 10)) as (L & F & V); [split; [div_lia|apply Z.div_lt_upper_bound; lia]|].
    cbn [digits]. repeat split.
    + rewrite app_length, L. cbn. lia.
    + apply Forall_app. split; auto. constructor; auto. assert (0 <= n mod 10 < 10) by (apply Z.mod_pos_bound; lia). lia.
    + rewrite value_app, V, Z2N.id by div_lia. div_lia.
Qed.

Lemma trim_digit w n bs rest : numeral (S w) n bs -> trim (bs ++ rest) = bs ++ rest.
Proof.
  intros (L & F & _). destruct bs as [|c bs]; [discriminate|]. inversion F; subst. cbn [app trim].
  destruct (N.eqb_spec c 32); [lia|]. destruct (N.leb_spec 9 c); cbn [andb orb]; auto. rewrite (proj2 (N.leb_gt _ _)) by lia. reflexivity.
Qed.

Lemma char_cons c s : char c (c :: s) = Some s.
Proof. unfold char. rewrite N.eqb_refl. reflexivity. Qed.

Lemma digits_small w n : 0 <= n < 10 ^ Z.of_nat w -> forall w', w' = w -> numeral w' n (digits w' n).
Proof. intros H w' ->. apply digits_numeral. assumption. Qed.

Lemma read_written_year y rest : -262143 <= y <= 262142 -> read_year (write_year y ++ 45%N :: rest) = Some (y, 45%N :: rest).
Proof.
  intros Y.
  assert (D4 : forall n, 0 <= n <= 262143 -> exists w, (1 <= w)%nat /\ numeral w n (digits4 n)).
  { intros n H. unfold digits4. destruct (Z.ltb_spec n 10000); [|destruct (Z.ltb_spec n 100000)].
    - exists 4%nat. split; [lia|apply digits_numeral; cbn; lia].
    - exists 5%nat. split; [lia|apply digits_numeral; cbn; lia].
    - exists 6%nat. split; [lia|apply digits_numeral; cbn; lia]. }
  unfold write_year. destruct (Z.leb_spec 0 y); cbn [andb]; [destruct (Z.ltb_spec y 10000)|].
  - assert (N : numeral 4 y (digits 4 y)) by (apply digits_numeral; cbn; lia).
    unfold read_year. rewrite (trim_digit _ _ _ _ N). destruct (digits 4 y) as [|c b] eqn:E; [destruct N; discriminate|].
    cbn [app]. pose proof N as (_ & F & _). inversion F; subst. destruct (N.eqb_spec c 45); [lia|]. destruct (N.eqb_spec c 43); [lia|].
    change (c :: b ++ 45%N :: rest) with ((c :: b) ++ 45%N :: rest). rewrite (number_numeral 4 y _ 1) by (auto; lia). reflexivity.
  - rewrite (proj2 (Z.ltb_ge _ _)) by lia. destruct (D4 y) as (w & W & N); [lia|].
    unfold read_year. cbn [app trim]. change (((43 =? 32) || (9 <=? 43) && (43 <=? 13))%N) with false.
    change (43 =? 45)%N with false. change (43 =? 43)%N with true. cbn iota.
    rewrite (number_long _ _ _ _ N) by (auto; reflexivity). reflexivity.
  - rewrite (proj2 (Z.ltb_lt _ _)) by lia. destruct (D4 (- y)) as (w & W & N); [lia|].
    unfold read_year. cbn [app trim]. change (((45 =? 32) || (9 <=? 45) && (45 <=? 13))%N) with false.
    change (45 =? 45)%N with true. cbn iota.
    rewrite (number_long _ _ _ _ N) by (auto; reflexivity). cbn [obind]. rewrite Z.opp_involutive. reflexivity.
Qed.

Lemma real_bounds d : real d -> 1 <= d_month d <= 12 /\ 1 <= d_day d <= 31.
Proof.
  intros (_ & n & L & D). pose proof (length_of_month _ _ _ L). split; auto. unfold length_of in L. intuition lia.
Qed.

(** C98: every date of the calendar comes back from JSON as it was. *)
Theorem C98_date : forall d, real d -> date_from_json (date_to_json d) = Some d.
Proof.
  intros d R. pose proof (real_bounds d R) as [M D]. cbn [date_from_json date_to_json]. unfold parse_date, write_date.
  cbn [app]. rewrite read_written_year by apply R. cbn [obind]. rewrite char_cons. cbn [obind].
  assert (Nm : numeral 2 (d_month d) (digits 2 (d_month d))) by (apply digits_numeral; cbn; lia).
  assert (Nd : numeral 2 (d_day d) (digits 2 (d_day d))) by (apply digits_numeral; cbn; lia).
  rewrite (trim_digit _ _ _ _ Nm), (number_numeral _ _ _ 1 _ Nm) by lia. cbn [obind]. rewrite char_cons. cbn [obind].
  rewrite <- (app_nil_r (digits 2 (d_day d))), (trim_digit _ _ _ _ Nd), (number_numeral _ _ _ 1 _ Nd) by lia. cbn [obind].
  destruct d as [y m d]. apply from_ymd_real. assumption.
Qed.

Lemma zone_read z off : zone z off -> offset z = Some (off, []) /\ Z.abs off < 86400 /\ off mod 60 = 0 /\
  match z with c :: _ => digit c = false /\ c <> 46%N | [] => False end.
Proof.
  assert (E : forall b1 b2 h m, 0 <= h < 24 -> 0 <= m < 60 -> numeral 2 h b1 -> numeral 2 m b2 -> forall sg,
    (let? (h, t) := number 2 (Some 2%nat) (b1 ++ 58%N :: b2); let? t := char 58 t; let? (m, t) := number 2 (Some 2%nat) t;
     if m <? 60 then Some (sg * (h * 3600 + m * 60), t) else None) = Some (sg * (h * 3600 + m * 60), [])).
  { intros b1 b2 h m H M N1 N2 sg. rewrite (number_numeral _ _ _ 2 _ N1) by lia. cbn [obind]. rewrite char_cons. cbn [obind].
    rewrite <- (app_nil_r b2), (number_numeral _ _ _ 2 _ N2) by lia. cbn [obind]. rewrite (proj2 (Z.ltb_lt _ _)) by lia. reflexivity. }
  intros Z. inversion Z; subst.
  - repeat split; cbn; auto; lia.
  - split; [|split; [lia|split; [div_lia|split; [reflexivity|discriminate]]]].
    unfold offset. change ((43 =? 90) || (43 =? 122))%N with false. change (43 =? 43)%N with true. cbn iota. cbn [obind].
    rewrite (E b1 b2 h m) by assumption. rewrite Z.mul_1_l. reflexivity.
  - split; [|split; [lia|split; [div_lia|split; [reflexivity|discriminate]]]].
    unfold offset. change ((45 =? 90) || (45 =? 122))%N with false. change (45 =? 43)%N with false. change (45 =? 45)%N with true. cbn iota. cbn [obind].
    rewrite (E b1 b2 h m) by assumption. reflexivity.
Qed.

Lemma fraction_read f n z : fraction f n -> match z with c :: _ => digit c = false /\ c <> 46%N | [] => False end ->
  match f ++ z with c :: t => if (c =? 46)%N then nanosecond t else Some (0, f ++ z) | [] => Some (0, f ++ z) end = Some (n, z).
Proof.
  intros F Z. destruct z as [|c z]; [contradiction|]. destruct Z as [Z1 Z2]. inversion F; subst.
  - cbn [app]. destruct (N.eqb_spec c 46); [contradiction|]. reflexivity.
  - cbn [app]. change (46 =? 46)%N with true. cbn iota. destruct H0 as (L & D & V). unfold nanosecond.
    replace 9%nat with (length bs + (9 - length bs))%nat at 1 by lia. rewrite scan_some, scan_stop by (cbn; auto).
    rewrite (proj2 (Nat.leb_le _ _)) by lia. rewrite scan_stop by (cbn; auto). rewrite L. change (from 0 bs) with (value bs). rewrite V. reflexivity.
Qed.

(** What is read of a text in the form of RFC 3339, leap seconds included. *)
Lemma parse_text d h mi s nano off f z b1 b2 b3 b4 b5 b6 : real d ->
  numeral 4 (d_year d) b1 -> numeral 2 (d_month d) b2 -> numeral 2 (d_day d) b3 ->
  0 <= h < 24 -> 0 <= mi < 60 -> 0 <= s <= 60 -> numeral 2 h b4 -> numeral 2 mi b5 -> numeral 2 s b6 -> fraction f nano -> zone z off ->
  parse_rfc3339 (b1 ++ 45%N :: b2 ++ 45%N :: b3 ++ 84%N :: b4 ++ 58%N :: b5 ++ 58%N :: b6 ++ f ++ z) =
  let '(sec, nano) := if s =? 60 then (59, nano + 1000000000) else (s, nano) in
  let? (day, t) := less_offset d (h * 3600 + mi * 60 + sec) off; Some (Utc day (Time t nano)).
Proof.
  intros R N1 N2 N3 H M S N4 N5 N6 F Z. destruct (zone_read _ _ Z) as (O & A & _ & K). unfold parse_rfc3339.
  rewrite (number_numeral _ _ _ 4 _ N1) by lia. cbn [obind]. rewrite char_cons. cbn [obind].
  rewrite (number_numeral _ _ _ 2 _ N2) by lia. cbn [obind]. rewrite char_cons. cbn [obind].
  rewrite (number_numeral _ _ _ 2 _ N3) by lia. cbn [obind]. change ((84 =? 84) || (84 =? 116) || (84 =? 32))%N with true. cbn iota. cbn [obind].
  rewrite (number_numeral _ _ _ 2 _ N4) by lia. cbn [obind]. rewrite char_cons. cbn [obind].
  rewrite (number_numeral _ _ _ 2 _ N5) by lia. cbn [obind]. rewrite char_cons. cbn [obind].
  rewrite (number_numeral _ _ _ 2 _ N6) by lia. cbn [obind]. rewrite (fraction_read _ _ _ F K). cbn [obind].
  rewrite O. cbn [obind]. destruct d as [y m d]. cbn [d_year d_month d_day] in *. rewrite from_ymd_real by assumption. cbn [obind].
  rewrite (proj2 (Z.ltb_lt h 24)), (proj2 (Z.ltb_lt mi 60)), (proj2 (Z.leb_le s 60)), (proj2 (Z.ltb_lt _ 86400)) by lia. reflexivity.
Qed.

Lemma less_offset_zero d t : 0 <= t < 86400 -> less_offset d t 0 = Some (d, t).
Proof.
  intros H. unfold less_offset. rewrite Z.sub_0_r, (proj2 (Z.ltb_ge t 0)), (proj2 (Z.leb_gt 86400 t)) by lia. reflexivity.
Qed.

Lemma write_fraction_reads n : 0 <= n < 1000000000 -> fraction (write_fraction n) n.
Proof.
  intros H. unfold write_fraction. destruct (Z.eqb_spec n 0) as [->|]; [constructor|].
  destruct (Z.eqb_spec (n mod 1000000) 0) as [E|]; [|destruct (Z.eqb_spec (n mod 1000) 0) as [E|]].
  - replace n with (n / 1000000 * 10 ^ (9 - Z.of_nat 3)) at 2 by (change (10 ^ (9 - Z.of_nat 3)) with 1000000; div_lia).
    constructor; [lia|]. apply digits_numeral. change (10 ^ Z.of_nat 3) with 1000. div_lia.
  - replace n with (n / 1000 * 10 ^ (9 - Z.of_nat 6)) at 2 by (change (10 ^ (9 - Z.of_nat 6)) with 1000; div_lia).
    constructor; [lia|]. apply digits_numeral. change (10 ^ Z.of_nat 6) with 1000000. div_lia.
  - replace n with (n * 10 ^ (9 - Z.of_nat 9)) at 2 by (change (10 ^ (9 - Z.of_nat 9)) with 1; lia).
    constructor; [lia|]. apply digits_numeral. change (10 ^ Z.of_nat 9) with 1000000000. lia.
Qed.

(** C98: an instant of the years 0 to 9999 comes back from JSON as it was, to the nanosecond and leap seconds included.
    Partial: the years before and after do not, see [C98_far]. *)
Theorem C98_datetime_partial : forall u, real (u_date u) -> 0 <= d_year (u_date u) <= 9999 -> real_time (u_time u) ->
  datetime_from_json (datetime_to_json u) = Some u.
Proof.
  intros [d [s n]] R Y (S & N0 & N1). cbn [u_date u_time t_secs t_nano] in *.
  pose proof (real_bounds d R) as [M D]. cbn [datetime_from_json datetime_to_json]. unfold to_rfc3339. cbn [u_date u_time t_secs t_nano].
  set (x := if 1000000000 <=? n then (s mod 60 + 1, n - 1000000000) else (s mod 60, n)).
  assert (X : x = (fst x, snd x)) by (destruct x; reflexivity).
  assert (B : 0 <= fst x <= 60 /\ 0 <= snd x < 1000000000 /\ (if fst x =? 60 then (59, snd x + 1000000000) else (fst x, snd x)) = (s mod 60, n)).
  { subst x. destruct (Z.leb_spec 1000000000 n); cbn [fst snd].
    - destruct N1 as [N1|[N1 E]]; [lia|]. rewrite E. cbn. split; [lia|split; [lia|f_equal; lia]].
    - split; [div_lia|split; [lia|]]. destruct (Z.eqb_spec (s mod 60) 60); [exfalso; div_lia|reflexivity]. }
  rewrite X. clearbody x. destruct x as [sec nano]. cbn [fst snd] in *. destruct B as (B1 & B2 & B3).
  unfold write_date, write_year. rewrite (proj2 (Z.leb_le 0 (d_year d))), (proj2 (Z.ltb_lt (d_year d) 10000)) by lia. cbn [andb].
  rewrite <- !app_assoc. cbn [app].
  change (str "+00:00") with (43%N :: digits 2 0 ++ 58%N :: digits 2 0).
  rewrite (parse_text d (s / 3600) (s / 60 mod 60) sec nano (0 * 3600 + 0 * 60)); auto; try (apply digits_numeral; cbn; div_lia); try div_lia.
  - rewrite B3. replace (s / 3600 * 3600 + s / 60 mod 60 * 60 + s mod 60) with s by div_lia.
    change (0 * 3600 + 0 * 60) with 0. rewrite less_offset_zero by lia. reflexivity.
  - apply write_fraction_reads. lia.
  - constructor; try lia; apply digits_numeral; cbn; lia.
Qed.

(** C98: a text of another program, with the offset of its zone, is read as the instant it tells. *)
Theorem C98_offset : forall d secs nano off s, real d -> rfc3339 d secs nano off s ->
  exists u, datetime_from_json (JString s) = Some u /\ real (u_date u) /\ 0 <= t_secs (u_time u) < 86400 /\
            instant (u_date u) (t_secs (u_time u)) = instant d secs - off /\ t_nano (u_time u) = nano.
Proof.
  intros d secs nano off s R T. inversion T; subst. cbn [datetime_from_json].
  rewrite (parse_text d h mi s0 nano off) by (auto; lia). rewrite (proj2 (Z.eqb_neq s0 60)) by lia.
  assert (Y : 0 <= d_year d <= 9999).
  { destruct H as (L & F & V). rewrite <- V. destruct b1 as [|x1 [|x2 [|x3 [|x4 [|]]]]]; try discriminate L.
    repeat match goal with X : Forall _ (_ :: _) |- _ => inversion X; clear X; subst end. unfold value. cbn [fold_left]. lia. }
  destruct (zone_read _ _ H10) as (_ & A & _).
  destruct (less_offset_instant d (h * 3600 + mi * 60 + s0) off) as (x & t & E & RX & TX & I); auto; try lia.
  rewrite E. cbn [obind]. eexists. split; [reflexivity|]. cbn [u_date u_time t_secs t_nano]. auto.
Qed.

(** C98: outside of these years no instant comes back: the year is written with a sign, which RFC 3339 has not. *)
Theorem C98_far : forall u, real (u_date u) -> ~ 0 <= d_year (u_date u) <= 9999 -> datetime_from_json (datetime_to_json u) = None.
Proof.
  intros [d [s n]] R Y. cbn [u_date] in *. cbn [datetime_from_json datetime_to_json]. unfold to_rfc3339. cbn [u_date u_time t_secs t_nano].
  destruct (if 1000000000 <=? n then _ else _) as [sec nano]. unfold write_date, write_year.
  destruct (Z.leb_spec 0 (d_year d)); cbn [andb]; [rewrite (proj2 (Z.ltb_ge _ 10000)), (proj2 (Z.ltb_ge _ 0)) by lia|rewrite (proj2 (Z.ltb_lt _ 0)) by lia]; reflexivity.
Qed.

Lemma scan_bound s : forall max a n v k r, scan max s a n = (v, k, r) -> 0 <= a < 10 ^ Z.of_nat n ->
  0 <= v < 10 ^ Z.of_nat k /\ match max with Some m => (k <= n + m)%nat | None => True end.
Proof.
  induction s as [|c s IH]; intros max a n v k r E A; cbn [scan] in E.
  - injection E as <- <- <-. split; auto. destruct max; auto. lia.
  - destruct (digit c) eqn:D.
    + unfold digit in D. rewrite andb_true_iff, !N.leb_le in D.
      assert (A' : 0 <= a * 10 + Z.of_N (c - 48) < 10 ^ Z.of_nat (S n)) by (rewrite Nat2Z.inj_succ, Z.pow_succ_r by lia; lia).
      destruct max as [[|m]|].
      * injection E as <- <- <-. split; auto. lia.
      * apply IH in E; auto. destruct E as [E1 E2]. split; auto. lia.
      * apply IH in E; auto.
    + injection E as <- <- <-. split; auto. destruct max; auto. lia.
Qed.

Lemma number_bound min max s v r : number min max s = Some (v, r) -> 0 <= v.
Proof.
  unfold number. destruct (scan max s 0 0) as [[x k] t] eqn:E. destruct (Nat.leb min k); [|discriminate]. intros [= <- <-].
  apply scan_bound in E; [|cbn; lia]. lia.
Qed.

Lemma nanosecond_bound s v r : nanosecond s = Some (v, r) -> 0 <= v < 1000000000.
Proof.
  unfold nanosecond. destruct (scan (Some 9%nat) s 0 0) as [[x k] t] eqn:E. destruct (Nat.leb 1 k); [|discriminate].
  destruct (scan None t 0 0) as [[y l] t']. intros [= <- <-]. apply scan_bound in E; [|cbn; lia]. destruct E as [B K].
  change 1000000000 with (10 ^ 9). replace (10 ^ 9) with (10 ^ Z.of_nat k * 10 ^ (9 - Z.of_nat k)) by (rewrite <- Z.pow_add_r by lia; f_equal; lia).
  assert (0 < 10 ^ (9 - Z.of_nat k)) by (apply Z.pow_pos_nonneg; lia). split; [nia|]. apply Z.mul_lt_mono_pos_r; lia.
Qed.

Lemma offset_bound s v r : offset s = Some (v, r) -> v mod 60 = 0.
Proof.
  unfold offset. destruct s as [|c s]; [discriminate|]. destruct (_ || _)%N; [intros [= <- <-]; reflexivity|].
  destruct (if (c =? 43)%N then _ else _) as [sg|] eqn:G; [|discriminate]. cbn [obind].
  destruct (number 2 _ s) as [[h t]|]; [|discriminate]. cbn [obind]. destruct (char 58 t) as [t1|]; [|discriminate]. cbn [obind].
  destruct (number 2 _ t1) as [[m t2]|]; [|discriminate]. cbn [obind]. destruct (m <? 60); [|discriminate]. intros [= <- <-].
  replace (sg * (h * 3600 + m * 60)) with ((sg * (h * 60 + m)) * 60) by lia. apply Z.mod_mul. lia.
Qed.

Lemma less_offset_real d secs off x t : real d -> -86400 < secs - off < 172800 -> less_offset d secs off = Some (x, t) ->
  real x /\ 0 <= t < 86400 /\ exists k, t = secs - off + 86400 * k.
Proof.
  intros R B. unfold less_offset. destruct (Z.ltb_spec (secs - off) 0); [|destruct (Z.leb_spec 86400 (secs - off))].
  - destruct (day_before d) eqn:E; [|discriminate]. cbn [option_map]. intros [= <- <-]. apply day_before_number in E; auto.
    split; [apply E|split; [lia|exists 1; lia]].
  - destruct (next_day d) eqn:E; [|discriminate]. cbn [option_map]. intros [= <- <-]. apply next_day_number in E; auto.
    split; [apply E|split; [lia|exists (-1); lia]].
  - intros [= <- <-]. split; [auto|split; [lia|exists 0; lia]].
Qed.

(** C98: whatever is accepted is a day of the calendar and a time of day; only strings are. *)
Theorem C98_valid : forall j,
  (forall d, date_from_json j = Some d -> (exists s, j = JString s) /\ real d) /\
  (forall u, datetime_from_json j = Some u -> (exists s, j = JString s) /\ real (u_date u) /\ real_time (u_time u)).
Proof.
  intros j. split; intros x E; (split; [destruct j; try discriminate E; eauto|]); destruct j; try discriminate E.
  - cbn [date_from_json] in E. unfold parse_date in E.
    repeat match goal with
           | X : obind ?m _ = Some _ |- _ => destruct m as [[? ?]|] eqn:?; [|discriminate X]; cbn [obind] in X
           | X : obind ?m _ = Some _ |- _ => destruct m eqn:?; [|discriminate X]; cbn [obind] in X
           | X : match ?b with [] => _ | _ :: _ => None end = Some _ |- _ => destruct b; [|discriminate X]
           end.
    apply from_ymd_some in E. destruct E as [_ E]. assumption.
  - cbn [datetime_from_json] in E. unfold parse_rfc3339 in E.
    repeat match goal with
           | X : obind ?m _ = Some _ |- _ => destruct m as [[? ?]|] eqn:?; [|discriminate X]; cbn [obind] in X
           | X : obind ?m _ = Some _ |- _ => destruct m eqn:?; [|discriminate X]; cbn [obind] in X
           | X : match ?b with [] => _ | _ :: _ => None end = Some _ |- _ => destruct b; [|discriminate X]
           end.
    destruct ((z2 <? 24) && (z3 <? 60) && (z4 <=? 60) && (Z.abs z6 <? 86400)) eqn:C; [|discriminate].
    rewrite !andb_true_iff, !Z.ltb_lt, Z.leb_le in C. destruct C as (((C1 & C2) & C3) & C4).
    apply from_ymd_some in Heqo12. destruct Heqo12 as [_ R].
    apply number_bound in Heqo5. apply number_bound in Heqo7. apply number_bound in Heqo9. apply offset_bound in Heqo11.
    assert (B : 0 <= z5 < 1000000000).
    { destruct l9 as [|c l9]; [injection Heqo10 as <- _; lia|]. destruct (c =? 46)%N; [|injection Heqo10 as <- _; lia].
      apply nanosecond_bound in Heqo10. lia. }
    destruct (Z.eqb_spec z4 60) as [->|].
    + destruct (less_offset _ _ z6) as [[day t]|] eqn:L; [|discriminate E]. cbn [obind] in E. injection E as <-.
      apply less_offset_real in L; auto; try lia. destruct L as (RL & T & k & K). cbn [u_date u_time]. split; auto.
      unfold real_time. cbn [t_secs t_nano]. split; [lia|split; [lia|right; split; [lia|]]]. rewrite K. div_lia.
    + destruct (less_offset _ _ z6) as [[day t]|] eqn:L; [|discriminate E]. cbn [obind] in E. injection E as <-.
      apply less_offset_real in L; auto; try lia. destruct L as (RL & T & k & K). cbn [u_date u_time]. split; auto.
      unfold real_time. cbn [t_secs t_nano]. split; [lia|split; [lia|left; lia]].
Qed.

(** C98 fails for late years: the first second of the year 10000 is written as a text that is not accepted. *)
Theorem C98_year_refuted : exists u, real (u_date u) /\ real_time (u_time u) /\ datetime_from_json (datetime_to_json u) = None.
Proof.
  exists (Utc (Date 10000 1 1) (Time 0 0)). split; [|split; [|reflexivity]].
  - split; [cbn; lia|]. exists 31. split; [|cbn; lia]. left. cbn. auto.
  - repeat split; cbn; lia.
Qed.

(** C98 fails for texts of other programs too: the last hour of the year 9999 in New York is read, but the instant that was read is not
    read again when it is sent on. *)
Theorem C98_sent_on_refuted : exists s u, datetime_from_json (JString s) = Some u /\ datetime_from_json (datetime_to_json u) = None.
Proof.
  exists (str "9999-12-31T23:00:00-05:00"), (Utc (Date 10000 1 1) (Time 14400 0)). split; vm_compute; reflexivity.
Qed.

(** The hypotheses are met, and what is written is what one expects. *)
Example C98_date_example :
  real (Date 2024 2 29) /\ date_to_json (Date 2024 2 29) = JString (str "2024-02-29") /\
  real (Date (-44) 3 15) /\ date_to_json (Date (-44) 3 15) = JString (str "-0044-03-15") /\
  ~ real (Date 2023 2 29) /\ date_from_json (JString (str "2023-02-29")) = None.
Proof.
  split; [|split; [reflexivity|split; [|split; [reflexivity|split; [|reflexivity]]]]].
  - apply (from_ymd_some 2024 2 29). reflexivity.
  - apply (from_ymd_some (-44) 3 15). reflexivity.
  - intros R. apply from_ymd_real in R. discriminate.
Qed.
Example C98_datetime_example : let u := Utc (Date 2016 12 31) (Time 86399 1500000000) in
  real (u_date u) /\ 0 <= d_year (u_date u) <= 9999 /\ real_time (u_time u) /\
  datetime_to_json u = JString (str "2016-12-31T23:59:60.500+00:00").
Proof.
  split; [|split; [cbn; lia|split; [|vm_compute; reflexivity]]].
  - apply (from_ymd_some 2016 12 31). reflexivity.
  - split; [cbn; lia|]. split; [cbn; lia|]. right. split; [cbn; lia|reflexivity].
Qed.
(** Half past midnight in Warsaw is half past ten of the evening before. *)
Example C98_offset_example :
  rfc3339 (Date 2024 3 1) 1800 250000000 7200 (str "2024-03-01T00:30:00.25+02:00") /\ real (Date 2024 3 1) /\
  datetime_from_json (JString (str "2024-03-01T00:30:00.25+02:00")) = Some (Utc (Date 2024 2 29) (Time 81000 250000000)).
Proof.
  split; [|split; [apply (from_ymd_some 2024 3 1); reflexivity|vm_compute; reflexivity]].
  assert (N : forall w n, 0 <= n < 10 ^ Z.of_nat w -> numeral w n (digits w n)) by exact digits_numeral.
  apply (rfc3339_text (Date 2024 3 1) 1800 250000000 7200 (str "2024") (str "03") (str "01") (str "00") (str "30") (str "00") 0 30 0 (str ".25") (str "+02:00"));
    try lia; try (apply N; cbn; lia).
  - apply (some_fraction 2 25 (str "25")); [lia|apply N; cbn; lia].
  - apply (east 2 0 (str "02") (str "00")); try lia; apply N; cbn; lia.
Qed.
Example C98_far_example : let u := Utc (Date 10000 1 1) (Time 0 0) in
  real (u_date u) /\ ~ 0 <= d_year (u_date u) <= 9999 /\ datetime_to_json u = JString (str "+10000-01-01T00:00:00+00:00").
Proof. split; [apply (from_ymd_some 10000 1 1); reflexivity|split; [cbn; lia|reflexivity]]. Qed.
(** What is accepted is more than what is written: the minutes of the zone may be left at [Z], and the fraction may be longer. *)
Example C98_valid_example :
  datetime_from_json (JString (str "2024-03-01 00:30:00.1234567891Z")) = Some (Utc (Date 2024 3 1) (Time 1800 123456789)) /\
  date_from_json (JString (str "2024-3-1")) = Some (Date 2024 3 1) /\
  datetime_from_json (JString (str "2024-02-30T00:00:00Z")) = None /\
  datetime_from_json (JString (str "2024-02-28T24:00:00Z")) = None /\
  date_from_json JNull = None.
Proof. vm_compute. auto. Qed.
