(** Dates and times in JSON (feature chrono).

    Source: SC = /repo/crates/vertigo/src/driver_module/js_value/serialize_chrono.rs.  The crate chrono 0.4 is third-party: what
    SC uses of it ([to_rfc3339], [parse_from_rfc3339], [format], [parse_from_str], [to_utc]) is modelled as it is documented and
    implemented there.  White space that chrono skips before a number is taken to be ASCII. *)
From Coq Require Import String List NArith ZArith Bool.
From Verif Require Import CodecModel DomWire.
Import ListNotations.
Local Open Scope string_scope.
Local Open Scope list_scope.
Local Open Scope Z_scope.

(** chrono [NaiveDate] (SC 24-39): a day of the proleptic Gregorian calendar. *)
Record date := Date { d_year : Z; d_month : Z; d_day : Z }.
(** chrono [NaiveTime] (SC 6-22): seconds since midnight, and nanoseconds, which exceed a second within a leap second. *)
Record time := Time { t_secs : Z; t_nano : Z }.
(** chrono [DateTime<Utc>] (SC 6-22). *)
Record utc := Utc { u_date : date; u_time : time }.

(** Leap years (SC 24-39: chrono [YearFlags]). *)
Definition leap (y : Z) : bool := (y mod 4 =? 0) && (negb (y mod 100 =? 0) || (y mod 400 =? 0)).
(** Days of a month (SC 24-39). *)
Definition month_days (y m : Z) : Z :=
  if m =? 2 then (if leap y then 29 else 28)
  else if (m =? 4) || (m =? 6) || (m =? 9) || (m =? 11) then 30 else 31.
(** [NaiveDate::from_ymd_opt] (SC 33): the years chrono has are -262143 to 262142. *)
Definition from_ymd (y m d : Z) : option date :=
  if (-262143 <=? y) && (y <=? 262142) && (1 <=? m) && (m <=? 12) && (1 <=? d) && (d <=? month_days y m) then Some (Date y m d) else None.

(** ** Writing *)

(** [w] decimal digits, the first ones cut off if there are more (SC 8, 26). *)
Fixpoint digits (w : nat) (n : Z) : bytes :=
  match w with O => [] | S w' => digits w' (n / 10) ++ [Z.to_N (48 + n mod 10)] end.
(** At least four digits (SC 8, 26); years have at most six. *)
Definition digits4 (n : Z) : bytes := if n <? 10000 then digits 4 n else if n <? 100000 then digits 5 n else digits 6 n.
(** The year, [%Y] (SC 26) and in [to_rfc3339] (SC 8): with a sign outside of 0 to 9999. *)
Definition write_year (y : Z) : bytes :=
  if (0 <=? y) && (y <? 10000) then digits 4 y
  else if y <? 0 then 45%N :: digits4 (- y) else 43%N :: digits4 y.
(** [format("%Y-%m-%d")] (SC 4, 26). *)
Definition write_date (d : date) : bytes :=
  write_year (d_year d) ++ [45%N] ++ digits 2 (d_month d) ++ [45%N] ++ digits 2 (d_day d).
(** The fraction of a second (SC 8): none, 3, 6 or 9 digits (chrono [SecondsFormat::AutoSi]). *)
Definition write_fraction (n : Z) : bytes :=
  if n =? 0 then []
  else if n mod 1000000 =? 0 then 46%N :: digits 3 (n / 1000000)
  else if n mod 1000 =? 0 then 46%N :: digits 6 (n / 1000)
  else 46%N :: digits 9 n.
(** chrono [write_rfc3339] (SC 8). *)
Definition to_rfc3339 (u : utc) : bytes :=
  let s := t_secs (u_time u) in
  let n := t_nano (u_time u) in
  let '(sec, nano) := if 1000000000 <=? n then (s mod 60 + 1, n - 1000000000) else (s mod 60, n) in
  write_date (u_date u) ++ [84%N] ++ digits 2 (s / 3600) ++ [58%N] ++ digits 2 (s / 60 mod 60) ++ [58%N] ++ digits 2 sec ++
  write_fraction nano ++ str "+00:00".

(** ** Reading.  [None] is an error of chrono. *)

(** A decimal digit (SC 15, 33). *)
Definition digit (c : N) : bool := ((48 <=? c) && (c <=? 57))%N.
(** chrono [scan::number] after [n] digits with value [acc] (SC 15, 33): at most [max] more; [None] for no bound. *)
Fixpoint scan (max : option nat) (s : bytes) (acc : Z) (n : nat) : Z * nat * bytes :=
  match s with
  | c :: t =>
      if digit c then
        match max with
        | Some O => (acc, n, s)
        | Some (S k) => scan (Some k) t (acc * 10 + Z.of_N (c - 48)) (S n)
        | None => scan None t (acc * 10 + Z.of_N (c - 48)) (S n)
        end
      else (acc, n, s)
  | [] => (acc, n, s)
  end.
(** chrono [scan::number] (SC 15, 33): at least [min] digits. *)
Definition number (min : nat) (max : option nat) (s : bytes) : option (Z * bytes) :=
  let '(v, n, rest) := scan max s 0 0 in if Nat.leb min n then Some (v, rest) else None.
(** One character (SC 15, 33). *)
Definition char (c : N) (s : bytes) : option bytes := match s with x :: t => if (x =? c)%N then Some t else None | [] => None end.
(** White space before a number (SC 33). *)
Fixpoint trim (s : bytes) : bytes :=
  match s with c :: t => if ((c =? 32) || ((9 <=? c) && (c <=? 13)))%N then trim t else s | [] => [] end.

(** The operator [?] (SC 15, 33). *)
Definition obind {A B} (m : option A) (f : A -> option B) : option B := match m with Some a => f a | None => None end.
Notation "'let?' x := m ; k" := (obind m (fun x => k)) (at level 200, x pattern, m at level 100, k at level 200).

(** [%Y] (SC 33): without a sign at most four digits. *)
Definition read_year (s : bytes) : option (Z * bytes) :=
  match trim s with
  | c :: t =>
      if (c =? 45)%N then let? (v, r) := number 1 None t; Some (- v, r)
      else if (c =? 43)%N then number 1 None t
      else number 1 (Some 4%nat) (c :: t)
  | [] => None
  end.
(** [NaiveDate::parse_from_str(s, "%Y-%m-%d")] (SC 33). *)
Definition parse_date (s : bytes) : option date :=
  let? (y, s) := read_year s;
  let? s := char 45 s;
  let? (m, s) := number 1 (Some 2%nat) (trim s);
  let? s := char 45 s;
  let? (d, s) := number 1 (Some 2%nat) (trim s);
  match s with [] => from_ymd y m d | _ => None end.

(** chrono [scan::nanosecond] (SC 15): up to nine digits count, further ones are skipped. *)
Definition nanosecond (s : bytes) : option (Z * bytes) :=
  let '(v, n, rest) := scan (Some 9%nat) s 0 0 in
  if Nat.leb 1 n then let '(_, _, rest') := scan None rest 0 0 in Some (v * 10 ^ (9 - Z.of_nat n), rest') else None.
(** The offset (SC 15): [Z], or a sign, two digits, a colon and two digits of which the first is below 6.  Simplified: the minus sign U+2212 is
    not accepted here. *)
Definition offset (s : bytes) : option (Z * bytes) :=
  match s with
  | c :: t =>
      if ((c =? 90) || (c =? 122))%N then Some (0, t)
      else
        let? sign := (if (c =? 43)%N then Some 1 else if (c =? 45)%N then Some (-1) else None);
        let? (h, t) := number 2 (Some 2%nat) t;
        let? t := char 58 t;
        let? (m, t) := number 2 (Some 2%nat) t;
        if m <? 60 then Some (sign * (h * 3600 + m * 60), t) else None
  | [] => None
  end.
(** The next day, if chrono has it (SC 20: [to_utc], NaiveDate::succ_opt). *)
Definition next_day (d : date) : option date :=
  if d_day d <? month_days (d_year d) (d_month d) then from_ymd (d_year d) (d_month d) (d_day d + 1)
  else if d_month d <? 12 then from_ymd (d_year d) (d_month d + 1) 1 else from_ymd (d_year d + 1) 1 1.
(** The day before (SC 20: [to_utc], NaiveDate::pred_opt). *)
Definition day_before (d : date) : option date :=
  if 1 <? d_day d then from_ymd (d_year d) (d_month d) (d_day d - 1)
  else if 1 <? d_month d then from_ymd (d_year d) (d_month d - 1) (month_days (d_year d) (d_month d - 1))
  else from_ymd (d_year d - 1) 12 31.
(** Local time less its offset (SC 20, chrono [NaiveDateTime::checked_sub_offset]). *)
Definition less_offset (d : date) (secs off : Z) : option (date * Z) :=
  let t := secs - off in
  if t <? 0 then option_map (fun d' => (d', t + 86400)) (day_before d)
  else if 86400 <=? t then option_map (fun d' => (d', t - 86400)) (next_day d)
  else Some (d, t).
(** [DateTime::parse_from_rfc3339] and [to_utc] (SC 15-20).  Between date and time a [T], a [t] or a space. *)
Definition parse_rfc3339 (s : bytes) : option utc :=
  let? (y, s) := number 4 (Some 4%nat) s; let? s := char 45 s;
  let? (mo, s) := number 2 (Some 2%nat) s; let? s := char 45 s;
  let? (d, s) := number 2 (Some 2%nat) s;
  let? s := match s with c :: t => if ((c =? 84) || (c =? 116) || (c =? 32))%N then Some t else None | [] => None end;
  let? (h, s) := number 2 (Some 2%nat) s; let? s := char 58 s;
  let? (mi, s) := number 2 (Some 2%nat) s; let? s := char 58 s;
  let? (sec, s) := number 2 (Some 2%nat) s;
  let? (nano, s) := match s with c :: t => if (c =? 46)%N then nanosecond t else Some (0, s) | [] => Some (0, s) end;
  let? (off, s) := offset s;
  match s with
  | [] =>
      let? day := from_ymd y mo d;
      if (h <? 24) && (mi <? 60) && (sec <=? 60) && (Z.abs off <? 86400) then
        let '(sec, nano) := if sec =? 60 then (59, nano + 1000000000) else (sec, nano) in
        let? (day, t) := less_offset day (h * 3600 + mi * 60 + sec) off;
        Some (Utc day (Time t nano))
      else None
  | _ => None
  end.

(** ** The traits *)

(** SC 6-10 *)
Definition datetime_to_json (u : utc) : json := JString (to_rfc3339 u).
(** SC 12-22 (the text of the error is left out; [String::from_json] takes strings only). *)
Definition datetime_from_json (j : json) : option utc := match j with JString s => parse_rfc3339 s | _ => None end.
(** SC 24-28 *)
Definition date_to_json (d : date) : json := JString (write_date d).
(** SC 30-39 *)
Definition date_from_json (j : json) : option date := match j with JString s => parse_date s | _ => None end.
