(** Model of the class Date of astronomy/date_time_body.hpp.  The Julian dates handled are those of midnights, they have a
    fractional part of one half: the double [jd] is modelled by the integer [jd + 1/2].  The other doubles are modelled by
    rationals, i.e., the arithmetic is exact: the products and quotients that are truncated are either integers, exactly
    representable, or at a distance of at least 1E-6 from the integers.  The conversions to std::int64_t are truncations,
    [Z.quot].  The overflow of int is not modelled.  A failing CONSTEXPR_CHECK is [None]. *)
From Coq Require Import ZArith Bool.
Open Scope Z_scope.

(** astronomy/date_time.hpp:15-18 *)
Inductive calendars := Julian | Gregorian.
Definition is_julian (c : calendars) : bool := match c with Julian => true | Gregorian => false end.
(** astronomy/date_time.hpp:75-78 *)
Record date := Date { year : Z; month : Z; day : Z; calendar : calendars }.

(** astronomy/date_time_body.hpp:26-27 *)
Definition non_leap_year_month_length (month : Z) : Z :=
  match month with 1 => 31 | 2 => 28 | 3 => 31 | 4 => 30 | 5 => 31 | 6 => 30 | 7 => 31 | 8 => 31 | 9 => 30 | 10 => 31 | 11 => 30
  | 12 => 31 | _ => 0 end.
(** astronomy/date_time_body.hpp:29-33 *)
Definition is_leap_year (year : Z) (c : calendars) : bool :=
  if is_julian c then Z.rem year 4 =? 0
  else (Z.rem year 4 =? 0) && (negb (Z.rem year 100 =? 0) || (Z.rem year 400 =? 0)).
(** astronomy/date_time_body.hpp:35-37 *)
Definition year_length (year : Z) (c : calendars) : Z := if is_leap_year year c then 366 else 365.
(** astronomy/date_time_body.hpp:39-44 *)
Definition month_length (year month : Z) (c : calendars) : Z :=
  if is_leap_year year c && (month =? 2) then 29 else non_leap_year_month_length month.

(** astronomy/date_time_body.hpp:215-235 *)
Definition jd (d : date) : Z :=
  let Y := if month d <=? 2 then year d - 1 else year d in
  let M := if month d <=? 2 then month d + 12 else month d in
  let B := if is_julian (calendar d) then 0 else let A := Z.quot Y 100 in 2 - A + Z.quot A 4 in
  Z.quot (1461 * (Y + 4716)) 4 + Z.quot (306001 * (M + 1)) 10000 + day d + B - 1524.
(** astronomy/date_time_body.hpp:166-193 *)
Definition JD (z : Z) : date :=
  let c := if z <? 2299161 then Julian else Gregorian in
  let A := if z <? 2299161 then z else let α := Z.quot (4 * z - 7468865) 146097 in z + 1 + α - Z.quot α 4 in
  let B := A + 1524 in
  let C := Z.quot (20 * B - 2442) 7305 in
  let D := Z.quot (1461 * C) 4 in
  let E := Z.quot (10000 * (B - D)) 306001 in
  let d := B - D - Z.quot (306001 * E) 10000 in
  let m := if E <? 14 then E - 1 else E - 13 in
  let y := if 2 <? m then C - 4716 else C - 4715 in
  Date y m d c.
(** astronomy/date_time_body.hpp:242-244 *)
Definition next_day (d : date) : date := JD (jd d + 1).
(** astronomy/date_time_body.hpp:211-213 *)
Definition ordinal (d : date) : Z := jd d - jd (Date (year d) 1 1 (calendar d)) + 1.
(** astronomy/date_time_body.hpp:237-240: jd - 2400000.5. *)
Definition mjd (d : date) : Z := jd d - 2400001.

(** The default value of the calendar, astronomy/date_time_body.hpp:132-135 and 146-149. *)
Definition default_calendar (year : Z) (c : option calendars) : option calendars :=
  match c with Some c => Some c | None => if 1583 <=? year then Some Gregorian else None end.
(** astronomy/date_time_body.hpp:130-142 *)
Definition Calendar (year month day : Z) (c : option calendars) : option date :=
  match default_calendar year c with
  | None => None
  | Some c => if (year <=? 9999) && (1 <=? month) && (month <=? 12) && (1 <=? day) && (day <=? month_length year month c)
              then Some (Date year month day c) else None
  end.
(** astronomy/date_time_body.hpp:144-153 *)
Definition Ordinal (year day : Z) (c : option calendars) : option date :=
  match default_calendar year c with
  | None => None
  | Some c => if (1 <=? day) && (day <=? year_length year c) then Some (JD (jd (Date year 1 1 c) + (day - 1))) else None
  end.

(** base/mod.hpp:8-10 and 12-14 *)
Definition mod2 (dividend divisor : Z) : Z := Z.rem (Z.rem dividend divisor + divisor) divisor.
Definition mod3 (dividend divisor offset : Z) : Z := mod2 (dividend - offset) divisor + offset.

(** astronomy/date_time_body.hpp:46-50 *)
Definition day_of_week_on_january_1st (year : Z) : option Z :=
  match Calendar year 1 1 None with Some d => Some (mod2 (jd d + 1) 7) | None => None end.
(** astronomy/date_time_body.hpp:52-58 *)
Definition number_of_iso_weeks_in_year (year : Z) : option Z :=
  match day_of_week_on_january_1st year with
  | Some w => Some (if (w =? 4) || (is_leap_year year Gregorian && (w =? 3)) then 53 else 52)
  | None => None
  end.
(** astronomy/date_time_body.hpp:65-67 *)
Definition ordinal_of_w_01_1 (year : Z) : option Z :=
  match day_of_week_on_january_1st year with Some w => Some (mod3 (2 - w) 7 (-2)) | None => None end.
(** astronomy/date_time_body.hpp:155-164 *)
Definition Week (year week day : Z) : option date :=
  if 1583 <=? year then
    match number_of_iso_weeks_in_year year, Calendar year 1 1 None, ordinal_of_w_01_1 year with
    | Some n, Some d, Some o =>
        if (1 <=? week) && (week <=? n) && (1 <=? day) && (day <=? 7)
        then Some (JD (jd d + (o - 1) + (week - 1) * 7 + (day - 1))) else None
    | _, _, _ => None
    end
  else None.

(** astronomy/date_time_body.hpp:960-970 *)
Definition date_eqb (a b : date) : bool := jd a =? jd b.
Definition date_ltb (a b : date) : bool := jd a <? jd b.
