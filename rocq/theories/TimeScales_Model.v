(** Model of the UTC part of astronomy/time_scales_body.hpp.  Times are rationals, in seconds: the arithmetic is exact.  A failing
    CONSTEXPR_CHECK is [None]. *)
From Coq Require Import ZArith Bool List QArith.
From Verif Require Import Date_Model DateText_Model.
Import ListNotations.
Open Scope Z_scope.

(** astronomy/time_scales_body.hpp:33-42; in milliseconds.  The difference of the [mjd]s is an integer. *)
Definition milliseconds_since (x : date_time) : Z :=
  millisecond (time_of x) +
  1000 * (second (time_of x) + 60 * (minute (time_of x) + 60 * (hour (time_of x) - 12 + 24 * (mjd (date_of x) - mjd (Date 2000 1 1 Gregorian))))).
Definition TimeSince20000101T120000Z (x : date_time) : Q := (inject_Z (milliseconds_since x) / inject_Z 1000)%Q.
(** astronomy/time_scales_body.hpp:49-51 *)
Definition mjd_of_time (from_j2000 : Q) : Q := (from_j2000 / inject_Z 86400 + (103089 # 2))%Q.
(** astronomy/time_scales_body.hpp:53-59: seconds of TT since J2000. *)
Definition FromTT (from_j2000 : Q) : Q := from_j2000.
Definition FromTAI (tai : Q) : Q := FromTT (tai + (32184 # 1000))%Q.

(** astronomy/time_scales_body.hpp:71-123 *)
Definition leap_seconds : list Z :=
  [
   1; 1; (* 1972 *)
   0; 1; (* 1973 *)
   0; 1; (* 1974 *)
   0; 1; (* 1975 *)
   0; 1; (* 1976 *)
   0; 1; (* 1977 *)
   0; 1; (* 1978 *)
   0; 1; (* 1979 *)
   0; 0; (* 1980 *)
   1; 0; (* 1981 *)
   1; 0; (* 1982 *)
   1; 0; (* 1983 *)
   0; 0; (* 1984 *)
   1; 0; (* 1985 *)
   0; 0; (* 1986 *)
   0; 1; (* 1987 *)
   0; 0; (* 1988 *)
   0; 1; (* 1989 *)
   0; 1; (* 1990 *)
   0; 0; (* 1991 *)
   1; 0; (* 1992 *)
   1; 0; (* 1993 *)
   1; 0; (* 1994 *)
   0; 1; (* 1995 *)
   0; 0; (* 1996 *)
   1; 0; (* 1997 *)
   0; 1; (* 1998 *)
   0; 0; (* 1999 *)
   0; 0; (* 2000 *)
   0; 0; (* 2001 *)
   0; 0; (* 2002 *)
   0; 0; (* 2003 *)
   0; 0; (* 2004 *)
   0; 1; (* 2005 *)
   0; 0; (* 2006 *)
   0; 0; (* 2007 *)
   0; 1; (* 2008 *)
   0; 0; (* 2009 *)
   0; 0; (* 2010 *)
   0; 0; (* 2011 *)
   1; 0; (* 2012 *)
   0; 0; (* 2013 *)
   0; 0; (* 2014 *)
   1; 0; (* 2015 *)
   0; 1; (* 2016 *)
   0; 0; (* 2017 *)
   0; 0; (* 2018 *)
   0; 0; (* 2019 *)
   0; 0; (* 2020 *)
   0; 0; (* 2021 *)
   0; 0 (* 2022 *)
  ].
(** The access to the array: the comparison with the size is unsigned, so a negative index fails the check. *)
Definition leap_seconds_at (i : Z) : option Z := if i <? 0 then None else nth_error leap_seconds (Z.to_nat i).
(** astronomy/time_scales_body.hpp:127-136 *)
Definition LeapSecond (year month : Z) : option Z :=
  if month =? 6 then leap_seconds_at ((year - 1972) * 2)
  else if month =? 12 then leap_seconds_at ((year - 1972) * 2 + 1) else None.
Definition plus (a b : option Z) : option Z := match a, b with Some a, Some b => Some (a + b) | _, _ => None end.
Definition opp (a : option Z) : option Z := match a with Some a => Some (- a) | None => None end.
(** astronomy/time_scales_body.hpp:140-147: the value on January 1st of the year 1972 + n, in seconds. *)
Fixpoint UTCMinusTAI_january_1st (n : nat) : option Z :=
  match n with
  | O => Some (-10)
  | S m => let year := 1972 + Z.of_nat n in
           plus (plus (opp (LeapSecond (year - 1) 6)) (opp (LeapSecond (year - 1) 12))) (UTCMinusTAI_january_1st m)
  end.
(** astronomy/time_scales_body.hpp:139-153; before 1972 the recursion fails in LeapSecond. *)
Definition ModernUTCMinusTAI (d : date) : option Z :=
  let january_1st := if year d <? 1972 then None else UTCMinusTAI_january_1st (Z.to_nat (year d - 1972)) in
  if (month d =? 1) && (day d =? 1) then january_1st
  else plus (if 6 <? month d then opp (LeapSecond (year d) 6) else Some 0) january_1st.
(** astronomy/time_scales_body.hpp:155-158 *)
Definition IsValidModernUTC (x : date_time) : option bool :=
  if negb (is_leap_second (time_of x)) then Some true
  else match LeapSecond (year (date_of x)) (month (date_of x)) with Some l => Some (l =? 1) | None => None end.

(** astronomy/time_scales_body.hpp:165-178 *)
Definition RateTAIMinusStretchyUTC (utc : date_time) : Q :=
  let t := mjd_of_time (TimeSince20000101T120000Z utc) in
  (if date_ltb (date_of utc) (Date 1962 1 1 Gregorian) then (t - inject_Z 37300) * (1296 # 1000000)
   else if date_ltb (date_of utc) (Date 1964 1 1 Gregorian) then (t - inject_Z 37665) * (11232 # 10000000)
   else if date_ltb (date_of utc) (Date 1966 1 1 Gregorian) then (t - inject_Z 38761) * (1296 # 1000000)
   else (t - inject_Z 39126) * (2592 # 1000000))%Q.
(** astronomy/time_scales_body.hpp:180-194 *)
Definition OffsetTAIMinusStretchyUTC (d : date) : Q :=
  (if date_ltb d (Date 1961 8 1 Gregorian) then 14228180 # 10000000
   else if date_ltb d (Date 1962 1 1 Gregorian) then 13728180 # 10000000
   else if date_ltb d (Date 1963 11 1 Gregorian) then 18458580 # 10000000
   else if date_ltb d (Date 1964 1 1 Gregorian) then 19458580 # 10000000
   else if date_ltb d (Date 1964 4 1 Gregorian) then 32401300 # 10000000
   else if date_ltb d (Date 1964 9 1 Gregorian) then 33401300 # 10000000
   else if date_ltb d (Date 1965 1 1 Gregorian) then 34401300 # 10000000
   else if date_ltb d (Date 1965 3 1 Gregorian) then 35401300 # 10000000
   else if date_ltb d (Date 1965 7 1 Gregorian) then 36401300 # 10000000
   else if date_ltb d (Date 1965 9 1 Gregorian) then 37401300 # 10000000
   else if date_ltb d (Date 1966 1 1 Gregorian) then 38401300 # 10000000
   else if date_ltb d (Date 1968 2 1 Gregorian) then 43131700 # 10000000
   else 42131700 # 10000000)%Q.
(** astronomy/time_scales_body.hpp:197-199 *)
Definition TAIMinusStretchyUTC (utc : date_time) : Q := (OffsetTAIMinusStretchyUTC (date_of utc) + RateTAIMinusStretchyUTC utc)%Q.
(** astronomy/time_scales_body.hpp:203-209; the number of milliseconds in units of 0.0001. *)
Definition IsValidPositiveStretchyUTCLeap (utc : date_time) (next : date) (milliseconds : Z) : bool :=
  is_leap_second (time_of utc) && date_eqb (next_day (date_of utc)) next && (millisecond (time_of utc) * 10000 <? milliseconds).
(** astronomy/time_scales_body.hpp:214-222 *)
Definition IsValidStretchyUTCIfOnDayOfNegativeLeap (utc : date_time) (next : date) (milliseconds : Z) : bool :=
  negb (date_eqb (next_day (date_of utc)) next) || (hour (time_of utc) <? 23) || (minute (time_of utc) <? 59) ||
  (millisecond (time_of utc) <? 1000 - milliseconds).
(** astronomy/time_scales_body.hpp:226-240 *)
Definition IsValidStretchyUTC (utc : date_time) : bool :=
  (1961 <=? year (date_of utc)) && (year (date_of utc) <? 1972) &&
  IsValidStretchyUTCIfOnDayOfNegativeLeap utc (Date 1961 8 1 Gregorian) 50 &&
  IsValidStretchyUTCIfOnDayOfNegativeLeap utc (Date 1968 2 1 Gregorian) 100 &&
  (negb (is_leap_second (time_of utc)) ||
   IsValidPositiveStretchyUTCLeap utc (Date 1963 11 1 Gregorian) 1000000 ||
   IsValidPositiveStretchyUTCLeap utc (Date 1964 4 1 Gregorian) 1000000 ||
   IsValidPositiveStretchyUTCLeap utc (Date 1964 9 1 Gregorian) 1000000 ||
   IsValidPositiveStretchyUTCLeap utc (Date 1965 1 1 Gregorian) 1000000 ||
   IsValidPositiveStretchyUTCLeap utc (Date 1965 3 1 Gregorian) 1000000 ||
   IsValidPositiveStretchyUTCLeap utc (Date 1965 7 1 Gregorian) 1000000 ||
   IsValidPositiveStretchyUTCLeap utc (Date 1965 9 1 Gregorian) 1000000 ||
   IsValidPositiveStretchyUTCLeap utc (Date 1972 1 1 Gregorian) 1077580).

(** astronomy/time_scales_body.hpp:481-488, when [utc] is not the end of a day. *)
Definition DateTimeAsUTC_normal (utc : date_time) : option Q :=
  if year (date_of utc) <? 1972 then
    if IsValidStretchyUTC utc then Some (FromTAI (TimeSince20000101T120000Z utc + TAIMinusStretchyUTC utc)%Q) else None
  else
    match IsValidModernUTC utc, ModernUTCMinusTAI (date_of utc) with
    | Some true, Some l => Some (FromTAI (TimeSince20000101T120000Z utc - inject_Z l)%Q)
    | _, _ => None
    end.
(** astronomy/time_scales_body.hpp:478-489 *)
Definition DateTimeAsUTC (utc : date_time) : option Q :=
  if is_end_of_day (time_of utc) then
    match normalized_end_of_day utc with Ok x => DateTimeAsUTC_normal x | _ => None end
  else DateTimeAsUTC_normal utc.
