(** Model of the UT1 part of astronomy/time_scales_body.hpp.  Times are rationals, in seconds: the arithmetic is exact. *)
From Coq Require Import ZArith Bool List QArith.
From Verif Require Import Date_Model DateText_Model TimeScales_Model EarthOrientation_Tables.
Import ListNotations.
Open Scope Z_scope.

(** [OutOfBounds] is a read outside of an array, which is undefined. *)
Inductive result (A : Type) := Value (a : A) | Failed | OutOfBounds.
Arguments Value {A} a. Arguments Failed {A}. Arguments OutOfBounds {A}.
Definition andThen {A B} (r : result A) (f : A -> result B) : result B :=
  match r with Value a => f a | Failed => Failed | OutOfBounds => OutOfBounds end.
Notation "'get' x := e 'in' f" := (andThen e (fun x => f)) (at level 200, x name, e at level 100, f at level 200).
Definition value_of {A} (o : option A) : result A := match o with Some a => Value a | None => Failed end.
Definition value_of_outcome {A} (o : outcome A) : result A := match o with Ok a => Value a | _ => Failed end.
(** Dereferencing a pointer in an array. *)
Definition read {A} (table : list A) (i : nat) : result A := match nth_error table i with Some a => Value a | None => OutOfBounds end.

(** astronomy/time_scales_body.hpp:245-255 *)
Record c02_entry := C02Entry { c02_ut1_mjd : Q; c02_ut1_minus_tai : Q }.
(** astronomy/time_scales_body.hpp:261-276 *)
Record c04_entry := C04Entry { c04_utc_date : Z; c04_ut1_minus_utc : Q }.
Definition experimental_eop_c02 : list c02_entry := map (fun e => C02Entry (inject_Z (fst e)) (snd e # 10000000)) experimental_eop_c02_data.
Definition eop_c04 : list c04_entry := map (fun e => C04Entry (fst e) (snd e # 10000000)) eop_c04_data.
(** astronomy/time_scales_body.hpp:278-280 *)
Definition c04_utc (e : c04_entry) : result date_time := value_of_outcome (let! d := YYYYMMDD (c04_utc_date e) None in BeginningOfDay d).
(** astronomy/time_scales_body.hpp:282-284 *)
Definition c04_ut1 (e : c04_entry) : result Q := get utc := c04_utc e in Value (TimeSince20000101T120000Z utc + c04_ut1_minus_utc e)%Q.
(** astronomy/time_scales_body.hpp:286-290 *)
Definition c04_ut1_minus_tai (e : c04_entry) : result Q :=
  get utc := c04_utc e in
  if 1972 <=? year (date_of utc) then get l := value_of (ModernUTCMinusTAI (date_of utc)) in Value (c04_ut1_minus_utc e + inject_Z l)%Q
  else Value (c04_ut1_minus_utc e - TAIMinusStretchyUTC utc)%Q.
(** astronomy/time_scales_body.hpp:292-297 *)
Definition c04_tt (e : c04_entry) : result Q :=
  get utc := c04_utc e in
  if 1972 <=? year (date_of utc)
  then get l := value_of (ModernUTCMinusTAI (date_of utc)) in Value (FromTAI (TimeSince20000101T120000Z utc - inject_Z l)%Q)
  else Value (FromTAI (TimeSince20000101T120000Z utc + TAIMinusStretchyUTC utc)%Q).

(** astronomy/time_scales_body.hpp:310-323; the recursion is on [fuel], which the size suffices for; an exhausted [fuel] is a failure.
    The result is an index. *)
Fixpoint LookupUT1_c02 (fuel : nat) (table : list c02_entry) (ut1 : Q) (begin size : nat) : result nat :=
  match fuel with
  | O => Failed
  | S fuel =>
    if Nat.leb size 0 then Failed
    else if Nat.eqb size 1 then
      get e := read table begin in if Qle_bool (c02_ut1_mjd e) (mjd_of_time ut1) then Value begin else Failed
    else
      get e := read table (begin + Nat.div2 size) in
      if Qle_bool (c02_ut1_mjd e) (mjd_of_time ut1) then LookupUT1_c02 fuel table ut1 (begin + Nat.div2 size) (size - Nat.div2 size)
      else LookupUT1_c02 fuel table ut1 begin (Nat.div2 size)
  end.
(** astronomy/time_scales_body.hpp:325-337 *)
Fixpoint LookupUT1_c04 (fuel : nat) (table : list c04_entry) (ut1 : Q) (begin size : nat) : result nat :=
  match fuel with
  | O => Failed
  | S fuel =>
    if Nat.leb size 0 then Failed
    else if Nat.eqb size 1 then
      get e := read table begin in get u := c04_ut1 e in if Qle_bool u ut1 then Value begin else Failed
    else
      get e := read table (begin + Nat.div2 size) in get u := c04_ut1 e in
      if Qle_bool u ut1 then LookupUT1_c04 fuel table ut1 (begin + Nat.div2 size) (size - Nat.div2 size)
      else LookupUT1_c04 fuel table ut1 begin (Nat.div2 size)
  end.
(** astronomy/time_scales_body.hpp:339-351 *)
Fixpoint LookupTT (fuel : nat) (table : list c04_entry) (tt : Q) (begin size : nat) : result nat :=
  match fuel with
  | O => Failed
  | S fuel =>
    if Nat.leb size 0 then Failed
    else if Nat.eqb size 1 then
      get e := read table begin in get t := c04_tt e in if Qle_bool t tt then Value begin else Failed
    else
      get e := read table (begin + Nat.div2 size) in get t := c04_tt e in
      if Qle_bool t tt then LookupTT fuel table tt (begin + Nat.div2 size) (size - Nat.div2 size)
      else LookupTT fuel table tt begin (Nat.div2 size)
  end.
(** astronomy/time_scales_body.hpp:353-365 *)
Definition LookupInExperimentalEOPC02 (c02 : list c02_entry) (ut1 : Q) : result nat := LookupUT1_c02 (length c02) c02 ut1 0 (length c02).
Definition LookupUT1InEOPC04 (c04 : list c04_entry) (ut1 : Q) : result nat := LookupUT1_c04 (length c04) c04 ut1 0 (length c04).
Definition LookupTTInEOPC04 (c04 : list c04_entry) (tt : Q) : result nat := LookupTT (length c04) c04 tt 0 (length c04).

(** astronomy/time_scales_body.hpp:368-378 *)
Definition InterpolatedEOPC04 (c04 : list c04_entry) (low : nat) (ut1 : Q) : result Q :=
  get e := read c04 low in get e' := read c04 (low + 1) in
  get v := c04_ut1_minus_tai e in get u := c04_ut1 e in get v' := c04_ut1_minus_tai e' in get u' := c04_ut1 e' in
  Value (FromTAI (ut1 - (v + (ut1 - u) * (v' - v) / (u' - u)))%Q).
(** astronomy/time_scales_body.hpp:385-400; the pair of [jd_minus_2451545] and the result. *)
Definition InterpolatedEOPC04JulianDayFraction (c04 : list c04_entry) (low : nat) (tt : Q) : result (Z * Q) :=
  get e := read c04 low in get e' := read c04 (low + 1) in
  get t := c04_tt e in get t' := c04_tt e' in get utc := c04_utc e in
  let lambda := ((tt - t) / (t' - t))%Q in
  Value (mjd (date_of utc) - 51545 + 1,
         (lambda - (1 # 2) + (c04_ut1_minus_utc e + lambda * (c04_ut1_minus_utc e' - c04_ut1_minus_utc e)) / inject_Z 86400)%Q).
(** astronomy/time_scales_body.hpp:404-411 *)
Definition InterpolatedExperimentalEOPC02 (c02 : list c02_entry) (low : nat) (ut1 : Q) : result Q :=
  get e := read c02 low in get e' := read c02 (low + 1) in
  Value (FromTAI (ut1 - (c02_ut1_minus_tai e + (mjd_of_time ut1 - c02_ut1_mjd e) * (c02_ut1_minus_tai e' - c02_ut1_minus_tai e) /
                                               (c02_ut1_mjd e' - c02_ut1_mjd e)))%Q).
(** astronomy/time_scales_body.hpp:415-422 *)
Definition ExperimentalEOPC02ToEOPC04 (low : c02_entry) (high : c04_entry) (ut1 : Q) : result Q :=
  get v := c04_ut1_minus_tai high in get u := c04_ut1 high in
  Value (FromTAI (ut1 - (c02_ut1_minus_tai low + (mjd_of_time ut1 - c02_ut1_mjd low) * (v - c02_ut1_minus_tai low) /
                                                 (mjd_of_time u - c02_ut1_mjd low)))%Q).
(** astronomy/time_scales_body.hpp:424-438 *)
Definition FromUT1 (c02 : list c02_entry) (c04 : list c04_entry) (ut1 : Q) : result Q :=
  get front := read c04 0 in get front_ut1 := c04_ut1 front in
  if negb (Qle_bool front_ut1 ut1) then
    get low := LookupInExperimentalEOPC02 c02 ut1 in
    get next := read c02 (low + 1) in
    if negb (Qle_bool (c02_ut1_mjd next) (mjd_of_time front_ut1))
    then get e := read c02 low in ExperimentalEOPC02ToEOPC04 e front ut1
    else InterpolatedExperimentalEOPC02 c02 low ut1
  else get low := LookupUT1InEOPC04 c04 ut1 in InterpolatedEOPC04 c04 low ut1.
(** astronomy/time_scales_body.hpp:440-454; in turns. *)
Definition UT1JulianDay (c04 : list c04_entry) (tt : Q) : result (Z * Q) :=
  get front := read c04 0 in get front_tt := c04_tt front in
  if Qle_bool front_tt tt then get low := LookupTTInEOPC04 c04 tt in InterpolatedEOPC04JulianDayFraction c04 low tt else Failed.
Definition EarthRotationAngle (c04 : list c04_entry) (tt : Q) : result Q :=
  get j := UT1JulianDay c04 tt in
  let Tu := (inject_Z (fst j) + snd j)%Q in
  Value (snd j + (7790572732640 # 10000000000000) + (273781191135448 # 100000000000000000) * Tu)%Q.
(** astronomy/time_scales_body.hpp:491-497 *)
Definition DateTimeAsUT1 (c02 : list c02_entry) (c04 : list c04_entry) (ut1 : date_time) : result Q :=
  if is_leap_second (time_of ut1) then Failed
  else
    get front := read c02 0 in
    if Qle_bool (c02_ut1_mjd front) (mjd_of_time (TimeSince20000101T120000Z ut1)) then
      get back := read c04 (length c04 - 1) in get back_ut1 := c04_ut1 back in
      if negb (Qle_bool back_ut1 (TimeSince20000101T120000Z ut1)) then FromUT1 c02 c04 (TimeSince20000101T120000Z ut1) else Failed
    else Failed.
