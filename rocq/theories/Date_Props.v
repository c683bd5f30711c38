From Coq Require Import ZArith Bool Lia.
From Verif Require Import Date_Model Date_Proofs.
Open Scope Z_scope.

(** ** C29 *)
(** The constructor accepts exactly the dates of the calendars, up to 9999. *)
Theorem C29_calendar y m d c r :
  (Calendar y m d (Some c) = Some r <-> r = Date y m d c /\ valid r /\ y <= 9999) /\
  Calendar y m d None = (if 1583 <=? y then Calendar y m d (Some Gregorian) else None).
Proof. exact (conj (Calendar_ok y m d c r) (Calendar_default y m d)). Qed.
Print Assumptions C29_calendar.

(** jd() increases by one per day, and is that of the definition on 2000-01-01 (JD 2451544.5).  What is missing: the years
    before -4715 (Julian) or -98 (Gregorian). *)
Theorem C29_jd_partial : (forall d d', valid d -> in_range d -> follows d d' -> jd d' = jd d + 1) /\
  jd (Date 2000 1 1 Gregorian) = 2451545 /\ jd (Date 1999 12 19 Julian) = 2451545.
Proof. exact (conj jd_follows (conj eq_refl eq_refl)). Qed.
Print Assumptions C29_jd_partial.
(** For all years, jd() is the number of the day or exceeds it by one; it does so precisely in the years, starting in March,
    that are not a multiple of 4 before -4716, and in the Gregorian calendar for the negative secular common years. *)
Theorem C29_jd_everywhere : exists number : date -> Z,
  (forall d d', follows d d' -> number d' = number d + 1) /\
  (forall c, number (Date 2000 1 1 c) = jd (Date 2000 1 1 c)) /\
  forall d, valid d -> jd d = number d
    + (let Y := if month d <=? 2 then year d - 1 else year d in
       (if (Y <? -4716) && negb (Y mod 4 =? 0) then 1 else 0) +
       (if negb (is_julian (calendar d)) && (Y <? 0) && (Y mod 100 =? 0) && negb (Y mod 400 =? 0) then 1 else 0)).
Proof.
  exists number. split; [exact number_follows|]. split; [intros []; reflexivity|].
  intros d V. rewrite (jd_error d (valid_month d V)). unfold julian_error, gregorian_error, computation_year. cbv zeta. lia.
Qed.
Print Assumptions C29_jd_everywhere.

(** Date::JD yields a date of the civil calendar, with that Julian date. *)
Theorem C29_JD z : 0 <= z -> valid (JD z) /\ jd (JD z) = z /\ civil_calendar (JD z).
Proof.
  intros H. destruct (JD_jd z ltac:(lia)) as (V & E & N & C & _). split; [exact V|]. split; [exact E|].
  apply civil_ok; [exact V|]. unfold civil. rewrite C, N. destruct (Z.ltb_spec z 2299161); lia.
Qed.
Print Assumptions C29_JD.
Theorem C29_same_day_partial d : valid d -> in_range d ->
  valid (JD (jd d)) /\ jd (JD (jd d)) = jd d /\ (civil_calendar d -> JD (jd d) = d).
Proof. exact (same_day d). Qed.
Print Assumptions C29_same_day_partial.
Theorem C29_next_day_partial d : valid d -> in_range d ->
  valid (next_day d) /\ jd (next_day d) = jd d + 1 /\
  (civil_calendar d -> d <> Date 1582 10 4 Julian -> follows d (next_day d)).
Proof. exact (next_day_ok d). Qed.
Print Assumptions C29_next_day_partial.
Theorem C29_ordinal_partial d : valid d -> in_range d ->
  (forall k, days_before (calendar d) (year d) (month d) k -> ordinal d = k + day d) /\
  exists d', Ordinal (year d) (ordinal d) (Some (calendar d)) = Some d' /\ valid d' /\ jd d' = jd d /\ (civil_calendar d -> d' = d).
Proof. exact (fun V R => conj (fun k => ordinal_ok d k V R) (Ordinal_ok d V R)). Qed.
Print Assumptions C29_ordinal_partial.
Theorem C29_ordinal_accepts y n c :
  ((exists d, Ordinal y n (Some c) = Some d) <-> 1 <= n /\ (n <= 365 \/ (n = 366 /\ leap c y))) /\
  Ordinal y n None = (if 1583 <=? y then Ordinal y n (Some Gregorian) else None).
Proof. exact (conj (Ordinal_accepts y n c) (Ordinal_default y n)). Qed.
Print Assumptions C29_ordinal_accepts.
Theorem C29_order_partial d d' : valid d -> valid d' -> in_range d -> in_range d' -> calendar d = calendar d' ->
  (date_ltb d d' = true <-> before d d') /\ (date_eqb d d' = true <-> d = d').
Proof. exact (order_ok d d'). Qed.
Print Assumptions C29_order_partial.

(** Two successive accepted dates are equal, the next day of a date is two days later. *)
Theorem C29_proleptic_gregorian_refuted :
  Calendar (-99) 2 28 (Some Gregorian) = Some (Date (-99) 2 28 Gregorian) /\
  Calendar (-99) 3 1 (Some Gregorian) = Some (Date (-99) 3 1 Gregorian) /\
  follows (Date (-99) 2 28 Gregorian) (Date (-99) 3 1 Gregorian) /\
  date_eqb (Date (-99) 2 28 Gregorian) (Date (-99) 3 1 Gregorian) = true /\
  ordinal (Date (-99) 2 28 Gregorian) = 59 /\ ordinal (Date (-99) 3 1 Gregorian) = 59.
Proof.
  split; [reflexivity|]. split; [reflexivity|]. split; [|repeat split; reflexivity].
  apply (next_month (-99) 2 Gregorian 28); [|lia]. apply has_days_ok. split; [lia|reflexivity].
Qed.
Print Assumptions C29_proleptic_gregorian_refuted.
(** In the distant past, the next day is a year later. *)
Theorem C29_negative_refuted :
  Calendar (-5000) 1 1 (Some Julian) = Some (Date (-5000) 1 1 Julian) /\
  next_day (Date (-5000) 1 1 Julian) = Date (-4999) 1 4 Julian /\
  Ordinal (-5000) 1 (Some Julian) = Some (Date (-4999) 1 3 Julian).
Proof. repeat split; vm_compute; reflexivity. Qed.
Print Assumptions C29_negative_refuted.

Example C29_1582 : next_day (Date 1582 10 4 Julian) = Date 1582 10 15 Gregorian /\
  date_eqb (Date 1582 10 5 Julian) (Date 1582 10 15 Gregorian) = true.
Proof. split; reflexivity. Qed.
Example C29_leap : next_day (Date 2000 2 28 Gregorian) = Date 2000 2 29 Gregorian /\ next_day (Date 1900 2 28 Gregorian) = Date 1900 3 1 Gregorian
  /\ next_day (Date 1500 2 28 Julian) = Date 1500 2 29 Julian /\ ordinal (Date 2024 12 31 Gregorian) = 366.
Proof. repeat split; reflexivity. Qed.

(** ** C30 *)
(** Date::Week accepts exactly the weeks of ISO 8601 and returns their days. *)
Theorem C30_week y w d r : Week y w d = Some r <-> 1583 <= y <= 9999 /\ iso_week y w d r.
Proof.
  split; [intros H; pose proof (week_years y w d r H) as Y; split; [exact Y|apply week_ok; assumption]|].
  intros [Y H]. apply week_ok; assumption.
Qed.
Print Assumptions C30_week.
Theorem C30_consecutive y w r : Week y w 7 = Some r -> y < 9999 ->
  Week y (w + 1) 1 = Some (next_day r) \/ (Week y (w + 1) 1 = None /\ Week (y + 1) 1 1 = Some (next_day r)).
Proof. exact (weeks_consecutive y w r). Qed.
Print Assumptions C30_consecutive.
(** Week 1 is the one that contains January 4th. *)
Theorem C30_january_4th y d : 1583 <= y <= 9999 -> weekday (Date y 1 4 Gregorian) d -> Week y 1 d = Some (Date y 1 4 Gregorian).
Proof. exact (january_4th y d). Qed.
Print Assumptions C30_january_4th.
Example C30_2026 : Week 2026 1 1 = Some (Date 2025 12 29 Gregorian) /\ Week 2026 53 7 = Some (Date 2027 1 3 Gregorian) /\
  Week 2027 53 1 = None /\ Week 1583 1 1 = Some (Date 1583 1 3 Gregorian).
Proof. repeat split; reflexivity. Qed.
