From Coq Require Import ZArith Bool List QArith Qabs Lia Lqa.
From Verif Require Import Date_Model Date_Proofs DateText_Model DateText_Proofs TimeScales_Model TimeScales_Proofs.
Import ListNotations.
Open Scope Z_scope.

(** C32: UTC - TAI is -10 s less the number of leap seconds announced before the date. *)
Theorem C32_utc_minus_tai : forall d, 1972 <= year d <= 2022 -> 1 <= month d <= 12 -> ModernUTCMinusTAI d = Some (-10 - announced_before d).
Proof. exact utc_minus_tai_ok. Qed.
Print Assumptions C32_utc_minus_tai.
Example C32_utc_minus_tai_example : ModernUTCMinusTAI (Date 2016 12 31 Gregorian) = Some (-36) /\ ModernUTCMinusTAI (Date 2017 1 1 Gregorian) = Some (-37).
Proof. split; vm_compute; reflexivity. Qed.

(** C32: a 60th second is accepted exactly when a leap second was announced for the end of the month. *)
Theorem C32_sixtieth_second : forall x, utc_day (date_of x) -> 1972 <= year (date_of x) ->
  IsValidModernUTC x = Some true <-> (second (time_of x) = 60 -> In (year (date_of x), month (date_of x)) announced).
Proof. exact modern_valid. Qed.
Print Assumptions C32_sixtieth_second.
Example C32_sixtieth_second_example : IsValidModernUTC (DateAndTime (Date 2016 12 31 Gregorian) (Time 23 59 60 0)) = Some true /\
  IsValidModernUTC (DateAndTime (Date 2016 6 30 Gregorian) (Time 23 59 60 0)) = Some false.
Proof. split; vm_compute; reflexivity. Qed.

(** C32: in 1961-2022, a well-formed time is accepted exactly when it exists in UTC, except in the last minute of the two days which
    were shortened, see [C32_negative_leap_refuted]. *)
Theorem C32_accepts_partial : forall x, utc_day (date_of x) -> valid_time (time_of x) -> hour (time_of x) <> 24 ->
  (second (time_of x) = 60 -> has_days Gregorian (year (date_of x)) (month (date_of x)) (day (date_of x))) -> ~ rejected x ->
  ((exists q, DateTimeAsUTC x = Some q) <-> utc_exists x).
Proof. exact accepts. Qed.
Print Assumptions C32_accepts_partial.
(** 1971-12-31T23:59:60,107 exists and 23:59:60,108 does not. *)
Example C32_accepts_example :
  (exists q, DateTimeAsUTC (DateAndTime (Date 1971 12 31 Gregorian) (Time 23 59 60 107)) = Some q) /\
  DateTimeAsUTC (DateAndTime (Date 1971 12 31 Gregorian) (Time 23 59 60 108)) = None.
Proof. split; [eexists|]; vm_compute; reflexivity. Qed.

(** C32, refuted: 1961-07-31T23:59:30,970 existed, half a minute before the day ended, 50 ms early, but it is not accepted. *)
Theorem C32_negative_leap_refuted : exists x, utc_exists x /\ valid_time (time_of x) /\ DateTimeAsUTC x = None.
Proof. exact negative_leap. Qed.
Print Assumptions C32_negative_leap_refuted.

(** C32: the TT that the code associates with successive times of UTC is separated by the SI duration which separates them: exactly so
    since 1972, with the announced frequency offset before that, to 10 ns across midnight. *)
Theorem C32_elapsed : forall x y e q q', utc_exists x -> utc_next x y e -> year (date_of y) <= 2022 ->
  DateTimeAsUTC x = Some q -> DateTimeAsUTC y = Some q' ->
  (date_of x = date_of y -> (q' - q == e * (1 # 1000) * (1 + frequency_offset (year (date_of x))))%Q) /\
  (1972 <= year (date_of x) -> (q' - q == e * (1 # 1000))%Q) /\
  (Qabs (q' - q - e * (1 # 1000)) <= 1 # 100000000)%Q.
Proof. exact elapsed. Qed.
Print Assumptions C32_elapsed.
(** From the last millisecond of 2016 to 2017. *)
Example C32_elapsed_example : exists q q',
  DateTimeAsUTC (DateAndTime (Date 2016 12 31 Gregorian) (Time 23 59 60 999)) = Some q /\
  DateTimeAsUTC (DateAndTime (Date 2017 1 1 Gregorian) (Time 0 0 0 0)) = Some q' /\ (q' - q == 1 # 1000)%Q /\
  utc_next (DateAndTime (Date 2016 12 31 Gregorian) (Time 23 59 60 999)) (DateAndTime (Date 2017 1 1 Gregorian) (Time 0 0 0 0))
           (inject_Z 60000 + step 2016 12 - inject_Z (1000 * 60 + 999)).
Proof.
  eexists. eexists. split; [vm_compute; reflexivity|]. split; [vm_compute; reflexivity|]. split; [vm_compute; reflexivity|].
  apply in_the_next_day; [|vm_compute; discriminate|apply (next_year 2016)].
  apply last_of_month; [reflexivity|reflexivity|]. apply thirty_one. cbn [date_of month]. lia.
Qed.

(** C32: 24:00:00 is 00:00:00 on the next day. *)
Theorem C32_end_of_day : forall d d', utc_day d -> year d' <= 2022 -> follows d d' ->
  DateTimeAsUTC (DateAndTime d (Time 24 0 0 0)) = DateTimeAsUTC (DateAndTime d' (Time 0 0 0 0)).
Proof. exact end_of_day. Qed.
Print Assumptions C32_end_of_day.
Example C32_end_of_day_example : exists q, DateTimeAsUTC (DateAndTime (Date 2016 12 31 Gregorian) (Time 24 0 0 0)) = Some q /\ (q == (536500869184 # 1000))%Q.
Proof. eexists. split; [vm_compute; reflexivity|vm_compute; reflexivity]. Qed.
