From Coq Require Import ZArith Bool List Ascii String Lia.
From Verif Require Import Date_Model Date_Proofs DateText_Model DateText_Proofs.
Import ListNotations.
Open Scope Z_scope.
Definition text (s : string) : list ascii := list_ascii_of_string s.

(** ** C31 *)
(** The documented representations of dates are accepted, with the right value.  What is missing: the negative years with the
    number of a day; see [C31_negative_ordinal_refuted]. *)
Theorem C31_dates_accepted_partial format extended prefix sign s d :
  date_text format extended prefix sign s d -> (format = YD -> sign <> Minus) -> ParseDate s = Ok d.
Proof. exact (parse_date_complete format extended prefix sign s d). Qed.
Print Assumptions C31_dates_accepted_partial.
(** Nothing else is accepted, except that 8 digits may come with a W; see [C31_stray_W_refuted]. *)
Theorem C31_only_dates_partial s d : ParseDate s = Ok d ->
  (exists format extended prefix sign, date_text format extended prefix sign s d) \/ (In "W"%char s /\ count_digits s = 8).
Proof.
  intros H. destruct (parse_date_sound s d H) as [(f & x & c & g & T & _)|(c & g & b & -> & W & C)].
  - left. exists f, x, c, g. exact T.
  - right. split; [apply in_or_app; right; apply in_or_app; right; exact W|].
    rewrite !count_app, C. destruct c as [[]|], g; reflexivity.
Qed.
Print Assumptions C31_only_dates_partial.
(** Exactly the documented representations of times are accepted, and those with a decimal mark and no decimals. *)
Theorem C31_times s t : ParseTime s = Ok t <-> exists extended decimals, time_text extended decimals s t.
Proof. exact (conj (parse_time_sound s t) (fun '(ex_intro _ x (ex_intro _ k T)) => parse_time_complete x k s t T)). Qed.
Print Assumptions C31_times.
Theorem C31_printed_date d : valid d -> -9999 <= year d <= 9999 -> ParseDate (print_date d) = Ok d.
Proof. exact (date_round_trip d). Qed.
Print Assumptions C31_printed_date.
Theorem C31_printed_time t : valid_time t -> ParseTime (print_time t) = Ok t.
Proof. exact (time_round_trip t). Qed.
Print Assumptions C31_printed_time.
(** Dates with times: accepted if both are in the basic format or both are in the extended format, and if a leap second
    is at the end of a month.  What is missing: the negative years in the basic format; see [C31_mixed_formats_refuted]. *)
Theorem C31_dates_with_times_partial format extended prefix sign s d decimals u t :
  date_text format extended prefix sign s d -> (format = YD -> sign <> Minus) -> (extended = true \/ sign <> Minus) ->
  time_text extended decimals u t ->
  forall r, ParseDateTime (s ++ "T"%char :: u) = Ok r <->
    r = DateAndTime d t /\ (second t = 60 -> day d = month_length (year d) (month d) (calendar d)).
Proof.
  exact (fun D N X T r => eq_ind_r (fun o => o = Ok r <-> _) (DateTime_ok d t r) (parse_date_time_complete format extended prefix sign s d decimals u t D N X T)).
Qed.
Print Assumptions C31_dates_with_times_partial.
Theorem C31_only_dates_with_times s r : ParseDateTime s = Ok r ->
  exists a b, s = a ++ "T"%char :: b /\ ParseDate a = Ok (date_of r) /\ ParseTime b = Ok (time_of r) /\
    (second (time_of r) = 60 -> has_days (calendar (date_of r)) (year (date_of r)) (month (date_of r)) (day (date_of r)) \/ month (date_of r) < 1 \/ 12 < month (date_of r)).
Proof.
  intros H. destruct (parse_date_time_sound s r H) as (a & b & E & D & T & L). exists a, b. repeat split; try assumption.
  intros S. destruct (Z_lt_ge_dec (month (date_of r)) 1); [tauto|]. destruct (Z_lt_ge_dec 12 (month (date_of r))); [tauto|]. left.
  apply has_days_ok. split; [lia|exact (L S)].
Qed.
Print Assumptions C31_only_dates_with_times.
Theorem C31_printed_date_with_time x : valid (date_of x) -> -9999 <= year (date_of x) <= 9999 -> valid_time (time_of x) ->
  (second (time_of x) = 60 -> has_days (calendar (date_of x)) (year (date_of x)) (month (date_of x)) (day (date_of x))) ->
  ParseDateTime (print_date_time x) = Ok x.
Proof. exact (date_time_round_trip x). Qed.
Print Assumptions C31_printed_date_with_time.

(** The check on the absence of a W is missing for 8 digits. *)
Theorem C31_stray_W_refuted :
  ParseDate (text "2000W0101") = Ok (Date 2000 1 1 Gregorian) /\ ParseDate (text "1999-W12-31") = CheckFailed /\
  ParseDate (text "1999-12W-31") = CheckFailed /\ ParseDate (text "1999-12-3W1") = Ok (Date 1999 12 31 Gregorian) /\
  ParseDate (text "W19991231") = Ok (Date 1999 12 31 Gregorian).
Proof. repeat split; reflexivity. Qed.
Print Assumptions C31_stray_W_refuted.
(** The sign is computed, but the digits are signed. *)
Theorem C31_negative_ordinal_refuted :
  Ordinal (-44) 75 (Some Julian) = Some (Date (-44) 3 15 Julian) /\
  date_text YD true (Some Julian) Minus (text "J-0044-075") (Date (-44) 3 15 Julian) /\
  ParseDate (text "J-0044-075") = CheckFailed /\ ParseDate (text "J-0044-03-15") = Ok (Date (-44) 3 15 Julian).
Proof.
  split; [reflexivity|]. split; [|split; reflexivity].
  apply (year_day true (Some Julian) Minus 44 75); [unfold fits; cbn; lia|unfold fits; cbn; lia|reflexivity].
Qed.
Print Assumptions C31_negative_ordinal_refuted.
Theorem C31_no_decimals_refuted : ParseTime (text "12:34:56,") = Ok (Time 12 34 56 0) /\ ParseTime (text "123456.") = Ok (Time 12 34 56 0).
Proof. split; reflexivity. Qed.
Print Assumptions C31_no_decimals_refuted.
(** The day after the last one that may be written is printed in a way that is not accepted. *)
Theorem C31_year_10000_refuted :
  ParseDate (text "9999-12-31") = Ok (Date 9999 12 31 Gregorian) /\ next_day (Date 9999 12 31 Gregorian) = Date 10000 1 1 Gregorian /\
  print_date (Date 10000 1 1 Gregorian) = text "10000-01-01" /\ ParseDate (text "10000-01-01") = CheckFailed.
Proof. repeat split; reflexivity. Qed.
Print Assumptions C31_year_10000_refuted.
(** The sign is taken for a hyphen. *)
Theorem C31_mixed_formats_refuted :
  ParseDateTime (text "J-00440315T120000") = CheckFailed /\
  ParseDateTime (text "J-00440315T12:00:00") = Ok (DateAndTime (Date (-44) 3 15 Julian) (Time 12 0 0 0)) /\
  ParseDateTime (text "J00440315T120000") = Ok (DateAndTime (Date 44 3 15 Julian) (Time 12 0 0 0)) /\
  ParseDateTime (text "J00440315T12:00:00") = CheckFailed.
Proof. repeat split; reflexivity. Qed.
Print Assumptions C31_mixed_formats_refuted.
(** Too many digits overflow a 64-bit integer, which is undefined behaviour instead of the failure of a check. *)
Theorem C31_overflow_refuted : ParseTime (text "12:34:56,789000000000") = CheckFailed /\
  ParseTime (text "12:34:56,78900000000000") = Overflow /\
  ParseDate (text "12345678901234567890") = Overflow.
Proof. repeat split; reflexivity. Qed.
Print Assumptions C31_overflow_refuted.

Example C31_texts :
  ParseDate (text "2016-12-31") = Ok (Date 2016 12 31 Gregorian) /\ ParseDate (text "20161231") = Ok (Date 2016 12 31 Gregorian) /\
  ParseDate (text "2016-W52-6") = Ok (Date 2016 12 31 Gregorian) /\ ParseDate (text "2016W526") = Ok (Date 2016 12 31 Gregorian) /\
  ParseDate (text "2016-366") = Ok (Date 2016 12 31 Gregorian) /\ ParseDate (text "2016366") = Ok (Date 2016 12 31 Gregorian) /\
  ParseDate (text "J+1582-10-04") = Ok (Date 1582 10 4 Julian) /\ ParseDate (text "1582-10-04") = CheckFailed /\
  ParseDateTime (text "2016-12-31T23:59:60,5") = Ok (DateAndTime (Date 2016 12 31 Gregorian) (Time 23 59 60 500)) /\
  ParseDateTime (text "2016-12-30T23:59:60,5") = CheckFailed /\
  print_date_time (DateAndTime (Date (-44) 3 15 Julian) (Time 24 0 0 0)) = text "J-0044-03-15T24:00:00".
Proof. repeat split; reflexivity. Qed.
