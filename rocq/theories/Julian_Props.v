From Coq Require Import ZArith Bool List Ascii String QArith Lia.
From Verif Require Import Date_Model DateText_Model DateText_Proofs Julian_Proofs.
Import ListNotations.
Open Scope Z_scope.
Definition text (s : string) : list ascii := list_ascii_of_string s.

(** ** C56 *)
(** "JD" or "MJD" and a decimal number of at most 18 digits denotes that time, exactly. *)
Theorem C56_accepted e n t q : decimal n t q -> (n <= 18)%nat ->
  exists j, ParseJulian (era_text e ++ t) = Ok j /\ (days_since_J2000 j == q - J2000 e)%Q /\ 0 <= fraction_numerator j < fraction_denominator j.
Proof. exact (julian_complete e n t q). Qed.
Print Assumptions C56_accepted.
(** Nothing else is accepted; whatever is accepted has the right value. *)
Theorem C56_only s j : ParseJulian s = Ok j -> exists e n t q, s = era_text e ++ t /\ decimal n t q /\
  (days_since_J2000 j == q - J2000 e)%Q /\ 0 <= fraction_numerator j < fraction_denominator j.
Proof. exact (julian_sound s j). Qed.
Print Assumptions C56_only.
(** A number without digits is accepted. *)
Theorem C56_no_digits_refuted : ParseJulian (text "JD") = Ok (MakeJulianDate (-2451545) 0 1) /\
  ParseJulian (text "JD.") = Ok (MakeJulianDate (-2451545) 0 1) /\ ParseJulian (text "MJD") = Ok (MakeJulianDate (-51545) 5 10).
Proof. repeat split; reflexivity. Qed.
Print Assumptions C56_no_digits_refuted.
(** The check on the number of digits lets leading zeroes through, and the denominator of the fraction overflows, which is
    undefined behaviour. *)
Theorem C56_overflow_refuted : ParseJulian (text "JD0.0000000000000000001") = Overflow /\
  ParseJulian (text "JD0.000000000000000001") = Ok (MakeJulianDate (-2451545) 1 1000000000000000000) /\
  ParseJulian (text "JD2451545.0000000000000") = CheckFailed.
Proof. repeat split; reflexivity. Qed.
Print Assumptions C56_overflow_refuted.
Example C56_texts : ParseJulian (text "JD2451545.25") = Ok (MakeJulianDate 0 25 100) /\
  ParseJulian (text "MJD51544.5") = Ok (MakeJulianDate 0 0 10) /\ ParseJulian (text "MJD51544.4") = Ok (MakeJulianDate (-1) 9 10).
Proof. repeat split; reflexivity. Qed.
