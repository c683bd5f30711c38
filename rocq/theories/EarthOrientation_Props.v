From Coq Require Import ZArith Bool List QArith Qabs Lia Lqa.
From Verif Require Import Date_Model DateText_Model TimeScales_Model EarthOrientation_Tables EarthOrientation_Model EarthOrientation_Proofs EarthOrientation_Check
  EarthOrientation_Facts.
Import ListNotations.
Open Scope Q_scope.

(** C33: on any sorted table whose first entry is not after the argument, the lookups find the last entry not after the argument; otherwise
    they fail their check. *)
Theorem C33_lookup_c02 : forall table t, sorted (map c02_ut1_mjd table) ->
  (forall u, nth_error (map c02_ut1_mjd table) 0 = Some u -> u <= mjd_of_time t ->
     exists i, LookupInExperimentalEOPC02 table t = Value i /\ last_not_after (map c02_ut1_mjd table) (mjd_of_time t) i) /\
  ((forall u, nth_error (map c02_ut1_mjd table) 0 = Some u -> mjd_of_time t < u) -> LookupInExperimentalEOPC02 table t = Failed).
Proof. exact lookup_c02_ok. Qed.
Print Assumptions C33_lookup_c02.
Theorem C33_lookup_ut1 : forall table times t, have_times c04_ut1 table times -> sorted times ->
  (forall u, nth_error times 0 = Some u -> u <= t -> exists i, LookupUT1InEOPC04 table t = Value i /\ last_not_after times t i) /\
  ((forall u, nth_error times 0 = Some u -> t < u) -> LookupUT1InEOPC04 table t = Failed).
Proof. exact lookup_ut1_ok. Qed.
Print Assumptions C33_lookup_ut1.
Theorem C33_lookup_tt : forall table times t, have_times c04_tt table times -> sorted times ->
  (forall u, nth_error times 0 = Some u -> u <= t -> exists i, LookupTTInEOPC04 table t = Value i /\ last_not_after times t i) /\
  ((forall u, nth_error times 0 = Some u -> t < u) -> LookupTTInEOPC04 table t = Failed).
Proof. exact lookup_tt_ok. Qed.
Print Assumptions C33_lookup_tt.
(** C33: on any table, sorted or not, they do not read out of bounds. *)
Theorem C33_in_bounds : forall c02 c04 t,
  LookupInExperimentalEOPC02 c02 t <> OutOfBounds /\ LookupUT1InEOPC04 c04 t <> OutOfBounds /\ LookupTTInEOPC04 c04 t <> OutOfBounds.
Proof. exact lookups_in_bounds. Qed.
Print Assumptions C33_in_bounds.
Example C33_example : LookupInExperimentalEOPC02 (map (fun z => C02Entry (inject_Z z) 0) [51540; 51541; 51541; 51545; 51550]%Z) 0 = Value 2%nat /\
  LookupInExperimentalEOPC02 (map (fun z => C02Entry (inject_Z z) 0) [51545; 51550]%Z) 0 = Failed.
Proof. split; vm_compute; reflexivity. Qed.

(** C57: from 1830 to 2022-06-07, TT is defined as a function of UT1, without reading out of the tables. *)
Theorem C57_defined : forall u, first_c02 <= u < back_c04 -> exists q, FromUT1 experimental_eop_c02 eop_c04 u = Value q.
Proof. exact defined. Qed.
Print Assumptions C57_defined.
(** C57: TT - UT1 is continuous, and varies by at most 10⁻⁷ s per second: the steps of UTC are properly removed, and there is no jump
    between the two series. *)
Theorem C57_rate : forall a b qa qb, first_c02 <= a -> a <= b -> b < back_c04 ->
  FromUT1 experimental_eop_c02 eop_c04 a = Value qa -> FromUT1 experimental_eop_c02 eop_c04 b = Value qb ->
  Qabs ((qb - qa) - (b - a)) <= (1 # 10000000) * (b - a).
Proof. exact slow. Qed.
Print Assumptions C57_rate.
(** C57: at each entry of EOP C04, the UT1 obtained from UTC and the tabulated UT1 - UTC corresponds to the same TT as UTC. *)
Theorem C57_at_entries : forall i e, (i + 1 < length eop_c04)%nat -> nth_error eop_c04 i = Some e ->
  exists utc u q t, c04_utc e = Value utc /\ c04_ut1 e = Value u /\ u == TimeSince20000101T120000Z utc + c04_ut1_minus_utc e /\
    FromUT1 experimental_eop_c02 eop_c04 u = Value q /\ DateTimeAsUTC utc = Some t /\ q == t.
Proof. exact at_entries. Qed.
Print Assumptions C57_at_entries.
(** C57: the UT1 Julian day from which the Earth rotation angle is computed is that of the UT1 which corresponds to TT. *)
Theorem C57_inverse : forall u q, front_c04 <= u < back_c04 -> FromUT1 experimental_eop_c02 eop_c04 u = Value q ->
  exists j f, UT1JulianDay eop_c04 q = Value (j, f) /\ (inject_Z j + f) * inject_Z 86400 == u /\ Qabs f <= (1 # 2) + (1 # 86400).
Proof. exact round_trip. Qed.
Print Assumptions C57_inverse.
(** C57: for date-times, what is out of the range of the tables is detected. *)
Theorem C57_range_checked : forall x, is_leap_second (time_of x) = false ->
  if Qle_bool first_c02 (TimeSince20000101T120000Z x) && negb (Qle_bool back_c04 (TimeSince20000101T120000Z x))
  then exists q, DateTimeAsUT1 experimental_eop_c02 eop_c04 x = Value q else DateTimeAsUT1 experimental_eop_c02 eop_c04 x = Failed.
Proof. exact checked. Qed.
Print Assumptions C57_range_checked.
(** C57: the Earth rotation angle is not computed before the beginning of EOP C04, 1962-01-01T00:00:00 UTC, when TT - UTC was 34.029858 s. *)
Theorem C57_rotation_before : forall tt, tt < inject_Z (-1199188800) + (34029858 # 1000000) -> EarthRotationAngle eop_c04 tt = Failed.
Proof. intros tt H. apply before_eop. eapply Qlt_le_trans; [exact H|]. unfold front_tt. vm_compute. discriminate. Qed.
Print Assumptions C57_rotation_before.
(** C57, refuted: for Julian dates and for the Earth rotation angle, it is not; an entry past the end of the table is read, e.g., for
    "JD2460000.0"_UT1, which is 730512000 s after J2000. *)
Theorem C57_past_the_end_refuted : forall u tt, back_c04 <= u -> back_tt <= tt ->
  FromUT1 experimental_eop_c02 eop_c04 u = OutOfBounds /\ EarthRotationAngle eop_c04 tt = OutOfBounds.
Proof. exact beyond. Qed.
Print Assumptions C57_past_the_end_refuted.
Example C57_past_the_end_example : back_c04 <= inject_Z ((2460000 - 2451545) * 86400).
Proof. unfold back_c04. vm_compute. discriminate. Qed.
(** 2000-01-01T12:00:00 UT1 is 63.83 s before 12:00:00 TT. *)
Example C57_example : exists q, FromUT1 experimental_eop_c02 eop_c04 0 = Value q /\ Qle_bool (6382 # 100) q && Qle_bool q (6384 # 100) = true.
Proof. eexists. split; vm_compute; reflexivity. Qed.
