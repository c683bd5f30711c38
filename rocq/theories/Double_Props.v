(** C17–C22: compensated sums and products, truncation of double-double numbers, neighbours and scaling of doubles, distance between doubles. *)
From Coq Require Import ZArith Bool Reals Lra Lia.
From Flocq Require Import Core IEEE754.BinarySingleNaN IEEE754.Binary IEEE754.Bits.
From Verif Require Import Double_Model Double_Proofs DoubleOrder_Proofs DoubleFrac_Proofs DoubleScale_Proofs DoubleNext_Proofs DoubleUlp_Proofs.
Open Scope R_scope.

(** * C17: compensated sums *)
(** Unless something overflows, the value is the sum rounded to nearest and the error is the exact rounding error. *)
Theorem C17_two_sum : forall a b, fin (value (TwoSum a b)) -> fin (error (TwoSum a b)) ->
  real (value (TwoSum a b)) = rounded (real a + real b) /\ real (value (TwoSum a b)) + real (error (TwoSum a b)) = real a + real b.
Proof. exact two_sum_exact. Qed.
Print Assumptions C17_two_sum.
Theorem C17_two_difference : forall a b, fin (value (TwoDifference a b)) -> fin (error (TwoDifference a b)) ->
  real (value (TwoDifference a b)) = rounded (real a - real b) /\
  real (value (TwoDifference a b)) + real (error (TwoDifference a b)) = real a - real b.
Proof. exact two_difference_exact. Qed.
Print Assumptions C17_two_difference.
Theorem C17_two_difference_points : forall a b, fin (value (TwoDifference_points a b)) -> fin (error (TwoDifference_points a b)) ->
  real (value (TwoDifference_points a b)) = rounded (real a - real b) /\
  real (value (TwoDifference_points a b)) + real (error (TwoDifference_points a b)) = real a - real b.
Proof. exact two_difference_points_exact. Qed.
Print Assumptions C17_two_difference_points.
(** Nothing overflows below 2¹⁰¹⁸. *)
Theorem C17_no_overflow : forall a b, fin a -> fin b -> Rabs (real a) <= bpow radix2 1018 -> Rabs (real b) <= bpow radix2 1018 ->
  fin (value (TwoSum a b)) /\ fin (error (TwoSum a b)).
Proof. exact two_sum_no_overflow. Qed.
Print Assumptions C17_no_overflow.
(** The quick variants: for arguments of decreasing magnitude, or whose first one vanishes or is a multiple of the unit in the last place of the
    second one. *)
Theorem C17_quick_two_sum : forall a b, Rabs (real b) <= Rabs (real a) \/ real a = 0 \/ (exists n : Z, real a = IZR n * ulp_of (real b)) ->
  fin (value (QuickTwoSum a b)) -> fin (error (QuickTwoSum a b)) ->
  real (value (QuickTwoSum a b)) = rounded (real a + real b) /\
  real (value (QuickTwoSum a b)) + real (error (QuickTwoSum a b)) = real a + real b.
Proof. exact quick_two_sum_exact. Qed.
Print Assumptions C17_quick_two_sum.
Theorem C17_quick_two_difference : forall a b, Rabs (real b) <= Rabs (real a) \/ real a = 0 \/ (exists n : Z, real a = IZR n * ulp_of (real b)) ->
  fin (value (QuickTwoDifference a b)) -> fin (error (QuickTwoDifference a b)) ->
  real (value (QuickTwoDifference a b)) = rounded (real a - real b) /\
  real (value (QuickTwoDifference a b)) + real (error (QuickTwoDifference a b)) = real a - real b.
Proof. exact quick_two_difference_exact. Qed.
Print Assumptions C17_quick_two_difference.
(** The condition checked in debug mode implies that of the quick variants. *)
Theorem C17_properly_ordered : forall a b, fin a -> fin b -> ProperlyOrdered a b = true ->
  Rabs (real b) <= Rabs (real a) \/ real a = 0 \/ (exists n : Z, real a = IZR n * ulp_of (real b)).
Proof. exact properly_ordered. Qed.
Print Assumptions C17_properly_ordered.
(** 1 + 2⁻⁵³ rounds to 1, the error is 2⁻⁵³; the same with the arguments exchanged; the quick variant agrees only on ordered arguments. *)
Example C17_example :
  bits (value (TwoSum one (of_Z2 1 (-53)))) = bits one /\ bits (error (TwoSum one (of_Z2 1 (-53)))) = bits (of_Z2 1 (-53)) /\
  bits (error (TwoSum (of_Z2 1 (-53)) one)) = bits (of_Z2 1 (-53)) /\ bits (error (QuickTwoSum one (of_Z2 1 (-53)))) = bits (of_Z2 1 (-53)) /\
  bits (error (QuickTwoSum (of_Z2 1 (-54)) (of_Z2 1 0))) = 0%Z /\ ProperlyOrdered (of_Z2 1 (-54)) one = false /\
  ProperlyOrdered (of_Z2 3 (-52)) one = true /\
  bits (error (TwoDifference one (of_Z2 1 (-54)))) = bits (of_Z2 (-1) (-54)) /\
  bits (error (TwoDifference_points one (of_Z2 1 (-54)))) = bits (of_Z2 (-1) (-54)).
Proof. vm_compute. repeat split. Qed.

(** * C18: compensated products *)
Theorem C18_fma : forall a b, fin (error (TwoProduct true a b)) ->
  real (value (TwoProduct true a b)) = rounded (real a * real b) /\
  (real a * real b = 0 \/ bpow radix2 (-969) <= Rabs (real a * real b) ->
   real (value (TwoProduct true a b)) + real (error (TwoProduct true a b)) = real a * real b).
Proof. exact two_product_fma_exact. Qed.
Print Assumptions C18_fma.
(** When the product underflows the error is still small. *)
Theorem C18_dekker : forall a b, fin (error (TwoProduct false a b)) ->
  real (value (TwoProduct false a b)) = rounded (real a * real b) /\
  (real a * real b = 0 \/ bpow radix2 (-969) <= Rabs (real a * real b) ->
   real (value (TwoProduct false a b)) + real (error (TwoProduct false a b)) = real a * real b) /\
  Rabs (real a * real b - (real (value (TwoProduct false a b)) + real (error (TwoProduct false a b)))) <= 7 / 2 * bpow radix2 (-1074).
Proof. exact two_product_dekker_exact. Qed.
Print Assumptions C18_dekker.
(** (1 + 2⁻⁵²)² = 1 + 2⁻⁵¹ + 2⁻¹⁰⁴ *)
Example C18_example : let x := of_Z2 (2 ^ 52 + 1) (-52) in
  bits (error (TwoProduct true x x)) = bits (of_Z2 1 (-104)) /\ bits (error (TwoProduct false x x)) = bits (of_Z2 1 (-104)) /\
  bits (value (TwoProduct false x x)) = bits (of_Z2 (2 ^ 51 + 1) (-51)).
Proof. vm_compute. repeat split. Qed.

(** * C19: truncation *)
(** The truncation is correct when the value is an integer, or when the value and the error have the same sign. *)
Theorem C19_trunc_partial : forall a, normalized a -> is_integer (real (value a)) \/ 0 <= real (value a) * real (error a) ->
  exists n, denoted (Trunc a) = IZR n /\ integer_part n (denoted a).
Proof. exact trunc_integer_part. Qed.
Print Assumptions C19_trunc_partial.
Theorem C19_frac_partial : forall a, normalized a -> is_integer (real (value a)) \/ 0 <= real (value a) * real (error a) ->
  fin (value (Frac a)) -> fin (error (Frac a)) ->
  exists n, integer_part n (denoted a) /\ denoted (Frac a) = denoted a - IZR n.
Proof. exact frac_exact. Qed.
Print Assumptions C19_frac_partial.
(** In all other cases it is off by one. *)
Theorem C19_off_by_one_refuted : forall a, normalized a -> ~ is_integer (real (value a)) -> real (value a) * real (error a) < 0 ->
  exists n, integer_part n (denoted a) /\ denoted (Trunc a) = (if Rlt_dec 0 (real (value a)) then IZR n - 1 else IZR n + 1).
Proof. exact trunc_off_by_one. Qed.
Print Assumptions C19_off_by_one_refuted.
(** The truncation of 3/2 - 2⁻⁶⁰ is 1 - 1 and its fractional part, 3/2 - 2⁻⁶⁰, exceeds 1; that of 1 - 2⁻⁶⁰ is 1 - 1 as it should. *)
Example C19_example : let a := DoublePrecision (of_Z2 3 (-1)) (of_Z2 (-1) (-60)) in
  bits (value (Trunc a)) = bits one /\ bits (error (Trunc a)) = bits (opp one) /\
  bits (value (Frac a)) = bits (of_Z2 3 (-1)) /\ bits (error (Frac a)) = bits (of_Z2 (-1) (-60)) /\
  let b := DoublePrecision one (of_Z2 (-1) (-60)) in
  bits (value (Trunc b)) = bits one /\ bits (error (Trunc b)) = bits (opp one) /\ bits (value (Frac b)) = bits one /\ bits (error (Frac b)) = bits (of_Z2 (-1) (-60)).
Proof. vm_compute. repeat split. Qed.

(** * C20: neighbours *)
Theorem C20_next_up : forall x y, fin x -> fin y -> real x < real y -> fin (NextUp x) /\ real x < real (NextUp x) <= real y.
Proof. exact next_up_least. Qed.
Print Assumptions C20_next_up.
Theorem C20_next_down : forall x y, fin x -> fin y -> real y < real x -> fin (NextDown x) /\ real y <= real (NextDown x) < real x.
Proof. exact next_down_greatest. Qed.
Print Assumptions C20_next_down.
Theorem C20_special : NextUp (opp lowest) = infinity /\ NextUp infinity = infinity /\ bits (NextUp minus_infinity) = bits lowest /\
  NextDown lowest = minus_infinity /\ NextUp (opp denorm_min) = minus_zero /\ bits (NextUp minus_zero) = bits denorm_min /\
  forall x, is_nan 53 1024 x = true -> NextUp x = x.
Proof.
  do 6 (split; [vm_compute; reflexivity|]). intros x H. destruct x; try discriminate H. reflexivity.
Qed.
Print Assumptions C20_special.
(** The exponent of a number. *)
Theorem C20_log_b : forall x, fin x -> real x <> 0 -> bpow radix2 (LogB x) <= Rabs (real x) < bpow radix2 (LogB x + 1).
Proof. exact log_b_exponent. Qed.
Print Assumptions C20_log_b.
Example C20_example : bits (NextUp one) = (bits one + 1)%Z /\ bits (NextDown one) = (bits one - 1)%Z /\ bits (NextUp (opp one)) = (bits (opp one) - 1)%Z /\
  bits (NextUp (opp min)) = (bits (opp min) - 1)%Z /\ LogB (of_Z2 5 (-1074)) = (-1072)%Z.
Proof. vm_compute. repeat split. Qed.

(** * C21: scaling *)
(** The result is the exact one correctly rounded, infinite if it overflows, for nonnegative numbers and for powers that are not too small. *)
Theorem C21_scale_b_partial : forall x N, fin x -> 0 <= real x \/ (-1023 <= N)%Z ->
  (Rabs (rounded (real x * bpow radix2 N)) < bpow radix2 1024 ->
   fin (ScaleB x N) /\ real (ScaleB x N) = rounded (real x * bpow radix2 N) /\ Bsign 53 1024 (ScaleB x N) = Bsign 53 1024 x) /\
  (bpow radix2 1024 <= Rabs (rounded (real x * bpow radix2 N)) -> ScaleB x N = B754_infinity 53 1024 (Bsign 53 1024 x)).
Proof. exact scale_b_correct. Qed.
Print Assumptions C21_scale_b_partial.
Theorem C21_opp_partial : forall x N, fin x -> (-1023 <= N)%Z -> ScaleB (opp x) N = opp (ScaleB x N).
Proof. exact scale_b_opp. Qed.
Print Assumptions C21_opp_partial.
(** Negative numbers vanish when they are scaled by powers below 2⁻¹⁰²³, even though the exact result is representable. *)
Theorem C21_negative_refuted : (forall x N, fin x -> real x < 0 -> (N <= -1024)%Z -> ScaleB x N = minus_zero) /\
  representable (-1 * bpow radix2 (-1030)) /\ bits (ScaleB (opp one) (-1030)) = bits minus_zero /\ bits (ScaleB one (-1030)) = bits (of_Z2 1 (-1030)).
Proof.
  split; [exact scale_b_negative|]. split; [|split; vm_compute; reflexivity].
  replace (-1 * bpow radix2 (-1030)) with (- bpow radix2 (-1030)) by ring. apply representable_opp, representable_pow2. lia.
Qed.
Print Assumptions C21_negative_refuted.
(** 3 2⁻¹⁰⁷⁵ is a tie and rounds to the even 2⁻¹⁰⁷³, with a single rounding from 7 2⁻¹⁰⁷⁶. *)
Example C21_example : bits (ScaleB (of_Z 3) (-1075)) = 2%Z /\ bits (ScaleB (of_Z 7) (-1076)) = 2%Z /\ bits (ScaleB (of_Z 5) (-1076)) = 1%Z /\
  ScaleB one 1024 = infinity /\ bits (ScaleB denorm_min 2097) = bits (of_Z2 1 1023).
Proof. vm_compute. repeat split. Qed.

(** * C22: distance *)
(** The rank of a number is increasing, two numbers have the same rank if they are equal, every integer up to the rank of the infinities is a
    rank, and the distance is the difference between the ranks, saturated. *)
Theorem C22_ranks : (forall x y, number x -> number y -> (lt x y = true <-> (rank x < rank y)%Z) /\ (eq x y = true <-> rank x = rank y)) /\
  (forall n, (- rank infinity <= n <= rank infinity)%Z -> exists x, number x /\ rank x = n) /\
  forall x y, number x -> number y -> ULPDistance x y = Z.min (2 ^ 63 - 1) (Z.abs (rank x - rank y)).
Proof.
  split; [intros x y Nx Ny; split; [apply lt_rank|apply eq_rank]; assumption|]. split; [exact rank_onto|exact ulp_distance_rank].
Qed.
Print Assumptions C22_ranks.
Theorem C22_metric : forall x y z, number x -> number y -> number z ->
  (ULPDistance x y = 0%Z <-> eq x y = true) /\ ULPDistance x y = ULPDistance y x /\ (ULPDistance x z <= ULPDistance x y + ULPDistance y z)%Z.
Proof. exact ulp_distance_metric. Qed.
Print Assumptions C22_metric.
(** The distance is the number of applications of NextUp. *)
Theorem C22_steps : forall n x, (forall k, (k < n)%nat -> fin (Nat.iter k NextUp x)) -> number x ->
  ULPDistance x (Nat.iter n NextUp x) = Z.min (2 ^ 63 - 1) (Z.of_nat n).
Proof. exact ulp_distance_steps. Qed.
Print Assumptions C22_steps.
Example C22_example : ULPDistance (opp denorm_min) denorm_min = 2%Z /\ ULPDistance zero minus_zero = 0%Z /\ ULPDistance one radix = (2 ^ 52)%Z /\
  ULPDistance minus_infinity infinity = (2 ^ 63 - 1)%Z /\ ULPDistance zero infinity = (2047 * 2 ^ 52)%Z /\ ULPDistance minus_zero denorm_min = 1%Z.
Proof. vm_compute. repeat split. Qed.
