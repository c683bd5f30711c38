(** Model of double precision arithmetic on IEEE binary64 numbers, those of Flocq, rounded to nearest: numerics/double_precision_body.hpp,
    numerics/next_body.hpp, numerics/scale_b_body.hpp, numerics/log_b_body.hpp and numerics/ulp_distance_body.hpp.  Infinities, NaNs, signed
    zeroes, subnormal numbers and overflow are as in IEEE 754. *)
From Coq Require Import ZArith Bool Floats.SpecFloat Reals.
From Flocq Require Import IEEE754.BinarySingleNaN IEEE754.Binary IEEE754.Bits.
Open Scope Z_scope.

Definition double := binary64.
Definition add : double -> double -> double := b64_plus mode_NE.
Definition sub : double -> double -> double := b64_minus mode_NE.
Definition mul : double -> double -> double := b64_mult mode_NE.
Definition div : double -> double -> double := b64_div mode_NE.
Definition fma : double -> double -> double -> double := b64_fma mode_NE.
Definition opp : double -> double := b64_opp.
Definition floor (x : double) : double := Bnearbyint 53 1024 (refl_equal _) unop_nan_pl64 mode_DN x.
Definition ceil (x : double) : double := Bnearbyint 53 1024 (refl_equal _) unop_nan_pl64 mode_UP x.
(** The comparisons of C++: false for NaNs, except [ne]. *)
Definition lt (x y : double) : bool := match b64_compare x y with Some Lt => true | _ => false end.
Definition le (x y : double) : bool := match b64_compare x y with Some Lt | Some Eq => true | _ => false end.
Definition eq (x y : double) : bool := match b64_compare x y with Some Eq => true | _ => false end.
Definition finite (x : double) : bool := is_finite 53 1024 x.
(** The double nearest to m 2ᵉ. *)
Definition of_Z2 (m e : Z) : double := binary_normalize 53 1024 (refl_equal _) (refl_equal _) mode_NE m e false.
Definition of_Z (m : Z) : double := of_Z2 m 0.
Definition zero : double := B754_zero 53 1024 false.
Definition minus_zero : double := B754_zero 53 1024 true.
Definition infinity : double := B754_infinity 53 1024 false.
Definition minus_infinity : double := B754_infinity 53 1024 true.
Definition one : double := of_Z 1.
(** std::numeric_limits<double>: radix, min, denorm_min, lowest, epsilon. *)
Definition radix : double := of_Z 2.
Definition min : double := of_Z2 1 (-1022).
Definition denorm_min : double := of_Z2 1 (-1074).
Definition lowest : double := of_Z2 (- (2 ^ 53 - 1)) 971.
Definition epsilon : double := of_Z2 1 (-52).

Record double_precision := DoublePrecision { value : double; error : double }.
(** numerics/double_precision_body.hpp:297-316; [C] is (1 << s) + 1. *)
Definition VeltkampSplitting (s : Z) (x : double) : double * double :=
  let C := of_Z (2 ^ s + 1) in
  let gamma := mul C x in
  let delta := sub x gamma in
  let xh := add gamma delta in
  let xl := sub x xh in
  (xh, xl).
(** numerics/double_precision_body.hpp:318-347 *)
Definition VeltkampDekkerProduct (a b : double) : double_precision :=
  let x := a in
  let y := b in
  let t := 53 in
  let s := t - t / 2 in
  let '(hx, tx) := VeltkampSplitting s x in
  let '(hy, ty) := VeltkampSplitting s y in
  let z := mul x y in
  let zz := add (add (add (sub (mul hx hy) z) (mul hx ty)) (mul tx hy)) (mul tx ty) in
  DoublePrecision z zz.
(** numerics/elementary_functions_body.hpp:90-98, numerics/fma_body.hpp; a * b - c with a single rounding. *)
Definition FusedMultiplySubtract (a b c : double) : double := fma a b (opp c).
(** numerics/double_precision_body.hpp:349-362 *)
Definition TwoProduct (use_hardware_fma : bool) (a b : double) : double_precision :=
  if use_hardware_fma then
    let value := mul a b in
    DoublePrecision value (FusedMultiplySubtract a b value)
  else VeltkampDekkerProduct a b.
(** numerics/double_precision_body.hpp:373-379 *)
Definition QuickTwoSum (a b : double) : double_precision :=
  let s := add a b in
  let e := sub b (sub s a) in
  DoublePrecision s e.
(** numerics/double_precision_body.hpp:391-397 *)
Definition QuickTwoDifference (a b : double) : double_precision :=
  let s := sub a b in
  let e := sub (sub a s) b in
  DoublePrecision s e.
(** numerics/double_precision_body.hpp:400-410 *)
Definition TwoSum (a b : double) : double_precision :=
  let s := add a b in
  let v := sub s a in
  let e := add (sub a (sub s v)) (sub b v) in
  DoublePrecision s e.
(** numerics/double_precision_body.hpp:412-430; between points: the coordinates. *)
Definition TwoDifference_points (a b : double) : double_precision :=
  let s := sub a b in
  let w := sub a s in
  let e := add (sub a (add s w)) (sub w b) in
  DoublePrecision s e.
(** numerics/double_precision_body.hpp:432-444 *)
Definition TwoDifference (a b : double) : double_precision :=
  let s := sub a b in
  let v := sub s a in
  let e := sub (sub a (sub s v)) (add b v) in
  DoublePrecision s e.
(** numerics/double_precision_body.hpp:47-59; the bounds of the interval.  [frexp] yields a mantissa in [1/2, 1[ and an exponent, even for a
    subnormal number; the function is not called on 0, infinities and NaNs have no interval. *)
Definition trailing_zeroes (m : positive) : Z := (fix go (m : positive) : Z := match m with xO m => 1 + go m | _ => 0 end) m.
Definition ExponentInterval (x : double) : option (Z * Z) :=
  match x with
  | B754_finite _ _ _ m e _ =>
      let exponent := e + Zpos (digits2_pos m) in
      let integer_mantissa := Z.to_pos (Zpos m * 2 ^ (53 - Zpos (digits2_pos m))) in
      Some (exponent - 53, exponent - 53 + trailing_zeroes integer_mantissa)
  | _ => None
  end.
(** numerics/double_precision_body.hpp:125-143, for finite arguments. *)
Definition ProperlyOrdered (biggish smallish : double) : bool :=
  if eq biggish zero || eq smallish zero then true
  else match ExponentInterval biggish, ExponentInterval smallish with
       | Some (_, biggish_max), Some (smallish_min, _) => smallish_min <=? biggish_max
       | _, _ => true
       end.
(** numerics/double_precision_body.hpp:281-290 *)
Definition Trunc (a : double_precision) : double_precision :=
  DoublePrecision (if lt zero (value a) then floor (value a) else ceil (value a))
                  (if lt zero (value a) then floor (error a) else ceil (error a)).
(** numerics/double_precision_body.hpp:481-491 *)
Definition plus (left right : double_precision) : double_precision :=
  let s := TwoSum (value left) (value right) in
  let t := TwoSum (error left) (error right) in
  let c := add (error s) (value t) in
  let v := QuickTwoSum (value s) c in
  let w := add (error t) (error v) in
  QuickTwoSum (value v) w.
(** numerics/double_precision_body.hpp:511-521 *)
Definition minus (left right : double_precision) : double_precision :=
  let s := TwoDifference (value left) (value right) in
  let t := TwoDifference (error left) (error right) in
  let c := add (error s) (value t) in
  let v := QuickTwoSum (value s) c in
  let w := add (error t) (error v) in
  QuickTwoSum (value v) w.
(** numerics/double_precision_body.hpp:292-295 *)
Definition Frac (a : double_precision) : double_precision := minus a (Trunc a).

(** numerics/scale_b_body.hpp:21-23: the power of the radix; [n] is k - N. *)
Fixpoint radix_power (n : nat) (power : double) : double := match n with O => power | S n => radix_power n (mul power radix) end.
(** numerics/scale_b_body.hpp:17-27; [n] is k - N. *)
Fixpoint scale_down (n : nat) (result : double) : double :=
  match n with
  | O => result
  | S m => if lt result (mul radix min) then div result (radix_power n one) else scale_down m (div result radix)
  end.
(** numerics/scale_b_body.hpp:29-31 *)
Fixpoint scale_up (n : nat) (result : double) : double := match n with O => result | S n => scale_up n (mul result radix) end.
(** numerics/scale_b_body.hpp:13-34 *)
Definition ScaleB (x : double) (N : Z) : double := if N <? 0 then scale_down (Z.to_nat (- N)) x else scale_up (Z.to_nat N) x.
(** numerics/log_b_body.hpp:28-31; at most 1074 iterations are needed, the fuel suffices; the result is an integer. *)
Fixpoint log_up (fuel : nat) (scaled : double) (result : Z) : double * Z :=
  match fuel with
  | O => (scaled, result)
  | S fuel => if lt scaled one then log_up fuel (mul scaled radix) (result - 1) else (scaled, result)
  end.
(** numerics/log_b_body.hpp:32-35 *)
Fixpoint log_down (fuel : nat) (scaled : double) (result : Z) : Z :=
  match fuel with
  | O => result
  | S fuel => if le radix scaled then log_down fuel (div scaled radix) (result + 1) else result
  end.
(** numerics/log_b_body.hpp:13-37, for a finite nonzero argument; the integer is exactly represented by a double. *)
Definition LogB (x : double) : Z :=
  let abs_x := if lt zero x then x else sub zero x in
  let '(scaled, result) := log_up 1100 abs_x 0 in
  log_down 1100 scaled result.
(** numerics/next_body.hpp:18-58 *)
Definition NextUp (x : double) : double :=
  if eq x (opp denorm_min) then minus_zero
  else if eq x zero then denorm_min
  else if eq x infinity then infinity
  else if eq x minus_infinity then lowest
  else if negb (eq x x) then x
  else if le (opp min) x && lt x min then add x denorm_min
  else
    let ulp := ScaleB epsilon (LogB x) in
    let signed_significand := ScaleB x (- LogB x) in
    if eq signed_significand (opp one) then add x (div ulp radix) else add x ulp.
(** numerics/next_body.hpp:60-63 *)
Definition NextDown (x : double) : double := opp (NextUp (opp x)).

(** std::memcpy to an std::int64_t. *)
Definition bits (x : double) : Z := let b := bits_of_b64 x in if 2 ^ 63 <=? b then b - 2 ^ 64 else b.
Definition int64_max : Z := 2 ^ 63 - 1.
(** numerics/ulp_distance_body.hpp:33-41 *)
Definition ULPDistance_same_sign (x y : double) : Z := if eq x y then 0 else Z.abs (bits x - bits y).
(** numerics/ulp_distance_body.hpp:15-42; [copysign] also applies to the sign bit of zeroes. *)
Definition ULPDistance (x y : double) : Z :=
  if eq x y then 0
  else if negb (Bool.eqb (Bsign 53 1024 x) (Bsign 53 1024 y)) then
    let positive := if Bsign 53 1024 x then y else x in
    let negative := if Bsign 53 1024 x then x else y in
    let positive_distance := ULPDistance_same_sign positive zero in
    let negative_distance := ULPDistance_same_sign negative minus_zero in
    if int64_max - negative_distance <? positive_distance then int64_max else positive_distance + negative_distance
  else Z.abs (bits x - bits y).
