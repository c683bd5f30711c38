(** Model of physics/kepler_orbit.hpp and kepler_orbit_body.hpp: the completion of the Keplerian elements, the orbits
    constructed from elements and from state vectors, and the state vectors of an orbit.
    Arithmetic is exact, in SI units with angles in radians.  A value computed by the code is a real number or is not
    finite; NaNs and infinities are not distinguished: an operation with an operand that is not finite, a division by
    zero, and a function called out of its domain yield a value that is not finite.  The frame is not represented. *)
From Coq Require Import Reals List Bool.
From Verif Require Import Geometry_Model RotatingBody_Model.
Import ListNotations.
Open Scope R_scope.

(** * Values *)
Inductive Num := Fin (x : R) | NotFinite.
Definition lift1 (f : R -> Num) (x : Num) : Num := match x with Fin x => f x | NotFinite => NotFinite end.
Definition lift2 (f : R -> R -> Num) (x y : Num) : Num :=
  match x, y with Fin x, Fin y => f x y | _, _ => NotFinite end.
Definition nadd := lift2 (fun x y => Fin (x + y)).
Definition nsub := lift2 (fun x y => Fin (x - y)).
Definition nmul := lift2 (fun x y => Fin (x * y)).
Definition ndiv := lift2 (fun x y => if Req_EM_T y 0 then NotFinite else Fin (x / y)).
Definition nopp := lift1 (fun x => Fin (- x)).
(** [Pow<n>] *)
Definition npow (n : nat) := lift1 (fun x => Fin (x ^ n)).
Definition nabs := lift1 (fun x => Fin (Rabs x)).
Definition nsqrt := lift1 (fun x => if Rlt_dec x 0 then NotFinite else Fin (sqrt x)).
(** The real cubic root. *)
Definition cbrt (x : R) : R :=
  if Rlt_dec 0 x then Rpower x (/ 3) else if Rlt_dec x 0 then - Rpower (- x) (/ 3) else 0.
Definition ncbrt := lift1 (fun x => Fin (cbrt x)).
Definition nsin := lift1 (fun x => Fin (sin x)).
Definition ncos := lift1 (fun x => Fin (cos x)).
Definition in_unit (x : R) : bool := if Rle_dec (Rabs x) 1 then true else false.
Definition narcsin := lift1 (fun x => if in_unit x then Fin (asin x) else NotFinite).
Definition narccos := lift1 (fun x => if in_unit x then Fin (acos x) else NotFinite).
Definition narctan := lift2 (fun y x => Fin (ArcTan2 y x)).
Definition nsinh := lift1 (fun x => Fin (sinh x)).
Definition arccosh (x : R) : R := ln (x + sqrt (x * x - 1)).
Definition narccosh := lift1 (fun x => if Rlt_dec x 1 then NotFinite else Fin (arccosh x)).
(** A comparison with a value that is not finite is taken to be false. *)
Definition ngt (x : Num) (y : R) : bool := match x with Fin x => if Rlt_dec y x then true else false | NotFinite => false end.
(** geometry/sign_body.hpp:19-25, with a single zero: [Sign(x) * y]. *)
Definition nsign := lift2 (fun x y => Fin (if Rlt_dec x 0 then - y else y)).

Declare Scope num_scope.
Delimit Scope num_scope with num.
Infix "+" := nadd : num_scope.
Infix "-" := nsub : num_scope.
Infix "*" := nmul : num_scope.
Infix "/" := ndiv : num_scope.
Notation "- x" := (nopp x) : num_scope.

(** * KeplerianElements (physics/kepler_orbit.hpp:28-86) *)
Inductive Field :=
  | eccentricity | asymptotic_true_anomaly | turning_angle
  | semimajor_axis | specific_energy | characteristic_energy | mean_motion | period
  | hyperbolic_mean_motion | hyperbolic_excess_velocity
  | semiminor_axis | impact_parameter
  | semilatus_rectum | specific_angular_momentum
  | periapsis_distance
  | apoapsis_distance
  | argument_of_periapsis | longitude_of_periapsis
  | true_anomaly | mean_anomaly | hyperbolic_mean_anomaly.
Definition field_eqb (f g : Field) : bool :=
  match f, g with
  | eccentricity, eccentricity | asymptotic_true_anomaly, asymptotic_true_anomaly | turning_angle, turning_angle
  | semimajor_axis, semimajor_axis | specific_energy, specific_energy
  | characteristic_energy, characteristic_energy | mean_motion, mean_motion | period, period
  | hyperbolic_mean_motion, hyperbolic_mean_motion | hyperbolic_excess_velocity, hyperbolic_excess_velocity
  | semiminor_axis, semiminor_axis | impact_parameter, impact_parameter | semilatus_rectum, semilatus_rectum
  | specific_angular_momentum, specific_angular_momentum | periapsis_distance, periapsis_distance
  | apoapsis_distance, apoapsis_distance | argument_of_periapsis, argument_of_periapsis
  | longitude_of_periapsis, longitude_of_periapsis | true_anomaly, true_anomaly | mean_anomaly, mean_anomaly
  | hyperbolic_mean_anomaly, hyperbolic_mean_anomaly => true
  | _, _ => false
  end.
(** The [optional]s. *)
Definition Fields := Field -> option Num.
Definition set (f : Field) (x : Num) (c : Fields) : Fields := fun g => if field_eqb g f then Some x else c g.
Definition reset (f : Field) (c : Fields) : Fields := fun g => if field_eqb g f then None else c g.
(** Assignments, in order. *)
Definition sets (l : list (Field * Num)) (c : Fields) : Fields := fold_left (fun c fx => set (fst fx) (snd fx) c) l c.
Record KeplerianElements := mkElements {
  fields : Fields;
  inclination : R;
  longitude_of_ascending_node : R }.

Definition has_value (c : Fields) (f : Field) : nat := match c f with Some _ => 1%nat | None => 0%nat end.
Definition specifications (c : Fields) (l : list Field) : nat := fold_left (fun n f => (n + has_value c f)%nat) l 0%nat.
(** physics/kepler_orbit_body.hpp:281-294. *)
Definition eccentricity_category := [eccentricity; asymptotic_true_anomaly; turning_angle].
Definition semimajor_axis_category :=
  [semimajor_axis; specific_energy; characteristic_energy; mean_motion; period; hyperbolic_mean_motion;
   hyperbolic_excess_velocity].
Definition semiminor_axis_category := [semiminor_axis; impact_parameter].
Definition semilatus_rectum_category := [semilatus_rectum; specific_angular_momentum].
(** Lines 295-305: the CHECKs; those of lines 306-307 cannot fail. *)
Definition one_or_all (c : Fields) (l : list Field) : bool :=
  Nat.leb (specifications c l) 1 || Nat.eqb (specifications c l) (length l).
Definition must_complete (c : Fields) (l : list Field) : bool := Nat.eqb (specifications c l) 1.

Local Open Scope num_scope.
(** [if (f) ... else if ...] *)
Definition with_value (c : Fields) (f : Field) (k : Num -> Fields) (otherwise : Fields) : Fields :=
  match c f with Some x => k x | None => otherwise end.

(** Lines 314-328. *)
Definition complete_eccentricity (c : Fields) : Fields :=
  if must_complete c eccentricity_category then
    with_value c eccentricity (fun e =>
      sets [(turning_angle, Fin 2 * narcsin (Fin 1 / e));
            (asymptotic_true_anomaly, narccos (- Fin 1 / e))] c)
    (with_value c turning_angle (fun d =>
      sets [(eccentricity, Fin 1 / nsin (d / Fin 2));
            (asymptotic_true_anomaly, (d + Fin PI) / Fin 2)] c)
    (with_value c asymptotic_true_anomaly (fun nu_inf =>
      sets [(eccentricity, - Fin 1 / ncos nu_inf);
            (turning_angle, Fin 2 * nu_inf - Fin PI)] c) c))
  else c.
(** Lines 332-390. *)
Definition complete_semimajor_axis (mu : Num) (c : Fields) : Fields :=
  if must_complete c semimajor_axis_category then
    with_value c semimajor_axis (fun a =>
      sets [(specific_energy, - mu / (Fin 2 * a));
            (characteristic_energy, - mu / a);
            (mean_motion, nsqrt (mu / npow 3 a));
            (period, Fin 2 * Fin PI * nsqrt (npow 3 a / mu));
            (hyperbolic_mean_motion, nsqrt (mu / npow 3 (- a)));
            (hyperbolic_excess_velocity, nsqrt (- mu / a))] c)
    (with_value c specific_energy (fun eps =>
      sets [(semimajor_axis, - mu / (Fin 2 * eps));
            (characteristic_energy, Fin 2 * eps);
            (mean_motion, Fin 2 * nsqrt (- Fin 2 * npow 3 eps / npow 2 mu));
            (period, Fin PI * nsqrt (- npow 2 mu / (Fin 2 * npow 3 eps)));
            (hyperbolic_mean_motion, Fin 2 * nsqrt (Fin 2 * npow 3 eps / npow 2 mu));
            (hyperbolic_excess_velocity, nsqrt (Fin 2 * eps))] c)
    (with_value c characteristic_energy (fun c3 =>
      sets [(semimajor_axis, - mu / c3);
            (specific_energy, c3 / Fin 2);
            (mean_motion, nsqrt (- npow 3 c3 / npow 2 mu));
            (period, Fin 2 * Fin PI * nsqrt (- npow 2 mu / npow 3 c3));
            (hyperbolic_mean_motion, nsqrt (npow 3 c3 / npow 2 mu));
            (hyperbolic_excess_velocity, nsqrt c3)] c)
    (with_value c mean_motion (fun n =>
      sets [(semimajor_axis, ncbrt (mu / npow 2 n));
            (specific_energy, - npow 2 (ncbrt (mu * n)) / Fin 2);
            (characteristic_energy, - npow 2 (ncbrt (mu * n)));
            (period, Fin 2 * Fin PI / n);
            (hyperbolic_mean_motion, nsqrt (- npow 2 n));
            (hyperbolic_excess_velocity, nsqrt (- npow 2 (ncbrt (mu * n))))] c)
    (with_value c period (fun T =>
      sets [(semimajor_axis, ncbrt (mu * npow 2 (T / (Fin 2 * Fin PI))));
            (specific_energy, - ncbrt (npow 2 (Fin PI * mu / T) / Fin 2));
            (characteristic_energy, - ncbrt (npow 2 (Fin 2 * Fin PI * mu / T)));
            (mean_motion, Fin 2 * Fin PI / T);
            (hyperbolic_mean_motion, Fin 2 * Fin PI * nsqrt (- Fin 1 / npow 2 T));
            (hyperbolic_excess_velocity, ncbrt (Fin 2 * Fin PI * nsqrt (- npow 2 (mu / T))))] c)
    (with_value c hyperbolic_mean_motion (fun n_over_i =>
      sets [(semimajor_axis, - ncbrt (mu / npow 2 n_over_i));
            (specific_energy, npow 2 (ncbrt (mu * n_over_i)) / Fin 2);
            (characteristic_energy, npow 2 (ncbrt (mu * n_over_i)));
            (period, Fin 2 * Fin PI / nsqrt (- npow 2 n_over_i));
            (mean_motion, nsqrt (- npow 2 n_over_i));
            (hyperbolic_excess_velocity, nsqrt (npow 2 (ncbrt (mu * n_over_i))))] c)
    (with_value c hyperbolic_excess_velocity (fun v_inf =>
      sets [(semimajor_axis, - mu / npow 2 v_inf);
            (specific_energy, npow 2 v_inf / Fin 2);
            (characteristic_energy, npow 2 v_inf);
            (period, Fin 2 * Fin PI * nsqrt (- npow 2 mu / npow 6 v_inf));
            (mean_motion, nsqrt (- npow 6 v_inf / npow 2 mu));
            (hyperbolic_mean_motion, nsqrt (npow 6 v_inf / npow 2 mu))] c) c))))))
  else c.
(** Lines 391-397. *)
Definition complete_semiminor_axis (c : Fields) : Fields :=
  if must_complete c semiminor_axis_category then
    with_value c semiminor_axis (fun b => set impact_parameter (nsqrt (- npow 2 b)) c)
    (with_value c impact_parameter (fun b => set semiminor_axis (nsqrt (- npow 2 b)) c) c)
  else c.
(** Lines 398-405. *)
Definition complete_semilatus_rectum (mu : Num) (c : Fields) : Fields :=
  if must_complete c semilatus_rectum_category then
    with_value c semilatus_rectum (fun l => set specific_angular_momentum (nsqrt (mu * l)) c)
    (with_value c specific_angular_momentum (fun h => set semilatus_rectum (npow 2 h / mu) c) c)
  else c.
(** Lines 262-406; [None] is the failure of a CHECK. *)
Definition CompleteConicParametersByCategory (mu : R) (c : Fields) : option Fields :=
  if one_or_all c eccentricity_category && one_or_all c semimajor_axis_category
     && one_or_all c semiminor_axis_category && one_or_all c semilatus_rectum_category then
    Some (complete_semilatus_rectum (Fin mu) (complete_semiminor_axis
            (complete_semimajor_axis (Fin mu) (complete_eccentricity c))))
  else None.

(** [if (f && g) ... else if ...] *)
Definition with_values (c : Fields) (f g : Field) (k : Num -> Num -> Fields) (otherwise : Fields) : Fields :=
  match c f, c g with Some x, Some y => k x y | _, _ => otherwise end.
(** Lines 470-472, 504-506, 514-516, 523-525: [*semiminor_axis != *semiminor_axis] is true for a NaN; the
    dereferenced [impact_parameter] has been filled with the semiminor axis by the call at line 420. *)
Definition b_squared (c : Fields) (b : Num) : Num :=
  match b with
  | Fin _ => npow 2 b
  | NotFinite => - npow 2 (match c impact_parameter with Some p => p | None => NotFinite end)
  end.
(** Lines 429-556. *)
Definition complete_from_two (c : Fields) : Fields :=
  with_values c eccentricity semimajor_axis (fun e a =>
    sets [(semiminor_axis, a * nsqrt (Fin 1 - npow 2 e));
          (impact_parameter, - a * nsqrt (npow 2 e - Fin 1));
          (semilatus_rectum, a * (Fin 1 - npow 2 e));
          (periapsis_distance, a * (Fin 1 - e));
          (apoapsis_distance, a * (Fin 1 + e))] c)
  (with_values c eccentricity semiminor_axis (fun e b =>
    let abs_b := if ngt e 1 then match c impact_parameter with Some p => p | None => NotFinite end else b in
    let l := abs_b * nsqrt (nabs (Fin 1 - npow 2 e)) in
    let a := l / (Fin 1 - npow 2 e) in
    sets [(semilatus_rectum, l);
          (semimajor_axis, a);
          (periapsis_distance, a * (Fin 1 - e));
          (apoapsis_distance, a * (Fin 1 + e))] c)
  (with_values c eccentricity semilatus_rectum (fun e l =>
    let a := l / (Fin 1 - npow 2 e) in
    sets [(semimajor_axis, a);
          (semiminor_axis, a * nsqrt (Fin 1 - npow 2 e));
          (impact_parameter, - a * nsqrt (npow 2 e - Fin 1));
          (periapsis_distance, l / (Fin 1 + e));
          (apoapsis_distance, l / (Fin 1 - e))] c)
  (with_values c eccentricity periapsis_distance (fun e r_pe =>
    let a := r_pe / (Fin 1 - e) in
    sets [(semimajor_axis, a);
          (semiminor_axis, a * nsqrt (Fin 1 - npow 2 e));
          (impact_parameter, - a * nsqrt (npow 2 e - Fin 1));
          (semilatus_rectum, r_pe * (Fin 1 + e));
          (apoapsis_distance, a * (Fin 1 + e))] c)
  (with_values c eccentricity apoapsis_distance (fun e r_ap =>
    let a := r_ap / (Fin 1 + e) in
    sets [(semimajor_axis, a);
          (semiminor_axis, a * nsqrt (Fin 1 - npow 2 e));
          (impact_parameter, - a * nsqrt (npow 2 e - Fin 1));
          (semilatus_rectum, r_ap * (Fin 1 - e));
          (periapsis_distance, a * (Fin 1 - e))] c)
  (with_values c semimajor_axis semiminor_axis (fun a b =>
    let b2 := b_squared c b in
    let sgn_a_sqrt_a2_minus_b2 := nsign a (nsqrt (npow 2 a - b2)) in
    sets [(eccentricity, nsqrt (Fin 1 - b2 / npow 2 a));
          (semilatus_rectum, b2 / a);
          (periapsis_distance, a - sgn_a_sqrt_a2_minus_b2);
          (apoapsis_distance, a + sgn_a_sqrt_a2_minus_b2)] c)
  (with_values c semimajor_axis semilatus_rectum (fun a l =>
    let e := nsqrt (Fin 1 - l / a) in
    sets [(eccentricity, e);
          (semiminor_axis, nsqrt (a * l));
          (impact_parameter, nsqrt (- a * l));
          (periapsis_distance, l / (Fin 1 + e));
          (apoapsis_distance, l / (Fin 1 - e))] c)
  (with_values c semimajor_axis periapsis_distance (fun a r_pe =>
    sets [(eccentricity, Fin 1 - r_pe / a);
          (semiminor_axis, nsqrt ((Fin 2 * a - r_pe) * r_pe));
          (impact_parameter, nsqrt ((r_pe - Fin 2 * a) * r_pe));
          (semilatus_rectum, r_pe * (Fin 2 - r_pe / a));
          (apoapsis_distance, Fin 2 * a - r_pe)] c)
  (with_values c semimajor_axis apoapsis_distance (fun a r_ap =>
    sets [(eccentricity, r_ap / a - Fin 1);
          (semiminor_axis, nsqrt ((Fin 2 * a - r_ap) * r_ap));
          (impact_parameter, nsqrt ((r_ap - Fin 2 * a) * r_ap));
          (semilatus_rectum, r_ap * (Fin 2 - r_ap / a));
          (periapsis_distance, Fin 2 * a - r_ap)] c)
  (with_values c semiminor_axis semilatus_rectum (fun b l =>
    let b2 := b_squared c b in
    let e := nsqrt (Fin 1 - npow 2 l / b2) in
    sets [(eccentricity, e);
          (semimajor_axis, b2 / l);
          (periapsis_distance, l / (Fin 1 + e));
          (apoapsis_distance, l / (Fin 1 - e))] c)
  (with_values c semiminor_axis periapsis_distance (fun b r_pe =>
    let b2 := b_squared c b in
    sets [(eccentricity, (b2 - npow 2 r_pe) / (b2 + npow 2 r_pe));
          (semimajor_axis, (b2 + npow 2 r_pe) / (Fin 2 * r_pe));
          (semilatus_rectum, Fin 2 * b2 * r_pe / (b2 + npow 2 r_pe));
          (apoapsis_distance, b2 / r_pe)] c)
  (with_values c semiminor_axis apoapsis_distance (fun b r_ap =>
    let b2 := b_squared c b in
    sets [(eccentricity, (npow 2 r_ap - b2) / (b2 + npow 2 r_ap));
          (semimajor_axis, (b2 + npow 2 r_ap) / (Fin 2 * r_ap));
          (semilatus_rectum, Fin 2 * b2 * r_ap / (b2 + npow 2 r_ap));
          (periapsis_distance, b2 / r_ap)] c)
  (with_values c semilatus_rectum periapsis_distance (fun l r_pe =>
    let a := npow 2 r_pe / (Fin 2 * r_pe - l) in
    sets [(eccentricity, l / r_pe - Fin 1);
          (semimajor_axis, a);
          (semiminor_axis, nsqrt (a * l));
          (impact_parameter, nsqrt (- a * l));
          (apoapsis_distance, l * r_pe / (Fin 2 * r_pe - l))] c)
  (with_values c semilatus_rectum apoapsis_distance (fun l r_ap =>
    let a := npow 2 r_ap / (Fin 2 * r_ap - l) in
    sets [(eccentricity, Fin 1 - l / r_ap);
          (semimajor_axis, a);
          (semiminor_axis, nsqrt (a * l));
          (impact_parameter, nsqrt (- a * l));
          (periapsis_distance, l * r_ap / (Fin 2 * r_ap - l))] c)
  (* The condition at line 549 only mentions the periapsis distance. *)
  (with_values c periapsis_distance periapsis_distance (fun r_pe _ =>
    let r_ap := match c apoapsis_distance with Some r => r | None => NotFinite end in
    sets [(eccentricity, (r_ap - r_pe) / (r_ap + r_pe));
          (semimajor_axis, (r_ap + r_pe) / Fin 2);
          (semiminor_axis, nsqrt (r_ap * r_pe));
          (impact_parameter, nsqrt (- r_ap * r_pe));
          (semilatus_rectum, (Fin 2 * r_ap * r_pe) / (r_ap + r_pe))] c) c)))))))))))))).
(** Lines 422-425. *)
Definition primary_fields :=
  [eccentricity; semimajor_axis; semiminor_axis; semilatus_rectum; periapsis_distance; apoapsis_distance].
(** Lines 409-559. *)
Definition CompleteConicParameters (mu : R) (c : Fields) : option Fields :=
  match CompleteConicParametersByCategory mu c with
  | None => None
  | Some c =>
    if Nat.eqb (specifications c primary_fields) 2
    then CompleteConicParametersByCategory mu (complete_from_two c)
    else None
  end.

(** Lines 563-580. *)
Definition CompleteOrientationParameters (el : KeplerianElements) : option KeplerianElements :=
  let c := fields el in
  let Omega := Fin (longitude_of_ascending_node el) in
  if Nat.eqb (specifications c [argument_of_periapsis; longitude_of_periapsis]) 1 then
    Some (mkElements
      (with_value c argument_of_periapsis (fun w => set longitude_of_periapsis (Omega + w) c)
      (with_value c longitude_of_periapsis (fun w => set argument_of_periapsis (w - Omega) c) c))
      (inclination el) (longitude_of_ascending_node el))
  else None.

(** Lines 601-603. *)
Definition positive_angle (a : Num) : Num := if ngt a 0 then a else a + Fin 2 * Fin PI.
(** Lines 604-612: from the true anomaly. *)
Definition anomalies_from_true (e nu : Num) : Num * Num :=
  let eccentric_anomaly := narctan (nsqrt (Fin 1 - npow 2 e) * nsin nu) (e + ncos nu) in
  let hyperbolic_eccentric_anomaly := narccosh ((e + ncos nu) / (Fin 1 + e * ncos nu)) in
  (positive_angle (eccentric_anomaly - e * nsin eccentric_anomaly),
   e * nsinh hyperbolic_eccentric_anomaly - hyperbolic_eccentric_anomaly).
(** Lines 614-618. *)
Definition kepler_equation (e mean : R) (x : R) : R := (mean - (x - e * sin x))%R.
(** Lines 619-626: the true anomaly from the mean anomaly. *)
Definition true_from_mean (Brent : (R -> R) -> R -> R -> R) (e mean : Num) : Num :=
  match e, mean with
  | Fin e', Fin m =>
    let eccentric_anomaly :=
      if Req_EM_T e' 0 then m else Brent (kepler_equation e' m) (m - e')%R (m + e')%R in
    let half := Fin eccentric_anomaly / Fin 2 in
    Fin 2 * narctan (nsqrt (Fin 1 + e) * nsin half) (nsqrt (Fin 1 - e) * ncos half)
  | _, _ => NotFinite
  end.
(** Lines 629-635. *)
Definition hyperbolic_kepler_equation (e mean : R) (x : R) : R := (mean - (e * sinh x - x))%R.
(** Lines 636-642: the true anomaly from the hyperbolic mean anomaly. *)
Definition true_from_hyperbolic_mean (Brent : (R -> R) -> R -> R -> R) (e mean : Num) : Num :=
  match e, mean, mean / (e - Fin 1) with
  | Fin e', Fin m, Fin upper =>
    let half := Fin (Brent (hyperbolic_kepler_equation e' m) 0%R upper) / Fin 2 in
    Fin 2 * narctan (nsqrt (e + Fin 1) * nsinh half) (nsqrt (e - Fin 1) * lift1 (fun x => Fin (cosh x)) half)
  | _, _, _ => NotFinite
  end.
(** Lines 591-645; [None] is the failure of the CHECK or the dereferencing of an [eccentricity] that is not filled. *)
Definition CompleteAnomalies (Brent : (R -> R) -> R -> R -> R) (c : Fields) : option Fields :=
  match c eccentricity with
  | None => None
  | Some e =>
    if Nat.eqb (specifications c [true_anomaly; mean_anomaly; hyperbolic_mean_anomaly]) 1 then
      Some
        (with_value c true_anomaly (fun nu =>
           let '(m, h) := anomalies_from_true e nu in
           sets [(mean_anomaly, m); (hyperbolic_mean_anomaly, h)] c)
        (with_value c mean_anomaly (fun m =>
           sets [(true_anomaly, true_from_mean Brent e m); (hyperbolic_mean_anomaly, NotFinite)] c)
        (with_value c hyperbolic_mean_anomaly (fun h =>
           sets [(true_anomaly, true_from_hyperbolic_mean Brent e h); (mean_anomaly, NotFinite)] c) c)))
    else None
  end.

(** Lines 583-588. *)
Definition CompleteElements (Brent : (R -> R) -> R -> R -> R) (mu : R) (el : KeplerianElements)
    : option KeplerianElements :=
  match CompleteConicParameters mu (fields el) with
  | None => None
  | Some c =>
    match CompleteOrientationParameters (mkElements c (inclination el) (longitude_of_ascending_node el)) with
    | None => None
    | Some el =>
      match CompleteAnomalies Brent (fields el) with
      | None => None
      | Some c => Some (mkElements c (inclination el) (longitude_of_ascending_node el))
      end
    end
  end.

(** * KeplerOrbit (physics/kepler_orbit.hpp:97-143) *)
Record KeplerOrbit := mkOrbit {
  gravitational_parameter : R;
  elements_at_epoch : KeplerianElements;
  epoch : R }.
(** Lines 123-138: [secondary] is the gravitational parameter of the secondary, [None] if it is massless. *)
Definition OrbitFromElements (Brent : (R -> R) -> R -> R -> R) (primary : R) (secondary : option R)
    (el : KeplerianElements) (t0 : R) : option KeplerOrbit :=
  let mu := (primary + match secondary with Some m => m | None => 0 end)%R in
  match CompleteElements Brent mu el with
  | None => None
  | Some el => Some (mkOrbit mu el t0)
  end.

(** geometry/r3_element_body.hpp:601-609. *)
Definition AngleBetween (u v : R3) : R :=
  let u' := scal3 (Norm v) u in
  let v' := scal3 (Norm u) v in
  (2 * ArcTan2 (Norm (sub3 u' v')) (Norm (add3 u' v')))%R.
(** geometry/grassmann_body.hpp:352-357; on reals there is a single zero, whose sign is taken to be positive. *)
Definition OrientedAngleBetween (u v positive : R3) : R :=
  if Rlt_dec (Dot (Cross u v) positive) 0 then (- AngleBetween u v)%R else AngleBetween u v.
(** numerics/angle_reduction_body.hpp:172-191, with the exact reduction to a quadrant: [t] is reduced to at most pi/4
    in absolute value. *)
Definition ReduceAngle (t : R) : R :=
  let k := Int_part (t / (PI / 2) + / 2) in
  let t := (t - IZR k * (PI / 2))%R in
  let quadrant := (k mod 4)%Z in
  if (quadrant =? 1)%Z then (t + PI / 2)%R
  else if (quadrant =? 3)%Z then (t + 3 * PI / 2)%R
  else if (quadrant =? 2)%Z then (t + PI)%R
  else if Rlt_dec t 0 then (t + 2 * PI)%R else t.

(** Lines 159-162: the angular momentum. *)
Definition angular_momentum (r v : R3) : R3 := Cross r v.
(** Lines 163-167; the displacement is assumed not to be zero. *)
Definition eccentricity_vector (mu : R) (r v : R3) : R3 :=
  sub3 (div3 (Cross v (angular_momentum r v)) mu) (Normalize r).
(** Line 169. *)
Definition ascending_node (r v : R3) : R3 := Cross (mk3 0 0 1) (angular_momentum r v).
(** Lines 171-205. *)
Definition elements_of_state (mu : R) (r v : R3) : KeplerianElements :=
  let h := angular_momentum r v in
  let periapsis := eccentricity_vector mu r v in
  let node := ascending_node r v in
  let i := AngleBetween (mk3 0 0 1) h in
  let w := ReduceAngle (OrientedAngleBetween node periapsis h) in
  let Omega := ReduceAngle (ArcTan2 (cy node) (cx node)) in
  let nu := ReduceAngle (OrientedAngleBetween periapsis r h) in
  let eps := Fin (Norm2 v / 2 - mu / Norm r) in
  let e := Fin (Norm periapsis) in
  let h2 := Fin (Norm2 h) in
  let b := nsqrt (- h2 / (Fin 2 * eps)) in
  let impact := nsqrt (h2 / (Fin 2 * eps)) in
  let r_pe := h2 / ((Fin 1 + e) * Fin mu) in
  let r_ap := - Fin mu * (Fin 1 + e) / (Fin 2 * eps) in
  mkElements
    (sets [(eccentricity, e);
           (specific_energy, eps);
           (semiminor_axis, b);
           (impact_parameter, impact);
           (specific_angular_momentum, Fin (Norm h));
           (periapsis_distance, r_pe);
           (apoapsis_distance, r_ap);
           (argument_of_periapsis, Fin w);
           (true_anomaly, Fin nu)] (fun _ => None)) i Omega.
(** Lines 140-207. *)
Definition OrbitFromState (Brent : (R -> R) -> R -> R -> R) (primary : R) (secondary : option R) (r v : R3) (t0 : R)
    : option KeplerOrbit :=
  let mu := (primary + match secondary with Some m => m | None => 0 end)%R in
  let el := elements_of_state mu r v in
  match CompleteConicParametersByCategory mu (fields el) with
  | None => None
  | Some c =>
    match CompleteOrientationParameters (mkElements c (inclination el) (longitude_of_ascending_node el)) with
    | None => None
    | Some el =>
      match CompleteAnomalies Brent (fields el) with
      | None => None
      | Some c => Some (mkOrbit mu (mkElements c (inclination el) (longitude_of_ascending_node el)) t0)
      end
    end
  end.

(** Lines 234-239. *)
Definition from_orbit_plane (Omega i w : R) : Quaternion := RotAnglesDefinesFrom Omega i w (AxisConvention 2 0 2).
(** Lines 240-253: [None] if a value is not finite. *)
Definition state_vectors (mu e i Omega w l eps nu : R) : option (R3 * R3) :=
  let q := from_orbit_plane Omega i w in
  let r := Fin l / (Fin 1 + Fin e * ncos (Fin nu)) in
  let phi := narctan (Fin e * nsin (Fin nu)) (Fin 1 + Fin e * ncos (Fin nu)) in
  let speed := nsqrt (Fin 2 * (Fin eps + Fin mu / r)) in
  match r, phi, speed with
  | Fin r, Fin phi, Fin speed =>
    Some (scal3 r (rotate q (mk3 (cos nu) (sin nu) 0)),
          scal3 speed (rotate q (mk3 (- sin (nu - phi))%R (cos (nu - phi)) 0)))
  | _, _, _ => None
  end.
(** Lines 217-233: the anomalies at [t]; [None] in the parabolic case. *)
Definition anomaly_at (o : KeplerOrbit) (t : R) (e : Num) (c : Fields) : option Fields :=
  let c0 := reset hyperbolic_mean_anomaly (reset mean_anomaly (reset true_anomaly c)) in
  let advance (m n : Field) : option Num :=
    match c m, c n with Some m, Some n => Some (m + n * Fin (t - epoch o)) | _, _ => None end in
  match e with
  | NotFinite => None
  | Fin e =>
    if Rlt_dec e 1 then
      match advance mean_anomaly mean_motion with Some m => Some (set mean_anomaly m c0) | None => None end
    else if Req_EM_T e 1 then None
    else
      match advance hyperbolic_mean_anomaly hyperbolic_mean_motion with
      | Some m => Some (set hyperbolic_mean_anomaly m c0)
      | None => None
      end
  end.
(** Lines 209-254; [None] is a fatal error, or a result that is not finite. *)
Definition StateVectors (Brent : (R -> R) -> R -> R -> R) (o : KeplerOrbit) (t : R) : option (R3 * R3) :=
  let el := elements_at_epoch o in
  let c := fields el in
  match c eccentricity, c argument_of_periapsis, c semilatus_rectum, c specific_energy with
  | Some (Fin e), Some (Fin w), Some (Fin l), Some (Fin eps) =>
    match anomaly_at o t (Fin e) c with
    | None => None
    | Some c =>
      match CompleteAnomalies Brent c with
      | None => None
      | Some c =>
        match c true_anomaly with
        | Some (Fin nu) =>
          state_vectors (gravitational_parameter o) e (inclination el) (longitude_of_ascending_node el) w l eps nu
        | _ => None
        end
      end
    end
  | _, _, _, _ => None
  end.
