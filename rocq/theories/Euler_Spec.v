(* What the torque-free motion of a rigid body should be. *)
From Coq Require Import Reals.
From Verif Require Import Geometry_Model Geometry_Proofs Geometry_Proofs2 Euler_Model.
Local Open Scope R_scope.

(* The elliptic functions: the amplitude is the inverse of the integral of the first kind, which is odd; the other functions
   are defined from it, and the integral of the third kind by its derivative.  The complementary parameter is mc. *)
Definition elliptic_functions (E : elliptic) : Prop :=
  forall mc, 0 < mc <= 1 ->
    let delta phi := sqrt (1 - (1 - mc) * (sin phi * sin phi)) in
    (forall u, derivable_pt_lim (fun u => JacobiAmplitude E u mc) u (delta (JacobiAmplitude E u mc))) /\
    (forall u, JacobiAmplitude E (- u) mc = - JacobiAmplitude E u mc) /\
    (forall phi, JacobiAmplitude E (EllipticF E phi mc) mc = phi) /\
    (forall u, JacobiSN E u mc = sin (JacobiAmplitude E u mc) /\ JacobiCN E u mc = cos (JacobiAmplitude E u mc) /\
               JacobiDN E u mc = delta (JacobiAmplitude E u mc)) /\
    (forall n phi, n <= 0 ->
       derivable_pt_lim (fun phi => EllipticPi E phi n mc) phi (/ ((1 - n * (sin phi * sin phi)) * delta phi))).

(* The angular velocity of a body with the given moments of inertia. *)
Definition velocity (moments m : R3) : R3 := mk3 (cx m / cx moments) (cy m / cy moments) (cz m / cz moments).

(* The angular momentum m in the axes of the body and the attitude A are those of a body that is subjected to no torque, with
   the angular momentum L in the inertial frame, and the given attitude at the given time: m obeys the equation of Euler, the
   attitude turns it into L, and the derivative of the attitude is given by the angular velocity. *)
Definition torque_free (moments L : R3) (attitude : Quaternion) (time : R) (m : R -> R3) (A : R -> Quaternion) : Prop :=
  rotate attitude (m time) = L /\
  (forall t, has_derivative m t (Cross (m t) (velocity moments (m t)))) /\
  (forall t, rotate (A t) (m t) = L) /\
  (forall v, rotate (A time) v = rotate attitude v) /\
  (forall t v, has_derivative (fun t => rotate (A t) v) t (rotate (A t) (Cross (velocity moments (m t)) v))).
