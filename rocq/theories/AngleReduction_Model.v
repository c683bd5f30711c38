(** Model of ReduceAngle, numerics/angle_reduction_body.hpp:138-220.  The angles are real numbers, in radians, and the additions are exact.  The reduction
    modulo π/2, Reduce (numerics/sin_cos.cpp:617-627), is an arbitrary function, which returns the reduced argument and the quadrant. *)
From Coq Require Import ZArith Bool Reals.
From Flocq Require Import Core.
Open Scope R_scope.

(** std::round: to nearest, halfway cases away from 0. *)
Definition round_away (x : R) : Z := if Rlt_dec x 0 then (- Zfloor (- x + 1 / 2))%Z else Zfloor (x + 1 / 2).

Section AngleReduction.
  Variable Reduce : R -> R * Z.
  (** numerics/angle_reduction_body.hpp:138-151 *)
  Definition ReduceAngle_mpi_2_pi_2 (theta : R) : R :=
    let (reduced, quadrant) := Reduce theta in
    if ((quadrant =? 1) || (quadrant =? 3))%Z then if Rlt_dec reduced 0 then reduced + PI / 2 else reduced - PI / 2
    else reduced.
  (** numerics/angle_reduction_body.hpp:153-170 *)
  Definition ReduceAngle_mpi_pi (theta : R) : R :=
    let (reduced, quadrant) := Reduce theta in
    if (quadrant =? 1)%Z then reduced + PI / 2
    else if (quadrant =? 3)%Z then reduced - PI / 2
    else if (quadrant =? 2)%Z then if Rlt_dec reduced 0 then reduced + PI else reduced - PI
    else reduced.
  (** numerics/angle_reduction_body.hpp:172-190 *)
  Definition ReduceAngle_0_2pi (theta : R) : R :=
    let (reduced, quadrant) := Reduce theta in
    if (quadrant =? 1)%Z then reduced + PI / 2
    else if (quadrant =? 3)%Z then reduced + 3 * PI / 2
    else if (quadrant =? 2)%Z then reduced + PI
    else if Rlt_dec reduced 0 then reduced + 2 * PI else reduced.
  (** numerics/angle_reduction_body.hpp:192-220, the fractional part and the integer part. *)
  Definition ReduceAngle2_mpi_2_pi_2 (theta : R) : R * Z :=
    let fractional_part := ReduceAngle_mpi_2_pi_2 theta in (fractional_part, round_away ((theta - fractional_part) / PI)).
  Definition ReduceAngle2_mpi_pi (theta : R) : R * Z :=
    let fractional_part := ReduceAngle_mpi_pi theta in (fractional_part, round_away ((theta - fractional_part) / (2 * PI))).
  Definition ReduceAngle2_0_2pi (theta : R) : R * Z :=
    let fractional_part := ReduceAngle_0_2pi theta in (fractional_part, round_away ((theta - fractional_part) / (2 * PI))).
End AngleReduction.
