(* The properties of a system of rigid bodies, physics/mechanical_system_body.hpp, on real numbers. *)
From Coq Require Import Reals List Bool.
From Verif Require Import Geometry_Model.
Import ListNotations.
Local Open Scope R_scope.

(* geometry/r3x3_matrix_body.hpp:244-250 and 392-398. *)
Definition MIdentity : M3 := mkM (mk3 1 0 0) (mk3 0 1 0) (mk3 0 0 1).
Definition KroneckerProduct (l r : R3) : M3 := mkM (scal3 (cx l) r) (scal3 (cy l) r) (scal3 (cz l) r).
Definition MZero : M3 := mkM zero3 zero3 zero3.

(* geometry/symmetric_bilinear_form_body.hpp:145-154, Anticommutator of a form on vectors. *)
Definition FormAnticommutator (f : M3) : M3 := Madd (Mscal (Trace f) MIdentity) (Mscal (- 1) f).
(* geometry/symmetric_bilinear_form_body.hpp:156-166, AnticommutatorInverse of a form on bivectors. *)
Definition AnticommutatorInverse (f : M3) : M3 := Madd (Mscal (- 1) f) (Mscal (/ 2) (Mscal (Trace f) MIdentity)).
(* geometry/symmetric_bilinear_form_body.hpp:414-421, Anticommutator of a form and a bivector. *)
Definition Anticommutator (f : M3) (w : R3) : R3 := sub3 (scal3 (Trace f) w) (Mapp f w).
(* geometry/symmetric_bilinear_form_body.hpp:406-412. *)
Definition SymmetricSquare (v : R3) : M3 := KroneckerProduct v v.

(* physics/mechanical_system.hpp:68-101: the calculator of the barycentre of the degrees of freedom is made of two
   calculators with the same weights, for the positions and for the velocities. *)
Record MechanicalSystem := mkMechanicalSystem {
  centre_of_mass_position : BC;
  centre_of_mass_velocity : BC;
  body_linear_motions : list ((R3 * R3) * R);
  sum_of_intrinsic_angular_momenta : R3;
  sum_of_inertia_tensors : M3
}.
(* physics/mechanical_system.hpp:47. *)
Definition EmptySystem : MechanicalSystem := mkMechanicalSystem None None [] zero3 MZero.

(* physics/rigid_motion_body.hpp:29-41, the constructor with the motion of FromFrame in ToFrame. *)
Definition RigidMotionOfFrom (det : bool) (t : RigidTransformation) (omega velocity : R3) : RigidMotion :=
  RMInverse det (mkRM (AffInverse t) omega velocity).
(* physics/rigid_motion_body.hpp:53-68, angular_velocity_of<FromFrame>. *)
Definition angular_velocity_of_from (det : bool) (m : RigidMotion) : R3 := omega (RMInverse det m).

(* mechanical_system_body.hpp:18-35, AddRigidBody; [det] tells if BodyFrame and InertialFrame have opposite handednesses. *)
Definition AddRigidBody (s : MechanicalSystem) (det : bool) (motion : RigidMotion) (mass : R) (tensor : M3) : MechanicalSystem :=
  let degrees_of_freedom := rm_apply det motion (zero3, zero3) in
  let inertia_tensor_in_inertial_axes := orth_form det (linear (rt motion)) (AnticommutatorInverse tensor) in
  mkMechanicalSystem
    (BCAdd zero3 (centre_of_mass_position s) (fst degrees_of_freedom) mass)
    (BCAdd zero3 (centre_of_mass_velocity s) (snd degrees_of_freedom) mass)
    (body_linear_motions s ++ [(degrees_of_freedom, mass)])
    (add3 (sum_of_intrinsic_angular_momenta s)
          (Anticommutator inertia_tensor_in_inertial_axes (angular_velocity_of_from det motion)))
    (Madd (sum_of_inertia_tensors s) inertia_tensor_in_inertial_axes).

(* mechanical_system_body.hpp:50-59, centre_of_mass and mass; None is the failure of the check of Get. *)
Definition centre_of_mass (s : MechanicalSystem) : option (R3 * R3) :=
  match BCGet zero3 (centre_of_mass_position s), BCGet zero3 (centre_of_mass_velocity s) with
  | Some q, Some v => Some (q, v)
  | _, _ => None
  end.
Definition mass (s : MechanicalSystem) : R := match centre_of_mass_position s with None => 0 | Some (_, w) => w end.

(* mechanical_system_body.hpp:37-48, LinearMotion. *)
Definition LinearMotion (s : MechanicalSystem) : option RigidMotion :=
  match centre_of_mass s with
  | None => None
  | Some (q, v) => Some (RigidMotionOfFrom false (mkA zero3 q RotIdentity) zero3 v)
  end.

(* mechanical_system_body.hpp:61-79, AngularMomentum. *)
Definition AngularMomentum (s : MechanicalSystem) : option R3 :=
  match LinearMotion s with
  | None => None
  | Some motion =>
    let to_system_frame := RMInverse false motion in
    Some (fold_left
      (fun result body =>
         let '(degrees_of_freedom, m) := body in
         let in_system_frame := rm_apply false to_system_frame degrees_of_freedom in
         let r := sub3 (fst in_system_frame) zero3 in
         let v := snd in_system_frame in
         let p := scal3 m v in
         add3 result (Cross r p))
      (body_linear_motions s)
      (orth_bivector false (linear (rt to_system_frame)) (sum_of_intrinsic_angular_momenta s)))
  end.

(* mechanical_system_body.hpp:81-96, InertiaTensor. *)
Definition InertiaTensor (s : MechanicalSystem) : option M3 :=
  match LinearMotion s with
  | None => None
  | Some motion =>
    let to_system_frame := RMInverse false motion in
    Some (FormAnticommutator (fold_left
      (fun result body =>
         let '(degrees_of_freedom, m) := body in
         let in_system_frame := rm_apply false to_system_frame degrees_of_freedom in
         let r := sub3 (fst in_system_frame) zero3 in
         Madd result (Mscal m (SymmetricSquare r)))
      (body_linear_motions s)
      (orth_form false (linear (rt to_system_frame)) (sum_of_inertia_tensors s))))
  end.
