(** Model of physics/similar_motion_body.hpp, of the rigid reference frames (physics/rigid_reference_frame_body.hpp,
    body_centred_non_rotating_reference_frame_body.hpp, body_surface_reference_frame_body.hpp,
    body_centred_body_direction_reference_frame_body.hpp, barycentric_rotating_reference_frame_body.hpp), of
    physics/rotating_pulsating_reference_frame_body.hpp and of the Frenet frame of physics/reference_frame_body.hpp.
    Numbers are real, instants are numbers of seconds; vectors, bivectors and positions are given by their coordinates,
    the origin of a frame is 0.  The ephemeris is represented by the functions of the time that it returns; its locks,
    the serialization and the comparison and hashing of frames are not modelled. *)
From Coq Require Import Reals List.
From Verif Require Import Geometry_Model RotatingBody_Model.
Import ListNotations.
Open Scope R_scope.

(** * SimilarMotion (physics/similar_motion.hpp:86-89) *)
Record SimilarMotion := mkSM { similarity : SimilarityMap; sm_omega : R3; sm_vel : R3; dilatation : R }.
(** The action of a ConformalMap on an angular velocity, geometry/conformal_map_body.hpp:51-55 with
    geometry/homothecy_body.hpp:43-47: no scaling. *)
Definition conf_angular_velocity (det : bool) (c : ConformalMap) (w : R3) : R3 :=
  rotate (quat c) (sig_bivector det (MakeSignature det) w).
(** physics/similar_motion_body.hpp:36: [angular_velocity_of<FromFrame>]. *)
Definition sm_omega_of_from (det : bool) (m : SimilarMotion) : R3 :=
  opp3 (conf_angular_velocity det (slinear (similarity m)) (sm_omega m)).
(** physics/similar_motion_body.hpp:57-67. *)
Definition sm_apply (det : bool) (m : SimilarMotion) (d : R3 * R3) : R3 * R3 :=
  let '(p, v) := d in
  let position := sim det (similarity m) p in
  (position,
   add3 (add3 (scal3 (dilatation m) position) (Cross (sm_omega_of_from det m) position))
        (conf_vector det (slinear (similarity m)) (sub3 v (sm_vel m)))).
(** physics/similar_motion_body.hpp:50: [velocity_of_origin_of<FromFrame>]. *)
Definition sm_vel_of_from (det : bool) (m : SimilarMotion) : R3 := snd (sm_apply det m (zero3, zero3)).
(** physics/similar_motion_body.hpp:69-76. *)
Definition SMInverse (det : bool) (m : SimilarMotion) : SimilarMotion :=
  mkSM (SimInverse (similarity m)) (sm_omega_of_from det m) (sm_vel_of_from det m) (- dilatation m).
(** physics/similar_motion_body.hpp:78-90 with geometry/homothecy_body.hpp:56-61. *)
Definition DilatationAboutOrigin (scale rate : R) : SimilarMotion :=
  mkSM (mkSim zero3 zero3 (mkC scale (qreal 1))) zero3 zero3 rate.
(** physics/similar_motion_body.hpp:92-101. *)
Definition SMIdentity : SimilarMotion := mkSM (mkSim zero3 zero3 (mkC 1 (qreal 1))) zero3 zero3 0.
(** physics/similar_motion_body.hpp:114-125. *)
Definition SMMul (ldet rdet : bool) (l r : SimilarMotion) : SimilarMotion :=
  mkSM (SimMul ldet (similarity l) (similarity r))
       (add3 (sm_omega r) (conf_angular_velocity rdet (ConfInverse (slinear (similarity r))) (sm_omega l)))
       (snd (sm_apply rdet (SMInverse rdet r) (sm_apply ldet (SMInverse ldet l) (zero3, zero3))))
       (dilatation l + dilatation r).
(** physics/rigid_motion_body.hpp:104-113, with the [Forget] of geometry/affine_map_body.hpp and orthogonal_map_body.hpp,
    which keep the quaternion and have the scale 1. *)
Definition RMForget (m : RigidMotion) : SimilarMotion :=
  mkSM (mkSim (from_origin (rt m)) (to_origin (rt m)) (mkC 1 (linear (rt m)))) (omega m) (vel m) 0.

(** * Bodies *)
(** What the ephemeris returns for a body: [EvaluatePosition], [EvaluateVelocity],
    [ComputeGravitationalAccelerationOnMassiveBody] and [ComputeGravitationalJerkOnMassiveBody], and the gravitational
    parameter. *)
Record Body := mkBody { position : R -> R3; velocity : R -> R3; acceleration : R -> R3; jerk : R -> R3; mu : R }.

(** physics/rigid_motion.hpp, AcceleratedRigidMotion (rigid_motion_body.hpp:185-193). *)
Record AcceleratedRigidMotion := mkARM { rigid_motion : RigidMotion; angular_acceleration : R3; origin_acceleration : R3 }.

(** * RigidReferenceFrame (physics/rigid_reference_frame_body.hpp) *)
Record Trihedron := mkT { fore : R3; normal : R3; binormal : R3 }.
(** Lines 218-236: the orthogonal and the orthonormal trihedra. *)
Definition ComputeTrihedra (r r1 : R3) : Trihedron * Trihedron :=
  let F := r in let B := Cross r r1 in let N := Cross B F in
  (mkT F N B, mkT (Normalize F) (Normalize N) (Normalize B)).
(** Lines 257-260. *)
Definition d_normalized (v v1 : R3) : R3 :=
  div3 (sub3 (scal3 (Norm2 v) v1) (scal3 (Dot v v1) v)) (Norm v ^ 3).
(** Lines 238-269. *)
Definition ComputeTrihedraDerivatives (r r1 r2 : R3) (orthogonal : Trihedron) : Trihedron * Trihedron :=
  let F := fore orthogonal in let N := normal orthogonal in let B := binormal orthogonal in
  let F1 := r1 in let B1 := Cross r r2 in let N1 := add3 (Cross B1 F) (Cross B F1) in
  (mkT F1 N1 B1, mkT (d_normalized F F1) (d_normalized N N1) (d_normalized B B1)).
(** Lines 297-305. *)
Definition d2_normalized (v v1 v2 : R3) : R3 :=
  add3 (sub3 (div3 v2 (Norm v))
             (div3 (add3 (scal3 (2 * Dot v v1) v1) (scal3 (Norm2 v1 - Dot v v2) v)) (Norm v ^ 3)))
       (div3 (scal3 (Dot v v1 ^ 2) (scal3 3 v)) (Norm v ^ 5)).
(** Lines 271-314. *)
Definition ComputeTrihedraDerivatives2 (r r1 r2 r3 : R3) (orthogonal d_orthogonal : Trihedron) : Trihedron * Trihedron :=
  let F := fore orthogonal in let N := normal orthogonal in let B := binormal orthogonal in
  let F1 := fore d_orthogonal in let N1 := normal d_orthogonal in let B1 := binormal d_orthogonal in
  let F2 := r2 in let B2 := add3 (Cross r1 r2) (Cross r r3) in
  let N2 := add3 (add3 (Cross B2 F) (Cross (scal3 2 B1) F1)) (Cross B F2) in
  (mkT F2 N2 B2, mkT (d2_normalized F F1 F2) (d2_normalized N N1 N2) (d2_normalized B B1 B2)).
(** Lines 316-323. *)
Definition ComputeRotation (o : Trihedron) : Quaternion := RotToAxes (fore o) (normal o) (binormal o).
(** Lines 325-338; the product of a vector and a bivector in [Wedge] is the trivector of their inner product,
    geometry/grassmann_body.hpp:262-268. *)
Definition ComputeAngularVelocity (o o1 : Trihedron) : R3 :=
  add3 (add3 (scal3 (Dot (normal o1) (binormal o)) (fore o)) (scal3 (Dot (binormal o1) (fore o)) (normal o)))
       (scal3 (Dot (fore o1) (normal o)) (binormal o)).
(** Lines 340-360. *)
Definition ComputeAngularAcceleration (o o1 o2 : Trihedron) : R3 :=
  let f := fore o in let n := normal o in let b := binormal o in
  let f1 := fore o1 in let n1 := normal o1 in let b1 := binormal o1 in
  let f2 := fore o2 in let n2 := normal o2 in let b2 := binormal o2 in
  add3 (add3 (add3 (scal3 (Dot n2 b + Dot n1 b1) f) (scal3 (Dot n1 b) f1))
             (add3 (scal3 (Dot b2 f + Dot b1 f1) n) (scal3 (Dot b1 f) n1)))
       (add3 (scal3 (Dot f2 n + Dot f1 n1) b) (scal3 (Dot f1 n) b1)).
(** Lines 189-216: the rotation and the angular velocity. *)
Definition ComputeAngularDegreesOfFreedom (q1 v1 a1 q2 v2 a2 : R3) : Quaternion * R3 :=
  let r := sub3 q2 q1 in let r1 := sub3 v2 v1 in let r2 := sub3 a2 a1 in
  let '(orthogonal, orthonormal) := ComputeTrihedra r r1 in
  let '(_, d_orthonormal) := ComputeTrihedraDerivatives r r1 r2 orthogonal in
  (ComputeRotation orthonormal, ComputeAngularVelocity orthonormal d_orthonormal).
(** The angular acceleration, as computed by both callers of [ComputeTrihedraDerivatives2]:
    body_centred_body_direction_reference_frame_body.hpp:202-230, barycentric_rotating_reference_frame_body.hpp:394-417. *)
Definition AngularAccelerationOf (r r1 r2 r3 : R3) : R3 :=
  let '(orthogonal, orthonormal) := ComputeTrihedra r r1 in
  let '(d_orthogonal, d_orthonormal) := ComputeTrihedraDerivatives r r1 r2 orthogonal in
  let '(_, d2_orthonormal) := ComputeTrihedraDerivatives2 r r1 r2 r3 orthogonal d_orthogonal in
  ComputeAngularAcceleration orthonormal d_orthonormal d2_orthonormal.

(** Lines 362-398.  [g] is [GravitationalAcceleration(t, .)] and [det] tells whether the frames have different
    handednesses. *)
Record GeometricAccelerations := mkGA { gravitational : R3; linear_acc : R3; coriolis : R3; centrifugal : R3; euler : R3 }.
Definition ComputeGeometricAccelerations (det : bool) (motion : AcceleratedRigidMotion) (g : R3 -> R3) (d : R3 * R3)
    : GeometricAccelerations :=
  let to_this_frame := rigid_motion motion in
  let from_this_frame := RMInverse det to_this_frame in
  let q := linear (rt to_this_frame) in
  let Omega := orth_bivector det q (omega to_this_frame) in
  let dOmega := orth_bivector det q (angular_acceleration motion) in
  let r := sub3 (fst d) zero3 in
  mkGA (orth_vector det q (g (aff det (rt from_this_frame) (fst d))))
       (opp3 (orth_vector det q (origin_acceleration motion)))
       (Cross (scal3 (-2) Omega) (snd d))
       (Cross (opp3 Omega) (Cross Omega r))
       (Cross (opp3 dOmega) r).
(** Lines 57-78. *)
Definition GeometricAcceleration (det : bool) (motion : AcceleratedRigidMotion) (g : R3 -> R3) (d : R3 * R3) : R3 :=
  let a := ComputeGeometricAccelerations det motion g d in
  add3 (gravitational a) (add3 (add3 (add3 (linear_acc a) (coriolis a)) (centrifugal a)) (euler a)).
(** Lines 80-102; the DCHECK is left out. *)
Definition RotationFreeGeometricAccelerationAtRest (det : bool) (motion : AcceleratedRigidMotion) (g : R3 -> R3) (p : R3) : R3 :=
  let a := ComputeGeometricAccelerations det motion g (p, zero3) in
  add3 (gravitational a) (add3 (linear_acc a) (centrifugal a)).
(** Lines 104-130.  [U] is [GravitationalPotential(t, .)]. *)
Definition GeometricPotential (det : bool) (motion : AcceleratedRigidMotion) (U : R3 -> R) (p : R3) : R :=
  let to_this_frame := rigid_motion motion in
  let from_this_frame := RMInverse det to_this_frame in
  let Omega := orth_bivector det (linear (rt to_this_frame)) (omega to_this_frame) in
  let r := sub3 p zero3 in
  U (aff det (rt from_this_frame) p) +
  (Dot r (orth_vector det (linear (rt to_this_frame)) (origin_acceleration motion)) + - (1 / 2) * Norm2 (Cross Omega r)).

(** * BodyCentredNonRotatingReferenceFrame *)
(** body_centred_non_rotating_reference_frame_body.hpp:33-44; the centre may be a rotating body. *)
Definition non_rotating_map (centre : option Parameters) : Quaternion :=
  match centre with None => RotIdentity | Some p => ToCelestialFrame p end.
(** Lines 64-79 and 124-133. *)
Definition non_rotating_motion (p : option Parameters) (centre : Body) (t : R) : AcceleratedRigidMotion :=
  mkARM (mkRM (mkA (position centre t) zero3 (non_rotating_map p)) zero3 (velocity centre t))
        zero3 (acceleration centre t).

(** * BodySurfaceReferenceFrame (body_surface_reference_frame_body.hpp:50-69 and 115-132) *)
Definition body_surface_motion (p : Parameters) (centre : Body) (t : R) : AcceleratedRigidMotion :=
  mkARM (mkRM (mkA (position centre t) zero3 (ToSurfaceFrame p t)) (angular_velocity p) (velocity centre t))
        zero3 (acceleration centre t).

(** * BodyCentredBodyDirectionReferenceFrame (body_centred_body_direction_reference_frame_body.hpp) *)
(** Lines 239-264. *)
Definition bcbd_ToThisFrame (q1 v1 a1 q2 v2 a2 : R3) : RigidMotion :=
  let '(rotation, angular_velocity) := ComputeAngularDegreesOfFreedom q1 v1 a1 q2 v2 a2 in
  mkRM (mkA q1 zero3 rotation) angular_velocity v1.
(** Lines 177-237. *)
Definition body_direction_motion (primary secondary : Body) (t : R) : AcceleratedRigidMotion :=
  let q1 := position primary t in let v1 := velocity primary t in
  let a1 := acceleration primary t in let j1 := jerk primary t in
  let q2 := position secondary t in let v2 := velocity secondary t in
  let a2 := acceleration secondary t in let j2 := jerk secondary t in
  mkARM (bcbd_ToThisFrame q1 v1 a1 q2 v2 a2)
        (AngularAccelerationOf (sub3 q2 q1) (sub3 v2 v1) (sub3 a2 a1) (sub3 j2 j1)) a1.

(** * BarycentricRotatingReferenceFrame (barycentric_rotating_reference_frame_body.hpp) *)
(** The value of [BarycentreDerivative<degree>] when it is not cached, lines 284-351; [None] would be the CHECK of
    [BarycentreCalculator::Get] on an empty list, but lines 81 and 83 check that the lists are not empty. *)
Definition derivative_of (degree : nat) (b : Body) : R -> R3 :=
  match degree with 0 => position b | 1 => velocity b | 2 => acceleration b | _ => jerk b end%nat.
Definition BarycentreDerivative (degree : nat) (bodies : list Body) (t : R) : option R3 :=
  BCGet zero3 (BCAddAll zero3 (map (fun b => (derivative_of degree b t, mu b)) bodies) None).
(** The cache, barycentric_rotating_reference_frame.hpp:113-119: the time, a NaN at first (here [None]), and the value
    for each degree; lines 281-283 and 353-356. *)
Definition CachedDerivatives := nat -> option (R * option R3).
Definition no_cache : CachedDerivatives := fun _ => None.
Definition CachedBarycentreDerivative (degree : nat) (bodies : list Body) (t : R) (cache : CachedDerivatives)
    : option R3 * CachedDerivatives :=
  let compute := (BarycentreDerivative degree bodies t,
                  fun d => if Nat.eqb d degree then Some (t, BarycentreDerivative degree bodies t) else cache d) in
  match cache degree with
  | Some (key, cached) => if Req_EM_T key t then (cached, cache) else compute
  | None => compute
  end.
(** Lines 57-66 with 29-33. *)
Definition sum_mu (bodies : list Body) : R := fold_left (fun s b => s + mu b) bodies 0.
(** geometry/barycentre_calculator_body.hpp: [Barycentre] of two points with two weights. *)
Definition Barycentre2 (p1 p2 : R3) (w1 w2 : R) : option R3 := BCGet zero3 (BCAddAll zero3 [(p1, w1); (p2, w2)] None).
(** Lines 429-462 and 374-427. *)
Definition barycentric_motion (primaries secondaries : list Body) (t : R) : option AcceleratedRigidMotion :=
  let m1 := sum_mu primaries in let m2 := sum_mu secondaries in
  match BarycentreDerivative 0 primaries t, BarycentreDerivative 1 primaries t,
        BarycentreDerivative 2 primaries t, BarycentreDerivative 3 primaries t,
        BarycentreDerivative 0 secondaries t, BarycentreDerivative 1 secondaries t,
        BarycentreDerivative 2 secondaries t, BarycentreDerivative 3 secondaries t with
  | Some q1, Some v1, Some a1, Some j1, Some q2, Some v2, Some a2, Some j2 =>
      let '(rotation, angular_velocity) := ComputeAngularDegreesOfFreedom q1 v1 a1 q2 v2 a2 in
      match Barycentre2 q1 q2 m1 m2, Barycentre2 v1 v2 m1 m2, Barycentre2 a1 a2 m1 m2 with
      | Some q, Some v, Some a =>
          Some (mkARM (mkRM (mkA q zero3 rotation) angular_velocity v)
                      (AngularAccelerationOf (sub3 q2 q1) (sub3 v2 v1) (sub3 a2 a1) (sub3 j2 j1)) a)
      | _, _, _ => None
      end
  | _, _, _, _, _, _, _, _ => None
  end.

(** * RotatingPulsatingReferenceFrame (rotating_pulsating_reference_frame_body.hpp) *)
(** Lines 202-230, given the barycentres of the primaries and of the secondaries and their derivatives. *)
Definition r_derivatives (q1 v1 a1 q2 v2 a2 : R3) : R * R * R :=
  let u := sub3 q1 q2 in let r := Norm u in
  let v := sub3 v1 v2 in let r1 := Dot u v / r in
  let gamma := sub3 a1 a2 in let r2 := Norm2 v / r + Dot u gamma / r - r1 ^ 2 / r in
  (r, r1, r2).
(** Lines 232-239; lengths are in metres. *)
Definition ToRotatingFrame (r r1 : R) : SimilarMotion := DilatationAboutOrigin r (r1 / r).
(** Lines 91-97; [rotating] is the motion of the rotating frame. *)
Definition pulsating_ToThisFrame (r r1 : R) (rotating : RigidMotion) : SimilarMotion :=
  SMMul false false (SMInverse false (ToRotatingFrame r r1)) (RMForget rotating).
(** Lines 99-118. *)
Definition pulsating_GeometricAcceleration (r r1 r2 : R) (rotating : AcceleratedRigidMotion) (g : R3 -> R3) (d : R3 * R3) : R3 :=
  let to_rotating_frame := ToRotatingFrame r r1 in
  let from_rotating_frame := SMInverse false to_rotating_frame in
  let qR := GeometricAcceleration false rotating g (sm_apply false to_rotating_frame d) in
  let qP := sub3 (fst d) zero3 in
  add3 (sub3 (scal3 (- r2 / r) qP) (scal3 (2 * r1 / r) (snd d)))
       (conf_vector false (slinear (similarity from_rotating_frame)) qR).
(** Lines 120-137. *)
Definition pulsating_RotationFreeGeometricAccelerationAtRest (r r1 r2 : R) (rotating : AcceleratedRigidMotion) (g : R3 -> R3)
    (p : R3) : R3 :=
  let to_rotating_frame := ToRotatingFrame r r1 in
  let from_rotating_frame := SMInverse false to_rotating_frame in
  let dVR := RotationFreeGeometricAccelerationAtRest false rotating g (sim false (similarity to_rotating_frame) p) in
  add3 (scal3 (- r2 / r) (sub3 p zero3)) (conf_vector false (slinear (similarity from_rotating_frame)) dVR).
(** Lines 139-154. *)
Definition pulsating_GeometricPotential (r r1 r2 : R) (rotating : AcceleratedRigidMotion) (U : R3 -> R) (p : R3) : R :=
  let to_rotating_frame := ToRotatingFrame r r1 in
  let VR := GeometricPotential false rotating U (sim false (similarity to_rotating_frame) p) in
  r2 * Norm2 (sub3 p zero3) / (2 * r) + VR / r ^ 2.

(** What the functions above are applied to at the time [t]: the members of lines 41-45, lines 95-96, 105, 126 and 144. *)
Definition pulsating_data (primaries secondaries : list Body) (t : R) : option (R * R * R * AcceleratedRigidMotion) :=
  match BarycentreDerivative 0 primaries t, BarycentreDerivative 1 primaries t, BarycentreDerivative 2 primaries t,
        BarycentreDerivative 0 secondaries t, BarycentreDerivative 1 secondaries t, BarycentreDerivative 2 secondaries t,
        barycentric_motion primaries secondaries t with
  | Some q1, Some v1, Some a1, Some q2, Some v2, Some a2, Some motion => Some (r_derivatives q1 v1 a1 q2 v2 a2, motion)
  | _, _, _, _, _, _, _ => None
  end.

(** * The Frenet frame (physics/reference_frame_body.hpp:38-54) *)
Definition FrenetFrame (v a : R3) : Quaternion :=
  let tangent := Normalize v in
  let normal := Normalize (OrthogonalizationAgainst a v) in
  RotFromAxes tangent normal (Cross tangent normal).
