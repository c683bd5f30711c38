(** C64 (the axes and the frames of rotating bodies). *)
From Coq Require Import Reals ZArith Lra List.
From Verif Require Import Geometry_Model Geometry_Proofs Geometry_Proofs2 RotatingBody_Model RotatingBody_Proofs.
From Verif Require Geopotential_Model GeopotentialField_Proofs.
Import ListNotations.
Open Scope R_scope.

(** The polar axis has the right ascension and declination of the pole; [equatorial], [biequatorial] and [polar_axis] are
    a right-handed orthonormal basis; [biequatorial] lies in the equatorial plane of the frame and points to the ascending
    node of the equator of the body. *)
Theorem C64_axes : forall p,
  right_handed (equatorial p) (biequatorial p) (polar_axis p) /\
  polar_axis p = mk3 (cos (declination_of_pole p) * cos (right_ascension_of_pole p))
                     (cos (declination_of_pole p) * sin (right_ascension_of_pole p)) (sin (declination_of_pole p)) /\
  Dot (biequatorial p) e_z = 0 /\
  Cross e_z (polar_axis p) = scal3 (cos (declination_of_pole p)) (biequatorial p).
Proof.
  intros p. split; [apply axes_right_handed|]. destruct (axes_values p) as (-> & -> & _).
  unfold Dot, Cross, scal3, e_z. cbn [cx cy cz]. repeat split; try apply mk3_eq; ring.
Qed.
Print Assumptions C64_axes.

Theorem C64_celestial : forall p,
  unit_q (ToCelestialFrame p) /\ rotate (ToCelestialFrame p) (equatorial p) = e_x /\
  rotate (ToCelestialFrame p) (biequatorial p) = e_y /\ rotate (ToCelestialFrame p) (polar_axis p) = e_z.
Proof. exact celestial_frame. Qed.
Print Assumptions C64_celestial.

(** The axes of the surface are a right-handed orthonormal basis whose third vector is the polar axis. *)
Theorem C64_surface : forall p t, unit_q (FromSurfaceFrame p t) /\ rotate (FromSurfaceFrame p t) e_z = polar_axis p /\
  right_handed (rotate (FromSurfaceFrame p t) e_x) (rotate (FromSurfaceFrame p t) e_y) (polar_axis p) /\
  (forall v, rotate (ToSurfaceFrame p t) (rotate (FromSurfaceFrame p t) v) = v /\
             rotate (FromSurfaceFrame p t) (rotate (ToSurfaceFrame p t) v) = v).
Proof.
  intros p t. destruct (surface_frame p t) as (U & _ & _ & Z). split; [exact U|]. split; [exact Z|].
  split; [apply surface_right_handed|]. intros v. split; [now apply rotate_inv | now apply rotate_inv'].
Qed.
Print Assumptions C64_surface.

(** The point of planetocentric latitude [b] and longitude [l] is seen at the angle [AngleAt t + l] east of the node. *)
Theorem C64_planetocentric : forall p t r b l,
  rotate (FromSurfaceFrame p t) (ToCartesian (RadiusLatitudeLongitude r b l)) =
  add3 (scal3 (r * cos b) (add3 (scal3 (cos (AngleAt p t + l)) (biequatorial p))
                                (scal3 (sin (AngleAt p t + l)) (Cross (polar_axis p) (biequatorial p)))))
       (scal3 (r * sin b) (polar_axis p)).
Proof.
  intros. rewrite planetocentric. do 4 f_equal. pose proof (axes_right_handed p) as H.
  destruct (right_handed_cross _ _ _ H) as (_ & X & _). rewrite X at 1.
  unfold Cross, opp3. cbn [cx cy cz]. apply mk3_eq; ring.
Qed.
Print Assumptions C64_planetocentric.

(** The angle of the prime meridian at the reference instant is the reference angle, and it grows at the angular
    frequency; vectors fixed to the surface turn at the angular velocity, which does not vanish. *)
Theorem C64_rotation : forall p q, make_parameters p = Some q ->
  AngleAt q (reference_instant q) = reference_angle p /\
  (forall t s, AngleAt q s - AngleAt q t = (s - t) * angular_frequency p) /\
  angular_velocity q = scal3 (angular_frequency p) (polar_axis p) /\ Norm2 (angular_velocity q) <> 0 /\
  (forall v t, has_derivative (fun s => rotate (FromSurfaceFrame q s) v) t
                 (Cross (angular_velocity q) (rotate (FromSurfaceFrame q t) v))).
Proof.
  intros p q H. unfold make_parameters in H. destruct (Req_EM_T (angular_frequency p) 0) as [|N]; [discriminate|].
  injection H as <-. split; [unfold AngleAt; ring|]. split; [intros; unfold AngleAt; ring|]. split; [reflexivity|].
  split; [|intros; apply surface_derivative].
  destruct (axes_right_handed p) as (_ & _ & Z & _).
  replace (Norm2 (angular_velocity p)) with (angular_frequency p * angular_frequency p * Dot (polar_axis p) (polar_axis p))
    by (unfold angular_velocity, Norm2, Dot, scal3; cbn [cx cy cz]; ring).
  rewrite Z. nra.
Qed.
Print Assumptions C64_rotation.
Theorem C64_not_rotating : forall p, make_parameters p = None <-> angular_frequency p = 0.
Proof. intros p. unfold make_parameters. destruct (Req_EM_T (angular_frequency p) 0); split; intros; congruence. Qed.
Print Assumptions C64_not_rotating.

(** The axes from which the geopotential is computed satisfy the hypothesis of C62. *)
Theorem C64_geopotential_axes : forall p t body,
  Geopotential_Model.surface_x body = rotate (FromSurfaceFrame p t) e_x ->
  Geopotential_Model.surface_y body = rotate (FromSurfaceFrame p t) e_y ->
  Geopotential_Model.polar_axis body = polar_axis p ->
  Geopotential_Model.equatorial body = equatorial p ->
  Geopotential_Model.biequatorial body = biequatorial p ->
  GeopotentialField_Proofs.well_oriented body.
Proof.
  intros p t body X Y Z E B. unfold GeopotentialField_Proofs.well_oriented, GeopotentialField_Proofs.orthonormal.
  rewrite X, Y, Z, E, B. pose proof (surface_right_handed p t) as HS. pose proof (axes_right_handed p) as A.
  destruct (right_handed_cross _ _ _ HS) as (C1 & _ & _). destruct (right_handed_cross _ _ _ A) as (C2 & _ & _).
  destruct HS as (S1 & S2 & _ & S4 & _). destruct A as (A1 & A2 & _ & A4 & _). auto 8.
Qed.
Print Assumptions C64_geopotential_axes.

(** North, east, nadir: the third axis goes from the point to the centre of the body, the first one is in the plane of the
    third one and of the polar axis and on the side of the pole, the second one is to the east. *)
Theorem C64_frame_field : forall axis body q, Norm2 axis = 1 -> Cross (sub3 q body) axis <> zero3 ->
  let f := rotate (FromThisFrame axis body q) in
  unit_q (FromThisFrame axis body q) /\
  (exists k, 0 < k /\ sub3 body q = scal3 k (f e_z)) /\
  (exists k m, f e_x = add3 (scal3 k axis) (scal3 m (f e_z))) /\ 0 < Dot (f e_x) axis /\
  (exists k, 0 < k /\ Cross axis (sub3 q body) = scal3 k (f e_y)).
Proof.
  intros axis body q A C f. destruct (frame_field_rotation axis body q A C) as (U & X & Y & Z). subst f. cbn beta.
  rewrite X, Y, Z. destruct (frame_field axis body q A C) as (_ & H1 & H2 & H3 & H4). auto 8.
Qed.
Print Assumptions C64_frame_field.

(** Spherical coordinates. *)
Theorem C64_spherical : forall v, v <> zero3 ->
  exists s, ToSpherical v = Some s /\ ToCartesian s = v /\
    0 < radius s /\ - (PI / 2) <= latitude s <= PI / 2 /\ - PI < longitude s <= PI.
Proof. exact to_spherical. Qed.
Print Assumptions C64_spherical.
Theorem C64_cartesian : forall r b l, 0 < r -> - (PI / 2) < b < PI / 2 -> - PI < l <= PI ->
  ToSpherical (ToCartesian (RadiusLatitudeLongitude r b l)) = Some (RadiusLatitudeLongitude r b l).
Proof. exact from_spherical. Qed.
Print Assumptions C64_cartesian.
(** The null vector has no spherical coordinates: its latitude is a NaN. *)
Theorem C64_spherical_zero_refuted : ~ forall v, exists s, ToSpherical v = Some s /\ ToCartesian s = v.
Proof. intros H. destruct (H zero3) as (s & E & _). rewrite to_spherical_zero in E. discriminate. Qed.
Print Assumptions C64_spherical_zero_refuted.

(** A body whose pole is on the x axis of the frame, rotating by one radian per second. *)
Example C64_example : let p := mkParameters 0 0 1 0 0 in
  make_parameters p = Some p /\ polar_axis p = e_x /\ biequatorial p = e_y /\ equatorial p = opp3 e_z /\
  rotate (FromSurfaceFrame p (PI / 2)) e_x = e_z.
Proof.
  intros p. split; [unfold make_parameters; cbn; destruct (Req_EM_T 1 0); [lra|reflexivity]|].
  destruct (axes_values p) as (P & B & E). destruct (surface_frame p (PI / 2)) as (_ & X & _).
  rewrite X, P, B, E. unfold AngleAt, p. cbn [right_ascension_of_pole declination_of_pole reference_angle reference_instant angular_frequency].
  replace (0 + (PI / 2 - 0) * 1) with (PI / 2) by ring.
  rewrite cos_0, sin_0, cos_PI2, sin_PI2. unfold e_x, e_y, e_z, opp3, add3, scal3. cbn [cx cy cz].
  repeat split; apply mk3_eq; ring.
Qed.
(** The hypotheses of the frame field hold for a point on the x axis and a body at the origin whose axis is z. *)
Example C64_frame_field_example : Norm2 e_z = 1 /\ Cross (sub3 (mk3 2 0 0) zero3) e_z <> zero3.
Proof.
  unfold Norm2, e_z, Cross, sub3, zero3. cbn [cx cy cz]. split; [ring|]. intros H. injection H. lra.
Qed.
