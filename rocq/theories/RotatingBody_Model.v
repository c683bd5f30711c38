(** Model of the spherical coordinates of geometry/r3_element_body.hpp, of the axes and frames of
    physics/rotating_body.hpp and rotating_body_body.hpp and of physics/body_surface_frame_field_body.hpp.
    Numbers are real; angles are in radians and instants are numbers of seconds.  Vectors and bivectors are given by
    their coordinates. *)
From Coq Require Import Reals ZArith.
From Verif Require Import Geometry_Model.
Open Scope R_scope.

(** * Spherical coordinates (geometry/r3_element.hpp:93-115, r3_element_body.hpp) *)
Record SphericalCoordinates := mkSph { radius : R; latitude : R; longitude : R }.
(** geometry/r3_element_body.hpp:239-248. *)
Definition RadiusLatitudeLongitude (r b l : R) : SphericalCoordinates := mkSph r b l.
(** geometry/r3_element_body.hpp:212-219. *)
Definition ToCartesian (s : SphericalCoordinates) : R3 :=
  mk3 (radius s * cos (longitude s) * cos (latitude s))
      (radius s * sin (longitude s) * cos (latitude s))
      (radius s * sin (latitude s)).
(** numerics/elementary_functions_body.hpp:225-231: std::atan2, on reals (there is a single zero). *)
Definition ArcTan2 (y x : R) : R :=
  if Rlt_dec 0 x then atan (y / x)
  else if Rlt_dec x 0 then (if Rle_dec 0 y then atan (y / x) + PI else atan (y / x) - PI)
  else if Rlt_dec 0 y then PI / 2 else if Rlt_dec y 0 then - (PI / 2) else 0.
(** geometry/r3_element_body.hpp:175-182; [None] for the vector 0, for which 0 / 0 makes the latitude a NaN. *)
Definition ToSpherical (v : R3) : option SphericalCoordinates :=
  let r := Norm v in
  if Req_EM_T r 0 then None else Some (mkSph r (asin (cz v / r)) (ArcTan2 (cy v) (cx v))).

(** * RotatingBody *)
(** physics/rotating_body.hpp:44-87: the parameters that define the axes; the radii and the atmosphere are left out. *)
Record Parameters := mkParameters {
  reference_angle : R;
  reference_instant : R;
  angular_frequency : R;
  right_ascension_of_pole : R;
  declination_of_pole : R }.
(** physics/rotating_body_body.hpp:43-44: [None] is the CHECK failure. *)
Definition make_parameters (p : Parameters) : option Parameters :=
  if Req_EM_T (angular_frequency p) 0 then None else Some p.
(** physics/rotating_body_body.hpp:70-73. *)
Definition polar_axis (p : Parameters) : R3 :=
  ToCartesian (RadiusLatitudeLongitude 1 (declination_of_pole p) (right_ascension_of_pole p)).
(** physics/rotating_body_body.hpp:74-78. *)
Definition biequatorial (p : Parameters) : R3 :=
  ToCartesian (RadiusLatitudeLongitude 1 0 (PI / 2 + right_ascension_of_pole p)).
(** physics/rotating_body_body.hpp:79 with geometry/grassmann_body.hpp:246-252. *)
Definition equatorial (p : Parameters) : R3 := Cross (biequatorial p) (polar_axis p).
(** physics/rotating_body_body.hpp:80-81. *)
Definition angular_velocity (p : Parameters) : R3 := scal3 (angular_frequency p) (polar_axis p).
(** physics/rotating_body_body.hpp:123-133. *)
Definition ToCelestialFrame (p : Parameters) : Quaternion :=
  RotToAxes (equatorial p) (biequatorial p) (Cross (equatorial p) (biequatorial p)).
(** physics/rotating_body_body.hpp:156-160. *)
Definition AngleAt (p : Parameters) (t : R) : R :=
  reference_angle p + (t - reference_instant p) * angular_frequency p.
(** physics/rotating_body.hpp:181-191, with EulerAngles::ZXZ of geometry/rotation.hpp. *)
Definition FromSurfaceFrame (p : Parameters) (t : R) : Quaternion :=
  RotAnglesDefinesFrom (PI / 2 + right_ascension_of_pole p) (PI / 2 - declination_of_pole p) (AngleAt p t)
    (AxisConvention 2 0 2).
(** physics/rotating_body.hpp:193-198. *)
Definition ToSurfaceFrame (p : Parameters) (t : R) : Quaternion := RotInverse (FromSurfaceFrame p t).

(** * BodySurfaceFrameField (physics/body_surface_frame_field_body.hpp:25-45) *)
(** Lines 29-42. *)
Definition zenith (body_position q : R3) : R3 := Normalize (sub3 q body_position).
Definition axis_projection (axis body_position q : R3) : R := Dot (zenith body_position q) axis.
Definition field_north (axis body_position q : R3) : R3 :=
  let lambda := 1 / sqrt (1 - axis_projection axis body_position q * axis_projection axis body_position q) in
  let mu := - lambda * axis_projection axis body_position q in
  add3 (scal3 lambda axis) (scal3 mu (zenith body_position q)).
Definition field_nadir (body_position q : R3) : R3 := opp3 (zenith body_position q).
Definition field_east (axis body_position q : R3) : R3 :=
  Cross (field_nadir body_position q) (field_north axis body_position q).
(** Line 44. *)
Definition FromThisFrame (axis body_position q : R3) : Quaternion :=
  RotFromAxes (field_north axis body_position q) (field_east axis body_position q) (field_nadir body_position q).
