(** Specifications and lemmas for C64. *)
From Coq Require Import Reals Lra List ZArith Lia.
From Verif Require Import Geometry_Model Geometry_Proofs Geometry_Proofs2 VectorCalculus_Proofs RotatingBody_Model.
Import ListNotations.
Open Scope R_scope.

Ltac unf := unfold polar_axis, biequatorial, equatorial, angular_velocity, RadiusLatitudeLongitude, ToCartesian, Cross,
  Dot, scal3, add3, sub3, opp3, Norm2; cbn [radius latitude longitude cx cy cz].

(** * Spherical coordinates *)
(** [(r, b, l)] are the spherical coordinates of [v] in the usual ranges. *)
Definition spherical_of (v : R3) (r b l : R) : Prop :=
  0 < r /\ - (PI / 2) <= b <= PI / 2 /\ - PI < l <= PI /\
  cx v = r * cos b * cos l /\ cy v = r * cos b * sin l /\ cz v = r * sin b.

Lemma atan_cs t : 0 < cos (atan t) /\ sin (atan t) = t * cos (atan t) /\
  cos (atan t) * cos (atan t) * (1 + t * t) = 1.
Proof.
  pose proof (cos_atan_pos t) as C. split; [auto|].
  assert (S : sin (atan t) = t * cos (atan t)).
  { rewrite <- (tan_atan t) at 2. unfold tan. field. lra. }
  split; [exact S|]. pose proof (sin2_cos2 (atan t)) as H. unfold Rsqr in H. rewrite S in H. lra.
Qed.

(** The polar angle: [x] and [y] are the distance times its cosine and sine. *)
Lemma arctan2_polar y x : (x <> 0 \/ y <> 0) ->
  - PI < ArcTan2 y x <= PI /\
  x = sqrt (x * x + y * y) * cos (ArcTan2 y x) /\ y = sqrt (x * x + y * y) * sin (ArcTan2 y x).
Proof.
  intros NZ. pose proof PI_RGT_0 as P. unfold ArcTan2.
  assert (K : x <> 0 -> sqrt (x * x + y * y) * cos (atan (y / x)) = Rabs x).
  { intros X. destruct (atan_cs (y / x)) as (C & _ & E). set (c := cos (atan (y / x))) in *.
    assert (SQ : sqrt (x * x + y * y) * c = sqrt ((x * x + y * y) * (c * c))).
    { rewrite sqrt_mult_alt by nra. f_equal. now rewrite sqrt_square by lra. }
    rewrite SQ. replace ((x * x + y * y) * (c * c)) with (x * x * (c * c * (1 + y / x * (y / x)))) by (field; auto).
    rewrite E, Rmult_1_r. apply sqrt_Rsqr_abs. }
  destruct (Rlt_dec 0 x) as [X|X].
  - pose proof (atan_bound (y / x)). specialize (K ltac:(lra)). rewrite Rabs_right in K by lra.
    destruct (atan_cs (y / x)) as (C & S & _). split; [lra|]. split; [lra|].
    rewrite S. transitivity (y / x * x); [field; lra|]. rewrite <- K at 2. ring.
  - destruct (Rlt_dec x 0) as [X'|X'].
    + specialize (K ltac:(lra)). rewrite Rabs_left in K by lra.
      destruct (atan_cs (y / x)) as (C & S & _). pose proof (atan_bound (y / x)) as B.
      assert (SS : y = - (sqrt (x * x + y * y) * sin (atan (y / x)))).
      { rewrite S. transitivity (y / x * x); [field; lra|]. replace x with (- (sqrt (x * x + y * y) * cos (atan (y / x)))) at 2 by lra. ring. }
      destruct (Rle_dec 0 y) as [Y|Y].
      * assert (atan (y / x) <= 0).
        { destruct (Req_dec y 0) as [->|]; [unfold Rdiv; rewrite Rmult_0_l, atan_0; lra|].
          left. rewrite <- atan_0. apply atan_increasing. unfold Rdiv. assert (/ x < 0) by now apply Rinv_lt_0_compat. nra. }
        rewrite neg_cos, neg_sin. lra.
      * assert (0 < atan (y / x)).
        { rewrite <- atan_0. apply atan_increasing. unfold Rdiv. assert (/ x < 0) by now apply Rinv_lt_0_compat. nra. }
        rewrite cos_minus, sin_minus, cos_PI, sin_PI. lra.
    + assert (x = 0) by lra. subst x. replace (0 * 0 + y * y) with (y * y) by ring.
      destruct (Rlt_dec 0 y) as [Y|Y].
      * rewrite sqrt_square, cos_PI2, sin_PI2 by lra. lra.
      * destruct (Rlt_dec y 0); [|lra]. replace (y * y) with (- y * - y) by ring.
        rewrite sqrt_square, cos_neg, sin_neg, cos_PI2, sin_PI2 by lra. lra.
Qed.

(** Angles in a turn are determined by their cosine and sine. *)
Lemma angle_unique a b : - PI < a <= PI -> - PI < b <= PI -> cos a = cos b -> sin a = sin b -> a = b.
Proof.
  intros A B C S. pose proof PI_RGT_0.
  assert (H1 : cos (a - b) = 1).
  { rewrite cos_minus, C, S. pose proof (sin2_cos2 b) as E. unfold Rsqr in E. lra. }
  assert (H0 : sin ((a - b) / 2) = 0).
  { replace (a - b) with (2 * ((a - b) / 2)) in H1 by field. rewrite cos_2a_sin in H1. nra. }
  destruct (Rtotal_order ((a - b) / 2) 0) as [L|[E|G]]; [|lra|].
  - assert (0 < sin (- ((a - b) / 2))) by (apply sin_gt_0; lra). rewrite sin_neg in *. lra.
  - assert (0 < sin ((a - b) / 2)) by (apply sin_gt_0; lra). lra.
Qed.

Lemma to_spherical_zero : ToSpherical zero3 = None.
Proof.
  unfold ToSpherical, Norm, Norm2, zero3. cbn [cx cy cz].
  replace (0 * 0 + 0 * 0 + 0 * 0) with 0 by ring. rewrite sqrt_0. destruct (Req_EM_T 0 0); [reflexivity|lra].
Qed.

Lemma to_spherical v : v <> zero3 ->
  exists s, ToSpherical v = Some s /\ ToCartesian s = v /\
    0 < radius s /\ - (PI / 2) <= latitude s <= PI / 2 /\ - PI < longitude s <= PI.
Proof.
  intros NZ. pose proof (norm_pos v NZ) as NP. pose proof (norm_sq v) as NS.
  unfold ToSpherical. destruct (Req_EM_T (Norm v) 0); [lra|].
  eexists. split; [reflexivity|]. cbn [radius latitude longitude].
  set (r := Norm v) in *. destruct v as [x y z]. unfold Norm2 in NS. cbn [cx cy cz] in *.
  assert (Z : -1 <= z / r <= 1).
  { assert (Rabs z <= r) by (apply Rsqr_incr_0_var; [unfold Rsqr; rewrite <- Rabs_mult, Rabs_right by nra; nra | lra]).
    assert (- r <= z <= r) by (unfold Rabs in *; destruct (Rcase_abs z); lra).
    split; apply Rmult_le_reg_r with r; auto; unfold Rdiv; rewrite Rmult_assoc, Rinv_l; lra. }
  pose proof (asin_bound (z / r)) as AB.
  assert (CA : r * cos (asin (z / r)) = sqrt (x * x + y * y)).
  { rewrite cos_asin by auto. rewrite <- (sqrt_square r) at 1 by lra. rewrite <- sqrt_mult_alt by nra.
    f_equal. unfold Rsqr. transitivity (r * r - z * z); [field; lra | lra]. }
  assert (SA : r * sin (asin (z / r)) = z) by (rewrite sin_asin by auto; field; lra).
  split; [|split; [lra|split; [lra|]]].
  - unfold ToCartesian. cbn [radius latitude longitude]. apply mk3_eq; auto.
    + destruct (Req_dec x 0) as [X|X]; [destruct (Req_dec y 0) as [Y|Y]|].
      { subst. replace (0 * 0 + 0 * 0) with 0 in CA by ring. rewrite sqrt_0 in CA.
        transitivity (r * cos (asin (z / r)) * cos (ArcTan2 0 0)); [ring|rewrite CA; ring]. }
      all: destruct (arctan2_polar y x) as (_ & E & _); [auto|];
        rewrite E at 2; rewrite <- CA; ring.
    + destruct (Req_dec x 0) as [X|X]; [destruct (Req_dec y 0) as [Y|Y]|].
      { subst. replace (0 * 0 + 0 * 0) with 0 in CA by ring. rewrite sqrt_0 in CA.
        transitivity (r * cos (asin (z / r)) * sin (ArcTan2 0 0)); [ring|rewrite CA; ring]. }
      all: destruct (arctan2_polar y x) as (_ & _ & E); [auto|];
        rewrite E at 2; rewrite <- CA; ring.
  - destruct (Req_dec x 0) as [X|X]; [destruct (Req_dec y 0) as [Y|Y]|].
    { subst. unfold ArcTan2. destruct (Rlt_dec 0 0); [lra|]. pose proof PI_RGT_0. lra. }
    all: apply arctan2_polar; auto.
Qed.

Lemma from_spherical r b l : 0 < r -> - (PI / 2) < b < PI / 2 -> - PI < l <= PI ->
  ToSpherical (ToCartesian (RadiusLatitudeLongitude r b l)) = Some (RadiusLatitudeLongitude r b l).
Proof.
  intros HR HB HL. unfold RadiusLatitudeLongitude. assert (CB : 0 < cos b) by (apply cos_gt_0; lra).
  set (v := ToCartesian (mkSph r b l)).
  assert (N2 : Norm2 v = r * r).
  { unfold v, Norm2, ToCartesian. cbn [radius latitude longitude cx cy cz].
    pose proof (sin2_cos2 b) as B. pose proof (sin2_cos2 l) as L. unfold Rsqr in *.
    transitivity (r * r * ((sin l * sin l + cos l * cos l) * (cos b * cos b) + sin b * sin b)); [ring|].
    rewrite L, Rmult_1_l. replace (cos b * cos b + sin b * sin b) with 1 by lra. ring. }
  assert (N : Norm v = r) by (unfold Norm; rewrite N2; apply sqrt_square; lra).
  assert (NZ : v <> zero3) by (intros E; rewrite E in N2; unfold Norm2, zero3 in N2; cbn in N2; nra).
  destruct (to_spherical v NZ) as (s & E & C & P & BL & LL). rewrite E. f_equal.
  assert (R0 : radius s = r).
  { unfold ToSpherical in E. destruct (Req_EM_T (Norm v) 0); [discriminate|]. injection E. intros <-. exact N. }
  destruct s as [r' b' l']. cbn [radius latitude longitude] in *. subst r'.
  unfold v, ToCartesian in C. cbn [radius latitude longitude] in C. injection C. intros EZ EY EX.
  assert (b' = b).
  { assert (SE : sin b' = sin b) by (apply Rmult_eq_reg_l with r; lra).
    rewrite <- (asin_sin b') by lra. rewrite SE. apply asin_sin. lra. }
  subst b'. f_equal. apply angle_unique; auto.
  - apply Rmult_eq_reg_r with (r * cos b); [lra|]. apply Rmult_integral_contrapositive_currified; lra.
  - apply Rmult_eq_reg_r with (r * cos b); [lra|]. apply Rmult_integral_contrapositive_currified; lra.
Qed.

(** * The axes *)
(** The coordinates of the axes, from the angles. *)
Lemma axes_values p : let a := right_ascension_of_pole p in let d := declination_of_pole p in
  polar_axis p = mk3 (cos a * cos d) (sin a * cos d) (sin d) /\
  biequatorial p = mk3 (- sin a) (cos a) 0 /\
  equatorial p = mk3 (cos a * sin d) (sin a * sin d) (- cos d).
Proof.
  intros a d. subst a d.
  assert (B : biequatorial p = mk3 (- sin (right_ascension_of_pole p)) (cos (right_ascension_of_pole p)) 0).
  { unf. rewrite cos_0, sin_0, cos_plus, sin_plus, cos_PI2, sin_PI2. apply mk3_eq; ring. }
  split; [unf; apply mk3_eq; ring|]. split; [exact B|].
  unfold equatorial. rewrite B. unf. pose proof (sin2_cos2 (right_ascension_of_pole p)) as H. unfold Rsqr in H.
  apply mk3_eq; [ring | ring |].
  transitivity (- ((sin (right_ascension_of_pole p) * sin (right_ascension_of_pole p)
     + cos (right_ascension_of_pole p) * cos (right_ascension_of_pole p)) * cos (declination_of_pole p))); [ring|rewrite H; ring].
Qed.

Lemma axes_right_handed p : right_handed (equatorial p) (biequatorial p) (polar_axis p).
Proof.
  destruct (axes_values p) as (-> & -> & ->).
  set (a := right_ascension_of_pole p). set (d := declination_of_pole p).
  pose proof (sin2_cos2 a) as A. pose proof (sin2_cos2 d) as D. unfold Rsqr in *.
  assert (E1 : cos a * cos a = 1 - sin a * sin a) by lra. assert (E2 : cos d * cos d = 1 - sin d * sin d) by lra.
  unfold right_handed, volume, Norm2, Dot. cbn [cx cy cz].
  repeat split; ring_simplify;
    repeat (rewrite ?(Rmult_comm (cos a ^ 2)), ?(Rmult_comm (cos d ^ 2)));
    replace (cos a ^ 2) with (1 - sin a ^ 2) by (cbn [pow]; lra);
    replace (cos d ^ 2) with (1 - sin d ^ 2) by (cbn [pow]; lra); try ring.
Qed.

Lemma celestial_frame p :
  unit_q (ToCelestialFrame p) /\ rotate (ToCelestialFrame p) (equatorial p) = e_x /\
  rotate (ToCelestialFrame p) (biequatorial p) = e_y /\ rotate (ToCelestialFrame p) (polar_axis p) = e_z.
Proof.
  pose proof (axes_right_handed p) as H. destruct (right_handed_cross _ _ _ H) as (Z & _ & _).
  unfold ToCelestialFrame. rewrite <- Z. now apply to_axes.
Qed.

(** The surface frame: the axes of the surface, seen in [Frame], after a rotation by [AngleAt] around the pole from the
    node Q ([biequatorial]) and the direction a quarter turn to its east (minus [equatorial]). *)
Lemma surface_frame p t : let w := AngleAt p t in
  unit_q (FromSurfaceFrame p t) /\
  rotate (FromSurfaceFrame p t) e_x = add3 (scal3 (cos w) (biequatorial p)) (scal3 (- sin w) (equatorial p)) /\
  rotate (FromSurfaceFrame p t) e_y = add3 (scal3 (- sin w) (biequatorial p)) (scal3 (- cos w) (equatorial p)) /\
  rotate (FromSurfaceFrame p t) e_z = polar_axis p.
Proof.
  intros w. destruct (axes_values p) as (-> & -> & ->).
  destruct (angles_from 2 0 2 (PI / 2 + right_ascension_of_pole p) (PI / 2 - declination_of_pole p) (AngleAt p t))
    as (U & H); try lia. unfold FromSurfaceFrame. split; [exact U|]. rewrite !H. clear H U.
  change (rot_axis 2) with rot_z. change (rot_axis 0) with rot_x. unfold rot_z, rot_x, e_x, e_y, e_z. cbn [cx cy cz].
  rewrite !cos_plus, !sin_plus, !cos_minus, !sin_minus, !cos_PI2, !sin_PI2. fold w.
  unfold add3, scal3. cbn [cx cy cz]. repeat split; apply mk3_eq; ring.
Qed.

Lemma surface_right_handed p t :
  right_handed (rotate (FromSurfaceFrame p t) e_x) (rotate (FromSurfaceFrame p t) e_y) (polar_axis p).
Proof.
  destruct (surface_frame p t) as (U & _ & _ & Z). rewrite <- Z.
  assert (B : right_handed e_x e_y e_z).
  { unfold right_handed, volume, Norm2, Dot, e_x, e_y, e_z. cbn [cx cy cz]. repeat split; ring. }
  revert B. unfold right_handed. intros (X & Y & W & XY & YZ & ZX & V).
  rewrite !volume_cross in *. rewrite rotate_cross, !rotate_dot by auto.
  repeat split; auto.
Qed.

(** A vector fixed to the surface turns with the angular velocity. *)
Lemma surface_derivative p v t :
  has_derivative (fun s => rotate (FromSurfaceFrame p s) v) t
    (Cross (angular_velocity p) (rotate (FromSurfaceFrame p t) v)).
Proof.
  set (D := fun s => rotate (FromSurfaceFrame p s) v).
  assert (E : forall s, D s = add3 (scal3 (cx v) (rotate (FromSurfaceFrame p s) e_x))
     (add3 (scal3 (cy v) (rotate (FromSurfaceFrame p s) e_y)) (scal3 (cz v) (rotate (FromSurfaceFrame p s) e_z)))).
  { intros s. unfold D. rewrite <- !rotate_scal, <- !rotate_add. f_equal. destruct v.
    unfold e_x, e_y, e_z, scal3, add3. cbn. apply mk3_eq; ring. }
  assert (W : derivable_pt_lim (AngleAt p) t (angular_frequency p)).
  { unfold AngleAt. eapply d_eq; [apply d_plus; [apply d_const|apply d_mult; [apply d_minus; [apply d_id|apply d_const]|apply d_const]]|cbn beta; ring]. }
  assert (DC : derivable_pt_lim (fun s => cos (AngleAt p s)) t (- sin (AngleAt p t) * angular_frequency p)).
  { apply (derivable_pt_lim_comp (AngleAt p) cos); auto. apply derivable_pt_lim_cos. }
  assert (DS : derivable_pt_lim (fun s => sin (AngleAt p s)) t (cos (AngleAt p t) * angular_frequency p)).
  { apply (derivable_pt_lim_comp (AngleAt p) sin); auto. apply derivable_pt_lim_sin. }
  pose proof (axes_right_handed p) as RH. destruct (right_handed_cross _ _ _ RH) as (C1 & C2 & C3).
  set (eq := equatorial p) in *. set (bi := biequatorial p) in *. set (po := polar_axis p) in *.
  assert (V : forall s, D s = add3 (scal3 (cos (AngleAt p s)) (sub3 (scal3 (cx v) bi) (scal3 (cy v) eq)))
                (add3 (scal3 (sin (AngleAt p s)) (opp3 (add3 (scal3 (cx v) eq) (scal3 (cy v) bi)))) (scal3 (cz v) po))).
  { intros s. rewrite E. destruct (surface_frame p s) as (_ & -> & -> & ->). fold eq bi po.
    unfold add3, sub3, opp3, scal3. cbn [cx cy cz]. apply mk3_eq; ring. }
  assert (X : Cross (angular_velocity p) (D t) =
     scal3 (angular_frequency p) (sub3 (scal3 (cos (AngleAt p t)) (opp3 (add3 (scal3 (cx v) eq) (scal3 (cy v) bi))))
       (scal3 (sin (AngleAt p t)) (sub3 (scal3 (cx v) bi) (scal3 (cy v) eq))))).
  { rewrite V. unfold angular_velocity. fold po.
    transitivity (scal3 (angular_frequency p) (add3 (scal3 (cos (AngleAt p t)) (sub3 (scal3 (cx v) (opp3 (Cross bi po))) (scal3 (cy v) (Cross po eq))))
      (scal3 (sin (AngleAt p t)) (opp3 (add3 (scal3 (cx v) (Cross po eq)) (scal3 (cy v) (opp3 (Cross bi po)))))))).
    { unfold Cross, add3, sub3, opp3, scal3. cbn [cx cy cz]. apply mk3_eq; ring. }
    rewrite <- C2, <- C3. unfold add3, sub3, opp3, scal3. cbn [cx cy cz]. apply mk3_eq; ring. }
  change (rotate (FromSurfaceFrame p t) v) with (D t). rewrite X. clear X.
  eapply v_ext; [intros s; symmetry; apply V|].
  eapply v_eq; [apply v_add; [apply v_scal; [exact DC|apply v_const]|apply v_add; [apply v_scal; [exact DS|apply v_const]|apply v_const]]|].
  unfold add3, sub3, opp3, scal3, zero3. cbn [cx cy cz]. apply mk3_eq; ring.
Qed.

(** Planetocentric coordinates: the point of longitude [l] and latitude [b] is seen in [Frame] at angle [AngleAt + l] east
    of the node, measured around the pole, and at angle [b] from the equator. *)
Lemma planetocentric p t r b l : let w := AngleAt p t + l in
  rotate (FromSurfaceFrame p t) (ToCartesian (RadiusLatitudeLongitude r b l)) =
  add3 (scal3 (r * cos b) (add3 (scal3 (cos w) (biequatorial p)) (scal3 (sin w) (opp3 (equatorial p)))))
       (scal3 (r * sin b) (polar_axis p)).
Proof.
  intros w. set (v := ToCartesian _).
  assert (E : v = add3 (scal3 (cx v) e_x) (add3 (scal3 (cy v) e_y) (scal3 (cz v) e_z))).
  { destruct v. unfold e_x, e_y, e_z, scal3, add3. cbn. apply mk3_eq; ring. }
  rewrite E, !rotate_add, !rotate_scal. destruct (surface_frame p t) as (_ & -> & -> & ->).
  unfold v, w, ToCartesian, RadiusLatitudeLongitude. cbn [radius latitude longitude cx cy cz].
  rewrite cos_plus, sin_plus. unfold add3, opp3, scal3. cbn [cx cy cz]. apply mk3_eq; ring.
Qed.

(** * The frame field *)
Lemma cauchy_unit u v : Norm2 u = 1 -> Norm2 v = 1 -> Cross u v <> zero3 -> 0 < 1 - Dot u v * Dot u v.
Proof.
  intros U V C. pose proof (norm2_pos _ C) as P.
  assert (L : Norm2 (Cross u v) = Norm2 u * Norm2 v - Dot u v * Dot u v) by (unfold Norm2, Cross, Dot; cbn [cx cy cz]; ring).
  rewrite U, V in L. lra.
Qed.

Lemma frame_field axis body q : Norm2 axis = 1 -> Cross (sub3 q body) axis <> zero3 ->
  right_handed (field_north axis body q) (field_east axis body q) (field_nadir body q) /\
  (exists k, 0 < k /\ sub3 body q = scal3 k (field_nadir body q)) /\
  0 < Dot (field_north axis body q) axis /\
  (exists k m, field_north axis body q = add3 (scal3 k axis) (scal3 m (field_nadir body q))) /\
  (exists k, 0 < k /\ Cross axis (sub3 q body) = scal3 k (field_east axis body q)).
Proof.
  intros A C. set (d := sub3 q body) in *.
  assert (NZ : d <> zero3).
  { intros E. apply C. rewrite E. unfold Cross, zero3. cbn. apply mk3_eq; ring. }
  pose proof (normalize_unit d NZ) as U. pose proof (normalize_scal d NZ) as SC. pose proof (norm_pos d NZ) as NP.
  set (z := Normalize d) in *.
  assert (CZ : Cross z axis <> zero3).
  { intros E. apply C. rewrite <- SC.
    transitivity (scal3 (Norm d) (Cross z axis)); [unfold Cross, scal3; cbn; apply mk3_eq; ring|].
    rewrite E. unfold scal3, zero3. cbn. apply mk3_eq; ring. }
  pose proof (cauchy_unit z axis U A CZ) as P. set (c := Dot z axis) in *.
  assert (EN : field_north axis body q = add3 (scal3 (1 / sqrt (1 - c * c)) axis) (scal3 (- (1 / sqrt (1 - c * c)) * c) z)) by reflexivity.
  set (s := sqrt (1 - c * c)) in *. assert (S0 : 0 < s) by (apply sqrt_lt_R0; lra).
  assert (SS : s * s = 1 - c * c) by (apply sqrt_sqrt; lra).
  set (l := 1 / s) in *. assert (L0 : 0 < l) by (apply Rdiv_lt_0_compat; lra).
  assert (LL : l * l * (1 - c * c) = 1) by (unfold l; rewrite <- SS; field; lra).
  assert (ED : field_nadir body q = opp3 z) by reflexivity.
  assert (EE : field_east axis body q = scal3 l (Cross axis z)).
  { unfold field_east. rewrite EN, ED. unfold Cross, add3, scal3, opp3. cbn [cx cy cz]. apply mk3_eq; ring. }
  rewrite EE, EN, ED.
  split; [|split; [|split; [|split]]].
  - assert (NE : Norm2 (Cross axis z) = 1 - c * c).
    { transitivity (Norm2 axis * Norm2 z - c * c); [unfold c, Norm2, Cross, Dot; cbn [cx cy cz]; ring|]. rewrite A, U. ring. }
    assert (D1 : Dot axis axis = 1) by exact A. assert (D2 : Dot z z = 1) by exact U.
    unfold right_handed. repeat split.
    + transitivity (l * l * (Dot axis axis - 2 * (c * c) + c * c * Dot z z)); [unfold c, Dot, add3, scal3; cbn [cx cy cz]; ring|].
      rewrite D1, D2. transitivity (l * l * (1 - c * c)); [ring | exact LL].
    + transitivity (l * l * Norm2 (Cross axis z)); [unfold Norm2, Dot, scal3; cbn [cx cy cz]; ring|]. now rewrite NE.
    + transitivity (Norm2 z); [unfold Norm2, Dot, opp3; cbn [cx cy cz]; ring | exact U].
    + unfold Dot, add3, scal3, Cross. cbn [cx cy cz]. ring.
    + unfold Dot, scal3, Cross, opp3. cbn [cx cy cz]. ring.
    + transitivity (- (l * (c - c * Dot z z))); [unfold c, Dot, add3, scal3, opp3; cbn [cx cy cz]; ring|]. rewrite D2. ring.
    + transitivity (l * l * Norm2 (Cross axis z)); [|now rewrite NE].
      unfold volume, Norm2, add3, scal3, opp3, Cross. cbn [cx cy cz]. ring.
  - exists (Norm d). split; [exact NP|].
    transitivity (opp3 d); [unfold d, opp3, sub3; cbn [cx cy cz]; apply mk3_eq; ring|].
    rewrite <- SC at 1. unfold opp3, scal3. cbn [cx cy cz]. apply mk3_eq; ring.
  - replace (Dot _ _) with (l * (Dot axis axis - c * c)) by (unfold c, Dot, add3, scal3; cbn [cx cy cz]; ring).
    change (Dot axis axis) with (Norm2 axis). rewrite A. apply Rmult_lt_0_compat; lra.
  - exists l, (l * c). unfold add3, scal3, opp3. cbn [cx cy cz]. apply mk3_eq; ring.
  - exists (Norm d * s). split; [now apply Rmult_lt_0_compat|].
    rewrite <- SC at 1. unfold l, Cross, scal3. cbn [cx cy cz]. apply mk3_eq; field; lra.
Qed.

Lemma frame_field_rotation axis body q : Norm2 axis = 1 -> Cross (sub3 q body) axis <> zero3 ->
  let f := FromThisFrame axis body q in
  unit_q f /\ rotate f e_x = field_north axis body q /\ rotate f e_y = field_east axis body q /\ rotate f e_z = field_nadir body q.
Proof. intros A C. apply from_axes. now apply frame_field. Qed.
