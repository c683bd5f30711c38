(** C65 (similar motions), C66 (rigid reference frames), C67 (the rotating-pulsating frame). *)
From Coq Require Import Reals List Lra.
From Verif Require Import Geometry_Model Geometry_Proofs Geometry_Proofs2 VectorCalculus_Proofs RotatingBody_Model
  RotatingBody_Proofs ReferenceFrame_Model SimilarMotion_Proofs ReferenceFrame_Proofs ReferenceFrame_Proofs2 ReferenceFrame_Proofs3.
Import ListNotations.
Open Scope R_scope.

(** * C65: similar motions.  [sm_valid]: the rotation is a unit quaternion and the scale is not null. *)
Theorem C65_compose : forall dl dr l r dof, sm_valid l -> sm_valid r ->
  sm_valid (SMMul dl dr l r) /\ sm_apply (xorb dl dr) (SMMul dl dr l r) dof = sm_apply dl l (sm_apply dr r dof).
Proof. intros. split; [now apply sm_mul_valid | now apply sm_mul]. Qed.
Print Assumptions C65_compose.
Theorem C65_inverse : forall d m dof, sm_valid m -> sm_valid (SMInverse d m) /\
  sm_apply d (SMInverse d m) (sm_apply d m dof) = dof /\ sm_apply d m (sm_apply d (SMInverse d m) dof) = dof.
Proof. intros d m dof V. split; [now apply sm_inverse_valid|]. now apply sm_inv. Qed.
Print Assumptions C65_inverse.
Theorem C65_identity : forall d, sm_valid SMIdentity /\ sm_apply false SMIdentity d = d.
Proof. exact sm_identity. Qed.
Print Assumptions C65_identity.
(** A rigid motion is a similar motion. *)
Theorem C65_forget : forall d m dof, rm_valid m -> sm_valid (RMForget m) /\ sm_apply d (RMForget m) dof = rm_apply d m dof.
Proof. exact sm_forget. Qed.
Print Assumptions C65_forget.
Theorem C65_dilatation : forall scale rate p v, scale <> 0 ->
  sm_apply false (DilatationAboutOrigin scale rate) (p, v) = (scal3 scale p, scal3 scale (add3 v (scal3 rate p))).
Proof. intros. now apply (sm_dilatation false). Qed.
Print Assumptions C65_dilatation.
(** If the frame really moves with the declared velocity, angular velocity and dilatation rate, then the image of the
    velocity is the derivative of the image of the position. *)
Theorem C65_kinematics : forall det T p t0 w v k p', (forall t, unit_q (quat (slinear (T t))) /\ scale (slinear (T t)) <> 0) ->
  moving_similar_frame det T t0 w v k -> has_derivative p t0 p' ->
  has_derivative (fun t => sim det (T t) (p t)) t0 (snd (sm_apply det (mkSM (T t0) w v k) (p t0, p'))).
Proof. exact sm_kinematics. Qed.
Print Assumptions C65_kinematics.

(** A frame whose unit grows with the time: at the instant 0 a point at rest at distance 1 recedes at speed 1. *)
Example C65_example : let T t := mkSim zero3 zero3 (mkC (1 + t * t + t) RotIdentity) in
  (forall t, unit_q (quat (slinear (T t))) /\ scale (slinear (T t)) <> 0) /\
  moving_similar_frame false T 0 zero3 zero3 1 /\
  snd (sm_apply false (mkSM (T 0) zero3 zero3 1) (e_x, zero3)) = e_x.
Proof.
  intros T. split; [|split; [split; [|split]|]].
  - intros t. split; [apply unit_one|]. cbn. nra.
  - intros e _. cbn. eapply v_eq; [apply v_const|]. vec.
  - cbn. unfold sim, SimInverse. cbn [sfrom sto slinear T]. eapply v_ext; [|apply (v_const zero3)]. intros s. cbn beta.
    replace (sub3 zero3 zero3) with zero3 by vec. rewrite conf_eq, orth_zero. vec.
  - cbn [T slinear scale]. eapply d_eq; [apply d_plus; [apply d_plus; [apply d_const|apply d_mult; apply d_id]|apply d_id]|cbn beta; ring].
  - cbn [sm_apply snd]. unfold sim, sm_omega_of_from. cbn [T similarity sfrom sto slinear sm_omega dilatation sm_vel].
    rewrite conf_av_eq, !conf_eq, orth_bivector_eq, !orth_vector_eq. cbn [scale quat smul3]. rewrite !rotate_id. unfold e_x. vec.
Qed.

(** * C66: rigid reference frames *)
(** In each frame, the position of every trajectory has as derivative the velocity given by the frame, which has as derivative
    the geometric acceleration ([equations_of_motion]). *)
Theorem C66_any_frame : forall det M, (forall t, unit_q (linear (rt (rigid_motion (M t))))) -> (forall t, accelerated_frame det M t) ->
  equations_of_motion det M.
Proof. exact frame_equations. Qed.
Print Assumptions C66_any_frame.
Theorem C66_non_rotating : forall p b, smooth b -> equations_of_motion false (non_rotating_motion p b).
Proof. intros p b S. destruct (non_rotating_frame p b S). now apply frame_equations. Qed.
Print Assumptions C66_non_rotating.
Theorem C66_body_surface : forall p b, smooth b -> equations_of_motion false (body_surface_motion p b).
Proof. intros p b S. destruct (body_surface_frame p b S). now apply frame_equations. Qed.
Print Assumptions C66_body_surface.
Lemma body_direction_frame b1 b2 : smooth b1 -> smooth b2 ->
  (forall t, Cross (sub3 (position b2 t) (position b1 t)) (sub3 (velocity b2 t) (velocity b1 t)) <> zero3) ->
  (forall t, unit_q (linear (rt (rigid_motion (body_direction_motion b1 b2 t))))) /\
  forall t, accelerated_frame false (body_direction_motion b1 b2) t.
Proof.
  intros S1 S2 ND. apply (direction_frame (position b1) (velocity b1) (acceleration b1) (jerk b1) (position b2) (velocity b2)
    (acceleration b2) (jerk b2) (position b1) (velocity b1) (acceleration b1) S1 S2); [|exact ND]. intros t. split; apply (S1 t).
Qed.
(** The bodies are never in radial motion with respect to one another. *)
Theorem C66_body_direction : forall b1 b2, smooth b1 -> smooth b2 ->
  (forall t, Cross (sub3 (position b2 t) (position b1 t)) (sub3 (velocity b2 t) (velocity b1 t)) <> zero3) ->
  equations_of_motion false (body_direction_motion b1 b2).
Proof. intros b1 b2 S1 S2 ND. destruct (body_direction_frame b1 b2 S1 S2 ND). now apply frame_equations. Qed.
Print Assumptions C66_body_direction.
(** The primary is at the origin, at rest; the secondary is on the x axis, on the positive side, and stays on it; its
    inertial velocity is in the plane of x and y, with a positive ordinate. *)
Theorem C66_body_direction_axes : forall b1 b2 t, smooth b1 -> smooth b2 ->
  (forall t, Cross (sub3 (position b2 t) (position b1 t)) (sub3 (velocity b2 t) (velocity b1 t)) <> zero3) ->
  let M := rigid_motion (body_direction_motion b1 b2 t) in
  let r := sub3 (position b2 t) (position b1 t) in let r' := sub3 (velocity b2 t) (velocity b1 t) in
  rm_apply false M (position b1 t, velocity b1 t) = (zero3, zero3) /\
  rm_apply false M (position b2 t, velocity b2 t) = (mk3 (Norm r) 0 0, mk3 (Dot r r' / Norm r) 0 0) /\
  cz (orth_vector false (linear (rt M)) r') = 0 /\ 0 < cy (orth_vector false (linear (rt M)) r').
Proof.
  intros b1 b2 t S1 S2 ND M r r'. destruct (body_direction_frame b1 b2 S1 S2 ND) as [U _].
  destruct (direction_axes (position b1) (velocity b1) (acceleration b1) (jerk b1) (position b2) (velocity b2)
    (acceleration b2) (jerk b2) (position b1) (velocity b1) (acceleration b1) t S1 S2 ND) as (X & (Z & Y) & V).
  change (rigid_motion (direction_motion (position b1) (velocity b1) (acceleration b1) (jerk b1) (position b2) (velocity b2)
    (acceleration b2) (jerk b2) (position b1) (velocity b1) (acceleration b1) t)) with M in *.
  assert (O : rm_apply false M (position b1 t, velocity b1 t) = (zero3, zero3)).
  { assert (A : aff false (rt M) (position b1 t) = zero3).
    { unfold aff. change (from_origin (rt M)) with (position b1 t). change (to_origin (rt M)) with zero3.
      replace (sub3 (position b1 t) (position b1 t)) with zero3 by vec. rewrite orth_zero. vec. }
    rewrite rm_apply_eq by (apply (U t)). rewrite A. f_equal. change (vel M) with (velocity b1 t).
    generalize (orth_vector false (linear (rt M)) (velocity b1 t)), (orth_bivector false (linear (rt M)) (omega M)). intros. vec. }
  split; [exact O|]. split; [|split; assumption].
  assert (K : forall u, sub3 u zero3 = u) by (intros; d3; vec).
  apply injective_projections; cbn [fst snd].
  - transitivity (sub3 (aff false (rt M) (position b2 t)) (aff false (rt M) (position b1 t))); [|exact X].
    change (aff false (rt M) (position b1 t)) with (fst (rm_apply false M (position b1 t, velocity b1 t))). rewrite O. cbn [fst]. now rewrite K.
  - rewrite <- (K (snd (rm_apply false M (position b2 t, velocity b2 t)))). change zero3 with (snd (zero3, zero3)) at 1. rewrite <- O. exact V.
Qed.
Print Assumptions C66_body_direction_axes.

(** The barycentric rotating frame; its origin is the barycentre of all the bodies ([common_mean]), and the barycentres of
    the primaries and of the secondaries are on its x axis and stay on it. *)
Definition barycentric_hypotheses (primaries secondaries : list Body) : Prop :=
  primaries <> [] /\ secondaries <> [] /\ (forall b, In b (primaries ++ secondaries) -> smooth b /\ 0 < mu b) /\
  forall t, Cross (sub3 (barycentre 0 secondaries t) (barycentre 0 primaries t))
                  (sub3 (barycentre 1 secondaries t) (barycentre 1 primaries t)) <> zero3.
Theorem C66_barycentric : forall primaries secondaries, barycentric_hypotheses primaries secondaries ->
  exists M, (forall t, barycentric_motion primaries secondaries t = Some (M t)) /\ equations_of_motion false M /\
    forall t, let r := sub3 (barycentre 0 secondaries t) (barycentre 0 primaries t) in
              let r' := sub3 (barycentre 1 secondaries t) (barycentre 1 primaries t) in
              let m1 := total_mu primaries in let m2 := total_mu secondaries in
      rm_apply false (rigid_motion (M t)) (barycentre 0 (primaries ++ secondaries) t, barycentre 1 (primaries ++ secondaries) t) = (zero3, zero3) /\
      rm_apply false (rigid_motion (M t)) (barycentre 0 primaries t, barycentre 1 primaries t) =
        (mk3 (- m2 / (m1 + m2) * Norm r) 0 0, mk3 (- m2 / (m1 + m2) * (Dot r r' / Norm r)) 0 0) /\
      rm_apply false (rigid_motion (M t)) (barycentre 0 secondaries t, barycentre 1 secondaries t) =
        (mk3 (m1 / (m1 + m2) * Norm r) 0 0, mk3 (m1 / (m1 + m2) * (Dot r r' / Norm r)) 0 0).
Proof.
  intros p s (N1 & N2 & S & ND). exists (barycentric_frame_motion p s).
  split; [apply (barycentric_motion_eq p s N1 N2 S)|].
  split; [apply frame_equations; [apply (M_unit p s S ND)|apply (M_frame p s S ND)]|].
  intros t r r' m1 m2. split; [|apply (M_points p s N1 N2 S ND t)].
  rewrite <- !(common_mean p s N1 N2 S). apply (M_origin p s S ND).
Qed.
Print Assumptions C66_barycentric.

(** The angular acceleration is the derivative of the angular velocity. *)
Theorem C66_angular_acceleration : forall r r1 r2 r3, (forall t, has_derivative r t (r1 t)) -> (forall t, has_derivative r1 t (r2 t)) ->
  (forall t, has_derivative r2 t (r3 t)) -> (forall t, Cross (r t) (r1 t) <> zero3) -> forall t,
  has_derivative (fun s => snd (ComputeAngularDegreesOfFreedom zero3 zero3 zero3 (r s) (r1 s) (r2 s))) t
    (AngularAccelerationOf (r t) (r1 t) (r2 t) (r3 t)).
Proof.
  intros r r1 r2 r3 D0 D1 D2 ND t. eapply v_ext; [|apply (w_derivative r r1 r2 r3 D0 D1 D2 ND t)].
  intros s. unfold ComputeAngularDegreesOfFreedom, w, orthonormal, d_orthonormal, orthogonal. cbv zeta.
  assert (K : forall u, sub3 u zero3 = u) by (intros; d3; vec). rewrite !K.
  destruct (ComputeTrihedra (r s) (r1 s)) as [o on]. cbn [fst snd]. now destruct (ComputeTrihedraDerivatives _ _ _ _).
Qed.
Print Assumptions C66_angular_acceleration.

(** The lambda that is said to return the second derivative of a vector divided by its norm does not: there is an
    error along the vector. *)
Theorem C66_second_derivative_refuted : ~ forall r r1 r2 t, (forall s, has_derivative r s (r1 s)) -> (forall s, has_derivative r1 s (r2 s)) ->
  (forall s, Cross (r s) (r1 s) <> zero3) -> has_derivative (fun s => d_normalized (r s) (r1 s)) t (d2_normalized (r t) (r1 t) (r2 t)).
Proof.
  intros H.
  assert (D0 : forall s, has_derivative (fun t => mk3 (t * t - 1) t 0) s (mk3 (2 * s) 1 0)).
  { intros s. repeat split; cbn [cx cy cz]; [|apply d_id|apply d_const].
    eapply d_eq; [apply d_minus; [apply d_mult; apply d_id|apply d_const]|cbn beta; ring]. }
  assert (D1 : forall s, has_derivative (fun t => mk3 (2 * t) 1 0) s (mk3 2 0 0)).
  { intros s. repeat split; cbn [cx cy cz]; [|apply d_const|apply d_const].
    eapply d_eq; [apply d_mult; [apply d_const|apply d_id]|cbn beta; ring]. }
  assert (ND : forall s, Cross (mk3 (s * s - 1) s 0) (mk3 (2 * s) 1 0) <> zero3).
  { intros s E. unfold Cross, zero3 in E. cbn [cx cy cz] in E. injection E. nra. }
  pose proof (H (fun t => mk3 (t * t - 1) t 0) (fun t => mk3 (2 * t) 1 0) (fun _ => mk3 2 0 0) 0 D0 D1 ND) as A. cbn beta in A.
  assert (NZ : mk3 (0 * 0 - 1) 0 0 <> zero3) by (intros E; injection E; lra).
  pose proof (v_d_normalized (fun t => mk3 (t * t - 1) t 0) (fun t => mk3 (2 * t) 1 0) 0 (mk3 2 0 0) (D0 0) (D1 0) NZ) as B. cbn beta in B.
  pose proof (v_unique _ _ _ _ A B) as E. unfold second_derivative_of_normalized in E.
  apply (f_equal Geometry_Model.cx) in E. unfold sub3, scal3, Dot in E. cbn [cx cy cz] in E.
  pose proof (norm_pos _ NZ) as P. pose proof (pow_lt _ 3 P) as P3. set (n := Norm (mk3 (0 * 0 - 1) 0 0)) in *. clearbody n.
  assert (F : 2 * ((0 * 0 - 1) * 2 + 0 * 0 + 0 * 0) / n ^ 3 * (0 * 0 - 1) = 0) by lra.
  assert (G : 4 * / n ^ 3 = 0) by (rewrite <- F; field; lra). apply Rmult_integral in G. destruct G as [G|G]; [lra|].
  apply Rinv_0_lt_compat in P3. lra.
Qed.
Print Assumptions C66_second_derivative_refuted.
(** What it is. *)
Theorem C66_second_derivative : forall v v1 t v2, has_derivative v t (v1 t) -> has_derivative v1 t v2 -> v t <> zero3 ->
  has_derivative (fun s => Normalize (v s)) t (d_normalized (v t) (v1 t)) /\
  has_derivative (fun s => d_normalized (v s) (v1 s)) t (sub3 (d2_normalized (v t) (v1 t) v2) (scal3 (2 * Dot (v t) v2 / Norm (v t) ^ 3) (v t))).
Proof. intros. split; [now apply v_normalize'|now apply v_d_normalized]. Qed.
Print Assumptions C66_second_derivative.

(** If the gravitational acceleration is the opposite of the gradient of the gravitational potential, the rotation-free
    acceleration at rest is that of the geometric potential; it differs from the acceleration of a point at rest by the Euler
    acceleration, that is, by the product of the position and of the angular acceleration. *)
Theorem C66_potential : forall det M U g p, unit_q (linear (rt (rigid_motion M))) ->
  (forall q, opposite_gradient U q (g q)) ->
  opposite_gradient (GeometricPotential det M U) p (RotationFreeGeometricAccelerationAtRest det M g p).
Proof. exact potential_gradient. Qed.
Print Assumptions C66_potential.
Theorem C66_at_rest : forall det M g p,
  coriolis (ComputeGeometricAccelerations det M g (p, zero3)) = zero3 /\
  sub3 (GeometricAcceleration det M g (p, zero3)) (RotationFreeGeometricAccelerationAtRest det M g p) =
  Cross p (orth_bivector det (linear (rt (rigid_motion M))) (angular_acceleration M)).
Proof.
  intros. unfold GeometricAcceleration, RotationFreeGeometricAccelerationAtRest, ComputeGeometricAccelerations. cbv zeta.
  cbn [gravitational linear_acc coriolis centrifugal euler fst snd]. split; vec.
Qed.
Print Assumptions C66_at_rest.

(** The cache of the barycentric frame is not observable: in any sequence of requests, for any degrees and times, each one
    returns what it would return without a cache. *)
Theorem C66_cache : forall l q, requests l no_cache q = map (fun '(k, t) => BarycentreDerivative k l t) q.
Proof. exact cache_transparent. Qed.
Print Assumptions C66_cache.

(** The Frenet frame: the velocity is along x, the acceleration in the half-plane of x and positive y. *)
Theorem C66_frenet : forall v a, Cross v a <> zero3 ->
  let F := rotate (FrenetFrame v a) in
  unit_q (FrenetFrame v a) /\
  (exists k, 0 < k /\ v = scal3 k (F e_x)) /\
  (exists k m, 0 < k /\ a = add3 (scal3 k (F e_y)) (scal3 m (F e_x))) /\
  (exists k, 0 < k /\ Cross v a = scal3 k (F e_z)).
Proof. exact frenet. Qed.
Print Assumptions C66_frenet.

(** Two bodies: one at rest, one on a circular orbit. *)
Definition at_rest : Body := mkBody (fun _ => zero3) (fun _ => zero3) (fun _ => zero3) (fun _ => zero3) 3.
Definition circular : Body :=
  mkBody (fun t => mk3 (cos t) (sin t) 0) (fun t => mk3 (- sin t) (cos t) 0) (fun t => mk3 (- cos t) (- sin t) 0)
         (fun t => mk3 (sin t) (- cos t) 0) 1.
Lemma at_rest_smooth : smooth at_rest.
Proof. intros t. split; [|split]; apply (v_const zero3). Qed.
Lemma circular_smooth : smooth circular.
Proof.
  intros t. split; [|split]; (split; [|split]); cbn; try apply d_const.
  - apply derivable_pt_lim_cos.
  - apply derivable_pt_lim_sin.
  - apply d_opp, derivable_pt_lim_sin.
  - apply derivable_pt_lim_cos.
  - eapply d_eq; [apply d_opp, derivable_pt_lim_cos|ring].
  - apply d_opp, derivable_pt_lim_sin.
Qed.
Lemma sin_cos_1 t : sin t * sin t + cos t * cos t = 1.
Proof. pose proof (sin2_cos2 t) as H. unfold Rsqr in H. exact H. Qed.
Lemma circular_not_radial t : Cross (sub3 (position circular t) (position at_rest t)) (sub3 (velocity circular t) (velocity at_rest t)) <> zero3.
Proof.
  cbn. unfold Cross, sub3, zero3. cbn [cx cy cz]. intros E. injection E. pose proof (sin_cos_1 t). lra.
Qed.
Example C66_example : smooth at_rest /\ smooth circular /\
  (forall t, Cross (sub3 (position circular t) (position at_rest t)) (sub3 (velocity circular t) (velocity at_rest t)) <> zero3) /\
  omega (rigid_motion (body_direction_motion at_rest circular 0)) = e_z.
Proof.
  split; [apply at_rest_smooth|]. split; [apply circular_smooth|]. split; [apply circular_not_radial|].
  cbn. rewrite cos_0, sin_0. unfold ComputeAngularVelocity, d_normalized, Normalize. cbn [fore normal binormal].
  set (r := sub3 (mk3 1 0 0) zero3). set (v := sub3 (mk3 (-0) 1 0) zero3). set (a := sub3 (mk3 (-(1)) (-0) 0) zero3).
  assert (R : r = e_x) by (unfold r, e_x; vec). assert (V : v = e_y) by (unfold v, e_y; vec). assert (A : a = opp3 e_x) by (unfold a, e_x; vec).
  clearbody r v a. subst r v a. replace (Cross e_x e_y) with e_z by (unfold e_x, e_y, e_z; vec).
  replace (Cross e_z e_x) with e_y by (unfold e_x, e_y, e_z; vec). replace (Cross e_x (opp3 e_x)) with zero3 by vec.
  assert (N : Norm e_x = 1 /\ Norm e_y = 1 /\ Norm e_z = 1).
  { unfold Norm. replace (Norm2 e_x) with 1 by (unfold e_x; dots; ring). replace (Norm2 e_y) with 1 by (unfold e_y; dots; ring).
    replace (Norm2 e_z) with 1 by (unfold e_z; dots; ring). rewrite sqrt_1. auto. }
  destruct N as (-> & -> & ->). unfold e_x, e_y, e_z. dots. apply mk3_eq; field.
Qed.
Example C66_barycentric_example : barycentric_hypotheses [at_rest] [circular].
Proof.
  split; [discriminate|]. split; [discriminate|]. split.
  - cbn [app]. intros b [<-|[<-|[]]]; (split; [apply at_rest_smooth || apply circular_smooth|cbn; lra]).
  - intros t E. apply (circular_not_radial t). rewrite <- E. unfold barycentre, weighted_mean, total_weight. cbn.
    unfold Cross, sub3, zero3. cbn [cx cy cz]. apply mk3_eq; field.
Qed.

(** * C67: the rotating-pulsating frame *)
(** The equations of motion in the frame that follows the barycentres and whose unit of length is their distance; the barycentres
    are fixed points on the x axis, at distance 1. *)
Theorem C67_equations : forall primaries secondaries, barycentric_hypotheses primaries secondaries ->
  exists D M, (forall t, pulsating_data primaries secondaries t = Some (D t, M t)) /\ pulsating_equations D M.
Proof.
  intros p s (N1 & N2 & S & ND). exists (distance_data p s), (barycentric_frame_motion p s).
  split; [apply (data_eq p s N1 N2 S)|]. apply pulsating_frame.
  - intros t. pose proof (d0_pos p s ND t). destruct (d_distance p s S ND t). cbn zeta in *. split; [lra|]. auto.
  - apply (M_unit p s S ND).
  - apply frame_equations; [apply (M_unit p s S ND)|apply (M_frame p s S ND)].
Qed.
Print Assumptions C67_equations.
Theorem C67_fixed_points : forall primaries secondaries, barycentric_hypotheses primaries secondaries -> forall t r r1 r2 M,
  pulsating_data primaries secondaries t = Some (r, r1, r2, M) ->
  let m1 := total_mu primaries in let m2 := total_mu secondaries in let F := pulsating_ToThisFrame r r1 (rigid_motion M) in
  sm_apply false F (barycentre 0 primaries t, barycentre 1 primaries t) = (mk3 (- m2 / (m1 + m2)) 0 0, zero3) /\
  sm_apply false F (barycentre 0 secondaries t, barycentre 1 secondaries t) = (mk3 (m1 / (m1 + m2)) 0 0, zero3).
Proof.
  intros p s (N1 & N2 & S & ND) t r r1 r2 M E m1 m2 F. rewrite (data_eq p s N1 N2 S) in E. set (D := distance_data p s t) in E.
  assert (ED : D = (r, r1, r2)) by (clearbody D; congruence).
  assert (EM : barycentric_frame_motion p s t = M) by (clearbody D; congruence). clear E. rename ED into E. subst M. unfold D in E. clear D.
  pose proof (d0_eq p s t) as ER. pose proof (d1_eq p s t) as ER1. cbv beta zeta in ER, ER1. rewrite E in ER, ER1. cbn [fst snd] in ER, ER1.
  pose proof (d0_pos p s ND t) as P. cbv beta zeta in P. rewrite E in P. cbn [fst] in P.
  assert (NZ : r <> 0) by lra. unfold F. rewrite !pulsating_map by (auto; apply (M_unit p s S ND)).
  destruct (M_points p s N1 N2 S ND t) as [-> ->]. rewrite <- ER1, <- ER. cbn [fst snd].
  pose proof (positive_masses p s N1 N2 S) as [P1 P2]. fold m1 in P1. fold m2 in P2.
  unfold at_primaries, at_secondaries. fold m1 m2.
  split; f_equal; unfold scal3, sub3, zero3; cbn [cx cy cz]; apply mk3_eq; field; repeat split; lra.
Qed.
Print Assumptions C67_fixed_points.
Theorem C67_potential : forall r r1 r2 M U g p, 0 < r -> unit_q (linear (rt (rigid_motion M))) ->
  (forall q, opposite_gradient U q (g q)) ->
  opposite_gradient (pulsating_GeometricPotential r r1 r2 M U) p (pulsating_RotationFreeGeometricAccelerationAtRest r r1 r2 M g p).
Proof. exact pulsating_potential_gradient. Qed.
Print Assumptions C67_potential.
(** The frame of a body at rest and of a body on a circular orbit: the hypotheses hold ([C66_barycentric_example]), and the
    distance is constant. *)
Example C67_example : forall t, exists M, pulsating_data [at_rest] [circular] t = Some (1, 0, 0, M).
Proof.
  intros t. destruct C66_barycentric_example as (N1 & N2 & S & ND). rewrite (data_eq _ _ N1 N2 S). eexists. do 2 f_equal.
  unfold distance_data, r_derivatives. cbv zeta.
  assert (B : forall k b, barycentre k [b] t = scal3 (mu b / mu b) (derivative_of k b t)).
  { intros. unfold barycentre, weighted_mean, total_weight, scal3. cbn [map fst snd Rsum]. rewrite !Rplus_0_r. apply mk3_eq; unfold Rdiv; ring. }
  rewrite !B. cbn [at_rest circular mu derivative_of position velocity acceleration].
  assert (NN : Norm (sub3 (scal3 (3 / 3) zero3) (scal3 (1 / 1) (mk3 (cos t) (sin t) 0))) = 1).
  { unfold Norm. replace (Norm2 _) with (sin t * sin t + cos t * cos t); [rewrite sin_cos_1; apply sqrt_1|dots; field]. }
  rewrite NN. pose proof (sin_cos_1 t) as SC. f_equal; [f_equal|]; dots.
  - field.
  - transitivity (sin t * sin t + cos t * cos t - (cos t * cos t + sin t * sin t)); [field|lra].
Qed.
