(** C68: the gravitation of the ephemeris. *)
From Coq Require Import Reals List ZArith Bool Lra Lia Permutation.
From Verif Require Import Geometry_Model Geometry_Proofs Geometry_Proofs2 VectorCalculus_Proofs ReferenceFrame_Proofs2
  Ephemeris_Model Ephemeris_Proofs Ephemeris_Proofs2 Ephemeris_Proofs3 Ephemeris_Proofs4 Ephemeris_Proofs5
  Geopotential_Model GeopotentialField_Proofs.
Import ListNotations.
Open Scope R_scope.

(** The constructor accepts the bodies unless there are none or one is given twice; it puts the oblate bodies first, each with its
    geopotential at its index, keeps the states and the trajectories with their bodies, and remembers the order in which
    the bodies were given. *)
Theorem C68_constructor inputs :
  (make_ephemeris inputs = None <-> inputs = [] \/ ~ NoDup (map (fun x => address (fst (fst x))) inputs)) /\
  (forall e, make_ephemeris inputs = Some e ->
     consistent e /\ Permutation (entries e) inputs /\
     unowned_bodies_ e = map (fun x => address (fst (fst x))) inputs).
Proof.
  split; [exact (make_rejects inputs)|]. destruct inputs as [|x l]; [discriminate|]. exact (proj2 (make_consistent (x :: l) ltac:(discriminate))).
Qed.
Print Assumptions C68_constructor.

(** The accelerations computed for all the bodies at once are the sums of the attractions of the other bodies, including
    the reactions to their harmonics. *)
Theorem C68_massive e t q :
  consistent e -> distinct (bodies_ e) q ->
  exists acc, BetweenAllMassiveBodies e t q = Some acc /\
    forall i, (i < length (bodies_ e))%nat -> acc i = total_attraction t (bodies_ e) q i.
Proof. exact (between_all e t q). Qed.
Print Assumptions C68_massive.

(** So is the acceleration computed for one body. *)
Theorem C68_one_massive e b i t q :
  consistent e -> distinct (bodies_ e) q -> nth_error (bodies_ e) i = Some b ->
  AccelerationOnMassiveBody e b q t = Some (total_attraction t (bodies_ e) q i).
Proof. exact (on_massive e b i t q). Qed.
Print Assumptions C68_one_massive.

(** The momentum is conserved, even with oblate bodies; so is the angular momentum, without. *)
Theorem C68_momentum e t q acc :
  consistent e -> distinct (bodies_ e) q -> BetweenAllMassiveBodies e t q = Some acc ->
  vsum (fun i => scal3 (mu_at (bodies_ e) i) (acc i)) (seq 0 (length (bodies_ e))) = zero3.
Proof. exact (momentum_of_all e t q acc). Qed.
Print Assumptions C68_momentum.

Theorem C68_angular_momentum e t q acc :
  consistent e -> distinct (bodies_ e) q -> BetweenAllMassiveBodies e t q = Some acc ->
  (forall b, In b (bodies_ e) -> geo b = None) ->
  vsum (fun i => Cross (q i) (scal3 (mu_at (bodies_ e) i) (acc i))) (seq 0 (length (bodies_ e))) = zero3.
Proof. exact (angular_momentum_of_all e t q acc). Qed.
Print Assumptions C68_angular_momentum.

(** The accelerations of massless bodies are the sums of the fields, and the error tells if one of them is too close to a
    massive body. *)
Theorem C68_massless e t count ps :
  consistent e ->
  exists error acc, OnMasslessBodies e t count ps = Some (error, acc) /\
    (error = kOutOfRange \/ error = kOk) /\
    (error = kOutOfRange <-> exists i b, (i < count)%nat /\ collides e t (ps i) b) /\
    forall i, (i < count)%nat ->
      (forall b, (b < length (bodies_ e))%nat -> ps i <> position_at e t b) ->
      acc i = total_field e t (ps i).
Proof. exact (on_massless e t count ps). Qed.
Print Assumptions C68_massless.

(** The acceleration of a massless body is the opposite of the gradient of the potential. *)
Theorem C68_gradient e t :
  consistent e -> (forall b, In b (bodies_ e) -> conservative b t) ->
  exists U, (forall p, GravitationalPotential e p t = Some (U p)) /\
    forall p, (forall b, (b < length (bodies_ e))%nat -> p <> position_at e t b) ->
    exists a, AccelerationOnMasslessBody e p t = Some a /\ opposite_gradient U p a.
Proof. exact (potential_gradient e t). Qed.
Print Assumptions C68_gradient.

(** The value of the potential. *)
Theorem C68_potential e t p :
  consistent e -> GravitationalPotential e p t = Some (total_potential e t p).
Proof. exact (potential_total e t p). Qed.
Print Assumptions C68_potential.

(** The hypothesis on the bodies is satisfied by the spherical bodies, and by the oblate bodies of [Geopotential_Model]. *)
Theorem C68_conservative factor P (body : R -> oblate_body) tolerance g cases uninitialized b t :
  geo b = None \/
  0 < reference_radius (body t) /\ make_geopotential P (body t) tolerance = Some (g t) /\
  well_oriented (body t) /\ (geopotential_degree (body t) <= cases)%nat /\
  geo b = Some (made_geopotential factor cases g uninitialized) ->
  conservative b t.
Proof. exact (all_conservative factor P body tolerance g cases uninitialized b t). Qed.
Print Assumptions C68_conservative.

(** The jerk of a massive body is the derivative of its acceleration, if all the bodies are spherical; if not, what is
    missing is the derivative of the harmonics. *)
Theorem C68_jerk_massive_partial e b i q v t :
  consistent e -> nth_error (bodies_ e) i = Some b ->
  (forall j, (j < length (bodies_ e))%nat -> has_derivative (fun s => q s j) t (v j)) ->
  (forall s, distinct (bodies_ e) (q s)) ->
  (forall b, In b (bodies_ e) -> geo b = None) ->
  exists A J, (forall s, AccelerationOnMassiveBody e b (q s) s = Some (A s)) /\
    JerkOnMassiveBody e b (fun j => (q t j, v j)) = Some J /\ has_derivative A t J.
Proof. exact (jerk_of_spherical e b i q v t). Qed.
Print Assumptions C68_jerk_massive_partial.

(** The Jacobian of the acceleration of a massive body with respect to its position, similarly. *)
Theorem C68_jacobian_partial e b i q u t :
  consistent e -> nth_error (bodies_ e) i = Some b ->
  distinct (bodies_ e) q ->
  (forall b, In b (bodies_ e) -> geo b = None) ->
  let moved h := fun j => if Nat.eqb j i then add3 (q i) (scal3 h u) else q j in
  exists A J, (forall h, distinct (bodies_ e) (moved h) -> AccelerationOnMassiveBody e b (moved h) t = Some (A h)) /\
    JacobianOnMassiveBody e b q u = Some J /\ has_derivative A 0 J.
Proof. exact (jacobian_of_spherical e b i q u t). Qed.
Print Assumptions C68_jacobian_partial.

(** The jerk of a massless body. *)
Theorem C68_jerk_massless_partial e p v t :
  consistent e -> has_derivative p t v ->
  (forall s b, (b < length (bodies_ e))%nat -> p s <> position_at e s b) ->
  (forall b, (b < length (bodies_ e))%nat ->
     has_derivative (fun s => position_at e s b) t (snd (trajectory_at e b t))) ->
  (forall b, In b (bodies_ e) -> geo b = None) ->
  exists A, (forall s, AccelerationOnMasslessBody e (p s) s = Some (A s)) /\
    has_derivative A t (JerkOnMasslessBody e (p t, v) t).
Proof. exact (jerk_massless_spherical e p v t). Qed.
Print Assumptions C68_jerk_massless_partial.

(** With an oblate body, the jerk is not the derivative of the acceleration. *)
Theorem C68_jerk_refuted :
  exists inputs e p v,
    make_ephemeris inputs = Some e /\ (forall b t, In b (bodies_ e) -> conservative b t) /\
    has_derivative p 0 v /\
    (forall b, (b < length (bodies_ e))%nat ->
       has_derivative (fun s => position_at e s b) 0 (snd (trajectory_at e b 0))) /\
    (forall s, -1 < s -> forall b, (b < length (bodies_ e))%nat -> p s <> position_at e s b) /\
    forall A, (forall s, -1 < s -> AccelerationOnMasslessBody e (p s) s = Some (A s)) ->
    ~ has_derivative A 0 (JerkOnMasslessBody e (p 0, v) 0).
Proof. exact jerk_refuted. Qed.
Print Assumptions C68_jerk_refuted.

(** A step is accepted exactly if all the errors are within the tolerances; [None] is an infinite ratio. *)
Theorem C68_tolerance length_tolerance speed_tolerance position_errors velocity_errors :
  0 < length_tolerance -> 0 < speed_tolerance ->
  at_least_one (ToleranceToErrorRatio length_tolerance speed_tolerance position_errors velocity_errors) <->
  (forall e, In e position_errors -> Norm e <= length_tolerance) /\
  (forall e, In e velocity_errors -> Norm e <= speed_tolerance).
Proof. exact (tolerance_ratio length_tolerance speed_tolerance position_errors velocity_errors). Qed.
Print Assumptions C68_tolerance.

(** * Examples *)
(** A spherical body, an oblate one and another spherical one: the oblate one is first. *)
Definition a_sphere := mkMB 1 2 1 None.
Definition another_sphere := mkMB 3 4 1 None.
Definition an_oblate := mkMB 2 3 1 (Some (j2_geopotential 1)).
Definition an_ephemeris : option Ephemeris :=
  make_ephemeris [(a_sphere, (mk3 2 0 0, mk3 0 1 0), still); (an_oblate, (mk3 0 0 0, zero3), still);
                  (another_sphere, (mk3 0 0 2, mk3 1 0 0), still)].
Example C68_constructor_example :
  exists e, an_ephemeris = Some e /\ map address (bodies_ e) = [2; 1; 3]%nat /\ unowned_bodies_ e = [1; 2; 3]%nat /\
    state_positions e = [mk3 0 0 0; mk3 2 0 0; mk3 0 0 2] /\ body_index e 3 = Some 2%nat /\
    make_ephemeris [(a_sphere, (zero3, zero3), still); (a_sphere, (zero3, zero3), still)] = None.
Proof. eexists. repeat split; reflexivity. Qed.

(** The force on the second body along the axis of the first, at the distance 2: -1/4 from the mass of the first, for a unit
    parameter, and 3/16 from its harmonics. *)
Example C68_massive_example t :
  attraction t (mkMB 1 5 1 None) (mkMB 2 1 1 (Some (j2_geopotential 1))) (mk3 0 0 2) zero3 = mk3 0 0 (- (1 / 16)) /\
  attraction t (mkMB 2 1 1 (Some (j2_geopotential 1))) (mkMB 1 5 1 None) zero3 (mk3 0 0 2) = mk3 0 0 (5 / 16).
Proof.
  assert (N1 : Norm (mk3 0 0 2) = 2) by (unfold Norm, Norm2; cbn; replace (0 * 0 + 0 * 0 + 2 * 2) with (2 * 2) by ring; apply sqrt_square; lra).
  assert (N2 : Norm (mk3 0 0 (-2)) = 2) by (unfold Norm, Norm2; cbn; replace (0 * 0 + 0 * 0 + -2 * -2) with (2 * 2) by ring; apply sqrt_square; lra).
  assert (S1 : sub3 (mk3 0 0 2) zero3 = mk3 0 0 2) by (unfold sub3, zero3; cbn; f_equal; ring).
  assert (S2 : sub3 zero3 (mk3 0 0 2) = mk3 0 0 (-2)) by (unfold sub3, zero3; cbn; f_equal; ring).
  unfold attraction, field_of, newton, Ephemeris_Proofs.harmonics. cbn [geo harmonics_acceleration j2_geopotential gravitational_parameter]. rewrite S1, S2, N1, N2.
  unfold sub3, add3, scal3, zero3. cbn [cx cy cz]. split; f_equal; field.
Qed.

(** A point in the body of radius 1/2, at rest at the origin, and a point outside. *)
Example C68_massless_example :
  collides j2_ephemeris 0 (mk3 0 0 (1 / 4)) 0 /\ ~ collides j2_ephemeris 0 (mk3 0 0 1) 0 /\
  (exists acc, OnMasslessBodies j2_ephemeris 0 1 (fun _ => mk3 0 0 1) = Some (kOk, acc)) /\
  (exists acc, OnMasslessBodies j2_ephemeris 0 2 (fun i => match i with O => mk3 0 0 1 | _ => mk3 0 0 (1 / 4) end) = Some (kOutOfRange, acc)).
Proof.
  assert (A : collides j2_ephemeris 0 (mk3 0 0 (1 / 4)) 0).
  { exists j2_body. split; [reflexivity|]. cbn [j2_body min_radius]. change (position_at j2_ephemeris 0 0) with zero3. unfold Norm, Norm2, sub3, zero3. cbn.
    replace (_ + _) with (1 / 4 * (1 / 4)) by field. rewrite sqrt_square; lra. }
  assert (B : ~ collides j2_ephemeris 0 (mk3 0 0 1) 0).
  { intros (x & E & L). injection E as <-. revert L. cbn [j2_body min_radius]. change (position_at j2_ephemeris 0 0) with zero3. unfold Norm, Norm2, sub3, zero3. cbn.
    replace (_ + _) with (1 * 1) by ring. rewrite sqrt_square; lra. }
  split; [exact A|]. split; [exact B|]. split.
  - destruct (C68_massless j2_ephemeris 0 1 (fun _ => mk3 0 0 1) j2_consistent) as (er & acc & E & [->| ->] & K & _); [|now exists acc].
    exfalso. apply B. destruct K as [K _]. destruct (K eq_refl) as (i & b & _ & C). destruct b; [exact C|]. destruct C as (x & F & _). now destruct b.
  - destruct (C68_massless j2_ephemeris 0 2 (fun i => match i with O => mk3 0 0 1 | _ => mk3 0 0 (1 / 4) end) j2_consistent) as (er & acc & E & _ & K & _).
    exists acc. rewrite E. do 2 f_equal. apply K. exists 1%nat, 0%nat. split; [lia|exact A].
Qed.
Example C68_potential_example : GravitationalPotential j2_ephemeris (mk3 0 0 1) 0 = Some 0.
Proof.
  rewrite (C68_potential _ _ _ j2_consistent). f_equal. unfold total_potential, body_potential, harmonics_potential_of. cbn [bodies_ j2_ephemeris length seq rsum fold_right nth_error j2_body geo gravitational_parameter harmonics_potential j2_geopotential].
  change (position_at j2_ephemeris 0 0) with zero3. replace (sub3 (mk3 0 0 1) zero3) with (mk3 0 0 1) by (unfold sub3, zero3; cbn; f_equal; ring).
  replace (Norm (mk3 0 0 1)) with 1; [cbn [cz]; field|]. unfold Norm, Norm2. cbn. replace (0 * 0 + 0 * 0 + 1 * 1) with 1 by ring. now rewrite sqrt_1.
Qed.
Example C68_tolerance_example :
  ToleranceToErrorRatio 1 2 [mk3 0 0 2; mk3 0 0 0] [] = Some (1 / 2) /\ ToleranceToErrorRatio 1 2 [] [mk3 0 0 0] = None.
Proof.
  assert (N2 : Norm (mk3 0 0 2) = 2) by (unfold Norm, Norm2; cbn; replace (0 * 0 + 0 * 0 + 2 * 2) with (2 * 2) by ring; apply sqrt_square; lra).
  assert (N0 : Norm (mk3 0 0 0) = 0) by (unfold Norm, Norm2; cbn; replace (0 * 0 + 0 * 0 + 0 * 0) with 0 by ring; apply sqrt_0).
  unfold ToleranceToErrorRatio, max_error. cbn [fold_left]. rewrite N2, N0. rewrite (Rmax_right 0 2), (Rmax_left 2 0), (Rmax_left 0 0) by lra.
  unfold quotient. destruct (Req_EM_T 2 0); [lra|]. destruct (Req_EM_T 0 0); [|lra]. split; reflexivity.
Qed.
