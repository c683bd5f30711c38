(** Kepler orbits constructed from state vectors (C71). *)
From Coq Require Import Reals Lra List.
From Verif Require Import Geometry_Model Geometry_Proofs RotatingBody_Model Kepler_Model Kepler_Proofs Kepler_Proofs3 Kepler_Proofs4
  Kepler_Proofs6 Kepler_Proofs7 Kepler_Proofs8.
Import ListNotations.
Open Scope R_scope.

(** C71: the orbit constructed from state vectors goes through them at the epoch and solves the two-body problem, and
    its elements are those of a conic, which is an ellipse if the speed is less than the escape velocity.  What is
    missing: the orbits that are circular, or in the xy plane, and the hyperbolas before the periapsis; see below. *)
Theorem C71_state_vectors_partial :
  forall Brent primary secondary r v t0,
  let mu := primary + match secondary with Some m => m | None => 0 end in
  root_finder Brent -> 0 < mu -> ordinary mu r v -> bound_orbit mu r v \/ 0 <= Dot r v ->
  exists o x u, OrbitFromState Brent primary secondary r v t0 = Some o /\
    (forall t, StateVectors Brent o t = Some (x t, u t)) /\
    two_body_motion mu x u /\ x t0 = r /\ u t0 = v /\
    exists e l, 0 <= e /\ e <> 1 /\ 0 < l /\ (bound_orbit mu r v <-> e < 1) /\
      forall g, conic_field g -> exists n, fields (elements_at_epoch o) g = Some n /\ correct mu e l g n.
Proof. exact motion_from_state. Qed.
Print Assumptions C71_state_vectors_partial.

(** On a hyperbola, before the periapsis, the orbit does not go through the state vectors at the epoch. *)
Theorem C71_incoming_refuted :
  forall Brent primary secondary r v t0,
  let mu := primary + match secondary with Some m => m | None => 0 end in
  root_finder Brent -> 0 < mu -> ordinary mu r v -> ~ bound_orbit mu r v -> Dot r v < 0 ->
  exists o x u, OrbitFromState Brent primary secondary r v t0 = Some o /\
    StateVectors Brent o t0 = Some (x, u) /\ x <> r.
Proof. exact incoming_from_state. Qed.
Print Assumptions C71_incoming_refuted.

(** Neither do a circular orbit over the poles... *)
Theorem C71_circular_refuted :
  forall Brent t0, root_finder Brent ->
  exists o u, OrbitFromState Brent 1 None (mk3 0 0 1) (mk3 (-1) 0 0) t0 = Some o /\
    StateVectors Brent o t0 = Some (mk3 1 0 0, u).
Proof. exact circular_state. Qed.
Print Assumptions C71_circular_refuted.

(** ... and an eccentric orbit in the xy plane. *)
Theorem C71_equatorial_refuted :
  forall Brent t0, root_finder Brent ->
  exists o u, OrbitFromState Brent 1 None (mk3 0 1 0) (mk3 (- (5 / 4)) 0 0) t0 = Some o /\
    StateVectors Brent o t0 = Some (mk3 1 0 0, u).
Proof. exact equatorial_state. Qed.
Print Assumptions C71_equatorial_refuted.

(** An eccentric orbit over the poles. *)
Example C71_example : exists o x u,
  OrbitFromState some_finder 1 None (mk3 0 0 1) (mk3 (- (5 / 4)) (1 / 4) 0) 0 = Some o /\
  (forall t, StateVectors some_finder o t = Some (x t, u t)) /\ x 0 = mk3 0 0 1 /\ u 0 = mk3 (- (5 / 4)) (1 / 4) 0.
Proof.
  assert (NR : Norm (mk3 0 0 1) = 1) by (apply norm_is; [lra|unfold Norm2; cbn [cx cy cz]; ring]).
  pose proof (motion_from_state some_finder 1 None (mk3 0 0 1) (mk3 (- (5 / 4)) (1 / 4) 0) 0) as H.
  cbv beta iota zeta in H. replace (1 + 0) with 1 in H by ring.
  destruct (H root_finder_exists ltac:(lra)) as (o & x & u & E & S & _ & X & U & _).
  - unfold ordinary. rewrite NR. unfold Cross, Norm2. cbn [cx cy cz]. split; [left; lra|]. split; [intros [_ Q]; lra|lra].
  - left. unfold bound_orbit. rewrite NR. unfold Norm2. cbn [cx cy cz]. lra.
  - exists o, x, u. split; [exact E|]. split; [exact S|]. split; [exact X|exact U].
Qed.
