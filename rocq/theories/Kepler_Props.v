(** Keplerian elements and orbits (C69, C70). *)
From Coq Require Import Reals Lra List.
From Verif Require Import Geometry_Model RotatingBody_Model Kepler_Model Kepler_Proofs Kepler_Proofs3 Kepler_Proofs4 Kepler_Proofs6 Kepler_Proofs9.
Import ListNotations.
Open Scope R_scope.

(** C69: any two parameters of different categories, whose values are those of some conic that is not a parabola,
    determine all the conic parameters: the others are filled with the values that they have for that conic, or with a
    value that is not finite exactly if they do not exist for it. *)
Theorem C69_conic_parameters :
  forall mu e l f1 f2 x1 x2 c, 0 < mu -> 0 <= e -> e <> 1 -> 0 < l ->
  conic_field f1 -> conic_field f2 -> category f1 <> category f2 ->
  measures mu e l f1 x1 -> measures mu e l f2 x2 ->
  (forall g, conic_field g ->
     c g = if field_eqb g f1 then Some (Fin x1) else if field_eqb g f2 then Some (Fin x2) else None) ->
  exists c', CompleteConicParameters mu c = Some c' /\
    (forall g, conic_field g -> exists n, c' g = Some n /\ correct mu e l g n) /\
    (forall g, ~ conic_field g -> c' g = c g).
Proof. exact conic_parameters. Qed.
Print Assumptions C69_conic_parameters.

(** The values are determined by the conic. *)
Theorem C69_unique :
  forall mu e l f x y, 0 < mu -> 0 <= e -> e <> 1 -> 0 < l ->
  measures mu e l f x -> measures mu e l f y -> x = y.
Proof. exact measures_unique. Qed.
Print Assumptions C69_unique.

(** The parameters are rejected if a category is given in part by several of them, if three categories are given, or if
    fewer than two are. *)
Theorem C69_rejected :
  (forall mu c f g x, conic_field f -> category f = category g -> category f = category x -> f <> g ->
     given c f -> given c g -> ~ given c x -> CompleteConicParameters mu c = None) /\
  (forall mu c f g h, conic_field f -> conic_field g -> conic_field h ->
     category f <> category g -> category f <> category h -> category g <> category h ->
     given c f -> given c g -> given c h -> CompleteConicParameters mu c = None) /\
  (forall mu c k, (forall f, conic_field f -> given c f -> category f = k) -> CompleteConicParameters mu c = None).
Proof. exact (conj partly_given (conj too_many too_few)). Qed.
Print Assumptions C69_rejected.
(** The argument and the longitude of the periapsis: one of them, and only one, must be given. *)
Theorem C69_orientation :
  (forall el f x w, orients (longitude_of_ascending_node el) w f x ->
     (forall g, g = argument_of_periapsis \/ g = longitude_of_periapsis -> fields el g = if field_eqb g f then Some (Fin x) else None) ->
     exists c', CompleteOrientationParameters el = Some (mkElements c' (inclination el) (longitude_of_ascending_node el)) /\
       c' argument_of_periapsis = Some (Fin w) /\ c' longitude_of_periapsis = Some (Fin (longitude_of_ascending_node el + w)) /\
       forall g, g <> argument_of_periapsis -> g <> longitude_of_periapsis -> c' g = fields el g) /\
  (forall el, (fields el argument_of_periapsis = None <-> fields el longitude_of_periapsis = None) -> CompleteOrientationParameters el = None).
Proof. exact (conj orientation_parameters orientation_rejected). Qed.
Print Assumptions C69_orientation.

(** C70: the state vectors of an orbit constructed from elements are defined at all times, solve the two-body problem,
    and are those of the elements at the epoch; those of an ellipse are periodic.  What is missing: a hyperbola given
    by a negative true anomaly, see below. *)
Theorem C70_motion_partial :
  forall Brent primary secondary el t0 e l w f1 x1 f2 x2 f3 x3 f4 x4,
  let mu := primary + match secondary with Some m => m | None => 0 end in
  root_finder Brent -> 0 < mu -> 0 <= e -> e <> 1 -> 0 < l ->
  conic_field f1 -> conic_field f2 -> category f1 <> category f2 ->
  measures mu e l f1 x1 -> measures mu e l f2 x2 ->
  orients (longitude_of_ascending_node el) w f3 x3 -> is_anomaly e f4 x4 -> outgoing e f4 x4 ->
  gives el [(f1, x1); (f2, x2); (f3, x3); (f4, x4)] ->
  exists o r v, OrbitFromElements Brent primary secondary el t0 = Some o /\
    (forall t, StateVectors Brent o t = Some (r t, v t)) /\
    two_body_motion mu r v /\
    anomaly_at_epoch mu e l (kepler_state mu e l (inclination el) (longitude_of_ascending_node el) w) t0 f4 x4 (fun t => (r t, v t)) /\
    forall T t, measures mu e l period T -> r (t + T) = r t /\ v (t + T) = v t.
Proof. exact motion_from_elements. Qed.
Print Assumptions C70_motion_partial.

(** On a hyperbola, before the periapsis, the state vectors at the epoch are those of the opposite true anomaly. *)
Theorem C70_incoming_refuted :
  forall Brent primary secondary el t0 e l w f1 x1 f2 x2 f3 x3 nu,
  let mu := primary + match secondary with Some m => m | None => 0 end in
  let position := kepler_state mu e l (inclination el) (longitude_of_ascending_node el) w in
  root_finder Brent -> 0 < mu -> 1 < e -> 0 < l ->
  conic_field f1 -> conic_field f2 -> category f1 <> category f2 ->
  measures mu e l f1 x1 -> measures mu e l f2 x2 ->
  orients (longitude_of_ascending_node el) w f3 x3 -> 0 < 1 + e * cos nu -> sin nu < 0 ->
  gives el [(f1, x1); (f2, x2); (f3, x3); (true_anomaly, nu)] ->
  exists o, OrbitFromElements Brent primary secondary el t0 = Some o /\
    StateVectors Brent o t0 = Some (position (- nu)) /\ position (- nu) <> position nu.
Proof. exact incoming_hyperbola. Qed.
Print Assumptions C70_incoming_refuted.

(** A root finder exists. *)
Example C70_root_finder : root_finder some_finder.
Proof. exact root_finder_exists. Qed.

(** A period of 16 pi and a periapsis distance of 2 around a gravitational parameter of 1 are those of an ellipse of
    eccentricity 1/2 and semimajor axis 4. *)
Example C69_example : exists c',
  CompleteConicParameters 1 (sets [(period, Fin (16 * PI)); (periapsis_distance, Fin 2)] (fun _ => None)) = Some c' /\
  c' eccentricity = Some (Fin (1 / 2)) /\ c' semimajor_axis = Some (Fin 4) /\ c' turning_angle = Some NotFinite.
Proof.
  assert (M : measures 1 (1 / 2) 3 period (16 * PI)).
  { cbn [measures]. pose proof PI_RGT_0. split; [lra|]. split; [lra|]. field. }
  destruct (conic_parameters 1 (1 / 2) 3 period periapsis_distance (16 * PI) 2
              (sets [(period, Fin (16 * PI)); (periapsis_distance, Fin 2)] (fun _ => None))
              ltac:(lra) ltac:(lra) ltac:(lra) ltac:(lra) I I ltac:(discriminate) M) as (c' & E & C & _).
  - cbn [measures]. lra.
  - intros g G. destruct g; try contradiction G; reflexivity.
  - exists c'. split; [exact E|].
    destruct (C eccentricity I) as (n1 & -> & N1). destruct (C semimajor_axis I) as (n2 & -> & N2).
    destruct (C turning_angle I) as (n3 & -> & N3).
    destruct n1 as [y1|]; cbn in N1; [|now destruct (N1 (1 / 2))]. destruct n2 as [y2|]; cbn in N2; [|destruct (N2 4); lra].
    destruct n3 as [y3|]; cbn in N3; [lra|]. repeat split; repeat f_equal; lra.
Qed.

(** A period and a semimajor axis are of the same category. *)
Example C69_rejected_example : CompleteConicParameters 1 (sets [(period, Fin 1); (semimajor_axis, Fin 2); (eccentricity, Fin 0)] (fun _ => None)) = None.
Proof. apply (proj1 C69_rejected 1 _ period semimajor_axis mean_motion); try reflexivity; try exact I; try discriminate. intros H. apply H. reflexivity. Qed.

(** The orbit with these elements, inclined by 1, whose longitudes of the ascending node and of the periapsis are 1
    and 3, with a mean anomaly of 1 at the time 0. *)
Example C70_example : exists o r v,
  OrbitFromElements some_finder (3 / 4) (Some (1 / 4))
    (mkElements (sets [(period, Fin (16 * PI)); (periapsis_distance, Fin 2); (longitude_of_periapsis, Fin 3);
                       (mean_anomaly, Fin 1)] (fun _ => None)) 1 1) 0 = Some o /\
  (forall t, StateVectors some_finder o t = Some (r t, v t)) /\
  two_body_motion 1 r v /\
  (r (- 8), v (- 8)) = kepler_state 1 (1 / 2) 3 1 1 2 0 /\
  (forall t, r (t + 16 * PI) = r t).
Proof.
  assert (MU : 3 / 4 + 1 / 4 = 1) by field.
  assert (M : measures 1 (1 / 2) 3 period (16 * PI)).
  { cbn [measures]. pose proof PI_RGT_0. split; [lra|]. split; [lra|]. field. }
  pose proof (motion_from_elements some_finder (3 / 4) (Some (1 / 4))
    (mkElements (sets [(period, Fin (16 * PI)); (periapsis_distance, Fin 2); (longitude_of_periapsis, Fin 3);
                       (mean_anomaly, Fin 1)] (fun _ => None)) 1 1) 0 (1 / 2) 3 2 period (16 * PI) periapsis_distance 2
    longitude_of_periapsis 3 mean_anomaly 1) as H.
  cbv beta iota zeta in H. rewrite MU in H.
  destruct (H root_finder_exists ltac:(lra) ltac:(lra) ltac:(lra) ltac:(lra) I I ltac:(discriminate) M)
    as (o & r & v & EO & S & MO & A & P); clear H.
  - cbn [measures]. lra.
  - cbn [orients longitude_of_ascending_node]. lra.
  - cbn [is_anomaly]. lra.
  - intros Q. discriminate Q.
  - intros g. destruct g; reflexivity.
  - exists o, r, v. split; [exact EO|]. split; [exact S|]. split; [exact MO|]. split.
    + cbn [anomaly_at_epoch inclination longitude_of_ascending_node] in A.
      replace (- 8) with (0 - 1 / (/ 8)) by field. apply A. cbn [measures]. split; [lra|]. split; [lra|]. field.
    + intros t. now apply P.
Qed.
