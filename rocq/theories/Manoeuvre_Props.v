(** C48: the rocket equation. *)
From Coq Require Import Reals Lra.
From Verif Require Import Geometry_Model Manoeuvre_Model Manoeuvre_Proofs.
Open Scope R_scope.

Theorem C48_final_mass mass b : powered mass b ->
  final_mass mass b = Some (mass * exp (- Norm (Δv b) / specific_impulse b)) /\
  0 < mass * exp (- Norm (Δv b) / specific_impulse b) <= mass.
Proof. exact (fun P => conj (final_mass_eq mass b P) (final_mass_bounds mass b P)). Qed.
Print Assumptions C48_final_mass.

(** Every velocity whose derivative is the acceleration returned during the burn changes by Δv over the burn, and by half
    of it at the time of half Δv. *)
Theorem C48_Δv mass b ti tf d v : powered mass b -> duration mass b = Some d -> tf = ti + d ->
  driven v (ComputeIntrinsicAcceleration mass (thrust b) (thrust b / specific_impulse b) ti tf (direction b)) ti tf ->
  sub3 (v tf) (v ti) = Δv b /\
  forall h, time_to_half_Δv mass b = Some h -> sub3 (v (ti + h)) (v ti) = scal3 (1 / 2) (Δv b).
Proof. exact (delivers mass b ti tf d v). Qed.
Print Assumptions C48_Δv.

(** The time of half Δv lies within the burn, and both timings give the same manœuvre. *)
Theorem C48_timings mass b t : powered mass b ->
  exists h d, initial_time mass (with_timing b (InitialTime t)) = Some t /\
    time_of_half_Δv mass (with_timing b (InitialTime t)) = Some h /\
    initial_time mass (with_timing b (TimeOfHalfΔv h)) = Some t /\
    time_of_half_Δv mass (with_timing b (TimeOfHalfΔv h)) = Some h /\
    final_time mass (with_timing b (InitialTime t)) = Some (t + d) /\ final_time mass (with_timing b (TimeOfHalfΔv h)) = Some (t + d) /\
    t <= h <= t + d.
Proof. exact (timings mass b t). Qed.
Print Assumptions C48_timings.

Theorem C48_serialization mass b : powered mass b -> exists b', WriteRead mass b = Some b' /\
  initial_time mass b' = initial_time mass b /\ duration mass b' = duration mass b /\ final_mass mass b' = final_mass mass b /\
  time_of_half_Δv mass b' = time_of_half_Δv mass b /\ final_time mass b' = final_time mass b /\ direction b' = direction b.
Proof. exact (write_read mass b). Qed.
Print Assumptions C48_serialization.

(** Manœuvres saved by old versions, as a direction and a duration, have that direction and that duration. *)
Theorem C48_tsiolkovsky dir mass d T I t : 0 < mass -> 0 < T -> 0 < I -> 0 <= d -> 0 < mass - T / I * d -> Norm dir = 1 ->
  exists v, ComputeЦиолковскийΔv dir mass d T I = Some v /\ duration mass (Burn v t T I) = Some d /\
    final_mass mass (Burn v t T I) = Some (mass - T / I * d) /\ (0 < d -> direction (Burn v t T I) = dir).
Proof. exact (tsiolkovsky dir mass d T I t). Qed.
Print Assumptions C48_tsiolkovsky.

(** The formulæ used by FlightPlan_Model.v. *)
Theorem C48_flight_plan mass b : powered mass b ->
  let root := exp (- Norm (Δv b) / (2 * specific_impulse b)) in let flow_rate := thrust b / specific_impulse b in
  0 < flow_rate /\ 0 < root <= 1 /\ mass_flow b = Some flow_rate /\
  duration mass b = Some (mass * (1 - root * root) / flow_rate) /\ time_to_half_Δv mass b = Some (mass * (1 - root) / flow_rate) /\
  final_mass mass b = Some (mass - flow_rate * (mass * (1 - root * root) / flow_rate)).
Proof. exact (flight_plan_formulæ mass b). Qed.
Print Assumptions C48_flight_plan.

(** The constructor handles a vanishing thrust when Δv vanishes, but only for the duration: the time of half Δv is not a
    number, and neither is the initial time if the burn was specified by its time of half Δv. *)
Theorem C48_no_thrust_refuted mass isp t : isp <> 0 -> 0 < mass ->
  let b timing := Burn (mk3 0 0 0) timing 0 isp in
  duration mass (b (InitialTime t)) = Some 0 /\ final_mass mass (b (InitialTime t)) = Some mass /\
  final_time mass (b (InitialTime t)) = Some t /\
  time_of_half_Δv mass (b (InitialTime t)) = None /\ initial_time mass (b (TimeOfHalfΔv t)) = None.
Proof.
  intros HI HM b. unfold b. clear b. destruct (no_thrust mass isp (InitialTime t) HI HM) as (A & B & C).
  destruct (no_thrust mass isp (TimeOfHalfΔv t) HI HM) as (_ & _ & D). split; [exact A|]. split; [exact B|].
  split; [unfold final_time; cbn [initial_time burn_timing bind]; rewrite A; cbn [bind]; f_equal; ring|].
  split; [unfold time_of_half_Δv; cbn [burn_timing]; rewrite C; reflexivity|].
  unfold initial_time. cbn [burn_timing]. rewrite D. reflexivity.
Qed.
Print Assumptions C48_no_thrust_refuted.

(** A burn that uses half of the mass: Δv = Isp ln 2. *)
Example C48_half : final_mass 10 (Burn (mk3 (3 * ln 2) 0 0) (InitialTime 0) 5 3) = Some 5 /\
  duration 10 (Burn (mk3 (3 * ln 2) 0 0) (InitialTime 0) 5 3) = Some 3.
Proof.
  assert (P : powered 10 (Burn (mk3 (3 * ln 2) 0 0) (InitialTime 0) 5 3)) by (repeat split; cbn; lra).
  assert (L : 0 < ln 2) by (rewrite <- ln_1; apply ln_increasing; lra).
  assert (N : Norm (mk3 (3 * ln 2) 0 0) = 3 * ln 2).
  { unfold Norm, Norm2. cbn. replace (3 * ln 2 * (3 * ln 2) + 0 * 0 + 0 * 0) with ((3 * ln 2) * (3 * ln 2)) by ring. apply sqrt_square. lra. }
  assert (E : exp (- (3 * ln 2) / 3) = / 2).
  { replace (- (3 * ln 2) / 3) with (- ln 2) by field. rewrite exp_Ropp, exp_ln by lra. reflexivity. }
  rewrite (final_mass_eq _ _ P), (duration_eq _ _ P). cbn [Δv thrust specific_impulse]. rewrite N, E. split; f_equal; lra.
Qed.
(** There is such a velocity for every burn. *)
Example C48_driven mass b ti d : powered mass b -> duration mass b = Some d ->
  driven (fun t => scal3 (gained mass b (t - ti)) (direction b))
    (ComputeIntrinsicAcceleration mass (thrust b) (thrust b / specific_impulse b) ti (ti + d) (direction b)) ti (ti + d).
Proof. exact (driven_exists mass b ti d). Qed.
