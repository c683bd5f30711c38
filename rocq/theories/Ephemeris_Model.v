(** Model of the gravitational computations of physics/ephemeris_body.hpp.  Numbers are real; vectors are given by their
    coordinates; instants are numbers of seconds.  A std::vector indexed by the bodies or by the massless points is a
    function of the index.  The trajectories of the massive bodies are functions of the time; their fitting, the locks, the
    integration and the serialization are not modelled here. *)
From Coq Require Import Reals List ZArith Bool.
From Verif Require Import Geometry_Model.
Import ListNotations.
Open Scope R_scope.

(** A Geopotential: its functions [GeneralSphericalHarmonicsAcceleration] and [GeneralSphericalHarmonicsPotential], of
    the arguments t, r, r_norm, r², one_over_r³ (physics/geopotential.hpp). *)
Record Geopotential := mkGeo {
  harmonics_acceleration : R -> R3 -> R -> R -> R -> R3;
  harmonics_potential : R -> R3 -> R -> R -> R -> R }.
(** A MassiveBody: its address, its gravitational parameter, its minimal radius and, if it is oblate, the geopotential
    which is made from it. *)
Record MassiveBody := mkMB { address : nat; gravitational_parameter : R; min_radius : R; geo : option Geopotential }.
Definition is_oblate (b : MassiveBody) : bool := match geo b with Some _ => true | None => false end.
(** The degrees of freedom and the trajectories. *)
Definition DoF : Type := (R3 * R3)%type.
Definition Trajectory : Type := R -> DoF.

(** * The constructor, physics/ephemeris_body.hpp:95-172 *)
Record Ephemeris := mkEph {
  bodies_ : list MassiveBody;
  trajectories_ : list Trajectory;
  geopotentials_ : list Geopotential;
  number_of_oblate_bodies_ : nat;
  number_of_spherical_bodies_ : nat;
  unowned_bodies_ : list nat;
  state_positions : list R3;
  state_velocities : list R3 }.
Definition empty_ephemeris : Ephemeris := mkEph [] [] [] 0 0 [] [] [].
(** The loop; [None] is the CHECK that the insertion took place. *)
Definition add_body (e : option Ephemeris) (input : MassiveBody * DoF * Trajectory) : option Ephemeris :=
  let '(body, dof, trajectory) := input in
  match e with
  | None => None
  | Some e =>
      if existsb (Nat.eqb (address body)) (unowned_bodies_ e) then None
      else
        let unowned := unowned_bodies_ e ++ [address body] in
        Some (match geo body with
              | Some g =>
                  mkEph (body :: bodies_ e) (trajectory :: trajectories_ e) (g :: geopotentials_ e)
                        (S (number_of_oblate_bodies_ e)) (number_of_spherical_bodies_ e) unowned
                        (fst dof :: state_positions e) (snd dof :: state_velocities e)
              | None =>
                  mkEph (bodies_ e ++ [body]) (trajectories_ e ++ [trajectory]) (geopotentials_ e)
                        (number_of_oblate_bodies_ e) (S (number_of_spherical_bodies_ e)) unowned
                        (state_positions e ++ [fst dof]) (state_velocities e ++ [snd dof])
              end)
  end.
(** The CHECK that there are bodies; the vectors, checked to be of equal sizes, are given as a list. *)
Definition make_ephemeris (inputs : list (MassiveBody * DoF * Trajectory)) : option Ephemeris :=
  match inputs with [] => None | _ => fold_left add_body inputs (Some empty_ephemeris) end.
(** Lines 161-163, and [bodies_indices_.at]; [None] is the exception. *)
Fixpoint index_from (i : nat) (bodies : list MassiveBody) (a : nat) : option nat :=
  match bodies with [] => None | b :: l => if Nat.eqb (address b) a then Some i else index_from (S i) l a end.
Definition body_index (e : Ephemeris) (a : nat) : option nat := index_from 0 (bodies_ e) a.

(** * Between massive bodies *)
Definition update {A} (f : nat -> A) (i : nat) (a : A) : nat -> A := fun j => if Nat.eqb j i then a else f j.
(** The index range [b2_begin, b2_end[. *)
Definition range (b2_begin b2_end : nat) : list nat := seq b2_begin (b2_end - b2_begin).
Definition mu_at (bodies : list MassiveBody) (b : nat) : R := match nth_error bodies b with Some b => gravitational_parameter b | None => 0 end.

Definition bind {A B} (a : option A) (f : A -> option B) : option B := match a with Some a => f a | None => None end.
(** The body of the loop of lines 1359-1405; [None] is the access to an element of [geopotentials] which does not exist. *)
Definition pair_step (body1_is_oblate body2_is_oblate : bool) (t mu1 : R) (b1 : nat) (bodies2 : list MassiveBody)
    (positions : nat -> R3) (geopotentials : list Geopotential) (accelerations : option (nat -> R3)) (b2 : nat)
    : option (nat -> R3) :=
  let mu2 := mu_at bodies2 b2 in
  let dq := sub3 (positions b1) (positions b2) in
  let dq2 := Norm2 dq in
  let dq_norm := sqrt dq2 in
  let one_over_dq3 := dq_norm / (dq2 * dq2) in
  bind accelerations (fun acc =>
  let mu1_over_dq3 := mu1 * one_over_dq3 in
  let acc := update acc b2 (add3 (acc b2) (scal3 mu1_over_dq3 dq)) in
  let mu2_over_dq3 := mu2 * one_over_dq3 in
  let acc := update acc b1 (sub3 (acc b1) (scal3 mu2_over_dq3 dq)) in
  let first :=
    if body1_is_oblate then
      bind (nth_error geopotentials b1) (fun g =>
      let effect := harmonics_acceleration g t (opp3 dq) dq_norm dq2 one_over_dq3 in
      let acc := update acc b1 (sub3 (acc b1) (scal3 mu2 effect)) in
      Some (update acc b2 (add3 (acc b2) (scal3 mu1 effect))))
    else Some acc in
  if body2_is_oblate then
    bind first (fun acc =>
    bind (nth_error geopotentials b2) (fun g =>
    let effect := harmonics_acceleration g t dq dq_norm dq2 one_over_dq3 in
    let acc := update acc b1 (add3 (acc b1) (scal3 mu2 effect)) in
    Some (update acc b2 (sub3 (acc b2) (scal3 mu1 effect)))))
  else first).
(** Lines 1342-1406. *)
Definition ByMassiveBodyOnMassiveBodies (body1_is_oblate body2_is_oblate : bool) (t mu1 : R) (b1 : nat)
    (bodies2 : list MassiveBody) (b2_begin b2_end : nat) (positions : nat -> R3) (geopotentials : list Geopotential)
    (accelerations : option (nat -> R3)) : option (nat -> R3) :=
  fold_left (pair_step body1_is_oblate body2_is_oblate t mu1 b1 bodies2 positions geopotentials)
            (range b2_begin b2_end) accelerations.
(** Lines 1503-1552. *)
Definition BetweenAllMassiveBodies (e : Ephemeris) (t : R) (positions : nat -> R3) : option (nat -> R3) :=
  let no := number_of_oblate_bodies_ e in
  let n := (no + number_of_spherical_bodies_ e)%nat in
  let by_body o1 o2 b1 b2_begin b2_end :=
    ByMassiveBodyOnMassiveBodies o1 o2 t (mu_at (bodies_ e) b1) b1 (bodies_ e) b2_begin b2_end positions (geopotentials_ e) in
  let accelerations := Some (fun _ => zero3) in
  let accelerations :=
    fold_left (fun acc b1 => by_body true false b1 no n (by_body true true b1 (b1 + 1)%nat no acc)) (range 0 no) accelerations in
  fold_left (fun acc b1 => by_body false false b1 (b1 + 1)%nat n acc) (range no n) accelerations.
(** Lines 1249-1315; [None] is the exception of [at] or an access to an element of the vector of geopotentials which does
    not exist. *)
Definition AccelerationOnMassiveBody (e : Ephemeris) (body : MassiveBody) (positions : nat -> R3) (t : R) : option R3 :=
  let no := number_of_oblate_bodies_ e in
  let n := (no + number_of_spherical_bodies_ e)%nat in
  bind (body_index e (address body)) (fun b1 =>
  let by_body o1 o2 b2_begin b2_end :=
    ByMassiveBodyOnMassiveBodies o1 o2 t (gravitational_parameter body) b1 (bodies_ e) b2_begin b2_end positions
      (geopotentials_ e) in
  let accelerations := Some (fun _ => zero3) in
  bind (if is_oblate body then
          by_body true false no n (by_body true true (b1 + 1)%nat no (by_body true true 0%nat b1 accelerations))
        else
          by_body false false (b1 + 1)%nat n (by_body false false no b1 (by_body false true 0%nat no accelerations)))
       (fun acc => Some (acc b1))).

(** * Jerk and Jacobian *)
(** [-InnerProductForm / |dq|³ + 3 SymmetricSquare(dq) / |dq|⁵], lines 561-562, 1200-1201 and 1240-1241, applied to a vector
    (geometry/symmetric_bilinear_form_body.hpp). *)
Definition form_times (dq v : R3) : R3 :=
  let dq2 := Norm2 dq in
  let dq_norm := sqrt dq2 in
  let dq_norm3 := dq2 * dq_norm in
  let dq_norm5 := dq_norm3 * dq2 in
  add3 (div3 (opp3 v) dq_norm3) (scal3 (3 / dq_norm5) (scal3 (Dot dq v) dq)).
(** The loop of lines 1224-1247. *)
Definition jerk_step (mu1 : R) (b1 : nat) (bodies2 : list MassiveBody) (dofs : nat -> DoF) (jerks : nat -> R3) (b2 : nat)
    : nat -> R3 :=
  let dq := sub3 (fst (dofs b1)) (fst (dofs b2)) in
  let dv := sub3 (snd (dofs b1)) (snd (dofs b2)) in
  let vector := form_times dq dv in
  let jerks := update jerks b2 (sub3 (jerks b2) (scal3 mu1 vector)) in
  update jerks b1 (add3 (jerks b1) (scal3 (mu_at bodies2 b2) vector)).
(** Lines 1317-1340. *)
Definition JerkOnMassiveBody (e : Ephemeris) (body : MassiveBody) (dofs : nat -> DoF) : option R3 :=
  let n := (number_of_oblate_bodies_ e + number_of_spherical_bodies_ e)%nat in
  bind (body_index e (address body)) (fun b1 =>
  let by_body b2_begin b2_end jerks :=
    fold_left (jerk_step (gravitational_parameter body) b1 (bodies_ e) dofs) (range b2_begin b2_end) jerks in
  Some (by_body (b1 + 1)%nat n (by_body 0%nat b1 (fun _ => zero3)) b1)).
(** Lines 1174-1208 with 496-535: the Jacobian applied to a vector [u]. *)
Definition jacobian_step (mu1 : R) (b1 : nat) (bodies2 : list MassiveBody) (positions : nat -> R3) (u : R3)
    (jacobians : nat -> R3) (b2 : nat) : nat -> R3 :=
  let dq := sub3 (positions b1) (positions b2) in
  let form := form_times dq u in
  let jacobians := update jacobians b2 (add3 (jacobians b2) (scal3 mu1 form)) in
  update jacobians b1 (add3 (jacobians b1) (scal3 (mu_at bodies2 b2) form)).
Definition JacobianOnMassiveBody (e : Ephemeris) (body : MassiveBody) (positions : nat -> R3) (u : R3) : option R3 :=
  let n := (number_of_oblate_bodies_ e + number_of_spherical_bodies_ e)%nat in
  bind (body_index e (address body)) (fun b1 =>
  let by_body b2_begin b2_end jacobians :=
    fold_left (jacobian_step (gravitational_parameter body) b1 (bodies_ e) positions u) (range b2_begin b2_end) jacobians in
  Some (by_body (b1 + 1)%nat n (by_body 0%nat b1 (fun _ => zero3)) b1)).
(** Lines 537-573. *)
Definition trajectory_at (e : Ephemeris) (b : nat) (t : R) : DoF :=
  match nth_error (trajectories_ e) b with Some trajectory => trajectory t | None => (zero3, zero3) end.
Definition JerkOnMasslessBody (e : Ephemeris) (dof : DoF) (t : R) : R3 :=
  fold_left (fun jerk b2 =>
    let dof2 := trajectory_at e b2 t in
    let dq := sub3 (fst dof) (fst dof2) in
    let dv := sub3 (snd dof) (snd dof2) in
    add3 jerk (scal3 (mu_at (bodies_ e) b2) (form_times dq dv)))
    (range 0 (number_of_oblate_bodies_ e + number_of_spherical_bodies_ e)) zero3.

(** * On massless bodies *)
(** absl::StatusCode. *)
Definition kOk : Z := 0.
Definition kOutOfRange : Z := 11.
(** Line 64. *)
Definition min_radius_tolerance : R := 99 / 100.
(** The loop of lines 1432-1461, on the [count] points. *)
Definition massless_step (body1_is_oblate : bool) (t mu1 : R) (b1 : nat) (position1 : R3) (collision_radius : R)
    (positions : nat -> R3) (geopotentials : list Geopotential) (state : option (Z * (nat -> R3))) (b2 : nat)
    : option (Z * (nat -> R3)) :=
  bind state (fun '(error, acc) =>
  let dq := sub3 position1 (positions b2) in
  let dq2 := Norm2 dq in
  let dq_norm := sqrt dq2 in
  let error := Z.lor error (if Rlt_dec collision_radius dq_norm then kOk else kOutOfRange) in
  let one_over_dq3 := dq_norm / (dq2 * dq2) in
  let mu1_over_dq3 := mu1 * one_over_dq3 in
  let acc := update acc b2 (add3 (acc b2) (scal3 mu1_over_dq3 dq)) in
  if body1_is_oblate then
    bind (nth_error geopotentials b1) (fun g =>
    let effect := harmonics_acceleration g t (opp3 dq) dq_norm dq2 one_over_dq3 in
    Some (error, update acc b2 (add3 (acc b2) (scal3 mu1 effect))))
  else Some (error, acc)).
(** Lines 1412-1463; the errors of the callers are or'ed (lines 1571 and 1583), here by passing the error along. *)
Definition ByMassiveBodyOnMasslessBodies (body1_is_oblate : bool) (e : Ephemeris) (t : R) (b1 count : nat) (positions : nat -> R3)
    (state : option (Z * (nat -> R3))) : option (Z * (nat -> R3)) :=
  match nth_error (bodies_ e) b1 with
  | None => None
  | Some body1 =>
      fold_left (massless_step body1_is_oblate t (gravitational_parameter body1) b1 (fst (trajectory_at e b1 t))
                   (min_radius_tolerance * min_radius body1) positions (geopotentials_ e)) (range 0 count) state
  end.
(** Lines 1554-1591. *)
Definition OnMasslessBodies (e : Ephemeris) (t : R) (count : nat) (positions : nat -> R3) : option (Z * (nat -> R3)) :=
  let no := number_of_oblate_bodies_ e in
  let n := (no + number_of_spherical_bodies_ e)%nat in
  fold_left (fun state b1 => ByMassiveBodyOnMasslessBodies false e t b1 count positions state) (range no n)
    (fold_left (fun state b1 => ByMassiveBodyOnMasslessBodies true e t b1 count positions state) (range 0 no)
       (Some (kOk, fun _ => zero3))).
(** Lines 621-634. *)
Definition AccelerationOnMasslessBody (e : Ephemeris) (position : R3) (t : R) : option R3 :=
  bind (OnMasslessBodies e t 1 (fun _ => position)) (fun '(_, acc) => Some (acc 0%nat)).
(** The loop of lines 1478-1500. *)
Definition potential_step (body1_is_oblate : bool) (t mu1 : R) (b1 : nat) (position1 : R3) (positions : nat -> R3)
    (geopotentials : list Geopotential) (potentials : option (nat -> R)) (b2 : nat) : option (nat -> R) :=
  bind potentials (fun pot =>
  let dq := sub3 position1 (positions b2) in
  let dq2 := Norm2 dq in
  let dq_norm := sqrt dq2 in
  let one_over_dq_norm := 1 / dq_norm in
  let pot := update pot b2 (pot b2 - mu1 * one_over_dq_norm) in
  if body1_is_oblate then
    bind (nth_error geopotentials b1) (fun g =>
    let one_over_dq3 := one_over_dq_norm * one_over_dq_norm * one_over_dq_norm in
    let effect := harmonics_potential g t (opp3 dq) dq_norm dq2 one_over_dq3 in
    Some (update pot b2 (pot b2 + mu1 * effect)))
  else Some pot).
(** Lines 1464-1501. *)
Definition PotentialsOfMassiveBody (body1_is_oblate : bool) (e : Ephemeris) (t : R) (b1 count : nat) (positions : nat -> R3)
    (potentials : option (nat -> R)) : option (nat -> R) :=
  fold_left (potential_step body1_is_oblate t (mu_at (bodies_ e) b1) b1 (fst (trajectory_at e b1 t)) positions (geopotentials_ e))
            (range 0 count) potentials.
(** Lines 1593-1622. *)
Definition PotentialsOfAllMassiveBodies (e : Ephemeris) (t : R) (count : nat) (positions : nat -> R3) : option (nat -> R) :=
  let no := number_of_oblate_bodies_ e in
  let n := (no + number_of_spherical_bodies_ e)%nat in
  fold_left (fun pot b1 => PotentialsOfMassiveBody false e t b1 count positions pot) (range no n)
    (fold_left (fun pot b1 => PotentialsOfMassiveBody true e t b1 count positions pot) (range 0 no) (Some (fun _ => 0))).
(** Lines 688-696. *)
Definition GravitationalPotential (e : Ephemeris) (position : R3) (t : R) : option R :=
  bind (PotentialsOfAllMassiveBodies e t 1 (fun _ => position)) (fun pot => Some (pot 0%nat)).

(** * ToleranceToErrorRatio, lines 1698-1718 *)
(** The largest norm, 0 if there is none. *)
Definition max_error (errors : list R3) : R := fold_left (fun m e => Rmax m (Norm e)) errors 0.
(** A quotient by 0 of a positive number is infinite: [None]. *)
Definition quotient (tolerance error : R) : option R := if Req_EM_T error 0 then None else Some (tolerance / error).
Definition min_ratio (a b : option R) : option R :=
  match a, b with
  | Some a, Some b => Some (Rmin a b)
  | None, b => b
  | a, None => a
  end.
Definition ToleranceToErrorRatio (length_tolerance speed_tolerance : R) (position_errors velocity_errors : list R3) : option R :=
  min_ratio (quotient length_tolerance (max_error position_errors)) (quotient speed_tolerance (max_error velocity_errors)).
