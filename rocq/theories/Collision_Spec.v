(** What is expected of the collision intervals. *)
From Coq Require Import Reals List.
Import ListNotations.
Open Scope R_scope.

Section Spec.
  Variable distance : R -> R.
  Variable max_radius2 : R.
  (** The distance is monotonic, in the direction given by its values at the ends. *)
  Definition monotonic (a b : R) : Prop :=
    (distance a < distance b -> forall t u, a <= t <= u -> u <= b -> distance t <= distance u) /\
    (distance b < distance a -> forall t u, a <= t <= u -> u <= b -> distance u <= distance t).
  (** The times are in increasing order, from [t_min] to [t_max], and the distance is monotonic between them. *)
  Fixpoint extrema_from (t_min : R) (times : list R) (t_max : R) : Prop :=
    match times with [] => t_min = t_max | t :: times => t_min < t /\ monotonic t_min t /\ extrema_from t times t_max end.
  (** The minima and maxima alternate. *)
  Fixpoint alternating (up : bool) (t : R) (times : list R) : Prop :=
    match times with [] => True | u :: times => (if up then distance t < distance u else distance u < distance t) /\ alternating (negb up) u times end.
  (** The intervals are disjoint and in order. *)
  Fixpoint ordered (lower upper : R) (intervals : list (R * R)) : Prop :=
    match intervals with
    | [] => True
    | (min, max) :: intervals => lower <= min <= max /\ max <= upper /\ match intervals with [] => True | (min', _) :: _ => max < min' end /\ ordered max upper intervals
    end.
  Definition contains (intervals : list (R * R)) (t : R) : Prop := exists i, In i intervals /\ fst i <= t <= snd i.
  (** The intervals are those where the distance is at most the maximum radius. *)
  Definition collisions (lower upper : R) (intervals : list (R * R)) : Prop :=
    ordered lower upper intervals /\ (forall t, lower <= t <= upper -> distance t < max_radius2 -> contains intervals t) /\
    (forall t, contains intervals t -> distance t <= max_radius2).
  (** The root finder finds a root between two times with different signs. *)
  Definition finds_roots (Brent : R -> R -> R) : Prop :=
    forall a b, a <= b -> (distance a < max_radius2 < distance b \/ distance b < max_radius2 < distance a) -> a <= Brent a b <= b /\ distance (Brent a b) = max_radius2.
End Spec.
