(** Model of ComputeCollisionIntervals, and of the choice of the time of an apsis in ComputeApsides, physics/apsides_body.hpp:105-131 and 159-373.
    Times and squared distances are real numbers.  [distance] is the function squared_distance_from_centre, [max_radius2] the square of the maximal radius and
    [Brent] the root finder on distance - max_radius2.  The elements of the set of times are given in increasing order. *)
From Coq Require Import Bool Reals List.
Import ListNotations.
Open Scope R_scope.

(** physics/apsides_body.hpp:105-125.  [None] is an access to the last element of an empty array, which is undefined.  [interpolation] is the result of the
    linear interpolation; it is overwritten at line 125. *)
Definition apsis_time (extrema : list R) (interpolation : R) : option R :=
  let apsis_time := if negb (Nat.eqb (length extrema) 1) then interpolation else 0 in
  match rev extrema with [] => None | back :: _ => Some back end.

Section Collision.
  Variable distance : R -> R.
  Variable max_radius2 : R.
  Variable Brent : R -> R -> R.

  (** physics/apsides_body.hpp:223-244, the loop that sets is_anomalous. *)
  Fixpoint is_anomalous (at_apoapsis at_periapsis : bool) (previous_distance : R) (times : list R) : bool :=
    match times with
    | [] => false
    | t :: times =>
      let d := distance t in
      if Rlt_dec previous_distance d then if at_apoapsis then true else is_anomalous true false d times
      else if Rlt_dec d previous_distance then if at_periapsis then true else is_anomalous false true d times
      else true
    end.

  (** physics/apsides_body.hpp:252-363: [outer] is the outer loop, where [previous] is the element denoted by previous_it, if any, and [times] are the elements
      from it on; [inner] is the inner loop, for the interval that starts at [min], where [periapsis] is the element denoted by it and [times] are the next ones.
      [None] is the failure of a check. *)
  Fixpoint outer (t_min : R) (previous : option R) (times : list R) : option (list (R * R)) :=
    match times with
    | [] => Some []
    | periapsis :: times =>
      if Rlt_dec (distance periapsis) max_radius2 then
        match previous with
        | None => if Req_EM_T periapsis t_min then inner t_min periapsis periapsis times else None
        | Some apoapsis =>
          if Rle_dec apoapsis periapsis then
            if Rlt_dec max_radius2 (distance apoapsis) then inner t_min (Brent apoapsis periapsis) periapsis times
            else if Req_EM_T apoapsis t_min then inner t_min apoapsis periapsis times else None
          else None
        end
      else match times with [] => Some [] | apoapsis :: times => outer t_min (Some apoapsis) times end
    end
  with inner (t_min min periapsis : R) (times : list R) : option (list (R * R)) :=
    match times with
    | [] => Some [(min, periapsis)]
    | apoapsis :: times =>
      if Rle_dec periapsis apoapsis then
        if Rlt_dec max_radius2 (distance apoapsis) then
          match outer t_min (Some apoapsis) times with Some intervals => Some ((min, Brent periapsis apoapsis) :: intervals) | None => None end
        else match times with [] => Some [(min, apoapsis)] | periapsis :: times => inner t_min min periapsis times end
      else None
    end.

  (** physics/apsides_body.hpp:365-369 *)
  Fixpoint consistent (intervals : list (R * R)) : bool :=
    match intervals with
    | (_, max) :: (((min', max') :: _) as intervals) => (if Rle_dec max min' then true else false) && (if Rle_dec min' max' then true else false) && consistent intervals
    | _ => true
    end.

  (** physics/apsides_body.hpp:179-373 *)
  Definition ComputeCollisionIntervals (t_min : R) (apsides_times : list R) : option (list (R * R)) :=
    match apsides_times with
    | first :: ((second :: rest) as others) =>
      if is_anomalous false false (distance first) others then Some []
      else
        match (if Rlt_dec (distance first) (distance second) then outer t_min None (first :: others) else outer t_min (Some first) others) with
        | Some intervals => if consistent intervals then Some intervals else None
        | None => None
        end
    | _ => Some []
    end.
End Collision.
