(** Model of ComputeFirstCollision, physics/apsides_body.hpp:373-475, with exact arithmetic on real numbers.  [height] is the function
    height_above_terrain_at_time; the frames and the spherical coordinates from which it is computed are not modelled.  [RealRoots] gives the elements of the set
    of real roots of an interpolant, in increasing order; its precision argument is not modelled.  The result is the time only, not the degrees of freedom. *)
From Coq Require Import Bool List Reals.
From Verif Require Import Chebyshev_Model Approximation_Model.
Import ListNotations.
Open Scope R_scope.

Section FirstCollision.
  Variable height : R -> R.
  Variable RealRoots : series -> list R.

  (** physics/apsides_body.hpp:414-417.  The failure of the check of MayHaveRealRoots, on a negative estimate, doesn't happen: the estimates are sums of absolute
      values. *)
  Definition subdivide (interpolant : series) (error_estimate : R) : bool :=
    match MayHaveRealRoots interpolant error_estimate with Some b => b | None => true end.
  (** physics/apsides_body.hpp:424-452: the value that the predicate stop assigns to first_collision_time, if any. *)
  Definition collision_time (interpolant : series) : option R :=
    if match MayHaveRealRoots interpolant 0 with Some b => b | None => true end then
      match RealRoots interpolant with [] => None | first :: _ => Some first end
    else None.
  (** physics/apsides_body.hpp:421-452: the predicate stop returns true exactly where it assigns first_collision_time. *)
  Definition stop (_ : list (series * R)) (interpolant : series) : bool := match collision_time interpolant with Some _ => true | None => false end.
  (** The value of first_collision_time after the calls of stop on the successive interpolants. *)
  Definition first_collision_time (pieces : list (series * R)) : option R :=
    fold_left (fun time piece => match collision_time (fst piece) with Some t => Some t | None => time end) pieces None.
  (** physics/apsides_body.hpp:454-474.  The result of the streaming is given too; [None] is a failed check or a recursion deeper than the fuel. *)
  Definition ComputeFirstCollision (fuel max_degree : nat) (max_collision_error min max : R) : option (option R * list (series * R)) :=
    match Streaming fuel max_degree height max_collision_error subdivide stop min max [] with
    | Some (_, pieces, _) => Some (first_collision_time pieces, pieces)
    | None => None
    end.
End FirstCollision.
