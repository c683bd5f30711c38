(** Model of physics/continuous_trajectory_body.hpp: Append, ComputeBestNewhallApproximation, Prepend, the bounds, the lookup of a polynomial and the checkpoints.
    Instants and lengths are integers: a finite double is a multiple of the smallest positive one.  Apart from comparisons, the only operations on them are a
    doubling, which is exact, and the multiplication by 1e6, which is not rounded in the model.  NaNs and infinities are not modelled, except for the
    infinite instants returned by t_min and t_max.  The approximation itself is a function [newhall], which returns a polynomial and the norm of its error
    estimate; [spaced] is the check that two instants are separated by the step within one ULP.  The mutex is not modelled. *)
From Coq Require Import ZArith Bool List Lia.
Import ListNotations.
Open Scope Z_scope.

(** physics/continuous_trajectory_body.hpp:35-40 *)
Definition max_degree : Z := 17.
Definition min_degree : Z := 3.
Definition max_degree_age : Z := 100.
Definition divisions : nat := 8.

Section Trajectory.
  Context {Point Poly : Type}.
  Variable newhall : Z -> list Point -> Z -> Z -> Poly * Z.
  Variable spaced : Z -> Z -> bool.

  (** physics/continuous_trajectory.hpp:211-256 *)
  Record trajectory := mkTrajectory {
    tolerance_ : Z; adjusted_tolerance_ : Z; is_unstable_ : bool; degree_ : Z; degree_age_ : Z;
    polynomials_ : list (Z * Poly); last_accessed_polynomial_ : nat; first_time_ : option Z; last_points_ : list (Z * Point)
  }.
  (** physics/continuous_trajectory_body.hpp:42-60; the tolerance is positive. *)
  Definition New (tolerance : Z) : trajectory := mkTrajectory tolerance tolerance false min_degree 0 [] 0 None [].

  (** std::numeric_limits<double>::max(), as a multiple of the smallest double. *)
  Definition max_length : Z := (2 ^ 53 - 1) * 2 ^ 2045.

  (** The variables of ComputeBestNewhallApproximation. *)
  Record fit := mkFit { f_tolerance : Z; f_unstable : bool; f_degree : Z; f_age : Z; f_polynomial : Poly; f_error : Z; f_previous : Z }.
  (** physics/continuous_trajectory_body.hpp:806-822.  There are at most [max_degree - degree_] iterations. *)
  Fixpoint increase_degree (iterations : nat) (points : list Point) (t_min t_max : Z) (f : fit) : fit :=
    match iterations with
    | O => f
    | S iterations =>
      if (f_error f >? f_tolerance f) && (f_error f <? f_previous f) && (f_degree f <? max_degree) then
        let (polynomial, error) := newhall (f_degree f + 1) points t_min t_max in
        increase_degree iterations points t_min t_max (mkFit (f_tolerance f) (f_unstable f) (f_degree f + 1) (f_age f) polynomial error (f_error f))
      else f
    end.
  (** physics/continuous_trajectory_body.hpp:765-774 *)
  Definition restart_if_old (s : trajectory) : trajectory :=
    if degree_age_ s >=? max_degree_age
    then mkTrajectory (tolerance_ s) (tolerance_ s) false min_degree 0 (polynomials_ s) (last_accessed_polynomial_ s) (first_time_ s) (last_points_ s)
    else s.
  (** physics/continuous_trajectory_body.hpp:776-788 *)
  Definition first_fit (s : trajectory) (points : list Point) (t_min t_max : Z) : fit :=
    let (polynomial, error) := newhall (degree_ s) points t_min t_max in
    mkFit (adjusted_tolerance_ s) (is_unstable_ s) (degree_ s) (degree_age_ s) polynomial error (error + error).
  (** physics/continuous_trajectory_body.hpp:790-804 *)
  Definition restart_if_unstable (tolerance : Z) (f : fit) : fit :=
    if f_unstable f && (f_error f >? f_tolerance f)
    then mkFit tolerance false (min_degree - 1) 0 (f_polynomial f) (max_length / 2) max_length
    else f.
  (** physics/continuous_trajectory_body.hpp:824-842 *)
  Definition revert_if_unstable (f : fit) : fit :=
    if f_error f >=? f_previous f
    then mkFit (Z.max (f_tolerance f) (f_previous f)) true (if f_degree f >? min_degree then f_degree f - 1 else f_degree f) (f_age f + 1) (f_polynomial f) (f_previous f) (f_previous f)
    else mkFit (f_tolerance f) (f_unstable f) (f_degree f) (f_age f + 1) (f_polynomial f) (f_error f) (f_previous f).
  (** physics/continuous_trajectory_body.hpp:758-858, with the status. *)
  Definition best_fit (s : trajectory) (points : list Point) (t_min t_max : Z) : fit :=
    revert_if_unstable (increase_degree 15 points t_min t_max (restart_if_unstable (tolerance_ s) (first_fit (restart_if_old s) points t_min t_max))).
  Definition ComputeBestNewhallApproximation (s : trajectory) (points : list Point) (t_min t_max : Z) : trajectory * bool :=
    let f := best_fit s points t_min t_max in
    (mkTrajectory (tolerance_ s) (f_tolerance f) (f_unstable f) (f_degree f) (f_age f) (polynomials_ s ++ [(t_max, f_polynomial f)])
                  (last_accessed_polynomial_ s) (first_time_ s) (last_points_ s),
     f_tolerance f <? 1000000 * adjusted_tolerance_ s).

  (** physics/continuous_trajectory_body.hpp:82-127.  [None] is the failure of a check; the second component is the status. *)
  Definition Append (s : trajectory) (time : Z) (point : Point) : option (trajectory * bool) :=
    if match first_time_ s, rev (last_points_ s) with
       | Some _, (t, _) :: _ => spaced t time
       | Some _, [] => false
       | None, _ => true
       end && Nat.leb (length (last_points_ s)) divisions
    then
      let s := mkTrajectory (tolerance_ s) (adjusted_tolerance_ s) (is_unstable_ s) (degree_ s) (degree_age_ s) (polynomials_ s) (last_accessed_polynomial_ s)
                            (match first_time_ s with Some t => Some t | None => Some time end) (last_points_ s) in
      let '(s, status, last_points) :=
        match last_points_ s with
        | (t_min, _) :: _ =>
          if Nat.eqb (length (last_points_ s)) divisions
          then (ComputeBestNewhallApproximation s (map snd (last_points_ s) ++ [point]) t_min time, [])
          else (s, true, last_points_ s)
        | [] => (s, true, [])
        end in
      Some (mkTrajectory (tolerance_ s) (adjusted_tolerance_ s) (is_unstable_ s) (degree_ s) (degree_age_ s) (polynomials_ s) (last_accessed_polynomial_ s)
                         (first_time_ s) (last_points ++ [(time, point)]), status)
    else None.
  (** Several calls to Append; the statuses are ignored. *)
  Fixpoint append_all (s : trajectory) (l : list (Z * Point)) : option trajectory :=
    match l with
    | [] => Some s
    | (t, p) :: l => match Append s t p with Some (s, _) => append_all s l | None => None end
    end.

  (** physics/continuous_trajectory_body.hpp:129-167.  The steps are equal. *)
  Definition Prepend (s prefix : trajectory) : option trajectory :=
    if tolerance_ s =? tolerance_ prefix then
      match rev (polynomials_ prefix), polynomials_ s with
      | [], _ => Some s
      | _, [] =>
        Some (mkTrajectory (tolerance_ s) (adjusted_tolerance_ prefix) (is_unstable_ prefix) (degree_ prefix) (degree_age_ prefix) (polynomials_ prefix)
                           (last_accessed_polynomial_ prefix) (first_time_ prefix) (last_points_ prefix))
      | (t_max, _) :: _, _ =>
        match first_time_ s with
        | Some t => if t =? t_max
                    then Some (mkTrajectory (tolerance_ s) (adjusted_tolerance_ s) (is_unstable_ s) (degree_ s) (degree_age_ s) (polynomials_ prefix ++ polynomials_ s)
                                            (last_accessed_polynomial_ s) (first_time_ prefix) (last_points_ s))
                    else None
        | None => None
        end
      end
    else None.

  (** physics/continuous_trajectory_body.hpp:670-684.  [None] is infinite. *)
  Definition t_min (s : trajectory) : option Z := match polynomials_ s with [] => None | _ => first_time_ s end.
  Definition t_max (s : trajectory) : option Z := match rev (polynomials_ s) with [] => None | (t, _) :: _ => Some t end.

  (** std::lower_bound on t_max, on a sorted vector: the index of the first polynomial such that [time <= t_max], or the length. *)
  Fixpoint lower_bound (l : list (Z * Poly)) (time : Z) : nat := match l with [] => O | (t, _) :: l => if t <? time then S (lower_bound l time) else O end.
  (** std::upper_bound: the index of the first polynomial such that [time < t_max]. *)
  Fixpoint upper_bound (l : list (Z * Poly)) (time : Z) : nat := match l with [] => O | (t, _) :: l => if time <? t then O else S (upper_bound l time) end.
  (** physics/continuous_trajectory_body.hpp:860-885: the index of the polynomial, and the trajectory with its cache. *)
  Definition FindPolynomialForInstant (s : trajectory) (time : Z) : nat * trajectory :=
    let i := last_accessed_polynomial_ s in
    if match nth_error (polynomials_ s) i with
       | Some (t, _) => (time <=? t) && match i with O => true | S j => match nth_error (polynomials_ s) j with Some (t, _) => t <? time | None => false end end
       | None => false
       end
    then (i, s)
    else
      let i := lower_bound (polynomials_ s) time in
      (i, mkTrajectory (tolerance_ s) (adjusted_tolerance_ s) (is_unstable_ s) (degree_ s) (degree_age_ s) (polynomials_ s) i (first_time_ s) (last_points_ s)).
  (** physics/continuous_trajectory_body.hpp:686-721: the polynomial that is evaluated at [time].  [None] is the failure of a check. *)
  Definition Evaluate (s : trajectory) (time : Z) : option (Poly * trajectory) :=
    match t_min s, t_max s with
    | Some a, Some b =>
      if (a <=? time) && (b >=? time) then
        let (i, s') := FindPolynomialForInstant s time in
        match nth_error (polynomials_ s) i with Some (_, p) => Some (p, s') | None => None end
      else None
    | _, _ => None
    end.

  (** physics/continuous_trajectory_body.hpp:589-614 *)
  Record checkpoint := mkCheckpoint { c_tolerance : Z; c_unstable : bool; c_degree : Z; c_age : Z; c_points : list (Z * Point) }.
  Definition WriteToCheckpoint (s : trajectory) : checkpoint := mkCheckpoint (adjusted_tolerance_ s) (is_unstable_ s) (degree_ s) (degree_age_ s) (last_points_ s).
  (** physics/continuous_trajectory_body.hpp:616-668 *)
  Definition ReadFromCheckpoint (c : checkpoint) (s : trajectory) : trajectory :=
    match c_points c with
    | [] => mkTrajectory (tolerance_ s) (c_tolerance c) (c_unstable c) (c_degree c) (c_age c) [] 0 None []
    | (oldest_time, _) :: _ =>
      let polynomials := firstn (upper_bound (polynomials_ s) oldest_time) (polynomials_ s) in
      mkTrajectory (tolerance_ s) (c_tolerance c) (c_unstable c) (c_degree c) (c_age c) polynomials 0
                   (match polynomials with [] => Some oldest_time | _ => first_time_ s end) (c_points c)
    end.
End Trajectory.
Arguments trajectory : clear implicits.
