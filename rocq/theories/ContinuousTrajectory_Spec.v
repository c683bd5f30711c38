(** What is expected of the continuous trajectories. *)
From Coq Require Import ZArith List.
From Verif Require Import ContinuousTrajectory_Model.
Import ListNotations.
Open Scope Z_scope.

Section Spec.
  Context {Point Poly : Type}.
  Variable newhall : Z -> list Point -> Z -> Z -> Poly * Z.
  Variable spaced : Z -> Z -> bool.

  (** [p] is the polynomial number [i] for the points [l]: it approximates the points of index [8 i] to [8 i + 8]. *)
  Definition approximates (l : list (Z * Point)) (i : nat) (t : Z) (p : Poly) : Prop :=
    exists d e t0 q0 q1, 3 <= d <= 17 /\ nth_error l (8 * i) = Some (t0, q0) /\ nth_error l (8 * i + 8) = Some (t, q1) /\
      newhall d (map snd (firstn 9 (skipn (8 * i) l))) t0 t = (p, e).
  (** The points are separated by the step. *)
  Definition steps (l : list (Z * Point)) : Prop := forall i t q u r, nth_error l i = Some (t, q) -> nth_error l (S i) = Some (u, r) -> spaced t u = true.
  (** A trajectory after some evaluations, which only change the cache. *)
  Definition with_cache (s : trajectory Point Poly) (c : nat) : trajectory Point Poly :=
    mkTrajectory (tolerance_ s) (adjusted_tolerance_ s) (is_unstable_ s) (degree_ s) (degree_age_ s) (polynomials_ s) c (first_time_ s) (last_points_ s).
End Spec.
