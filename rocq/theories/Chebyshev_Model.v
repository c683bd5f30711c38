(** Model of numerics/polynomial_in_чебышёв_basis_body.hpp, with exact arithmetic on real numbers.  The coefficients are scalars. *)
From Coq Require Import Bool List Reals.
Import ListNotations.
Open Scope R_scope.

(** numerics/polynomial_in_чебышёв_basis_body.hpp:137-147; there is at least one coefficient. *)
Record series := Series { coefficients : list R; lower_bound : R; upper_bound : R }.
Definition width (s : series) : R := upper_bound s - lower_bound s.
Definition one_over_width (s : series) : R := 1 / width s.
(** numerics/polynomial_in_чебышёв_basis_body.hpp:217-222 *)
Definition degree (s : series) : nat := Nat.pred (length (coefficients s)).
(** An access to an element of an array, [None] out of its bounds. *)
Definition at_index (k : nat) (s : series) : option R := nth_error (coefficients s) k.
Definition coefficient (k : nat) (s : series) : R := nth k (coefficients s) 0.
Definition scaled_argument (s : series) (argument : R) : R := ((argument - upper_bound s) + (argument - lower_bound s)) * one_over_width s.
(** The loops over [k], down to 1, of lines 172-176 and 195-200; the result is the final (bₖ₊₁, bₖ₊₂). *)
Fixpoint clenshaw_loop (c : nat -> R) (two_scaled_argument : R) (k : nat) (b1 b2 : R) : R * R :=
  match k with
  | O => (b1, b2)
  | S k' => clenshaw_loop c two_scaled_argument k' (c k + two_scaled_argument * b1 - b2) b1
  end.
(** numerics/polynomial_in_чебышёв_basis_body.hpp:149-179.  The DCHECKs, that the argument is between the bounds or almost, are not modelled. *)
Definition evaluate (s : series) (argument : R) : R :=
  let x := scaled_argument s argument in
  let two_x := x + x in
  let c0 := coefficient 0 s in
  match degree s with
  | O => c0
  | 1%nat => c0 + x * coefficient 1 s
  | d =>
    let b2 := coefficient d s in
    let b1 := coefficient (d - 1) s + two_x * b2 in
    let (b1, b2) := clenshaw_loop (fun k => coefficient k s) two_x (d - 2) b1 b2 in
    c0 + x * b1 - b2
  end.
(** numerics/polynomial_in_чебышёв_basis_body.hpp:181-203; [None] is an access out of bounds. *)
Definition EvaluateDerivative (s : series) (argument : R) : option R :=
  let x := scaled_argument s argument in
  let two_x := x + x in
  let (b1, b2) := clenshaw_loop (fun k => coefficient (k + 1) s * INR (k + 1)) two_x (degree s - 1) 0 0 in
  match at_index 1 s with
  | Some c1 => Some ((c1 + two_x * b1 - b2) * (one_over_width s + one_over_width s))
  | None => None
  end.
(** numerics/combinatorics_body.hpp:37-40 *)
Definition KroneckerDelta (i j : nat) : R := if Nat.eqb i j then 1 else 0.
(** numerics/polynomial_in_чебышёв_basis_body.hpp:244-276; the indices are those of the comments, from 1 to N.  The loop for j = N is the last to write,
    and when N is 1 it overwrites what the first wrote. *)
Definition FrobeniusCompanionMatrix (s : series) (j k : nat) : R :=
  let N := degree s in
  let two_aN := 2 * coefficient N s in
  if Nat.eqb j N then - coefficient (k - 1) s / two_aN + 1 / 2 * KroneckerDelta k (N - 1)
  else if Nat.eqb j 1 then KroneckerDelta 2 k
  else 1 / 2 * (KroneckerDelta j (k + 1) + KroneckerDelta j (k - 1)).
(** numerics/polynomial_in_чебышёв_basis_body.hpp:339-365; [None] is a failed check. *)
Definition Rleb (x y : R) : bool := if Rle_dec x y then true else false.
Definition MayHaveRealRoots (s : series) (error_estimate : R) : option bool :=
  if Rleb 0 error_estimate then
    let B0 := fold_left (fun B0 j => B0 + Rabs (coefficient j s)) (seq 1 (degree s)) 0 in
    let abs_a0 := Rabs (coefficient 0 s) in
    Some (Rleb (abs_a0 - error_estimate) B0)
  else None.
(** numerics/polynomial_in_чебышёв_basis_body.hpp:367-394.  The eigenvalues are those that RealSchurDecomposition gives for the companion matrix; it is not modelled. *)
Definition RealRoots (s : series) (real_eigenvalues : list R) : list R :=
  let midpoint := (lower_bound s + upper_bound s) / 2 in
  let half_width := 1 / 2 * (upper_bound s - lower_bound s) in
  map (fun scaled_real_root => scaled_real_root * half_width + midpoint) (filter (fun r => Rleb (-1) r && Rleb r 1) real_eigenvalues).
