(** Model of numerics/approximation_body.hpp, with exact arithmetic on real numbers. *)
From Coq Require Import Bool List Reals.
From Verif Require Import Chebyshev_Model.
Import ListNotations.
Open Scope R_scope.

(** numerics/чебышёв_lobatto_body.hpp:23-44, with an exact cosine. *)
Definition LobattoPoint (N k : nat) : R := cos (PI * INR k / INR N).
(** numerics/approximation_body.hpp:31-46 *)
Definition InterpolationMatrix (N j k : nat) : R :=
  let pj := if (Nat.eqb j 0 || Nat.eqb j N)%bool then 2 else 1 in
  let pk := if (Nat.eqb k 0 || Nat.eqb k N)%bool then 2 else 1 in
  2 * cos (PI * INR j * INR k / INR N) / (pj * pk * INR N).
(** The product of the interpolation matrix and of the vector [f]. *)
Definition matrix_times (N : nat) (f : list R) : list R :=
  map (fun j => sum_f_R0 (fun k => InterpolationMatrix N j k * nth k f 0) N) (seq 0 (S N)).
(** numerics/approximation_body.hpp:62-65 *)
Definition lobatto_argument (N : nat) (a b : R) (k : nat) : R :=
  let midpoint := (a + b) / 2 in 1 / 2 * (b - a) * LobattoPoint N k + midpoint.
(** numerics/approximation_body.hpp:67-77; even points are reused, odd ones are computed. *)
Definition function_values (f : R -> R) (N : nat) (a b : R) (previous_f : list R) : list R :=
  map (fun k => if Nat.even k then nth (Nat.div2 k) previous_f 0 else f (lobatto_argument N a b k)) (seq 0 (S N)).
(** numerics/approximation_body.hpp:84-92 *)
Definition current_error_estimate (N : nat) (previous_a a : list R) : R :=
  fold_left (fun e j => e + Rabs (if Nat.leb j (Nat.div2 N) then nth j previous_a 0 - nth j a 0 else nth j a 0)) (seq 0 (S N)) 0.
(** numerics/approximation_body.hpp:48-117.  The fuel bounds the depth of the instantiations. *)
Fixpoint Implementation (fuel max_degree : nat) (f : R -> R) (a b max_error : R) (N : nat) (previous_f previous_a : list R) : option (series * R) :=
  match fuel with
  | O => None
  | S fuel =>
    let fk := function_values f N a b previous_f in
    let aj := matrix_times N fk in
    let e := current_error_estimate N previous_a aj in
    if (Nat.leb N max_degree && negb (Rleb e max_error))%bool then Implementation fuel max_degree f a b max_error (2 * N) fk aj
    else Some (Series previous_a a b, e)
  end.
(** numerics/approximation_body.hpp:190-209 *)
Definition Interpolant (max_degree : nat) (f : R -> R) (a b max_error : R) : option (series * R) :=
  let f_a := f a in
  let f_b := f b in
  Implementation (S max_degree) max_degree f a b max_error 2 [f_b; f_a] [1 / 2 * (f_b + f_a); 1 / 2 * (f_b - f_a)].

(** numerics/approximation_body.hpp:119-188.  The state is the list of the interpolants which were given to [stop], in order; [stop] may depend on it.  The
    result is whether to stop, the new state, and the error estimate; [None] is a failed check or a recursion deeper than the fuel. *)
Fixpoint Streaming (fuel max_degree : nat) (f : R -> R) (max_error : R) (subdivide : series -> R -> bool) (stop : list (series * R) -> series -> bool)
  (lower upper : R) (state : list (series * R)) : option (bool * list (series * R) * R) :=
  match fuel with
  | O => None
  | S fuel =>
    if Rleb max_error 0 then None else
    let midpoint := (lower + upper) / 2 in
    match Interpolant max_degree f lower upper max_error with
    | None => None
    | Some (full_interpolant, full_error_estimate) =>
      if (Rleb full_error_estimate max_error || (if Req_EM_T midpoint lower then true else false) || (if Req_EM_T midpoint upper then true else false)
          || negb (subdivide full_interpolant full_error_estimate))%bool
      then Some (stop state full_interpolant, state ++ [(full_interpolant, full_error_estimate)], full_error_estimate)
      else
        match Streaming fuel max_degree f max_error subdivide stop lower midpoint state with
        | None => None
        | Some (true, state, lower_error_estimate) => Some (true, state, lower_error_estimate)
        | Some (false, state, lower_error_estimate) =>
          match Streaming fuel max_degree f max_error subdivide stop midpoint upper state with
          | None => None
          | Some (b, state, upper_error_estimate) => Some (b, state, Rmax lower_error_estimate upper_error_estimate)
          end
        end
    end
  end.
(** numerics/approximation_body.hpp:211-242: the interpolants are collected, and nothing stops. *)
Definition Adaptive (fuel max_degree : nat) (f : R -> R) (max_error : R) (subdivide : series -> R -> bool) (lower upper : R) : option (list series * R) :=
  match Streaming fuel max_degree f max_error subdivide (fun _ _ => false) lower upper [] with
  | Some (_, state, e) => Some (map fst state, e)
  | None => None
  end.
