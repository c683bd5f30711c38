(** Model of SolveQuadraticEquation (numerics/root_finders_body.hpp) and of Hermite3 (numerics/hermite3_body.hpp), in
    exact arithmetic.  The infinities and the NaNs produced by the divisions by zero of SolveQuadraticEquation are
    represented; the sign of a zero is not. *)
From Coq Require Import Reals List Bool.
From Verif Require Import Geometry_Model.
Import ListNotations.
Open Scope R_scope.

Inductive extended := Fin (r : R) | PosInf | NegInf | NaN.

(** a / b, a number, an infinity if b is zero, or a NaN. *)
Definition ediv (a b : R) : extended :=
  if Req_EM_T b 0 then (if Rlt_dec 0 a then PosInf else if Rlt_dec a 0 then NegInf else NaN) else Fin (a / b).
Definition eadd (r : R) (e : extended) : extended := match e with Fin s => Fin (r + s) | _ => e end.
Definition esub (r : R) (e : extended) : extended :=
  match e with Fin s => Fin (r - s) | PosInf => NegInf | NegInf => PosInf | NaN => NaN end.
(** The comparison operators; false for NaNs. *)
Definition elt (a b : extended) : bool :=
  match a, b with
  | Fin r, Fin s => if Rlt_dec r s then true else false
  | NaN, _ | _, NaN => false
  | NegInf, NegInf | PosInf, PosInf => false
  | NegInf, _ | _, PosInf => true
  | _, _ => false
  end.
Definition ele (a b : extended) : bool :=
  match a, b with
  | Fin r, Fin s => if Rle_dec r s then true else false
  | NaN, _ | _, NaN => false
  | NegInf, _ | _, PosInf => true
  | _, _ => false
  end.

(** numerics/root_finders_body.hpp:459-502 *)
Definition SolveQuadraticEquation (origin a0 a1 a2 : R) : list extended :=
  let discriminant := a1 * a1 - (4 * a0) * a2 in
  if Req_EM_T discriminant 0 then [esub origin (ediv (1 / 2 * a1) a2)]
  else if Rlt_dec discriminant 0 then []
  else
    let numerator := if Rlt_dec 0 a1 then - a1 - sqrt discriminant else - a1 + sqrt discriminant in
    let x1 := eadd origin (ediv numerator (2 * a2)) in
    let x2 := eadd origin (ediv (2 * a0) numerator) in
    if elt x1 x2 then [x1; x2] else [x2; x1].

(** numerics/hermite3.hpp:95-97: the coefficients are those of the polynomial in the monomial basis with origin lower_.
    The values are displacements, the positions being identified with their coordinates. *)
Record hermite3 := Hermite3 { lower : R; upper : R; h0 : R3; h1 : R3; h2 : R3; h3 : R3 }.

Definition zero3 : R3 := mk3 0 0 0.

(** numerics/hermite3_body.hpp:240-272.  If [t1 = t2] and the values or the derivatives differ, the code yields NaNs;
    the result is then meaningless here. *)
Definition same3 (u v : R3) : bool :=
  if Req_EM_T (cx u) (cx v) then if Req_EM_T (cy u) (cy v) then if Req_EM_T (cz u) (cz v) then true else false else false else false.
Definition MakeHermite3 (t1 t2 : R) (x1 x2 v1 v2 : R3) : hermite3 :=
  let D := t2 - t1 in
  if (if Req_EM_T D 0 then true else false) && same3 x1 x2 && same3 v1 v2 then Hermite3 t1 t2 x1 v1 zero3 zero3
  else
    let o := 1 / D in
    let o2 := o * o in
    let o3 := o * o2 in
    let dx := sub3 x2 x1 in
    Hermite3 t1 t2 x1 v1
      (sub3 (scal3 o2 (scal3 3 dx)) (scal3 o (add3 (scal3 2 v1) v2)))
      (add3 (scal3 o3 (scal3 (-2) dx)) (scal3 o2 (add3 v1 v2))).

(** numerics/hermite3_body.hpp:74-77 and 79-84, in exact arithmetic. *)
Definition evaluate (h : hermite3) (t : R) : R3 :=
  let d := t - lower h in add3 (h0 h) (scal3 d (add3 (h1 h) (scal3 d (add3 (h2 h) (scal3 d (h3 h)))))).
Definition evaluate_derivative (h : hermite3) (t : R) : R3 :=
  let d := t - lower h in add3 (h1 h) (scal3 d (add3 (scal3 2 (h2 h)) (scal3 d (scal3 3 (h3 h))))).

(** numerics/hermite3_body.hpp:292-299; [None] if the CHECK of line 296 fails. *)
Definition subtract (l r : hermite3) : option hermite3 :=
  if Req_EM_T (lower l) (lower r) then
    Some (Hermite3 (lower r) (Rmin (upper l) (upper r)) (sub3 (h0 l) (h0 r)) (sub3 (h1 l) (h1 r)) (sub3 (h2 l) (h2 r)) (sub3 (h3 l) (h3 r)))
  else None.

(** The polynomials split by dimension, numerics/hermite3_body.hpp:126-134. *)
Record scalar_hermite3 := ScalarHermite3 { slower : R; supper : R; s0 : R; s1 : R; s2 : R; s3 : R }.
Definition split (c : R3 -> R) (h : hermite3) : scalar_hermite3 :=
  ScalarHermite3 (lower h) (upper h) (c (h0 h)) (c (h1 h)) (c (h2 h)) (c (h3 h)).
Definition sevaluate (h : scalar_hermite3) (t : R) : R :=
  let d := t - slower h in s0 h + d * (s1 h + d * (s2 h + d * s3 h)).

(** numerics/hermite3_body.hpp:94-106 *)
Definition finite_part (e : extended) : list R := match e with Fin r => [r] | _ => [] end.
Definition FindExtrema (h : scalar_hermite3) : list R :=
  let roots := SolveQuadraticEquation (slower h) (s1 h) (2 * s2 h) (3 * s3 h) in
  flat_map finite_part (filter (fun root => ele (Fin (slower h)) root && ele root (Fin (supper h))) roots).

(** numerics/hermite3_body.hpp:142-145 *)
Definition max_at_extrema (h : scalar_hermite3) : R := fold_left (fun max x => Rmax max (Rabs (sevaluate h x))) (FindExtrema h) 0.

(** numerics/hermite3_body.hpp:108-152 *)
Definition LInfinityL1NormUpperBound (h : hermite3) : R :=
  0 + max_at_extrema (split cx h) + max_at_extrema (split cy h) + max_at_extrema (split cz h).

(** numerics/hermite3_body.hpp:154-194; the DCHECKs are hypotheses of the theorems.  [qd] is q + monomial * q'. *)
Definition LInfinityL2Norm (h : hermite3) : R :=
  let qd1 := add3 (h3 h) (scal3 (1 / 2) (h3 h)) in
  let roots :=
    SolveQuadraticEquation (lower h) (Dot (h2 h) (h2 h)) (Dot (h2 h) qd1 + Dot (h3 h) (h2 h)) (Dot (h3 h) qd1) in
  let inside := flat_map finite_part (filter (fun root => elt (Fin (lower h)) root && elt root (Fin (upper h))) roots) in
  sqrt (fold_left (fun max x => Rmax max (Norm2 (evaluate h x))) inside (Norm2 (evaluate h (upper h)))).
