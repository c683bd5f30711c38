(** Model of geometry/complexification_body.hpp over the reals ([double] and quantities are modelled by [R]; vectors by
    [R3]). *)
From Coq Require Import Reals.
From Verif Require Import Geometry_Model.
Open Scope R_scope.

Record C := mkCx { creal : R; cimag : R }.
(** geometry/complexification_body.hpp:14-17: the imaginary part is value-initialized. *)
Definition c_of_real (r : R) : C := mkCx r 0.
(** 58-61. *)
Definition c_conj (z : C) : C := mkCx (creal z) (- cimag z).
(** 63-68. *)
Definition c_norm2 (z : C) : R := creal z * creal z + cimag z * cimag z.
(** 70-73. *)
Definition c_norm (z : C) : R := sqrt (c_norm2 z).
(** 80-83. *)
Definition c_opp (z : C) : C := mkCx (- creal z) (- cimag z).
(** 85-91, 93-98, 100-106: sum with a real on the left, on the right, and of two complexes. *)
Definition rc_add (l : R) (r : C) : C := mkCx (l + creal r) (cimag r).
Definition cr_add (l : C) (r : R) : C := mkCx (creal l + r) (cimag l).
Definition c_add (l r : C) : C := mkCx (creal l + creal r) (cimag l + cimag r).
(** 108-114, 116-122, 124-130: difference; the first keeps the imaginary part as it is. *)
Definition rc_sub (l : R) (r : C) : C := mkCx (l - creal r) (cimag r).
Definition cr_sub (l : C) (r : R) : C := mkCx (creal l - r) (cimag l).
Definition c_sub (l r : C) : C := mkCx (creal l - creal r) (cimag l - cimag r).
(** 132-138, 140-146, 148-158. *)
Definition rc_mul (l : R) (r : C) : C := mkCx (l * creal r) (l * cimag r).
Definition cr_mul (l : C) (r : R) : C := mkCx (creal l * r) (cimag l * r).
Definition c_mul (l r : C) : C :=
  mkCx (creal l * creal r - cimag l * cimag r) (creal l * cimag r + cimag l * creal r).
(** 160-169, 171-177, 179-190. *)
Definition rc_div (l : R) (r : C) : C :=
  let denominator := creal r * creal r + cimag r * cimag r in
  mkCx (l * creal r / denominator) (- l * cimag r / denominator).
Definition cr_div (l : C) (r : R) : C := mkCx (creal l / r) (cimag l / r).
Definition c_div (l r : C) : C :=
  let denominator := creal r * creal r + cimag r * cimag r in
  mkCx ((creal l * creal r + cimag l * cimag r) / denominator)
       ((- creal l * cimag r + cimag l * creal r) / denominator).

(** Complexified vectors. *)
Record C3 := mkC3 { vreal : R3; vimag : R3 }.
Definition c3_add (l r : C3) : C3 := mkC3 (add3 (vreal l) (vreal r)) (add3 (vimag l) (vimag r)).
Definition c3_scal (a : C) (v : C3) : C3 :=
  mkC3 (sub3 (scal3 (creal a) (vreal v)) (scal3 (cimag a) (vimag v)))
       (add3 (scal3 (creal a) (vimag v)) (scal3 (cimag a) (vreal v))).
Definition c3_norm2 (v : C3) : R := Norm2 (vreal v) + Norm2 (vimag v).
(** 192-202. *)
Definition c3_inner (l r : C3) : C :=
  mkCx (Dot (vreal l) (vreal r) + Dot (vimag l) (vimag r)) (Dot (vimag l) (vreal r) - Dot (vreal l) (vimag r)).
