(** Model of geometry/complexification_body.hpp, with values in the real numbers and exact arithmetic. *)
From Coq Require Import Reals.
Open Scope R_scope.

(** geometry/complexification.hpp:18-55 *)
Record complex := Complex { real_part : R; imaginary_part : R }.
(** geometry/complexification_body.hpp:13-17: the implicit conversion; the imaginary part is value-initialized. *)
Definition Real (a : R) : complex := Complex a 0.
(** geometry/complexification_body.hpp:58-61 *)
Definition Conjugate (a : complex) : complex := Complex (real_part a) (- imaginary_part a).
(** geometry/complexification_body.hpp:63-68 *)
Definition Norm2 (a : complex) : R := real_part a * real_part a + imaginary_part a * imaginary_part a.
(** geometry/complexification_body.hpp:70-73 *)
Definition Norm (a : complex) : R := sqrt (Norm2 a).
(** geometry/complexification_body.hpp:75-78 *)
Definition positive (right : complex) : complex := right.
(** geometry/complexification_body.hpp:80-83 *)
Definition negative (right : complex) : complex := Complex (- real_part right) (- imaginary_part right).
(** geometry/complexification_body.hpp:85-91 *)
Definition plus_rc (left : R) (right : complex) : complex := Complex (left + real_part right) (imaginary_part right).
(** geometry/complexification_body.hpp:93-98 *)
Definition plus_cr (left : complex) (right : R) : complex := Complex (real_part left + right) (imaginary_part left).
(** geometry/complexification_body.hpp:100-106 *)
Definition plus (left right : complex) : complex := Complex (real_part left + real_part right) (imaginary_part left + imaginary_part right).
(** geometry/complexification_body.hpp:108-114 *)
Definition minus_rc (left : R) (right : complex) : complex := Complex (left - real_part right) (imaginary_part right).
(** geometry/complexification_body.hpp:116-122 *)
Definition minus_cr (left : complex) (right : R) : complex := Complex (real_part left - right) (imaginary_part left).
(** geometry/complexification_body.hpp:124-130 *)
Definition minus (left right : complex) : complex := Complex (real_part left - real_part right) (imaginary_part left - imaginary_part right).
(** geometry/complexification_body.hpp:132-138 *)
Definition times_rc (left : R) (right : complex) : complex := Complex (left * real_part right) (left * imaginary_part right).
(** geometry/complexification_body.hpp:140-146 *)
Definition times_cr (left : complex) (right : R) : complex := Complex (real_part left * right) (imaginary_part left * right).
(** geometry/complexification_body.hpp:148-159 *)
Definition times (left right : complex) : complex :=
  let lr := real_part left in let li := imaginary_part left in
  let rr := real_part right in let ri := imaginary_part right in
  Complex (lr * rr - li * ri) (lr * ri + li * rr).
(** geometry/complexification_body.hpp:161-170 *)
Definition divide_rc (left : R) (right : complex) : complex :=
  let rr := real_part right in let ri := imaginary_part right in
  let denominator := rr * rr + ri * ri in
  Complex (left * rr / denominator) (- left * ri / denominator).
(** geometry/complexification_body.hpp:172-178 *)
Definition divide_cr (left : complex) (right : R) : complex := Complex (real_part left / right) (imaginary_part left / right).
(** geometry/complexification_body.hpp:180-191 *)
Definition divide (left right : complex) : complex :=
  let lr := real_part left in let li := imaginary_part left in
  let rr := real_part right in let ri := imaginary_part right in
  let denominator := rr * rr + ri * ri in
  Complex ((lr * rr + li * ri) / denominator) ((- lr * ri + li * rr) / denominator).
(** geometry/complexification_body.hpp:193-203 *)
Definition InnerProduct (left right : complex) : complex :=
  Complex (real_part left * real_part right + imaginary_part left * imaginary_part right)
          (imaginary_part left * real_part right - real_part left * imaginary_part right).
