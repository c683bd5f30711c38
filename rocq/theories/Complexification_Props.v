From Coq Require Import Reals Lra Field_theory.
From Verif Require Import Complexification_Model Complexification_Proofs.
Open Scope R_scope.

(** The operators on complex numbers make a field, with an element of square -1 that generates it over the reals. *)
Theorem C61_field : field_theory (Real 0) (Real 1) plus times minus negative divide (divide_rc 1) eq /\
  times (Complex 0 1) (Complex 0 1) = negative (Real 1) /\ forall a, a = plus (Real (real_part a)) (times (Real (imaginary_part a)) (Complex 0 1)).
Proof. exact (conj complex_field (conj i_squared parts)). Qed.
Print Assumptions C61_field.

Theorem C61_embedding a b : Real (a + b) = plus (Real a) (Real b) /\ Real (a - b) = minus (Real a) (Real b) /\ Real (a * b) = times (Real a) (Real b) /\ (b <> 0 -> Real (a / b) = divide (Real a) (Real b)).
Proof. exact (embedding a b). Qed.
Print Assumptions C61_embedding.

(** The operators on a real and a complex number do what the conversion of the real number would.  One is missing: a real number minus a complex number. *)
Theorem C61_mixed_partial r a : plus_rc r a = plus (Real r) a /\ plus_cr a r = plus a (Real r) /\ minus_cr a r = minus a (Real r) /\
  times_rc r a = times (Real r) a /\ times_cr a r = times a (Real r) /\ (a <> Real 0 -> divide_rc r a = divide (Real r) a) /\ (r <> 0 -> divide_cr a r = divide a (Real r)).
Proof. exact (mixed r a). Qed.
Print Assumptions C61_mixed_partial.

(** A real number minus a complex number is wrong unless the complex number is real: the sign of the imaginary part is not changed. *)
Theorem C61_real_minus_complex_refuted r a : minus_rc r a = minus (Real r) a <-> imaginary_part a = 0.
Proof. exact (real_minus_complex_right r a). Qed.
Print Assumptions C61_real_minus_complex_refuted.

Theorem C61_norm a b : times a (Conjugate a) = Real (Norm2 a) /\ Norm2 (times a b) = Norm2 a * Norm2 b /\ Norm2 (Conjugate a) = Norm2 a /\ (Norm2 a = 0 <-> a = Real 0) /\ 0 <= Norm a /\ Norm a * Norm a = Norm2 a.
Proof. exact (norms a b). Qed.
Print Assumptions C61_norm.

Theorem C61_inner_product a b c : InnerProduct a b = times a (Conjugate b) /\ InnerProduct a b = Conjugate (InnerProduct b a) /\ InnerProduct a a = Real (Norm2 a) /\
  InnerProduct (plus a b) c = plus (InnerProduct a c) (InnerProduct b c) /\ InnerProduct (times b a) c = times b (InnerProduct a c).
Proof. exact (hermitian a b c). Qed.
Print Assumptions C61_inner_product.

(** 1 - i is computed as 1 + i. *)
Example C61_example : minus_rc 1 (Complex 0 1) = Complex 1 1 /\ minus (Real 1) (Complex 0 1) = Complex 1 (-1).
Proof. split; apply complex_eq; cbn; lra. Qed.
Example C61_quotient : divide (Complex 1 7) (Complex 3 1) = Complex 1 2 /\ divide_rc 10 (Complex 3 1) = Complex 3 (-1).
Proof. split; apply complex_eq; cbn; lra. Qed.
