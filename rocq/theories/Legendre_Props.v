(** C90: the Legendre polynomials. *)
From Coq Require Import ZArith Bool List Reals Lra Lia.
From Verif Require Import Polynomial_Model Polynomial_Proofs Legendre_Model Legendre_Spec Legendre_Proofs Legendre_Proofs2.
Import ListNotations.
Open Scope R_scope.

(** The polynomial of degree [n] is that of the recurrence of Bonnet, with any evaluator. *)
Theorem C90_polynomial : forall n, (n <= 17)%nat ->
  exists p, LegendrePolynomial n = Some p /\ length (coefficients p) = S n /\ forall e fma x, evaluate e fma p x = legendre n x.
Proof.
  exact (fun n H => match polynomial_defined n H with ex_intro _ p (conj A (conj B _)) =>
    ex_intro _ p (conj A (conj B (fun e fma x => eq_trans (Evaluate_value e fma _ _) (polynomial_value n p x ltac:(lia) A)))) end).
Qed.
Print Assumptions C90_polynomial.
(** An int is less than 2^31.  The overflow happens at compile time. *)
Theorem C90_overflow_refuted : forall n, (18 <= n)%nat -> (Z.of_nat n < 2 ^ 31)%Z -> LegendrePolynomial n = None /\ LegendrePolynomial_doubles n = None.
Proof. exact polynomial_overflow. Qed.
Print Assumptions C90_overflow_refuted.
(** The coefficients computed on doubles have no rounding error. *)
Theorem C90_doubles : forall n, (n <= 17)%nat ->
  exists l p, LegendrePolynomial_doubles n = Some l /\ LegendrePolynomial n = Some p /\ map (Binary.B2R 53 1024) l = coefficients p.
Proof. exact doubles_exact. Qed.
Print Assumptions C90_doubles.
Theorem C90_equation : forall n p e fma x, (Z.of_nat n < 2 ^ 31)%Z -> LegendrePolynomial n = Some p ->
  derivable_pt_lim (fun y => (1 - y * y) * evaluate_derivative e fma p y) x (- (INR n * (INR n + 1)) * evaluate e fma p x).
Proof. exact polynomial_equation. Qed.
Print Assumptions C90_equation.
Theorem C90_orthogonal : forall n m p q, (Z.of_nat n < 2 ^ 31)%Z -> (Z.of_nat m < 2 ^ 31)%Z -> LegendrePolynomial n = Some p -> LegendrePolynomial m = Some q ->
  integral (fun x => value_at p x * value_at q x) (if Nat.eqb n m then 2 / (2 * INR n + 1) else 0).
Proof. exact polynomial_integral. Qed.
Print Assumptions C90_orthogonal.
Theorem C90_values : forall n p x, (Z.of_nat n < 2 ^ 31)%Z -> LegendrePolynomial n = Some p ->
  value_at p 1 = 1 /\ value_at p (- x) = (-1) ^ n * value_at p x.
Proof.
  intros n p x L H. assert (V : forall y, value_at p y = legendre n y) by (intros; apply polynomial_value; [lia | exact H]).
  rewrite !V. exact (conj (legendre_at_1 n) (legendre_parity n x)).
Qed.
Print Assumptions C90_values.
(** The double factorials of odd and of even numbers. *)
Theorem C90_double_factorial : forall n,
  DoubleFactorial (2 * Z.of_nat n - 1) = (if Nat.leb n 17 then Some (odd_factorial n) else None) /\
  forall r, DoubleFactorial (2 * Z.of_nat n) = Some r -> r = (2 ^ Z.of_nat n * Z.of_nat (fact n))%Z.
Proof. exact (fun n => conj (odd_double_factorial n) (fun r H => eq_trans (even_value n r H) (even_power n))). Qed.
Print Assumptions C90_double_factorial.
(** P_4 = (35 x^4 - 30 x^2 + 3) / 8, P_2 = (3 x^2 - 1) / 2. *)
Example C90_example :
  LegendreCoefficients 4 = Some [(3, 8); (0, 1); (-15, 4); (0, 1); (105, 24)]%Z /\ legendre 2 3 = 13 /\
  DoubleFactorial 33 = Some 6332659870762850625%Z /\ DoubleFactorial 35 = None /\ DoubleFactorial 8 = Some 384%Z /\
  DoubleFactorial (size_to_int64 (-1)) = Some 1%Z.
Proof. split; [reflexivity |]. split; [unfold legendre; cbn; field |]. repeat split; reflexivity. Qed.
