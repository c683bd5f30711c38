(** Model of numerics/legendre_body.hpp and of the double factorial of numerics/combinatorics_body.hpp; the factorials are those of [Polynomial_Model].
    The arithmetic on std::int64_t overflows, as in [Polynomial_Model]: since the coefficients are constexpr, an overflow is a compilation error. *)
From Coq Require Import ZArith Bool List Reals.
From Verif Require Import Polynomial_Model.
From Verif Require Double_Model.
Import ListNotations.

(** numerics/combinatorics_body.hpp:16-22.  There are at most [n] iterations. *)
Fixpoint DoubleFactorial_loop (iterations : nat) (i result : Z) : option Z :=
  if (1 <=? i)%Z then
    match iterations with
    | O => None
    | S iterations => match int64 (result * i) with Some result => DoubleFactorial_loop iterations (i - 2) result | None => None end
    end
  else Some result.
Definition DoubleFactorial (n : Z) : option Z := DoubleFactorial_loop (Z.to_nat n) n 1.

(** The conversion of an std::size_t, which is computed modulo 2^64, to an std::int64_t: [indices] is an std::size_t, and therefore so are the arguments
    of the double factorials at numerics/legendre_body.hpp:32-34. *)
Definition size_to_int64 (z : Z) : Z := let u := (z mod 2 ^ 64)%Z in if (u <? 2 ^ 63)%Z then u else (u - 2 ^ 64)%Z.

(** numerics/legendre_body.hpp:29-35: the coefficient of index [indices], as the numerator and the denominator of the division of line 32, before their
    conversion to double. *)
Definition LegendreCoefficient (degree indices : nat) : option (Z * Z) :=
  let difference := size_to_int64 (Z.of_nat degree - Z.of_nat indices) in
  if (difference mod 2 =? 0)%Z then
    match DoubleFactorial (size_to_int64 (Z.of_nat degree + Z.of_nat indices - 1)), Factorial indices, DoubleFactorial difference with
    | Some a, Some b, Some c =>
      match int64 ((if (difference mod 4 =? 0)%Z then 1 else -1) * a), int64 (b * c) with
      | Some numerator, Some denominator => Some (numerator, denominator)
      | _, _ => None
      end
    | _, _, _ => None
    end
  else Some (0, 1)%Z.
Definition LegendreCoefficients (degree : nat) : option (list (Z * Z)) := all (map (LegendreCoefficient degree) (seq 0 (S degree))).

(** numerics/legendre_body.hpp:40-49: the polynomial, first with a division on real numbers, then the coefficients with the conversions and the division
    on doubles. *)
Definition LegendrePolynomial (degree : nat) : option polynomial :=
  match LegendreCoefficients degree with
  | Some l => Some (Polynomial (map (fun c => IZR (fst c) / IZR (snd c))%R l) 0%R)
  | None => None
  end.
Definition LegendrePolynomial_doubles (degree : nat) : option (list Double_Model.double) :=
  match LegendreCoefficients degree with
  | Some l => Some (map (fun c => Double_Model.div (Double_Model.of_Z (fst c)) (Double_Model.of_Z (snd c))) l)
  | None => None
  end.
