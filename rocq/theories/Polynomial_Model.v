(** Model of numerics/polynomial_evaluators_body.hpp, numerics/polynomial_in_monomial_basis_body.hpp and numerics/combinatorics_body.hpp.  The arithmetic on
    coefficients and arguments is exact, on real numbers; that on std::int64_t overflows.  The coefficients are scalars, those of vectors are taken
    one coordinate at a time. *)
From Coq Require Import ZArith NArith Bool List Reals.
Import ListNotations.
Open Scope R_scope.

(** base/bits_body.hpp:18-20 *)
Fixpoint power_of_2_le (n : positive) : positive := match n with xH => 1 | xO n => xO (power_of_2_le n) | xI n => xO (power_of_2_le n) end%positive.
Definition PowerOf2Le (n : N) : N := match n with N0 => N0 | Npos n => Npos (power_of_2_le n) end.
(** numerics/elementary_functions_body.hpp:171-192 *)
Fixpoint pow_pos (n : positive) (x : R) : R :=
  match n with
  | xH => x
  | xO n => let y := pow_pos n x in y * y
  | xI n => let y := pow_pos n x in y * y * x
  end.
Definition Pow (n : N) (x : R) : R := match n with N0 => 1 | Npos n => pow_pos n x end.
Definition FusedMultiplyAdd (a x b : R) : R := a * x + b.
Definition get (n : nat) (c : list R) : R := nth n c 0.

(** numerics/polynomial_evaluators_body.hpp:72-191: [subdegree] is at least -1; the fuel bounds the depth of the instantiations. *)
Fixpoint InternalEstrin_Evaluate (fuel : nat) (fma : bool) (c : list R) (x : R) (low : nat) (subdegree : Z) : R :=
  match fuel with
  | O => 0
  | S fuel =>
    if (subdegree =? -1)%Z then 0
    else if (subdegree =? 0)%Z then get low c
    else if (subdegree =? 1)%Z then
      let a := get (low + 1) c in
      let b := get low c in
      if fma then FusedMultiplyAdd a x b else a * x + b
    else
      let m := PowerOf2Le (Z.to_N subdegree) in
      let a := InternalEstrin_Evaluate fuel fma c x (low + N.to_nat m) (subdegree - Z.of_N m) in
      let b := InternalEstrin_Evaluate fuel fma c x low (Z.of_N m - 1) in
      let xm := Pow m x in
      if fma then FusedMultiplyAdd a xm b else a * xm + b
  end.
Fixpoint InternalEstrin_EvaluateDerivative (fuel : nat) (fma : bool) (c : list R) (x : R) (low : nat) (subdegree : Z) : R :=
  match fuel with
  | O => 0
  | S fuel =>
    if (subdegree =? -1)%Z then 0
    else if (subdegree =? 0)%Z then INR low * get low c
    else if (subdegree =? 1)%Z then
      let a := INR (low + 1) * get (low + 1) c in
      let b := INR low * get low c in
      if fma then FusedMultiplyAdd a x b else a * x + b
    else
      let m := PowerOf2Le (Z.to_N subdegree) in
      let a := InternalEstrin_EvaluateDerivative fuel fma c x (low + N.to_nat m) (subdegree - Z.of_N m) in
      let b := InternalEstrin_EvaluateDerivative fuel fma c x low (Z.of_N m - 1) in
      let xm := Pow m x in
      if fma then FusedMultiplyAdd a xm b else a * xm + b
  end.
(** numerics/polynomial_evaluators_body.hpp:193-276; the case of low > degree is in EvaluateDerivative; [n] is the degree minus [low]. *)
Fixpoint InternalHorner_Evaluate (fma : bool) (c : list R) (x : R) (low n : nat) : R :=
  match n with
  | O => get low c
  | S n =>
    let a := InternalHorner_Evaluate fma c x (low + 1) n in
    let b := get low c in
    if fma then FusedMultiplyAdd a x b else a * x + b
  end.
Fixpoint InternalHorner_EvaluateDerivative (fma : bool) (c : list R) (x : R) (low n : nat) : R :=
  match n with
  | O => get low c * INR low
  | S n =>
    let a := InternalHorner_EvaluateDerivative fma c x (low + 1) n in
    let b := get low c * INR low in
    if fma then FusedMultiplyAdd a x b else a * x + b
  end.
(** The degree of a polynomial, known at compile time; there is at least one coefficient. *)
Definition degree (c : list R) : nat := Nat.pred (length c).
Inductive evaluator := Estrin | Horner.
(** numerics/polynomial_evaluators_body.hpp:278-302 and 395-417; [fma] is whether the instruction is allowed, and present. *)
Definition Evaluate (e : evaluator) (fma : bool) (c : list R) (x : R) : R :=
  match e with
  | Estrin => InternalEstrin_Evaluate (S (degree c)) fma c x 0 (Z.of_nat (degree c))
  | Horner => InternalHorner_Evaluate fma c x 0 (degree c)
  end.
(** numerics/polynomial_evaluators_body.hpp:304-330 and 419-442 *)
Definition EvaluateDerivative (e : evaluator) (fma : bool) (c : list R) (x : R) : R :=
  match e with
  | Estrin => InternalEstrin_EvaluateDerivative (S (degree c)) fma c x 1 (Z.of_nat (degree c) - 1)
  | Horner => if Nat.ltb (degree c) 1 then 0 else InternalHorner_EvaluateDerivative fma c x 1 (degree c - 1)
  end.

(** numerics/combinatorics_body.hpp:12-35.  [None] is the overflow of an std::int64_t, which is undefined. *)
Definition int64 (z : Z) : option Z := if ((- 2 ^ 63 <=? z) && (z <? 2 ^ 63))%Z then Some z else None.
Definition FallingFactorial (n k : nat) : option Z :=
  fold_left (fun result i => match result with Some r => int64 (r * (Z.of_nat n - Z.of_nat i)) | None => None end) (seq 0 k) (Some 1%Z).
Definition Factorial (n : nat) : option Z := FallingFactorial n n.
Definition Binomial (n k : nat) : option Z :=
  match FallingFactorial n k, Factorial k with Some a, Some b => Some (Z.quot a b) | _, _ => None end.

(** numerics/polynomial_in_monomial_basis.hpp: the coefficients and the origin. *)
Record polynomial := Polynomial { coefficients : list R; origin : R }.
(** numerics/polynomial_in_monomial_basis_body.hpp:276-291 *)
Definition evaluate (e : evaluator) (fma : bool) (p : polynomial) (x : R) : R := Evaluate e fma (coefficients p) (x - origin p).
Definition evaluate_derivative (e : evaluator) (fma : bool) (p : polynomial) (x : R) : R := EvaluateDerivative e fma (coefficients p) (x - origin p).
(** numerics/polynomial_in_monomial_basis_body.hpp:207-226, conversion to a higher degree. *)
Definition to_degree (higher : nat) (p : polynomial) : polynomial :=
  Polynomial (map (fun i => if Nat.leb i (degree (coefficients p)) then get i (coefficients p) else 0) (seq 0 (S higher))) (origin p).
Fixpoint all {A} (l : list (option A)) : option (list A) :=
  match l with [] => Some [] | Some a :: l => match all l with Some l => Some (a :: l) | None => None end | None :: _ => None end.
(** numerics/polynomial_in_monomial_basis_body.hpp:65-74 *)
Definition MonomialAtOrigin (degree n : nat) (coefficient shift : R) : option (list R) :=
  all (map (fun k => if Nat.leb k n then match Binomial n k with Some b => Some (coefficient * IZR b * Pow (N.of_nat (n - k)) shift) | None => None end else Some 0)
           (seq 0 (S degree))).
Fixpoint sum_lists (a b : list R) : list R := match a, b with x :: a, y :: b => (x + y) :: sum_lists a b | _, _ => [] end.
(** numerics/polynomial_in_monomial_basis_body.hpp:97-119 and 336-345 *)
Definition AtOrigin (p : polynomial) (to_origin : R) : option polynomial :=
  let d := degree (coefficients p) in
  let shift := to_origin - origin p in
  match all (map (fun n => MonomialAtOrigin d n (get n (coefficients p)) shift) (seq 0 (S d))) with
  | Some all_coefficients => Some (Polynomial (fold_left sum_lists all_coefficients (repeat 0 (S d))) to_origin)
  | None => None
  end.
(** numerics/polynomial_in_monomial_basis_body.hpp:347-364; [order] is at most the degree. *)
Definition Derivative (order : nat) (p : polynomial) : option polynomial :=
  match all (map (fun n => match FallingFactorial (n + order) order with Some f => Some (IZR f * get (n + order) (coefficients p)) | None => None end)
                 (seq 0 (S (degree (coefficients p) - order)))) with
  | Some c => Some (Polynomial c (origin p))
  | None => None
  end.
(** numerics/polynomial_in_monomial_basis_body.hpp:366-387 *)
Definition Primitive (p : polynomial) : polynomial :=
  Polynomial (map (fun n => if Nat.eqb n 0 then 0 else get (n - 1) (coefficients p) / INR n) (seq 0 (S (S (degree (coefficients p)))))) (origin p).
(** numerics/polynomial_in_monomial_basis_body.hpp:508-516: the unary minus. *)
Definition negate (p : polynomial) : polynomial := Polynomial (map Ropp (coefficients p)) (origin p).
(** The coefficients of sums and differences, numerics/polynomial_in_monomial_basis_body.hpp:518-640; [None] is a failed check of the origins. *)
Definition combine_coefficients (both : R -> R -> R) (right_only : R -> R) (l r : list R) : list R :=
  map (fun i => if Nat.leb i (Nat.min (degree l) (degree r)) then both (get i l) (get i r)
                else if Nat.leb i (degree l) then get i l else right_only (get i r))
      (seq 0 (S (Nat.max (degree l) (degree r)))).
Definition same_origin (p q : polynomial) (c : list R) : option polynomial := if Req_EM_T (origin p) (origin q) then Some (Polynomial c (origin p)) else None.
Definition plus (p q : polynomial) : option polynomial := same_origin p q (combine_coefficients Rplus (fun x => x) (coefficients p) (coefficients q)).
Definition minus (p q : polynomial) : option polynomial := same_origin p q (combine_coefficients Rminus Ropp (coefficients p) (coefficients q)).
(** numerics/polynomial_in_monomial_basis_body.hpp:642-679 *)
Definition scale (s : R) (p : polynomial) : polynomial := Polynomial (map (fun c => s * c) (coefficients p)) (origin p).
Definition divide (p : polynomial) (s : R) : polynomial := Polynomial (map (fun c => c / s) (coefficients p)) (origin p).
(** get<k>(result) += v *)
Fixpoint add_at (k : nat) (v : R) (c : list R) : list R :=
  match k, c with
  | _, [] => []
  | O, x :: c => (x + v) :: c
  | S k, x :: c => x :: add_at k v c
  end.
(** numerics/polynomial_in_monomial_basis_body.hpp:681-705 *)
Definition product_coefficients (l r : list R) : list R :=
  fold_left (fun result i => fold_left (fun result j => add_at (i + j) (get i l * get j r) result) (seq 0 (S (degree r))) result)
            (seq 0 (S (degree l))) (repeat 0 (S (degree l + degree r))).
Definition times (p q : polynomial) : option polynomial := same_origin p q (product_coefficients (coefficients p) (coefficients q)).
(** numerics/polynomial_in_monomial_basis_body.hpp:707-806: sums and differences with a constant. *)
Definition map_first (first others : R -> R) (c : list R) : list R := map (fun i => if Nat.eqb i 0 then first (get i c) else others (get i c)) (seq 0 (S (degree c))).
Definition plus_constant (p : polynomial) (v : R) : polynomial := Polynomial (map_first (fun l => l + v) (fun l => l) (coefficients p)) (origin p).
Definition minus_constant (p : polynomial) (v : R) : polynomial := Polynomial (map_first (fun l => l - v) (fun l => l) (coefficients p)) (origin p).
Definition constant_minus (v : R) (p : polynomial) : polynomial := Polynomial (map_first (fun r => v - r) Ropp (coefficients p)) (origin p).
(** numerics/polynomial_in_monomial_basis_body.hpp:122-132 *)
Fixpoint pow_polynomial (n : positive) (p : polynomial) : option polynomial :=
  match n with
  | xH => Some p
  | xO n => match times p p with Some q => pow_polynomial n q | None => None end
  | xI n => match times p p with Some q => match pow_polynomial n q with Some q => times q p | None => None end | None => None end
  end.
(** numerics/polynomial_in_monomial_basis_body.hpp:808-841 *)
Definition Compose (p q : polynomial) : option polynomial :=
  let l := coefficients p in
  let step result i :=
    match result with
    | None => None
    | Some result =>
      if Nat.eqb i 0 then Some (match result with _ :: rest => get 0 l :: rest | [] => [] end)
      else match pow_polynomial (Pos.of_nat i) (minus_constant q (origin p)) with
           | Some m => let c := coefficients (scale (get i l) m) in
                       Some (fold_left (fun result j => add_at j (get j c) result) (seq 0 (S (degree c))) result)
           | None => None
           end
    end in
  match fold_left step (seq 0 (S (degree l))) (Some (repeat 0 (S (degree l * degree (coefficients q))))) with
  | Some c => Some (Polynomial c (origin q))
  | None => None
  end.
