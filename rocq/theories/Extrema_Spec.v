(* Vocabulary for the statements about extrema. *)
From Coq Require Import Reals List Bool Arith ZArith.
From Verif Require Import Extrema_Model.
Import ListNotations.

(* The requirement of C++ on a comparator, for the values that satisfy P. *)
Definition strict_weak_order {T} (P : T -> Prop) (compare : T -> T -> bool) :=
  (forall x, P x -> compare x x = false) /\
  (forall x y z, P x -> P y -> P z -> compare x y = true -> compare y z = true -> compare x z = true) /\
  (forall x y z, P x -> P y -> P z -> compare x y = false -> compare y z = false -> compare x z = false).

(* A total preorder, for the values that satisfy P. *)
Definition total_preorder {T} (P : T -> Prop) (le : T -> T -> bool) :=
  (forall x y, P x -> P y -> le x y = true \/ le y x = true) /\
  (forall x y z, P x -> P y -> P z -> le x y = true -> le y z = true -> le x z = true).

(* On [l, u], the function gets strictly better until s, and then strictly worse. *)
Definition unimodal (compare : R -> R -> bool) (f : R -> R) (l u s : R) :=
  (l <= s <= u)%R /\
  (forall y z, (l <= y < z)%R -> (z <= s)%R -> compare (f z) (f y) = true) /\
  (forall y z, (s <= y < z)%R -> (z <= u)%R -> compare (f y) (f z) = true).

(* The four values of a state of the golden-section search. *)
Definition values {T} (s : @golden T) : list T :=
  [f_lower s; f_lower_interior s; f_upper_interior s; f_upper s].

(* The points where the method of Brent evaluates the function in [n] iterations. *)
Fixpoint evaluated {T} (A : arithmetic T) (n : nat) (eps : T) (f : T -> T) (s : brent) : list T :=
  match n with
  | O => []
  | S n' =>
    if brent_stop A eps s then []
    else brent_point A eps s (fst (brent_move A eps s)) :: evaluated A n' eps f (brent_step A eps f s)
  end.

(* A point that is a bound of the search, or where the function is not better than at x. *)
Definition bound_or_worse {T} (A : arithmetic T) (f : T -> T) (bound x y : T) :=
  y = bound \/ less_or_equal A (f x) (f y) = true.

(* x is in the set l, up to the equivalence of the order. *)
Definition member {T} (A : arithmetic T) (x : T) (l : list T) :=
  exists y, In y l /\ less A x y = false /\ less A y x = false.

(* The search for a zero in an interval where the function changes sign returns c, which is one of
   the bounds of the interval. *)
Definition crossing {T} (A : arithmetic T) (f : T -> T) (zero : T -> T -> outcome T) (c : T) :=
  exists a b, zero a b = Returned c /\ (equal A a c || equal A b c)%bool = true /\
    equal A (f a) (nought A) = false /\ equal A (f b) (nought A) = false /\
    negative A (f a) <> negative A (f b).

(* The bounds of consecutive intervals from a to b. *)
Fixpoint subdivided {T} (R : T -> T -> Prop) (a : T) (l : list T) (b : T) : Prop :=
  match l with
  | [] => R a b
  | x :: l' => R a x /\ subdivided R x l' b
  end.

(* There is no reason to divide the interval: the function isn't zero at its bounds and has there the same sign, and the
   extremum towards 0 is too close to the bounds; or there is a zero at a bound, in the sense of the
   function or in that of the search for a zero, and both extrema are too close to the bounds. *)
Definition exhausted {T} (A : arithmetic T) (f : T -> T) (eps : T) (zero minimum maximum : T -> T -> outcome T) (a b : T) : Prop :=
  let close s := exists x, s a b = Returned x /\ effective A eps a b x = false in
  (equal A (f a) (nought A) = false /\ equal A (f b) (nought A) = false /\
   negative A (f a) = false /\ negative A (f b) = false /\ close minimum) \/
  (equal A (f a) (nought A) = false /\ equal A (f b) (nought A) = false /\
   negative A (f a) = true /\ negative A (f b) = true /\ close maximum) \/
  ((equal A (f a) (nought A) = true \/ equal A (f b) (nought A) = true \/
    (negative A (f a) <> negative A (f b) /\ exists c, zero a b = Returned c /\ (equal A a c || equal A b c)%bool = true)) /\
   close minimum /\ close maximum).
