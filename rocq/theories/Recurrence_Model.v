(* The recurrence of ground tracks, astronomy/orbit_recurrence_body.hpp. *)
From Coq Require Import ZArith Bool Reals List.
From Flocq Require Import Core IEEE754.BinarySingleNaN IEEE754.Binary.
From Verif Require Double_Model.
Local Open Scope Z_scope.

(* An object of class OrbitRecurrence, orbit_recurrence.hpp:115-119. *)
Record recurrence := mkRecurrence { nu : Z; D : Z; C : Z; subcycle : Z }.

(* [Error] is a status that isn't OK, [CheckFailed] is the failure of a CHECK, [Undefined] an overflow or the use of
   a variable that isn't initialized, [Running] means that the fuel was exhausted. *)
Inductive outcome (X : Type) := Value (x : X) | Error | CheckFailed | Undefined | Running.
Arguments Value {X}. Arguments Error {X}. Arguments CheckFailed {X}. Arguments Undefined {X}. Arguments Running {X}.

(* The type int. *)
Definition int_max : Z := 2147483647.
Definition int_lowest : Z := -2147483648.
Definition is_int (x : Z) : bool := (int_lowest <=? x) && (x <=? int_max).

(* base/mod.hpp:11-13; the operator % of C++ truncates. *)
Definition mod_int (dividend divisor : Z) : Z := Z.rem (Z.rem dividend divisor + divisor) divisor.

(* geometry/sign_body.hpp:28-32, OfNonZero, converted to int. *)
Definition sign (x : Z) : Z := if x <? 0 then -1 else 1.

(* orbit_recurrence_body.hpp:60-63, the loop. *)
Fixpoint subcycle_loop (fuel : nat) (sign_C D C E : Z) : outcome Z :=
  match fuel with
  | O => Running
  | S fuel' =>
    if negb (is_int (E * D)) then Undefined
    else if (mod_int (E * D) C =? sign_C) || (mod_int (E * D) (- C) =? - sign_C) then Value E
    else subcycle_loop fuel' sign_C D C (E + sign_C)
  end.

(* orbit_recurrence_body.hpp:39-64, the constructor. *)
Definition OrbitRecurrence (fuel : nat) (nu D C : Z) : outcome recurrence :=
  if C =? 0 then CheckFailed
  else
    let sign_C := sign C in
    if negb (nu =? 0) && negb (sign nu =? sign_C) then CheckFailed
    else if negb (is_int (2 * D)) then Undefined
    else if Z.abs C <? Z.abs (2 * D) then CheckFailed
    else if negb (Z.gcd D C =? 1) then CheckFailed
    else if D =? 0 then Value (mkRecurrence nu D C 0)
    else
      match subcycle_loop fuel sign_C D C sign_C with
      | Value E => Value (mkRecurrence nu D C E)
      | Error => Error
      | CheckFailed => CheckFailed
      | Undefined => Undefined
      | Running => Running
      end.

(* orbit_recurrence_body.hpp:117-120. *)
Definition number_of_revolutions (r : recurrence) : Z := nu r * C r + D r.

(* orbit_recurrence_body.hpp:122-139, in turns. *)
Local Open Scope R_scope.
Definition equatorial_shift (r : recurrence) : R := - (IZR (C r) / IZR (number_of_revolutions r)).
Definition base_interval (r : recurrence) : R := Rabs (equatorial_shift r).
Definition grid_interval (r : recurrence) : R := 1 / IZR (number_of_revolutions r).
Local Open Scope Z_scope.

(* The arithmetic of ClosestRecurrence: products and differences of a number and an integer, absolute value, order,
   sign bit and SafeNearbyInt, orbit_recurrence_body.hpp:25-37. *)
Record arithmetic (T : Type) := mkArithmetic {
  times_int : T -> Z -> T;
  minus_int : T -> Z -> T;
  abs : T -> T;
  less : T -> T -> bool;
  signbit : T -> bool;
  SafeNearbyInt : T -> option Z
}.
Arguments times_int {T}. Arguments minus_int {T}. Arguments abs {T}. Arguments less {T}.
Arguments signbit {T}. Arguments SafeNearbyInt {T}.

(* Exact arithmetic; std::nearbyint rounds to the nearest even. *)
Definition reals : arithmetic R :=
  mkArithmetic R (fun x n => (x * IZR n)%R) (fun x n => (x - IZR n)%R) Rabs
    (fun x y => if Rlt_dec x y then true else false)
    (fun x => if Rlt_dec x 0 then true else false)
    (fun x => if Rlt_dec x (IZR int_lowest) then None else if Rlt_dec (IZR int_max) x then None else Some (ZnearestE x)).

(* The integer nearest to m 2ᵉ. *)
Definition nearest (m e : Z) : Z :=
  if 0 <=? e then m * 2 ^ e
  else
    let d := 2 ^ (- e) in
    let q := m / d in
    let r := m mod d in
    if 2 * r <? d then q else if d <? 2 * r then q + 1 else if Z.even q then q else q + 1.
Definition safe_nearby_int (x : Double_Model.double) : option Z :=
  if negb (Double_Model.finite x) then None
  else if Double_Model.lt x (Double_Model.of_Z int_lowest) || Double_Model.lt (Double_Model.of_Z int_max) x then None
  else
    match x with
    | B754_finite _ _ s m e _ => Some (nearest (cond_Zopp s (Zpos m)) e)
    | _ => Some 0
    end.
Definition doubles : arithmetic Double_Model.double :=
  mkArithmetic Double_Model.double
    (fun x n => Double_Model.mul x (Double_Model.of_Z n))
    (fun x n => Double_Model.sub x (Double_Model.of_Z n))
    (fun x => if Bsign 53 1024 x then Double_Model.opp x else x)
    Double_Model.lt (fun x => Bsign 53 1024 x) safe_nearby_int.

Section Closest.
Context {T : Type} (A : arithmetic T).

(* orbit_recurrence_body.hpp:82-94, the loop on J; [None] is infinity for the minimum, and a variable that is not
   initialized for C. *)
Fixpoint closest_loop (count : nat) (J : Z) (kappa : T) (min_frac : option T) (C : option Z) : outcome (option Z) :=
  match count with
  | O => Value C
  | S count' =>
    let abs_kappa_J := abs A (times_int A kappa J) in
    match SafeNearbyInt A abs_kappa_J with
    | None => Error
    | Some n =>
      let frac := abs A (minus_int A abs_kappa_J n) in
      let better := match min_frac with None => true | Some m => less A frac m end in
      if better then closest_loop count' (J + 1) kappa (Some frac) (Some (if signbit A kappa then - J else J))
      else closest_loop count' (J + 1) kappa min_frac C
    end
  end.

(* orbit_recurrence_body.hpp:82-103, ClosestRecurrence once κ is known. *)
Definition closest (fuel : nat) (kappa : T) (max_abs_C : Z) : outcome recurrence :=
  match closest_loop (Z.to_nat max_abs_C) 1 kappa None None with
  | Value C =>
    match SafeNearbyInt A kappa with
    | None => Error
    | Some nu =>
      match C with
      | None => Undefined
      | Some C =>
        match SafeNearbyInt A (times_int A (minus_int A kappa nu) C) with
        | None => Error
        | Some D => OrbitRecurrence fuel nu D C
        end
      end
    end
  | Error => Error
  | CheckFailed => CheckFailed
  | Undefined => Undefined
  | Running => Running
  end.
End Closest.

(* orbit_recurrence_body.hpp:66-103, ClosestRecurrence, for doubles in SI units. *)
Definition pi : Double_Model.double := Double_Model.of_Z2 884279719003555 (-48).
Definition ClosestRecurrence (fuel : nat) (nodal_period nodal_precession angular_frequency : Double_Model.double)
    (max_abs_C : Z) : outcome recurrence :=
  let nd := Double_Model.div (Double_Model.mul (Double_Model.of_Z 2) pi) nodal_period in
  let kappa := Double_Model.div nd (Double_Model.sub angular_frequency nodal_precession) in
  closest doubles fuel kappa max_abs_C.
