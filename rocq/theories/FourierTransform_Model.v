(** Model of numerics/fast_fourier_transform_body.hpp, with real values and exact arithmetic. *)
From Coq Require Import Bool List Reals ZArith.
From Verif Require Import Bits_Model Complexification_Model.
Import ListNotations.

(** numerics/fast_fourier_transform_body.hpp:65-70: the loop, on the elements of the two halves. *)
Fixpoint butterflies (e_minus_1 e : complex) (first second : list complex) : list complex * list complex :=
  match first, second with
  | a :: first, b :: second =>
    let t := times b e in
    let '(first, second) := butterflies e_minus_1 (plus e (times e e_minus_1)) first second in
    (plus a t :: first, minus a t :: second)
  | _, _ => ([], [])
  end.
(** numerics/fast_fourier_transform_body.hpp:49-109: the chunk of size 2^k.  The three specializations come first. *)
Fixpoint Transform (k : nat) (chunk : list complex) : list complex :=
  match k with
  | O => chunk
  | S half =>
    match half with
    | O => match chunk with [a; b] => [plus a b; minus a b] | _ => chunk end
    | S O =>
      match chunk with
      | [a0; a1; a2; a3] =>
        let '(a0, a1) := (plus a0 a1, minus a0 a1) in
        let '(a2, a3) := (plus a2 a3, Complex (imaginary_part a2 - imaginary_part a3) (real_part a3 - real_part a2)) in
        let '(a0, a2) := (plus a0 a2, minus a0 a2) in
        let '(a1, a3) := (plus a1 a3, minus a1 a3) in
        [a0; a1; a2; a3]
      | _ => chunk
      end
    | _ =>
      let first := Transform half (firstn (2 ^ half) chunk) in
      let second := Transform half (skipn (2 ^ half) chunk) in
      let theta := (PI / 2 ^ k)%R in
      let cos_2theta_minus_1 := (-2 * sin theta * sin theta)%R in
      let sin_2theta := sin (2 * theta) in
      let '(first, second) := butterflies (Complex cos_2theta_minus_1 (- sin_2theta)) (Real 1) first second in
      first ++ second
    end
  end.
Fixpoint store {A} (l : list A) (n : nat) (a : A) : list A := match l, n with [], _ => [] | _ :: l, O => a :: l | b :: l, S n => b :: store l n a end.
(** numerics/fast_fourier_transform_body.hpp:133-140; [None] is a failed check in BitReversedIncrement, or a store out of the bounds of the array. *)
Fixpoint reindex (log2_size : nat) (values : list R) (bit_reversed_index : Z) (transform : list complex) : option (list complex) :=
  match values with
  | [] => Some transform
  | v :: values =>
    if negb (Z.leb 0 bit_reversed_index && Z.ltb bit_reversed_index (Z.of_nat (length transform))) then None
    else
      match BitReversedIncrement bit_reversed_index (Z.of_nat log2_size) with
      | Some next => reindex log2_size values next (store transform (Z.to_nat bit_reversed_index) (Real v))
      | None => None
      end
  end.
(** numerics/fast_fourier_transform_body.hpp:119-144, for the size 2^log2_size.  [None] if the number of values is not the size. *)
Definition FastFourierTransform (log2_size : nat) (values : list R) : option (list complex) :=
  if negb (Nat.eqb (2 ^ log2_size) (length values)) then None
  else match reindex log2_size values 0 (repeat (Real 0) (2 ^ log2_size)) with Some transform => Some (Transform log2_size transform) | None => None end.
(** numerics/fast_fourier_transform_body.hpp:129 *)
Definition frequency_step (log2_size : nat) (dt : R) : R := (2 * PI / (2 ^ log2_size * dt))%R.
(** numerics/fast_fourier_transform_body.hpp:202-208 *)
Definition frequency (log2_size : nat) (dt : R) (s : nat) : R := (INR s * frequency_step log2_size dt)%R.
(** numerics/fast_fourier_transform_body.hpp:152-162, for dt > 0: the map is a list in the order of the keys, which increase. *)
Definition PowerSpectrum (log2_size : nat) (dt : R) (transform : list complex) : list (R * R) :=
  map (fun '(k, c) => ((INR k * frequency_step log2_size dt)%R, Norm2 c)) (combine (seq 0 (length transform)) transform).
Definition Rltb (a b : R) : bool := if Rlt_dec a b then true else false.
(** numerics/fast_fourier_transform_body.hpp:170-182: the position of the maximum; [Some None] is the end of the map, [None] is a dereference of the end. *)
Fixpoint maximum (spectrum : list (R * R)) (min_omega max_omega : R) (count i : nat) (max : option (nat * R)) : option (option (nat * R)) :=
  match count with
  | O => Some max
  | S count =>
    match nth_error spectrum i with
    | None => None
    | Some (omega, power) =>
      let max := if (negb (Rltb omega min_omega) && negb (Rltb max_omega omega) && match max with None => true | Some (_, m) => Rltb m power end)%bool then Some (i, power) else max in
      maximum spectrum min_omega max_omega count (S i) max
    end
  end.
(** numerics/fast_fourier_transform_body.hpp:164-193.  [None] for a failed check, or a dereference of the end of the map. *)
Definition Mode (log2_size : nat) (dt : R) (transform : list complex) (min_omega max_omega : R) : option (R * R) :=
  if Rltb max_omega min_omega then None
  else
    let spectrum := PowerSpectrum log2_size dt transform in
    match maximum spectrum min_omega max_omega (Nat.div2 (2 ^ log2_size) + 1) 0 None with
    | Some (Some (m, _)) =>
      match nth_error spectrum (match m with O => O | S p => p end), nth_error spectrum (S m) with
      | Some (a, _), Some (b, _) => Some (Rmin a b, Rmax a b)
      | _, _ => None
      end
    | _ => None
    end.
