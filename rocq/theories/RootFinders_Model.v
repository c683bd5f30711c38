(** Model of the zero finders of numerics/root_finders_body.hpp, on IEEE binary64 numbers.  The functions are any mathematical functions of doubles,
    which may yield infinities and NaNs; an [Argument] or a [Value] with a unit is its double. *)
From Coq Require Import ZArith Bool.
From Flocq Require Import IEEE754.BinarySingleNaN IEEE754.Binary IEEE754.Bits.
From Verif Require Import Double_Model.

(** The loops of the code are not bounded: [Running] is the state after the number of iterations given by the fuel. *)
Inductive result := Returned (x : double) | CheckFailed | Running.

(** geometry/sign_body.hpp:25: true if negative. *)
Definition Sign (x : double) : bool := Bsign 53 1024 x.
(** geometry/barycentre_calculator_body.hpp:74-92, for two doubles. *)
Definition Barycentre (x y : double) : double :=
  let total := zero in
  let total := add total x in
  let total := add total y in
  div total (of_Z 2).
(** std::abs *)
Definition Abs (x : double) : double := if Sign x then opp x else x.

(** numerics/root_finders_body.hpp:48-63 *)
Fixpoint bisect_loop (fuel : nat) (f : double -> double) (f_upper lower upper : double) : result :=
  match fuel with
  | O => Running
  | S fuel =>
    let middle := Barycentre lower upper in
    if eq middle lower || eq middle upper then Returned middle
    else
      let f_middle := f middle in
      if eq f_middle zero then Returned middle
      else if Bool.eqb (Sign f_middle) (Sign f_upper) then bisect_loop fuel f f_upper lower middle
      else bisect_loop fuel f f_upper middle upper
  end.
(** numerics/root_finders_body.hpp:29-64 *)
Definition Bisect (fuel : nat) (f : double -> double) (lower_bound upper_bound : double) : result :=
  let f_upper := f upper_bound in
  let f_lower := f lower_bound in
  if eq f_upper zero then Returned upper_bound
  else if eq f_lower zero then Returned lower_bound
  else if negb (Bool.eqb (Sign f_lower) (Sign f_upper)) then bisect_loop fuel f f_upper lower_bound upper_bound
  else CheckFailed.

Definition two : double := of_Z 2.
Definition three : double := of_Z 3.
Definition half : double := of_Z2 1 (-1).
(** numerics/root_finders_body.hpp:79 *)
Definition brent_epsilon : double := of_Z2 1 (-53).
(** The variables of Brent, numerics/root_finders_body.hpp:81-90. *)
Record brent_state := Brent_state { ba : double; bb : double; bc : double; bd : double; be : double; fa : double; fb : double; fc : double }.
(** numerics/root_finders_body.hpp:103-105 *)
Definition restart (s : brent_state) : brent_state :=
  let d := sub (bb s) (ba s) in Brent_state (ba s) (bb s) (ba s) d d (fa s) (fb s) (fa s).
(** numerics/root_finders_body.hpp:107-114 *)
Definition swap (s : brent_state) : brent_state :=
  if lt (Abs (fc s)) (Abs (fb s)) then Brent_state (bb s) (bc s) (bb s) (bd s) (be s) (fb s) (fc s) (fb s) else s.
(** numerics/root_finders_body.hpp:115-116; [b - Argument{}] *)
Definition tolerance (s : brent_state) : double := mul (mul two brent_epsilon) (Abs (sub (bb s) zero)).
Definition half_interval (s : brent_state) : double := mul half (sub (bc s) (bb s)).
(** numerics/root_finders_body.hpp:120-151: the new [d] and [e]. *)
Definition brent_step (s : brent_state) : double * double :=
  let delta := tolerance s in
  let m := half_interval s in
  if lt (Abs (be s)) delta || le (Abs (fa s)) (Abs (fb s)) then (m, m)
  else
    let '(p, q) :=
      if eq (ba s) (bc s) then
        let s' := div (fb s) (fa s) in
        (mul (mul two m) s', sub one s')
      else
        let r1 := div (fa s) (fc s) in
        let r2 := div (fb s) (fc s) in
        let r3 := div (fb s) (fa s) in
        (mul r3 (sub (mul (mul (mul two m) r1) (sub r1 r2)) (mul (sub (bb s) (ba s)) (sub r2 one))),
         mul (mul (sub r1 one) (sub r2 one)) (sub r3 one)) in
    let '(p, q) := if negb (Sign p) then (p, opp q) else (opp p, q) in
    if lt (mul two p) (sub (mul (mul three m) q) (Abs (mul delta q))) && lt p (Abs (mul (mul half (be s)) q))
    then (div p q, bd s)
    else (m, m).
(** numerics/root_finders_body.hpp:152-155 *)
Definition advance (f : double -> double) (s : brent_state) (d e : double) : brent_state :=
  let delta := tolerance s in
  let m := half_interval s in
  let b := add (bb s) (if lt delta (Abs d) then d else if Sign m then opp delta else delta) in
  Brent_state (bb s) b (bc s) d e (fb s) (f b) (fc s).
(** numerics/root_finders_body.hpp:102-157: the body of the inner loop; [restart] at the top of the outer one. *)
Fixpoint brent_loop (fuel : nat) (f : double -> double) (s : brent_state) : result :=
  match fuel with
  | O => Running
  | S fuel =>
    let s := swap s in
    if le (Abs (half_interval s)) (tolerance s) || eq (fb s) zero then Returned (bb s)
    else
      let '(d, e) := brent_step s in
      let s := advance f s d e in
      if negb (Bool.eqb (Sign (fb s)) (Sign (fc s))) then brent_loop fuel f s else brent_loop fuel f (restart s)
  end.
(** numerics/root_finders_body.hpp:69-159; [c], [d], [e] and [f_c] are not initialized before the loop, and are set by [restart]. *)
Definition Brent (fuel : nat) (f : double -> double) (lower_bound upper_bound : double) : result :=
  let a := lower_bound in
  let b := upper_bound in
  let f_a := f a in
  let f_b := f b in
  if eq f_a zero then Returned a
  else if eq f_b zero then Returned b
  else if negb (Bool.eqb (Sign f_a) (Sign f_b)) then brent_loop fuel f (restart (Brent_state a b a zero zero f_a f_b f_a))
  else CheckFailed.
