(** Model of base/bits_body.hpp. *)
From Coq Require Import ZArith List Lia.
Import ListNotations.
Open Scope Z_scope.

(** [std::uint32_t] wrap-around. *)
Definition u32 (x : Z) : Z := x mod 2 ^ 32.

(** base/bits_body.hpp:14-16, [FloorLog2].  The recursion of the C++ terminates because [n >> 1]
    decreases; here it is driven by [fuel], [None] meaning that the fuel was insufficient (this never
    happens with 64 units for an [std::int64_t] n >= 0, see the proofs).  For negative [n] the C++ does
    not terminate ([-1 >> 1 == -1]); the model returns [None] for them whatever the fuel. *)
Fixpoint FloorLog2_fuel (fuel : nat) (n : Z) : option Z :=
  match fuel with
  | O => None
  | S f =>
      if n =? 0 then Some 0
      else if n =? 1 then Some 0
      else match FloorLog2_fuel f (Z.shiftr n 1) with
           | Some r => Some (r + 1)
           | None => None
           end
  end.
Definition FloorLog2 (n : Z) : option Z := FloorLog2_fuel 64 n.

(** base/bits_body.hpp:18-20, [PowerOf2Le]. *)
Fixpoint PowerOf2Le_fuel (fuel : nat) (n : Z) : option Z :=
  match fuel with
  | O => None
  | S f =>
      if n =? 0 then Some 0
      else if n =? 1 then Some 1
      else match PowerOf2Le_fuel f (Z.shiftr n 1) with
           | Some r => Some (Z.shiftl r 1)
           | None => None
           end
  end.
Definition PowerOf2Le (n : Z) : option Z := PowerOf2Le_fuel 64 n.

(** base/bits_body.hpp:35-38, the [do ... while (x < mask)] loop; [None] if it did not terminate within
    the fuel. *)
Fixpoint bri_loop (fuel : nat) (mask x : Z) : option Z :=
  match fuel with
  | O => None
  | S f =>
      let mask := Z.shiftr mask 1 in
      let x := Z.lxor x mask in
      if x <? mask then bri_loop f mask x else Some x
  end.

(** base/bits_body.hpp:22-41, [BitReversedIncrement].  A failed [CONSTEXPR_DCHECK] is [None].
    The cast to [std::int32_t] followed by [>= 0] is the test that the top bit is clear. *)
Definition BitReversedIncrement (n bits : Z) : option Z :=
  if bits =? 0 then
    if n =? 0 then Some 0 else None
  else if negb ((0 <=? n) && (n <? Z.shiftl 1 bits) && (0 <? bits) && (bits <? 32))%bool then None
  else
    let mask := 2 ^ 31 in
    let x := u32 (Z.shiftl n (32 - bits)) in
    let x := Z.lxor x mask in
    let r := if x <? 2 ^ 31 then bri_loop 33 mask x else Some x in
    match r with
    | Some x => Some (Z.shiftr x (32 - bits))
    | None => None
    end.
