(** Model of the equality of base/array_body.hpp. *)
From Coq Require Import ZArith List.
Import ListNotations.
Open Scope Z_scope.

(** Little-endian object representation of an integer of [w] bytes. *)
Fixpoint bytes_of (w : nat) (x : Z) : list Z :=
  match w with O => [] | S w' => x mod 256 :: bytes_of w' (x / 256) end.
Definition representation (w : nat) (l : list Z) : list Z := flat_map (bytes_of w) l.

(** [std::memcmp(p, q, count) == 0] where [p] and [q] point to the given bytes. *)
Definition memcmp_eq (p q : list Z) (count : nat) : bool :=
  if list_eq_dec Z.eq_dec (firstn count p) (firstn count q) then true else false.

(** base/array_body.hpp:183-191.  The arrays have elements of [wl] and [wr] bytes (the operands may have
    different element types); note that the number of bytes compared is [right.size], the number of elements. *)
Definition array_eq (wl wr : nat) (left right : list Z) : bool :=
  if Nat.eqb (length left) (length right)
  then memcmp_eq (representation wl left) (representation wr right) (length right)
  else false.
