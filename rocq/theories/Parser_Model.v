(** Model of quantities/parser_body.hpp.  Strings are lists of bytes; the scales are exact real numbers, and the exponents of the dimensions are unbounded integers. *)
From Coq Require Import Bool List Ascii String ZArith Reals.
Import ListNotations.

Definition str := list ascii.
Definition blank : ascii := " "%char.
Definition caret : ascii := "^"%char.
Definition slash : ascii := "/"%char.
(** The searches of std::string.  The result [None] is npos. *)
Fixpoint index (p : ascii -> bool) (s : str) : option nat := match s with [] => None | a :: s => if p a then Some O else option_map S (index p s) end.
Fixpoint last_index (p : ascii -> bool) (s : str) : option nat :=
  match s with [] => None | a :: s => match last_index p s with Some i => Some (S i) | None => if p a then Some O else None end end.
Definition is (c : ascii) : ascii -> bool := Ascii.eqb c.
Definition find (c : ascii) (s : str) (start : nat) : option nat := option_map (Nat.add start) (index (is c) (skipn start s)).
Definition find_first_not_of (c : ascii) (s : str) (start : nat) : option nat := option_map (Nat.add start) (index (fun a => negb (is c a)) (skipn start s)).
(** The position may be npos, the whole string is then searched. *)
Definition find_last_not_of (c : ascii) (s : str) (pos : option nat) : option nat :=
  last_index (fun a => negb (is c a)) (match pos with Some pos => firstn (S pos) s | None => s end).
Definition rfind (c : ascii) (s : str) : option nat := last_index (is c) s.
(** The position before [n], as an std::size_t: npos for 0. *)
Definition before (n : nat) : option nat := match n with O => None | S p => Some p end.
(** The length of the prefix that ends at a position: npos + 1 is 0. *)
Definition through (last : option nat) : nat := match last with Some last => S last | None => O end.

(** quantities/parser_body.hpp:26-83: the exponents of length, mass, time, current, temperature, amount, luminous intensity, angle. *)
Record unit := Unit { dimensions : list Z; scale : R }.
Fixpoint map2 (f : Z -> Z -> Z) (a b : list Z) : list Z := match a, b with x :: a, y :: b => f x y :: map2 f a b | _, _ => [] end.
(** quantities/parser_body.hpp:85-91 *)
Definition times (left right : unit) : unit := Unit (map2 Z.add (dimensions left) (dimensions right)) (scale left * scale right).
(** quantities/parser_body.hpp:93-99 *)
Definition divide (left right : unit) : unit := Unit (map2 Z.sub (dimensions left) (dimensions right)) (scale left / scale right).
(** quantities/parser_body.hpp:101-107 *)
Definition power (left : unit) (exponent : Z) : unit := Unit (map (fun d => (d * exponent)%Z) (dimensions left)) (powerRZ (scale left) exponent).
Definition one : unit := Unit [0; 0; 0; 0; 0; 0; 0; 0]%Z 1.
Definition length_unit (r : R) : unit := Unit [1; 0; 0; 0; 0; 0; 0; 0]%Z r.
Definition time_unit (r : R) : unit := Unit [0; 0; 1; 0; 0; 0; 0; 0]%Z r.
Definition gravitational_unit (r : R) : unit := Unit [3; 0; -2; 0; 0; 0; 0; 0]%Z r.
(** quantities/parser_body.hpp:113-161, with the constants of quantities/si.hpp:56-100, quantities/bipm.hpp:24 and quantities/astronomy.hpp:24-54. *)
Definition units : list (str * unit) :=
  map (fun u => (list_ascii_of_string (fst u), snd u)) [
    ("Å"%string, length_unit (1 / 10 ^ 10));
    ("μm"%string, length_unit (1 / 10 ^ 6));
    ("mm"%string, length_unit (1 / 10 ^ 3));
    ("cm"%string, length_unit (1 / 10 ^ 2));
    ("m"%string, length_unit 1);
    ("km"%string, length_unit (10 ^ 3));
    ("R🜨"%string, length_unit (63781 * 10 ^ 2));
    ("R☉"%string, length_unit (6957 * 10 ^ 5));
    ("au"%string, length_unit 149597870700);
    ("kg"%string, Unit [0; 1; 0; 0; 0; 0; 0; 0]%Z 1);
    ("ms"%string, time_unit (1 / 10 ^ 3));
    ("s"%string, time_unit 1);
    ("min"%string, time_unit 60);
    ("h"%string, time_unit (60 * 60));
    ("d"%string, time_unit (24 * (60 * 60)));
    ("GM🜨"%string, gravitational_unit (3986004 * 10 ^ 8));
    ("GM☉"%string, gravitational_unit (13271244 * 10 ^ 13));
    ("W"%string, Unit [2; 1; -3; 0; 0; 0; 0; 0]%Z 1);
    ("deg"%string, Unit [0; 0; 0; 0; 0; 0; 0; 1]%Z (PI / 180));
    ("°"%string, Unit [0; 0; 0; 0; 0; 0; 0; 1]%Z (PI / 180));
    ("rad"%string, Unit [0; 0; 0; 0; 0; 0; 0; 1]%Z 1);
    ("sr"%string, Unit [0; 0; 0; 0; 0; 0; 0; 2]%Z 1)].
Definition str_eqb (a b : str) : bool := if list_eq_dec ascii_dec a b then true else false.
(** quantities/parser_body.hpp:109-166.  [None] is the death of the program. *)
Definition ParseUnit (s : str) : option unit :=
  match s with [] => Some one | _ => match List.find (fun u => str_eqb s (fst u)) units with Some u => Some (snd u) | None => None end end.

Definition digit (a : ascii) : option Z :=
  let n := (Z.of_nat (nat_of_ascii a) - 48)%Z in if (Z.leb 0 n && Z.leb n 9)%bool then Some n else None.
(** std::strtol in base 10: the digits and the number of characters; a long is on 64 bits and saturates.  Of the white space, only the blank. *)
Fixpoint digits (s : str) (value : Z) : Z * nat :=
  match s with
  | [] => (value, O)
  | a :: s => match digit a with Some d => let '(v, n) := digits s (10 * value + d)%Z in (v, S n) | None => (value, O) end
  end.
Definition saturate (v : Z) : Z := Z.max (- 2 ^ 63) (Z.min (2 ^ 63 - 1) v).
Fixpoint strtol (s : str) : Z * nat :=
  let number sign s := let '(v, n) := digits s 0%Z in match n with O => (0%Z, O) | S _ => (saturate (sign * v)%Z, n) end in
  match s with
  | [] => (0%Z, O)
  | a :: s' =>
    if is " "%char a then let '(v, n) := strtol s' in match n with O => (v, O) | _ => (v, S n) end
    else if is "-"%char a then let '(v, n) := number (-1)%Z s' in match n with O => (v, O) | _ => (v, S n) end
    else if is "+"%char a then let '(v, n) := number 1%Z s' in match n with O => (v, O) | _ => (v, S n) end
    else number 1%Z s
  end.
(** The conversion of a long to an int. *)
Definition to_int (v : Z) : Z := ((v + 2 ^ 31) mod 2 ^ 32 - 2 ^ 31)%Z.
(** quantities/parser_body.hpp:168-176 *)
Definition ParseExponent (s : str) : option Z :=
  let '(exponent, interpreted) := strtol s in
  match interpreted with O => None | _ => Some (to_int exponent) end.
(** quantities/parser_body.hpp:178-192 *)
Definition ParseExponentiationUnit (s : str) : option unit :=
  match find caret s 0 with
  | None => ParseUnit s
  | Some first_caret =>
    match find_first_not_of blank s (first_caret + 1), find_last_not_of blank s (before first_caret) with
    | Some first_nonblank, Some last_nonblank =>
      match ParseUnit (firstn (S last_nonblank) s), ParseExponent (skipn first_nonblank s) with
      | Some l_unit, Some r_unit => Some (power l_unit r_unit)
      | _, _ => None
      end
    | _, _ => None
    end
  end.
Definition is_at (c : ascii) (s : str) (i : option nat) : bool := match i with Some i => match nth_error s i with Some a => is c a | None => false end | None => false end.
(** quantities/parser_body.hpp:200-212: the blank that is a product, its next nonblank and its previous nonblank; [None] if there is none.  The number of turns is bounded by [fuel]. *)
Fixpoint product_blank (fuel : nat) (s : str) (start : nat) : option (option nat * option nat) :=
  match fuel with
  | O => None
  | S fuel =>
    match find blank s start with
    | None => None
    | Some first_blank =>
      let first_nonblank := find_first_not_of blank s (first_blank + 1) in
      let last_nonblank := find_last_not_of blank s (before first_blank) in
      if (negb (is_at caret s first_nonblank) && negb (is_at caret s last_nonblank))%bool then Some (first_nonblank, last_nonblank)
      else product_blank fuel s (first_blank + 1)
    end
  end.
(** quantities/parser_body.hpp:194-216.  The substring at npos throws. *)
Fixpoint ParseProductUnit (fuel : nat) (s : str) : option unit :=
  match fuel with
  | O => None
  | S fuel =>
    match product_blank (S (List.length s)) s 0 with
    | None => ParseExponentiationUnit s
    | Some (None, _) => None
    | Some (Some first_nonblank, last_nonblank) =>
      match ParseExponentiationUnit (firstn (through last_nonblank) s), ParseProductUnit fuel (skipn first_nonblank s) with
      | Some l_unit, Some r_unit => Some (times l_unit r_unit)
      | _, _ => None
      end
    end
  end.
(** quantities/parser_body.hpp:218-239 *)
Fixpoint ParseQuotientUnit (fuel : nat) (s : str) : option unit :=
  match fuel with
  | O => None
  | S fuel =>
    match rfind slash s with
    | None => ParseProductUnit (S (List.length s)) s
    | Some last_slash =>
      match find_first_not_of blank s (last_slash + 1) with
      | None => None
      | Some first_nonblank =>
        let last_nonblank := match last_slash with O => None | S p => find_last_not_of blank s (Some p) end in
        match match last_nonblank with None => Some one | Some l => ParseQuotientUnit fuel (firstn (S l) s) end, ParseExponentiationUnit (skipn first_nonblank s) with
        | Some l_unit, Some r_unit => Some (divide l_unit r_unit)
        | _, _ => None
        end
      end
    end
  end.
(** quantities/parser_body.hpp:241-261, for a quantity of the given dimensions; strtod gives the number and how many characters it has read. *)
Definition ParseQuantity (strtod : str -> R * nat) (expected : list Z) (s : str) : option R :=
  let '(magnitude, interpreted) := strtod s in
  match interpreted with
  | O => None
  | _ =>
    let unit_string :=
      match find_first_not_of blank s interpreted, find_last_not_of blank s None with
      | Some first_nonblank, Some last_nonblank => firstn (last_nonblank - first_nonblank + 1) (skipn first_nonblank s)
      | _, _ => []
      end in
    match ParseQuotientUnit (S (List.length unit_string)) unit_string with
    | Some unit => if list_eq_dec Z.eq_dec expected (dimensions unit) then Some (magnitude * scale unit)%R else None
    | None => None
    end
  end.
