(** Model of the parsing and printing of dates and times in astronomy/date_time_body.hpp.  Strings are lists of characters; the
    character read at the end of a string is the terminating NUL. *)
From Coq Require Import ZArith Bool List Ascii.
From Verif Require Import Date_Model.
Import ListNotations.
Local Open Scope char_scope.
Open Scope Z_scope.

(** [Overflow] is the overflow of an std::int64_t, which is undefined. *)
Inductive outcome (A : Type) := Ok (a : A) | CheckFailed | Overflow.
Arguments Ok {A} a. Arguments CheckFailed {A}. Arguments Overflow {A}.
Definition bind {A B} (o : outcome A) (f : A -> outcome B) : outcome B :=
  match o with Ok a => f a | CheckFailed => CheckFailed | Overflow => Overflow end.
Definition of_option {A} (o : option A) : outcome A := match o with Some a => Ok a | None => CheckFailed end.
Notation "'let!' x := e 'in' f" := (bind e (fun x => f)) (at level 200, x name, e at level 100, f at level 200).
Definition int64_max : Z := 9223372036854775807.

(** astronomy/date_time_body.hpp:71-84 *)
Fixpoint digit_range (digits : Z) (begin end_ : nat) {struct end_} : outcome Z :=
  if digits <? 0 then CheckFailed
  else if Nat.eqb begin end_ then Ok 0
  else match end_, begin with
       | O, _ => CheckFailed
       | S e, O => let! r := digit_range (Z.quot digits 10) O e in Ok (r * 10 + Z.rem digits 10)
       | S e, S b => digit_range (Z.quot digits 10) b e
       end.
(** astronomy/date_time_body.hpp:87-90 *)
Fixpoint shift_left_nat (x : Z) (count : nat) : outcome Z :=
  match count with O => Ok x | S c => if x * 10 <=? int64_max then shift_left_nat (x * 10) c else Overflow end.
Definition shift_left (x count : Z) : outcome Z := if count <? 0 then CheckFailed else shift_left_nat x (Z.to_nat count).

(** astronomy/date_time_body.hpp:100-110 *)
Definition YYYYMMDD (digits : Z) (c : option calendars) : outcome date :=
  let abs_digits := if digits <? 0 then - digits else digits in
  let sign := if digits <? 0 then -1 else 1 in
  if abs_digits <=? 99999999 then
    let! y := digit_range abs_digits 4 8 in let! m := digit_range abs_digits 2 4 in let! d := digit_range abs_digits 0 2 in
    of_option (Calendar (sign * y) m d c)
  else CheckFailed.
(** astronomy/date_time_body.hpp:112-120 *)
Definition YYYYDDD (digits : Z) (c : option calendars) : outcome date :=
  let sign := if digits <? 0 then -1 else 1 in
  if digits <=? 9999999 then
    let! y := digit_range digits 3 7 in let! d := digit_range digits 0 3 in of_option (Ordinal (sign * y) d c)
  else CheckFailed.
(** astronomy/date_time_body.hpp:122-128 *)
Definition YYYYwwD (digits : Z) : outcome date :=
  if (0 <=? digits) && (digits <=? 9999999) then
    let! y := digit_range digits 3 7 in let! w := digit_range digits 1 3 in let! d := digit_range digits 0 1 in
    of_option (Week y w d)
  else CheckFailed.

Definition is_digit (c : ascii) : bool := (48 <=? N_of_ascii c)%N && (N_of_ascii c <=? 57)%N.
(** The fields of DateParser, astronomy/date_time_body.hpp:509-522, and TimeParser, 705-718: the hyphens or the colons are the
    separators, the W or the decimal mark is the mark. *)
Record parser := Parser { digits : Z; digit_count : Z; separators : Z; first_index : Z; second_index : Z; has_mark : bool; mark_index : Z }.
(** astronomy/date_time_body.hpp:569-633 and 753-818, which are the same function up to the characters. *)
Fixpoint ReadToEnd (is_separator is_mark : ascii -> bool) (s : list ascii) (index : Z) (p : parser) : outcome parser :=
  match s with
  | [] => Ok p
  | c :: r =>
      if is_separator c then
        if separators p <? 2 then
          ReadToEnd is_separator is_mark r (index + 1)
            (Parser (digits p) (digit_count p) (separators p + 1)
               (if separators p =? 0 then index else first_index p) (if separators p =? 0 then second_index p else index)
               (has_mark p) (mark_index p))
        else CheckFailed
      else if is_mark c then
        if has_mark p then CheckFailed
        else ReadToEnd is_separator is_mark r (index + 1)
               (Parser (digits p) (digit_count p) (separators p) (first_index p) (second_index p) true index)
      else if is_digit c then
        let code := Z.of_N (N_of_ascii c) in
        if digits p * 10 + code <=? int64_max then
          ReadToEnd is_separator is_mark r (index + 1)
            (Parser (digits p * 10 + code - 48) (digit_count p + 1) (separators p) (first_index p) (second_index p)
               (has_mark p) (mark_index p))
        else Overflow
      else CheckFailed
  end.
(** astronomy/date_time_body.hpp:557-567 and 741-751 *)
Definition initial_parser : parser := Parser 0 0 0 (-1) (-1) false (-1).
Definition read_date (s : list ascii) := ReadToEnd (fun c => Ascii.eqb c "-") (fun c => Ascii.eqb c "W") s 0 initial_parser.
Definition read_time (s : list ascii) :=
  ReadToEnd (fun c => Ascii.eqb c ":") (fun c => Ascii.eqb c "," || Ascii.eqb c ".") s 0 initial_parser.

(** astronomy/date_time_body.hpp:635-661 *)
Definition ToDate (p : parser) (c : option calendars) (negative : bool) : outcome date :=
  let signed_digits := if negative then - digits p else digits p in
  if digit_count p =? 8 then
    if (separators p =? 0) || ((separators p =? 2) && (first_index p =? 4) && (second_index p =? 7))
    then YYYYMMDD signed_digits c else CheckFailed
  else if digit_count p =? 7 then
    if has_mark p then
      if ((separators p =? 0) && (mark_index p =? 4))
         || ((separators p =? 2) && (first_index p =? 4) && (mark_index p =? 5) && (second_index p =? 8))
      then match c with None => YYYYwwD signed_digits | Some _ => CheckFailed end
      else CheckFailed
    else if (separators p =? 0) || ((separators p =? 1) && (first_index p =? 4)) then YYYYDDD signed_digits c else CheckFailed
  else CheckFailed.
(** astronomy/date_time_body.hpp:525-540: the prefix, lines 527-532, and the sign, lines 533-538. *)
Definition read_prefix (s : list ascii) : option calendars * list ascii :=
  match s with
  | [] => (None, s)
  | c :: r => if Ascii.eqb c "J" then (Some Julian, r) else if Ascii.eqb c "G" then (Some Gregorian, r) else (None, s)
  end.
Definition read_sign (s : list ascii) : bool * list ascii :=
  match s with
  | [] => (false, s)
  | c :: r => if Ascii.eqb c "+" || Ascii.eqb c "-" then (Ascii.eqb c "-", r) else (false, s)
  end.
Definition ParseDate (s : list ascii) : outcome date :=
  let '(c, s) := read_prefix s in
  let '(negative, s) := read_sign s in
  let! p := read_date s in ToDate p c negative.

(** astronomy/date_time.hpp:100-103 *)
Record time_of_day := Time { hour : Z; minute : Z; second : Z; millisecond : Z }.
(** astronomy/date_time_body.hpp:288-303 *)
Definition TimeOfDay (h m s ms : Z) : outcome time_of_day :=
  if ((h =? 24) && (m =? 0) && (s =? 0) && (ms =? 0)) ||
     ((0 <=? ms) && (ms <=? 999) &&
      (((h =? 23) && (m =? 59) && (s =? 60)) ||
       ((0 <=? h) && (h <=? 23) && (0 <=? m) && (m <=? 59) && (0 <=? s) && (s <=? 59))))
  then Ok (Time h m s ms) else CheckFailed.
(** astronomy/date_time_body.hpp:280-286 *)
Definition is_leap_second (t : time_of_day) : bool := second t =? 60.
Definition is_end_of_day (t : time_of_day) : bool := hour t =? 24.
(** astronomy/date_time_body.hpp:255-262 *)
Definition hhmmss_ms (hhmmss ms : Z) : outcome time_of_day :=
  if (0 <=? hhmmss) && (hhmmss <=? 999999) then
    let! h := digit_range hhmmss 4 6 in let! m := digit_range hhmmss 2 4 in let! s := digit_range hhmmss 0 2 in TimeOfDay h m s ms
  else CheckFailed.
(** astronomy/date_time_body.hpp:820-837 *)
Definition ToTime (p : parser) : outcome time_of_day :=
  if (6 <=? digit_count p) && (digit_count p <=? 15) &&
     ((separators p =? 0) || ((separators p =? 2) && (first_index p =? 2) && (second_index p =? 5))) &&
     (((digit_count p =? 6) && negb (has_mark p)) ||
      (has_mark p && (((separators p =? 0) && (mark_index p =? 6)) || (negb (separators p =? 0) && (mark_index p =? 8)))))
  then
    let fraction := Z.to_nat (digit_count p - 6) in
    let! hhmmss := digit_range (digits p) fraction (Z.to_nat (digit_count p)) in
    let! f := digit_range (digits p) 0 fraction in
    let! ms := shift_left f (3 - (digit_count p - 6)) in
    hhmmss_ms hhmmss ms
  else CheckFailed.
(** astronomy/date_time_body.hpp:721-724 *)
Definition ParseTime (s : list ascii) : outcome time_of_day := let! p := read_time s in ToTime p.

(** astronomy/date_time.hpp:124-125 *)
Record date_time := DateAndTime { date_of : date; time_of : time_of_day }.
(** astronomy/date_time_body.hpp:323-330 *)
Definition DateTime (d : date) (t : time_of_day) : outcome date_time :=
  if negb (is_leap_second t) || (day d =? month_length (year d) (month d) (calendar d)) then Ok (DateAndTime d t) else CheckFailed.
(** astronomy/date_time_body.hpp:307-309 and 319-321 *)
Definition BeginningOfDay (d : date) : outcome date_time := let! t := hhmmss_ms 0 0 in DateTime d t.
Definition normalized_end_of_day (x : date_time) : outcome date_time :=
  if is_end_of_day (time_of x) then BeginningOfDay (next_day (date_of x)) else Ok x.
(** astronomy/date_time_body.hpp:397-408 *)
Definition contains (s : list ascii) (c : ascii) : bool := existsb (fun d => Ascii.eqb d c) s.
Fixpoint index_of (s : list ascii) (c : ascii) : outcome nat :=
  match s with [] => CheckFailed | d :: r => if Ascii.eqb d c then Ok O else let! i := index_of r c in Ok (S i) end.
(** astronomy/date_time_body.hpp:1024-1034 *)
Definition ParseDateTime (s : list ascii) : outcome date_time :=
  if Bool.eqb (contains s "-") (contains s ":") then
    let! i := index_of s "T" in
    let! d := ParseDate (firstn i s) in
    let! t := ParseTime (skipn (i + 1) s) in
    DateTime d t
  else CheckFailed.

(** The output of a nonnegative integer with std::setw(width) and std::setfill('0'). *)
Definition digit_char (k : Z) : ascii := ascii_of_N (Z.to_N (48 + k)).
Fixpoint print_digits (n : nat) (v : Z) (acc : list ascii) : list ascii :=
  match n with O => acc | S n => print_digits n (v / 10) (digit_char (v mod 10) :: acc) end.
Fixpoint width (fuel : nat) (v : Z) : nat := match fuel with O => 1%nat | S f => if v <? 10 then 1%nat else S (width f (v / 10)) end.
Definition setw (n : nat) (v : Z) : list ascii := print_digits (Nat.max n (width 20 v)) v [].
(** astronomy/date_time_body.hpp:976-985 *)
Definition print_date (d : date) : list ascii :=
  (if is_julian (calendar d) then ["J"%char] else if year d <=? 1582 then ["G"] else []) ++
  (if year d <? 0 then ["-"] else []) ++ setw 4 (Z.abs (year d)) ++ ["-"] ++ setw 2 (month d) ++ ["-"] ++ setw 2 (day d).
(** astronomy/date_time_body.hpp:1003-1011 *)
Definition print_time (t : time_of_day) : list ascii :=
  setw 2 (hour t) ++ [":"] ++ setw 2 (minute t) ++ [":"] ++ setw 2 (second t) ++
  (if 0 <? millisecond t then [","] ++ setw 3 (millisecond t) else []).
(** astronomy/date_time_body.hpp:1036-1038 *)
Definition print_date_time (x : date_time) : list ascii := print_date (date_of x) ++ ["T"] ++ print_time (time_of x).

(** JulianDateParser, astronomy/date_time_body.hpp:900-942: digits, digit count and index of the decimal mark. *)
Fixpoint read_julian (s : list ascii) (index digits_ count : Z) (mark : bool) (mark_idx : Z) : outcome (Z * Z * Z) :=
  match s with
  | [] => Ok (digits_, count, mark_idx)
  | c :: r =>
      if Ascii.eqb c "." then if mark then CheckFailed else read_julian r (index + 1) digits_ count true index
      else if is_digit c then
        if digits_ <=? int64_max / 10 - 9
        then read_julian r (index + 1) (digits_ * 10 + Z.of_N (N_of_ascii c) - 48) (count + 1) mark mark_idx
        else CheckFailed
      else CheckFailed
  end.
(** astronomy/date_time.hpp:151-153: the days since J2000 and a fraction of a day. *)
Record julian_date := MakeJulianDate { julian_day : Z; fraction_numerator : Z; fraction_denominator : Z }.
(** astronomy/date_time_body.hpp:385-393 *)
Definition JulianDate (d n e : Z) : outcome julian_date := if (0 <=? n) && (n <? e) then Ok (MakeJulianDate d n e) else CheckFailed.
(** astronomy/date_time_body.hpp:334-345; the index of the mark is at most the number of digits. *)
Definition JulianDate_JD (digits_ : Z) (count fractional : nat) : outcome julian_date :=
  let! d := digit_range digits_ fractional count in
  let! n := digit_range digits_ 0 fractional in
  let! e := shift_left 1 (Z.of_nat fractional) in
  JulianDate (d - 2451545) n e.
(** astronomy/date_time_body.hpp:347-371 *)
Definition JulianDate_MJD (digits_ : Z) (count fractional : nat) : outcome julian_date :=
  let! d := digit_range digits_ fractional count in
  let! n := digit_range digits_ 0 fractional in
  let! e := shift_left 1 (Z.of_nat fractional) in
  if e =? 1 then if n =? 0 then JulianDate (d - 2451545 + 2400000) 5 10 else CheckFailed
  else if Z.quot e 2 <=? n then JulianDate (d - 2451545 + 2400000 + 1) (n - Z.quot e 2) e
  else JulianDate (d - 2451545 + 2400000) (n + Z.quot e 2) e.
(** astronomy/date_time_body.hpp:944-956 *)
Definition to_julian (f : Z -> nat -> nat -> outcome julian_date) (s : list ascii) : outcome julian_date :=
  let! p := read_julian s 0 0 0 false (-1) in
  let '(ds, n, i) := p in f ds (Z.to_nat n) (if i <? 0 then O else Z.to_nat (n - i)).
(** astronomy/date_time_body.hpp:410-420 and 1044-1052 *)
Fixpoint starts_with (s prefix : list ascii) : bool :=
  match s, prefix with
  | _, [] => true
  | [], _ => false
  | c :: s, d :: prefix => Ascii.eqb c d && starts_with s prefix
  end.
Definition ParseJulian (s : list ascii) : outcome julian_date :=
  match s with
  | [] => CheckFailed
  | _ => if starts_with s ["J"; "D"] then to_julian JulianDate_JD (skipn 2 s)
         else if starts_with s ["M"; "J"; "D"] then to_julian JulianDate_MJD (skipn 3 s) else CheckFailed
  end.
