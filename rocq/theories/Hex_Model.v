(** Model of base/hexadecimal_body.hpp, on a byte-addressed memory so that buffer overlap is visible. *)
From Coq Require Import ZArith List Lia Bool String Ascii.
Import ListNotations.
Open Scope bool_scope.
Open Scope Z_scope.

(** Memory: address -> byte value in [0, 256).  All pointers in this file point to one-byte elements. *)
Definition mem := Z -> Z.
Definition upd (m : mem) (a v : Z) : mem := fun x => if x =? a then v else m x.

(** base/hexadecimal_body.hpp:17-24, transcribed literally. *)
Definition byte_to_hexadecimal_digits : list Z :=
  map (fun c => Z.of_nat (nat_of_ascii c)) (list_ascii_of_string
   ("000102030405060708090A0B0C0D0E0F101112131415161718191A1B1C1D1E1F2021222324" ++
    "25262728292A2B2C2D2E2F303132333435363738393A3B3C3D3E3F40414243444546474849" ++
    "4A4B4C4D4E4F505152535455565758595A5B5C5D5E5F606162636465666768696A6B6C6D6E" ++
    "6F707172737475767778797A7B7C7D7E7F808182838485868788898A8B8C8D8E8F90919293" ++
    "9495969798999A9B9C9D9E9FA0A1A2A3A4A5A6A7A8A9AAABACADAEAFB0B1B2B3B4B5B6B7B8" ++
    "B9BABBBCBDBEBFC0C1C2C3C4C5C6C7C8C9CACBCCCDCECFD0D1D2D3D4D5D6D7D8D9DADBDCDD" ++
    "DEDFE0E1E2E3E4E5E6E7E8E9EAEBECEDEEEFF0F1F2F3F4F5F6F7F8F9FAFBFCFDFEFF")%string).

(** base/hexadecimal_body.hpp:29-36; entries not listed are value-initialized to 0. *)
Definition skip_7 : list Z := repeat 0 7.
Definition skip_26 : list Z := skip_7 ++ skip_7 ++ skip_7 ++ repeat 0 5.
Definition skip_48 : list Z := skip_26 ++ skip_7 ++ skip_7 ++ skip_7 ++ [0].
Definition hexadecimal_digits_to_nibble : list Z :=
  let l := skip_48 ++ [0; 1; 2; 3; 4; 5; 6; 7; 8; 9] ++
           skip_7 ++ [0xa; 0xb; 0xc; 0xd; 0xe; 0xf] ++
           skip_26 ++ [0xa; 0xb; 0xc; 0xd; 0xe; 0xf] in
  l ++ repeat 0 (256 - List.length l).

(** base/hexadecimal_body.hpp:65-69, backward loop; [k] bytes remain, i.e. the pointers are at
    [i + k - 1] and [o + 2 * (k - 1)]. *)
Fixpoint encode_loop (k : nat) (i o : Z) (m : mem) : mem :=
  match k with
  | O => m
  | S k' =>
      let b := m (i + Z.of_nat k') in
      let d0 := nth (Z.to_nat (Z.shiftl b 1)) byte_to_hexadecimal_digits 0 in
      let d1 := nth (Z.to_nat (Z.shiftl b 1 + 1)) byte_to_hexadecimal_digits 0 in
      let m := upd m (o + 2 * Z.of_nat k') d0 in
      let m := upd m (o + 2 * Z.of_nat k' + 1) d1 in
      encode_loop k' i o m
  end.

(** base/hexadecimal_body.hpp:82-90, [EncodedLength]. *)
Definition EncodedLength (null_terminated : bool) (n : Z) : Z :=
  if null_terminated then Z.shiftl n 1 + 1 else Z.shiftl n 1.

(** base/hexadecimal_body.hpp:43-70, in-place capable [Encode].  [i], [o]: non-null addresses of the input
    and output arrays, [n], [osize] their sizes.  [None]: a CHECK failed. *)
Definition Encode (null_terminated : bool) (i : Z) (n : nat) (o osize : Z) (m : mem) : option mem :=
  if negb ((i <=? o + 1) || (o + Z.shiftl (Z.of_nat n) 1 <=? i))%bool then None
  else if osize <? EncodedLength null_terminated (Z.of_nat n) then None
  else
    let o' := o + Z.shiftl (Z.of_nat n - 1) 1 in
    let m := if null_terminated then upd m (o' + 2) 0 else m in
    Some (encode_loop n i o m).

(** Indexing the 256-entry table with a [char], which is signed on the supported platforms (no
    -funsigned-char in the Makefile nor /J in the .props files): a negative value converts to an index
    beyond the array, undefined behaviour, [None]. *)
Definition nibble_of_char (c : Z) : option Z :=
  let index := (if c <? 128 then c else c - 256) mod 2 ^ 64 in
  if index <? 256 then Some (nth (Z.to_nat index) hexadecimal_digits_to_nibble 0) else None.

(** base/hexadecimal_body.hpp:107-112, forward loop; [k] pairs remain. *)
Fixpoint decode_loop (k : nat) (i o : Z) (m : mem) : option mem :=
  match k with
  | O => Some m
  | S k' =>
      match nibble_of_char (m i), nibble_of_char (m (i + 1)) with
      | Some h, Some l =>
          decode_loop k' (i + 2) (o + 1) (upd m o ((Z.lor (Z.shiftl h 4) l) mod 256))
      | _, _ => None
      end
  end.

(** base/hexadecimal_body.hpp:92-113, [Decode].  [input.size &= ~1] is rounding down to even. *)
Definition Decode (i : Z) (n : nat) (o osize : Z) (m : mem) : option mem :=
  let n := (2 * (n / 2))%nat in
  if negb ((o <=? i + 1) || (i + Z.of_nat n <=? o))%bool then None
  else if osize <? Z.of_nat n / 2 then None
  else decode_loop (n / 2) i o m.

(** base/hexadecimal_body.hpp:125-129, [DecodedLength]. *)
Definition DecodedLength (n : nat) : nat := (n / 2)%nat.

(** Reading an array of [n] bytes at address [a]. *)
Definition read (m : mem) (a : Z) (n : nat) : list Z :=
  map (fun k => m (a + Z.of_nat k)) (seq 0 n).

(** Placing a list at address [a]; the rest of the memory is arbitrary ([junk]). *)
Definition place (junk : mem) (a : Z) (l : list Z) : mem :=
  fun x => if (a <=? x) && (x <? a + Z.of_nat (List.length l)) then nth (Z.to_nat (x - a)) l 0 else junk x.

(** base/hexadecimal_body.hpp:72-80 and :115-123: the overloads allocating a fresh, hence disjoint, output;
    here the input is at address 1 and the output right after it.  The uninitialized contents of the new
    buffer are [junk]. *)
Definition EncodeNew (null_terminated : bool) (junk : mem) (input : list Z) : option (list Z) :=
  let n := List.length input in
  let size := EncodedLength null_terminated (Z.of_nat n) in
  if 0 <? size then
    match Encode null_terminated 1 n (1 + Z.of_nat n) size (place junk 1 input) with
    | Some m => Some (read m (1 + Z.of_nat n) (Z.to_nat size))
    | None => None
    end
  else Some [].

Definition DecodeNew (junk : mem) (input : list Z) : option (list Z) :=
  let n := List.length input in
  let size := DecodedLength n in
  if (0 <? size)%nat then
    match Decode 1 (2 * (n / 2)) (1 + Z.of_nat n) (Z.of_nat size) (place junk 1 input) with
    | Some m => Some (read m (1 + Z.of_nat n) size)
    | None => None
    end
  else Some [].
