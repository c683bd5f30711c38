(** C04: theorems about base/hexadecimal_body.hpp. *)
From Coq Require Import ZArith List Lia.
From Verif Require Import Hex_Model Hex_Proofs.
Import ListNotations.
Open Scope Z_scope.

(** Encoding, with any overlap such that the output (including its terminator, if any) starts late enough
    or ends before the input.  [hex_of_bytes] is the textbook specification. *)
Theorem C04_encode :
  forall (nt : bool) i n o osize m,
  (forall x, i <= x < i + Z.of_nat n -> is_byte (m x)) ->
  (i <= o + 1 \/ o + 2 * Z.of_nat n + (if nt then 1 else 0) <= i) ->
  EncodedLength nt (Z.of_nat n) <= osize ->
  exists m', Encode nt i n o osize m = Some m' /\
    read m' o (2 * n) = hex_of_bytes (read m i n) /\
    (nt = true -> m' (o + 2 * Z.of_nat n) = 0) /\
    (forall x, ~ (o <= x < o + EncodedLength nt (Z.of_nat n)) -> m' x = m x).
Proof. exact encode_correct. Qed.
Print Assumptions C04_encode.

(** In place: input in the second byte of the output buffer, overlapping. *)
Example C04_encode_example :
  match Encode true 11 3 10 7 (place (fun _ => 0) 11 [0xDE; 0xAD; 0x0F]) with
  | Some m' => read m' 10 7 = [68; 69; 65; 68; 48; 70; 0] | None => False end.
Proof. vm_compute. reflexivity. Qed.

(** The code's own precondition is weaker than what C04_encode requires: when the null-terminated output
    ends exactly where the input starts, the overlap check passes but the terminator destroys the first
    input byte. *)
Theorem C04_encode_admitted_overlap_refuted :
  exists i n o osize m m',
    (forall x, is_byte (m x)) /\
    Encode true i n o osize m = Some m' /\
    read m' o (2 * n) <> hex_of_bytes (read m i n).
Proof. exact encode_adjacent_null_wrong. Qed.
Print Assumptions C04_encode_admitted_overlap_refuted.

Theorem C04_decode :
  forall i n o osize m,
  (forall x, i <= x < i + Z.of_nat n -> 0 <= m x < 128) ->
  (o <= i + 1 \/ i + 2 * Z.of_nat (n / 2) <= o) ->
  Z.of_nat (n / 2) <= osize ->
  exists m', Decode i n o osize m = Some m' /\
    read m' o (n / 2) = bytes_of_hex (read m i n) /\
    (forall x, ~ (o <= x < o + Z.of_nat (n / 2)) -> m' x = m x).
Proof. exact decode_correct. Qed.
Print Assumptions C04_decode.

Example C04_decode_example :
  match Decode 10 7 11 3 (place (fun _ => 0) 10 [68; 101; 65; 68; 48; 70; 70]) with
  | Some m' => read m' 11 3 = [0xDE; 0xAD; 0x0F] | None => False end.
Proof. vm_compute. reflexivity. Qed.

(** Whenever the functions do not die on their own overlap and size checks, the result is right; for the encoder
    this excludes only the case of [C04_encode_admitted_overlap_refuted]. *)
Theorem C04_encode_checked : forall (nt : bool) i n o osize m m',
  (forall x, i <= x < i + Z.of_nat n -> is_byte (m x)) ->
  (nt = true -> (0 < n)%nat -> o + 2 * Z.of_nat n <> i) ->
  Encode nt i n o osize m = Some m' ->
  read m' o (2 * n) = hex_of_bytes (read m i n).
Proof. exact encode_checked. Qed.
Print Assumptions C04_encode_checked.

Theorem C04_decode_checked : forall i n o osize m m',
  (forall x, i <= x < i + Z.of_nat n -> 0 <= m x < 128) ->
  Decode i n o osize m = Some m' ->
  read m' o (n / 2) = bytes_of_hex (read m i n).
Proof. exact decode_checked. Qed.
Print Assumptions C04_decode_checked.

Theorem C04_round_trip :
  forall nt junk junk' l enc, Forall is_byte l ->
  EncodeNew nt junk l = Some enc -> DecodeNew junk' enc = Some l.
Proof. exact hex_round_trip_new. Qed.
Print Assumptions C04_round_trip.

Theorem C04_encode_new :
  forall nt junk l, Forall is_byte l ->
  EncodeNew nt junk l = Some (hex_of_bytes l ++ (if nt then [0] else [])).
Proof. exact encode_new_correct. Qed.
Print Assumptions C04_encode_new.

Theorem C04_alphabet :
  forall l, Forall is_byte l -> Forall (fun c => 48 <= c <= 57 \/ 65 <= c <= 70) (hex_of_bytes l).
Proof. exact hex_alphabet. Qed.
Print Assumptions C04_alphabet.

(** Together with [C04_decode_new]: decoding is case-insensitive, ignores an odd trailing character and reads
    characters that are not digits as 0 (see [value]), as long as all characters are below 0x80. *)
Theorem C04_decode_new :
  forall junk l, Forall (fun c => 0 <= c < 128) l -> DecodeNew junk l = Some (bytes_of_hex l).
Proof. exact decode_new_correct. Qed.
Print Assumptions C04_decode_new.

Theorem C04_decode_case_insensitive : forall l, bytes_of_hex (map lower l) = bytes_of_hex l.
Proof. exact decode_case. Qed.
Print Assumptions C04_decode_case_insensitive.

(** For characters from 0x80 on, the table is indexed with a negative [char]: undefined behaviour. *)
Theorem C04_decode_high_characters_refuted :
  forall junk c d, 128 <= c < 256 -> DecodeNew junk [c; d] = None.
Proof. exact decode_char_ub. Qed.
Print Assumptions C04_decode_high_characters_refuted.

Example C04_round_trip_example :
  EncodeNew true (fun _ => 7) [0; 0x9A; 0xFF] = Some [48; 48; 57; 65; 70; 70; 0] /\
  DecodeNew (fun _ => 7) [48; 48; 57; 97; 70; 70; 0] = Some [0; 0x9A; 0xFF].
Proof. vm_compute. auto. Qed.
