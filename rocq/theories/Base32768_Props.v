(** C03: theorems about base/base32768_body.hpp. *)
From Coq Require Import ZArith List.
From Verif Require Import Base32768_Tables Base32768_Model Base32768_Proofs.
Import ListNotations.
Open Scope Z_scope.

Theorem C03_encode_succeeds : forall nt l, Forall is_byte l -> exists codes, Encode nt l = Some codes.
Proof. exact encode_succeeds. Qed.
Print Assumptions C03_encode_succeeds.

(** Decoding into an array with arbitrary prior contents never goes out of bounds and restores the bytes. *)
Theorem C03_round_trip :
  forall junk l codes, Forall is_byte l -> Encode false l = Some codes -> Decode junk codes = Some l.
Proof. exact base32768_round_trip. Qed.
Print Assumptions C03_round_trip.

Theorem C03_encoded_length :
  forall nt l codes, Forall is_byte l -> Encode nt l = Some codes ->
  Z.of_nat (length codes) = EncodedLength nt (Z.of_nat (length l)).
Proof. exact encode_length_correct. Qed.
Print Assumptions C03_encoded_length.

Theorem C03_decoded_length :
  forall l codes, Forall is_byte l -> Encode false l = Some codes -> DecodedLength codes = Z.of_nat (length l).
Proof. exact decoded_length_correct. Qed.
Print Assumptions C03_decoded_length.

Theorem C03_alphabet :
  forall l codes, Forall is_byte l -> Encode false l = Some codes -> Forall in_repertoire codes.
Proof. exact encode_alphabet. Qed.
Print Assumptions C03_alphabet.

(** The documentation of the interface (base/encoder.hpp:36-37) says that the input of Decode may or may not be
    null-terminated; but decoding what the null-terminated encoder produced does not give back the input. *)
Theorem C03_null_terminated_round_trip_refuted :
  exists l codes, Forall is_byte l /\ Encode true l = Some codes /\ forall junk, Decode junk codes <> Some l.
Proof. exact null_terminated_not_round_trip. Qed.
Print Assumptions C03_null_terminated_round_trip_refuted.

(** Decoding is not memory-safe on texts that the encoder did not produce. *)
Theorem C03_decode_bounds_refuted :
  forall junk, Decode junk (repeat 0x4A0 8 ++ [0x180]) = None /\ Decode junk [0xFFFF] = None.
Proof. exact malformed_out_of_bounds. Qed.
Print Assumptions C03_decode_bounds_refuted.

(** Non-trivial instances, with the 15-bit tail, the 7-bit tail and the exact fit. *)
Definition round_trips (l : list Z) : option (nat * bool * option (list Z)) :=
  match Encode false l with
  | Some c => Some (length c, CanEncode seven_blocks (last c 0), Decode (fun _ => 0x77) c)
  | None => None
  end.
Definition sample : list Z := [0xFF; 0; 1; 0x80; 0x7F; 0xAA; 0x55; 3; 4; 5; 6; 7; 8; 9; 10].
Example C03_example :
  round_trips sample = Some (8%nat, false, Some sample) /\
  round_trips (firstn 2 sample) = Some (2%nat, true, Some (firstn 2 sample)) /\
  round_trips (firstn 3 sample) = Some (2%nat, false, Some (firstn 3 sample)).
Proof. split; [|split]; vm_compute; reflexivity. Qed.
