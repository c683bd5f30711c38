(** Model of base/base32768_body.hpp. *)
From Coq Require Import ZArith List Lia Bool.
From Verif Require Import Base32768_Tables.
Import ListNotations.
Open Scope bool_scope.
Open Scope Z_scope.

(** base/base32768_body.hpp:146. *)
Definition block_size : Z := 32.

(** base/base32768_body.hpp:89-92, the assertions of the constructor of CachingRepertoire. *)
Fixpoint blocks_ok (blocks : list Z) : bool :=
  match blocks with
  | b :: (b' :: _) as bs => (b <? b') && (block_size <=? b' - b) && blocks_ok bs
  | _ => true
  end.

(** base/base32768_body.hpp:94-103 and 126-132: contents of [encoding_cache_] at [k]: the loop stores
    [blocks_[block] + offset] at [k = block_size * block + offset]. *)
Definition rep_encode (blocks : list Z) (k : Z) : Z :=
  nth (Z.to_nat (k / block_size)) blocks 0 + k mod block_size.

(** base/base32768_body.hpp:94-103: contents of [decoding_cache_] at [code_point], 0 if never written; later
    blocks overwrite earlier ones. *)
Fixpoint rep_decode_from (block : Z) (blocks : list Z) (code_point acc : Z) : Z :=
  match blocks with
  | [] => acc
  | b :: bs =>
      rep_decode_from (block + 1) bs code_point
        (if (b <=? code_point) && (code_point <? b + block_size)
         then block_size * block + (code_point - b) else acc)
  end.

(** base/base32768_body.hpp:134-138, [Decode] of a repertoire.  The array has [numeric_limits<char16_t>::max()]
    = 65535 elements (line 64), so that index 0xFFFF is out of bounds: [None]. *)
Definition rep_decode (blocks : list Z) (code_point : Z) : option Z :=
  if code_point <? 65535 then Some (rep_decode_from 0 blocks code_point 0) else None.

(** base/base32768_body.hpp:112-124, [CanEncode]; [code_point & ~(block_size - 1)] clears the low 5 bits. *)
Definition CanEncode (blocks : list Z) (code_point : Z) : bool :=
  existsb (Z.eqb (code_point - code_point mod block_size)) blocks.

(** base/base32768_body.hpp:193-199; the bit counts are FloorLog2 (32 * 1024) = 15 and FloorLog2 (32 * 4) = 7. *)
Definition bits_per_byte : Z := 8.
Definition bits_per_code_point : Z := 15.
Definition bits_per_final_code_point : Z := 7.
Definition bytes_per_code_point : Z := 3.

(** base/base32768_body.hpp:208-255, the encoding loop; [input] is the part of the input from the pointer on
    (the pointer overshooting the end is the empty list).  [None]: a CHECK failed or fuel exhausted. *)
Fixpoint encode_loop (fuel : nat) (input : list Z) (input_bit_index : Z) : option (list Z) :=
  match input with
  | [] => Some []
  | b0 :: tl =>
      match fuel with
      | O => None
      | S fuel' =>
          let shift := bytes_per_code_point * bits_per_byte - bits_per_code_point - input_bit_index in
          let mask := Z.shiftl (Z.shiftl 1 bits_per_code_point - 1) shift in
          let '(data, shift, mask, blocks) :=
            match tl with
            | b1 :: b2 :: _ =>
                (Z.lor (Z.lor (Z.shiftl b0 (2 * bits_per_byte)) (Z.shiftl b1 bits_per_byte)) b2,
                 shift, mask, fifteen_blocks)
            | [b1] =>
                (Z.lor (Z.lor (Z.shiftl b0 (2 * bits_per_byte)) (Z.shiftl b1 bits_per_byte))
                       (Z.shiftl 1 bits_per_byte - 1),
                 shift, mask, fifteen_blocks)
            | [] =>
                let data := Z.lor (Z.shiftl b0 (2 * bits_per_byte)) (Z.shiftl 1 (2 * bits_per_byte) - 1) in
                if 0 <? input_bit_index then
                  let shift := bytes_per_code_point * bits_per_byte - bits_per_final_code_point - input_bit_index in
                  (data, shift, Z.shiftl (Z.shiftl 1 bits_per_final_code_point - 1) shift, seven_blocks)
                else (data, shift, mask, fifteen_blocks)
            end in
          let code_point := Z.shiftr (Z.land data mask) shift in
          if negb ((0 <=? code_point) && (code_point <? Z.shiftl 1 bits_per_code_point)) then None
          else
            let next := input_bit_index + bits_per_code_point in
            match encode_loop fuel' (skipn (Z.to_nat (next / bits_per_byte)) input) (next mod bits_per_byte) with
            | Some l => Some (rep_encode blocks code_point :: l)
            | None => None
            end
      end
  end.

(** base/base32768_body.hpp:201-270, [Encode] into a buffer of [EncodedLength] elements.  The bounds of the
    output are the subject of the theorem on [EncodedLength]. *)
Definition Encode (null_terminated : bool) (input : list Z) : option (list Z) :=
  match encode_loop (length input) input 0 with
  | Some l => Some (l ++ if null_terminated then [0] else [])
  | None => None
  end.

(** base/base32768_body.hpp:272-283. *)
Definition EncodedLength (null_terminated : bool) (n : Z) : Z :=
  let nonterminated_length := (n * bits_per_byte + bits_per_code_point - 1) / bits_per_code_point in
  if null_terminated then nonterminated_length + 1 else nonterminated_length.

(** base/base32768_body.hpp:293-327, the decoding loop.  [output] is the part of the output array from the
    pointer on; the result is its final contents.  [None]: out-of-bounds access.  A byte store truncates to
    8 bits. *)
Fixpoint decode_loop (input : list Z) (output_bit_index : Z) (output : list Z) : option (list Z) :=
  match input with
  | [] => Some output
  | c :: input' =>
      let at_end := match input' with [] => true | _ => false end in
      let seven := at_end && CanEncode seven_blocks c in
      let shift :=
        if seven then bytes_per_code_point * bits_per_byte - bits_per_final_code_point - output_bit_index
        else bytes_per_code_point * bits_per_byte - bits_per_code_point - output_bit_index in
      match rep_decode (if seven then seven_blocks else fifteen_blocks) c with
      | None => None
      | Some data =>
          let data := Z.shiftl data shift in
          match output with
          | [] => None
          | o0 :: tl =>
              let o0' := (if output_bit_index =? 0 then Z.shiftr data (2 * bits_per_byte)
                          else Z.lor o0 (Z.shiftr data (2 * bits_per_byte))) mod 256 in
              let tl' :=
                if shift <? 2 * bits_per_byte then
                  match tl with
                  | [] => []
                  | _ :: tl2 =>
                      Z.land (Z.shiftr data bits_per_byte) (Z.shiftl 1 bits_per_byte - 1) ::
                      (if shift <? bits_per_byte then
                         match tl2 with
                         | [] => []
                         | _ :: tl3 => Z.land data (Z.shiftl 1 bits_per_byte - 1) :: tl3
                         end
                       else tl2)
                  end
                else tl in
              let next := output_bit_index + bits_per_code_point in
              let advance := Z.to_nat (next / bits_per_byte) in
              match decode_loop input' (next mod bits_per_byte) (skipn advance (o0' :: tl')) with
              | Some r => Some (firstn advance (o0' :: tl') ++ r)
              | None => None
              end
          end
      end
  end.

(** base/base32768_body.hpp:340-355. *)
Definition DecodedLength (input : list Z) : Z :=
  let n := Z.of_nat (length input) in
  let encoded_bits :=
    if (0 <? n) && CanEncode seven_blocks (last input 0)
    then (n - 1) * bits_per_code_point + bits_per_final_code_point
    else n * bits_per_code_point in
  encoded_bits / bits_per_byte.

(** base/base32768_body.hpp:330-338: [Decode] into a fresh array with uninitialized contents
    ([junk] gives the contents as a function of the position). *)
Definition Decode (junk : nat -> Z) (input : list Z) : option (list Z) :=
  let size := DecodedLength input in
  if 0 <? size then decode_loop input 0 (map junk (seq 0 (Z.to_nat size))) else Some [].
