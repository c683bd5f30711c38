(** C01, C02: theorems about base/bits_body.hpp. *)
From Coq Require Import ZArith List Lia.
From Verif Require Import Bits_Model Bits_Proofs.
Import ListNotations.
Open Scope Z_scope.

(** C01.  [rev] is the independent bit-by-bit reversal of Bits_Proofs.v. *)
Theorem C01_bit_reversed_increment :
  forall (b : nat) (n : Z), (0 < b < 32)%nat -> 0 <= n < 2 ^ Z.of_nat b ->
  exists m, BitReversedIncrement n (Z.of_nat b) = Some m /\
            0 <= m < 2 ^ Z.of_nat b /\
            rev b m = (rev b n + 1) mod 2 ^ Z.of_nat b.
Proof. exact bri_correct. Qed.
Print Assumptions C01_bit_reversed_increment.

Example C01_example : BitReversedIncrement 0xE 4 = Some 1 /\ rev 4 0xE = 7 /\ rev 4 1 = 8.
Proof. vm_compute. auto. Qed.

Theorem C01_iteration_is_bit_reversal :
  forall (b k : nat), (0 < b < 32)%nat -> bri_iter (Z.of_nat b) k = Some (rev b (Z.of_nat k)).
Proof. exact bri_iter_correct. Qed.
Print Assumptions C01_iteration_is_bit_reversal.

(** Each index in range is visited exactly once during the first 2^b iterations. *)
Theorem C01_visits_every_index_once :
  forall (b : nat) (n : Z), (0 < b < 32)%nat -> 0 <= n < 2 ^ Z.of_nat b ->
  exists! k : nat, Z.of_nat k < 2 ^ Z.of_nat b /\ bri_iter (Z.of_nat b) k = Some n.
Proof. exact visits_every_index_once. Qed.
Print Assumptions C01_visits_every_index_once.

(** The sequence printed in the comment of bits.hpp for 4 bits. *)
Example C01_example_sequence :
  map (bri_iter 4) (seq 0 17) =
  map Some [0; 8; 4; 0xC; 2; 0xA; 6; 0xE; 1; 9; 5; 0xD; 3; 0xB; 7; 0xF; 0].
Proof. vm_compute. reflexivity. Qed.

(** C02 for the whole domain of [std::int64_t]. *)
Theorem C02_floor_log2 :
  forall n, 1 <= n < 2 ^ 63 ->
  exists r, FloorLog2 n = Some r /\ 0 <= r /\ 2 ^ r <= n < 2 ^ (r + 1).
Proof. exact floor_log2_correct. Qed.
Print Assumptions C02_floor_log2.

Theorem C02_power_of_2_le :
  forall n, 1 <= n < 2 ^ 63 ->
  exists p, PowerOf2Le n = Some p /\ (exists r, 0 <= r /\ p = 2 ^ r) /\ p <= n /\
            (forall r, 0 <= r -> 2 ^ r <= n -> 2 ^ r <= p).
Proof. exact power_of_2_le_correct. Qed.
Print Assumptions C02_power_of_2_le.

Example C02_example :
  FloorLog2 8 = Some 3 /\ FloorLog2 7 = Some 2 /\ PowerOf2Le 8 = Some 8 /\ PowerOf2Le 7 = Some 4.
Proof. vm_compute. auto. Qed.
