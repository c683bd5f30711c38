(** Model of base/fingerprint2011.hpp. *)
From Coq Require Import ZArith List Lia.
Import ListNotations.
Open Scope Z_scope.

(** [std::uint64_t] wrap-around. *)
Definition u64 (x : Z) : Z := x mod 2 ^ 64.

(** base/fingerprint2011.hpp:31-41, [FingerprintCat2011]. *)
Definition FingerprintCat2011 (fp1 fp2 : Z) : Z :=
  let mul1 := 0xC6A4A7935BD1E995 in
  let mul2 := 0x228876A7198B743 in
  let a := u64 (u64 (fp1 * mul1) + u64 (fp2 * mul2)) in
  u64 (a + Z.shiftr (2 ^ 64 - 1 - a) 47).

(** Value of a [char] holding byte [b] when converted to [std::uint64_t] (x86-64 and AArch64-macOS: [char]
    is signed). *)
Definition char_to_u64 (b : Z) : Z := u64 (if b <? 128 then b else b - 256).

(** Little-endian read of 8 bytes (the reinterpret_cast of line 52). *)
Fixpoint le (l : list Z) : Z :=
  match l with [] => 0 | b :: l' => b + 256 * le l' end.

(** base/fingerprint2011.hpp:50-54, the loop on blocks of 8 bytes; [bytes] are values in [0, 256).
    Driven by fuel, which [length bytes] units always suffice for. *)
Fixpoint fp_bulk (fuel : nat) (fp : Z) (bytes : list Z) : Z * list Z :=
  match fuel with
  | O => (fp, bytes)
  | S f =>
      if (8 <=? length bytes)%nat
      then fp_bulk f (FingerprintCat2011 fp (le (firstn 8 bytes))) (skipn 8 bytes)
      else (fp, bytes)
  end.

(** base/fingerprint2011.hpp:46-64, [Fingerprint2011]. *)
Definition Fingerprint2011 (bytes : list Z) : Z :=
  let '(fp, rest) := fp_bulk (length bytes) 0xA5B85C5E198ED849 bytes in
  let last_bytes :=
    fold_left (fun acc b => u64 (Z.shiftl (u64 (acc + char_to_u64 b)) 8)) rest 0 in
  FingerprintCat2011 fp last_bytes.
