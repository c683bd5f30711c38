(** C11: equality of arrays. *)
From Coq Require Import ZArith List.
From Verif Require Import Array_Model Array_Proofs.
Import ListNotations.
Open Scope Z_scope.

(** Holds for one-byte elements. *)
Theorem C11_byte_array_equality_partial :
  forall l r, Forall (fun x => 0 <= x < 256) l -> Forall (fun x => 0 <= x < 256) r ->
  (array_eq 1 1 l r = true <-> l = r).
Proof. exact array_eq_bytes. Qed.
Print Assumptions C11_byte_array_equality_partial.

(** Fails for every larger element size: different arrays compare equal. *)
Theorem C11_wide_array_equality_refuted :
  forall w, (2 <= w)%nat ->
  exists l r, Forall (fun x => 0 <= x < 256 ^ Z.of_nat w) l /\ Forall (fun x => 0 <= x < 256 ^ Z.of_nat w) r /\
    l <> r /\ array_eq w w l r = true.
Proof. exact array_eq_wide_wrong. Qed.
Print Assumptions C11_wide_array_equality_refuted.

Theorem C11_equal_arrays_compare_equal : forall w l, array_eq w w l l = true.
Proof. exact array_eq_complete. Qed.
Print Assumptions C11_equal_arrays_compare_equal.

(** Two different UTF-16 texts that compare equal. *)
Example C11_example :
  array_eq 2 2 [0x61; 0x62; 0x63] [0x61; 0x62; 0x64] = true /\ array_eq 1 1 [0x61; 0x62] [0x61; 0x63] = false.
Proof. vm_compute. auto. Qed.
