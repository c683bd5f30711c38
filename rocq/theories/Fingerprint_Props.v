(** C05. *)
From Coq Require Import ZArith List Lia.
From Verif Require Import Fingerprint_Model Fingerprint_Proofs.
Import ListNotations.
Open Scope Z_scope.

Theorem C05_fingerprint_cat_not_0_1 : forall fp1 fp2, 2 <= FingerprintCat2011 fp1 fp2 < 2 ^ 64.
Proof. exact cat_range. Qed.
Print Assumptions C05_fingerprint_cat_not_0_1.

Theorem C05_fingerprint_not_0_1 : forall bytes : list Z, 2 <= Fingerprint2011 bytes < 2 ^ 64.
Proof. exact fingerprint_range. Qed.
Print Assumptions C05_fingerprint_not_0_1.

(** A case where the sum before finalization is 0, so that the finalizer matters. *)
Example C05_example : FingerprintCat2011 0 0 = 131071 /\ Fingerprint2011 [104; 101; 0xFF] <> 0.
Proof. vm_compute. split; [reflexivity | discriminate]. Qed.
