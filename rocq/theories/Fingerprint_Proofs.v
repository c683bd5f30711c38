From Coq Require Import ZArith List Lia.
From Verif Require Import Fingerprint_Model.
Open Scope Z_scope.
Ltac Zify.zify_post_hook ::= Z.div_mod_to_equations.

Lemma finalizer a : 0 <= a < 2 ^ 64 -> 2 <= u64 (a + Z.shiftr (2 ^ 64 - 1 - a) 47) < 2 ^ 64.
Proof.
  intros Ha. rewrite Z.shiftr_div_pow2 by lia. unfold u64.
  change (2 ^ 64) with 18446744073709551616 in *. change (2 ^ 47) with 140737488355328.
  rewrite Z.mod_small by lia. lia.
Qed.

Lemma cat_range fp1 fp2 : 2 <= FingerprintCat2011 fp1 fp2 < 2 ^ 64.
Proof. unfold FingerprintCat2011. apply finalizer. apply Z.mod_pos_bound. reflexivity. Qed.

Lemma fingerprint_range bytes : 2 <= Fingerprint2011 bytes < 2 ^ 64.
Proof. unfold Fingerprint2011. destruct (fp_bulk _ _ _). apply cat_range. Qed.
