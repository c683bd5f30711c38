(** C13: Complexification and complex arithmetic. *)
From Coq Require Import Reals Lra.
From Verif Require Import Geometry_Model Geometry_Proofs Complex_Model Complex_Proofs.
Open Scope R_scope.

(** Sums, the opposite and differences (except real minus complex) are those of the plane similarities. *)
Theorem C13_sums : forall r z w,
  mat (c_add z w) = m2_add (mat z) (mat w) /\ mat (rc_add r z) = m2_add (rmat r) (mat z) /\
  mat (cr_add z r) = m2_add (mat z) (rmat r) /\ mat (c_opp z) = m2_opp (mat z).
Proof. exact sums. Qed.
Print Assumptions C13_sums.
Theorem C13_differences : forall r z w,
  mat (c_sub z w) = m2_add (mat z) (m2_opp (mat w)) /\ mat (cr_sub z r) = m2_add (mat z) (m2_opp (rmat r)).
Proof. exact differences. Qed.
Print Assumptions C13_differences.

(** Products compose the similarities; quotients undo them. *)
Theorem C13_products : forall r z w,
  mat (c_mul z w) = m2_mul (mat z) (mat w) /\ mat (rc_mul r z) = m2_mul (rmat r) (mat z) /\ mat (cr_mul z r) = m2_mul (mat z) (rmat r).
Proof. exact products. Qed.
Print Assumptions C13_products.
Theorem C13_quotients : forall r z w, w <> c_of_real 0 ->
  m2_mul (mat (c_div z w)) (mat w) = mat z /\ m2_mul (mat (rc_div r w)) (mat w) = rmat r.
Proof. exact quotients. Qed.
Print Assumptions C13_quotients.
Theorem C13_quotient_real : forall r z, r <> 0 -> m2_mul (mat (cr_div z r)) (rmat r) = mat z.
Proof. exact quotient_real. Qed.
Print Assumptions C13_quotient_real.
Theorem C13_faithful : forall z w, mat z = mat w -> z = w.
Proof. exact mat_inj. Qed.
Print Assumptions C13_faithful.

Theorem C13_conjugation : forall z w,
  mat (c_conj z) = m2_transpose (mat z) /\ c_norm2 z = m2_det (mat z) /\
  c_conj (c_mul z w) = c_mul (c_conj z) (c_conj w) /\ c_mul z (c_conj z) = c_of_real (c_norm2 z) /\
  c_norm2 (c_mul z w) = c_norm2 z * c_norm2 w.
Proof. exact conjugation. Qed.
Print Assumptions C13_conjugation.

(** The inner product is Hermitian, linear on the left and definite. *)
Theorem C13_inner_product : forall a u v w,
  c3_inner (c3_add u v) w = c_add (c3_inner u w) (c3_inner v w) /\
  c3_inner (c3_scal a u) w = c_mul a (c3_inner u w) /\
  c3_inner u w = c_conj (c3_inner w u) /\
  c3_inner u u = c_of_real (c3_norm2 u).
Proof. exact inner. Qed.
Print Assumptions C13_inner_product.
Theorem C13_definite : forall u, 0 <= c3_norm2 u /\ (c3_norm2 u = 0 -> u = mkC3 zero3 zero3).
Proof. exact inner_definite. Qed.
Print Assumptions C13_definite.

(** The claim for real - z fails for every z that is not real. *)
Theorem C13_real_minus_complex_refuted : forall r z,
  (mat (rc_sub r z) = m2_add (rmat r) (m2_opp (mat z)) <-> cimag z = 0) /\
  (cimag z <> 0 -> rc_sub r z <> c_opp (cr_sub z r)).
Proof.
  intros r z. split; [apply rc_sub_when|]. intros H E. apply (f_equal cimag) in E. destruct z. cbn in *. lra.
Qed.
Print Assumptions C13_real_minus_complex_refuted.

(** (1 + 2i)(3 - i) = 5 + 5i, (5 + 5i) / (3 - i) = 1 + 2i, but 1 - i is computed as 1 + i. *)
Example C13_example : c_mul (mkCx 1 2) (mkCx 3 (-1)) = mkCx 5 5 /\ c_div (mkCx 5 5) (mkCx 3 (-1)) = mkCx 1 2 /\
  rc_sub 1 (mkCx 0 1) = mkCx 1 1.
Proof. repeat split; m2; f_equal; (ring || field). Qed.
