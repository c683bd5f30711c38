(** The complex numbers as 2x2 real matrices, and the operators of Complexification as operations on them. *)
From Coq Require Import Reals Lra.
From Verif Require Import Geometry_Model Geometry_Proofs Complex_Model.
Open Scope R_scope.

(** * Specification *)
Record M2 := mk2 { m00 : R; m01 : R; m10 : R; m11 : R }.
Definition m2_add a b := mk2 (m00 a + m00 b) (m01 a + m01 b) (m10 a + m10 b) (m11 a + m11 b).
Definition m2_opp a := mk2 (- m00 a) (- m01 a) (- m10 a) (- m11 a).
Definition m2_mul a b := mk2 (m00 a * m00 b + m01 a * m10 b) (m00 a * m01 b + m01 a * m11 b)
                             (m10 a * m00 b + m11 a * m10 b) (m10 a * m01 b + m11 a * m11 b).
Definition m2_transpose a := mk2 (m00 a) (m10 a) (m01 a) (m11 a).
Definition m2_det a := m00 a * m11 a - m01 a * m10 a.
(** A complex number acts on the plane by a similarity; a real number by a homothety. *)
Definition mat (z : C) : M2 := mk2 (creal z) (- cimag z) (cimag z) (creal z).
Definition rmat (r : R) : M2 := mk2 r 0 0 r.

Ltac m2 := repeat match goal with z : C |- _ => destruct z | v : C3 |- _ => destruct v end;
  cbv [mat rmat m2_add m2_opp m2_mul m2_transpose m2_det c_conj c_norm2 c_opp rc_add cr_add c_add rc_sub cr_sub c_sub rc_mul cr_mul
       c_mul rc_div cr_div c_div c_of_real c3_add c3_scal c3_inner c3_norm2 m00 m01 m10 m11 creal cimag vreal vimag] in *.

Lemma mat_inj z w : mat z = mat w -> z = w.
Proof. m2. intros H. injection H as E1 E2 E3. now subst. Qed.
Lemma sums r z w :
  mat (c_add z w) = m2_add (mat z) (mat w) /\ mat (rc_add r z) = m2_add (rmat r) (mat z) /\
  mat (cr_add z r) = m2_add (mat z) (rmat r) /\ mat (c_opp z) = m2_opp (mat z).
Proof. m2. repeat split; f_equal; ring. Qed.
Lemma differences r z w :
  mat (c_sub z w) = m2_add (mat z) (m2_opp (mat w)) /\ mat (cr_sub z r) = m2_add (mat z) (m2_opp (rmat r)).
Proof. m2. repeat split; f_equal; ring. Qed.
Lemma rc_sub_when r z : mat (rc_sub r z) = m2_add (rmat r) (m2_opp (mat z)) <-> cimag z = 0.
Proof. m2. split; [intros H; injection H; lra | intros ->; f_equal; ring]. Qed.
Lemma products r z w :
  mat (c_mul z w) = m2_mul (mat z) (mat w) /\ mat (rc_mul r z) = m2_mul (rmat r) (mat z) /\ mat (cr_mul z r) = m2_mul (mat z) (rmat r).
Proof. m2. repeat split; f_equal; ring. Qed.
Lemma nonzero_norm a b : mkCx a b <> c_of_real 0 -> a * a + b * b <> 0.
Proof.
  intros H E. apply H. pose proof (Rle_0_sqr a). pose proof (Rle_0_sqr b). unfold Rsqr in *.
  assert (A : a * a = 0) by lra. assert (B : b * b = 0) by lra.
  apply Rmult_integral in A. apply Rmult_integral in B. unfold c_of_real. f_equal; tauto.
Qed.
Lemma quotients r z w : w <> c_of_real 0 ->
  m2_mul (mat (c_div z w)) (mat w) = mat z /\ m2_mul (mat (rc_div r w)) (mat w) = rmat r.
Proof. destruct w as [a b]. intros H. apply nonzero_norm in H. m2. split; f_equal; field; auto. Qed.
Lemma quotient_real r z : r <> 0 -> m2_mul (mat (cr_div z r)) (rmat r) = mat z.
Proof. intros H. m2. f_equal; field; auto. Qed.
Lemma conjugation z w :
  mat (c_conj z) = m2_transpose (mat z) /\ c_norm2 z = m2_det (mat z) /\
  c_conj (c_mul z w) = c_mul (c_conj z) (c_conj w) /\ c_mul z (c_conj z) = c_of_real (c_norm2 z) /\
  c_norm2 (c_mul z w) = c_norm2 z * c_norm2 w.
Proof. m2. repeat split; first [ring | f_equal; ring]. Qed.

Lemma inner a u v w :
  c3_inner (c3_add u v) w = c_add (c3_inner u w) (c3_inner v w) /\
  c3_inner (c3_scal a u) w = c_mul a (c3_inner u w) /\
  c3_inner u w = c_conj (c3_inner w u) /\
  c3_inner u u = c_of_real (c3_norm2 u).
Proof. m2. d3. red_all. repeat split; f_equal; ring. Qed.
Lemma inner_definite u : 0 <= c3_norm2 u /\ (c3_norm2 u = 0 -> u = mkC3 zero3 zero3).
Proof.
  destruct u as [r i]. unfold c3_norm2. cbn [vreal vimag]. pose proof (norm2_nonneg r). pose proof (norm2_nonneg i).
  split; [lra|]. intros E. f_equal.
  - destruct (Req_dec (cx r) 0), (Req_dec (cy r) 0), (Req_dec (cz r) 0); try (destruct r; red_all; now subst);
    exfalso; assert (N : r <> zero3) by (intros ->; unfold zero3 in *; cbn in *; tauto);
    apply Geometry_Proofs.norm2_pos in N; lra.
  - destruct (Req_dec (cx i) 0), (Req_dec (cy i) 0), (Req_dec (cz i) 0); try (destruct i; red_all; now subst);
    exfalso; assert (N : i <> zero3) by (intros ->; unfold zero3 in *; cbn in *; tauto);
    apply Geometry_Proofs.norm2_pos in N; lra.
Qed.
