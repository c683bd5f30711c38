(* C82: the factorizations of symmetric matrices, the orthogonalization, and the iteration
   of Rayleigh. *)
From Coq Require Import Reals Bool Arith Lra Lia.
From Verif Require Import Eigen_Model Eigen_Spec Eigen_Proofs Cholesky_Model Cholesky_Spec Cholesky_Proofs.
Local Open Scope R_scope.

(* Whenever the decomposition of Cholesky produces numbers, whatever the storage that it
   starts from, its result is an upper triangular matrix with a nonnegative diagonal, and it
   is a factor of the symmetric matrix of which A is the upper half. *)
Theorem C82_cholesky : forall n A junk r,
  CholeskyDecomposition n A junk = Some r ->
  meq n (rmul n (transpose (upper r)) (upper r)) (whole A) /\
  forall i, (i < n)%nat -> 0 <= r i i.
Proof.
  intros n A junk r E. destruct (cholesky_spec n A junk r E) as (H1 & H2 & _).
  split; [|exact H2]. intros i j Hi Hj. rewrite (elements_factored n A r _ H1 i j Hi Hj).
  unfold rmul, transpose. apply rsum_ext. intros; ring.
Qed.

(* It does produce numbers, and the diagonal is positive, if the matrix is positive
   definite... *)
Theorem C82_cholesky_total : forall n A junk, positive_definite n (whole A) ->
  exists r, CholeskyDecomposition n A junk = Some r /\ forall i, (i < n)%nat -> 0 < r i i.
Proof. exact cholesky_total. Qed.

(* ... and only then. *)
Theorem C82_cholesky_converse : forall n A junk r,
  CholeskyDecomposition n A junk = Some r -> (forall i, (i < n)%nat -> r i i <> 0) ->
  positive_definite n (whole A).
Proof.
  intros n A junk r E N. destruct (cholesky_spec n A junk r E) as (H1 & _).
  apply (positive_pivots n (whole A) (upper r) (fun _ => 1)).
  - apply elements_factored. exact H1.
  - apply upper_regular_upper. exact N.
  - intros; lra.
Qed.

(* The comment at matrix_computations_body.hpp:676 says that NaNs are produced for the matrices
   that are not positive definite.  That is not so. *)
Theorem C82_semidefinite_refuted : exists A, ~ positive_definite 2 (whole A) /\
  forall junk, exists r, CholeskyDecomposition 2 A junk = Some r.
Proof.
  exists (fun _ _ => 1). split.
  - intros H. specialize (H (fun i => match i with O => 1 | _ => -1 end)).
    assert (0 < form 2 (whole (fun _ _ => 1)) (fun i => match i with O => 1 | _ => -1 end)) as X.
    { apply H. exists 0%nat. split; [lia|lra]. }
    unfold form, whole in X. cbn [rsum] in X. lra.
  - intros junk. unfold CholeskyDecomposition. cbn [iterate]. unfold cholesky_column at 1.
    cbn [iterate rsum]. unfold square_root at 1. destruct (Rlt_dec (1 - 0) 0); [lra|].
    unfold cholesky_column. cbn [iterate]. unfold cholesky_element. cbn [rsum].
    rewrite set2_same. rewrite divide_total by (replace (1 - 0) with 1 by ring; rewrite sqrt_1; lra).
    unfold square_root. rewrite set2_same.
    replace ((1 - 0) / sqrt (1 - 0)) with 1 by (replace (1 - 0) with 1 by ring; rewrite sqrt_1; field).
    destruct (Rlt_dec _ 0); [lra|]. eexists. reflexivity.
Qed.

(* Whenever the decomposition ᵗR D R produces numbers, R is an upper triangular matrix with
   ones on its diagonal, D is diagonal, and the product is the symmetric matrix. *)
Theorem C82_rdr : forall n A junk r d,
  RDRDecomposition n A junk = Some (r, d) ->
  meq n (rmul n (transpose (upper r)) (rmul n (diagonal d) (upper r))) (whole A) /\
  forall i, (i < n)%nat -> r i i = 1.
Proof.
  intros n A junk r d E. destruct (rdr_spec n A junk r d E) as (H1 & H2 & _).
  split; [|exact H2]. intros i j Hi Hj.
  rewrite (elements_factored n A r d (rows_elements n n A r d (le_n n) H1) i j Hi Hj).
  unfold rmul, transpose. apply rsum_ext. intros k Hk. rewrite Rmult_assoc. f_equal.
  unfold diagonal. rewrite (rsum_single n k); [rewrite Nat.eqb_refl; reflexivity|exact Hk|].
  intros l Hl N. destruct (Nat.eqb_spec k l); [congruence|ring].
Qed.

(* It does, with a positive D, for the positive definite matrices; and the matrices with a
   positive D are positive definite. *)
Theorem C82_rdr_total : forall n A junk, positive_definite n (whole A) ->
  exists r d, RDRDecomposition n A junk = Some (r, d) /\ forall i, (i < n)%nat -> 0 < d i.
Proof. exact rdr_total. Qed.

Theorem C82_rdr_converse : forall n A junk r d,
  RDRDecomposition n A junk = Some (r, d) -> (forall i, (i < n)%nat -> 0 < d i) ->
  positive_definite n (whole A).
Proof.
  intros n A junk r d E D. destruct (rdr_spec n A junk r d E) as (H1 & H2 & _).
  apply (positive_pivots n (whole A) (upper r) d).
  - apply elements_factored. apply (rows_elements n n); [lia|exact H1].
  - apply upper_regular_upper. intros i Hi. rewrite H2 by exact Hi. lra.
  - exact D.
Qed.

(* But not for all the symmetric matrices, contrary to the comment at
   matrix_computations.hpp:97-98: this one is not even singular. *)
Theorem C82_rdr_refuted : exists A,
  (forall x, (forall i, (i < 2)%nat -> rapply 2 (whole A) x i = 0) -> x 0%nat = 0 /\ x 1%nat = 0) /\
  (forall junk, RDRDecomposition 2 A junk = None).
Proof.
  exists (fun i j => if (i =? j)%nat then 0 else 1). split.
  - intros x H. pose proof (H 0%nat ltac:(lia)) as H0. pose proof (H 1%nat ltac:(lia)) as H1.
    unfold rapply, whole in H0, H1. cbn [rsum Nat.eqb Nat.min Nat.max] in H0, H1. split; lra.
  - intros [r d]. unfold RDRDecomposition. cbn [iterate]. unfold rdr_row at 1.
    cbn [iterate Nat.add Nat.sub]. unfold rdr_element at 1. rewrite set1_same. cbn [rsum Nat.eqb].
    unfold divide. destruct (Req_EM_T (0 - 0) 0); [reflexivity|lra].
Qed.

(* Whenever the orthogonalization of Gram and Schmidt produces numbers, the columns of Q are
   orthonormal, R is upper triangular with a positive diagonal, and A = Q R. *)
Theorem C82_gram_schmidt : forall n A junk q r,
  ClassicalGramSchmidt n A junk = Some (q, r) ->
  orthonormal_columns n q /\ meq n (rmul n q (upper r)) A /\
  forall i, (i < n)%nat -> 0 < r i i.
Proof.
  intros n A junk q r E. destruct (gs_spec n A junk (q, r) E) as (H1 & H2 & H3). cbn [fst snd] in *.
  split; [|split; [|exact H3]].
  - intros a b Ha Hb. exact (H1 a b Ha Hb).
  - intros i b Hi Hb. rewrite (H2 i b Hi Hb). unfold rmul. rewrite (rsum_trunc n (S b)).
    + apply rsum_ext. intros k Hk. unfold upper. destruct (Nat.leb_spec k b); [reflexivity|lia].
    + lia.
    + intros k Hk. unfold upper. destruct (Nat.leb_spec k b); [lia|ring].
Qed.

(* It does, if and only if the columns of the matrix are independent. *)
Theorem C82_gram_schmidt_total : forall n A junk,
  independent_columns n A <-> exists s, ClassicalGramSchmidt n A junk = Some s.
Proof.
  intros n A junk. split; [apply gs_total|]. intros ([q r] & E).
  destruct (C82_gram_schmidt n A junk q r E) as (HO & HF & HP).
  intros x HX. apply (triangular_injective n (upper r) x).
  { apply upper_regular_upper. intros i Hi. specialize (HP i Hi). lra. }
  intros a Ha.
  transitivity (rsum n (fun i => q i a * rapply n A x i)).
  - symmetry. rewrite (rsum_ext n _ (fun i => rsum n (fun k => q i a * q i k * rapply n (upper r) x k))).
    + rewrite rsum_exchange. rewrite (rsum_ext n _ (fun k => delta a k * rapply n (upper r) x k)).
      * apply rsum_delta_l. exact Ha.
      * intros k Hk. rewrite rsum_scale_r. f_equal. exact (HO a k Ha Hk).
    + intros i Hi. unfold rapply at 1.
      rewrite (rsum_ext n _ (fun j => rsum n (fun k => q i k * (upper r k j * x j)))).
      * rewrite rsum_exchange, <- rsum_scale. apply rsum_ext. intros k Hk. rewrite rsum_scale.
        unfold rapply. ring.
      * intros j Hj. rewrite <- (HF i j Hi Hj). unfold rmul. rewrite <- rsum_scale_r.
        apply rsum_ext. intros; ring.
  - apply rsum_0. intros i Hi. rewrite HX by exact Hi. ring.
Qed.

(* The iteration of Rayleigh: the result is a unit vector.  If it is returned by the test of
   convergence, the eigenvalue is the Rayleigh quotient of the vector, which is the best one
   for it, and the residual is below the threshold.  If it is returned because there were too
   many iterations, the eigenvalue is not that of the vector: it is the Rayleigh quotient of
   the previous vector. *)
Theorem C82_rayleigh : forall solve threshold iterations n A x junk x' mu,
  RayleighQuotientIteration solve threshold (S iterations) n A x junk = Some (x', mu) ->
  unit n x' /\
  ((mu = form n A x' /\ sqrt (residual2 n A x' mu) < threshold /\
    forall m, residual2 n A x' mu <= residual2 n A x' m) \/
   (exists y z, unit n y /\ mu = form n A y /\ threshold <= sqrt (residual2 n A y mu) /\
      solve (shift A mu) y = Some z /\ normalize n z = Some x')).
Proof.
  intros solve threshold iterations n A x junk x' mu E. unfold RayleighQuotientIteration in E.
  destruct (normalize n x) as [y|] eqn:EN; [|discriminate].
  destruct (rayleigh_loop_spec _ _ _ _ _ _ _ _ _ (normalize_unit n x y EN) E) as (U & [C|[C|C]]).
  - split; [exact U|]. left. destruct C as [C1 C2]. split; [exact C1|]. split; [exact C2|].
    intros m. rewrite C1. apply residual2_minimal. exact U.
  - destruct C as [C _]. discriminate.
  - split; [exact U|]. right. exact C.
Qed.

(* An eigenvector is returned, normalized, with its exact eigenvalue. *)
Theorem C82_rayleigh_eigenvector : forall solve threshold iterations n A x junk lambda,
  0 < threshold -> nonzero n x -> (forall i, (i < n)%nat -> rapply n A x i = lambda * x i) ->
  exists c, 0 < c /\
    RayleighQuotientIteration solve threshold (S iterations) n A x junk
    = Some (fun i => x i / c, lambda).
Proof.
  intros solve threshold iterations n A x junk lambda T (k & Hk & N) H.
  set (c := sqrt (rsum n (fun i => x i * x i))).
  assert (P : 0 < c).
  { apply sqrt_lt_R0. destruct (Rle_lt_or_eq_dec 0 (rsum n (fun i => x i * x i))) as [X|X].
    - apply rsum_nonneg. intros i _. nra.
    - exact X.
    - exfalso. apply N.
      pose proof (rsum_zero_nonneg n (fun i => x i * x i) ltac:(intros; nra) (eq_sym X) k Hk) as Y.
      cbv beta in Y. nra. }
  exists c. split; [exact P|]. unfold RayleighQuotientIteration.
  assert (EN : normalize n x = Some (fun i => x i / c)).
  { unfold normalize. fold c. destruct (Req_EM_T c 0); [lra|reflexivity]. }
  rewrite EN. apply rayleigh_eigenvector; [apply (normalize_unit n x); exact EN|exact T|].
  intros i Hi. unfold rapply.
  rewrite (rsum_ext n _ (fun j => / c * (A i j * x j))) by (intros; unfold Rdiv; ring).
  rewrite rsum_scale. unfold rapply in H. rewrite H by exact Hi. unfold Rdiv. ring.
Qed.

(* However, matrix_computations.hpp:154 says that the eigenvector closest to x is returned.
   For diag(0, 1, -1) and (1, 1, 1), the Rayleigh quotient is exactly an eigenvalue without
   the vector being an eigenvector, so there is no solution for the next iterate... *)
Theorem C82_rayleigh_refuted : forall solve threshold iterations junk, sound 3 solve ->
  threshold <= 1 / 2 ->
  RayleighQuotientIteration solve threshold (S iterations) 3 D3 (fun _ => 1) junk = None.
Proof. intros. apply rayleigh_fails; [assumption|assumption|lia]. Qed.

(* ... and for (8, 12, 11), for which the closest eigenvector is the second one, any result
   is near the first one. *)
Theorem C82_closest_refuted : forall solve threshold iterations junk x' mu, sound 3 solve ->
  threshold <= 1 / 2 ->
  RayleighQuotientIteration solve threshold (S iterations) 3 D3 x3 junk = Some (x', mu) ->
  near x' /\ x3 0%nat < x3 1%nat /\ x3 2%nat < x3 1%nat.
Proof.
  intros solve threshold iterations junk x' mu S T E. split; [|unfold x3; lra].
  apply (rayleigh_far solve threshold (Datatypes.S iterations) junk x' mu S T); [lia|exact E].
Qed.

(* Examples. *)

(* The matrix ((4, 2), (2, 5)). *)
Definition A2 : rmatrix := fun i j => 
  match i, j with 0%nat, 0%nat => 4 | 1%nat, 1%nat => 5 | _, _ => 2 end.

Example cholesky_example : exists r,
  CholeskyDecomposition 2 A2 (fun _ _ => 17) = Some r /\
  r 0%nat 0%nat = 2 /\ r 0%nat 1%nat = 1 /\ r 1%nat 1%nat = 2 /\ r 1%nat 0%nat = 17.
Proof.
  assert (S4 : sqrt 4 = 2) by (replace 4 with (2 * 2) by ring; apply sqrt_square; lra).
  unfold CholeskyDecomposition. cbn [iterate]. unfold cholesky_column at 1.
  cbn [iterate rsum A2]. unfold square_root at 1. destruct (Rlt_dec (4 - 0) 0); [lra|].
  unfold cholesky_column. cbn [iterate]. unfold cholesky_element. cbn [rsum A2].
  rewrite set2_same. replace (4 - 0) with 4 by ring. rewrite S4.
  rewrite divide_total by lra. unfold square_root. rewrite set2_same.
  replace ((2 - 0) / 2) with 1 by field. replace (5 - (0 + 1 * 1)) with 4 by ring. rewrite S4.
  destruct (Rlt_dec 4 0); [lra|]. eexists. split; [reflexivity|].
  unfold set2. cbn [Nat.eqb]. repeat split; reflexivity.
Qed.

Example rdr_example : exists r d,
  RDRDecomposition 2 A2 (fun _ _ => 17, fun _ => 17) = Some (r, d) /\
  d 0%nat = 4 /\ d 1%nat = 4 /\ r 0%nat 1%nat = 1 / 2.
Proof.
  unfold RDRDecomposition. cbn [iterate]. unfold rdr_row at 1. cbn [iterate Nat.add Nat.sub].
  unfold rdr_element at 1. rewrite set1_same. cbn [rsum A2].
  rewrite divide_total by lra. unfold rdr_row. cbn [iterate Nat.add Nat.sub].
  eexists. eexists. split; [reflexivity|]. cbv [set1 set2 rsum A2 Nat.eqb andb].
  repeat split; field.
Qed.

(* The columns (3, 4) and (5, 0). *)
Definition B2 : rmatrix := fun i j => 
  match i, j with 0%nat, 0%nat => 3 | 1%nat, 0%nat => 4 | 0%nat, _ => 5 | _, _ => 0 end.

Example gram_schmidt_example : exists s, ClassicalGramSchmidt 2 B2 (fun _ _ => 17, fun _ _ => 17) = Some s.
Proof.
  apply C82_gram_schmidt_total. intros x H j Hj.
  pose proof (H 0%nat ltac:(lia)) as H0. pose proof (H 1%nat ltac:(lia)) as H1.
  unfold rapply in H0, H1. cbn [rsum B2] in H0, H1.
  destruct j as [|[|j]]; [lra|lra|lia].
Qed.

Example rayleigh_example : forall solve junk, exists c, 0 < c /\
  RayleighQuotientIteration solve (/ 2) 10 3 D3 (fun i => if (i =? 1)%nat then -3 else 0) junk
  = Some (fun i => (if (i =? 1)%nat then -3 else 0) / c, 1).
Proof.
  intros solve junk. apply C82_rayleigh_eigenvector; [lra| |].
  - exists 1%nat. split; [lia|]. cbn [Nat.eqb]. lra.
  - intros i Hi. unfold rapply, D3, diagonal. cbn [rsum].
    destruct i as [|[|[|i]]]; [| | |lia]; cbn [Nat.eqb]; ring.
Qed.

Print Assumptions C82_cholesky.
Print Assumptions C82_cholesky_total.
Print Assumptions C82_cholesky_converse.
Print Assumptions C82_semidefinite_refuted.
Print Assumptions C82_rdr.
Print Assumptions C82_rdr_total.
Print Assumptions C82_rdr_converse.
Print Assumptions C82_rdr_refuted.
Print Assumptions C82_gram_schmidt.
Print Assumptions C82_gram_schmidt_total.
Print Assumptions C82_rayleigh.
Print Assumptions C82_rayleigh_eigenvector.
Print Assumptions C82_rayleigh_refuted.
Print Assumptions C82_closest_refuted.
