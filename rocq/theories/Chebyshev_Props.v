(** C24: evaluation of polynomials in the Чебышёв basis.  C59: their real roots. *)
From Coq Require Import Bool List Arith Reals Lra Lia.
From Verif Require Import Chebyshev_Model Chebyshev_Proofs.
Import ListNotations.
Open Scope R_scope.

(** The value of a series at [t] is the sum of [a_k T_k(x)] where [x] is [t] brought to [-1, 1]; [T_k] is given by its recurrence, and is what it should be: *)
Theorem C24_basis : forall n a, T n (cos a) = cos (INR n * a).
Proof. exact T_cos. Qed.
Print Assumptions C24_basis.
Example value_spec : forall s t, value s t =
  sum_f_R0 (fun k => nth k (coefficients s) 0 * T k ((2 * t - lower_bound s - upper_bound s) / (upper_bound s - lower_bound s))) (Nat.pred (length (coefficients s))).
Proof. reflexivity. Qed.
Theorem C24_evaluate : forall s t, lower_bound s <> upper_bound s -> evaluate s t = value s t.
Proof. exact evaluate_value. Qed.
Print Assumptions C24_evaluate.
(** Missing: the series of degree 0, for which the code reads out of bounds. *)
Theorem C24_derivative_partial : forall s t, lower_bound s <> upper_bound s -> (1 <= degree s)%nat ->
  exists d, EvaluateDerivative s t = Some d /\ derivable_pt_lim (value s) t d.
Proof. exact EvaluateDerivative_derivative. Qed.
Print Assumptions C24_derivative_partial.
Theorem C24_derivative_degree_0_refuted : forall c a b t, EvaluateDerivative (Series [c] a b) t = None.
Proof. exact EvaluateDerivative_constant. Qed.
Print Assumptions C24_derivative_degree_0_refuted.

(** Any function within [error] of the series has no zeros between the bounds if the test says so. *)
Theorem C59_zero_free : forall s error f, lower_bound s < upper_bound s -> MayHaveRealRoots s error = Some false ->
  (forall t, lower_bound s <= t <= upper_bound s -> Rabs (f t - value s t) <= error) -> forall t, lower_bound s <= t <= upper_bound s -> f t <> 0.
Proof. exact zero_free. Qed.
Print Assumptions C59_zero_free.
Theorem C59_companion : forall s x, (2 <= degree s)%nat -> coefficient (degree s) s <> 0 ->
  (eigenvalue (degree s) (FrobeniusCompanionMatrix s) x <-> scaled_value s x = 0).
Proof. exact companion_eigenvalues. Qed.
Print Assumptions C59_companion.
(** Missing: the series of degree 1. *)
Theorem C59_real_roots_partial : forall s eigenvalues, lower_bound s < upper_bound s -> (2 <= degree s)%nat -> coefficient (degree s) s <> 0 ->
  (forall x, In x eigenvalues <-> eigenvalue (degree s) (FrobeniusCompanionMatrix s) x) ->
  forall t, In t (RealRoots s eigenvalues) <-> lower_bound s <= t <= upper_bound s /\ value s t = 0.
Proof. exact real_roots. Qed.
Print Assumptions C59_real_roots_partial.
(** In degree 1 the matrix has one eigenvalue, half of the root; the series given by [1 + 2 x] on [-1, 1] has its root at -1/2, and RealRoots gives -1/4. *)
Theorem C59_degree_1_refuted : exists s,
  lower_bound s < upper_bound s /\ degree s = 1%nat /\ coefficient (degree s) s <> 0 /\
  (forall x, In x [-1/4] <-> eigenvalue (degree s) (FrobeniusCompanionMatrix s) x) /\
  MayHaveRealRoots s 0 = Some true /\ In (-1/4) (RealRoots s [-1/4]) /\ value s (-1/4) <> 0 /\ value s (-1/2) = 0 /\ ~ In (-1/2) (RealRoots s [-1/4]).
Proof.
  exists (Series [1; 2] (-1) 1). unfold degree; cbn [coefficients lower_bound upper_bound length Nat.pred].
  assert (R : RealRoots (Series [1; 2] (-1) 1) [-1/4] = [-1/4]).
  { unfold RealRoots. cbn [lower_bound upper_bound filter]. rewrite (proj2 (Rleb_spec (-1) (-1/4))) by lra. rewrite (proj2 (Rleb_spec (-1/4) 1)) by lra. cbn. f_equal. field. }
  assert (V : forall t, value (Series [1; 2] (-1) 1) t = 1 + 2 * t) by (intros t; unfold value, scaled_value, position; cbn; field).
  split; [lra | ]. split; [reflexivity | ]. split; [cbn; lra | ]. split.
  - intros x. rewrite companion_linear by lra. cbn. split; [intros [<- | []]; field | intros ->; left; field].
  - split; [ | rewrite R, !V; split; [left; reflexivity | split; [lra | split; [lra | intros [E | []]; lra]]]].
    unfold MayHaveRealRoots. rewrite (proj2 (Rleb_spec 0 0)) by lra. f_equal. apply Rleb_spec. cbn. rewrite !Rabs_right by lra. lra.
Qed.
Print Assumptions C59_degree_1_refuted.
Theorem C59_degree_1_eigenvalue : forall a0 a1 a b x, a1 <> 0 -> (eigenvalue 1 (FrobeniusCompanionMatrix (Series [a0; a1] a b)) x <-> x = - a0 / a1 / 2).
Proof. exact companion_linear. Qed.
Print Assumptions C59_degree_1_eigenvalue.

(** Examples: [2 - 3 T_1 + T_2 + T_3] over [0, 4]. *)
Definition example := Series [2; -3; 1; 1] 0 4.
Example example_value : evaluate example 3 = -1.
Proof. unfold evaluate, example, scaled_argument, one_over_width, width, degree, coefficient; cbn. field. Qed.
Example example_derivative : EvaluateDerivative example 3 = Some (-1/2).
Proof. unfold EvaluateDerivative, example, scaled_argument, one_over_width, width, degree, coefficient, at_index; cbn. f_equal. field. Qed.
(** T_2 has the roots of 2 x^2 - 1. *)
Example example_roots : eigenvalue 2 (FrobeniusCompanionMatrix (Series [0; 0; 1] 0 1)) (sqrt 2 / 2).
Proof.
  pose proof (C59_companion (Series [0; 0; 1] 0 1) (sqrt 2 / 2) ltac:(cbn; lia) ltac:(cbn; lra)) as H. apply H. unfold scaled_value, T; cbn.
  replace (0 * 1 + 0 * (sqrt 2 / 2) + 1 * (2 * (sqrt 2 / 2) * (sqrt 2 / 2) - 1)) with ((sqrt 2 * sqrt 2 - 2) / 2) by field. rewrite sqrt_sqrt by lra. lra.
Qed.
Example example_zero_free : MayHaveRealRoots (Series [3; 1; -1] 0 1) (1/2) = Some false.
Proof.
  unfold MayHaveRealRoots. rewrite (proj2 (Rleb_spec 0 (1/2))) by lra. cbn. f_equal. unfold coefficient; cbn. unfold Rabs.
  repeat (destruct (Rcase_abs _); try lra); unfold Rleb; destruct (Rle_dec _ _); try reflexivity; lra.
Qed.
