(** C23: evaluation and algebra of polynomials in the monomial basis. *)
From Coq Require Import ZArith NArith Bool List Reals Lra Lia.
From Verif Require Import Polynomial_Model Polynomial_Proofs.
Import ListNotations.
Open Scope R_scope.

(** The value of [c_0 + c_1 (x - o) + ... + c_d (x - o)^d] with [o] the origin is [value_at], a plain sum. *)
Example value_at_spec : forall p x, value_at p x = sum_f_R0 (fun i => nth i (coefficients p) 0 * (x - origin p) ^ i) (Nat.pred (length (coefficients p))).
Proof. reflexivity. Qed.

Theorem C23_evaluate : forall e fma p x, evaluate e fma p x = value_at p x.
Proof. exact (fun e fma p x => Evaluate_value e fma (coefficients p) (x - origin p)). Qed.
Print Assumptions C23_evaluate.
Theorem C23_evaluate_derivative : forall e fma p x, derivable_pt_lim (value_at p) x (evaluate_derivative e fma p x).
Proof. exact EvaluateDerivative_derivative. Qed.
Print Assumptions C23_evaluate_derivative.
Theorem C23_algebra : forall p q x,
  (forall r, plus p q = Some r -> value_at r x = value_at p x + value_at q x) /\
  (forall r, minus p q = Some r -> value_at r x = value_at p x - value_at q x) /\
  (forall r, times p q = Some r -> value_at r x = value_at p x * value_at q x) /\
  (forall s, value_at (scale s p) x = s * value_at p x) /\ (forall s, value_at (divide p s) x = value_at p x / s) /\
  value_at (negate p) x = - value_at p x /\
  (forall v, value_at (plus_constant p v) x = value_at p x + v /\ value_at (minus_constant p v) x = value_at p x - v /\ value_at (constant_minus v p) x = v - value_at p x) /\
  (forall higher, (degree (coefficients p) <= higher)%nat -> value_at (to_degree higher p) x = value_at p x).
Proof.
  exact (fun p q x => conj (fun r => plus_value p q r x) (conj (fun r => minus_value p q r x) (conj (fun r => times_value p q r x)
    (conj (fun s => scale_value s p x) (conj (fun s => divide_value s p x) (conj (negate_value p x)
    (conj (fun v => conj (plus_constant_value p v x) (conj (minus_constant_value p v x) (constant_minus_value p v x))) (fun h => to_degree_value h p x)))))))).
Qed.
Print Assumptions C23_algebra.
(** The operators on two polynomials fail just when the origins differ. *)
Lemma same_origin_defined : forall p q c, (exists r, same_origin p q c = Some r) <-> origin p = origin q.
Proof. intros p q c. unfold same_origin. destruct (Req_EM_T _ _) as [H | H]; split; [intros _; exact H | intros _; eexists; reflexivity | intros (r & E); discriminate | intros E; contradiction]. Qed.
Theorem C23_origins : forall p q, ((exists r, plus p q = Some r) <-> origin p = origin q) /\ ((exists r, minus p q = Some r) <-> origin p = origin q) /\ ((exists r, times p q = Some r) <-> origin p = origin q).
Proof. exact (fun p q => conj (same_origin_defined p q _) (conj (same_origin_defined p q _) (same_origin_defined p q _))). Qed.
Print Assumptions C23_origins.
Theorem C23_compose : forall p q x, exists r, Compose p q = Some r /\ value_at r x = value_at p (value_at q x).
Proof. exact Compose_value. Qed.
Print Assumptions C23_compose.
(** Missing: the degrees above 20, for which the binomial coefficients overflow. *)
Theorem C23_at_origin_partial : forall p o, (degree (coefficients p) <= 20)%nat ->
  exists q, AtOrigin p o = Some q /\ origin q = o /\ degree (coefficients q) = degree (coefficients p) /\ forall x, value_at q x = value_at p x.
Proof. exact AtOrigin_value. Qed.
Print Assumptions C23_at_origin_partial.
Theorem C23_at_origin_overflow_refuted : forall p o, (21 <= degree (coefficients p))%nat -> AtOrigin p o = None.
Proof. exact AtOrigin_overflow. Qed.
Print Assumptions C23_at_origin_overflow_refuted.
Theorem C23_primitive : forall p x, derivable_pt_lim (value_at (Primitive p)) x (value_at p x) /\ value_at (Primitive p) (origin p) = 0.
Proof. exact (fun p x => conj (Primitive_derivative p x) (Primitive_origin p)). Qed.
Print Assumptions C23_primitive.
(** The derivative of order [k] is the function differentiated [k] times. *)
Theorem C23_derivative : forall p,
  (forall q x, Derivative 0 p = Some q -> value_at q x = value_at p x) /\
  (forall k q r x, (S k <= degree (coefficients p))%nat -> Derivative k p = Some q -> Derivative (S k) p = Some r -> derivable_pt_lim (value_at q) x (value_at r x)) /\
  (forall k, (k <= degree (coefficients p) <= 20)%nat -> exists q, Derivative k p = Some q /\ degree (coefficients q) = (degree (coefficients p) - k)%nat).
Proof.
  exact (fun p => conj (fun q x => Derivative_0 p q x) (conj (fun k q r x => Derivative_S k p q r x) (fun k H => Derivative_defined k p (proj1 H) (proj2 H)))).
Qed.
Print Assumptions C23_derivative.

(** Examples: [1 + 2 y - 3 y^2 + y^3] with [y = x - 1]. *)
Definition example := Polynomial [1; 2; -3; 1] 1.
Example example_estrin : evaluate Estrin true example 3 = 1.
Proof. rewrite C23_evaluate. unfold value_at, value; cbn. ring. Qed.
Example example_horner_derivative : evaluate_derivative Horner false example 3 = 2.
Proof. unfold evaluate_derivative; cbn. ring. Qed.
Example example_at_origin : exists q, AtOrigin example 3 = Some q /\ origin q = 3 /\ coefficients q = [1; 2; 3; 1].
Proof. unfold AtOrigin, example; cbn. eexists; split; [reflexivity | ]. cbn. split; [reflexivity | ]. repeat (f_equal; try field). Qed.
Example example_square : exists q, times example example = Some q /\ coefficients q = [1; 4; -2; -10; 13; -6; 1].
Proof. unfold times, same_origin. destruct (Req_EM_T _ _) as [H | H]; [ | contradiction H; reflexivity]. eexists; split; [reflexivity | ]. cbn. repeat (f_equal; try ring). Qed.
Example example_compose : exists q, Compose (Polynomial [0; 0; 1] 1) example = Some q /\ coefficients q = [0; 0; 4; -12; 13; -6; 1].
Proof.
  unfold Compose, example; cbn [coefficients origin degree length Nat.pred seq fold_left Nat.eqb Pos.of_nat pow_polynomial].
  change (Pos.succ 1) with 2%positive. cbn [pow_polynomial]. unfold times, same_origin. cbn [minus_constant origin]. destruct (Req_EM_T 1 1) as [H | H]; [ | contradiction H; reflexivity].
  eexists; split; [reflexivity | ]. cbn. repeat (f_equal; try ring).
Qed.
Example example_derivative : exists q, Derivative 2 example = Some q /\ coefficients q = [-6; 6].
Proof. unfold Derivative, example; cbn. eexists; split; [reflexivity | ]. cbn. repeat (f_equal; try ring). Qed.

(** Estrin's scheme splits at the largest power of 2 that is not above the degree. *)
Theorem C23_estrin_split n : (0 < n)%N -> exists k, PowerOf2Le n = (2 ^ k)%N /\ (2 ^ k <= n < 2 ^ (k + 1))%N.
Proof. exact (estrin_split n). Qed.
Print Assumptions C23_estrin_split.
Example C23_estrin_split_example : PowerOf2Le 7 = 4%N /\ PowerOf2Le 8 = 8%N.
Proof. split; reflexivity. Qed.
