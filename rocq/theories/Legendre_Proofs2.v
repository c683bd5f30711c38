(** The coefficients of the model are those of the Legendre polynomials; overflow; rounding. *)
From Coq Require Import ZArith Bool List Reals Lra Lia.
From Verif Require Import Polynomial_Model Polynomial_Proofs Legendre_Model Legendre_Spec Legendre_Proofs.
Import ListNotations.

Local Open Scope Z_scope.
(** The double factorial. *)
Fixpoint even_factorial (n : nat) : Z := match n with O => 1 | S n => 2 * (Z.of_nat n + 1) * even_factorial n end.
Lemma odd_pos : forall n, 1 <= odd_factorial n.
Proof. induction n; cbn [odd_factorial]; nia. Qed.
Lemma even_pos : forall n, 1 <= even_factorial n.
Proof. induction n; cbn [even_factorial]; nia. Qed.
Lemma int64_some : forall z r, int64 z = Some r -> r = z /\ z < 2 ^ 63.
Proof.
  intros z r. unfold int64. destruct ((- 2 ^ 63 <=? z) && (z <? 2 ^ 63)) eqn:E; [| discriminate]. apply andb_prop in E. intros H. injection H as <-.
  split; [reflexivity |]. apply Z.ltb_lt, E.
Qed.
Lemma odd_loop : forall n k result r, DoubleFactorial_loop k (2 * Z.of_nat n - 1) result = Some r -> r = result * odd_factorial n.
Proof.
  induction n as [|n IH]; intros k result r.
  - destruct k; cbn; intros H; injection H as <-; ring.
  - replace (2 * Z.of_nat (S n) - 1) with (2 * Z.of_nat n + 1) by lia. destruct k as [|k]; cbn [DoubleFactorial_loop];
      (replace (1 <=? 2 * Z.of_nat n + 1) with true by (symmetry; apply Z.leb_le; lia)); [discriminate |].
    destruct (int64 _) as [s |] eqn:E; [| discriminate]. apply int64_some in E. destruct E as [-> _].
    replace (2 * Z.of_nat n + 1 - 2) with (2 * Z.of_nat n - 1) by ring. intros H. rewrite (IH _ _ _ H). cbn [odd_factorial]. ring.
Qed.
Lemma even_loop : forall n k result r, DoubleFactorial_loop k (2 * Z.of_nat n) result = Some r -> r = result * even_factorial n.
Proof.
  induction n as [|n IH]; intros k result r.
  - destruct k; cbn; intros H; injection H as <-; ring.
  - replace (2 * Z.of_nat (S n)) with (2 * Z.of_nat n + 2) by lia. destruct k as [|k]; cbn [DoubleFactorial_loop];
      (replace (1 <=? 2 * Z.of_nat n + 2) with true by (symmetry; apply Z.leb_le; lia)); [discriminate |].
    destruct (int64 _) as [s |] eqn:E; [| discriminate]. apply int64_some in E. destruct E as [-> _].
    replace (2 * Z.of_nat n + 2 - 2) with (2 * Z.of_nat n) by ring. intros H. rewrite (IH _ _ _ H). cbn [even_factorial]. ring.
Qed.
Lemma odd_loop_bound : forall n k result r, (0 < n)%nat -> DoubleFactorial_loop k (2 * Z.of_nat n - 1) result = Some r -> 1 <= result -> r < 2 ^ 63.
Proof.
  induction n as [|n IH]; intros k result r; [lia |]. intros _.
  replace (2 * Z.of_nat (S n) - 1) with (2 * Z.of_nat n + 1) by lia. destruct k as [|k]; cbn [DoubleFactorial_loop];
    (replace (1 <=? 2 * Z.of_nat n + 1) with true by (symmetry; apply Z.leb_le; lia)); [discriminate |].
  destruct (int64 _) as [s |] eqn:E; [| discriminate]. apply int64_some in E. destruct E as [-> L].
  replace (2 * Z.of_nat n + 1 - 2) with (2 * Z.of_nat n - 1) by ring. intros H P. destruct n as [|n].
  - destruct k; cbn in H; injection H as <-; exact L.
  - apply (IH _ _ _ (Nat.lt_0_succ n) H). nia.
Qed.
Lemma odd_value : forall n r, DoubleFactorial (2 * Z.of_nat n - 1) = Some r -> r = odd_factorial n.
Proof. intros n r H. apply odd_loop in H. lia. Qed.
Lemma even_value : forall n r, DoubleFactorial (2 * Z.of_nat n) = Some r -> r = even_factorial n.
Proof. intros n r H. apply even_loop in H. lia. Qed.
Lemma odd_bound : forall n r, (0 < n)%nat -> DoubleFactorial (2 * Z.of_nat n - 1) = Some r -> r < 2 ^ 63.
Proof. intros n r P H. apply (odd_loop_bound _ _ _ _ P H). lia. Qed.
Lemma odd_monotonic : forall n k, odd_factorial n <= odd_factorial (k + n).
Proof. induction k as [|k IH]; [apply Z.le_refl |]. cbn [Nat.add odd_factorial]. pose proof (odd_pos (k + n)). nia. Qed.

(** The factorial. *)
Lemma falling_value : forall k n r, FallingFactorial (n + k) k = Some r -> r * Z.of_nat (fact n) = Z.of_nat (fact (n + k)).
Proof.
  induction k as [|k IH]; intros n r H.
  - cbn in H. injection H as <-. rewrite Nat.add_0_r. lia.
  - destruct (Falling_step n k r H) as [g [G ->]]. replace (n + S k)%nat with (S n + k)%nat by lia. rewrite <- (IH _ _ G).
    change (fact (S n)) with (S n * fact n)%nat. rewrite Nat2Z.inj_mul. ring.
Qed.
Lemma factorial_value : forall n r, Factorial n = Some r -> r = Z.of_nat (fact n).
Proof. intros n r H. pose proof (falling_value n 0 r H) as E. cbn [Nat.add fact] in E. lia. Qed.

(** The coefficients. *)
Lemma size_small : forall z, 0 <= z < 2 ^ 63 -> size_to_int64 z = z.
Proof.
  intros z H. unfold size_to_int64. rewrite Z.mod_small by lia. cbv zeta. replace (z <? 2 ^ 63) with true by (symmetry; apply Z.ltb_lt; lia). reflexivity.
Qed.
Lemma size_odd : forall n, Z.of_nat n < 2 ^ 62 -> size_to_int64 (2 * Z.of_nat n - 1) = 2 * Z.of_nat n - 1.
Proof. intros [|n] H; [reflexivity |]. apply size_small. lia. Qed.

Lemma coefficient_even : forall m k a b, Z.of_nat (k + 2 * m) < 2 ^ 60 -> LegendreCoefficient (k + 2 * m) k = Some (a, b) ->
  a = (if Nat.even m then 1 else -1) * odd_factorial (k + m) /\ b = Z.of_nat (fact k) * even_factorial m.
Proof.
  intros m k a b L. unfold LegendreCoefficient.
  replace (Z.of_nat (k + 2 * m) - Z.of_nat k) with (2 * Z.of_nat m) by lia.
  replace (Z.of_nat (k + 2 * m) + Z.of_nat k - 1) with (2 * Z.of_nat (k + m) - 1) by lia.
  rewrite size_small by lia. rewrite size_odd by lia. cbv zeta.
  replace (2 * Z.of_nat m mod 2) with 0 by (rewrite Z.mul_comm, Z.mod_mul; lia). cbn [Z.eqb].
  assert (E : (2 * Z.of_nat m mod 4 =? 0) = Nat.even m).
  { replace 4 with (2 * 2) by ring. rewrite Z.mul_mod_distr_l by lia.
    destruct (Nat.even m) eqn:P.
    - apply Nat.even_spec in P. destruct P as [j ->]. replace (Z.of_nat (2 * j)) with (Z.of_nat j * 2) by lia. rewrite Z.mod_mul by lia. reflexivity.
    - assert (O : Nat.odd m = true) by (unfold Nat.odd; rewrite P; reflexivity). apply Nat.odd_spec in O. destruct O as [j ->].
      replace (Z.of_nat (2 * j + 1)) with (1 + Z.of_nat j * 2) by lia. rewrite Z.mod_add by lia. reflexivity. }
  rewrite E.
  destruct (DoubleFactorial (2 * Z.of_nat (k + m) - 1)) as [x |] eqn:X; [| discriminate].
  destruct (Factorial k) as [y |] eqn:Y; [| discriminate].
  destruct (DoubleFactorial (2 * Z.of_nat m)) as [z |] eqn:W; [| discriminate].
  destruct (int64 (_ * x)) as [u |] eqn:U; [| discriminate]. destruct (int64 (y * z)) as [v |] eqn:V; [| discriminate].
  intros H. injection H as <- <-. apply odd_value in X. apply factorial_value in Y. apply even_value in W. apply int64_inv in U. apply int64_inv in V.
  subst. split; reflexivity.
Qed.
Lemma coefficient_odd : forall m k, Z.of_nat (k + 2 * m + 1) < 2 ^ 60 -> LegendreCoefficient (k + 2 * m + 1) k = Some (0, 1).
Proof.
  intros m k L. unfold LegendreCoefficient.
  replace (Z.of_nat (k + 2 * m + 1) - Z.of_nat k) with (1 + Z.of_nat m * 2) by lia. rewrite size_small by lia. cbv zeta.
  rewrite Z.mod_add by lia. reflexivity.
Qed.

(** Overflow. *)
Lemma coefficients_small : forallb (fun n => match LegendreCoefficients n with Some _ => true | None => false end) (seq 0 18) = true.
Proof. vm_compute. reflexivity. Qed.
Lemma big : 2 ^ 63 <= odd_factorial 18.
Proof. vm_compute. discriminate. Qed.
Lemma coefficients_overflow : forall n, (18 <= n)%nat -> Z.of_nat n < 2 ^ 60 -> LegendreCoefficients n = None.
Proof.
  intros n H L. unfold LegendreCoefficients. apply (all_none _ _ n); [apply in_seq; lia |].
  destruct (LegendreCoefficient n n) as [[a b] |] eqn:E; [exfalso | reflexivity].
  revert E. unfold LegendreCoefficient. replace (Z.of_nat n - Z.of_nat n) with 0 by ring. change (size_to_int64 0) with 0. cbv zeta. cbn [Z.eqb Z.modulo Z.div_eucl].
  replace (Z.of_nat n + Z.of_nat n - 1) with (2 * Z.of_nat n - 1) by ring. rewrite size_odd by lia.
  destruct (DoubleFactorial (2 * Z.of_nat n - 1)) as [x |] eqn:X; [| discriminate]. intros _.
  pose proof (odd_bound n x ltac:(lia) X) as B. apply odd_value in X. pose proof (odd_monotonic 18 (n - 18)) as M.
  replace (n - 18 + 18)%nat with n in M by lia. pose proof big. lia.
Qed.

Local Open Scope R_scope.
(** The coefficient of index [k] of the polynomial of degree [k + 2 m]. *)
Definition e (k m : nat) : R := (-1) ^ m * IZR (odd_factorial (k + m)) / (INR (fact k) * IZR (even_factorial m)).
Definition c (n k : nat) : R := if Nat.leb k n && Nat.even (n - k) then e k (Nat.div2 (n - k)) else 0.
Lemma c_even : forall k m, c (k + 2 * m) k = e k m.
Proof.
  intros k m. unfold c. replace (k + 2 * m - k)%nat with (2 * m)%nat by lia. replace (Nat.leb k (k + 2 * m)) with true by (symmetry; apply Nat.leb_le; lia).
  rewrite Nat.div2_double. replace (Nat.even (2 * m)) with true; [reflexivity |]. symmetry. apply Nat.even_spec. exists m. reflexivity.
Qed.
Lemma c_odd : forall k m, c (k + 2 * m + 1) k = 0.
Proof.
  intros k m. unfold c. replace (k + 2 * m + 1 - k)%nat with (2 * m + 1)%nat by lia.
  replace (Nat.even (2 * m + 1)) with false; [rewrite andb_false_r; reflexivity |]. rewrite Nat.add_1_r, Nat.even_succ. symmetry. apply Nat.odd_mul.
Qed.
Lemma c_above : forall n k, (n < k)%nat -> c n k = 0.
Proof. intros n k H. unfold c. replace (Nat.leb k n) with false by (symmetry; apply Nat.leb_gt; exact H). reflexivity. Qed.

Lemma odd_S : forall n, IZR (odd_factorial (S n)) = (2 * INR n + 1) * IZR (odd_factorial n).
Proof. intros n. cbn [odd_factorial]. rewrite mult_IZR, plus_IZR, mult_IZR, <- INR_IZR_INZ. reflexivity. Qed.
Lemma even_S : forall n, IZR (even_factorial (S n)) = 2 * (INR n + 1) * IZR (even_factorial n).
Proof. intros n. cbn [even_factorial]. rewrite !mult_IZR, plus_IZR, <- INR_IZR_INZ. reflexivity. Qed.
Lemma even_nz : forall n, IZR (even_factorial n) <> 0.
Proof. intros n H. apply eq_IZR in H. pose proof (even_pos n). lia. Qed.
Lemma fact_nz : forall n, INR (fact n) <> 0.
Proof. intros n. apply INR_fact_neq_0. Qed.
Lemma fact_S : forall n, INR (fact (S n)) = (INR n + 1) * INR (fact n).
Proof. intros n. change (fact (S n)) with (S n * fact n)%nat. rewrite mult_INR, S_INR. reflexivity. Qed.

(** The recurrence on the coefficients. *)
Definition shifted (n k : nat) : R := match k with O => 0 | S k => c n k end.
Lemma recurrence : forall n k, (k <= n + 2)%nat -> (INR n + 2) * c (S (S n)) k = (2 * INR n + 3) * shifted (S n) k - (INR n + 1) * c n k.
Proof.
  intros n k H. destruct (Nat.even (n + 2 - k)) eqn:P.
  - apply Nat.even_spec in P. destruct P as [m P]. destruct m as [|m].
    + (* the highest coefficient *) assert (k = S (S n)) by lia. subst k. rewrite (c_above n) by lia. cbn [shifted].
      pose proof (c_even (S (S n)) 0) as A. pose proof (c_even (S n) 0) as B. rewrite Nat.mul_0_r, Nat.add_0_r in A, B. rewrite A, B. unfold e. rewrite !Nat.add_0_r.
      rewrite (odd_S (S n)), (fact_S (S n)), S_INR. cbn [even_factorial pow]. field. pose proof (pos_INR n). repeat split; try apply fact_nz; lra.
    + assert (N : n = (k + 2 * m)%nat) by lia. subst n. replace (S (S (k + 2 * m))) with (k + 2 * S m)%nat by lia. rewrite !c_even.
      destruct k as [|k]; cbn [shifted].
      * unfold e. replace (0 + S m)%nat with (S (0 + m))%nat by lia. rewrite odd_S, even_S. cbn [Nat.add pow]. rewrite mult_INR. cbn [INR fact].
        field. split; [apply even_nz |]. pose proof (pos_INR m). lra.
      * replace (S (S k + 2 * m)) with (k + 2 * S m)%nat by lia. rewrite c_even. unfold e.
        replace (S k + S m)%nat with (S (S k + m))%nat by lia. replace (k + S m)%nat with (S k + m)%nat by lia.
        rewrite odd_S, even_S, fact_S. cbn [pow]. rewrite !plus_INR, mult_INR, S_INR. change (INR 2) with 2.
        field. repeat split; try apply even_nz; try apply fact_nz; pose proof (pos_INR m); pose proof (pos_INR k); lra.
  - assert (O : Nat.odd (n + 2 - k) = true) by (unfold Nat.odd; rewrite P; reflexivity). apply Nat.odd_spec in O. destruct O as [m O].
    assert (Z : c (S (S n)) k = 0) by (replace (S (S n)) with (k + 2 * m + 1)%nat by lia; apply c_odd).
    assert (Y : shifted (S n) k = 0).
    { destruct k as [|k]; [reflexivity |]. cbn [shifted]. replace (S n) with (k + 2 * m + 1)%nat by lia. apply c_odd. }
    assert (X : c n k = 0).
    { destruct m as [|m]; [apply c_above; lia |]. replace n with (k + 2 * m + 1)%nat by lia. apply c_odd. }
    rewrite X, Y, Z. ring.
Qed.
Definition polynomial_sum (n : nat) (x : R) : R := sum_f_R0 (fun k => c n k * x ^ k) n.
Lemma extended : forall j n x, sum_f_R0 (fun k => c n k * x ^ k) (j + n) = polynomial_sum n x.
Proof.
  induction j as [|j IH]; intros n x; [reflexivity |]. cbn [Nat.add sum_f_R0]. rewrite IH, c_above by lia. ring.
Qed.
Lemma shifted_sum : forall n x, sum_f_R0 (fun k => shifted n k * x ^ k) (S n) = x * polynomial_sum n x.
Proof.
  intros n x. rewrite decomp_sum by lia. cbn [shifted Nat.pred]. unfold polynomial_sum. rewrite scal_sum, Rmult_0_l, Rplus_0_l.
  apply sum_eq. intros i _. cbn [pow]. ring.
Qed.
Lemma sum_lin : forall a b f g n, sum_f_R0 (fun k => a * f k - b * g k) n = a * sum_f_R0 f n - b * sum_f_R0 g n.
Proof. induction n as [|n IH]; cbn [sum_f_R0]; [reflexivity | rewrite IH; ring]. Qed.
Theorem polynomial_sum_legendre : forall n x, polynomial_sum n x = legendre n x.
Proof.
  intros n x. revert n. apply pair_ind.
  - rewrite legendre_0. unfold polynomial_sum. cbn. unfold c, e. cbn. field.
  - rewrite legendre_1. unfold polynomial_sum. cbn. unfold c, e. cbn. field.
  - intros n A B. rewrite legendre_SS, <- A, <- B.
    apply (Rmult_eq_reg_l (INR n + 2)); [| apply pos2].
    replace ((INR n + 2) * (((2 * INR n + 3) * x * polynomial_sum (S n) x - (INR n + 1) * polynomial_sum n x) / (INR n + 2)))
      with ((2 * INR n + 3) * (x * polynomial_sum (S n) x) - (INR n + 1) * polynomial_sum n x) by (field; apply pos2).
    rewrite <- shifted_sum, <- (extended 2 n x). change (2 + n)%nat with (S (S n)). rewrite <- sum_lin. unfold polynomial_sum. rewrite scal_sum.
    apply sum_eq. intros k K. rewrite <- !Rmult_assoc.
    replace (c (S (S n)) k * x ^ k * (INR n + 2)) with ((INR n + 2) * c (S (S n)) k * x ^ k) by ring. rewrite recurrence by lia. ring.
Qed.

Lemma coefficient_value : forall n k a b, (k <= n)%nat -> (Z.of_nat n < 2 ^ 60)%Z -> LegendreCoefficient n k = Some (a, b) -> IZR a / IZR b = c n k.
Proof.
  intros n k a b K L H. destruct (Nat.Even_or_Odd (n - k)) as [[m P] | [m P]].
  - replace n with (k + 2 * m)%nat in * by lia. destruct (coefficient_even _ _ _ _ L H) as [-> ->]. rewrite c_even. unfold e.
    rewrite !mult_IZR, <- INR_IZR_INZ. f_equal. f_equal. clear. induction m as [|m IH]; [reflexivity |]. rewrite Nat.even_succ. unfold Nat.odd. cbn [pow]. rewrite <- IH.
    destruct (Nat.even m); cbn [negb]; ring.
  - replace n with (k + 2 * m + 1)%nat in * by lia. rewrite (coefficient_odd _ _ L) in H. injection H as <- <-. rewrite c_odd. field.
Qed.
Lemma coefficients_value : forall n l i, (Z.of_nat n < 2 ^ 60)%Z -> LegendreCoefficients n = Some l -> length l = S n /\
  ((i <= n)%nat -> IZR (fst (nth i l (0, 1)%Z)) / IZR (snd (nth i l (0, 1)%Z)) = c n i).
Proof.
  intros n l i L H. destruct (all_inv _ _ _ H) as [A B]. rewrite seq_length in *. split; [exact A |]. intros I.
  specialize (B i 0%nat (0, 1)%Z ltac:(lia)). rewrite seq_nth in B by lia. cbn [Nat.add] in B. destruct (nth i l (0, 1)%Z) as [a b]. exact (coefficient_value _ _ _ _ I L B).
Qed.
Theorem polynomial_value : forall n p x, (Z.of_nat n < 2 ^ 60)%Z -> LegendrePolynomial n = Some p -> value_at p x = legendre n x.
Proof.
  intros n p x L. unfold LegendrePolynomial. destruct (LegendreCoefficients n) as [l |] eqn:E; [| discriminate]. intros H. injection H as <-.
  rewrite <- polynomial_sum_legendre. unfold value_at, value, polynomial_sum. cbn [coefficients origin]. rewrite map_length.
  destruct (coefficients_value n l 0 L E) as [A _]. rewrite A. cbn [Nat.pred]. apply sum_eq. intros i I. rewrite Rminus_0_r. f_equal.
  rewrite (nth_indep _ 0 (IZR (fst (0, 1)%Z) / IZR (snd (0, 1)%Z))) by (rewrite map_length; lia).
  rewrite (map_nth (fun c : Z * Z => IZR (fst c) / IZR (snd c))). apply (coefficients_value n l i L E). exact I.
Qed.

(** The coefficients computed on doubles are exact. *)
Definition exact_quotient (q : Z * Z) : bool :=
  match Double_Model.div (Double_Model.of_Z (fst q)) (Double_Model.of_Z (snd q)) with
  | Binary.B754_zero _ _ _ => (fst q =? 0)%Z
  | Binary.B754_finite _ _ s m x _ => ((x <=? 0) && (0 <? snd q) && ((if s then Z.neg m else Z.pos m) * snd q =? fst q * 2 ^ (- x)))%Z
  | _ => false
  end.
Lemma exact_quotient_ok : forall q, exact_quotient q = true -> Binary.B2R 53 1024 (Double_Model.div (Double_Model.of_Z (fst q)) (Double_Model.of_Z (snd q))) = IZR (fst q) / IZR (snd q).
Proof.
  intros [a b]. unfold exact_quotient. cbn [fst snd]. destruct (Double_Model.div _ _) as [s | s | s pl pr | s m x pr]; try discriminate.
  - intros H. apply Z.eqb_eq in H. subst a. cbn [Binary.B2R]. unfold Rdiv. ring.
  - intros H. apply andb_prop in H. destruct H as [H E]. apply andb_prop in H. destruct H as [X B].
    apply Z.leb_le in X. apply Z.ltb_lt in B. apply Z.eqb_eq in E. cbn [Binary.B2R]. unfold Defs.F2R. cbn [Defs.Fnum Defs.Fexp].
    replace (SpecFloat.cond_Zopp s (Z.pos m)) with (if s then Z.neg m else Z.pos m) by (destruct s; reflexivity).
    set (k := if s then Z.neg m else Z.pos m) in *. replace x with (- (- x))%Z by ring. rewrite Raux.bpow_opp.
    assert (P : Raux.bpow Zaux.radix2 (- x) = IZR (2 ^ (- x))) by (rewrite <- (Raux.IZR_Zpower Zaux.radix2) by lia; reflexivity). rewrite P.
    assert (Q : IZR k * IZR b = IZR a * IZR (2 ^ (- x))) by (rewrite <- !mult_IZR; f_equal; exact E).
    assert (IZR b <> 0) by (apply not_0_IZR; lia). assert (IZR (2 ^ (- x)) <> 0) by (apply not_0_IZR; apply Z.pow_nonzero; lia).
    apply (Rmult_eq_reg_r (IZR b * IZR (2 ^ (- x)))); [| apply Rmult_integral_contrapositive; auto].
    transitivity (IZR k * IZR b); [field; assumption |]. rewrite Q. field. assumption.
Qed.
Lemma exact_quotients : forallb (fun n => match LegendreCoefficients n with Some l => forallb exact_quotient l | None => false end) (seq 0 18) = true.
Proof. vm_compute. reflexivity. Qed.
Theorem doubles_exact : forall n, (n <= 17)%nat -> exists l p, LegendrePolynomial_doubles n = Some l /\ LegendrePolynomial n = Some p /\ map (Binary.B2R 53 1024) l = coefficients p.
Proof.
  intros n H. pose proof (proj1 (forallb_forall _ _) exact_quotients n ltac:(apply in_seq; lia)) as E. cbv beta in E.
  unfold LegendrePolynomial_doubles, LegendrePolynomial. destruct (LegendreCoefficients n) as [l |]; [| discriminate].
  eexists; eexists. split; [reflexivity |]. split; [reflexivity |]. cbn [coefficients]. rewrite map_map. apply map_ext_in. intros q Q.
  apply exact_quotient_ok. exact (proj1 (forallb_forall _ _) E q Q).
Qed.
Theorem polynomial_defined : forall n, (n <= 17)%nat -> exists p, LegendrePolynomial n = Some p /\ length (coefficients p) = S n /\ origin p = 0.
Proof.
  intros n H. pose proof (proj1 (forallb_forall _ _) coefficients_small n ltac:(apply in_seq; lia)) as E. cbv beta in E.
  unfold LegendrePolynomial. destruct (LegendreCoefficients n) as [l |] eqn:L; [| discriminate]. eexists. split; [reflexivity |]. cbn [coefficients origin].
  rewrite map_length. split; [| reflexivity]. apply (coefficients_value n l 0); [| exact L]. lia.
Qed.
Theorem polynomial_overflow : forall n, (18 <= n)%nat -> (Z.of_nat n < 2 ^ 31)%Z -> LegendrePolynomial n = None /\ LegendrePolynomial_doubles n = None.
Proof.
  intros n H L. unfold LegendrePolynomial, LegendrePolynomial_doubles. rewrite coefficients_overflow by lia. split; reflexivity.
Qed.
Lemma polynomial_small : forall n p, (Z.of_nat n < 2 ^ 31)%Z -> LegendrePolynomial n = Some p -> (n <= 17)%nat.
Proof. intros n p L H. destruct (Nat.leb_spec n 17) as [|K]; [assumption |]. rewrite (proj1 (polynomial_overflow n ltac:(lia) L)) in H. discriminate. Qed.
Theorem polynomial_equation : forall n p e fma x, (Z.of_nat n < 2 ^ 31)%Z -> LegendrePolynomial n = Some p ->
  derivable_pt_lim (fun y => (1 - y * y) * evaluate_derivative e fma p y) x (- (INR n * (INR n + 1)) * evaluate e fma p x).
Proof.
  intros n p ev fma x L H. assert (V : forall y, value_at p y = legendre n y) by (intros; apply polynomial_value; [lia | exact H]).
  apply (dlim_ext (fun y => (1 - y * y) * derivative n y)).
  - intros y. f_equal. apply (uniqueness_limite (legendre n) y); [apply derivative_ok |].
    apply (dlim_ext (value_at p)); [exact V |]. apply EvaluateDerivative_derivative.
  - eapply dlim_value; [| apply equation]. f_equal. rewrite <- V. symmetry. apply Evaluate_value.
Qed.
Theorem polynomial_integral : forall n m p q, (Z.of_nat n < 2 ^ 31)%Z -> (Z.of_nat m < 2 ^ 31)%Z -> LegendrePolynomial n = Some p -> LegendrePolynomial m = Some q ->
  integral (fun x => value_at p x * value_at q x) (if Nat.eqb n m then 2 / (2 * INR n + 1) else 0).
Proof.
  intros n m p q Ln Lm Hp Hq. apply (integral_ext (fun x => legendre n x * legendre m x)).
  - intros x. rewrite (polynomial_value n p), (polynomial_value m q) by (lia || assumption). reflexivity.
  - destruct (Nat.eqb_spec n m) as [-> | N]; [apply norm | apply orthogonal; exact N].
Qed.
Lemma even_power : forall n, even_factorial n = (2 ^ Z.of_nat n * Z.of_nat (fact n))%Z.
Proof.
  induction n as [|n IH]; [reflexivity |]. cbn [even_factorial]. rewrite IH, Nat2Z.inj_succ, Z.pow_succ_r by lia.
  change (fact (S n)) with (S n * fact n)%nat. rewrite Nat2Z.inj_mul. lia.
Qed.
Lemma odd_defined : forallb (fun n => match DoubleFactorial (2 * Z.of_nat n - 1) with Some _ => true | None => false end) (seq 0 18) = true.
Proof. vm_compute. reflexivity. Qed.
Theorem odd_double_factorial : forall n, DoubleFactorial (2 * Z.of_nat n - 1) = if Nat.leb n 17 then Some (odd_factorial n) else None.
Proof.
  intros n. destruct (Nat.leb_spec n 17) as [H | H].
  - pose proof (proj1 (forallb_forall _ _) odd_defined n ltac:(apply in_seq; lia)) as E. cbv beta in E.
    destruct (DoubleFactorial (2 * Z.of_nat n - 1)) as [r |] eqn:D; [| discriminate]. f_equal. apply odd_value, D.
  - destruct (DoubleFactorial (2 * Z.of_nat n - 1)) as [r |] eqn:D; [exfalso | reflexivity].
    pose proof (odd_bound n r ltac:(lia) D) as B. apply odd_value in D. pose proof (odd_monotonic 18 (n - 18)) as M.
    replace (n - 18 + 18)%nat with n in M by lia. pose proof big. lia.
Qed.
