From Coq Require Import Bool List Reals Lra Lia ZArith Arith.
From Verif Require Import Bits_Model Bits_Proofs Complexification_Model Complexification_Proofs FourierTransform_Model.
Import ListNotations.
Open Scope R_scope.

(** * Specification *)
(** The sum of [f 0], …, [f (n - 1)]. *)
Fixpoint sum (n : nat) (f : nat -> R) : R := match n with O => 0 | S n => sum n f + f n end.
(** The discrete Fourier transform of real values: the sum of u_r exp(-2 π i r s / n). *)
Definition dft (u : list R) (s : nat) : complex :=
  let n := length u in
  Complex (sum n (fun r => nth r u 0 * cos (2 * PI * INR r * INR s / INR n)))
          (- sum n (fun r => nth r u 0 * sin (2 * PI * INR r * INR s / INR n))).

(** * Complex sums and roots of unity *)
Fixpoint csum (n : nat) (f : nat -> complex) : complex := match n with O => Real 0 | S n => plus (csum n f) (f n) end.
Lemma csum_ext n f g : (forall k, (k < n)%nat -> f k = g k) -> csum n f = csum n g.
Proof. induction n as [|n IH]; intros H; cbn; [reflexivity|]. rewrite IH, H by (intros; try apply H; lia). reflexivity. Qed.
Lemma csum_times n f a : csum n (fun k => times a (f k)) = times a (csum n f).
Proof. induction n as [|n IH]; cbn; [ring|]. rewrite IH. ring. Qed.
Lemma csum_parity n f : csum (2 * n) f = plus (csum n (fun q => f (2 * q)%nat)) (csum n (fun q => f (2 * q + 1)%nat)).
Proof.
  induction n as [|n IH]; [cbn; ring|]. replace (2 * S n)%nat with (S (S (2 * n))) by lia. cbn [csum]. rewrite IH.
  replace (2 * n + 1)%nat with (S (2 * n)) by lia. ring.
Qed.
Lemma csum_parts n f : csum n f = Complex (sum n (fun k => real_part (f k))) (sum n (fun k => imaginary_part (f k))).
Proof. induction n as [|n IH]; [reflexivity|]. cbn [csum sum]. rewrite IH. reflexivity. Qed.

(** exp(-2 π i j / 2^k) *)
Definition e (k j : nat) : complex := Complex (cos (2 * PI * INR j / 2 ^ k)) (- sin (2 * PI * INR j / 2 ^ k)).
Lemma e_plus k i j : e k (i + j) = times (e k i) (e k j).
Proof.
  unfold e, times. cbn [real_part imaginary_part]. rewrite plus_INR.
  replace (2 * PI * (INR i + INR j) / 2 ^ k) with (2 * PI * INR i / 2 ^ k + 2 * PI * INR j / 2 ^ k) by (field; apply pow_nonzero; lra).
  rewrite cos_plus, sin_plus. f_equal; ring.
Qed.
Lemma e_half k j : e (S k) (2 * j) = e k j.
Proof.
  unfold e. rewrite mult_INR. change (INR 2) with 2. cbn [pow].
  replace (2 * PI * (2 * INR j) / (2 * 2 ^ k)) with (2 * PI * INR j / 2 ^ k) by (field; apply pow_nonzero; lra). reflexivity.
Qed.
Lemma pow2_INR k : INR (2 ^ k) = 2 ^ k.
Proof. rewrite pow_INR. reflexivity. Qed.
Lemma e_0 k : e k 0 = Real 1.
Proof. unfold e. replace (2 * PI * INR 0 / 2 ^ k) with 0 by (cbn [INR]; field; apply pow_nonzero; lra). rewrite cos_0, sin_0. unfold Real. f_equal. ring. Qed.
Lemma e_turn k : e k (2 ^ k) = Real 1.
Proof.
  unfold e. rewrite pow2_INR. replace (2 * PI * 2 ^ k / 2 ^ k) with (2 * PI) by (field; apply pow_nonzero; lra).
  rewrite cos_2PI, sin_2PI. unfold Real. f_equal. ring.
Qed.
Lemma e_turns k q : e k (q * 2 ^ k) = Real 1.
Proof. induction q as [|q IH]; [apply e_0|]. replace (S q * 2 ^ k)%nat with (2 ^ k + q * 2 ^ k)%nat by lia. rewrite e_plus, e_turn, IH. ring. Qed.
Lemma e_half_turn k : e (S k) (2 ^ k) = negative (Real 1).
Proof.
  unfold e. rewrite pow2_INR. cbn [pow]. replace (2 * PI * 2 ^ k / (2 * 2 ^ k)) with PI by (field; apply pow_nonzero; lra).
  rewrite cos_PI, sin_PI. unfold negative, Real. f_equal; cbn [real_part imaginary_part]; ring.
Qed.

(** The transform of complex numbers. *)
Definition cdft (k : nat) (u : nat -> complex) (s : nat) : complex := csum (2 ^ k) (fun r => times (u r) (e k (r * s))).
Lemma cdft_ext k u v s : (forall r, (r < 2 ^ k)%nat -> u r = v r) -> cdft k u s = cdft k v s.
Proof. intros H. apply csum_ext. intros r R. rewrite H by exact R. reflexivity. Qed.
Lemma cdft_period k u s : cdft k u (s + 2 ^ k) = cdft k u s.
Proof. apply csum_ext. intros r _. rewrite Nat.mul_add_distr_l, e_plus, e_turns. ring. Qed.
Lemma danielson_lanczos k u s : cdft (S k) u s = plus (cdft k (fun q => u (2 * q)%nat) s) (times (cdft k (fun q => u (2 * q + 1)%nat) s) (e (S k) s)).
Proof.
  unfold cdft. replace (2 ^ S k)%nat with (2 * 2 ^ k)%nat by (cbn [Nat.pow]; lia). rewrite csum_parity. f_equal.
  - apply csum_ext. intros q _. rewrite <- Nat.mul_assoc, e_half. reflexivity.
  - assert (forall a b, times a b = times b a) as C by (intros; ring). rewrite C, <- csum_times. apply csum_ext. intros q _.
    replace ((2 * q + 1) * s)%nat with (2 * (q * s) + s)%nat by lia. rewrite e_plus, e_half. ring.
Qed.
Lemma danielson_lanczos_upper k u s : cdft (S k) u (s + 2 ^ k) = minus (cdft k (fun q => u (2 * q)%nat) s) (times (cdft k (fun q => u (2 * q + 1)%nat) s) (e (S k) s)).
Proof. rewrite danielson_lanczos, !cdft_period, e_plus, e_half_turn. ring. Qed.

(** * The loop *)
Lemma butterflies_spec k d : d = minus (e k 1) (Real 1) -> forall n j first second, length first = n -> length second = n ->
  let '(a, b) := butterflies d (e k j) first second in
  length a = n /\ length b = n /\ forall i, (i < n)%nat ->
    nth i a (Real 0) = plus (nth i first (Real 0)) (times (nth i second (Real 0)) (e k (i + j))) /\
    nth i b (Real 0) = minus (nth i first (Real 0)) (times (nth i second (Real 0)) (e k (i + j))).
Proof.
  intros D n. induction n as [|n IH]; intros j [|a first] [|b second] L1 L2; cbn in L1, L2; try lia; cbn [butterflies].
  - repeat split; lia.
  - assert (plus (e k j) (times (e k j) d) = e k (S j)) as ->.
    { rewrite D. replace (S j) with (j + 1)%nat by lia. rewrite e_plus. ring. }
    specialize (IH (S j) first second ltac:(lia) ltac:(lia)). destruct (butterflies d (e k (S j)) first second) as [a' b'].
    destruct IH as (H1 & H2 & IH). cbn [length]. split; [lia|]. split; [lia|]. intros [|i] I; cbn [nth].
    + split; reflexivity.
    + specialize (IH i ltac:(lia)). replace (S i + j)%nat with (i + S j)%nat by lia. exact IH.
Qed.
Definition combine_halves (k : nat) (first second : list complex) : list complex :=
  let theta := PI / 2 ^ S k in
  let '(first, second) := butterflies (Complex (-2 * sin theta * sin theta) (- sin (2 * theta))) (Real 1) first second in first ++ second.
Lemma combine_halves_spec k first second : length first = (2 ^ k)%nat -> length second = (2 ^ k)%nat ->
  length (combine_halves k first second) = (2 ^ S k)%nat /\ forall s, (s < 2 ^ k)%nat ->
    nth s (combine_halves k first second) (Real 0) = plus (nth s first (Real 0)) (times (nth s second (Real 0)) (e (S k) s)) /\
    nth (s + 2 ^ k) (combine_halves k first second) (Real 0) = minus (nth s first (Real 0)) (times (nth s second (Real 0)) (e (S k) s)).
Proof.
  intros L1 L2. unfold combine_halves. set (d := Complex _ _).
  assert (D : d = minus (e (S k) 1) (Real 1)).
  { unfold d, e, minus, Real. cbn [real_part imaginary_part INR].
    replace (2 * PI * 1 / 2 ^ S k) with (2 * (PI / 2 ^ S k)) by (field; apply pow_nonzero; lra).
    rewrite cos_2a_sin. f_equal; ring. }
  pose proof (butterflies_spec (S k) d D (2 ^ k) 0 first second L1 L2) as H. rewrite e_0 in H.
  destruct (butterflies d (Real 1) first second) as [a b]. destruct H as (La & Lb & H).
  split; [rewrite app_length; cbn [Nat.pow]; lia|]. intros s S. specialize (H s S). rewrite Nat.add_0_r in H.
  rewrite app_nth1 by lia. rewrite app_nth2 by lia. replace (s + 2 ^ k - length a)%nat with s by lia. exact H.
Qed.
(** The specializations do the same thing. *)
Lemma transform_step k l : length l = (2 ^ S k)%nat ->
  Transform (S k) l = combine_halves k (Transform k (firstn (2 ^ k) l)) (Transform k (skipn (2 ^ k) l)).
Proof.
  intros L. destruct k as [|[|k]].
  - destruct l as [|a [|b [|? ?]]]; cbn in L; try lia. cbn [Transform firstn skipn Nat.pow Nat.mul Nat.add]. unfold combine_halves. cbn [butterflies app].
    f_equal; [|f_equal]; ring.
  - destruct l as [|a [|b [|c [|d [|? ?]]]]]; cbn in L; try lia. cbn [Transform firstn skipn Nat.pow Nat.mul Nat.add]. unfold combine_halves.
    cbn [butterflies app pow]. replace (PI / (2 * (2 * 1))) with (PI / 4) by lra. rewrite sin_PI4.
    replace (2 * (PI / 4)) with (PI / 2) by lra. rewrite sin_PI2.
    assert (E : -2 * (1 / sqrt 2) * (1 / sqrt 2) = -1).
    { transitivity (-2 / (sqrt 2 * sqrt 2)); [field; apply Rgt_not_eq, sqrt_lt_R0; lra|]. rewrite sqrt_def by lra. field. }
    rewrite E. f_equal; [|f_equal; [|f_equal; [|f_equal]]]; apply complex_eq; unfold plus, minus, times, Real; cbn [real_part imaginary_part]; ring.
  - reflexivity.
Qed.

(** The bit-reversed indices. *)
Definition rev_nat (k i : nat) : nat := Z.to_nat (rev k (Z.of_nat i)).
Lemma pow2_Z k : Z.of_nat (2 ^ k) = (2 ^ Z.of_nat k)%Z.
Proof. rewrite Nat2Z.inj_pow. reflexivity. Qed.
Lemma rev_nat_lt k i : (rev_nat k i < 2 ^ k)%nat.
Proof. pose proof (rev_range k (Z.of_nat i)). unfold rev_nat. apply Nat2Z.inj_lt. rewrite Z2Nat.id, pow2_Z by lia. lia. Qed.
Lemma rev_nat_even k q : rev_nat (S k) (2 * q) = rev_nat k q.
Proof.
  unfold rev_nat. cbn [rev]. replace (Z.of_nat (2 * q)) with (Z.of_nat q * 2)%Z by lia. rewrite Z.mod_mul, Z.div_mul by lia. f_equal.
Qed.
Lemma rev_nat_odd k q : rev_nat (S k) (2 * q + 1) = (2 ^ k + rev_nat k q)%nat.
Proof.
  pose proof (rev_range k (Z.of_nat q)). pose proof (pow2_pos k).
  unfold rev_nat. cbn [rev]. replace (Z.of_nat (2 * q + 1)) with (1 + Z.of_nat q * 2)%Z by lia. rewrite Z.mod_add, Z.div_add by lia.
  change (1 mod 2)%Z with 1%Z. change (1 / 2)%Z with 0%Z. rewrite Z.mul_1_l, Z.add_0_l, Z2Nat.inj_add by lia. rewrite <- pow2_Z, Nat2Z.id. reflexivity.
Qed.
Lemma rev_nat_involutive k i : (i < 2 ^ k)%nat -> rev_nat k (rev_nat k i) = i.
Proof.
  intros I. pose proof (rev_range k (Z.of_nat i)). unfold rev_nat. rewrite Z2Nat.id by lia. rewrite rev_involutive; [apply Nat2Z.id|].
  rewrite <- pow2_Z. lia.
Qed.

Lemma firstn_length_pow {A} k (l : list A) : length l = (2 ^ S k)%nat -> length (firstn (2 ^ k) l) = (2 ^ k)%nat.
Proof. intros H. cbn [Nat.pow] in H. rewrite firstn_length. lia. Qed.
Lemma skipn_length_pow {A} k (l : list A) : length l = (2 ^ S k)%nat -> length (skipn (2 ^ k) l) = (2 ^ k)%nat.
Proof. intros H. cbn [Nat.pow] in H. rewrite skipn_length. lia. Qed.
Lemma nth_firstn {A} (l : list A) n i d : (i < n)%nat -> nth i (firstn n l) d = nth i l d.
Proof. revert n i. induction l as [|a l IH]; intros [|n] [|i] H; cbn; try lia; auto. apply IH; lia. Qed.
Lemma nth_skipn {A} (l : list A) n i d : nth i (skipn n l) d = nth (n + i) l d.
Proof. revert l. induction n as [|n IH]; intros [|a l]; cbn; auto. destruct i; reflexivity. Qed.

Lemma transform_spec k : forall l, length l = (2 ^ k)%nat ->
  length (Transform k l) = (2 ^ k)%nat /\ forall s, (s < 2 ^ k)%nat -> nth s (Transform k l) (Real 0) = cdft k (fun i => nth (rev_nat k i) l (Real 0)) s.
Proof.
  induction k as [|k IH]; intros l L.
  - split; [exact L|]. intros s S. cbn [Nat.pow] in S. assert (s = 0)%nat as -> by lia.
    cbn [Transform]. unfold cdft. cbn [Nat.pow csum]. rewrite e_0. unfold rev_nat. cbn [rev Z.to_nat]. ring.
  - rewrite transform_step by exact L.
    destruct (IH (firstn (2 ^ k) l) (firstn_length_pow k l L)) as [L1 H1].
    destruct (IH (skipn (2 ^ k) l) (skipn_length_pow k l L)) as [L2 H2].
    destruct (combine_halves_spec k _ _ L1 L2) as [LC C]. split; [exact LC|].
    assert (E1 : forall s, (s < 2 ^ k)%nat -> nth s (Transform k (firstn (2 ^ k) l)) (Real 0) = cdft k (fun q => nth (rev_nat (S k) (2 * q)) l (Real 0)) s).
    { intros s S. rewrite H1 by exact S. apply cdft_ext. intros r _. rewrite rev_nat_even. apply nth_firstn, rev_nat_lt. }
    assert (E2 : forall s, (s < 2 ^ k)%nat -> nth s (Transform k (skipn (2 ^ k) l)) (Real 0) = cdft k (fun q => nth (rev_nat (S k) (2 * q + 1)) l (Real 0)) s).
    { intros s S. rewrite H2 by exact S. apply cdft_ext. intros r _. rewrite rev_nat_odd. apply nth_skipn. }
    intros s S. destruct (le_lt_dec (2 ^ k) s) as [G|G].
    + replace s with ((s - 2 ^ k) + 2 ^ k)%nat by lia. cbn [Nat.pow] in S.
      destruct (C (s - 2 ^ k)%nat ltac:(lia)) as [_ ->]. rewrite danielson_lanczos_upper, E1, E2 by lia. reflexivity.
    + destruct (C s G) as [-> _]. rewrite danielson_lanczos, E1, E2 by lia. reflexivity.
Qed.

(** * The stores *)
Lemma store_length {A} (l : list A) n a : length (store l n a) = length l.
Proof. revert n. induction l as [|b l IH]; intros [|n]; cbn; auto. Qed.
Lemma store_nth {A} (l : list A) n a i d : (n < length l)%nat -> nth i (store l n a) d = if Nat.eqb i n then a else nth i l d.
Proof.
  revert n i. induction l as [|b l IH]; intros [|n] [|i] H; cbn in *; try lia; auto. apply IH. lia.
Qed.
Lemma bri_rev k i : (k < 32)%nat -> (i < 2 ^ k)%nat -> BitReversedIncrement (rev k (Z.of_nat i)) (Z.of_nat k) = Some (rev k (Z.of_nat (S i))).
Proof.
  intros K I. destruct k as [|k]; [reflexivity|].
  pose proof (bri_iter_correct (S k) (S i) ltac:(lia)) as H. cbn [bri_iter] in H. rewrite (bri_iter_correct (S k) i) in H by lia. exact H.
Qed.
Lemma reindex_spec k (K : (k < 32)%nat) u : forall v i t, length t = (2 ^ k)%nat -> (i + length v = 2 ^ k)%nat ->
  (forall j, (j < length v)%nat -> nth j v 0 = u (i + j)%nat) -> (forall j, (j < i)%nat -> nth (rev_nat k j) t (Real 0) = Real (u j)) ->
  exists t', reindex k v (rev k (Z.of_nat i)) t = Some t' /\ length t' = (2 ^ k)%nat /\ forall j, (j < 2 ^ k)%nat -> nth (rev_nat k j) t' (Real 0) = Real (u j).
Proof.
  induction v as [|a v IH]; intros i t L E V T; cbn [reindex].
  - exists t. split; [reflexivity|]. split; [exact L|]. intros j J. apply T. cbn in E. lia.
  - pose proof (rev_range k (Z.of_nat i)) as R. cbn [length] in E.
    rewrite L, pow2_Z. replace (0 <=? rev k (Z.of_nat i))%Z with true by (symmetry; apply Z.leb_le; lia).
    replace (rev k (Z.of_nat i) <? 2 ^ Z.of_nat k)%Z with true by (symmetry; apply Z.ltb_lt; lia). cbn [andb negb].
    rewrite bri_rev by lia. apply IH.
    + rewrite store_length. exact L.
    + lia.
    + intros j J. specialize (V (S j)). cbn [length nth] in V. rewrite V by lia. f_equal. lia.
    + intros j J. fold (rev_nat k i). rewrite store_nth by (rewrite L; apply rev_nat_lt).
      destruct (Nat.eqb_spec (rev_nat k j) (rev_nat k i)) as [Q|Q].
      * assert (j = i) as ->. { rewrite <- (rev_nat_involutive k j), <- (rev_nat_involutive k i), Q by lia. reflexivity. }
        f_equal. specialize (V 0%nat ltac:(cbn; lia)). cbn in V. rewrite V. f_equal. lia.
      * apply T. assert (j <> i) by (intros ->; congruence). lia.
Qed.

(** * Theorems *)
Lemma sum_ext n f g : (forall k, (k < n)%nat -> f k = g k) -> sum n f = sum n g.
Proof. induction n as [|n IH]; intros H; cbn; [reflexivity|]. rewrite IH, H by (intros; try apply H; lia). reflexivity. Qed.
Lemma sum_opp n f : sum n (fun k => - f k) = - sum n f.
Proof. induction n as [|n IH]; cbn; [ring|]. rewrite IH. ring. Qed.
Lemma cdft_dft k u s : length u = (2 ^ k)%nat -> cdft k (fun i => Real (nth i u 0)) s = dft u s.
Proof.
  intros L. unfold cdft, dft. rewrite L, csum_parts. f_equal; [|rewrite <- sum_opp]; apply sum_ext; intros r _; unfold times, e, Real; cbn [real_part imaginary_part]; rewrite mult_INR, pow2_INR, <- Rmult_assoc; ring.
Qed.
Lemma fft_ok k u : (k < 31)%nat -> length u = (2 ^ k)%nat ->
  exists t, FastFourierTransform k u = Some t /\ length t = (2 ^ k)%nat /\ forall s, (s < 2 ^ k)%nat -> nth s t (Real 0) = dft u s.
Proof.
  intros K L. unfold FastFourierTransform. rewrite L, Nat.eqb_refl. cbn [negb].
  destruct (reindex_spec k ltac:(lia) (fun i => nth i u 0) u 0 (repeat (Real 0) (2 ^ k))) as (t & R & LT & T).
  - apply repeat_length.
  - lia.
  - reflexivity.
  - lia.
  - cbn [Z.of_nat] in R. rewrite rev_zero in R. rewrite R. eexists. split; [reflexivity|]. destruct (transform_spec k t LT) as [LL H]. split; [exact LL|].
    intros s S. rewrite H by exact S. rewrite <- (cdft_dft k) by exact L. apply cdft_ext. intros r R'. apply T, R'.
Qed.
Lemma fft_size k u : length u <> (2 ^ k)%nat -> FastFourierTransform k u = None.
Proof. intros L. unfold FastFourierTransform. destruct (Nat.eqb_spec (2 ^ k) (length u)); [congruence|reflexivity]. Qed.
(** The spectrum of real values is symmetrical. *)
Lemma dft_symmetry u s : (s <= length u)%nat -> dft u (length u - s) = Conjugate (dft u s).
Proof.
  intros S. unfold dft, Conjugate. cbn [real_part imaginary_part]. destruct (length u) as [|n] eqn:L; [cbn; f_equal; ring|]. rewrite <- L in *.
  assert (N : INR (length u) <> 0) by (rewrite L; apply not_0_INR; lia).
  assert (A : forall r, 2 * PI * INR r * INR (length u - s) / INR (length u) = - (2 * PI * INR r * INR s / INR (length u)) + 2 * INR r * PI).
  { intros r. rewrite minus_INR by exact S. field. exact N. }
  f_equal; [|rewrite <- !sum_opp]; apply sum_ext; intros r _; rewrite A; [rewrite cos_period, cos_neg|rewrite sin_period, sin_neg]; ring.
Qed.

(** Parseval. *)
Definition energy (l : list complex) : R := fold_right (fun c s => Norm2 c + s) 0 l.
Lemma energy_app l m : energy (l ++ m) = energy l + energy m.
Proof. unfold energy. induction l as [|a l IH]; cbn [app fold_right]; [ring|]. rewrite IH. ring. Qed.
Lemma energy_sum n l : length l = n -> energy l = sum n (fun i => Norm2 (nth i l (Real 0))).
Proof.
  revert n. induction l as [|a l IH] using rev_ind; intros n L; [cbn in L; subst; reflexivity|].
  rewrite app_length in L. cbn in L. destruct n as [|n]; [lia|]. cbn [sum]. rewrite energy_app, (IH n) by lia. cbn [energy fold_right].
  rewrite (app_nth2 l) by lia. replace (n - length l)%nat with 0%nat by lia. cbn [nth]. rewrite Rplus_0_r. f_equal.
  apply sum_ext. intros k K. rewrite app_nth1 by lia. reflexivity.
Qed.
Lemma norm2_e k j : Norm2 (e k j) = 1.
Proof. unfold Norm2, e. cbn [real_part imaginary_part]. pose proof (sin2_cos2 (2 * PI * INR j / 2 ^ k)) as H. unfold Rsqr in H. lra. Qed.
Lemma parallelogram a b w : Norm2 w = 1 -> Norm2 (plus a (times b w)) + Norm2 (minus a (times b w)) = 2 * (Norm2 a + Norm2 b).
Proof.
  intros W. assert (Norm2 (times b w) = Norm2 b) as E by (destruct (norms b w) as (_ & -> & _); rewrite W; ring).
  transitivity (2 * (Norm2 a + Norm2 (times b w))); [|rewrite E; reflexivity].
  unfold Norm2, plus, minus; cbn [real_part imaginary_part]; ring.
Qed.
Lemma sum_plus n f g : sum n (fun i => f i + g i) = sum n f + sum n g.
Proof. induction n as [|n IH]; cbn; [ring|]. rewrite IH. ring. Qed.
Lemma sum_scal n f c : sum n (fun i => c * f i) = c * sum n f.
Proof. induction n as [|n IH]; cbn; [ring|]. rewrite IH. ring. Qed.
Lemma sum_split n m f : sum (n + m) f = sum n f + sum m (fun i => f (n + i)%nat).
Proof. induction m as [|m IH]; [rewrite Nat.add_0_r; cbn; ring|]. rewrite Nat.add_succ_r. cbn [sum]. rewrite IH. ring. Qed.
Lemma transform_energy k : forall l, length l = (2 ^ k)%nat -> energy (Transform k l) = 2 ^ k * energy l.
Proof.
  induction k as [|k IH]; intros l L; [cbn [Transform pow]; ring|].
  rewrite transform_step by exact L.
  pose proof (transform_spec k (firstn (2 ^ k) l) (firstn_length_pow k l L)) as [L1 _].
  pose proof (transform_spec k (skipn (2 ^ k) l) (skipn_length_pow k l L)) as [L2 _].
  destruct (combine_halves_spec k _ _ L1 L2) as [LC C].
  rewrite (energy_sum _ _ LC). replace (2 ^ S k)%nat with (2 ^ k + 2 ^ k)%nat by (cbn [Nat.pow]; lia). rewrite sum_split, <- sum_plus.
  transitivity (2 * (energy (Transform k (firstn (2 ^ k) l)) + energy (Transform k (skipn (2 ^ k) l)))).
  - rewrite (energy_sum _ _ L1), (energy_sum _ _ L2), <- sum_plus, <- sum_scal. apply sum_ext. intros s S. destruct (C s S) as [-> E].
    rewrite (Nat.add_comm (2 ^ k) s), E. apply parallelogram, norm2_e.
  - rewrite (IH _ (firstn_length_pow k l L)), (IH _ (skipn_length_pow k l L)).
    rewrite <- (firstn_skipn (2 ^ k) l) at 3. rewrite energy_app. cbn [pow]. ring.
Qed.
Lemma sum_parity n f : sum (2 * n) f = sum n (fun q => f (2 * q)%nat) + sum n (fun q => f (2 * q + 1)%nat).
Proof.
  induction n as [|n IH]; [cbn; ring|]. replace (2 * S n)%nat with (S (S (2 * n))) by lia. cbn [sum]. rewrite IH.
  replace (2 * n + 1)%nat with (S (2 * n)) by lia. ring.
Qed.
Lemma sum_rev k : forall f, sum (2 ^ k) (fun i => f (rev_nat k i)) = sum (2 ^ k) f.
Proof.
  induction k as [|k IH]; intros f; [reflexivity|].
  replace (2 ^ S k)%nat with (2 * 2 ^ k)%nat by (cbn [Nat.pow]; lia). rewrite sum_parity.
  rewrite (sum_ext _ _ (fun q => f (rev_nat k q))) by (intros; rewrite rev_nat_even; reflexivity).
  rewrite (sum_ext _ (fun q => f (rev_nat (S k) (2 * q + 1))) (fun q => (fun j => f (2 ^ k + j)%nat) (rev_nat k q))) by (intros; rewrite rev_nat_odd; reflexivity).
  rewrite IH, (IH (fun j => f (2 ^ k + j)%nat)). replace (2 * 2 ^ k)%nat with (2 ^ k + 2 ^ k)%nat by lia. rewrite sum_split. reflexivity.
Qed.
Lemma parseval k u t : (k < 31)%nat -> FastFourierTransform k u = Some t -> sum (2 ^ k) (fun s => Norm2 (nth s t (Real 0))) = 2 ^ k * sum (2 ^ k) (fun r => nth r u 0 * nth r u 0).
Proof.
  intros K. unfold FastFourierTransform. destruct (Nat.eqb_spec (2 ^ k) (length u)) as [L|L]; cbn [negb]; [|discriminate].
  destruct (reindex_spec k ltac:(lia) (fun i => nth i u 0) u 0 (repeat (Real 0) (2 ^ k))) as (l & R & LT & T).
  - apply repeat_length.
  - lia.
  - reflexivity.
  - lia.
  - cbn [Z.of_nat] in R. rewrite rev_zero in R. rewrite R. intros E. injection E as <-.
    rewrite <- energy_sum by apply (transform_spec k l LT). rewrite transform_energy, (energy_sum _ _ LT) by exact LT. f_equal.
    rewrite <- (sum_rev k). apply sum_ext. intros r R'. rewrite T by exact R'. unfold Norm2, Real. cbn [real_part imaginary_part]. ring.
Qed.

(** * Mode *)
(** The interval around a frequency with the largest power among those of the first half that are between the bounds. *)
Definition omega (n : nat) (dt : R) (j : nat) : R := 2 * PI * INR j / (INR n * dt).
Definition mode (n : nat) (dt : R) (power : nat -> R) (lo hi : R) (a b : R) : Prop :=
  exists m, (m <= n / 2)%nat /\ lo <= omega n dt m <= hi /\ (forall j, (j <= n / 2)%nat -> lo <= omega n dt j <= hi -> power j <= power m) /\
    a = omega n dt (m - 1) /\ b = omega n dt (m + 1).

Lemma rltb_true a b : Rltb a b = true <-> a < b.
Proof. unfold Rltb. destruct (Rlt_dec a b); split; intros; auto; try discriminate; contradiction. Qed.
Lemma rltb_false a b : Rltb a b = false <-> b <= a.
Proof. unfold Rltb. destruct (Rlt_dec a b); split; intros; auto; try discriminate; lra. Qed.
Definition between lo hi a : bool := (negb (Rltb a lo) && negb (Rltb hi a))%bool.
Lemma between_spec lo hi a : between lo hi a = true <-> lo <= a <= hi.
Proof. unfold between. rewrite andb_true_iff, !negb_true_iff, !rltb_false. reflexivity. Qed.
Lemma frequency_omega k dt j : dt <> 0 -> INR j * frequency_step k dt = omega (2 ^ k) dt j.
Proof. intros D. unfold frequency_step, omega. rewrite pow2_INR. field. split; [exact D|apply pow_nonzero; lra]. Qed.
Lemma frequency_ok k dt j : dt <> 0 -> frequency k dt j = omega (2 ^ k) dt j.
Proof. apply frequency_omega. Qed.
Lemma spectrum_nth k dt t j : dt <> 0 -> nth_error (PowerSpectrum k dt t) j = if Nat.ltb j (length t) then Some (omega (2 ^ k) dt j, Norm2 (nth j t (Real 0))) else None.
Proof.
  intros D. unfold PowerSpectrum. rewrite nth_error_map.
  assert (forall i, nth_error (combine (seq i (length t)) t) j = if Nat.ltb j (length t) then Some ((i + j)%nat, nth j t (Real 0)) else None) as ->.
  { revert j. induction t as [|c t IH]; intros [|j] i; cbn [length seq combine nth_error nth]; try reflexivity.
    - rewrite Nat.add_0_r. reflexivity.
    - rewrite IH. change (S j <? S (length t))%nat with (j <? length t)%nat. replace (S i + j)%nat with (i + S j)%nat by lia. reflexivity. }
  destruct (Nat.ltb j (length t)); cbn [option_map]; [|reflexivity]. rewrite Nat.add_0_l, frequency_omega by exact D. reflexivity.
Qed.
Definition best_of (om pw : nat -> R) lo hi (seen : nat) (max : option (nat * R)) : Prop :=
  match max with
  | None => forall j, (j < seen)%nat -> between lo hi (om j) = false
  | Some (m, p) => (m < seen)%nat /\ p = pw m /\ between lo hi (om m) = true /\ forall j, (j < seen)%nat -> between lo hi (om j) = true -> pw j <= p
  end.
Lemma maximum_spec spectrum om pw lo hi count : forall i max, (forall j, (j < i + count)%nat -> nth_error spectrum j = Some (om j, pw j)) -> best_of om pw lo hi i max ->
  exists max', maximum spectrum lo hi count i max = Some max' /\ best_of om pw lo hi (i + count) max'.
Proof.
  induction count as [|count IH]; intros i max N B; cbn [maximum]; [exists max; rewrite Nat.add_0_r; auto|].
  rewrite N by lia. replace (i + S count)%nat with (S i + count)%nat by lia. apply IH; [intros; apply N; lia|].
  fold (between lo hi (om i)). destruct (between lo hi (om i)) eqn:W; cbn [andb].
  - destruct max as [[m p]|].
    + destruct B as (M & -> & Wm & B). destruct (Rltb (pw m) (pw i)) eqn:L.
      * apply rltb_true in L. cbn. split; [lia|]. split; [reflexivity|]. split; [exact W|]. intros j J Wj. destruct (Nat.eq_dec j i) as [->|]; [lra|]. specialize (B j ltac:(lia) Wj). lra.
      * apply rltb_false in L. cbn. split; [lia|]. split; [reflexivity|]. split; [exact Wm|]. intros j J Wj. destruct (Nat.eq_dec j i) as [->|]; [lra|]. apply B; [lia|exact Wj].
    + cbn in B |- *. split; [lia|]. split; [reflexivity|]. split; [exact W|]. intros j J Wj. destruct (Nat.eq_dec j i) as [->|]; [lra|]. rewrite B in Wj by lia. discriminate.
  - destruct max as [[m p]|]; cbn in B |- *.
    + destruct B as (M & -> & Wm & B). split; [lia|]. split; [reflexivity|]. split; [exact Wm|]. intros j J Wj. destruct (Nat.eq_dec j i) as [->|]; [congruence|]. apply B; [lia|exact Wj].
    + intros j J. destruct (Nat.eq_dec j i) as [->|]; [exact W|]. apply B. lia.
Qed.
Lemma div2_pow k : Nat.div2 (2 ^ S k) = (2 ^ k)%nat.
Proof. change (2 ^ S k)%nat with (2 * 2 ^ k)%nat. apply Nat.div2_double. Qed.
Lemma omega_monotone n dt i j : (0 < n)%nat -> 0 < dt -> (i <= j)%nat -> omega n dt i <= omega n dt j.
Proof.
  intros N D H. apply lt_0_INR in N. apply le_INR in H. unfold omega, Rdiv. apply Rmult_le_compat_r.
  - left. apply Rinv_0_lt_compat. apply Rmult_lt_0_compat; assumption.
  - pose proof PI_RGT_0. apply Rmult_le_compat_l; lra.
Qed.
Lemma pow2_ge k : (1 <= 2 ^ k)%nat.
Proof. pose proof (Nat.pow_nonzero 2 k). lia. Qed.
Lemma mode_ok k dt t lo hi : (2 <= k)%nat -> 0 < dt -> length t = (2 ^ k)%nat -> lo <= hi ->
  (exists j, (j <= 2 ^ k / 2)%nat /\ lo <= omega (2 ^ k) dt j <= hi) ->
  exists a b, Mode k dt t lo hi = Some (a, b) /\ mode (2 ^ k) dt (fun j => Norm2 (nth j t (Real 0))) lo hi a b.
Proof.
  intros K D L LH (j0 & J0 & W0). unfold Mode. apply rltb_false in LH. rewrite LH.
  destruct k as [|[|k]]; [lia|lia|]. set (n := (2 ^ S (S k))%nat) in *.
  assert (HN : Nat.div2 n = (2 ^ S k)%nat) by apply div2_pow.
  assert (N2 : n = (2 * 2 ^ S k)%nat) by (unfold n; cbn [Nat.pow]; lia).
  assert (NH : (n / 2 = 2 ^ S k)%nat) by (rewrite N2, Nat.mul_comm; apply Nat.div_mul; lia).
  assert (GE : (2 <= 2 ^ S k)%nat) by (cbn [Nat.pow]; pose proof (pow2_ge k); lia).
  set (om := omega n dt). set (pw := fun j => Norm2 (nth j t (Real 0))).
  assert (NT : forall j, (j < n)%nat -> nth_error (PowerSpectrum (S (S k)) dt t) j = Some (om j, pw j)).
  { intros j J. rewrite spectrum_nth by lra. rewrite L. destruct (Nat.ltb_spec j n); [reflexivity|lia]. }
  rewrite HN.
  destruct (maximum_spec (PowerSpectrum (S (S k)) dt t) om pw lo hi (2 ^ S k + 1) 0 None) as (mx & -> & B).
  { intros j J. apply NT. lia. }
  { intros j J. lia. }
  rewrite Nat.add_0_l in B.
  destruct mx as [[m p]|]; cbn [best_of] in B.
  - destruct B as (M & -> & W & B).
    rewrite (NT (S m)) by lia.
    assert (nth_error (PowerSpectrum (S (S k)) dt t) match m with O => O | S p => p end = Some (om (m - 1)%nat, pw (m - 1)%nat)) as ->.
    { destruct m as [|m]; cbn [Nat.sub]; rewrite NT by lia; [|rewrite Nat.sub_0_r]; reflexivity. }
    assert (om (m - 1)%nat <= om (S m)) as O by (apply omega_monotone; [lia|exact D|lia]).
    rewrite Rmin_left, Rmax_right by exact O.
    eexists _, _. split; [reflexivity|]. exists m. split; [lia|]. apply between_spec in W. split; [exact W|]. split.
    + intros j J Wj. apply B; [lia|]. apply between_spec. exact Wj.
    + split; [reflexivity|]. unfold om. f_equal. lia.
  - exfalso. specialize (B j0 ltac:(lia)). apply between_spec in W0. unfold om in B. congruence.
Qed.
Lemma mode_none k dt t lo hi : 0 < dt -> length t = (2 ^ k)%nat -> (forall j, (j <= 2 ^ k / 2)%nat -> ~ (lo <= omega (2 ^ k) dt j <= hi)) -> Mode k dt t lo hi = None.
Proof.
  intros D L N. unfold Mode. destruct (Rltb hi lo) eqn:LH; [reflexivity|].
  set (om := omega (2 ^ k) dt). set (pw := fun j => Norm2 (nth j t (Real 0))).
  assert (HN : (Nat.div2 (2 ^ k) = 2 ^ k / 2)%nat) by apply Nat.div2_div.
  assert (G := pow2_ge k). assert (DL := Nat.div_lt (2 ^ k) 2 ltac:(lia) ltac:(lia)).
  destruct (maximum_spec (PowerSpectrum k dt t) om pw lo hi (Nat.div2 (2 ^ k) + 1) 0 None) as (mx & -> & B).
  { intros j J. rewrite spectrum_nth by lra. rewrite L. destruct (Nat.ltb_spec j (2 ^ k)); [reflexivity|lia]. }
  { intros j J. lia. }
  destruct mx as [[m p]|]; [|reflexivity]. cbn [best_of] in B. destruct B as (M & _ & W & _). apply between_spec in W. exfalso. apply (N m); [lia|exact W].
Qed.
(** With one or two values there may be nothing after the maximum. *)
Lemma mode_short dt t lo hi : 0 < dt -> length t = 2%nat -> 0 < lo -> lo <= PI / dt <= hi -> Mode 1 dt t lo hi = None.
Proof.
  intros D L P W. unfold Mode. destruct (Rltb hi lo) eqn:LH; [reflexivity|]. set (om := omega (2 ^ 1) dt). set (pw := fun j => Norm2 (nth j t (Real 0))).
  assert (O1 : om 1%nat = PI / dt). { unfold om, omega. cbn [Nat.pow Nat.mul Nat.add]. change (INR 1) with 1. change (INR 2) with 2. field. lra. }
  assert (O0 : om 0%nat = 0). { unfold om, omega. cbn [Nat.pow Nat.mul Nat.add]. change (INR 0) with 0. change (INR 2) with 2. field. lra. }
  change (Nat.div2 (2 ^ 1) + 1)%nat with 2%nat.
  destruct (maximum_spec (PowerSpectrum 1 dt t) om pw lo hi 2 0 None) as (mx & -> & B).
  { intros j J. rewrite spectrum_nth by lra. rewrite L. destruct (Nat.ltb_spec j 2); [reflexivity|lia]. }
  { intros j J. lia. }
  destruct mx as [[m p]|]; [|reflexivity]. cbn [best_of] in B. destruct B as (M & _ & Wm & _). apply between_spec in Wm.
  assert (m <> 0)%nat by (intros ->; lra). assert (m = 1)%nat as -> by lia.
  rewrite (spectrum_nth 1 dt t 2) by lra. rewrite L. cbn [Nat.ltb Nat.leb]. destruct (nth_error _ _) as [[? ?]|]; reflexivity.
Qed.
Lemma mode_single dt t lo hi : 0 < dt -> length t = 1%nat -> Mode 0 dt t lo hi = None.
Proof.
  intros D L. unfold Mode. destruct (Rltb hi lo); [reflexivity|]. destruct (maximum _ _ _ _ _ _) as [[[m p]|]|]; try reflexivity.
  rewrite (spectrum_nth 0 dt t (S m)) by lra. rewrite L. cbn [Nat.ltb Nat.leb]. destruct (nth_error _ _) as [[? ?]|]; reflexivity.
Qed.
