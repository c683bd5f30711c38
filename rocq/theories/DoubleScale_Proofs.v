(** Proofs about ScaleB, LogB, NextUp and NextDown. *)
From Coq Require Import ZArith Bool Reals Lra Lia Psatz.
From Flocq Require Import Core IEEE754.BinarySingleNaN IEEE754.Binary IEEE754.Bits Mult_error.
From Verif Require Import Double_Model Double_Proofs DoubleOrder_Proofs.
Open Scope R_scope.

Notation sign x := (Bsign 53 1024 x).
Lemma mul_ok : forall x y, fin x -> fin y -> Rabs (rounded (real x * real y)) < pow2 1024 ->
  fin (mul x y) /\ real (mul x y) = rounded (real x * real y) /\ sign (mul x y) = xorb (sign x) (sign y).
Proof.
  intros x y Hx Hy H. generalize (Bmult_correct 53 1024 (refl_equal _) (refl_equal _) binop_nan_pl64 mode_NE x y).
  change (round radix2 (SpecFloat.fexp 53 1024) (round_mode mode_NE) (B2R 53 1024 x * B2R 53 1024 y)) with (rounded (real x * real y)).
  rewrite Rlt_bool_true by exact H. intros [E [F G]]. unfold fin, finite in Hx, Hy. rewrite Hx, Hy in F.
  split; [exact F|]. split; [exact E|]. apply G. change (Bmult 53 1024 (refl_equal _) (refl_equal _) binop_nan_pl64 mode_NE x y) with (mul x y) in *. destruct (mul x y); try reflexivity; discriminate.
Qed.
Lemma mul_overflow : forall x y, pow2 1024 <= Rabs (rounded (real x * real y)) -> mul x y = B754_infinity 53 1024 (xorb (sign x) (sign y)).
Proof.
  intros x y H. generalize (Bmult_correct 53 1024 (refl_equal _) (refl_equal _) binop_nan_pl64 mode_NE x y).
  change (round radix2 (SpecFloat.fexp 53 1024) (round_mode mode_NE) (B2R 53 1024 x * B2R 53 1024 y)) with (rounded (real x * real y)).
  rewrite Rlt_bool_false by exact H. intros E. change (Bmult 53 1024 (refl_equal _) (refl_equal _) binop_nan_pl64 mode_NE x y) with (mul x y) in *.
  unfold binary_overflow in E. simpl in E. destruct (mul x y); simpl in E; try discriminate. injection E as ->. reflexivity.
Qed.
Lemma div_ok : forall x y, fin x -> real y <> 0 -> Rabs (rounded (real x / real y)) < pow2 1024 ->
  fin (div x y) /\ real (div x y) = rounded (real x / real y) /\ sign (div x y) = xorb (sign x) (sign y).
Proof.
  intros x y Hx Hy H. generalize (Bdiv_correct 53 1024 (refl_equal _) (refl_equal _) binop_nan_pl64 mode_NE x y Hy).
  change (round radix2 (SpecFloat.fexp 53 1024) (round_mode mode_NE) (B2R 53 1024 x / B2R 53 1024 y)) with (rounded (real x / real y)).
  rewrite Rlt_bool_true by exact H. intros [E [F G]]. unfold fin, finite in Hx. rewrite Hx in F.
  split; [exact F|]. split; [exact E|]. apply G. change (Bdiv 53 1024 (refl_equal _) (refl_equal _) binop_nan_pl64 mode_NE x y) with (div x y) in *. destruct (div x y); try reflexivity; discriminate.
Qed.
Lemma real_of_Z2 : forall m e, representable (IZR m * pow2 e) -> Rabs (IZR m * pow2 e) < pow2 1024 ->
  fin (of_Z2 m e) /\ real (of_Z2 m e) = IZR m * pow2 e.
Proof.
  intros m e F B. unfold of_Z2, fin, finite, real.
  generalize (binary_normalize_correct 53 1024 (refl_equal _) (refl_equal _) mode_NE m e false). cbv zeta.
  change (F2R (Float radix2 m e)) with (IZR m * pow2 e).
  change (round radix2 (SpecFloat.fexp 53 1024) (round_mode mode_NE) (IZR m * pow2 e)) with (rounded (IZR m * pow2 e)). rewrite (rounded_id _ F).
  rewrite Rlt_bool_true by exact B. intros [E [G _]]. split; assumption.
Qed.
Lemma real_of_pow2 : forall e, (-1074 <= e < 1024)%Z -> fin (of_Z2 1 e) /\ real (of_Z2 1 e) = pow2 e.
Proof.
  intros e H. destruct (real_of_Z2 1 e) as [F E].
  - rewrite Rmult_1_l. apply representable_pow2. lia.
  - rewrite Rmult_1_l, Rabs_pos_eq by apply bpow_ge_0. apply bpow_lt. lia.
  - split; [exact F|]. rewrite E. ring.
Qed.
Lemma real_min : fin min /\ real min = pow2 (-1022). Proof. apply real_of_pow2. lia. Qed.
Lemma real_denorm_min : fin denorm_min /\ real denorm_min = pow2 (-1074). Proof. apply real_of_pow2. lia. Qed.
Lemma real_epsilon : fin epsilon /\ real epsilon = pow2 (-52). Proof. apply real_of_pow2. lia. Qed.
Lemma real_one : fin one /\ real one = 1. Proof. exact (real_of_small 1 ltac:(vm_compute; discriminate)). Qed.
Lemma real_radix : fin Double_Model.radix /\ real Double_Model.radix = 2. Proof. exact (real_of_small 2 ltac:(vm_compute; discriminate)). Qed.
Lemma sign_radix : sign Double_Model.radix = false. Proof. reflexivity. Qed.

Lemma rounded_small : forall x, Rabs x < pow2 (-1075) -> rounded x = 0.
Proof.
  intros x H. destruct (Req_dec x 0) as [->|NZ]; [apply rounded_id, generic_format_0|].
  apply (round_N_small radix2 (FLT_exp (-1074) 53) (fun x => negb (Z.even x)) x (mag radix2 x)).
  - destruct (mag radix2 x) as [e He]. simpl. apply He, NZ.
  - assert (M : (mag radix2 x <= -1075)%Z). { apply mag_le_bpow; assumption. } unfold FLT_exp. lia.
Qed.
Lemma representable_scale : forall x e, representable x -> (0 <= e)%Z -> representable (x * pow2 e).
Proof.
  intros x e F H. destruct (Req_dec x 0) as [->|NZ]; [rewrite Rmult_0_l; apply generic_format_0|].
  assert (E : x = IZR (Ztrunc (scaled_mantissa radix2 (FLT_exp (-1074) 53) x)) * pow2 (cexp radix2 (FLT_exp (-1074) 53) x)) by exact F.
  apply generic_format_FLT. exists (Float radix2 (Ztrunc (scaled_mantissa radix2 (FLT_exp (-1074) 53) x)) (cexp radix2 (FLT_exp (-1074) 53) x + e)).
  - unfold F2R. cbn [Fnum Fexp]. rewrite bpow_plus, <- Rmult_assoc, <- E. reflexivity.
  - cbn [Fnum]. apply lt_IZR. rewrite abs_IZR. change (IZR (radix2 ^ 53)) with (pow2 53). apply Rmult_lt_reg_r with (pow2 (cexp radix2 (FLT_exp (-1074) 53) x)); [apply bpow_gt_0|].
    rewrite <- (Rabs_pos_eq (pow2 (cexp _ _ _))) at 1 by apply bpow_ge_0. rewrite <- Rabs_mult, <- E, <- bpow_plus.
    apply Rlt_le_trans with (pow2 (mag radix2 x)); [apply bpow_mag_gt|]. apply bpow_le. unfold cexp, FLT_exp. lia.
  - cbn [Fexp]. unfold cexp, FLT_exp. lia.
Qed.
Lemma representable_half : forall x, representable x -> pow2 (-1021) <= Rabs x -> representable (x / 2).
Proof.
  intros x F H. replace (x / 2) with (x * pow2 (-1)) by (change (pow2 (-1)) with (/ 2); reflexivity).
  apply mult_bpow_exact_FLT; [exact F|]. assert ((-1021 + 1 <= mag radix2 x)%Z). { apply mag_ge_bpow. replace (-1021 + 1 - 1)%Z with (-1021)%Z by reflexivity. exact H. } lia.
Qed.
Lemma double_pow2 : forall e, pow2 (e + 1) = 2 * pow2 e.
Proof. intros e. rewrite bpow_plus. change (pow2 1) with 2. ring. Qed.

(** * ScaleB *)
Definition inf (s : bool) : double := B754_infinity 53 1024 s.
Lemma scale_up_inf : forall n s, scale_up n (inf s) = inf s.
Proof. induction n as [|n IH]; intros s; [reflexivity|]. cbn [scale_up]. change (mul (inf s) Double_Model.radix) with (inf (xorb s false)). rewrite xorb_false_r. apply IH. Qed.
Lemma scale_up_spec : forall n x, fin x ->
  (Rabs (real x * pow2 (Z.of_nat n)) < pow2 1024 -> fin (scale_up n x) /\ real (scale_up n x) = real x * pow2 (Z.of_nat n) /\ sign (scale_up n x) = sign x) /\
  (pow2 1024 <= Rabs (real x * pow2 (Z.of_nat n)) -> scale_up n x = inf (sign x)).
Proof.
  induction n as [|n IH]; intros x F.
  - simpl Z.of_nat. simpl (pow2 0). rewrite Rmult_1_r. split; [intros _; repeat split; exact F|]. intros H. pose proof (real_bound x). lra.
  - cbn [scale_up]. rewrite Nat2Z.inj_succ. unfold Z.succ. rewrite double_pow2.
    destruct real_radix as [FR ER].
    assert (RP : representable (real x * real Double_Model.radix)). { rewrite ER. change 2 with (pow2 1). apply representable_scale; [apply representable_real|lia]. }
    assert (P : 1 <= pow2 (Z.of_nat n)). { change 1 with (pow2 0). apply bpow_le. lia. }
    destruct (Rlt_or_le (Rabs (rounded (real x * real Double_Model.radix))) (pow2 1024)) as [L|L].
    + destruct (mul_ok x _ F FR L) as [F2 [E2 S2]]. rewrite (rounded_id _ RP), ER in E2. rewrite sign_radix, xorb_false_r in S2.
      destruct (IH _ F2) as [I1 I2]. rewrite E2, S2 in *. replace (real x * (2 * pow2 (Z.of_nat n))) with (real x * 2 * pow2 (Z.of_nat n)) by ring. split; assumption.
    + rewrite (mul_overflow _ _ L), sign_radix, xorb_false_r. rewrite scale_up_inf. rewrite (rounded_id _ RP), ER in L.
      split; [|reflexivity]. intros H. exfalso. replace (real x * (2 * pow2 (Z.of_nat n))) with (real x * 2 * pow2 (Z.of_nat n)) in H by ring.
      rewrite Rabs_mult, (Rabs_pos_eq (pow2 (Z.of_nat n))) in H by lra. pose proof (Rabs_pos (real x * 2)). nra.
Qed.
Lemma radix_power_inf : forall n, radix_power n infinity = infinity.
Proof. induction n as [|n IH]; [reflexivity|exact IH]. Qed.
Lemma radix_power_scale : forall n x, radix_power n x = scale_up n x.
Proof. induction n as [|n IH]; intros x; [reflexivity|apply IH]. Qed.
Lemma div_power : forall n x, fin x -> (n <= 1023)%nat \/ Rabs (real x) < pow2 (-1021) ->
  fin (div x (radix_power n one)) /\ real (div x (radix_power n one)) = rounded (real x * pow2 (- Z.of_nat n)) /\ sign (div x (radix_power n one)) = sign x.
Proof.
  intros n x F H. rewrite radix_power_scale. destruct real_one as [F1 E1]. destruct (scale_up_spec n one F1) as [U1 U2]. rewrite E1, Rmult_1_l in *.
  rewrite Rabs_pos_eq in U1, U2 by apply bpow_ge_0.
  destruct (le_lt_dec n 1023) as [L|L].
  - destruct U1 as [FP [EP SP]]; [apply bpow_lt; lia|].
    assert (B : Rabs (rounded (real x / real (scale_up n one))) < pow2 1024).
    { rewrite EP. apply Rle_lt_trans with (Rabs (real x)); [|apply real_bound]. apply rounded_abs_le; [apply generic_format_abs, representable_real|].
      unfold Rdiv. rewrite Rabs_mult. rewrite <- (Rmult_1_r (Rabs (real x))) at 2. apply Rmult_le_compat_l; [apply Rabs_pos|].
      rewrite <- bpow_opp. rewrite Rabs_pos_eq by apply bpow_ge_0. change 1 with (pow2 0). apply bpow_le. lia. }
    destruct (div_ok x (scale_up n one) F) as [FD [ED SD]]; [rewrite EP; apply Rgt_not_eq, bpow_gt_0|exact B|].
    split; [exact FD|]. split; [rewrite ED, EP; unfold Rdiv; rewrite <- bpow_opp; reflexivity|]. rewrite SD, SP. apply xorb_false_r.
  - destruct H as [H|H]; [lia|]. rewrite U2 by (apply bpow_le; lia). change (sign one) with false.
    assert (D : div x (inf false) = B754_zero 53 1024 (sign x)). { destruct x as [s|s|s ? ?|s m e HB]; try discriminate F; destruct s; reflexivity. }
    rewrite D. split; [reflexivity|]. split; [|reflexivity]. symmetry. apply rounded_small.
    rewrite Rabs_mult, (Rabs_pos_eq (pow2 _)) by apply bpow_ge_0. apply Rlt_le_trans with (pow2 (-1021) * pow2 (- Z.of_nat n)).
    + apply Rmult_lt_compat_r; [apply bpow_gt_0|exact H].
    + rewrite <- bpow_plus. apply bpow_le. lia.
Qed.
Lemma two_min : fin (mul Double_Model.radix min) /\ real (mul Double_Model.radix min) = pow2 (-1021).
Proof.
  destruct real_radix as [FR ER]. destruct real_min as [FM EM].
  assert (E : real Double_Model.radix * real min = pow2 (-1021)). { rewrite ER, EM, <- double_pow2. reflexivity. }
  destruct (mul_ok _ _ FR FM) as [F [R _]]; rewrite E, rounded_id in * by (apply representable_pow2; lia).
  - rewrite Rabs_pos_eq by apply bpow_ge_0. apply bpow_lt. lia.
  - split; assumption.
Qed.
Lemma scale_down_spec : forall n x, fin x -> 0 <= real x \/ (n <= 1023)%nat ->
  fin (scale_down n x) /\ real (scale_down n x) = rounded (real x * pow2 (- Z.of_nat n)) /\ sign (scale_down n x) = sign x.
Proof.
  induction n as [|n IH]; intros x F H.
  - cbn [scale_down]. simpl. rewrite Rmult_1_r, rounded_id by apply representable_real. repeat split. exact F.
  - cbn [scale_down]. destruct two_min as [FM EM]. destruct (lt x (mul Double_Model.radix min)) eqn:L.
    + apply lt_fin in L; [|exact F|exact FM]. rewrite EM in L. apply div_power; [exact F|].
      destruct H as [H|H]; [right; rewrite Rabs_pos_eq by exact H; exact L|left; exact H].
    + assert (L' : pow2 (-1021) <= real x). { apply Rnot_lt_le. intros Q. rewrite <- EM in Q. apply (lt_fin x _ F FM) in Q. congruence. }
      pose proof (bpow_gt_0 radix2 (-1021)) as P. destruct real_radix as [FR ER].
      assert (RH : representable (real x / 2)). { apply representable_half; [apply representable_real|]. rewrite Rabs_pos_eq by lra. exact L'. }
      destruct (div_ok x Double_Model.radix F) as [FD [ED SD]]; [rewrite ER; lra| |].
      { rewrite ER, rounded_id by exact RH. unfold Rdiv. rewrite Rabs_mult. rewrite (Rabs_pos_eq (/ 2)) by lra. pose proof (real_bound x). pose proof (Rabs_pos (real x)). lra. }
      rewrite ER, rounded_id in ED by exact RH. rewrite sign_radix, xorb_false_r in SD.
      destruct (IH _ FD) as [I1 [I2 I3]]. { left. rewrite ED. lra. }
      split; [exact I1|]. split; [|rewrite I3; exact SD]. rewrite I2, ED. f_equal. unfold Rdiv. rewrite Rmult_assoc. f_equal.
      change (/ 2) with (pow2 (-1)). rewrite <- bpow_plus. f_equal. lia.
Qed.
Theorem scale_b_correct : forall x N, fin x -> 0 <= real x \/ (-1023 <= N)%Z ->
  (Rabs (rounded (real x * pow2 N)) < pow2 1024 -> fin (ScaleB x N) /\ real (ScaleB x N) = rounded (real x * pow2 N) /\ sign (ScaleB x N) = sign x) /\
  (pow2 1024 <= Rabs (rounded (real x * pow2 N)) -> ScaleB x N = inf (sign x)).
Proof.
  intros x N F H. unfold ScaleB. destruct (Z.ltb_spec N 0) as [L|L].
  - destruct (scale_down_spec (Z.to_nat (- N)) x F) as [S1 [S2 S3]]; [destruct H as [H|H]; [left; exact H|right; lia]|].
    rewrite Z2Nat.id, Z.opp_involutive in S2 by lia. split; [intros _; repeat split; assumption|].
    intros Q. exfalso. rewrite <- S2 in Q. pose proof (real_bound (scale_down (Z.to_nat (- N)) x)). lra.
  - destruct (scale_up_spec (Z.to_nat N) x F) as [S1 S2]. rewrite Z2Nat.id in S1, S2 by exact L.
    rewrite rounded_id by (apply representable_scale; [apply representable_real|exact L]). split; assumption.
Qed.
Lemma real_sign_inj : forall x y, fin x -> fin y -> real x = real y -> sign x = sign y -> x = y.
Proof. intros x y Fx Fy. apply B2R_Bsign_inj; assumption. Qed.
Lemma sign_opp : forall x, fin x -> sign (opp x) = negb (sign x).
Proof. intros x F. destruct x; try discriminate F; reflexivity. Qed.
Theorem scale_b_opp : forall x N, fin x -> (-1023 <= N)%Z -> ScaleB (opp x) N = opp (ScaleB x N).
Proof.
  intros x N F H. assert (Fo : fin (opp x)) by (apply fin_opp; exact F).
  destruct (scale_b_correct x N F (or_intror H)) as [A1 A2]. destruct (scale_b_correct (opp x) N Fo (or_intror H)) as [B1 B2].
  rewrite real_opp, <- Ropp_mult_distr_l, rounded_opp, Rabs_Ropp, (sign_opp x F) in B1, B2.
  destruct (Rlt_or_le (Rabs (rounded (real x * pow2 N))) (pow2 1024)) as [L|L].
  - destruct (A1 L) as [A [AR AS]]. destruct (B1 L) as [B [BR BS]]. apply real_sign_inj; [exact B|apply fin_opp; exact A| |].
    + rewrite real_opp, AR, BR. reflexivity.
    + rewrite sign_opp, BS, AS by exact A. reflexivity.
  - rewrite A2, B2 by exact L. reflexivity.
Qed.
(** A negative number is scaled to zero by every power below 2⁻¹⁰²³. *)
Theorem scale_b_negative : forall x N, fin x -> real x < 0 -> (N <= -1024)%Z -> ScaleB x N = minus_zero.
Proof.
  intros x N F X H. unfold ScaleB. destruct (Z.ltb_spec N 0) as [_|L]; [|lia].
  assert (exists n, Z.to_nat (- N) = S n /\ (1024 <= S n)%nat) as [n [-> Hn]]. { exists (Nat.pred (Z.to_nat (- N))). lia. }
  cbn [scale_down]. destruct two_min as [FM EM]. assert (L : lt x (mul Double_Model.radix min) = true).
  { apply lt_fin; [exact F|exact FM|]. rewrite EM. pose proof (bpow_gt_0 radix2 (-1021)). lra. }
  rewrite L. rewrite radix_power_scale. destruct real_one as [F1 E1]. destruct (scale_up_spec (S n) one F1) as [_ U].
  rewrite U by (rewrite E1, Rmult_1_l, Rabs_pos_eq by apply bpow_ge_0; apply bpow_le; lia). change (sign one) with false.
  destruct x as [s|s|s ? ?|s m e HB]; try discriminate F; [unfold real in X; simpl in X; lra|].
  destruct s; [reflexivity|]. exfalso. unfold real, B2R in X. assert (0 < F2R (Float radix2 (Zpos m) e)) by (apply F2R_gt_0; reflexivity). simpl in X. lra.
Qed.
