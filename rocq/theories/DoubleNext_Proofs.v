(** Proofs about LogB, NextUp and NextDown. *)
From Coq Require Import ZArith Bool Reals Lra Lia Psatz.
From Flocq Require Import Core IEEE754.BinarySingleNaN IEEE754.Binary IEEE754.Bits Mult_error.
From Verif Require Import Double_Model Double_Proofs DoubleOrder_Proofs DoubleScale_Proofs.
Open Scope R_scope.

Notation fexp64 := (FLT_exp (-1074) 53).

(** * LogB *)
Lemma log_up_spec : forall fuel s r, fin s -> pow2 (- Z.of_nat fuel) <= real s ->
  exists j, (0 <= j)%Z /\ fin (fst (log_up fuel s r)) /\ real (fst (log_up fuel s r)) = real s * pow2 j /\ snd (log_up fuel s r) = (r - j)%Z /\
  1 <= real (fst (log_up fuel s r)) /\ (real s < pow2 1024 -> real (fst (log_up fuel s r)) < pow2 1024).
Proof.
  induction fuel as [|fuel IH]; intros s r F H.
  - exists 0%Z. simpl. simpl in H. repeat split; try lia; try lra; try exact F.
  - cbn [log_up]. destruct real_one as [F1 E1]. destruct (lt s one) eqn:L.
    + apply lt_fin in L; [|exact F|exact F1]. rewrite E1 in L. destruct real_radix as [FR ER].
      assert (P : 0 < real s). { eapply Rlt_le_trans; [apply bpow_gt_0|exact H]. }
      assert (RP : representable (real s * 2)). { change 2 with (pow2 1). apply representable_scale; [apply representable_real|lia]. }
      destruct (mul_ok s _ F FR) as [FM [EM _]]; rewrite ER, rounded_id in * by exact RP.
      { rewrite Rabs_pos_eq by lra. apply Rlt_le_trans with (pow2 1); [change (pow2 1) with 2; lra|apply bpow_le; lia]. }
      destruct (IH _ (r - 1)%Z FM) as [j [J0 [J1 [J2 [J3 [J4 J5]]]]]].
      { rewrite EM. apply Rmult_le_reg_r with (pow2 (-1)); [apply bpow_gt_0|]. rewrite <- bpow_plus. change (pow2 (-1)) with (/ 2).
        rewrite Nat2Z.inj_succ in H. replace (- Z.of_nat fuel + -1)%Z with (- Z.succ (Z.of_nat fuel))%Z by lia. lra. }
      exists (j + 1)%Z. rewrite J2, J3, EM. split; [lia|]. split; [exact J1|]. split; [rewrite bpow_plus; change (pow2 1) with 2; ring|]. split; [lia|].
      rewrite J2, EM in J4. split; [exact J4|]. intros _. rewrite <- EM, <- J2. apply Rle_lt_trans with (Rabs (real (fst (log_up fuel (mul s Double_Model.radix) (r - 1))))); [apply Rle_abs|apply real_bound].
    + exists 0%Z. cbn [fst snd]. simpl (pow2 0). assert (1 <= real s). { apply Rnot_lt_le. intros Q. rewrite <- E1 in Q. apply (lt_fin s _ F F1) in Q. congruence. }
      repeat split; try lia; try lra; exact F.
Qed.
Lemma log_down_spec : forall fuel s r, fin s -> 1 <= real s -> real s < pow2 (Z.of_nat fuel + 1) ->
  log_down fuel s r = (r + (mag radix2 (real s) - 1))%Z.
Proof.
  induction fuel as [|fuel IH]; intros s r F H1 H2.
  - cbn [log_down]. assert (M : mag radix2 (real s) = 1%Z :> Z). { apply mag_unique. rewrite Rabs_pos_eq by lra. simpl. simpl in H2. split; [lra|exact H2]. } rewrite M. lia.
  - cbn [log_down]. destruct real_radix as [FR ER]. destruct (le Double_Model.radix s) eqn:L.
    + apply le_fin in L; [|exact FR|exact F]. rewrite ER in L.
      assert (RH : representable (real s / 2)). { apply representable_half; [apply representable_real|]. rewrite Rabs_pos_eq by lra. apply Rle_trans with (pow2 0); [apply bpow_le; lia|simpl; lra]. }
      destruct (div_ok s Double_Model.radix F) as [FD [ED _]]; [rewrite ER; lra| |].
      { rewrite ER, rounded_id by exact RH. unfold Rdiv. rewrite Rabs_mult. rewrite (Rabs_pos_eq (/ 2)) by lra. pose proof (real_bound s). pose proof (Rabs_pos (real s)). lra. }
      rewrite ER, rounded_id in ED by exact RH.
      rewrite IH; [|exact FD|rewrite ED; lra|].
      * rewrite ED. replace (real s / 2) with (real s * pow2 (-1)) by reflexivity. rewrite mag_mult_bpow by lra. lia.
      * rewrite ED. rewrite Nat2Z.inj_succ in H2. unfold Z.succ in H2. rewrite double_pow2 in H2. lra.
    + assert (real s < 2). { apply Rnot_le_lt. intros Q. rewrite <- ER in Q. apply (le_fin _ s FR F) in Q. congruence. }
      assert (M : mag radix2 (real s) = 1%Z :> Z). { apply mag_unique. rewrite Rabs_pos_eq by lra. change (pow2 (1 - 1)) with 1. change (pow2 1) with 2. lra. } rewrite M. lia.
Qed.
Lemma abs_ok : forall x, fin x -> fin (if lt zero x then x else sub zero x) /\ real (if lt zero x then x else sub zero x) = Rabs (real x).
Proof.
  intros x F. destruct (lt zero x) eqn:L.
  - apply lt_fin in L; [|reflexivity|exact F]. change (real zero) with 0 in L. split; [exact F|]. rewrite Rabs_pos_eq by lra. reflexivity.
  - assert (L' : real x <= 0). { apply Rnot_lt_le. intros Q. assert (lt zero x = true) by (apply lt_fin; [reflexivity|exact F|exact Q]). congruence. }
    rewrite Rabs_left1 by exact L'. destruct x as [s|s|s ? ?|s m e H]; try discriminate F.
    + destruct s; simpl; split; try reflexivity; unfold real; simpl; ring.
    + generalize (Bminus_correct 53 1024 (refl_equal _) (refl_equal _) binop_nan_pl64 mode_NE zero (B754_finite 53 1024 s m e H) eq_refl eq_refl).
      change (round radix2 (SpecFloat.fexp 53 1024) (round_mode mode_NE) (B2R 53 1024 zero - B2R 53 1024 (B754_finite 53 1024 s m e H))) with (rounded (0 - real (B754_finite 53 1024 s m e H))).
      rewrite Rminus_0_l, rounded_id by (apply representable_opp, representable_real). rewrite Rabs_Ropp. rewrite Rlt_bool_true by apply real_bound.
      intros [E [G _]]. split; [exact G|exact E].
Qed.
Lemma representable_lower_bound : forall x, representable x -> x <> 0 -> pow2 (-1074) <= Rabs x.
Proof.
  intros x F NZ. assert (E : x = IZR (Ztrunc (scaled_mantissa radix2 fexp64 x)) * pow2 (cexp radix2 fexp64 x)) by exact F.
  set (n := Ztrunc _) in E. rewrite E at 1. rewrite Rabs_mult, (Rabs_pos_eq (pow2 _)) by apply bpow_ge_0. rewrite <- abs_IZR.
  apply Rle_trans with (1 * pow2 (cexp radix2 fexp64 x)).
  - rewrite Rmult_1_l. apply bpow_le. unfold cexp, FLT_exp. lia.
  - apply Rmult_le_compat_r; [apply bpow_ge_0|]. apply IZR_le. assert (n <> 0)%Z by (intros ->; apply NZ; rewrite E; ring). lia.
Qed.
(** The binary exponent of a number: the greatest e such that 2ᵉ ≤ |x|. *)
Definition is_exponent (e : Z) (x : R) : Prop := pow2 e <= Rabs x < pow2 (e + 1).
Theorem log_b_mag : forall x, fin x -> real x <> 0 -> LogB x = (mag radix2 (real x) - 1)%Z.
Proof.
  intros x F NZ. unfold LogB. destruct (abs_ok x F) as [FA EA]. set (a := if lt zero x then x else sub zero x) in *.
  pose proof (representable_lower_bound _ (representable_real x) NZ) as LB.
  pose proof (log_up_spec 1100 a 0 FA) as U. destruct U as [j [J0 [J1 [J2 [J3 [J4 J5]]]]]].
  { rewrite EA. apply Rle_trans with (pow2 (-1074)); [apply bpow_le; lia|exact LB]. }
  destruct (log_up 1100 a 0) as [s r]. cbn [fst snd] in *.
  rewrite log_down_spec; [|exact J1|exact J4|].
  - rewrite J2, J3, EA, mag_mult_bpow by (apply Rabs_no_R0; exact NZ). rewrite mag_abs. lia.
  - apply Rlt_le_trans with (pow2 1024); [apply J5; rewrite EA; apply real_bound|]. apply bpow_le. lia.
Qed.
Theorem log_b_exponent : forall x, fin x -> real x <> 0 -> is_exponent (LogB x) (real x).
Proof.
  intros x F NZ. rewrite log_b_mag by assumption. unfold is_exponent. destruct (mag radix2 (real x)) as [e He]. simpl. specialize (He NZ).
  replace (e - 1 + 1)%Z with e by ring. exact He.
Qed.

(** * NextUp *)
Lemma le_bool_fin : forall x y, fin x -> fin y -> le x y = Rle_bool (real x) (real y).
Proof. intros x y Hx Hy. destruct (le x y) eqn:E; symmetry; [apply Rle_bool_true, le_fin; assumption|]. apply Rle_bool_false. apply Rnot_le_lt. intros Q. apply (le_fin x y Hx Hy) in Q. congruence. Qed.
Lemma lt_bool_fin : forall x y, fin x -> fin y -> lt x y = Rlt_bool (real x) (real y).
Proof. intros x y Hx Hy. destruct (lt x y) eqn:E; symmetry; [apply Rlt_bool_true, lt_fin; assumption|]. apply Rlt_bool_false. apply Rnot_lt_le. intros Q. apply (lt_fin x y Hx Hy) in Q. congruence. Qed.
Lemma eq_bool_fin : forall x y, fin x -> fin y -> eq x y = Req_bool (real x) (real y).
Proof. intros x y Hx Hy. destruct (eq x y) eqn:E; symmetry; [apply Req_bool_true, eq_fin; assumption|]. apply Req_bool_false. intros Q. apply (eq_fin x y Hx Hy) in Q. congruence. Qed.
Lemma eq_inf : forall x s, fin x -> eq x (inf s) = false.
Proof. intros x s F. destruct x as [[]|[]|? ? ?|[] ? ? ?]; try discriminate F; destruct s; reflexivity. Qed.
Lemma add_exact : forall x y z, fin x -> fin y -> real x + real y = z -> representable z -> Rabs z < pow2 1024 -> fin (add x y) /\ real (add x y) = z.
Proof.
  intros x y z Hx Hy E F B. generalize (Bplus_correct 53 1024 (refl_equal _) (refl_equal _) binop_nan_pl64 mode_NE x y Hx Hy).
  change (round radix2 (SpecFloat.fexp 53 1024) (round_mode mode_NE) (B2R 53 1024 x + B2R 53 1024 y)) with (rounded (real x + real y)).
  rewrite E, rounded_id by exact F. rewrite Rlt_bool_true by exact B. intros [R [G _]]. split; [exact G|exact R].
Qed.
Notation successor := (succ radix2 fexp64).
Lemma successor_opp_denorm_min : successor (- pow2 (-1074)) = 0.
Proof.
  pose proof (bpow_gt_0 radix2 (-1074)). unfold succ. rewrite Rle_bool_false by lra. rewrite Ropp_involutive. unfold pred_pos. rewrite mag_bpow. change (-1074 + 1 - 1)%Z with (-1074)%Z.
  rewrite Req_bool_true by reflexivity. change (fexp64 (-1074)) with (-1074)%Z. ring.
Qed.
Lemma successor_zero : successor 0 = pow2 (-1074).
Proof.
  rewrite succ_0. unfold ulp. rewrite Req_bool_true by reflexivity.
  destruct (negligible_exp_FLT (-1074) 53) as [n [-> Hn]]. f_equal. unfold FLT_exp in *. lia.
Qed.
Lemma successor_small : forall x, x <> 0 -> - pow2 (-1022) <= x < pow2 (-1022) -> successor x = x + pow2 (-1074).
Proof.
  intros x NZ H.
  destruct (Rlt_or_le x 0) as [L|L].
  - unfold succ. rewrite Rle_bool_false by exact L.
    assert (M : (mag radix2 (- x) <= -1021)%Z). { apply mag_le_bpow; [lra|]. rewrite Rabs_pos_eq by lra. apply Rle_lt_trans with (pow2 (-1022)); [lra|apply bpow_lt; lia]. }
    unfold pred_pos. rewrite ulp_neq_0 by lra. unfold cexp.
    replace (fexp64 (mag radix2 (- x) - 1)) with (-1074)%Z by (unfold FLT_exp; lia). replace (fexp64 (mag radix2 (- x))) with (-1074)%Z by (unfold FLT_exp; lia).
    destruct (Req_bool _ _); ring.
  - rewrite succ_eq_pos by exact L. rewrite ulp_neq_0 by exact NZ. unfold cexp.
    assert (M : (mag radix2 x <= -1021)%Z). { apply mag_le_bpow; [exact NZ|]. rewrite Rabs_pos_eq by lra. apply Rlt_trans with (pow2 (-1022)); [lra|apply bpow_lt; lia]. }
    replace (fexp64 (mag radix2 x)) with (-1074)%Z by (unfold FLT_exp; lia). reflexivity.
Qed.
Lemma successor_normal : forall x, x < - pow2 (-1022) \/ pow2 (-1022) <= x ->
  successor x = if Req_bool (x * pow2 (- (mag radix2 x - 1))) (- (1)) then x + pow2 (mag radix2 x - 54) else x + pow2 (mag radix2 x - 53).
Proof.
  intros x H. pose proof (bpow_gt_0 radix2 (-1022)) as P. destruct (Rlt_or_le x 0) as [L|L].
  - unfold succ. rewrite Rle_bool_false by exact L. unfold pred_pos. rewrite mag_opp. rewrite ulp_neq_0 by lra. unfold cexp. rewrite mag_opp.
    assert (M : (-1021 <= mag radix2 x)%Z). { apply mag_ge_bpow. rewrite Rabs_left by exact L. simpl Z.sub. lra. }
    assert (Q : Req_bool (- x) (pow2 (mag radix2 x - 1)) = Req_bool (x * pow2 (- (mag radix2 x - 1))) (- (1))).
    { pose proof (bpow_gt_0 radix2 (mag radix2 x - 1)) as PM. rewrite bpow_opp. destruct (Req_bool_spec (- x) (pow2 (mag radix2 x - 1))) as [E|E]; symmetry.
      - apply Req_bool_true. rewrite <- E. field. lra.
      - apply Req_bool_false. intros Q. apply E. assert (x = - pow2 (mag radix2 x - 1)).
        { apply Rmult_eq_reg_r with (/ pow2 (mag radix2 x - 1)); [rewrite Q; field; lra|]. apply Rinv_neq_0_compat. lra. } lra. }
    rewrite <- Q. destruct (Req_bool_spec (- x) (pow2 (mag radix2 x - 1))) as [E|E].
    + assert (M2 : (-1020 <= mag radix2 x)%Z).
      { destruct (Z.eq_dec (mag radix2 x) (-1021)) as [Z|Z]; [|lia]. rewrite Z in E. simpl Z.sub in E. lra. }
      replace (fexp64 (mag radix2 x - 1)) with (mag radix2 x - 54)%Z by (unfold FLT_exp; lia). ring.
    + replace (fexp64 (mag radix2 x)) with (mag radix2 x - 53)%Z by (unfold FLT_exp; lia). ring.
  - assert (X : pow2 (-1022) <= x) by lra. rewrite Req_bool_false.
    2:{ pose proof (bpow_gt_0 radix2 (- (mag radix2 x - 1))). nra. }
    rewrite succ_eq_pos by exact L. rewrite ulp_neq_0 by lra. unfold cexp.
    assert (M : (-1021 <= mag radix2 x)%Z). { apply mag_ge_bpow. rewrite Rabs_pos_eq by exact L. simpl Z.sub. exact X. }
    replace (fexp64 (mag radix2 x)) with (mag radix2 x - 53)%Z by (unfold FLT_exp; lia). reflexivity.
Qed.
Theorem next_up_successor : forall x, fin x -> successor (real x) < pow2 1024 -> fin (NextUp x) /\ real (NextUp x) = successor (real x).
Proof.
  intros x F B. destruct real_denorm_min as [FD ED]. destruct real_min as [FM EM]. destruct real_one as [F1 E1]. destruct real_radix as [FR ER].
  assert (FDo : fin (opp denorm_min)) by (apply fin_opp; exact FD). assert (FMo : fin (opp min)) by (apply fin_opp; exact FM). assert (F1o : fin (opp one)) by (apply fin_opp; exact F1).
  pose proof (bpow_gt_0 radix2 (-1074)) as P74.
  assert (BA : Rabs (successor (real x)) < pow2 1024).
  { apply Rabs_def1; [exact B|]. pose proof (real_bound x) as RB. apply Rabs_def2 in RB. destruct RB as [_ RB]. eapply Rlt_le_trans; [exact RB|]. apply succ_ge_id. }
  assert (FS : representable (successor (real x))) by (apply generic_format_succ; [typeclasses eauto|apply representable_real]).
  unfold NextUp. rewrite (eq_bool_fin x (opp denorm_min)) by assumption. rewrite real_opp, ED.
  destruct (Req_bool_spec (real x) (- pow2 (-1074))) as [E|E0].
  { rewrite E, successor_opp_denorm_min. split; reflexivity. }
  rewrite (eq_bool_fin x zero) by (try assumption; reflexivity). change (real zero) with 0.
  destruct (Req_bool_spec (real x) 0) as [E|NZ].
  { rewrite E, successor_zero. split; [exact FD|exact ED]. }
  change infinity with (inf false). change minus_infinity with (inf true). rewrite !eq_inf by exact F.
  rewrite (eq_bool_fin x x) by assumption. rewrite (Req_bool_true (real x) (real x)) by reflexivity. cbn [negb].
  rewrite (le_bool_fin (opp min) x) by assumption. rewrite (lt_bool_fin x min) by assumption. rewrite real_opp, EM.
  assert (C : (- pow2 (-1022) <= real x < pow2 (-1022) /\ Rle_bool (- pow2 (-1022)) (real x) && Rlt_bool (real x) (pow2 (-1022)) = true)%bool \/
              ((real x < - pow2 (-1022) \/ pow2 (-1022) <= real x) /\ Rle_bool (- pow2 (-1022)) (real x) && Rlt_bool (real x) (pow2 (-1022)) = false)%bool).
  { destruct (Rle_bool_spec (- pow2 (-1022)) (real x)); destruct (Rlt_bool_spec (real x) (pow2 (-1022))); [left|right|right|right]; (split; [lra|reflexivity]). }
  destruct C as [[C ->]|[C ->]].
  { apply add_exact; try assumption. rewrite ED. symmetry. apply successor_small; assumption. }
  assert (LB : LogB x = (mag radix2 (real x) - 1)%Z) by (apply log_b_mag; assumption).
  set (L := LogB x) in *. pose proof (bpow_gt_0 radix2 (-1022)) as P22.
  assert (ML : (-1021 <= mag radix2 (real x))%Z).
  { apply mag_ge_bpow. change (-1021 - 1)%Z with (-1022)%Z. destruct C as [C|C]; [rewrite Rabs_left by lra|rewrite Rabs_pos_eq by lra]; lra. }
  assert (MU : (mag radix2 (real x) <= 1024)%Z) by (apply mag_le_bpow; [exact NZ|apply real_bound]).
  destruct real_epsilon as [FE EE].
  destruct (scale_b_correct epsilon L FE) as [SU _]. { left. rewrite EE. apply bpow_ge_0. }
  rewrite EE, <- bpow_plus, rounded_id in SU by (apply representable_pow2; lia). rewrite Rabs_pos_eq in SU by apply bpow_ge_0.
  destruct SU as [FU [EU _]]; [apply bpow_lt; lia|].
  destruct (scale_b_correct x (- L) F) as [SS _]; [right; lia|].
  assert (RS : representable (real x * pow2 (- L))). { apply mult_bpow_exact_FLT; [apply representable_real|lia]. }
  rewrite rounded_id in SS by exact RS. destruct SS as [FSS [ESS _]].
  { apply Rlt_le_trans with (pow2 1); [|apply bpow_le; lia]. rewrite Rabs_mult, (Rabs_pos_eq (pow2 (- L))) by apply bpow_ge_0.
    apply Rlt_le_trans with (pow2 (mag radix2 (real x)) * pow2 (- L)); [apply Rmult_lt_compat_r; [apply bpow_gt_0|apply bpow_mag_gt]|].
    rewrite <- bpow_plus. apply bpow_le. lia. }
  cbv zeta. rewrite (eq_bool_fin _ _ FSS F1o). rewrite real_opp, E1, ESS.
  pose proof (successor_normal _ C) as SN. rewrite <- LB in SN.
  destruct (Req_bool (real x * pow2 (- L)) (- (1))) eqn:RQ.
  - assert (L22 : (-1021 <= L)%Z).
    { apply Req_bool_true || idtac. destruct (Req_bool_spec (real x * pow2 (- L)) (- (1))) as [Q|Q]; [|discriminate]. destruct (Z.eq_dec L (-1022)) as [Z|Z]; [|lia].
      exfalso. rewrite Z in Q. change (- -1022)%Z with 1022%Z in Q. assert (real x = - pow2 (-1022)).
      { replace (real x) with (real x * pow2 1022 * pow2 (-1022)); [rewrite Q; ring|]. rewrite Rmult_assoc, <- bpow_plus. simpl (pow2 (1022 + -1022)). ring. } lra. }
    assert (EH : real (ScaleB epsilon L) / 2 = pow2 (mag radix2 (real x) - 54)).
    { rewrite EU. change (/ 2) with (pow2 (-1)). unfold Rdiv. change (/ 2) with (pow2 (-1)). rewrite <- bpow_plus. f_equal. lia. }
    destruct (div_ok (ScaleB epsilon L) Double_Model.radix FU) as [FDv [EDv _]]; [rewrite ER; lra| |].
    { rewrite ER, EH, rounded_id by (apply representable_pow2; lia). rewrite Rabs_pos_eq by apply bpow_ge_0. apply bpow_lt. lia. }
    rewrite ER, EH, rounded_id in EDv by (apply representable_pow2; lia).
    apply add_exact; try assumption. rewrite EDv, SN. reflexivity.
  - apply add_exact; try assumption. rewrite EU, SN. f_equal. f_equal. lia.
Qed.
Theorem next_up_least : forall x y, fin x -> fin y -> real x < real y -> fin (NextUp x) /\ real x < real (NextUp x) <= real y.
Proof.
  intros x y Fx Fy L. assert (S : successor (real x) <= real y) by (apply succ_le_lt; [typeclasses eauto|apply representable_real|apply representable_real|exact L]).
  pose proof (real_bound y) as RB. apply Rabs_def2 in RB.
  destruct (next_up_successor x Fx) as [F E]; [lra|]. rewrite E. split; [exact F|]. split; [|exact S].
  destruct (Req_dec (real x) 0) as [Z|NZ]; [rewrite Z, successor_zero; apply bpow_gt_0|]. apply succ_gt_id. exact NZ.
Qed.
Theorem next_down_greatest : forall x y, fin x -> fin y -> real y < real x -> fin (NextDown x) /\ real y <= real (NextDown x) < real x.
Proof.
  intros x y Fx Fy L. unfold NextDown. destruct (next_up_least (opp x) (opp y)) as [F [E1 E2]]; try (apply fin_opp; assumption).
  - rewrite !real_opp. lra.
  - split; [apply fin_opp; exact F|]. rewrite real_opp. rewrite !real_opp in E1, E2. lra.
Qed.
