(** Proofs about compensated sums and products. *)
From Coq Require Import ZArith Bool Reals Lra Lia Psatz.
From Flocq Require Import Core IEEE754.BinarySingleNaN IEEE754.Binary IEEE754.Bits Pff.Pff2Flocq Mult_error Plus_error Sterbenz.
From Verif Require Import Double_Model.
Open Scope R_scope.

(** Specification: the real number denoted by a double, the set of these numbers, and rounding to the nearest, ties to even. *)
Definition real (x : double) : R := B2R 53 1024 x.
Definition representable (x : R) : Prop := generic_format radix2 (FLT_exp (-1074) 53) x.
Definition rounded (x : R) : R := round radix2 (FLT_exp (-1074) 53) ZnearestE x.
Definition fin (x : double) : Prop := finite x = true.

Global Instance prec53 : Prec_gt_0 53 := eq_refl _.
Notation pow2 e := (bpow radix2 e).

Lemma representable_real : forall x, representable (real x).
Proof. intros x. apply (generic_format_B2R 53 1024). Qed.
Lemma real_bound : forall x, Rabs (real x) < pow2 1024.
Proof. intros x. apply (abs_B2R_lt_emax 53 1024). Qed.
Lemma representable_rounded : forall x, representable (rounded x).
Proof. intros x. apply generic_format_round; typeclasses eauto. Qed.
Lemma rounded_id : forall x, representable x -> rounded x = x.
Proof. intros x H. apply round_generic; [typeclasses eauto|exact H]. Qed.
Lemma rounded_opp : forall x, rounded (- x) = - rounded x.
Proof. intros x. apply (round_NE_opp radix2 (FLT_exp (-1074) 53)). Qed.
Lemma representable_opp : forall x, representable x -> representable (- x).
Proof. intros x. apply generic_format_opp. Qed.
Lemma rounded_le : forall x y, x <= y -> rounded x <= rounded y.
Proof. intros x y. apply round_le; typeclasses eauto. Qed.
Lemma representable_pow2 : forall e, (-1074 <= e)%Z -> representable (pow2 e).
Proof. intros e H. apply generic_format_FLT_bpow; [reflexivity|exact H]. Qed.
Lemma rounded_abs_le : forall x y, representable y -> Rabs x <= y -> Rabs (rounded x) <= y.
Proof. intros x y F H. apply abs_round_le_generic; try typeclasses eauto; assumption. Qed.

Lemma overflow_not_finite : forall m s x, B2FF 53 1024 x = binary_overflow 53 1024 m s -> m = mode_NE -> finite x = false.
Proof.
  intros m s x H ->. unfold binary_overflow in H. simpl in H. destruct x; simpl in *; try reflexivity; discriminate.
Qed.

Lemma add_fin : forall x y, fin (add x y) -> fin x /\ fin y /\ real (add x y) = rounded (real x + real y).
Proof.
  intros x y H. assert (A : fin x /\ fin y).
  { unfold fin, add, b64_plus, finite in *. destruct x as [[]|[]|? ? ?|? ? ? ?], y as [[]|[]|? ? ?|? ? ? ?]; simpl in *; try discriminate; split; reflexivity. }
  destruct A as [A1 A2]. split; [exact A1|]. split; [exact A2|].
  generalize (Bplus_correct 53 1024 (refl_equal _) (refl_equal _) binop_nan_pl64 mode_NE x y A1 A2).
  destruct (Rlt_bool _ _).
  - intros [E _]. exact E.
  - intros [E _]. apply overflow_not_finite in E; [|reflexivity]. unfold fin, add, b64_plus in H. rewrite H in E. discriminate E.
Qed.
Lemma sub_fin : forall x y, fin (sub x y) -> fin x /\ fin y /\ real (sub x y) = rounded (real x - real y).
Proof.
  intros x y H. assert (A : fin x /\ fin y).
  { unfold fin, sub, b64_minus, finite in *. destruct x as [[]|[]|? ? ?|? ? ? ?], y as [[]|[]|? ? ?|? ? ? ?]; simpl in *; try discriminate; split; reflexivity. }
  destruct A as [A1 A2]. split; [exact A1|]. split; [exact A2|].
  generalize (Bminus_correct 53 1024 (refl_equal _) (refl_equal _) binop_nan_pl64 mode_NE x y A1 A2).
  destruct (Rlt_bool _ _).
  - intros [E _]. exact E.
  - intros [E _]. apply overflow_not_finite in E; [|reflexivity]. unfold fin, sub, b64_minus in H. rewrite H in E. discriminate E.
Qed.
Lemma mul_fin : forall x y, fin (mul x y) -> fin x /\ fin y /\ real (mul x y) = rounded (real x * real y).
Proof.
  intros x y H.
  generalize (Bmult_correct 53 1024 (refl_equal _) (refl_equal _) binop_nan_pl64 mode_NE x y).
  destruct (Rlt_bool _ _).
  - intros [E [G _]]. unfold fin, finite, mul, b64_mult in *. rewrite H in G. symmetry in G. apply andb_true_iff in G. destruct G as [G1 G2].
    split; [exact G1|]. split; [exact G2|exact E].
  - intros E. apply overflow_not_finite in E; [|reflexivity]. unfold fin, mul, b64_mult in H. rewrite H in E. discriminate E.
Qed.
Lemma fma_fin : forall x y z, fin (fma x y z) -> fin x /\ fin y /\ fin z /\ real (fma x y z) = rounded (real x * real y + real z).
Proof.
  intros x y z H. assert (A : fin x /\ fin y /\ fin z).
  { unfold fin, fma, b64_fma, finite in *. destruct x as [sx|sx|sx ? ?|sx ? ? ?], y as [sy|sy|sy ? ?|sy ? ? ?], z as [sz|sz|sz ? ?|sz ? ? ?];
      try (split; [reflexivity|split; reflexivity]); exfalso; revert H; destruct sx, sy, sz; simpl; discriminate. }
  destruct A as [A1 [A2 A3]]. split; [exact A1|]. split; [exact A2|]. split; [exact A3|].
  generalize (Bfma_correct 53 1024 (refl_equal _) (refl_equal _) ternop_nan_pl64 mode_NE x y z A1 A2 A3). cbv zeta.
  destruct (Rlt_bool _ _).
  - intros [E _]. exact E.
  - intros E. apply overflow_not_finite in E; [|reflexivity]. unfold fin, fma, b64_fma in H. rewrite H in E. discriminate E.
Qed.
Lemma real_opp : forall x, real (opp x) = - real x.
Proof. intros x. apply B2R_Bopp. Qed.
Lemma fin_opp : forall x, fin (opp x) <-> fin x.
Proof. intros x. unfold fin, finite, opp, b64_opp. rewrite is_finite_Bopp. reflexivity. Qed.

Lemma below_max : forall x, Rabs x <= pow2 1023 -> Rlt_bool (Rabs (rounded x)) (pow2 1024) = true.
Proof.
  intros x H. apply Rlt_bool_true. apply Rle_lt_trans with (pow2 1023); [|apply bpow_lt; reflexivity].
  apply rounded_abs_le; [apply representable_pow2; lia|exact H].
Qed.
Lemma add_ok : forall x y, fin x -> fin y -> Rabs (real x + real y) <= pow2 1023 -> fin (add x y) /\ real (add x y) = rounded (real x + real y).
Proof.
  intros x y Hx Hy H. generalize (Bplus_correct 53 1024 (refl_equal _) (refl_equal _) binop_nan_pl64 mode_NE x y Hx Hy).
  pose proof (below_max _ H) as B. unfold rounded, real in B. change (round_mode mode_NE) with ZnearestE. change (SpecFloat.fexp 53 1024) with (FLT_exp (-1074) 53).
  rewrite B. intros [E [F _]]. split; assumption.
Qed.
Lemma sub_ok : forall x y, fin x -> fin y -> Rabs (real x - real y) <= pow2 1023 -> fin (sub x y) /\ real (sub x y) = rounded (real x - real y).
Proof.
  intros x y Hx Hy H. generalize (Bminus_correct 53 1024 (refl_equal _) (refl_equal _) binop_nan_pl64 mode_NE x y Hx Hy).
  pose proof (below_max _ H) as B. unfold rounded, real in B. change (round_mode mode_NE) with ZnearestE. change (SpecFloat.fexp 53 1024) with (FLT_exp (-1074) 53).
  rewrite B. intros [E [F _]]. split; assumption.
Qed.

(** * Compensated sums *)
Lemma two_sum_real : forall x y, representable x -> representable y ->
  let s := rounded (x + y) in let v := rounded (s - x) in
  s + rounded (rounded (x - rounded (s - v)) + rounded (y - v)) = x + y.
Proof.
  intros x y Hx Hy. apply (TwoSum_correct (-1074) 53 (fun x => negb (Z.even x))); try assumption; try lia.
  intros z. rewrite negb_involutive. rewrite Z.even_opp. rewrite Z.even_add. simpl. destruct (Z.even z); reflexivity.
Qed.
Theorem two_sum_exact : forall a b, fin (value (TwoSum a b)) -> fin (error (TwoSum a b)) ->
  real (value (TwoSum a b)) = rounded (real a + real b) /\ real (value (TwoSum a b)) + real (error (TwoSum a b)) = real a + real b.
Proof.
  intros a b. unfold TwoSum. cbn [value error]. intros H1 H2.
  apply add_fin in H1. destruct H1 as [Fa [Fb H1]]. split; [exact H1|].
  apply add_fin in H2. destruct H2 as [G1 [G2 ->]].
  apply sub_fin in G1. destruct G1 as [_ [G1 ->]]. apply sub_fin in G1. destruct G1 as [_ [G1 ->]]. apply sub_fin in G1. destruct G1 as [_ [_ E]].
  apply sub_fin in G2. destruct G2 as [_ [_ ->]]. rewrite E, H1.
  apply two_sum_real; apply representable_real.
Qed.
Theorem two_difference_exact : forall a b, fin (value (TwoDifference a b)) -> fin (error (TwoDifference a b)) ->
  real (value (TwoDifference a b)) = rounded (real a - real b) /\
  real (value (TwoDifference a b)) + real (error (TwoDifference a b)) = real a - real b.
Proof.
  intros a b. unfold TwoDifference. cbn [value error]. intros H1 H2.
  apply sub_fin in H1. destruct H1 as [Fa [Fb H1]]. split; [exact H1|].
  apply sub_fin in H2. destruct H2 as [G1 [G2 ->]].
  apply sub_fin in G1. destruct G1 as [_ [G1 ->]]. apply sub_fin in G1. destruct G1 as [_ [G1 ->]]. apply sub_fin in G1. destruct G1 as [_ [_ E]].
  apply add_fin in G2. destruct G2 as [_ [_ ->]]. rewrite E, H1.
  pose proof (two_sum_real (real a) (- real b) (representable_real a) (representable_opp _ (representable_real b))) as T. cbv zeta in T.
  replace (real a + - real b) with (real a - real b) in T by ring. refine (eq_trans _ T). set (s := rounded (real a - real b)). set (v := rounded (s - real a)).
  f_equal. replace (- real b - v) with (- (real b + v)) by ring. rewrite rounded_opp. reflexivity.
Qed.
Theorem two_difference_points_exact : forall a b, fin (value (TwoDifference_points a b)) -> fin (error (TwoDifference_points a b)) ->
  real (value (TwoDifference_points a b)) = rounded (real a - real b) /\
  real (value (TwoDifference_points a b)) + real (error (TwoDifference_points a b)) = real a - real b.
Proof.
  intros a b. unfold TwoDifference_points. cbn [value error]. intros H1 H2.
  apply sub_fin in H1. destruct H1 as [Fa [Fb H1]]. split; [exact H1|].
  apply add_fin in H2. destruct H2 as [G1 [G2 ->]].
  apply sub_fin in G1. destruct G1 as [_ [G1 ->]]. apply add_fin in G1. destruct G1 as [_ [G1 ->]]. apply sub_fin in G1. destruct G1 as [_ [_ E]].
  apply sub_fin in G2. destruct G2 as [_ [_ ->]]. rewrite E, H1.
  pose proof (two_sum_real (real a) (- real b) (representable_real a) (representable_opp _ (representable_real b))) as T. cbv zeta in T.
  refine (eq_trans _ T). replace (real a + - real b) with (real a - real b) by ring. set (s := rounded (real a - real b)).
  replace (real a - s) with (- (s - real a)) by ring. rewrite rounded_opp. set (v := rounded (s - real a)).
  replace (s + - v) with (s - v) by ring. replace (- v - real b) with (- real b - v) by ring. reflexivity.
Qed.
(** A sufficient condition for the absence of overflow. *)
Theorem two_sum_no_overflow : forall a b, fin a -> fin b -> Rabs (real a) <= pow2 1018 -> Rabs (real b) <= pow2 1018 ->
  fin (value (TwoSum a b)) /\ fin (error (TwoSum a b)).
Proof.
  intros a b Fa Fb Ha Hb. unfold TwoSum. cbn [value error].
  assert (D : forall e, pow2 (e + 1) = 2 * pow2 e). { intros e. rewrite bpow_plus. change (pow2 1) with 2. ring. }
  pose proof (D 1018%Z). pose proof (D 1019%Z). pose proof (D 1020%Z). pose proof (D 1021%Z). pose proof (D 1022%Z). simpl Z.add in *.
  pose proof (bpow_gt_0 radix2 1018).
  assert (A : Rabs (real a + real b) <= pow2 1019). { pose proof (Rabs_triang (real a) (real b)). lra. }
  destruct (add_ok a b Fa Fb) as [F1 E1]; [lra|]. split; [exact F1|].
  assert (B1 : Rabs (real (add a b)) <= pow2 1019). { rewrite E1. apply rounded_abs_le; [apply representable_pow2; lia|exact A]. }
  assert (A2 : Rabs (real (add a b) - real a) <= pow2 1020). { pose proof (Rabs_triang (real (add a b)) (- real a)). rewrite Rabs_Ropp in *. unfold Rminus. lra. }
  destruct (sub_ok (add a b) a F1 Fa) as [F2 E2]; [lra|].
  assert (B2 : Rabs (real (sub (add a b) a)) <= pow2 1020). { rewrite E2. apply rounded_abs_le; [apply representable_pow2; lia|exact A2]. }
  set (v := sub (add a b) a) in *. set (s := add a b) in *.
  assert (A3 : Rabs (real s - real v) <= pow2 1021). { pose proof (Rabs_triang (real s) (- real v)). rewrite Rabs_Ropp in *. unfold Rminus. lra. }
  destruct (sub_ok s v F1 F2) as [F3 E3]; [lra|].
  assert (B3 : Rabs (real (sub s v)) <= pow2 1021). { rewrite E3. apply rounded_abs_le; [apply representable_pow2; lia|exact A3]. }
  assert (A4 : Rabs (real a - real (sub s v)) <= pow2 1022). { pose proof (Rabs_triang (real a) (- real (sub s v))). rewrite Rabs_Ropp in *. unfold Rminus. lra. }
  destruct (sub_ok a (sub s v) Fa F3) as [F4 E4]; [lra|].
  assert (B4 : Rabs (real (sub a (sub s v))) <= pow2 1022). { rewrite E4. apply rounded_abs_le; [apply representable_pow2; lia|exact A4]. }
  assert (A5 : Rabs (real b - real v) <= pow2 1021). { pose proof (Rabs_triang (real b) (- real v)). rewrite Rabs_Ropp in *. unfold Rminus. lra. }
  destruct (sub_ok b v Fb F2) as [F5 E5]; [lra|].
  assert (B5 : Rabs (real (sub b v)) <= pow2 1021). { rewrite E5. apply rounded_abs_le; [apply representable_pow2; lia|exact A5]. }
  apply add_ok; [exact F4|exact F5|]. pose proof (Rabs_triang (real (sub a (sub s v))) (real (sub b v))). lra.
Qed.

(** ** The quick variants *)
(** [x] is a multiple of 2ᵉ. *)
Definition multiple (e : Z) (x : R) : Prop := exists n : Z, x = IZR n * pow2 e.
(** The first argument is a multiple of the unit in the last place of the second one. *)
Lemma quick_real_multiple : forall x y e, multiple e x -> representable x -> representable y -> multiple e y -> (-1074 <= e)%Z ->
  Rabs y < pow2 (53 + e) -> Rabs x <= Rabs y ->
  let s := rounded (x + y) in
  s + rounded (y - rounded (s - x)) = x + y.
Proof.
  intros x y e [m Hm] Fx Fy [n Hn] He By Bxy s.
  assert (P : 0 < pow2 e) by apply bpow_gt_0.
  assert (small : forall k : Z, (Z.abs k <= 2 ^ 53)%Z -> representable (IZR k * pow2 e)).
  { intros k Hk. destruct (Z.eq_dec (Z.abs k) (2 ^ 53)) as [E|E].
    - assert (K : IZR k * pow2 e = pow2 (53 + e) \/ IZR k * pow2 e = - pow2 (53 + e)).
      { rewrite bpow_plus. change (pow2 53) with (IZR (2 ^ 53)). destruct (Z.abs_spec k) as [[_ Q]|[_ Q]]; rewrite Q in E.
        - left. rewrite E. reflexivity.
        - right. replace k with (- 2 ^ 53)%Z by lia. rewrite opp_IZR. ring. }
      destruct K as [->| ->]; [|apply representable_opp]; apply representable_pow2; lia.
    - apply generic_format_FLT. exists (Float radix2 k e); [reflexivity| |exact He]. simpl. change (Z.pow_pos 2 53) with (2 ^ 53)%Z. lia. }
  assert (Bn : (Z.abs n < 2 ^ 53)%Z).
  { apply lt_IZR. rewrite abs_IZR. rewrite bpow_plus in By. change (pow2 53) with (IZR (2 ^ 53)) in By.
    rewrite Hn, Rabs_mult, (Rabs_pos_eq (pow2 e)) in By by lra. apply Rmult_lt_reg_r with (pow2 e); assumption. }
  assert (Bm : (Z.abs m <= Z.abs n)%Z).
  { apply le_IZR. rewrite !abs_IZR. apply Rmult_le_reg_r with (pow2 e); [exact P|].
    rewrite Hm, Hn, !Rabs_mult, (Rabs_pos_eq (pow2 e)) in Bxy by lra. exact Bxy. }
  (* s is a multiple of 2^e, at distance at most 2^e from x + y. *)
  assert (S : exists d : Z, (Z.abs d <= 1)%Z /\ s = IZR (m + n + d) * pow2 e).
  { assert (XY : x + y = IZR (m + n) * pow2 e) by (rewrite Hm, Hn, plus_IZR; ring).
    destruct (Z_le_gt_dec (Z.abs (m + n)) (2 ^ 53)) as [L|L].
    - exists 0%Z. split; [simpl; lia|]. unfold s. rewrite XY, Z.add_0_r. apply rounded_id, small, L.
    - (* rounded to an even multiple *)
      assert (C : cexp radix2 (FLT_exp (-1074) 53) (x + y) = (e + 1)%Z).
      { unfold cexp, FLT_exp. assert (M : mag radix2 (x + y) = (e + 54)%Z :> Z).
        { apply mag_unique. rewrite XY, Rabs_mult, (Rabs_pos_eq (pow2 e)) by lra. rewrite <- abs_IZR.
          replace (e + 54 - 1)%Z with (53 + e)%Z by ring. replace (e + 54)%Z with (54 + e)%Z by ring. rewrite !bpow_plus.
          change (pow2 53) with (IZR (2 ^ 53)). change (pow2 54) with (IZR (2 ^ 54)). split.
          - apply Rmult_le_compat_r; [lra|]. apply IZR_le. lia.
          - apply Rmult_lt_compat_r; [lra|]. apply IZR_lt. lia. }
        rewrite M. lia. }
      assert (Q : exists k : Z, s = IZR k * pow2 (e + 1)).
      { unfold s, rounded, round. rewrite C. unfold F2R. simpl. eexists. reflexivity. }
      destruct Q as [k Q]. exists (2 * k - (m + n))%Z.
      assert (SE : s = IZR (2 * k) * pow2 e). { rewrite Q, bpow_plus, mult_IZR. change (pow2 1) with 2. ring. }
      split; [|rewrite SE; f_equal; f_equal; ring].
      assert (D : Rabs (s - (x + y)) <= / 2 * pow2 (e + 1)).
      { unfold s. eapply Rle_trans; [apply error_le_half_ulp; typeclasses eauto|].
        rewrite ulp_neq_0; [rewrite C; lra|]. rewrite XY. intros Z. apply Rmult_integral in Z. destruct Z as [Z|Z]; [apply eq_IZR in Z; lia|lra]. }
      rewrite SE, XY, bpow_plus in D. change (pow2 1) with 2 in D.
      replace (IZR (2 * k) * pow2 e - IZR (m + n) * pow2 e) with (IZR (2 * k - (m + n)) * pow2 e) in D by (rewrite minus_IZR; ring).
      rewrite Rabs_mult, (Rabs_pos_eq (pow2 e)) in D by lra. rewrite <- abs_IZR in D.
      apply le_IZR. apply Rmult_le_reg_r with (pow2 e); [exact P|]. lra. }
  destruct S as [d [Bd S]].
  assert (E1 : rounded (s - x) = IZR (n + d) * pow2 e).
  { rewrite S, Hm. replace (IZR (m + n + d) * pow2 e - IZR m * pow2 e) with (IZR (n + d) * pow2 e) by (rewrite !plus_IZR; ring).
    apply rounded_id, small. lia. }
  rewrite E1. replace (y - IZR (n + d) * pow2 e) with (IZR (- d) * pow2 e) by (rewrite Hn, plus_IZR, opp_IZR; ring).
  rewrite (rounded_id (IZR (- d) * pow2 e)) by (apply small; lia). rewrite S, Hm, Hn, !plus_IZR, opp_IZR. ring.
Qed.
Lemma quick_real : forall x y, representable x -> representable y -> Rabs y <= Rabs x ->
  let s := rounded (x + y) in
  s + rounded (y - rounded (s - x)) = x + y.
Proof.
  intros x y Hx Hy H s.
  pose proof (Fast2Sum_correct (-1074) 53 (fun x => negb (Z.even x)) ltac:(lia) ltac:(lia)) as T.
  specialize (T ltac:(intros z; cbv beta; rewrite negb_involutive, Z.even_opp, Z.even_add; simpl; destruct (Z.even z); reflexivity) x y Hx Hy H).
  change (s + rounded (y + rounded (x - s)) = x + y) in T. refine (eq_trans _ T). f_equal. f_equal. unfold Rminus. f_equal. rewrite <- rounded_opp. f_equal. ring.
Qed.
(** The specification of the condition: the classical one, or a vanishing argument, or the first argument is a multiple of the unit in the
    last place of the second one. *)
Definition ulp_of (y : R) : R := ulp radix2 (FLT_exp (-1074) 53) y.
Definition ordered (x y : R) : Prop := Rabs y <= Rabs x \/ x = 0 \/ exists n : Z, x = IZR n * ulp_of y.
Lemma quick_ordered : forall x y, representable x -> representable y -> ordered x y ->
  let s := rounded (x + y) in
  s + rounded (y - rounded (s - x)) = x + y.
Proof.
  intros x y Hx Hy H s.
  destruct (Rle_or_lt (Rabs y) (Rabs x)) as [L|L]; [apply quick_real; assumption|].
  destruct H as [H|[H|[n H]]]; [lra| |].
  - subst s x. rewrite Rplus_0_l, (rounded_id y), Rminus_0_r, (rounded_id y) by exact Hy.
    replace (y - y) with 0 by ring. rewrite rounded_id by apply generic_format_0. ring.
  - assert (Y : y <> 0). { intros ->. rewrite Rabs_R0 in L. pose proof (Rabs_pos x). lra. }
    unfold ulp_of in H. rewrite ulp_neq_0 in H by exact Y.
    apply (quick_real_multiple x y (cexp radix2 (FLT_exp (-1074) 53) y)); try assumption; try lra.
    + exists n. exact H.
    + exists (Ztrunc (scaled_mantissa radix2 (FLT_exp (-1074) 53) y)). exact Hy.
    + unfold cexp, FLT_exp. lia.
    + apply Rlt_le_trans with (pow2 (mag radix2 y)); [apply bpow_mag_gt|]. apply bpow_le. unfold cexp, FLT_exp. lia.
Qed.
Theorem quick_two_sum_exact : forall a b, ordered (real a) (real b) -> fin (value (QuickTwoSum a b)) -> fin (error (QuickTwoSum a b)) ->
  real (value (QuickTwoSum a b)) = rounded (real a + real b) /\
  real (value (QuickTwoSum a b)) + real (error (QuickTwoSum a b)) = real a + real b.
Proof.
  intros a b O. unfold QuickTwoSum. cbn [value error]. intros H1 H2.
  apply add_fin in H1. destruct H1 as [Fa [Fb H1]]. split; [exact H1|].
  apply sub_fin in H2. destruct H2 as [_ [G ->]]. apply sub_fin in G. destruct G as [_ [_ ->]]. rewrite H1.
  apply quick_ordered; try apply representable_real. exact O.
Qed.
Theorem quick_two_difference_exact : forall a b, ordered (real a) (real b) ->
  fin (value (QuickTwoDifference a b)) -> fin (error (QuickTwoDifference a b)) ->
  real (value (QuickTwoDifference a b)) = rounded (real a - real b) /\
  real (value (QuickTwoDifference a b)) + real (error (QuickTwoDifference a b)) = real a - real b.
Proof.
  intros a b O. unfold QuickTwoDifference. cbn [value error]. intros H1 H2.
  apply sub_fin in H1. destruct H1 as [Fa [Fb H1]]. split; [exact H1|].
  apply sub_fin in H2. destruct H2 as [G [_ ->]]. apply sub_fin in G. destruct G as [_ [_ ->]]. rewrite H1.
  assert (O' : ordered (real a) (- real b)).
  { destruct O as [O|[O|[n O]]]; [left; rewrite Rabs_Ropp; exact O|right; left; exact O|]. right; right. exists n. unfold ulp_of in *. rewrite ulp_opp. exact O. }
  refine (eq_trans _ (quick_ordered _ _ (representable_real a) (representable_opp _ (representable_real b)) O')).
  replace (real a + - real b) with (real a - real b) by ring. set (s := rounded (real a - real b)).
  replace (real a - s) with (- (s - real a)) by ring. rewrite rounded_opp. f_equal. f_equal. ring.
Qed.

(** * Compensated products *)
Lemma real_of_small : forall m, (Z.abs m <= 2 ^ 53)%Z -> fin (of_Z m) /\ real (of_Z m) = IZR m.
Proof.
  intros m H. unfold of_Z, of_Z2, fin, finite, real.
  generalize (binary_normalize_correct 53 1024 (refl_equal _) (refl_equal _) mode_NE m 0 false). cbv zeta.
  assert (R1 : F2R (Float radix2 m 0) = IZR m). { unfold F2R. simpl. ring. }
  rewrite R1.
  assert (G : rounded (IZR m) = IZR m).
  { apply rounded_id. destruct (Z.eq_dec (Z.abs m) (2 ^ 53)) as [E|E].
    - assert (K : IZR m = pow2 53 \/ IZR m = - pow2 53).
      { change (pow2 53) with (IZR (2 ^ 53)). rewrite <- opp_IZR. destruct (Z.abs_spec m) as [[_ Q]|[_ Q]]; rewrite Q in E; [left|right]; f_equal; lia. }
      destruct K as [->| ->]; [|apply representable_opp]; apply representable_pow2; lia.
    - apply generic_format_FLT. exists (Float radix2 m 0); [symmetry; exact R1| |simpl; lia]. simpl. change (Z.pow_pos 2 53) with (2 ^ 53)%Z. lia. }
  change (round radix2 (SpecFloat.fexp 53 1024) (round_mode mode_NE) (IZR m)) with (rounded (IZR m)). rewrite G.
  rewrite Rlt_bool_true.
  - intros [E [F _]]. split; assumption.
  - rewrite <- abs_IZR. apply Rle_lt_trans with (pow2 53); [change (pow2 53) with (IZR (2 ^ 53)); apply IZR_le; exact H|apply bpow_lt; reflexivity].
Qed.
(** The product does not underflow: it vanishes or is at least 2⁻⁹⁶⁹. *)
Definition no_underflow (p : R) : Prop := p = 0 \/ pow2 (-969) <= Rabs p.
Theorem two_product_fma_exact : forall a b, fin (error (TwoProduct true a b)) ->
  real (value (TwoProduct true a b)) = rounded (real a * real b) /\
  (no_underflow (real a * real b) -> real (value (TwoProduct true a b)) + real (error (TwoProduct true a b)) = real a * real b).
Proof.
  intros a b. unfold TwoProduct, FusedMultiplySubtract. cbn [value error]. intros H.
  apply fma_fin in H. destruct H as [_ [_ [H ->]]]. apply (proj1 (fin_opp _)) in H. apply mul_fin in H. destruct H as [_ [_ H]].
  split; [exact H|]. intros U. rewrite real_opp, H.
  assert (F : representable (rounded (real a * real b) - real a * real b)).
  { apply mult_error_FLT; try typeclasses eauto; try apply representable_real. intros Z. destruct U as [U|U]; [contradiction|exact U]. }
  replace (real a * real b + - rounded (real a * real b)) with (- (rounded (real a * real b) - real a * real b)) by ring.
  rewrite (rounded_id (- _)) by (apply representable_opp; exact F). ring.
Qed.
Lemma split_fin : forall s x, fin (snd (VeltkampSplitting s x)) -> (2 ^ s + 1 <= 2 ^ 53)%Z -> (0 <= s)%Z ->
  let g := rounded (real x * (pow2 s + 1)) in
  let h := rounded (rounded (real x - g) + g) in
  real (fst (VeltkampSplitting s x)) = h /\ real (snd (VeltkampSplitting s x)) = rounded (real x - h).
Proof.
  intros s x H Hs Hs' g h. unfold VeltkampSplitting in *. cbn [fst snd] in *.
  assert (HC : real (of_Z (2 ^ s + 1)) = pow2 s + 1).
  { destruct (real_of_small (2 ^ s + 1)) as [_ E]; [pose proof (Z.pow_nonneg 2 s); lia|]. rewrite E, plus_IZR. f_equal. rewrite <- IZR_Zpower by exact Hs'. reflexivity. }
  apply sub_fin in H. destruct H as [_ [H ->]].
  apply add_fin in H. destruct H as [G [D ->]].
  apply sub_fin in D. destruct D as [_ [_ ->]]. apply mul_fin in G. destruct G as [_ [_ ->]]. rewrite HC.
  rewrite (Rmult_comm (pow2 s + 1)). fold g. rewrite (Rplus_comm g). fold h. split; reflexivity.
Qed.
Theorem two_product_dekker_exact : forall a b, fin (error (TwoProduct false a b)) ->
  real (value (TwoProduct false a b)) = rounded (real a * real b) /\
  (no_underflow (real a * real b) -> real (value (TwoProduct false a b)) + real (error (TwoProduct false a b)) = real a * real b) /\
  Rabs (real a * real b - (real (value (TwoProduct false a b)) + real (error (TwoProduct false a b)))) <= 7 / 2 * pow2 (-1074).
Proof.
  intros a b. unfold TwoProduct, VeltkampDekkerProduct. change (53 - 53 / 2)%Z with 27%Z. pose proof (split_fin 27 a) as Sa. pose proof (split_fin 27 b) as Sb.
  destruct (VeltkampSplitting 27 a) as [hx tx]. destruct (VeltkampSplitting 27 b) as [hy ty]. cbn [value error fst snd] in *. intros H.
  apply add_fin in H. destruct H as [H [H4 ->]]. apply add_fin in H. destruct H as [H [H3 ->]]. apply add_fin in H. destruct H as [H [H2 ->]].
  apply sub_fin in H. destruct H as [H1 [Z ->]]. apply mul_fin in Z. destruct Z as [Fa [Fb Z]].
  apply mul_fin in H4. destruct H4 as [Ftx [Fty ->]]. apply mul_fin in H3. destruct H3 as [_ [Fhy ->]]. apply mul_fin in H2. destruct H2 as [Fhx [_ ->]].
  apply mul_fin in H1. destruct H1 as [_ [_ ->]].
  specialize (Sa Ftx ltac:(vm_compute; discriminate) ltac:(lia)). specialize (Sb Fty ltac:(vm_compute; discriminate) ltac:(lia)). cbv zeta in Sa, Sb.
  destruct Sa as [-> ->]. destruct Sb as [-> ->]. rewrite Z. split; [reflexivity|].
  destruct (Dekker radix2 (-1074) 53 (fun x => negb (Z.even x)) ltac:(lia) ltac:(lia) (real a) (real b) (representable_real a) (representable_real b) (or_introl eq_refl)) as [D1 D2].
  change (53 - Z.div2 53)%Z with 27%Z in D1, D2. fold (rounded (real a * real b)) in D1, D2.
  set (xa := rounded (real a * (pow2 27 + 1))) in *. 
  rewrite (Rplus_comm (- _)) in D1, D2. unfold Rminus at 1.
  split.
  - intros U. symmetry. apply D1. exact U.
  - exact D2.
Qed.
