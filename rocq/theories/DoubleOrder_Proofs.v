(** The condition checked by the quick sums implies that they are exact; truncation and fractional part. *)
From Coq Require Import ZArith Bool Reals Lra Lia Psatz.
From Flocq Require Import Core IEEE754.BinarySingleNaN IEEE754.Binary IEEE754.Bits.
From Verif Require Import Double_Model Double_Proofs.
Open Scope R_scope.

Lemma trailing_zeroes_spec : forall p, (0 <= trailing_zeroes p)%Z /\ exists q, Zpos p = (q * 2 ^ trailing_zeroes p)%Z.
Proof.
  induction p as [p IH|p IH|].
  - split; [reflexivity|]. exists (Zpos p~1). cbn [trailing_zeroes]. change (trailing_zeroes p~1) with 0%Z. lia.
  - destruct IH as [P [q IH]]. change (trailing_zeroes p~0) with (1 + trailing_zeroes p)%Z. split; [lia|]. exists q.
    rewrite Z.pow_add_r by lia. rewrite Pos2Z.inj_xO, IH. ring.
  - split; [reflexivity|]. exists 1%Z. reflexivity.
Qed.
Lemma compare_fin : forall x y, fin x -> fin y -> b64_compare x y = Some (Rcompare (real x) (real y)).
Proof. intros x y Hx Hy. apply Bcompare_correct; assumption. Qed.
Lemma eq_fin : forall x y, fin x -> fin y -> eq x y = true <-> real x = real y.
Proof. intros x y Hx Hy. unfold eq. rewrite compare_fin by assumption. destruct (Rcompare_spec (real x) (real y)); split; intros; try discriminate; try lra; reflexivity. Qed.
Lemma lt_fin : forall x y, fin x -> fin y -> lt x y = true <-> real x < real y.
Proof. intros x y Hx Hy. unfold lt. rewrite compare_fin by assumption. destruct (Rcompare_spec (real x) (real y)); split; intros; try discriminate; try lra; reflexivity. Qed.
Lemma le_fin : forall x y, fin x -> fin y -> le x y = true <-> real x <= real y.
Proof. intros x y Hx Hy. unfold le. rewrite compare_fin by assumption. destruct (Rcompare_spec (real x) (real y)); split; intros; try discriminate; try lra; reflexivity. Qed.
Lemma fin_zero : fin zero /\ real zero = 0. Proof. split; reflexivity. Qed.

Lemma bounded_exponent : forall m e, SpecFloat.bounded 53 1024 m e = true ->
  e = Z.max (Zpos (SpecFloat.digits2_pos m) + e - 53) (-1074) /\ (e <= 971)%Z.
Proof.
  intros m e H. unfold SpecFloat.bounded, SpecFloat.canonical_mantissa in H. apply andb_true_iff in H. destruct H as [H1 H2].
  apply Zeq_bool_eq in H1. apply Zle_bool_imp_le in H2. split; [|lia]. unfold SpecFloat.fexp in H1. change (SpecFloat.emin 53 1024) with (-1074)%Z in H1. lia.
Qed.
Lemma ulp_finite : forall s m e H, ulp_of (real (B754_finite 53 1024 s m e H)) = pow2 e.
Proof.
  intros s m e H. pose proof H as B. unfold SpecFloat.bounded in B. apply andb_true_iff in B. destruct B as [B _].
  pose proof (canonical_canonical_mantissa 53 1024 s m e B) as C. unfold canonical in C. simpl in C.
  unfold ulp_of. rewrite ulp_neq_0.
  - unfold real, B2R. change (FLT_exp (-1074) 53) with (SpecFloat.fexp 53 1024). rewrite <- C. reflexivity.
  - unfold real, B2R. apply F2R_neq_0. simpl. destruct s; discriminate.
Qed.
Theorem properly_ordered : forall x y, fin x -> fin y -> ProperlyOrdered x y = true -> ordered (real x) (real y).
Proof.
  intros x y Fx Fy. unfold ProperlyOrdered.
  destruct (eq x zero) eqn:EX. { apply eq_fin in EX; [|exact Fx|reflexivity]. intros _. right. left. exact EX. }
  destruct (eq y zero) eqn:EY. { apply eq_fin in EY; [|exact Fy|reflexivity]. intros _. left. rewrite EY. change (real zero) with 0. rewrite Rabs_R0. apply Rabs_pos. }
  destruct x as [sx|sx|sx ? ?|sx mx ex Hx]; try discriminate.
  destruct y as [sy|sy|sy ? ?|sy my ey Hy]; try discriminate.
  cbn [orb ExponentInterval]. intros H. apply Zle_bool_imp_le in H.
  destruct (bounded_exponent _ _ Hx) as [Bx _]. destruct (bounded_exponent _ _ Hy) as [By _].
  right. right. rewrite ulp_finite.
  set (dx := Zpos (SpecFloat.digits2_pos mx)) in *. set (dy := Zpos (SpecFloat.digits2_pos my)) in *.
  destruct (Z_le_gt_dec ey ex) as [L|L].
  - exists (SpecFloat.cond_Zopp sx (Zpos mx) * 2 ^ (ex - ey))%Z. unfold real, B2R, F2R. cbn [Fnum Fexp]. rewrite mult_IZR.
    change (2 ^ (ex - ey))%Z with (radix2 ^ (ex - ey))%Z. rewrite IZR_Zpower by lia. rewrite Rmult_assoc, <- bpow_plus. f_equal. f_equal. lia.
  - assert (D : (dx <= 53)%Z) by lia.
    set (im := Z.to_pos (Zpos mx * 2 ^ (53 - dx))) in *.
    assert (IM : Zpos im = (Zpos mx * 2 ^ (53 - dx))%Z). { unfold im. rewrite Z2Pos.id; [reflexivity|]. pose proof (Z.pow_pos_nonneg 2 (53 - dx)). nia. }
    destruct (trailing_zeroes_spec im) as [T [q Tq]]. set (t := trailing_zeroes im) in *.
    assert (K : (ey <= ex + dx - 53 + t)%Z) by lia.
    exists (SpecFloat.cond_Zopp sx (q * 2 ^ (ex + dx - 53 + t - ey)))%Z.
    unfold real, B2R, F2R. cbn [Fnum Fexp].
    assert (M : IZR (Zpos mx) * pow2 ex = IZR (q * 2 ^ (ex + dx - 53 + t - ey)) * pow2 ey).
    { rewrite mult_IZR. change 2%Z with (radix_val radix2). rewrite IZR_Zpower by lia. rewrite Rmult_assoc, <- bpow_plus.
      replace (ex + dx - 53 + t - ey + ey)%Z with (t + (ex + dx - 53))%Z by ring. rewrite bpow_plus, <- Rmult_assoc.
      replace (IZR q * pow2 t) with (IZR (Zpos im)). 2:{ rewrite Tq, mult_IZR. change 2%Z with (radix_val radix2). rewrite IZR_Zpower by lia. reflexivity. }
      rewrite IM, mult_IZR. change 2%Z with (radix_val radix2). rewrite IZR_Zpower by lia. rewrite Rmult_assoc, <- bpow_plus. f_equal. f_equal. ring. }
    destruct sx; cbn [SpecFloat.cond_Zopp]; [|exact M]. rewrite !opp_IZR. rewrite <- !Ropp_mult_distr_l. f_equal. exact M.
Qed.

(** * Truncation *)
(** Specification: a normalized double-double number, the real number that it denotes, and the integer nearest to x between 0 and x. *)
Definition denoted (a : double_precision) : R := real (value a) + real (error a).
Definition normalized (a : double_precision) : Prop := fin (value a) /\ fin (error a) /\ real (value a) = rounded (denoted a).
Definition is_integer (x : R) : Prop := exists n : Z, x = IZR n.
Definition integer_part (n : Z) (x : R) : Prop := (0 <= x /\ IZR n <= x < IZR n + 1) \/ (x <= 0 /\ IZR n - 1 < x <= IZR n).

Lemma floor_real : forall x, fin x -> fin (floor x) /\ real (floor x) = IZR (Zfloor (real x)).
Proof.
  intros x F. destruct (Bnearbyint_correct 53 1024 (refl_equal _) unop_nan_pl64 mode_DN x) as [E [G _]]. split; [unfold fin, finite, floor; rewrite G; exact F|].
  unfold real, floor. rewrite E. unfold round, F2R, scaled_mantissa, cexp, FIX_exp. simpl. rewrite !Rmult_1_r. reflexivity.
Qed.
Lemma ceil_real : forall x, fin x -> fin (ceil x) /\ real (ceil x) = IZR (Zceil (real x)).
Proof.
  intros x F. destruct (Bnearbyint_correct 53 1024 (refl_equal _) unop_nan_pl64 mode_UP x) as [E [G _]]. split; [unfold fin, finite, ceil; rewrite G; exact F|].
  unfold real, ceil. rewrite E. unfold round, F2R, scaled_mantissa, cexp, FIX_exp. simpl. rewrite !Rmult_1_r. reflexivity.
Qed.
Lemma floor_unique : forall n x, IZR n <= x < IZR n + 1 -> Zfloor x = n.
Proof. intros n x H. apply Zfloor_imp. rewrite plus_IZR. exact H. Qed.
Lemma ceil_unique : forall n x, IZR n - 1 < x <= IZR n -> Zceil x = n.
Proof. intros n x H. apply Zceil_imp. rewrite minus_IZR. exact H. Qed.

(** A representable number is an integer, or a multiple of a negative power of 2, its unit in the last place. *)
Lemma integer_or_fraction : forall x, representable x -> is_integer x \/
  exists (k : Z) (n : Z), (0 < k)%Z /\ x = IZR n * pow2 (- k) /\ ulp_of x = pow2 (- k) /\ x <> 0.
Proof.
  intros x F. destruct (Req_dec x 0) as [->|NZ]; [left; exists 0%Z; reflexivity|].
  assert (E : x = IZR (Ztrunc (scaled_mantissa radix2 (FLT_exp (-1074) 53) x)) * pow2 (cexp radix2 (FLT_exp (-1074) 53) x)) by exact F.
  set (n := Ztrunc _) in E. set (c := cexp _ _ _) in *.
  destruct (Z_le_gt_dec 0 c) as [L|L].
  - left. exists (n * 2 ^ c)%Z. rewrite mult_IZR. change 2%Z with (radix_val radix2). rewrite IZR_Zpower by exact L. exact E.
  - right. exists (- c)%Z, n. rewrite Z.opp_involutive. repeat split; [lia|exact E| |exact NZ]. unfold ulp_of. rewrite ulp_neq_0 by exact NZ. reflexivity.
Qed.
(** A multiple of 2⁻ᵏ that is not an integer is at least 2⁻ᵏ away from the integers. *)
Lemma fraction_gap : forall k n j, (0 < k)%Z -> IZR j < IZR n * pow2 (- k) -> IZR j + pow2 (- k) <= IZR n * pow2 (- k).
Proof.
  intros k n j K H. assert (P : 0 < pow2 (- k)) by apply bpow_gt_0.
  assert (J : IZR j = IZR (j * 2 ^ k) * pow2 (- k)).
  { rewrite mult_IZR. change 2%Z with (radix_val radix2). rewrite IZR_Zpower by lia. rewrite Rmult_assoc, <- bpow_plus. replace (k + - k)%Z with 0%Z by ring. simpl. ring. }
  rewrite J in *. apply Rmult_lt_reg_r in H; [|exact P]. apply lt_IZR in H.
  replace (IZR (j * 2 ^ k) * pow2 (- k) + pow2 (- k)) with (IZR (j * 2 ^ k + 1) * pow2 (- k)) by (rewrite plus_IZR; ring).
  apply Rmult_le_compat_r; [lra|]. apply IZR_le. lia.
Qed.
Lemma normalized_error : forall a, normalized a -> Rabs (real (error a)) <= / 2 * ulp_of (real (value a)).
Proof.
  intros a [_ [_ N]]. unfold ulp_of. rewrite N. replace (real (error a)) with (- (real (value a) - denoted a)) by (unfold denoted; ring).
  rewrite Rabs_Ropp. rewrite N at 1. apply error_le_half_ulp_round; typeclasses eauto.
Qed.
Lemma ulp_abs_le : forall x, representable x -> x <> 0 -> ulp_of x <= Rabs x.
Proof. intros x F NZ. rewrite <- (ulp_abs radix2 (FLT_exp (-1074) 53) x) || unfold ulp_of. rewrite <- ulp_abs. apply ulp_le_id; [|apply generic_format_abs; exact F]. apply Rabs_pos_lt. exact NZ. Qed.
Lemma normalized_zero : forall a, normalized a -> real (value a) = 0 -> real (error a) = 0.
Proof.
  intros a [_ [_ N]] Z. unfold denoted in N. rewrite Z, Rplus_0_l, rounded_id in N by apply representable_real. lra.
Qed.

Theorem trunc_integer_part : forall a, normalized a -> is_integer (real (value a)) \/ 0 <= real (value a) * real (error a) ->
  exists n, denoted (Trunc a) = IZR n /\ integer_part n (denoted a).
Proof.
  intros a N C. pose proof N as [Fv [Fe _]]. pose proof (normalized_error a N) as E.
  assert (Small : real (value a) <> 0 -> Rabs (real (error a)) < Rabs (real (value a))).
  { intros NZ. pose proof (ulp_abs_le _ (representable_real (value a)) NZ). pose proof (Rabs_pos_lt _ NZ). lra. }
  unfold Trunc, denoted at 1. cbn [value error]. destruct (lt zero (value a)) eqn:L.
  - apply lt_fin in L; [|reflexivity|exact Fv]. change (real zero) with 0 in L. rewrite (proj2 (floor_real _ Fv)), (proj2 (floor_real _ Fe)).
    exists (Zfloor (real (value a)) + Zfloor (real (error a)))%Z. rewrite plus_IZR. split; [reflexivity|]. left. rewrite plus_IZR. unfold denoted.
    assert (NZ : real (value a) <> 0) by lra. specialize (Small NZ). rewrite (Rabs_pos_eq (real (value a))) in Small by lra.
    pose proof (Rle_abs (- real (error a))) as RA. rewrite Rabs_Ropp in RA. split; [lra|].
    destruct (integer_or_fraction _ (representable_real (value a))) as [[j J]|[k [n [K [X [U _]]]]]].
    + rewrite J. rewrite Zfloor_IZR. pose proof (Zfloor_lb (real (error a))). pose proof (Zfloor_ub (real (error a))). lra.
    + destruct C as [[j J]|C].
      * rewrite J. rewrite Zfloor_IZR. pose proof (Zfloor_lb (real (error a))). pose proof (Zfloor_ub (real (error a))). lra.
      * assert (E0 : 0 <= real (error a)). { apply Rmult_le_reg_l with (real (value a)); [exact L|]. lra. }
        rewrite (Rabs_pos_eq _ E0), U in E. pose proof (Zfloor_lb (real (value a))) as FL. pose proof (Zfloor_ub (real (value a))) as FU.
        assert (PK : pow2 (- k) <= 1). { change 1 with (pow2 0). apply bpow_le. lia. } pose proof (bpow_gt_0 radix2 (- k)) as PP.
        rewrite (floor_unique 0 (real (error a))) by lra.
        assert (G : IZR (Zfloor (real (value a))) + 1 - pow2 (- k) >= real (value a)).
        { pose proof (fraction_gap k (- n) (- (Zfloor (real (value a)) + 1)) K) as G. rewrite !opp_IZR, plus_IZR in G. rewrite X in *. 
          assert (LL : - (IZR (Zfloor (IZR n * pow2 (- k))) + 1) < - IZR n * pow2 (- k)) by lra. specialize (G LL). lra. }
        lra.
  - assert (L' : real (value a) <= 0). { apply Rnot_lt_le. intros Q. assert (lt zero (value a) = true) by (apply lt_fin; [reflexivity|exact Fv|exact Q]). congruence. }
    rewrite (proj2 (ceil_real _ Fv)), (proj2 (ceil_real _ Fe)).
    exists (Zceil (real (value a)) + Zceil (real (error a)))%Z. rewrite plus_IZR. split; [reflexivity|]. right. rewrite plus_IZR. unfold denoted.
    destruct (Req_dec (real (value a)) 0) as [Z|NZ].
    { rewrite Z, (normalized_zero a N Z). rewrite Zceil_IZR. lra. }
    specialize (Small NZ). rewrite (Rabs_left1 (real (value a))) in Small by lra.
    pose proof (Rle_abs (real (error a))) as RA. split; [lra|].
    assert (CB : forall x, IZR (Zceil x) - 1 < x <= IZR (Zceil x)).
    { intros x. split; [|apply Zceil_ub]. unfold Zceil. rewrite opp_IZR. pose proof (Zfloor_ub (- x)). lra. }
    destruct (integer_or_fraction _ (representable_real (value a))) as [[j J]|[k [n [K [X [U _]]]]]].
    + rewrite J. rewrite Zceil_IZR. pose proof (CB (real (error a))). lra.
    + destruct C as [[j J]|C].
      * rewrite J. rewrite Zceil_IZR. pose proof (CB (real (error a))). lra.
      * assert (E0 : real (error a) <= 0). { apply Rnot_lt_le. intros Q. assert (real (value a) * real (error a) < 0) by nra. lra. }
        rewrite (Rabs_left1 _ E0), U in E. pose proof (CB (real (value a))) as [FL FU].
        assert (PK : pow2 (- k) <= 1). { change 1 with (pow2 0). apply bpow_le. lia. } pose proof (bpow_gt_0 radix2 (- k)) as PP.
        rewrite (ceil_unique 0 (real (error a))) by lra.
        assert (G : IZR (Zceil (real (value a))) - 1 + pow2 (- k) <= real (value a)).
        { pose proof (fraction_gap k n (Zceil (real (value a)) - 1) K) as G. rewrite minus_IZR in G. rewrite X in *. apply G. lra. }
        lra.
Qed.
(** In the other cases the result is off by one. *)
Theorem trunc_off_by_one : forall a, normalized a -> ~ is_integer (real (value a)) -> real (value a) * real (error a) < 0 ->
  exists n, integer_part n (denoted a) /\ denoted (Trunc a) = (if Rlt_dec 0 (real (value a)) then IZR n - 1 else IZR n + 1).
Proof.
  intros a N NI C. pose proof N as [Fv [Fe _]]. pose proof (normalized_error a N) as E.
  assert (NZ : real (value a) <> 0). { intros Q. rewrite Q in C. lra. }
  destruct (integer_or_fraction _ (representable_real (value a))) as [J|[k [n [K [X [U _]]]]]]; [contradiction|].
  assert (PK : pow2 (- k) <= 1). { change 1 with (pow2 0). apply bpow_le. lia. } pose proof (bpow_gt_0 radix2 (- k)) as PP. rewrite U in E.
  unfold Trunc. destruct (Rlt_dec 0 (real (value a))) as [L|L].
  - assert (LT : lt zero (value a) = true) by (apply lt_fin; [reflexivity|exact Fv|exact L]). rewrite LT. unfold denoted. cbn [value error].
    rewrite (proj2 (floor_real _ Fv)), (proj2 (floor_real _ Fe)).
    assert (E0 : real (error a) < 0). { apply Rnot_le_lt. intros Q. assert (0 <= real (value a) * real (error a)) by nra. lra. }
    rewrite (Rabs_left _ E0) in E.
    rewrite (floor_unique (-1) (real (error a))) by lra.
    exists (Zfloor (real (value a))). pose proof (Zfloor_lb (real (value a))) as FL. pose proof (Zfloor_ub (real (value a))) as FU.
    assert (FS : IZR (Zfloor (real (value a))) < real (value a)). { destruct FL as [FL|FL]; [exact FL|]. exfalso. apply NI. eexists. symmetry. exact FL. }
    assert (G : IZR (Zfloor (real (value a))) + pow2 (- k) <= real (value a)).
    { pose proof (fraction_gap k n (Zfloor (real (value a))) K) as G. rewrite X in *. apply G. lra. }
    split; [|lra]. left. assert (0 <= Zfloor (real (value a)))%Z as ZF by (apply Zfloor_lub; simpl; lra). apply IZR_le in ZF. lra.
  - assert (L' : real (value a) < 0) by lra.
    assert (LT : lt zero (value a) = false). { destruct (lt zero (value a)) eqn:Q; [|reflexivity]. apply lt_fin in Q; [|reflexivity|exact Fv]. change (real zero) with 0 in Q. lra. }
    rewrite LT. unfold denoted. cbn [value error].
    rewrite (proj2 (ceil_real _ Fv)), (proj2 (ceil_real _ Fe)).
    assert (E0 : 0 < real (error a)). { apply Rnot_le_lt. intros Q. assert (0 <= real (value a) * real (error a)) by nra. lra. }
    rewrite (Rabs_pos_eq _ (Rlt_le _ _ E0)) in E.
    rewrite (ceil_unique 1 (real (error a))) by lra.
    assert (CB : forall x, IZR (Zceil x) - 1 < x <= IZR (Zceil x)).
    { intros x. split; [|apply Zceil_ub]. unfold Zceil. rewrite opp_IZR. pose proof (Zfloor_ub (- x)). lra. }
    exists (Zceil (real (value a))). pose proof (CB (real (value a))) as [FL FU].
    assert (FS : real (value a) < IZR (Zceil (real (value a)))). { destruct FU as [FU|FU]; [exact FU|]. exfalso. apply NI. eexists. exact FU. }
    assert (G : real (value a) <= IZR (Zceil (real (value a))) - pow2 (- k)).
    { pose proof (fraction_gap k (- n) (- Zceil (real (value a))) K) as G. rewrite !opp_IZR in G. rewrite X in *.
      assert (LL : - IZR (Zceil (IZR n * pow2 (- k))) < - IZR n * pow2 (- k)) by lra. specialize (G LL). lra. }
    split; [|lra]. right. assert (Zceil (real (value a)) <= 0)%Z as ZF by (apply Zceil_glb; simpl; lra). apply IZR_le in ZF. lra.
Qed.
