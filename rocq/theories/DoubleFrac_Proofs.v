(** The fractional part of a double-double number. *)
From Coq Require Import ZArith Bool Reals Lra Lia Psatz.
From Flocq Require Import Core IEEE754.BinarySingleNaN IEEE754.Binary IEEE754.Bits.
From Verif Require Import Double_Model Double_Proofs DoubleOrder_Proofs.
Open Scope R_scope.

Lemma representable_multiple : forall k e, (Z.abs k <= 2 ^ 53)%Z -> (-1074 <= e)%Z -> representable (IZR k * pow2 e).
Proof.
  intros k e Hk He. destruct (Z.eq_dec (Z.abs k) (2 ^ 53)) as [E|E].
  - assert (K : IZR k * pow2 e = pow2 (53 + e) \/ IZR k * pow2 e = - pow2 (53 + e)).
    { rewrite bpow_plus. change (pow2 53) with (IZR (2 ^ 53)). destruct (Z.abs_spec k) as [[_ Q]|[_ Q]]; rewrite Q in E.
      - left. rewrite E. reflexivity.
      - right. replace k with (- 2 ^ 53)%Z by lia. rewrite opp_IZR. ring. }
    destruct K as [->| ->]; [|apply representable_opp]; apply representable_pow2; lia.
  - apply generic_format_FLT. exists (Float radix2 k e); [reflexivity| |exact He]. simpl. change (Z.pow_pos 2 53) with (2 ^ 53)%Z. lia.
Qed.
Lemma dominated : forall v e, representable e -> v = rounded (v + e) -> Rabs e <= Rabs v.
Proof.
  intros v e Fe N. assert (Fv : representable v) by (rewrite N; apply representable_rounded).
  destruct (Req_dec v 0) as [Z|NZ]. { rewrite Z, Rplus_0_l, rounded_id in N by exact Fe. rewrite <- N, Z. lra. }
  assert (H : Rabs e <= / 2 * ulp_of v).
  { replace e with (- (v - (v + e))) by ring. rewrite Rabs_Ropp. rewrite N at 1 3. apply error_le_half_ulp_round; typeclasses eauto. }
  pose proof (ulp_abs_le v Fv NZ). pose proof (Rabs_pos v). lra.
Qed.
(** The subtraction is exact if the difference of the values is representable, and it vanishes or the difference of the errors is representable
    and not greater than it. *)
Lemma minus_exact : forall l r, fin (value (minus l r)) -> fin (error (minus l r)) -> representable (real (value l) - real (value r)) ->
  real (value l) - real (value r) = 0 \/
  (representable (real (error l) - real (error r)) /\ Rabs (real (error l) - real (error r)) <= Rabs (real (value l) - real (value r))) ->
  denoted (minus l r) = denoted l - denoted r.
Proof.
  intros l r. unfold minus. set (s := TwoDifference (value l) (value r)). set (t := TwoDifference (error l) (error r)).
  set (v := QuickTwoSum (value s) (add (error s) (value t))). intros F1 F2 Rs C.
  assert (Fw : fin (value v) /\ fin (add (error t) (error v))). { unfold QuickTwoSum at 1 in F1. cbn [value] in F1. apply add_fin in F1. tauto. }
  destruct Fw as [Fvv Fw]. destruct (add_fin _ _ Fw) as [Fte [Fve Ew]].
  assert (Fc : fin (value s) /\ fin (add (error s) (value t))). { unfold v, QuickTwoSum in Fvv. cbn [value] in Fvv. apply add_fin in Fvv. tauto. }
  destruct Fc as [Fsv Fc]. destruct (add_fin _ _ Fc) as [Fse [Ftv Ec]].
  destruct (two_difference_exact _ _ Fsv Fse) as [S1 S2]. destruct (two_difference_exact _ _ Ftv Fte) as [T1 T2]. fold s in S1, S2. fold t in T1, T2.
  rewrite (rounded_id _ Rs) in S1. assert (S0 : real (error s) = 0) by lra.
  assert (Ec' : real (add (error s) (value t)) = real (value t)). { rewrite Ec, S0, Rplus_0_l. apply rounded_id, representable_real. }
  assert (O : ordered (real (value s)) (real (add (error s) (value t)))).
  { rewrite Ec', S1. destruct C as [C|[C1 C2]]; [right; left; exact C|]. left. rewrite T1, (rounded_id _ C1). exact C2. }
  destruct (quick_two_sum_exact _ _ O Fvv Fve) as [V1 V2]. fold v in V1, V2. rewrite Ec' in V1, V2.
  assert (W : real (add (error t) (error v)) = real (error t) + real (error v) /\ Rabs (real (error t) + real (error v)) <= Rabs (real (value v))).
  { destruct C as [C|[C1 C2]].
    - rewrite S1, C, Rplus_0_l in V1. rewrite rounded_id in V1 by apply representable_real. rewrite S1, C in V2.
      assert (E0 : real (error v) = 0) by lra. rewrite Ew, E0, Rplus_0_r, V1. split; [apply rounded_id, representable_real|].
      apply dominated; [apply representable_real|]. rewrite T2. exact T1.
    - rewrite (rounded_id _ C1) in T1. assert (E0 : real (error t) = 0) by lra. rewrite Ew, E0, Rplus_0_l. split; [apply rounded_id, representable_real|].
      apply dominated; [apply representable_real|]. rewrite V2. exact V1. }
  destruct W as [W W0].
  assert (O2 : ordered (real (value v)) (real (add (error t) (error v)))) by (left; rewrite W; exact W0).
  destruct (quick_two_sum_exact _ _ O2 F1 F2) as [_ R2]. unfold denoted at 1. rewrite R2, W. unfold denoted. lra.
Qed.
Theorem frac_exact : forall a, normalized a -> is_integer (real (value a)) \/ 0 <= real (value a) * real (error a) ->
  fin (value (Frac a)) -> fin (error (Frac a)) ->
  exists n, integer_part n (denoted a) /\ denoted (Frac a) = denoted a - IZR n.
Proof.
  intros a N C F1 F2. destruct (trunc_integer_part a N C) as [n [T I]]. exists n. split; [exact I|]. rewrite <- T. unfold Frac.
  pose proof N as [Fv [Fe _]]. pose proof (normalized_error a N) as E.
  destruct (integer_or_fraction _ (representable_real (value a))) as [[j J]|[k [m [K [X [U NZ]]]]]].
  - (* the value is an integer *)
    assert (Z : real (value a) - real (value (Trunc a)) = 0).
    { unfold Trunc. cbn [value]. destruct (lt zero (value a)); [rewrite (proj2 (floor_real _ Fv)), J, Zfloor_IZR|rewrite (proj2 (ceil_real _ Fv)), J, Zceil_IZR]; ring. }
    apply minus_exact; [exact F1|exact F2| |left; exact Z]. rewrite Z. apply generic_format_0.
  - assert (K74 : (-1074 <= - k)%Z).
    { unfold ulp_of in U. rewrite ulp_neq_0 in U by exact NZ. apply bpow_inj in U. rewrite <- U. unfold cexp, FLT_exp. lia. }
    assert (B : Rabs (real (value a)) < pow2 (53 - k)).
    { unfold ulp_of in U. rewrite ulp_neq_0 in U by exact NZ. apply bpow_inj in U. unfold cexp, FLT_exp in U.
      apply Rlt_le_trans with (pow2 (mag radix2 (real (value a)))); [apply bpow_mag_gt|]. apply bpow_le. lia. }
    assert (PK : pow2 (- k) <= 1). { change 1 with (pow2 0). apply bpow_le. lia. } pose proof (bpow_gt_0 radix2 (- k)) as PP. rewrite U in E.
    assert (ND : ~ is_integer (real (value a)) \/ is_integer (real (value a))) by (destruct (Req_dec (real (value a)) (IZR (Zfloor (real (value a))))) as [Q|Q]; [right; eexists; exact Q|left; intros [z Z]; apply Q; rewrite Z, Zfloor_IZR; reflexivity]).
    destruct ND as [ND|[j J]].
    2:{ assert (Z : real (value a) - real (value (Trunc a)) = 0).
        { unfold Trunc. cbn [value]. destruct (lt zero (value a)); [rewrite (proj2 (floor_real _ Fv)), J, Zfloor_IZR|rewrite (proj2 (ceil_real _ Fv)), J, Zceil_IZR]; ring. }
        apply minus_exact; [exact F1|exact F2| |left; exact Z]. rewrite Z. apply generic_format_0. }
    destruct C as [C|C]; [contradiction|].
    assert (H : exists j, real (value (Trunc a)) = IZR j /\ real (error (Trunc a)) = 0 /\ Rabs (real (value a) - IZR j) <= Rabs (real (value a)) /\
                          pow2 (- k) <= Rabs (real (value a) - IZR j)).
    { unfold Trunc. cbn [value error]. destruct (lt zero (value a)) eqn:L.
      - apply lt_fin in L; [|reflexivity|exact Fv]. change (real zero) with 0 in L. exists (Zfloor (real (value a))). split; [apply floor_real, Fv|].
        assert (E0 : 0 <= real (error a)). { apply Rmult_le_reg_l with (real (value a)); [exact L|]. lra. } rewrite (Rabs_pos_eq _ E0) in E.
        split. { rewrite (proj2 (floor_real _ Fe)). rewrite (floor_unique 0 (real (error a))) by lra. reflexivity. }
        assert (Z0 : (0 <= Zfloor (real (value a)))%Z) by (apply Zfloor_lub; simpl; lra). apply IZR_le in Z0. pose proof (Zfloor_lb (real (value a))) as FL.
        rewrite !Rabs_pos_eq by lra. split; [lra|].
        assert (FS : IZR (Zfloor (real (value a))) < real (value a)). { destruct FL as [FL|FL]; [exact FL|]. exfalso. apply ND. eexists. symmetry. exact FL. }
        pose proof (fraction_gap k m (Zfloor (real (value a))) K) as G. rewrite <- X in G. specialize (G FS). lra.
      - assert (L' : real (value a) <= 0). { apply Rnot_lt_le. intros Q. assert (lt zero (value a) = true) by (apply lt_fin; [reflexivity|exact Fv|exact Q]). congruence. }
        exists (Zceil (real (value a))). split; [apply ceil_real, Fv|].
        assert (E0 : real (error a) <= 0). { apply Rnot_lt_le. intros Q. assert (real (value a) * real (error a) < 0) by nra. lra. } rewrite (Rabs_left1 _ E0) in E.
        split. { rewrite (proj2 (ceil_real _ Fe)). rewrite (ceil_unique 0 (real (error a))) by lra. reflexivity. }
        assert (Z0 : (Zceil (real (value a)) <= 0)%Z) by (apply Zceil_glb; simpl; lra). apply IZR_le in Z0. pose proof (Zceil_ub (real (value a))) as FL.
        rewrite !Rabs_left1 by lra. split; [lra|].
        assert (FS : real (value a) < IZR (Zceil (real (value a)))). { destruct FL as [FL|FL]; [exact FL|]. exfalso. apply ND. eexists. exact FL. }
        pose proof (fraction_gap k (- m) (- Zceil (real (value a))) K) as G. rewrite !opp_IZR in G.
        replace (- IZR m * pow2 (- k)) with (- real (value a)) in G by (rewrite X at 1; ring). assert (FS' : - IZR (Zceil (real (value a))) < - real (value a)) by lra. specialize (G FS'). lra. }
    destruct H as [j [J1 [J2 [J3 J4]]]].
    apply minus_exact; [exact F1|exact F2| |].
    + rewrite J1. assert (D : real (value a) - IZR j = IZR (m - j * 2 ^ k) * pow2 (- k)).
      { rewrite X at 1. rewrite minus_IZR, mult_IZR. change 2%Z with (radix_val radix2). rewrite IZR_Zpower by lia. rewrite Rmult_minus_distr_r, Rmult_assoc, <- bpow_plus.
        replace (k + - k)%Z with 0%Z by ring. simpl (pow2 0). ring. }
      rewrite D in J3 |- *. apply representable_multiple; [|exact K74]. apply le_IZR. rewrite abs_IZR.
      apply Rmult_le_reg_r with (pow2 (- k)); [exact PP|]. rewrite Rabs_mult, (Rabs_pos_eq (pow2 (- k))) in J3 by lra.
      unfold Z.sub in B. rewrite bpow_plus in B. change (pow2 53) with (IZR (2 ^ 53)) in B. lra.
    + right. rewrite J1, J2, Rminus_0_r. split; [apply representable_real|]. lra.
Qed.
