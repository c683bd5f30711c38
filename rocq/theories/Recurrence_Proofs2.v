(* Proofs about the recurrence of ground tracks: the subcycle, the ground track and the closest recurrence. *)
From Coq Require Import ZArith Znumtheory Bool Reals List Lia Lra Psatz.
From Flocq Require Import Core.
From Verif Require Import Recurrence_Model Recurrence_Spec Recurrence_Proofs.
Import ListNotations.
Local Open Scope Z_scope.

(* ---------------------------------------------------------------- the subcycle *)

Lemma revolutions_divide : forall nu D C k s, (C | k * (nu * C + D) + s) <-> (C | k * D + s).
Proof.
  intros nu D C k s. replace (k * (nu * C + D) + s) with (k * D + s + (k * nu) * C) by ring. split.
  - intros H. replace (k * D + s) with (k * D + s + k * nu * C - k * nu * C) by ring.
    apply Z.divide_sub_r; [exact H|exists (k * nu); ring].
  - intros H. apply Z.divide_add_r; [exact H|exists (k * nu); ring].
Qed.

Lemma revolutions_gcd : forall nu D C, Z.gcd D C = 1 -> Z.gcd (nu * C + D) C = 1.
Proof. intros nu D C G. rewrite Z.add_comm, Z.gcd_comm, Z.gcd_add_mult_diag_r, Z.gcd_comm. exact G. Qed.

Lemma subcycle_convergent : forall nu D C E l a, valid nu D C -> D <> 0 -> is_subcycle D C E ->
  simple (l ++ [a]) -> 2 <= a -> reduced (l ++ [a]) (nu * C + D) (Z.abs C) ->
  exists P, reduced l P (Z.abs E).
Proof.
  intros nu D C E l a (V0 & V1 & V2 & V3) D0 [_ HE] S A R. specialize (HE D0). destruct HE as (E1 & E2 & E3).
  destruct (reduced_matrix _ _ _ S R) as (p' & q' & M).
  destruct (matrix l) as [[[p0 p0'] q0] q0'] eqn:W.
  rewrite (matrix_app l a p0 p0' q0 q0' W) in M. injection M as M1 M2 M3 M4.
  destruct (simple_snoc l a S) as [->|[SL _]].
  { cbn in W. injection W as <- <- <- <-. lia. }
  destruct (simple_matrix l _ _ _ _ SL W) as [Q1 Q2].
  exists p0. enough (Z.abs E = q0) as -> by (apply (matrix_reduced l p0 p0' q0 q0'); assumption).
  assert (Q3 : 2 * q0 <= Z.abs C) by nia.
  assert (DC : forall x, (C | x) <-> (Z.abs C | x)) by (intros x; symmetry; apply Z.divide_abs_l).
  assert (QD : (C | q0 * (nu * C + D) + -1) \/ (C | q0 * (nu * C + D) + 1)).
  { destruct (matrix_det_or l _ _ _ _ W) as [X|X]; [right|left]; apply DC; exists p0; rewrite <- M1, <- M3; nia. }
  assert (ED : (C | Z.abs E * (nu * C + D) + -1) \/ (C | Z.abs E * (nu * C + D) + 1)).
  { assert (ED0 : (C | E * D + -1) \/ (C | E * D + 1)) by exact E2.
    destruct (Z_le_gt_dec 0 E) as [L|L].
    - rewrite Z.abs_eq by exact L. rewrite !revolutions_divide. exact ED0.
    - rewrite Z.abs_neq by lia. rewrite !revolutions_divide.
      replace (- E * D + -1) with (- (E * D + 1)) by ring. replace (- E * D + 1) with (- (E * D + -1)) by ring.
      rewrite !Z.divide_opp_r. tauto. }
  assert (E0 : 1 <= Z.abs E) by nia.
  assert (EQ : Z.abs E <= q0).
  { destruct (Z_le_gt_dec (Z.abs E) q0) as [L|L]; [exact L|].
    destruct (E3 q0 ltac:(lia)) as [X1 X2]. rewrite !revolutions_divide in QD. tauto. }
  set (N := nu * C + D) in *. assert (G : Z.gcd C N = 1) by (rewrite Z.gcd_comm; apply revolutions_gcd; exact V3).
  assert (K : (C | Z.abs E - q0) \/ (C | Z.abs E + q0)).
  { destruct QD as [X|X], ED as [Y|Y].
    - left. apply Z.gauss with N; [|exact G]. replace (N * (Z.abs E - q0)) with ((Z.abs E * N + -1) - (q0 * N + -1)) by ring.
      apply Z.divide_sub_r; assumption.
    - right. apply Z.gauss with N; [|exact G]. replace (N * (Z.abs E + q0)) with ((Z.abs E * N + 1) + (q0 * N + -1)) by ring.
      apply Z.divide_add_r; assumption.
    - right. apply Z.gauss with N; [|exact G]. replace (N * (Z.abs E + q0)) with ((Z.abs E * N + -1) + (q0 * N + 1)) by ring.
      apply Z.divide_add_r; assumption.
    - left. apply Z.gauss with N; [|exact G]. replace (N * (Z.abs E - q0)) with ((Z.abs E * N + 1) - (q0 * N + 1)) by ring.
      apply Z.divide_sub_r; assumption. }
  destruct K as [K|K]; apply DC in K; destruct K as [k K]; clear - K E0 EQ Q3; set (c := Z.abs C) in *; clearbody c.
  - assert (k = 0); [|nia]. destruct (Z_le_gt_dec 1 k); [nia|]. destruct (Z_le_gt_dec k (-1)); [nia|lia].
  - assert (k = 1); [|nia]. destruct (Z_le_gt_dec 2 k); [nia|]. destruct (Z_le_gt_dec k 0); [nia|lia].
Qed.

Lemma expansion_exists : forall nu D C, valid nu D C -> D <> 0 ->
  exists l a, simple (l ++ [a]) /\ 2 <= a /\ reduced (l ++ [a]) (nu * C + D) (Z.abs C).
Proof.
  intros nu D C (V0 & V1 & V2 & V3) D0.
  assert (G : Z.gcd (nu * C + D) (Z.abs C) = 1) by (rewrite Z.gcd_abs_r; apply revolutions_gcd; exact V3).
  destruct (euclid (Z.to_nat (Z.abs C)) (nu * C + D) (Z.abs C) ltac:(lia) ltac:(lia) G) as (l & a & p' & q' & S & L1 & L2 & M).
  exists l, a. split; [exact S|]. split; [apply L2; lia|]. apply (matrix_reduced _ _ _ _ _ S M).
Qed.

(* ------------------------------------------------------------ the ground track *)

Lemma shift_eq : forall (c N n k : R), N <> 0%R -> (n * - (c / N) - k = - (n * c + k * N) / N)%R.
Proof. intros c N n k H. field. exact H. Qed.

Lemma ground_track : forall r, valid (nu r) (D r) (C r) -> number_of_revolutions r <> 0 ->
  forall n, ((exists k, IZR n * equatorial_shift r = IZR k)%R <-> (number_of_revolutions r | n)) /\
    forall k, (IZR n * equatorial_shift r <> IZR k ->
      Rabs (grid_interval r) <= Rabs (IZR n * equatorial_shift r - IZR k))%R.
Proof.
  intros r (V0 & V1 & V2 & V3) NZ n. set (N := number_of_revolutions r) in *.
  assert (G : Z.gcd N (C r) = 1) by (apply revolutions_gcd; exact V3).
  assert (NR : IZR N <> 0%R) by (apply not_0_IZR; exact NZ).
  assert (K : forall k, (IZR n * equatorial_shift r - IZR k = - IZR (n * C r + k * N) / IZR N)%R).
  { intros k. unfold equatorial_shift. fold N. rewrite shift_eq by exact NR. rewrite plus_IZR, !mult_IZR. reflexivity. }
  split.
  - split.
    + intros [k E]. specialize (K k). rewrite E in K.
      assert (X : n * C r + k * N = 0).
      { apply eq_IZR. apply (Rmult_eq_reg_r (/ IZR N)); [|apply Rinv_neq_0_compat; exact NR]. unfold Rdiv in K. lra. }
      apply Z.gauss with (C r); [exists (- k); lia|exact G].
    + intros [j ->]. exists (- (j * C r)). unfold equatorial_shift. fold N. rewrite opp_IZR, !mult_IZR. field. exact NR.
  - intros k E. rewrite K. unfold grid_interval. fold N. unfold Rdiv. rewrite !Rabs_mult, Rabs_R1.
    apply Rmult_le_compat_r; [apply Rabs_pos|]. rewrite Rabs_Ropp, <- abs_IZR. apply IZR_le.
    assert (X : n * C r + k * N <> 0); [|lia].
    intros X. apply E. specialize (K k). rewrite X in K. unfold Rdiv in K. rewrite Ropp_0, Rmult_0_l in K. lra.
Qed.

Lemma ground_subcycle : forall r, valid (nu r) (D r) (C r) -> is_subcycle (D r) (C r) (subcycle r) ->
  number_of_revolutions r <> 0 -> D r <> 0 ->
  (exists n, Rabs (IZR n * equatorial_shift r + IZR (subcycle r)) = Rabs (grid_interval r))%R /\
  (forall E n, 0 < Z.abs E < Z.abs (subcycle r) ->
    (Rabs (IZR n * equatorial_shift r + IZR E) <> Rabs (grid_interval r))%R).
Proof.
  intros r (V0 & V1 & V2 & V3) [_ S] NZ D0. specialize (S D0). destruct S as (S1 & S2 & S3).
  set (N := number_of_revolutions r) in *. assert (NR : IZR N <> 0%R) by (apply not_0_IZR; exact NZ).
  assert (K : forall n E, (Rabs (IZR n * equatorial_shift r + IZR E) = IZR (Z.abs (n * C r - E * N)) * Rabs (/ IZR N))%R).
  { intros n E. rewrite abs_IZR, <- Rabs_mult, <- Rabs_Ropp. f_equal. unfold equatorial_shift. fold N.
    rewrite minus_IZR, !mult_IZR. field. exact NR. }
  assert (GI : Rabs (grid_interval r) = Rabs (/ IZR N)).
  { unfold grid_interval. fold N. f_equal. field. exact NR. }
  assert (P : (0 < Rabs (/ IZR N))%R) by (apply Rabs_pos_lt, Rinv_neq_0_compat; exact NR).
  split.
  - assert (S2' : (C r | subcycle r * D r + -1) \/ (C r | subcycle r * D r + 1)) by exact S2.
    rewrite <- !(revolutions_divide (nu r) (D r) (C r)) in S2'. change (nu r * C r + D r) with N in S2'.
    destruct S2' as [[n H]|[n H]]; exists n; rewrite K, GI.
    + replace (n * C r - subcycle r * N) with (-1) by lia. cbn. ring.
    + replace (n * C r - subcycle r * N) with 1 by lia. cbn. ring.
  - intros E n HE X. rewrite K, GI in X.
    assert (Y : IZR (Z.abs (n * C r - E * N)) = 1%R) by (apply (Rmult_eq_reg_r (Rabs (/ IZR N))); lra).
    apply eq_IZR in Y. destruct (S3 E HE) as [X1 X2].
    assert (Z : (C r | E * N + -1) \/ (C r | E * N + 1)).
    { destruct (Z.abs_spec (n * C r - E * N)) as [[_ A]|[_ A]]; [right|left]; exists n; lia. }
    unfold N, number_of_revolutions in Z. rewrite !revolutions_divide in Z. tauto.
Qed.

(* ------------------------------------------------------------- the closest recurrence *)

Definition dist (x : R) : R := Rabs (x - IZR (ZnearestE x)).

Lemma dist_half : forall x, (dist x <= / 2)%R.
Proof. intros x. apply Znearest_half. Qed.

Lemma dist_best : forall x n, (dist x <= Rabs (x - IZR n))%R.
Proof.
  intros x n. pose proof (dist_half x) as H. unfold dist in *. destruct (Z.eq_dec n (ZnearestE x)) as [->|E]; [lra|].
  assert (B : (1 <= Rabs (IZR (n - ZnearestE x)))%R) by (rewrite <- abs_IZR; apply IZR_le; lia).
  rewrite minus_IZR in B. revert H B. unfold Rabs. repeat destruct Rcase_abs; lra.
Qed.

Lemma dist_shift : forall x n, dist (x - IZR n) = dist x.
Proof.
  intros x n. apply Rle_antisym.
  - unfold dist at 2. replace (x - IZR (ZnearestE x))%R with (x - IZR n - IZR (ZnearestE x - n))%R by (rewrite minus_IZR; ring).
    apply dist_best.
  - unfold dist at 2. replace (x - IZR n - IZR (ZnearestE (x - IZR n)))%R with (x - IZR (n + ZnearestE (x - IZR n)))%R by (rewrite plus_IZR; ring).
    apply dist_best.
Qed.

Lemma dist_opp : forall x, dist (- x) = dist x.
Proof.
  assert (H : forall x, (dist (- x) <= dist x)%R).
  { intros x. unfold dist at 2. replace (x - IZR (ZnearestE x))%R with (- (- x - IZR (- ZnearestE x)))%R by (rewrite opp_IZR; ring).
    rewrite Rabs_Ropp. apply dist_best. }
  intros x. apply Rle_antisym; [apply H|]. rewrite <- (Ropp_involutive x) at 1. apply H.
Qed.

Lemma safe_reals : forall x, (- IZR int_max <= x <= IZR int_max)%R -> SafeNearbyInt reals x = Some (ZnearestE x).
Proof.
  intros x H. cbn [SafeNearbyInt reals]. unfold int_lowest, int_max in *.
  destruct (Rlt_dec x (IZR (-2147483648))); [lra|]. destruct (Rlt_dec (IZR 2147483647) x); [lra|]. reflexivity.
Qed.

Definition best (k : R) (M c : Z) : Prop :=
  1 <= c <= M /\ (forall j, 1 <= j <= M -> (dist (k * IZR c) <= dist (k * IZR j))%R) /\
  (forall j, 1 <= j < c -> (dist (k * IZR c) < dist (k * IZR j))%R).

Definition signed (kappa : R) (c : Z) : Z := if signbit reals kappa then - c else c.

Lemma abs_times : forall kappa J, 0 <= J -> Rabs (kappa * IZR J) = (Rabs kappa * IZR J)%R.
Proof. intros kappa J H. rewrite Rabs_mult, (Rabs_pos_eq (IZR J)); [reflexivity|]. apply IZR_le. exact H. Qed.

Lemma loop_best : forall count J kappa c, 2 <= J -> best (Rabs kappa) (J - 1) c ->
  (Rabs kappa * IZR (J - 1 + Z.of_nat count) <= IZR int_max)%R ->
  exists c', closest_loop reals count J kappa (Some (dist (Rabs kappa * IZR c))) (Some (signed kappa c)) =
      Value (Some (signed kappa c')) /\ best (Rabs kappa) (J - 1 + Z.of_nat count) c'.
Proof.
  induction count as [|n IH]; intros J kappa c HJ B O; cbn [closest_loop].
  - exists c. split; [reflexivity|]. replace (J - 1 + Z.of_nat 0) with (J - 1) by lia. exact B.
  - change (abs reals (times_int reals kappa J)) with (Rabs (kappa * IZR J)). rewrite abs_times by lia.
    pose proof (Rabs_pos kappa) as K0. assert (J0 : (0 <= IZR J)%R) by (apply IZR_le; lia).
    rewrite safe_reals.
    2:{ assert ((Rabs kappa * IZR J <= Rabs kappa * IZR (J - 1 + Z.of_nat (Datatypes.S n)))%R).
        { apply Rmult_le_compat_l; [exact K0|]. apply IZR_le. lia. }
        assert (0 <= Rabs kappa * IZR J)%R by (apply Rmult_le_pos; assumption). unfold int_max in *. lra. }
    change (abs reals (minus_int reals (Rabs kappa * IZR J)%R (ZnearestE (Rabs kappa * IZR J))))
      with (dist (Rabs kappa * IZR J)). cbv zeta.
    change (less reals (dist (Rabs kappa * IZR J)) (dist (Rabs kappa * IZR c)))
      with (if Rlt_dec (dist (Rabs kappa * IZR J)) (dist (Rabs kappa * IZR c)) then true else false).
    replace (J - 1 + Z.of_nat (Datatypes.S n)) with (J + 1 - 1 + Z.of_nat n) in * by lia.
    destruct B as (B1 & B2 & B3).
    destruct (Rlt_dec (dist (Rabs kappa * IZR J)) (dist (Rabs kappa * IZR c))) as [L|L].
    + apply (IH (J + 1) kappa J); [lia| |exact O]. split; [lia|]. split.
      * intros j Hj. destruct (Z.eq_dec j J) as [->|NJ]; [lra|]. specialize (B2 j ltac:(lia)). lra.
      * intros j Hj. specialize (B2 j ltac:(lia)). lra.
    + apply (IH (J + 1) kappa c); [lia| |exact O]. split; [lia|]. split; [|exact B3].
      intros j Hj. destruct (Z.eq_dec j J) as [->|NJ]; [lra|]. apply B2. lia.
Qed.

Lemma loop_result : forall M kappa, 1 <= M -> (Rabs kappa * IZR M <= IZR int_max)%R ->
  exists c, closest_loop reals (Z.to_nat M) 1 kappa None None = Value (Some (signed kappa c)) /\ best (Rabs kappa) M c.
Proof.
  intros M kappa HM O. replace (Z.to_nat M) with (Datatypes.S (Z.to_nat (M - 1))) by lia. cbn [closest_loop].
  change (abs reals (times_int reals kappa 1)) with (Rabs (kappa * IZR 1)). rewrite abs_times by lia.
  pose proof (Rabs_pos kappa) as K0. rewrite safe_reals.
  2:{ assert (Rabs kappa * 1 <= Rabs kappa * IZR M)%R by (apply Rmult_le_compat_l; [exact K0|apply IZR_le; exact HM]).
      unfold int_max in *. lra. }
  change (abs reals (minus_int reals (Rabs kappa * 1)%R (ZnearestE (Rabs kappa * 1))))
    with (dist (Rabs kappa * IZR 1)). cbv zeta.
  destruct (loop_best (Z.to_nat (M - 1)) 2 kappa 1) as (c & C1 & C2).
  - lia.
  - split; [lia|]. split; [|intros; lia]. intros j Hj. replace j with 1 by lia. lra.
  - replace (2 - 1 + Z.of_nat (Z.to_nat (M - 1))) with M by lia. exact O.
  - exists c. split; [exact C1|]. replace (2 - 1 + Z.of_nat (Z.to_nat (M - 1))) with M in C2 by lia. exact C2.
Qed.

Lemma nearest_half_even : ZnearestE (/ 2) = 0 /\ ZnearestE (- / 2) = 0.
Proof.
  assert (H : ZnearestE (/ 2) = 0).
  { unfold Znearest. assert (F : Zfloor (/ 2) = 0) by (apply Zfloor_imp; cbn; lra). rewrite F.
    replace (/ 2 - 0)%R with (/ 2)%R by ring. rewrite Rcompare_Eq by reflexivity. reflexivity. }
  split; [exact H|]. rewrite Znearest_opp. unfold Znearest.
  assert (F : Zfloor (/ 2) = 0) by (apply Zfloor_imp; cbn; lra). rewrite F.
  replace (/ 2 - 0)%R with (/ 2)%R by ring. rewrite Rcompare_Eq by reflexivity. reflexivity.
Qed.

Lemma nearest_bounds : forall x, (IZR (ZnearestE x) - / 2 <= x <= IZR (ZnearestE x) + / 2)%R.
Proof.
  intros x. pose proof (dist_half x) as H. unfold dist in H. revert H. unfold Rabs. destruct Rcase_abs; lra.
Qed.

(* The recurrence made of ν, D and C. *)
Lemma best_valid : forall kappa M c, best (Rabs kappa) M c ->
  let nu := ZnearestE kappa in
  let C := signed kappa c in
  let D := ZnearestE ((kappa - IZR nu) * IZR C) in
  valid nu D C /\ 0 <= nu * C + D /\ (Rabs (Rabs kappa * IZR c - IZR (nu * C + D)) = dist (Rabs kappa * IZR c))%R /\
  (kappa * IZR C = Rabs kappa * IZR c)%R /\ Z.abs C = c /\ (Rabs ((kappa - IZR nu) * IZR C) <= IZR c / 2)%R.
Proof.
  intros kappa M c (B1 & B2 & B3) nu C D.
  assert (AC : Z.abs C = c) by (unfold C, signed; destruct (signbit reals kappa); lia).
  assert (c1 : (1 <= IZR c)%R) by (apply IZR_le; lia).
  assert (KC : (kappa * IZR C = Rabs kappa * IZR c)%R).
  { unfold C, signed. cbn [signbit reals]. destruct (Rlt_dec kappa 0) as [L|L].
    - rewrite opp_IZR, Rabs_left by exact L. ring.
    - rewrite Rabs_pos_eq by lra. reflexivity. }
  pose proof (nearest_bounds kappa) as NU. fold nu in NU.
  assert (NN : (Rabs (kappa - IZR nu) <= / 2)%R) by (unfold Rabs; destruct Rcase_abs; lra).
  assert (Y : (Rabs ((kappa - IZR nu) * IZR C) <= IZR c / 2)%R).
  { rewrite Rabs_mult, <- abs_IZR, AC. nra. }
  assert (ND : (Rabs kappa * IZR c - IZR (nu * C + D) = (kappa - IZR nu) * IZR C - IZR D)%R).
  { rewrite plus_IZR, mult_IZR, <- KC. ring. }
  assert (DD : (Rabs (Rabs kappa * IZR c - IZR (nu * C + D)) = dist (Rabs kappa * IZR c))%R).
  { rewrite ND. unfold D. change (Rabs ((kappa - IZR nu) * IZR C - IZR (ZnearestE ((kappa - IZR nu) * IZR C))))
      with (dist ((kappa - IZR nu) * IZR C)).
    replace ((kappa - IZR nu) * IZR C)%R with (Rabs kappa * IZR c - IZR (nu * C))%R by (rewrite mult_IZR, <- KC; ring).
    apply dist_shift. }
  assert (N0 : 0 <= nu * C + D).
  { pose proof (dist_half (Rabs kappa * IZR c)) as H. rewrite <- DD in H.
    assert (0 <= Rabs kappa * IZR c)%R by (apply Rmult_le_pos; [apply Rabs_pos|lra]).
    assert (-1 < IZR (nu * C + D))%R by (revert H; unfold Rabs at 1; destruct Rcase_abs; lra).
    apply lt_IZR in H1. lia. }
  assert (CZ : C <> 0) by lia.
  repeat split; try assumption.
  - intros NZ. unfold C, signed in *. cbn [signbit reals] in *. destruct (Rlt_dec kappa 0) as [L|L].
    + assert (IZR nu < 1)%R by lra. apply lt_IZR in H. nia.
    + assert (-1 < IZR nu)%R by lra. apply lt_IZR in H. nia.
  - rewrite AC. pose proof (nearest_bounds ((kappa - IZR nu) * IZR C)) as BD. fold D in BD.
    destruct (Z_le_gt_dec (2 * Z.abs D) c) as [L|L]; [exact L|exfalso].
    assert (L' : (IZR c + 1 <= 2 * Rabs (IZR D))%R).
    { rewrite <- abs_IZR, <- mult_IZR, <- plus_IZR. apply IZR_le. lia. }
    assert (EQ : Rabs ((kappa - IZR nu) * IZR C) = (IZR c / 2)%R).
    { revert Y L'. unfold Rabs. repeat destruct Rcase_abs; lra. }
    assert (HD : Rabs ((kappa - IZR nu) * IZR C - IZR D) = (/ 2)%R).
    { revert Y L'. unfold Rabs. repeat destruct Rcase_abs; lra. }
    rewrite ND in DD. rewrite HD in DD.
    assert (c = 1).
    { destruct (Z.eq_dec c 1) as [X|X]; [exact X|]. specialize (B3 1 ltac:(lia)).
      pose proof (dist_half (Rabs kappa * 1)). lra. }
    assert (D = 0).
    { destruct nearest_half_even as [T1 T2]. assert (EQ1 : Rabs ((kappa - IZR nu) * IZR C) = (1 / 2)%R) by (rewrite EQ, H; reflexivity).
      clear EQ. revert EQ1. unfold D, Rabs. destruct Rcase_abs; intros EQ.
      - replace ((kappa - IZR nu) * IZR C)%R with (- / 2)%R by lra. exact T2.
      - replace ((kappa - IZR nu) * IZR C)%R with (/ 2)%R by lra. exact T1. }
    rewrite H0 in L. lia.
  - set (N := nu * C + D) in *. assert (GN : Z.gcd D C = Z.gcd N C).
    { unfold N. rewrite Z.add_comm, (Z.gcd_comm (D + _)), Z.gcd_add_mult_diag_r, Z.gcd_comm. reflexivity. }
    rewrite GN. set (g := Z.gcd N C). pose proof (Z.gcd_nonneg N C) as G0. fold g in G0.
    destruct (Z.gcd_divide_l N C) as [N' EN]. destruct (Z.gcd_divide_r N c) as [c' Ec].
    assert (GC : Z.gcd N c = g) by (unfold g; rewrite <- AC; apply Z.gcd_abs_r). fold g in EN. rewrite GC in Ec.
    assert (GZ : g <> 0) by (intros X; rewrite X in Ec; lia).
    destruct (Z_le_gt_dec g 1) as [L|L]; [clearbody g; lia|exfalso].
    assert (C1 : 1 <= c' < c) by (clear - Ec L B1; clearbody g; nia). specialize (B3 c' C1).
    pose proof (dist_best (Rabs kappa * IZR c') N') as DB.
    assert (X : (Rabs kappa * IZR c - IZR N = IZR g * (Rabs kappa * IZR c' - IZR N'))%R).
    { rewrite EN. replace (IZR c) with (IZR c' * IZR g)%R by (rewrite <- mult_IZR; f_equal; lia). rewrite mult_IZR. ring. }
    rewrite X, Rabs_mult, (Rabs_pos_eq (IZR g)) in DD by (apply IZR_le; lia).
    assert (G1 : (1 <= IZR g)%R) by (apply IZR_le; lia). pose proof (Rabs_pos (Rabs kappa * IZR c' - IZR N')). nra.
Qed.

Lemma closest_value : forall fuel kappa M, 1 <= M <= 92681 -> (Rabs kappa * IZR M <= IZR int_max)%R ->
  (Z.to_nat M <= fuel)%nat ->
  exists r c, closest reals fuel kappa M = Value r /\ best (Rabs kappa) M c /\
    nu r = ZnearestE kappa /\ C r = signed kappa c /\ D r = ZnearestE ((kappa - IZR (nu r)) * IZR (C r)) /\
    is_subcycle (D r) (C r) (subcycle r).
Proof.
  intros fuel kappa M HM O F. destruct (loop_result M kappa ltac:(lia) O) as (c & C1 & B).
  pose proof (best_valid kappa M c B) as BV. cbv zeta in BV. destruct BV as (V & V1 & V2 & V3 & V4 & V5).
  unfold closest. rewrite C1.
  assert (M1 : (1 <= IZR M)%R) by (apply IZR_le; lia).
  assert (KM : (Rabs kappa <= IZR int_max)%R) by (pose proof (Rabs_pos kappa); nra).
  rewrite safe_reals.
  2:{ revert KM. unfold int_max, Rabs. destruct Rcase_abs; lra. }
  change (times_int reals (minus_int reals kappa (ZnearestE kappa)) (signed kappa c))
    with ((kappa - IZR (ZnearestE kappa)) * IZR (signed kappa c))%R.
  destruct B as (B1 & B2 & B3).
  rewrite safe_reals.
  2:{ assert (IZR c / 2 <= IZR int_max)%R.
      { assert (IZR c <= IZR 92681)%R by (apply IZR_le; lia). unfold int_max. lra. }
      revert V5. unfold Rabs. destruct Rcase_abs; lra. }
  destruct (constructor_value fuel _ _ _ ltac:(rewrite V4; lia) ltac:(rewrite V4; lia) V) as (E & E1 & E2 & E3).
  exists (mkRecurrence (ZnearestE kappa) (ZnearestE ((kappa - IZR (ZnearestE kappa)) * IZR (signed kappa c))) (signed kappa c) E), c.
  split; [exact E1|]. split; [split; [exact B1|split; assumption]|].
  cbn [nu D C subcycle]. auto.
Qed.

(* Lagrange: a best approximation is a convergent, and it is the last one. *)
Lemma best_convergent : forall k M c N, (0 <= k)%R -> 2 <= M -> best k M c -> Z.gcd N c = 1 ->
  (Rabs (k * IZR c - IZR N) = dist (k * IZR c))%R ->
  (k * IZR c = IZR N)%R \/
  exists l x, simple l /\ (1 < x)%R /\ reduced l N c /\ k = fraction (map IZR l ++ [x]) /\
    forall P Q, reduced (l ++ [Zfloor x]) P Q -> M < Q.
Proof.
  intros k M c N K0 HM (B1 & B2 & B3) G DE. set (eps := (k * IZR c - IZR N)%R) in *.
  destruct (Req_dec eps 0) as [E0|E0]; [left; unfold eps in E0; lra|right].
  assert (c1 : (1 <= IZR c)%R) by (apply IZR_le; lia).
  (* An expansion for which the rest is greater than 1. *)
  assert (X : exists l p' q' x, simple l /\ matrix l = (N, p', c, q') /\ (1 < x)%R /\ (x * eps = IZR p' - k * IZR q')%R).
  { set (b := if Rlt_dec eps 0 then true else false).
    destruct (euclid_parity N c b ltac:(lia) G) as (l & p' & q' & S & W & P).
    pose proof (matrix_det l _ _ _ _ W) as DET. rewrite P in DET.
    destruct (simple_matrix l _ _ _ _ S W) as [Q1 Q2].
    assert (DETR : (IZR N * IZR q' - IZR p' * IZR c = if b then 1 else -1)%R).
    { rewrite <- !mult_IZR, <- minus_IZR, DET. destruct b; reflexivity. }
    assert (q0 : (0 <= IZR q')%R) by (apply IZR_le; lia).
    assert (qc : (IZR q' <= IZR c)%R) by (apply IZR_le; lia).
    assert (Y : (IZR c * (IZR p' - k * IZR q') = (if b then -1 else 1) - IZR q' * eps)%R).
    { unfold eps. destruct b; lra. }
    assert (SE : (if b then eps < 0 else 0 < eps)%R) by (unfold b; destruct (Rlt_dec eps 0); lra).
    exists l, p', q', ((IZR p' - k * IZR q') / eps)%R. split; [exact S|]. split; [exact W|].
    split; [|field; exact E0].
    assert (H2 : (Rabs eps <= / 2)%R) by (rewrite DE; apply dist_half).
    assert (H3 : (Rabs eps < Rabs (IZR p' - k * IZR q'))%R).
    { destruct (Z.eq_dec c 1) as [C1|C1].
      - subst c. assert (E2 : Rabs eps <> (/ 2)%R).
        { intros E. specialize (B2 2 ltac:(lia)). rewrite <- DE, E in B2.
          assert (Z2 : exists n, (k * 2 = IZR n)%R).
          { revert E. unfold Rabs, eps. destruct Rcase_abs; intros E; [exists (2 * N - 1)|exists (2 * N + 1)];
              rewrite ?minus_IZR, ?plus_IZR, mult_IZR; lra. }
          destruct Z2 as [n Hn]. pose proof (dist_best (k * 2) n) as D2. rewrite Hn, Rminus_diag_eq, Rabs_R0 in D2 by reflexivity.
          rewrite Hn in B2. lra. }
        assert (q'01 : q' = 0 \/ q' = 1) by lia.
        destruct q'01 as [-> | ->].
        + replace (Rabs (IZR p' - k * 0)) with 1%R; [lra|]. destruct b; unfold Rabs; destruct Rcase_abs; lra.
        + revert H2 E2 SE Y. clear. unfold Rabs. destruct b; intros; repeat destruct Rcase_abs; lra.
      - assert (Gq : Z.gcd c q' = 1) by (apply (det_gcd N p' c q'); destruct b; lia).
        assert (q' <> 0) by (intros ->; rewrite Z.gcd_0_r in Gq; lia).
        assert (q' <> c) by (intros ->; rewrite Z.gcd_diag in Gq; lia).
        specialize (B3 q' ltac:(lia)). rewrite <- DE in B3. pose proof (dist_best (k * IZR q') p') as DB.
        rewrite <- (Rabs_Ropp (IZR p' - k * IZR q')). replace (- (IZR p' - k * IZR q'))%R with (k * IZR q' - IZR p')%R by ring. lra. }
    assert (SY : (if b then IZR p' - k * IZR q' < 0 else 0 < IZR p' - k * IZR q')%R).
    { assert (QE : (IZR q' * Rabs eps < 1)%R \/ True) by (right; exact I).
      assert (NZ : (IZR p' - k * IZR q' <> 0)%R).
      { intros Z0. rewrite Z0, Rabs_R0 in H3. pose proof (Rabs_pos eps). lra. }
      (* The product of the denominator and the error is less than 1, or else there is no room. *)
      destruct (Rlt_le_dec (IZR q' * Rabs eps) 1) as [L|L].
      - destruct b.
        + rewrite Rabs_left in L by exact SE. nra.
        + rewrite Rabs_right in L by lra. nra.
      - exfalso. assert (HA : (IZR c * Rabs (IZR p' - k * IZR q') = IZR q' * Rabs eps - 1)%R).
        { rewrite <- (Rabs_pos_eq (IZR c)) at 1 by lra. rewrite <- Rabs_mult, Y. destruct b.
          - rewrite (Rabs_left eps) in * by exact SE. rewrite Rabs_pos_eq; lra.
          - rewrite (Rabs_right eps) in * by lra. rewrite Rabs_left1; lra. }
        pose proof (Rabs_pos eps). nra. }
    destruct b.
    - rewrite !Rabs_left in H3 by assumption. apply Rmult_lt_reg_r with (- eps)%R; [lra|].
      replace ((IZR p' - k * IZR q') / eps * - eps)%R with (- (IZR p' - k * IZR q'))%R by (field; exact E0). lra.
    - rewrite !Rabs_right in H3 by lra. apply Rmult_lt_reg_r with eps; [exact SE|].
      replace ((IZR p' - k * IZR q') / eps * eps)%R with (IZR p' - k * IZR q')%R by (field; exact E0). lra. }
  destruct X as (l & p' & q' & x & S & W & X1 & X2). exists l, x. split; [exact S|]. split; [exact X1|].
  split; [apply (matrix_reduced l N p' c q' S W)|].
  destruct (fraction_simple l x _ _ _ _ S ltac:(lra) W) as [F F0].
  split.
  { rewrite F. apply (Rmult_eq_reg_r (IZR c * x + IZR q')); [|lra]. unfold Rdiv. rewrite Rmult_assoc, Rinv_l by lra. unfold eps in X2. lra. }
  intros P Q R.
  assert (X0 : (IZR (Zfloor x) <= x < IZR (Zfloor x) + 1)%R) by (split; [apply Zfloor_lb|apply Zfloor_ub]).
  assert (A1 : 1 <= Zfloor x) by (apply Zfloor_lub; cbn; lra).
  assert (S' : simple (l ++ [Zfloor x])).
  { destruct l as [|a l]; [contradiction|]. cbn [app simple] in *. apply Forall_app. split; [exact S|]. constructor; [exact A1|constructor]. }
  destruct (reduced_matrix _ _ _ S' R) as (P' & Q' & W').
  rewrite (matrix_app l (Zfloor x) _ _ _ _ W) in W'. injection W' as W1 W2 W3 W4.
  destruct (simple_matrix l _ _ _ _ S W) as [Q1 Q2].
  destruct (Z_le_gt_dec Q M) as [L|L]; [exfalso|lia].
  specialize (B2 Q ltac:(nia)). rewrite <- DE in B2. pose proof (dist_best (k * IZR Q) P) as DB.
  assert (V : (k * IZR Q - IZR P = (IZR (Zfloor x) - x) * eps)%R).
  { rewrite <- W1, <- W3, !plus_IZR, !mult_IZR, Rmult_minus_distr_r, X2. unfold eps. ring. }
  rewrite V, Rabs_mult in DB. assert (Z1 : (Rabs (IZR (Zfloor x) - x) < 1)%R) by (unfold Rabs; destruct Rcase_abs; lra).
  assert (Z2 : (0 < Rabs eps)%R) by (apply Rabs_pos_lt; exact E0). nra.
Qed.
