(* C84: the recurrence of ground tracks. *)
From Coq Require Import ZArith Znumtheory Bool Reals List Lia Lra Psatz.
From Flocq Require Import Core.
From Verif Require Double_Model.
From Verif Require Import Recurrence_Model Recurrence_Spec Recurrence_Proofs Recurrence_Proofs2.
Import ListNotations.
Local Open Scope Z_scope.

(* The constructor accepts exactly the triples that satisfy its preconditions, and computes the subcycle. *)
Theorem C84_constructor : forall fuel nu D C, Z.abs C <= 92681 -> Z.abs D <= 1073741823 -> (Z.to_nat (Z.abs C) <= fuel)%nat ->
  (valid nu D C -> exists E,
    OrbitRecurrence fuel nu D C = Value (mkRecurrence nu D C E) /\ is_subcycle D C E /\ 2 * Z.abs E <= Z.abs C) /\
  (~ valid nu D C -> OrbitRecurrence fuel nu D C = CheckFailed).
Proof.
  intros fuel nu D C H1 H2 H3. split; [apply constructor_value; assumption|]. apply constructor_check.
  unfold is_int, int_lowest, int_max. apply andb_true_iff. rewrite !Z.leb_le. lia.
Qed.
Print Assumptions C84_constructor.

(* For large cycles that satisfy the preconditions the products overflow. *)
Theorem C84_constructor_refuted : ~ forall nu D C, is_int nu = true -> is_int D = true -> is_int C = true -> valid nu D C ->
  exists fuel E, OrbitRecurrence fuel nu D C = Value (mkRecurrence nu D C E).
Proof.
  intros H. destruct (H 1 1073741822 2147483647) as (fuel & E & X).
  - reflexivity.
  - reflexivity.
  - reflexivity.
  - repeat split; lia || (vm_compute; reflexivity).
  - destruct fuel as [|[|[|n]]]; vm_compute in X; discriminate.
Qed.
Print Assumptions C84_constructor_refuted.

(* orbit_recurrence_body.hpp:51-57: the subcycle is the denominator of the penultimate convergent of Nᴛₒ / |Cᴛₒ|. *)
Theorem C84_subcycle_convergent : forall nu D C E, valid nu D C -> D <> 0 -> is_subcycle D C E ->
  (exists l a, simple (l ++ [a]) /\ 2 <= a /\ reduced (l ++ [a]) (nu * C + D) (Z.abs C)) /\
  forall l a, simple (l ++ [a]) -> 2 <= a -> reduced (l ++ [a]) (nu * C + D) (Z.abs C) ->
    exists P, reduced l P (Z.abs E).
Proof.
  intros nu D C E V D0 S. split; [apply expansion_exists; assumption|].
  intros l a. apply subcycle_convergent; assumption.
Qed.
Print Assumptions C84_subcycle_convergent.

(* The ground track closes after Nᴛₒ revolutions, not earlier, and its ascending nodes are on a grid of interval δ. *)
Theorem C84_ground_track : forall r, valid (nu r) (D r) (C r) -> number_of_revolutions r <> 0 ->
  forall n, ((exists k, IZR n * equatorial_shift r = IZR k)%R <-> (number_of_revolutions r | n)) /\
    forall k, (IZR n * equatorial_shift r <> IZR k ->
      Rabs (grid_interval r) <= Rabs (IZR n * equatorial_shift r - IZR k))%R.
Proof. exact ground_track. Qed.
Print Assumptions C84_ground_track.

(* orbit_recurrence.hpp:84-89: after a subcycle the ground track passes δ away from the origin, but not earlier. *)
Theorem C84_ground_subcycle : forall r, valid (nu r) (D r) (C r) -> is_subcycle (D r) (C r) (subcycle r) ->
  number_of_revolutions r <> 0 -> D r <> 0 ->
  (exists n, Rabs (IZR n * equatorial_shift r + IZR (subcycle r)) = Rabs (grid_interval r))%R /\
  (forall E n, 0 < Z.abs E < Z.abs (subcycle r) ->
    (Rabs (IZR n * equatorial_shift r + IZR E) <> Rabs (grid_interval r))%R).
Proof. exact ground_subcycle. Qed.
Print Assumptions C84_ground_subcycle.

(* The base interval is positive, and is divided into |Cᴛₒ| grid intervals. *)
Theorem C84_base_interval : forall r, C r <> 0 -> number_of_revolutions r <> 0 ->
  (0 < base_interval r /\ base_interval r = IZR (Z.abs (C r)) * Rabs (grid_interval r))%R.
Proof.
  intros r HC HN. assert (A : IZR (C r) <> 0%R) by (apply not_0_IZR; exact HC). assert (B : IZR (number_of_revolutions r) <> 0%R) by (apply not_0_IZR; exact HN).
  unfold base_interval, equatorial_shift, grid_interval. split.
  - apply Rabs_pos_lt. apply Ropp_neq_0_compat. unfold Rdiv. apply Rmult_integral_contrapositive_currified; [exact A | apply Rinv_neq_0_compat; exact B].
  - rewrite abs_IZR, <- Rabs_mult, Rabs_Ropp. f_equal. field. exact B.
Qed.
Print Assumptions C84_base_interval.

(* orbit_recurrence.hpp:80: "Always positive". *)
Definition C84_grid_statement : Prop := forall fuel nu D C r, OrbitRecurrence fuel nu D C = Value r -> (0 < grid_interval r)%R.
Theorem C84_grid_positive_partial : forall fuel nu D C r, nu <> 0 -> OrbitRecurrence fuel nu D C = Value r -> (0 < grid_interval r)%R.
Proof.
  intros fuel nu D C r N E.
  assert (X : Recurrence_Model.nu r = nu /\ Recurrence_Model.D r = D /\ Recurrence_Model.C r = C /\
    0 < nu * C /\ 2 * Z.abs D <= Z.abs C).
  { unfold OrbitRecurrence in E. destruct (C =? 0) eqn:E0; [discriminate|]. cbv zeta in E. apply Z.eqb_neq in E0.
    destruct (negb (nu =? 0) && negb (sign nu =? sign C)) eqn:E1; [discriminate|].
    destruct (negb (is_int (2 * D))); [discriminate|]. destruct (Z.abs C <? Z.abs (2 * D)) eqn:E2; [discriminate|].
    apply Z.ltb_ge in E2. destruct (negb (Z.gcd D C =? 1)); [discriminate|].
    assert (S : 0 < nu * C).
    { apply andb_false_iff in E1. rewrite !negb_false_iff, !Z.eqb_eq in E1. destruct E1 as [E1|E1]; [contradiction|].
      unfold sign in E1. destruct (nu <? 0) eqn:S1, (C <? 0) eqn:S2; try discriminate; nia. }
    destruct (D =? 0); [injection E as <-; repeat split; try reflexivity; lia|].
    destruct (subcycle_loop fuel (sign C) D C (sign C)); try discriminate. injection E as <-. repeat split; try reflexivity; lia. }
  destruct X as (X1 & X2 & X3 & X4 & X5). unfold grid_interval, number_of_revolutions. rewrite X1, X2, X3.
  apply Rdiv_lt_0_compat; [lra|]. apply IZR_lt. nia.
Qed.
Print Assumptions C84_grid_positive_partial.
Theorem C84_grid_positive_refuted : ~ C84_grid_statement.
Proof.
  intros H. specialize (H 2%nat 0 (-1) 2 (mkRecurrence 0 (-1) 2 1) eq_refl).
  unfold grid_interval, number_of_revolutions in H. cbn in H. lra.
Qed.
Print Assumptions C84_grid_positive_refuted.

(* orbit_recurrence.hpp:48-53, in exact arithmetic: the recurrence is the best approximation of the number of
   revolutions per day among those with at most max_abs_Cᴛₒ days. *)
Theorem C84_closest_best : forall fuel kappa M, 1 <= M <= 92681 -> (Rabs kappa * IZR M <= IZR int_max)%R ->
  (Z.to_nat M <= fuel)%nat ->
  exists r, closest reals fuel kappa M = Value r /\
    valid (nu r) (D r) (C r) /\ is_subcycle (D r) (C r) (subcycle r) /\
    Z.abs (C r) <= M /\ 0 <= number_of_revolutions r /\ (0 <= kappa * IZR (C r))%R /\
    (forall J n, 1 <= J <= M ->
      (Rabs (kappa * IZR (C r) - IZR (number_of_revolutions r)) <= Rabs (Rabs kappa * IZR J - IZR n))%R) /\
    (forall J n, 1 <= J < Z.abs (C r) ->
      (Rabs (kappa * IZR (C r) - IZR (number_of_revolutions r)) < Rabs (Rabs kappa * IZR J - IZR n))%R).
Proof.
  intros fuel kappa M HM O F. destruct (closest_value fuel kappa M HM O F) as (r & c & E & B & R1 & R2 & R3 & R4).
  pose proof (best_valid kappa M c B) as BV. cbv zeta in BV. rewrite <- R1, <- R2, <- R3 in BV.
  destruct BV as (V & V1 & V2 & V3 & V4 & V5). destruct B as (B1 & B2 & B3).
  change (nu r * C r + D r) with (number_of_revolutions r) in *.
  exists r. split; [exact E|]. split; [exact V|]. split; [exact R4|]. split; [lia|]. split; [exact V1|].
  rewrite V3, V2, V4. split; [apply Rmult_le_pos; [apply Rabs_pos|apply IZR_le; lia]|]. split.
  - intros J n HJ. specialize (B2 J HJ). pose proof (dist_best (Rabs kappa * IZR J) n). lra.
  - intros J n HJ. specialize (B3 J HJ). pose proof (dist_best (Rabs kappa * IZR J) n). lra.
Qed.
Print Assumptions C84_closest_best.

(* If the number of revolutions in max_abs_Cᴛₒ days does not fit in an int, there is an error. *)
Lemma closest_loop_overflow : forall count J kappa m c, 0 < J -> (exists i, J <= i < J + Z.of_nat count /\ (IZR int_max < Rabs kappa * IZR i)%R) ->
  closest_loop reals count J kappa m c = Error.
Proof.
  induction count as [|count IH]; intros J kappa m c HJ (i & Hi & O); [lia|]. cbn [closest_loop].
  assert (P : (0 < IZR J)%R) by (apply IZR_lt; lia).
  assert (A : abs reals (times_int reals kappa J) = (Rabs kappa * IZR J)%R) by (cbn; rewrite Rabs_mult, (Rabs_pos_eq (IZR J)) by lra; reflexivity).
  rewrite A. pose proof (Rabs_pos kappa) as K.
  assert (N : forall n, SafeNearbyInt reals (Rabs kappa * IZR J)%R = Some n -> (Rabs kappa * IZR J <= IZR int_max)%R).
  { intros n. cbn. destruct (Rlt_dec _ _); [discriminate|]. destruct (Rlt_dec _ _); [discriminate|]. intros _. lra. }
  destruct (SafeNearbyInt reals (Rabs kappa * IZR J)%R) as [n|] eqn:E; [|reflexivity]. specialize (N n eq_refl).
  assert (X : exists i, J + 1 <= i < J + 1 + Z.of_nat count /\ (IZR int_max < Rabs kappa * IZR i)%R).
  { exists i. split; [|exact O]. destruct (Z.eq_dec i J) as [->|]; [lra | lia]. }
  cbv zeta. destruct (match m with None => true | Some m => _ end); apply IH; (lia || exact X).
Qed.
Theorem C84_closest_overflow : forall fuel kappa M, 1 <= M -> (IZR int_max < Rabs kappa * IZR M)%R -> closest reals fuel kappa M = Error.
Proof.
  intros fuel kappa M HM O. unfold closest. rewrite closest_loop_overflow; [reflexivity | lia |]. exists M. split; [lia | exact O].
Qed.
Print Assumptions C84_closest_overflow.

(* orbit_recurrence.hpp:48-53: it is the last convergent whose denominator doesn't exceed max_abs_Cᴛₒ. *)
Theorem C84_closest_convergent : forall fuel kappa M, 2 <= M <= 92681 -> (Rabs kappa * IZR M <= IZR int_max)%R ->
  (Z.to_nat M <= fuel)%nat ->
  exists r, closest reals fuel kappa M = Value r /\ Z.abs (C r) <= M /\
    ((kappa * IZR (C r) = IZR (number_of_revolutions r))%R \/
     exists l x, simple l /\ (1 < x)%R /\ reduced l (number_of_revolutions r) (Z.abs (C r)) /\
       Rabs kappa = fraction (map IZR l ++ [x]) /\ forall P Q, reduced (l ++ [Zfloor x]) P Q -> M < Q).
Proof.
  intros fuel kappa M HM O F. destruct (closest_value fuel kappa M ltac:(lia) O F) as (r & c & E & B & R1 & R2 & R3 & R4).
  pose proof (best_valid kappa M c B) as BV. cbv zeta in BV. rewrite <- R1, <- R2, <- R3 in BV.
  destruct BV as (V & V1 & V2 & V3 & V4 & V5).
  change (nu r * C r + D r) with (number_of_revolutions r) in *.
  exists r. split; [exact E|]. split; [destruct B; lia|]. rewrite V4, V3. destruct V as (W0 & W1 & W2 & W3).
  apply best_convergent; try assumption; [apply Rabs_pos|lia|].
  rewrite <- V4, Z.gcd_abs_r. apply revolutions_gcd. exact W3.
Qed.
Print Assumptions C84_closest_convergent.

(* With one day at most the result need not be a convergent: 3/2 is [1; 2] and has convergents 1/1 and 3/2. *)
Theorem C84_closest_tie_refuted : exists r, closest reals 10 (3 / 2)%R 1 = Value r /\ number_of_revolutions r = 2 /\ C r = 1.
Proof.
  assert (N : ZnearestE (3 / 2)%R = 2).
  { unfold Znearest. assert (F : Zfloor (3 / 2)%R = 1) by (apply Zfloor_imp; cbn; lra). rewrite F.
    rewrite Rcompare_Eq by lra. cbn [Z.even negb]. apply Zceil_imp. cbn. lra. }
  destruct (closest_value 10 (3 / 2)%R 1 ltac:(lia)) as (r & c & E & B & R1 & R2 & R3 & R4).
  - rewrite Rabs_pos_eq by lra. unfold int_max. lra.
  - cbn. repeat constructor.
  - assert (c = 1) by (destruct B; lia). subst c. exists r. split; [exact E|].
    assert (C1 : C r = 1).
    { rewrite R2. unfold signed. cbn [signbit reals]. destruct (Rlt_dec (3 / 2)%R 0); [lra|reflexivity]. }
    split; [|exact C1]. unfold number_of_revolutions. rewrite R3, C1, R1, N. cbn.
    replace ((3 / 2 - 2) * 1)%R with (- / 2)%R by lra. destruct nearest_half_even as [_ ->]. reflexivity.
Qed.
Print Assumptions C84_closest_tie_refuted.

(* In double precision, for an orbital period of an hour and a half and the limit of 100 days used by the analysis of
   orbits (orbit_analyser.cpp:188), the preconditions of the constructor need not be satisfied: the recurrence is 60/11,
   but 33 days are selected, with Dᴛₒ = 15. *)
Definition C84_closest_statement : Prop :=
  forall fuel nodal_period nodal_precession angular_frequency M, 1 <= M ->
    ClosestRecurrence fuel nodal_period nodal_precession angular_frequency M <> CheckFailed.
Theorem C84_closest_doubles_refuted : ~ C84_closest_statement.
Proof.
  intros H. apply (H 100%nat (Double_Model.of_Z 5400) Double_Model.zero (Double_Model.of_Z2 7870045830997368 (-65)) 100); [lia|].
  vm_compute. reflexivity.
Qed.
Print Assumptions C84_closest_doubles_refuted.

(* Without days, Cᴛₒ isn't initialized. *)
Theorem C84_closest_uninitialized_refuted :
  ClosestRecurrence 100 (Double_Model.of_Z 5400) Double_Model.zero (Double_Model.of_Z2 7870045830997368 (-65)) 0 = Undefined.
Proof. vm_compute. reflexivity. Qed.
Print Assumptions C84_closest_uninitialized_refuted.

(* TOPEX/Poséidon, [13; −3; 10], 127 revolutions and a subcycle of 3 days; ERS-1 in its phase of 35 days. *)
Example topex : OrbitRecurrence 10 13 (-3) 10 = Value (mkRecurrence 13 (-3) 10 3) /\
  number_of_revolutions (mkRecurrence 13 (-3) 10 3) = 127.
Proof. split; vm_compute; reflexivity. Qed.
Example ers : OrbitRecurrence 35 14 11 35 = Value (mkRecurrence 14 11 35 16).
Proof. vm_compute. reflexivity. Qed.
Example retrograde : OrbitRecurrence 35 (-14) 11 (-35) = Value (mkRecurrence (-14) 11 (-35) (-16)).
Proof. vm_compute. reflexivity. Qed.
Example rejected : OrbitRecurrence 35 14 10 35 = CheckFailed /\ OrbitRecurrence 35 (-14) 11 35 = CheckFailed /\
  OrbitRecurrence 35 14 18 35 = CheckFailed.
Proof. repeat split; vm_compute; reflexivity. Qed.
(* 127/10 = [12; 1; 2; 3], and [12; 1; 2] = 38/3. *)
Example topex_expansion : matrix [12; 1; 2; 3] = (127, 38, 10, 3) /\ simple [12; 1; 2; 3].
Proof. split; [reflexivity|]. cbn. repeat constructor; lia. Qed.
(* A successful search in double precision. *)
Example topex_closest : closest doubles 10 (Double_Model.div (Double_Model.of_Z 127) (Double_Model.of_Z 10)) 12 =
  Value (mkRecurrence 13 (-3) 10 3).
Proof. vm_compute. reflexivity. Qed.
