(** The geopotentials of the ephemeris: those of [Geopotential_Model] and that of the coefficient J2. *)
From Coq Require Import Reals List ZArith Bool Lra Lia Ranalysis5.
From Verif Require Import Geometry_Model Geometry_Proofs Geometry_Proofs2 VectorCalculus_Proofs RotatingBody_Proofs SimilarMotion_Proofs
  Ephemeris_Model Ephemeris_Proofs Ephemeris_Proofs2 Ephemeris_Proofs3 ReferenceFrame_Proofs2
  Geopotential_Model GeopotentialThresholds_Proofs GeopotentialField_Proofs GeopotentialLimits_Proofs Geopotential_Props.
Import ListNotations.
Open Scope R_scope.

Lemma nonzero_near r d : r <> zero3 -> exists delta, 0 < delta /\ forall h, Rabs h < delta -> add3 r (scal3 h d) <> zero3.
Proof.
  intros N. pose proof (norm_pos r N) as P.
  assert (D : derivable_pt_lim (fun h => Norm (add3 r (scal3 h d))) 0 (Dot r d / Norm r)).
  { eapply d_eq; [eapply v_norm; [apply line_derivative|cbv beta; rewrite line_zero; exact N]|]. cbv beta. now rewrite line_zero. }
  assert (C : continuity_pt (fun h => Norm (add3 r (scal3 h d))) 0) by (apply derivable_continuous_pt; eexists; exact D).
  destruct (C (Norm r) P) as (delta & DP & H). exists delta. split; [exact DP|]. intros h L Z.
  destruct (Req_dec h 0) as [->|NE]; [rewrite line_zero in Z; congruence|].
  specialize (H h). assert (K : R_dist (Norm (add3 r (scal3 h d))) (Norm (add3 r (scal3 0 d))) < Norm r).
  { apply H. split; [split; [exact I|auto]|]. unfold dist, R_met, R_dist. cbn. now rewrite Rminus_0_r. }
  rewrite Z, line_zero in K. replace (Norm zero3) with 0 in K; [|unfold Norm, Norm2, zero3; cbn; replace (0 * 0 + 0 * 0 + 0 * 0) with 0 by ring; now rewrite sqrt_0].
  unfold R_dist in K. rewrite Rminus_0_l, Rabs_Ropp, Rabs_pos_eq in K; lra.
Qed.
Lemma og_local U V r a : r <> zero3 -> (forall x, x <> zero3 -> U x = V x) -> opposite_gradient U r a -> opposite_gradient V r a.
Proof.
  intros N E H d. destruct (nonzero_near r d N) as (delta & P & L). apply (derivable_pt_lim_locally_ext (fun h => U (add3 r (scal3 h d))) _ 0 (- delta) delta); [lra| |apply H].
  intros z Z. apply E, L. unfold Rabs. destruct (Rcase_abs z); lra.
Qed.

(** The geopotential of [Geopotential_Model], made at each instant for the orientation of the body. *)
Definition made_geopotential (factor : nat -> nat -> R) (cases : nat) (g : R -> geopotential) (uninitialized : precomputations) : Ephemeris_Model.Geopotential :=
  mkGeo (fun t r r_norm r2 one_over_r3 => match GeneralSphericalHarmonicsAcceleration factor cases (g t) r r_norm r2 one_over_r3 uninitialized with Some (_, a) => a | None => zero3 end)
        (fun t r r_norm r2 one_over_r3 => match GeneralSphericalHarmonicsPotential factor cases (g t) r r_norm r2 one_over_r3 uninitialized with Some (_, v) => v | None => 0 end).
Lemma made_conservative factor P (body : R -> oblate_body) tolerance g cases uninitialized b t :
  0 < reference_radius (body t) -> make_geopotential P (body t) tolerance = Some (g t) -> well_oriented (body t) -> (geopotential_degree (body t) <= cases)%nat ->
  geo b = Some (made_geopotential factor cases g uninitialized) -> conservative b t.
Proof.
  intros R G W L E r N. unfold Ephemeris_Proofs.harmonics. rewrite E. cbn [harmonics_acceleration made_geopotential].
  destruct (C62_acceleration factor P (body t) tolerance (g t) cases R G W L r uninitialized N) as (c & a & EA & _ & D). rewrite EA.
  apply (og_local (spherical_harmonics factor (body t) (degree_inner_of P tolerance (body t)) (sectoral_inner_of P tolerance (body t)))); [exact N| |exact D].
  intros x NX. unfold harmonics_potential_of. rewrite E. cbn [harmonics_potential made_geopotential]. pose proof (norm_pos x NX).
  replace (1 / Norm x * (1 / Norm x) * (1 / Norm x)) with (1 / Norm x ^ 3) by (field; lra).
  destruct (C62_potential factor P (body t) tolerance (g t) cases R G W L x uninitialized NX) as (c' & EV & _). now rewrite EV.
Qed.

(** * The field of J2 *)
Definition j2_geopotential (j : R) : Ephemeris_Model.Geopotential :=
  mkGeo (fun t r n r2 k => scal3 (- (j / 2)) (add3 (scal3 (3 / n ^ 5 - 15 * (cz r * cz r) / n ^ 7) r) (mk3 0 0 (6 * cz r / n ^ 5))))
        (fun t r n r2 k => j / 2 * (3 * (cz r * cz r) / n ^ 5 - 1 / n ^ 3)).
Lemma d_inv_pow f x f' k : derivable_pt_lim f x f' -> f x <> 0 -> derivable_pt_lim (fun t => / f t ^ k) x (- INR k * f' / f x ^ (k + 1)).
Proof.
  intros D N. induction k as [|k IH].
  - eapply derivable_pt_lim_ext; [|eapply d_eq; [apply (d_const 1)|]]; [intros s; cbn [pow]; now rewrite Rinv_1|]. cbn [INR]. field. apply pow_nonzero, N.
  - eapply derivable_pt_lim_ext; [|eapply d_eq; [apply d_mult; [apply d_inv; [exact D|exact N]|exact IH]|]].
    + intros s. cbn beta. cbn [pow]. now rewrite Rinv_mult.
    + cbn beta. rewrite S_INR. replace (S k + 1)%nat with (S (S k)) by lia. replace (k + 1)%nat with (S k) by lia. cbn [pow]. field. split; [apply pow_nonzero, N|exact N].
Qed.
Lemma j2_conservative a mu m j t : conservative (mkMB a mu m (Some (j2_geopotential j))) t.
Proof.
  intros r N. pose proof (norm_pos r N) as P. unfold Ephemeris_Proofs.harmonics, harmonics_potential_of, j2_geopotential. cbn [geo harmonics_acceleration harmonics_potential]. intros d.
  assert (D : derivable_pt_lim (fun h => Norm (add3 r (scal3 h d))) 0 (Dot r d / Norm r)).
  { eapply d_eq; [eapply v_norm; [apply line_derivative|cbv beta; rewrite line_zero; exact N]|]. cbv beta. now rewrite line_zero. }
  assert (Z : derivable_pt_lim (fun h => cz (add3 r (scal3 h d))) 0 (cz d)) by apply line_derivative.
  assert (N0 : (fun h => Norm (add3 r (scal3 h d))) 0 <> 0) by (cbv beta; rewrite line_zero; lra).
  eapply d_eq; [apply d_mult; [apply d_const|]; apply d_minus; [apply d_mult; [apply d_mult; [apply d_const|apply d_mult; exact Z]|exact (d_inv_pow _ _ _ 5 D N0)]|apply d_mult; [apply d_const|exact (d_inv_pow _ _ _ 3 D N0)]]|].
  cbv beta. rewrite !line_zero. replace (INR 5) with 5 by (cbn; ring). replace (INR 3) with 3 by (cbn; ring). cbn [Nat.add].
  unfold Dot, scal3, add3. cbn [cx cy cz]. set (n := Norm r) in *. field. lra.
Qed.

(** * The jerk ignores the harmonics *)
Definition still : Trajectory := fun _ => (zero3, zero3).
Definition j2_body : MassiveBody := mkMB 7 1 (1 / 2) (Some (j2_geopotential 1)).
Definition j2_ephemeris : Ephemeris := mkEph [j2_body] [still] [j2_geopotential 1] 1 0 [7%nat] [zero3] [zero3].
Definition fall (s : R) : R3 := mk3 0 0 (1 + s).
Lemma j2_made : make_ephemeris [(j2_body, (zero3, zero3), still)] = Some j2_ephemeris.
Proof. reflexivity. Qed.
Lemma j2_consistent : consistent j2_ephemeris.
Proof. apply (make_consistent [(j2_body, (zero3, zero3), still)]); [discriminate|exact j2_made]. Qed.
Lemma fall_norm s : -1 < s -> Norm (fall s) = 1 + s.
Proof. intros H. unfold Norm, Norm2, fall. cbn. replace (0 * 0 + 0 * 0 + (1 + s) * (1 + s)) with ((1 + s) * (1 + s)) by ring. apply sqrt_square. lra. Qed.
Lemma fall_nonzero s : -1 < s -> fall s <> zero3.
Proof. unfold fall, zero3. intros H K. injection K. lra. Qed.
Lemma fall_derivative : has_derivative fall 0 (mk3 0 0 1).
Proof. split; [|split]; unfold fall; cbn [cx cy cz]; [apply d_const..|]. eapply d_eq; [apply d_plus; [apply d_const|apply d_id]|ring]. Qed.
Lemma still_derivative : has_derivative (fun s => position_at j2_ephemeris s 0) 0 zero3.
Proof. exact (v_const zero3 0). Qed.
Lemma fall_field s : -1 < s -> cz (total_field j2_ephemeris s (fall s)) = cz (point_field j2_ephemeris s (fall s)) + 3 * / (1 + s) ^ 4.
Proof.
  intros H. unfold total_field, point_field. cbn [bodies_ j2_ephemeris length seq]. vs. unfold body_field, mu_at. cbn [bodies_ j2_ephemeris nth_error j2_body gravitational_parameter].
  change (position_at j2_ephemeris s 0) with zero3. unfold field_of, Ephemeris_Proofs.harmonics. cbn [geo j2_body harmonics_acceleration j2_geopotential].
  replace (sub3 (fall s) zero3) with (fall s) by ve. rewrite fall_norm by exact H. unfold add3, scal3, fall, zero3. cbn [cx cy cz]. field. lra.
Qed.
Lemma jerk_ignores_harmonics A : (forall s, -1 < s -> AccelerationOnMasslessBody j2_ephemeris (fall s) s = Some (A s)) -> ~ has_derivative A 0 (JerkOnMasslessBody j2_ephemeris (fall 0, mk3 0 0 1) 0).
Proof.
  intros H D.
  assert (NB : forall s, -1 < s -> forall b, (b < length (bodies_ j2_ephemeris))%nat -> fall s <> position_at j2_ephemeris s b).
  { intros s L b Lb. cbn in Lb. replace b with 0%nat by lia. apply (fall_nonzero s L). }
  assert (P : has_derivative (fun s => point_field j2_ephemeris s (fall s)) 0 (JerkOnMasslessBody j2_ephemeris (fall 0, mk3 0 0 1) 0)).
  { apply (jerk_massless _ fall); [apply j2_consistent|apply fall_derivative|]. intros b L. cbn in L. replace b with 0%nat by lia. split; [apply still_derivative|apply (NB 0); [lra|cbn; lia]]. }
  destruct D as (_ & _ & D). destruct P as (_ & _ & P). pose proof (d_minus _ _ _ _ _ D P) as X. cbv beta in X.
  assert (Y : derivable_pt_lim (fun s => cz (A s) - cz (point_field j2_ephemeris s (fall s))) 0 (-12)).
  { apply (derivable_pt_lim_locally_ext (fun s => 3 * / (1 + s) ^ 4) _ 0 (-1) 1); [lra| |].
    - intros z Z. assert (L : -1 < z) by lra. pose proof (H z L) as E. rewrite massless_field in E by (try apply j2_consistent; now apply NB). injection E as <-. rewrite fall_field by exact L. ring.
    - assert (DL : derivable_pt_lim (fun s => 1 + s) 0 1) by (eapply d_eq; [apply d_plus; [apply d_const|apply d_id]|ring]).
      assert (N0 : (fun s => 1 + s) 0 <> 0) by (cbv beta; lra).
      eapply d_eq; [apply d_mult; [apply d_const|exact (d_inv_pow _ _ _ 4 DL N0)]|]. cbv beta. replace (INR 4) with 4 by (cbn; ring). cbn [Nat.add]. field. }
  pose proof (uniqueness_limite _ _ _ _ X Y). lra.
Qed.

(** * The statements *)
Lemma momentum_of_all e t q acc : consistent e -> distinct (bodies_ e) q -> BetweenAllMassiveBodies e t q = Some acc ->
  vsum (fun i => scal3 (mu_at (bodies_ e) i) (acc i)) (seq 0 (length (bodies_ e))) = zero3.
Proof.
  intros C D E. destruct (between_all e t q C D) as (acc' & E' & S). rewrite E in E'. injection E' as <-. rewrite <- (momentum t (bodies_ e) q).
  apply vsum_ext. intros i I. apply in_seq in I. rewrite S by lia. reflexivity.
Qed.
Lemma angular_momentum_of_all e t q acc : consistent e -> distinct (bodies_ e) q -> BetweenAllMassiveBodies e t q = Some acc -> (forall b, In b (bodies_ e) -> geo b = None) ->
  vsum (fun i => Cross (q i) (scal3 (mu_at (bodies_ e) i) (acc i))) (seq 0 (length (bodies_ e))) = zero3.
Proof.
  intros C D E G. destruct (between_all e t q C D) as (acc' & E' & S). rewrite E in E'. injection E' as <-. rewrite <- (angular_momentum t (bodies_ e) q G).
  apply vsum_ext. intros i I. apply in_seq in I. rewrite S by lia. reflexivity.
Qed.
Lemma potential_gradient e t : consistent e -> (forall b, In b (bodies_ e) -> conservative b t) ->
  exists U, (forall p, GravitationalPotential e p t = Some (U p)) /\
    forall p, (forall b, (b < length (bodies_ e))%nat -> p <> position_at e t b) -> exists a, AccelerationOnMasslessBody e p t = Some a /\ opposite_gradient U p a.
Proof.
  intros C K. exists (total_potential e t). split; [intros p; now apply potential_total|]. intros p N. exists (total_field e t p). split; [now apply massless_field|now apply field_gradient].
Qed.
Lemma all_conservative factor P (body : R -> oblate_body) tolerance g cases uninitialized b t :
  geo b = None \/ 0 < reference_radius (body t) /\ make_geopotential P (body t) tolerance = Some (g t) /\ well_oriented (body t) /\ (geopotential_degree (body t) <= cases)%nat /\
  geo b = Some (made_geopotential factor cases g uninitialized) -> conservative b t.
Proof. intros [G|(R & G & W & L & E)]; [now apply spherical_conservative|]. eapply made_conservative; eassumption. Qed.
Lemma jerk_of_spherical e b i q v t : consistent e -> nth_error (bodies_ e) i = Some b ->
  (forall j, (j < length (bodies_ e))%nat -> has_derivative (fun s => q s j) t (v j)) -> (forall s, distinct (bodies_ e) (q s)) -> (forall b, In b (bodies_ e) -> geo b = None) ->
  exists A J, (forall s, AccelerationOnMassiveBody e b (q s) s = Some (A s)) /\ JerkOnMassiveBody e b (fun j => (q t j, v j)) = Some J /\ has_derivative A t J.
Proof.
  intros C E D DI G. assert (L : (i < length (bodies_ e))%nat) by (apply nth_error_Some; congruence). destruct (jerk_massive e b i q v t C E D (DI t)) as (J & EJ & DJ).
  exists (fun s => total_point_attraction (bodies_ e) (q s) i), J. split; [|split; assumption]. intros s. rewrite (on_massive e b i s (q s) C (DI s) E). now rewrite spherical_point.
Qed.
Lemma jacobian_of_spherical e b i q u t : consistent e -> nth_error (bodies_ e) i = Some b -> distinct (bodies_ e) q -> (forall b, In b (bodies_ e) -> geo b = None) ->
  let moved h := fun j => if Nat.eqb j i then add3 (q i) (scal3 h u) else q j in
  exists A J, (forall h, distinct (bodies_ e) (moved h) -> AccelerationOnMassiveBody e b (moved h) t = Some (A h)) /\ JacobianOnMassiveBody e b q u = Some J /\ has_derivative A 0 J.
Proof.
  intros C E DI G moved. assert (L : (i < length (bodies_ e))%nat) by (apply nth_error_Some; congruence). destruct (jacobian_massive e b i q u C E DI) as (J & EJ & DJ).
  exists (fun h => total_point_attraction (bodies_ e) (moved h) i), J. split; [|split; assumption]. intros h DH. rewrite (on_massive e b i t (moved h) C DH E). now rewrite spherical_point.
Qed.
Lemma jerk_massless_spherical e p v t : consistent e -> has_derivative p t v -> (forall s b, (b < length (bodies_ e))%nat -> p s <> position_at e s b) ->
  (forall b, (b < length (bodies_ e))%nat -> has_derivative (fun s => position_at e s b) t (snd (trajectory_at e b t))) -> (forall b, In b (bodies_ e) -> geo b = None) ->
  exists A, (forall s, AccelerationOnMasslessBody e (p s) s = Some (A s)) /\ has_derivative A t (JerkOnMasslessBody e (p t, v) t).
Proof.
  intros C D N DB G. exists (fun s => point_field e s (p s)). split.
  - intros s. rewrite massless_field by (auto; intros; now apply N). now rewrite spherical_field.
  - apply jerk_massless; auto.
Qed.
Lemma jerk_refuted : exists inputs e p v,
    make_ephemeris inputs = Some e /\ (forall b t, In b (bodies_ e) -> conservative b t) /\ has_derivative p 0 v /\
    (forall b, (b < length (bodies_ e))%nat -> has_derivative (fun s => position_at e s b) 0 (snd (trajectory_at e b 0))) /\
    (forall s, -1 < s -> forall b, (b < length (bodies_ e))%nat -> p s <> position_at e s b) /\
    forall A, (forall s, -1 < s -> AccelerationOnMasslessBody e (p s) s = Some (A s)) -> ~ has_derivative A 0 (JerkOnMasslessBody e (p 0, v) 0).
Proof.
  exists [(j2_body, (zero3, zero3), still)], j2_ephemeris, fall, (mk3 0 0 1). split; [exact j2_made|]. split.
  - intros b t [<-|[]]. apply j2_conservative.
  - split; [apply fall_derivative|]. split; [intros b L; cbn in L; replace b with 0%nat by lia; apply still_derivative|].
    split; [intros s L b Lb; cbn in Lb; replace b with 0%nat by lia; now apply fall_nonzero|exact jerk_ignores_harmonics].
Qed.
