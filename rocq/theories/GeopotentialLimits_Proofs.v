(* What the geopotential does not compute. *)
From Coq Require Import Reals List Arith Bool Lia Lra.
From Verif Require Import Geometry_Model Geopotential_Model Geopotential_Proofs
                          GeopotentialThresholds_Proofs GeopotentialField_Proofs.
Import ListNotations.
Open Scope R_scope.

(* * The checks remember failures. *)

Lemma keep_update_order n m p : dchecks (update_order n m p) = dchecks p.
Proof.
  unfold update_order. destruct (Nat.eqb m n); [|reflexivity].
  destruct (Nat.even m); reflexivity.
Qed.

Lemma keep_UpdateOrder n m p : dchecks (UpdateOrder n m p) = dchecks p.
Proof.
  unfold UpdateOrder. destruct (_ && _); [reflexivity|].
  rewrite <- (keep_update_order n m p). generalize (update_order n m p).
  intros q. unfold update_DmPn, update_Pn.
  destruct (Nat.eqb m n); [destruct (Nat.eqb m 0); reflexivity|].
  destruct (Nat.eqb m (n - 1)); [destruct (Nat.eqb m 0); reflexivity|].
  destruct (Nat.eqb m (n - 2)); destruct (Nat.eqb m 0); reflexivity.
Qed.

Lemma keep_evaluate {A} (plus : A -> A -> A) zero f l : forall p,
  (forall i p, dchecks p = false -> dchecks (fst (f i p)) = false) ->
  dchecks p = false ->
  dchecks (fst (evaluate plus zero f l p)) = false.
Proof.
  induction l as [|i l IH]; intros p Hf Hp; cbn [evaluate]; [exact Hp|].
  specialize (Hf i p Hp) as H. destruct (f i p) as [q a]. cbn [fst] in H.
  specialize (IH q Hf H).
  destruct (evaluate plus zero f l q) as [q' b]. exact IH.
Qed.

Lemma keep_UpdateDegree n p : dchecks (UpdateDegree n p) = dchecks p.
Proof. unfold UpdateDegree. destruct (Nat.even n); reflexivity. Qed.

Lemma keep_degree_acceleration factor g size n p :
  dchecks p = false ->
  dchecks (fst (DegreeAcceleration factor g size n p)) = false.
Proof.
  intros H. unfold DegreeAcceleration.
  destruct (Nat.ltb n 2); [exact H|].
  assert (HU : dchecks (UpdateDegree n p) = false)
    by (rewrite keep_UpdateDegree; exact H).
  cbv zeta. generalize dependent (UpdateDegree n p). intros q HU.
  destruct (_ && _).
  - destruct (ComputeDampedRadialQuantities (damping_of_degree g 2) _ _ _ _ _).
    unfold OrderAcceleration.
    destruct (ComputeDampedRadialQuantities (sectoral_damping g) _ _ _ _ _).
    cbn [fst]. rewrite !keep_UpdateOrder. cbn [DCHECK dchecks].
    rewrite keep_UpdateOrder. cbn [DCHECK dchecks]. rewrite HU. reflexivity.
  - destruct (ComputeDampedRadialQuantities _ _ _ _ _ _).
    apply keep_evaluate.
    + intros i p0 H0. unfold OrderAcceleration. cbn [fst].
      rewrite keep_UpdateOrder. exact H0.
    + cbn [DCHECK dchecks]. rewrite HU. reflexivity.
Qed.

(* The check fails in degree 2. *)
Lemma degree_2_fails factor g p :
  below (p_r_norm p) (outer_threshold (sectoral_damping g)) = false ->
  dchecks (fst (DegreeAcceleration factor g 3 2 p)) = false.
Proof.
  intros H. unfold DegreeAcceleration.
  cbn [Nat.ltb Nat.leb Nat.eqb andb]. cbv zeta.
  destruct (ComputeDampedRadialQuantities (damping_of_degree g 2) _ _ _ _ _).
  unfold OrderAcceleration.
  destruct (ComputeDampedRadialQuantities (sectoral_damping g) _ _ _ _ _).
  cbn [fst]. rewrite !keep_UpdateOrder. cbn [DCHECK dchecks].
  rewrite keep_UpdateOrder. cbn [DCHECK dchecks].
  change (UpdateOrder 2 0 ?q) with
    (update_DmPn 2 0 (update_Pn 2 0 (update_order 2 0 q))).
  cbn [update_DmPn update_Pn update_order Nat.eqb set_DmPn Nat.sub p_r_norm
       DCHECK].
  change (p_r_norm (UpdateDegree 2 p)) with (p_r_norm p).
  rewrite H, andb_false_r. reflexivity.
Qed.

(* At the exact distance where the sectoral harmonics end, the body is not
   considered zonal but the check is for a distance below it. *)
Theorem sectoral_limit_fails factor P body tolerance g cases v uninitialized :
  0 < reference_radius body ->
  make_geopotential P body tolerance = Some g ->
  (2 <= geopotential_degree body <= cases)%nat ->
  is_zonal body = false ->
  outer_threshold (HarmonicDamping (sectoral_inner_of P tolerance body)) =
    Finite (Norm v) ->
  below (Norm v) (outer_threshold
    (HarmonicDamping (degree_inner_of P tolerance body 2))) = true ->
  exists a,
    GeneralSphericalHarmonicsAcceleration factor cases g v (Norm v) (Norm2 v)
      (1 / Norm v ^ 3) uninitialized = Some (false, a).
Proof.
  intros HR Hg HN Z HS HB.
  destruct (limiting_degree P body tolerance g (Norm v) HR Hg) as (K1 & K2).
  set (k := LimitingDegree g (Norm v)) in *.
  assert (Hk : (2 < k)%nat) by (apply K2; [lia | exact HB]).
  assert (SD : sectoral_damping g =
               HarmonicDamping (sectoral_inner_of P tolerance body)).
  { apply (construction P body tolerance g HR Hg). lia. }
  assert (BI : body_ g = body) by apply (construction P body tolerance g HR Hg).
  unfold GeneralSphericalHarmonicsAcceleration. cbv zeta. fold k.
  destruct (Nat.leb_spec 2 (k - 1)); [|lia].
  destruct (Nat.leb_spec (k - 1) cases); [|lia]. cbn [andb].
  unfold AllDegreesAcceleration. cbv zeta.
  assert (ZA : zonal_at g (Norm v) = false).
  { unfold zonal_at. rewrite BI, Z, SD, HS. cbn.
    destruct (Rle_dec (Norm v) (Norm v)); [reflexivity | lra]. }
  rewrite ZA.
  set (p0 := InitializePrecomputations _ _ _ _ _ _).
  assert (P0 : p_r_norm p0 = Norm v) by reflexivity.
  replace (seq 0 (k - 1 + 1)) with (0 :: 1 :: 2 :: seq 3 (k - 3))%nat.
  2:{ replace (k - 1 + 1)%nat with (S (S (S (k - 3)))) by lia. reflexivity. }
  cbn [evaluate].
  change (DegreeAcceleration factor g (0 + 1) 0 p0) with (p0, vector_zero).
  cbv beta iota.
  change (DegreeAcceleration factor g (1 + 1) 1 p0) with (p0, vector_zero).
  cbv beta iota.
  change (2 + 1)%nat with 3%nat.
  assert (F : dchecks (fst (DegreeAcceleration factor g 3 2 p0)) = false).
  { apply degree_2_fails. rewrite P0, SD, HS. cbn.
    destruct (Rlt_dec (Norm v) (Norm v)); [lra | reflexivity]. }
  destruct (DegreeAcceleration factor g 3 2 p0) as [p1 a1]. cbn [fst] in F.
  pose proof (keep_evaluate add3 vector_zero
    (fun n p => DegreeAcceleration factor g (n + 1) n p) (seq 3 (k - 3)) p1
    (fun n p => keep_degree_acceleration factor g (n + 1) n p) F) as Fin.
  destruct (evaluate add3 vector_zero
    (fun n p => DegreeAcceleration factor g (n + 1) n p) (seq 3 (k - 3)) p1)
    as [p2 a2]. cbn [fst] in Fin.
  exists (add3 vector_zero (add3 vector_zero (add3 a1 a2))).
  rewrite Fin. reflexivity.
Qed.

(* * The harmonic of degree 2 and order 1. *)

(* The sum of all the harmonics. *)
Definition complete_harmonics (factor : nat -> nat -> R) (body : oblate_body)
    (degree_inner : nat -> extended) (sectoral_inner : extended) (v : R3) : R :=
  sum_over (seq 2 (geopotential_degree body - 1)) (fun n =>
    sum_over (seq 0 (n + 1)) (fun m =>
      harmonic factor body (surface_x body) (surface_y body) (polar_axis body)
        (if Nat.eqb n 2 && Nat.ltb 0 m then sectoral_inner
         else degree_inner n) n m v)).

Lemma complete_difference factor body dI sI v :
  (2 <= geopotential_degree body)%nat ->
  complete_harmonics factor body dI sI v =
  spherical_harmonics factor body dI sI v +
  harmonic factor body (surface_x body) (surface_y body) (polar_axis body)
           sI 2 1 v.
Proof.
  intros HN. unfold complete_harmonics, spherical_harmonics.
  replace (geopotential_degree body - 1)%nat
    with (S (geopotential_degree body - 2)) by lia.
  set (j := (geopotential_degree body - 2)%nat).
  cbn [seq]. unfold sum_over at 1 3. cbn [fold_right].
  set (f := fun n : nat => sum_over (seq 0 (n + 1)) (fun m =>
      harmonic factor body (surface_x body) (surface_y body) (polar_axis body)
        (if Nat.eqb n 2 && Nat.ltb 0 m then sI else dI n) n m v)).
  set (f' := fun n : nat => sum_over (seq 0 (n + 1)) (fun m =>
      if Nat.eqb n 2 && Nat.eqb m 1 then 0
      else harmonic factor body (surface_x body) (surface_y body)
             (polar_axis body)
        (if Nat.eqb n 2 && Nat.ltb 0 m then sI else dI n) n m v)).
  change (f 2%nat + sum_over (seq 3 j) f =
          f' 2%nat + sum_over (seq 3 j) f' +
          harmonic factor body (surface_x body) (surface_y body)
                   (polar_axis body) sI 2 1 v).
  rewrite (sum_over_ext (seq 3 j) f f').
  - unfold f, f', sum_over. cbn [Nat.add seq fold_right Nat.eqb Nat.ltb Nat.leb
      andb]. ring.
  - intros n Hn. apply in_seq in Hn. unfold f, f'.
    apply sum_over_ext. intros m _.
    destruct (Nat.eqb_spec n 2); [lia | reflexivity].
Qed.

Theorem tesseral_ignored factor P body tolerance g cases r uninitialized :
  0 < reference_radius body ->
  make_geopotential P body tolerance = Some g ->
  well_oriented body ->
  (2 <= geopotential_degree body <= cases)%nat ->
  factor 2%nat 1%nat <> 0 -> cos_coefficients body 2 1 <> 0 -> 0 < r ->
  at_most r (sectoral_inner_of P tolerance body) = true ->
  let v := scal3 r (add3 (scal3 (cos (PI / 4))
                            (add3 (scal3 (cos 0) (surface_x body))
                                  (scal3 (sin 0) (surface_y body))))
                         (scal3 (sin (PI / 4)) (polar_axis body))) in
  forall b V,
  GeneralSphericalHarmonicsPotential factor cases g v (Norm v) (Norm2 v)
    (1 / Norm v ^ 3) uninitialized = Some (b, V) ->
  V <> complete_harmonics factor body (degree_inner_of P tolerance body)
         (sectoral_inner_of P tolerance body) v.
Proof.
  intros HR Hg Ho HN HF HC Hr Hs v b V HV.
  assert (H21 : harmonic factor body (surface_x body) (surface_y body)
                  (polar_axis body) (sectoral_inner_of P tolerance body) 2 1 v
                <> 0).
  { unfold v. rewrite harmonic_spherical; [|apply Ho|exact Hr].
    rewrite Rmult_0_r, cos_0, sin_0.
    replace (sigma (sectoral_inner_of P tolerance body) r) with 1.
    - assert (D : dP 2 1 (sin (PI / 4)) = 3 * sin (PI / 4)).
      { cbn [dP INR Nat.mul Nat.add Nat.sub]. field. }
      rewrite D.
      assert (Hc : 0 < cos (PI / 4)).
      { rewrite cos_PI4. apply Rmult_lt_0_compat; [lra|].
        apply Rinv_0_lt_compat. apply sqrt_lt_R0. lra. }
      assert (Hsn : 0 < sin (PI / 4)).
      { rewrite sin_PI4. apply Rmult_lt_0_compat; [lra|].
        apply Rinv_0_lt_compat. apply sqrt_lt_R0. lra. }
      assert (Hq : 0 < reference_radius body ^ 2 / r ^ (2 + 1)).
      { apply Rmult_lt_0_compat; [apply pow_lt; exact HR|].
        apply Rinv_0_lt_compat. apply pow_lt. exact Hr. }
      repeat apply Rmult_integral_contrapositive_currified; try lra.
    - unfold sigma. destruct (sectoral_inner_of P tolerance body); cbn in Hs;
        [|reflexivity].
      destruct (Rle_dec r r0); [reflexivity | discriminate]. }
  assert (Hv : v <> vector_zero).
  { intros E. apply H21. rewrite E. unfold harmonic.
    replace (Norm vector_zero) with 0.
    - cbn [Nat.add]. rewrite !Dot_zero. unfold Rdiv.
      rewrite pow_i by lia. rewrite !Rmult_0_l. cbn [dP re_pow im_pow]. ring.
    - unfold Norm, Norm2, vector_zero. cbn [cx cy cz].
      rewrite Rmult_0_r, !Rplus_0_r. symmetry. apply sqrt_0. }
  destruct (potential_value factor P body tolerance g cases HR Hg Ho ltac:(lia)
              v uninitialized Hv) as (b' & E & _).
  rewrite HV in E. injection E as _ EV.
  rewrite complete_difference by lia. rewrite EV. lra.
Qed.

(* * Degrees without a case. *)

Theorem no_case factor P body g cases v uninitialized u2 m :
  0 < reference_radius body ->
  make_geopotential P body 0 = Some g ->
  (2 <= geopotential_degree body)%nat -> (cases < geopotential_degree body)%nat ->
  (m <= geopotential_degree body)%nat ->
  cos_coefficients body (geopotential_degree body) m <> 0 ->
  GeneralSphericalHarmonicsAcceleration factor cases g v (Norm v) (Norm2 v)
    (1 / Norm v ^ 3) uninitialized = None /\
  GeneralSphericalHarmonicsPotential factor cases g v (Norm v) (Norm2 v)
    (1 / Norm v ^ 3) u2 = None.
Proof.
  intros HR Hg H2 HN Hm HC.
  destruct (limiting_degree P body 0 g (Norm v) HR Hg) as (K1 & K2).
  set (N := geopotential_degree body) in *.
  assert (D : degree_inner_of P 0 body N = Infinite).
  { assert (L : ext_le Infinite (degree_inner_of P 0 body N)).
    { replace Infinite with (harmonic_threshold P 0 body N m).
      - apply largest_upper. apply in_map_iff. exists (N, m).
        split; [reflexivity|]. apply harmonics_from_spec. fold N. lia.
      - unfold harmonic_threshold. cbv zeta. unfold nonzero.
        destruct (Req_EM_T (cos_coefficients body N m) 0); [contradiction|].
        cbn [orb]. destruct (Req_EM_T 0 0); [reflexivity | lra]. }
    destruct (degree_inner_of P 0 body N); [destruct L | reflexivity]. }
  assert (K : (N < LimitingDegree g (Norm v))%nat).
  { apply K2; [lia|]. rewrite D. reflexivity. }
  unfold GeneralSphericalHarmonicsAcceleration,
    GeneralSphericalHarmonicsPotential. cbv zeta.
  set (k := LimitingDegree g (Norm v)) in *.
  destruct (Nat.leb_spec (k - 1) cases); [lia|]. rewrite andb_false_r.
  destruct (Nat.eqb_spec (k - 1) 1); [lia|]. split; reflexivity.
Qed.

(* * The damping, as stated. *)

Lemma sigma_ends s r :
  0 <= s ->
  (r <= s -> sigma (Finite s) r = 1) /\
  (0 < r -> 3 * s <= r -> sigma (Finite s) r = 0) /\
  outer_threshold (HarmonicDamping (Finite s)) = Finite (s * 3) /\
  inner_threshold (HarmonicDamping (Finite s)) = Finite s.
Proof.
  intros Hs. unfold sigma. split; [|split; [|split; reflexivity]].
  - intros H. destruct (Rle_dec r s); [reflexivity | lra].
  - intros H0 H. destruct (Rle_dec r s); [lra|].
    destruct (Rle_dec (3 * s) r); [reflexivity | lra].
Qed.

Lemma continuity_ext f h x :
  (forall y, f y = h y) -> continuity_pt f x -> continuity_pt h x.
Proof.
  intros E. apply (continuity_pt_locally_ext f h 1 x Rlt_0_1).
  intros y _. apply E.
Qed.

Lemma sigma_prime_continuous inner r :
  nonnegative inner -> 0 < r -> continuity_pt (sigma_prime inner) r.
Proof.
  intros Hi Hr. destruct inner as [s|].
  2:{ apply continuity_const. intros x y. reflexivity. }
  cbn in Hi. destruct (Req_dec s 0) as [->|Hs].
  - (* Only 0 is within the threshold. *)
    apply (continuity_pt_locally_ext (fct_cte 0) _ r r Hr).
    + intros y Hy. unfold sigma_prime, fct_cte.
      destruct (Rle_dec y 0); [reflexivity|].
      destruct (Rle_dec (3 * 0) y); [reflexivity | lra].
    + apply continuity_const. intros x y. reflexivity.
  - assert (Hp : 0 < s) by lra.
    (* A composition of continuous functions. *)
    set (clamp := fun y => Rmin (Rmax ((y - s) / (2 * s)) 0) 1).
    assert (Eq : forall y, sigma_prime (Finite s) y
                           = 3 * (clamp y * clamp y - clamp y) / s).
    { intros y. unfold sigma_prime, clamp.
      assert (Ht : (y - s) / (2 * s) * (2 * s) = y - s) by (field; lra).
      set (t := (y - s) / (2 * s)) in *.
      destruct (Rle_dec y s).
      - rewrite Rmax_right by nra. rewrite Rmin_left by lra. field. lra.
      - destruct (Rle_dec (3 * s) y).
        + rewrite Rmax_left by nra. rewrite Rmin_right by nra. field. lra.
        + rewrite Rmax_left by nra. rewrite Rmin_left by nra. field. lra. }
    assert (CC : continuity_pt clamp r).
    { assert (M0 : continuity_pt (fun y => (y - s) / (2 * s)) r).
      { apply derivable_continuous_pt. reg. }
      assert (Mabs : forall f g x, continuity_pt f x -> continuity_pt g x ->
                continuity_pt (fun y => Rabs (f y - g y)) x).
      { intros f h x Hf Hh. apply (continuity_pt_comp (fun y => f y - h y) Rabs).
        - apply continuity_pt_minus; assumption.
        - apply Rcontinuity_abs. }
      apply (continuity_ext
        (fun y => (((y - s) / (2 * s) + 0 + Rabs ((y - s) / (2 * s) - 0)) / 2 + 1
          - Rabs (((y - s) / (2 * s) + 0 + Rabs ((y - s) / (2 * s) - 0)) / 2 - 1))
          / 2)).
      - intros y. unfold clamp. set (t := (y - s) / (2 * s)).
        unfold Rmin, Rmax.
        destruct (Rle_dec t 0) as [H0|H0].
        + rewrite (Rabs_left1 (t - 0)) by lra.
          replace ((t + 0 + - (t - 0)) / 2) with 0 by field.
          rewrite Rabs_left1 by lra. destruct (Rle_dec 0 1); lra.
        + rewrite (Rabs_right (t - 0)) by lra.
          replace ((t + 0 + (t - 0)) / 2) with t by field.
          destruct (Rle_dec t 1).
          * rewrite Rabs_left1 by lra. lra.
          * rewrite Rabs_right by lra. lra.
      - assert (Mm : continuity_pt (fun y => ((y - s) / (2 * s) + 0 +
                       Rabs ((y - s) / (2 * s) - 0)) / 2) r).
        { apply (continuity_ext (fun y => (/ 2) * ((y - s) / (2 * s) + 0 +
                       Rabs ((y - s) / (2 * s) - 0)))).
          { intros y. field. lra. }
          apply continuity_pt_scal.
          apply (continuity_pt_plus (fun y => (y - s) / (2 * s) + 0)).
          - apply (continuity_pt_plus (fun y => (y - s) / (2 * s)) (fun _ => 0)).
            + exact M0.
            + apply continuity_const. intros a b. reflexivity.
          - apply (Mabs (fun y => (y - s) / (2 * s)) (fun _ => 0)).
            + exact M0.
            + apply continuity_const. intros a b. reflexivity. }
        set (h := fun y => ((y - s) / (2 * s) + 0 +
                       Rabs ((y - s) / (2 * s) - 0)) / 2) in *.
        apply (continuity_ext (fun y => (/ 2) * (h y + 1 - Rabs (h y - 1)))).
        { intros y. unfold h. field. lra. }
        apply continuity_pt_scal.
        apply (continuity_pt_minus (fun y => h y + 1)
                                   (fun y => Rabs (h y - 1))).
        + apply (continuity_pt_plus h (fun _ => 1)); [exact Mm|].
          apply continuity_const. intros a b. reflexivity.
        + apply (Mabs h (fun _ => 1)); [exact Mm|].
          apply continuity_const. intros a b. reflexivity. }
    apply (continuity_ext (fun y => (3 / s) * (clamp y * clamp y - clamp y))).
    { intros y. rewrite Eq. field. lra. }
    apply continuity_pt_scal.
    apply (continuity_pt_minus (fun y => clamp y * clamp y) clamp);
      [|exact CC].
    apply (continuity_pt_mult clamp clamp); exact CC.
Qed.

Lemma sigma_smooth inner r :
  nonnegative inner -> 0 < r ->
  0 <= sigma inner r <= 1 /\
  (forall r', r <= r' -> sigma inner r' <= sigma inner r) /\
  derivable_pt_lim (sigma inner) r (sigma_prime inner r) /\
  continuity_pt (sigma_prime inner) r.
Proof.
  intros Hi Hr. split; [apply sigma_bounds; exact Hi|].
  split; [intros r' H; apply sigma_decreasing; assumption|].
  split; [apply sigma_derive; assumption|].
  apply sigma_prime_continuous; assumption.
Qed.
