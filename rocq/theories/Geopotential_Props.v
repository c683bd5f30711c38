(** C43, C62, C63: the gravitational field of an oblate body. *)
From Coq Require Import Reals List Arith Bool Lia Lra.
From Verif Require Import Geometry_Model Geopotential_Model Geopotential_Proofs
                          GeopotentialThresholds_Proofs GeopotentialField_Proofs
                          GeopotentialLimits_Proofs.
Import ListNotations.
Open Scope R_scope.

(** * C43: the damping. *)

(** The damping is 1 up to the inner threshold and 0 from three times it. *)
Theorem C43_ends s r :
  0 <= s ->
  (r <= s -> sigma (Finite s) r = 1) /\
  (0 < r -> 3 * s <= r -> sigma (Finite s) r = 0) /\
  outer_threshold (HarmonicDamping (Finite s)) = Finite (s * 3) /\
  inner_threshold (HarmonicDamping (Finite s)) = Finite s.
Proof. exact (sigma_ends s r). Qed.
Print Assumptions C43_ends.

(** It is between 0 and 1, decreases, and has a derivative everywhere, which is
    continuous. *)
Theorem C43_smooth inner r :
  nonnegative inner -> 0 < r ->
  0 <= sigma inner r <= 1 /\
  (forall r', r <= r' -> sigma inner r' <= sigma inner r) /\
  derivable_pt_lim (sigma inner) r (sigma_prime inner r) /\
  continuity_pt (sigma_prime inner) r.
Proof. exact (sigma_smooth inner r). Qed.
Print Assumptions C43_smooth.

(** The results are the product of the damping and the radial function, and the
    gradient of that product. *)
Theorem C43_quantities inner r f l u :
  nonnegative inner -> 0 < r -> derivable_pt_lim f r l ->
  at_most r (outer_threshold (HarmonicDamping inner)) = true ->
  exists l',
    derivable_pt_lim (fun y => sigma inner y * f y) r l' /\
    ComputeDampedRadialQuantities (HarmonicDamping inner) r (r * r) u
                                  (f r / r) l =
    (sigma inner r * f r / r, scal3 l' u).
Proof. exact (damped_gradient inner r f l u). Qed.
Print Assumptions C43_quantities.

Theorem C43_quantity inner r q :
  nonnegative inner -> 0 < r ->
  at_most r (outer_threshold (HarmonicDamping inner)) = true ->
  ComputeDampedRadialQuantity (HarmonicDamping inner) r (r * r) q =
  sigma inner r * q.
Proof. exact (radial_quantity inner r q). Qed.
Print Assumptions C43_quantity.

(** Half way the damping is a half. *)
Example C43_example :
  sigma (Finite 1) 2 = 1 / 2 /\
  ComputeDampedRadialQuantity (HarmonicDamping (Finite 1)) 2 4 10 = 5 /\
  ComputeDampedRadialQuantities (HarmonicDamping (Finite 1)) 2 4
    (mk3 0 0 1) 10 0 = (5, mk3 0 0 (- 15)).
Proof.
  unfold sigma, smooth_step, ComputeDampedRadialQuantity,
    ComputeDampedRadialQuantities, HarmonicDamping, at_most, scal3.
  cbn [inner_threshold c1 c2 c3 cx cy cz].
  destruct (Rle_dec 2 1); [lra|]. destruct (Rle_dec (3 * 1) 2); [lra|].
  split; [field|]. split; [field|]. f_equal; [field|]. f_equal; field.
Qed.

(** * C62: the field. *)

(** The potential is the damped sum of the spherical harmonics, whatever the
    arrays contain initially. *)
Theorem C62_potential factor P body tolerance g cases :
  0 < reference_radius body ->
  make_geopotential P body tolerance = Some g ->
  well_oriented body -> (geopotential_degree body <= cases)%nat ->
  forall v uninitialized, v <> vector_zero ->
  exists b,
    GeneralSphericalHarmonicsPotential factor cases g v (Norm v) (Norm2 v)
      (1 / Norm v ^ 3) uninitialized =
    Some (b, spherical_harmonics factor body (degree_inner_of P tolerance body)
               (sectoral_inner_of P tolerance body) v) /\
    (away g (Norm v) -> b = true).
Proof.
  exact (fun a b c d => potential_value factor P body tolerance g cases a b c d).
Qed.
Print Assumptions C62_potential.

(** A harmonic, in spherical coordinates. *)
Theorem C62_harmonic factor body e1 e2 e3 inner n m r beta lambda :
  orthonormal e1 e2 e3 -> 0 < r ->
  harmonic factor body e1 e2 e3 inner n m
    (scal3 r (add3 (scal3 (cos beta)
                      (add3 (scal3 (cos lambda) e1) (scal3 (sin lambda) e2)))
                   (scal3 (sin beta) e3))) =
  - (sigma inner r * (reference_radius body ^ n / r ^ (n + 1))) * factor n m *
  (cos beta ^ m * dP n m (sin beta) *
   (cos_coefficients body n m * cos (INR m * lambda) +
    sin_coefficients body n m * sin (INR m * lambda))).
Proof. exact (harmonic_spherical factor body e1 e2 e3 inner n m r beta lambda). Qed.
Print Assumptions C62_harmonic.

(** The functions of the latitude are the derivatives of the Legendre
    polynomials, which are 1 at 1 and satisfy the equation of Legendre. *)
Theorem C62_legendre n m x :
  dP n 0 x = legendre n x /\ derivable_pt_lim (dP n m) x (dP n (S m) x) /\
  legendre n 1 = 1 /\
  (1 - x * x) * dP n 2 x - 2 * x * dP n 1 x + INR n * INR (n + 1) * dP n 0 x = 0.
Proof.
  exact (conj (dP_legendre n x)
          (conj (dP_derive n m x)
            (conj (legendre_at_1 n) (legendre_equation n x)))).
Qed.
Print Assumptions C62_legendre.

(** The acceleration is the opposite of the gradient of the potential, also at
    the poles and at the thresholds. *)
Theorem C62_acceleration factor P body tolerance g cases :
  0 < reference_radius body ->
  make_geopotential P body tolerance = Some g ->
  well_oriented body -> (geopotential_degree body <= cases)%nat ->
  forall v uninitialized, v <> vector_zero ->
  exists b a,
    GeneralSphericalHarmonicsAcceleration factor cases g v (Norm v) (Norm2 v)
      (1 / Norm v ^ 3) uninitialized = Some (b, a) /\
    (away g (Norm v) -> b = true) /\
    forall d,
      derivable_pt_lim
        (fun h => spherical_harmonics factor body
                    (degree_inner_of P tolerance body)
                    (sectoral_inner_of P tolerance body) (add3 v (scal3 h d)))
        0 (- Dot a d).
Proof.
  exact (fun a b c d => acceleration_value factor P body tolerance g cases a b c d).
Qed.
Print Assumptions C62_acceleration.

(** At the distance where the sectoral harmonics end, a check fails, although the
    value is right. *)
Theorem C62_checks_refuted factor P body tolerance g cases v uninitialized :
  0 < reference_radius body ->
  make_geopotential P body tolerance = Some g ->
  (2 <= geopotential_degree body <= cases)%nat ->
  is_zonal body = false ->
  outer_threshold (HarmonicDamping (sectoral_inner_of P tolerance body)) =
    Finite (Norm v) ->
  below (Norm v) (outer_threshold
    (HarmonicDamping (degree_inner_of P tolerance body 2))) = true ->
  exists a,
    GeneralSphericalHarmonicsAcceleration factor cases g v (Norm v) (Norm2 v)
      (1 / Norm v ^ 3) uninitialized = Some (false, a).
Proof. exact (sectoral_limit_fails factor P body tolerance g cases v uninitialized). Qed.
Print Assumptions C62_checks_refuted.

(** The coefficients of degree 2 and order 1 are ignored. *)
Theorem C62_tesseral_refuted factor P body tolerance g cases r uninitialized :
  0 < reference_radius body ->
  make_geopotential P body tolerance = Some g ->
  well_oriented body ->
  (2 <= geopotential_degree body <= cases)%nat ->
  factor 2%nat 1%nat <> 0 -> cos_coefficients body 2 1 <> 0 -> 0 < r ->
  at_most r (sectoral_inner_of P tolerance body) = true ->
  let v := scal3 r (add3 (scal3 (cos (PI / 4))
                            (add3 (scal3 (cos 0) (surface_x body))
                                  (scal3 (sin 0) (surface_y body))))
                         (scal3 (sin (PI / 4)) (polar_axis body))) in
  forall b V,
  GeneralSphericalHarmonicsPotential factor cases g v (Norm v) (Norm2 v)
    (1 / Norm v ^ 3) uninitialized = Some (b, V) ->
  V <> complete_harmonics factor body (degree_inner_of P tolerance body)
         (sectoral_inner_of P tolerance body) v.
Proof. exact (tesseral_ignored factor P body tolerance g cases r uninitialized). Qed.
Print Assumptions C62_tesseral_refuted.

(** A body whose degree exceeds the cases of the switch is fatal. *)
Theorem C62_cases_refuted factor P body g cases v uninitialized u2 m :
  0 < reference_radius body ->
  make_geopotential P body 0 = Some g ->
  (2 <= geopotential_degree body)%nat -> (cases < geopotential_degree body)%nat ->
  (m <= geopotential_degree body)%nat ->
  cos_coefficients body (geopotential_degree body) m <> 0 ->
  GeneralSphericalHarmonicsAcceleration factor cases g v (Norm v) (Norm2 v)
    (1 / Norm v ^ 3) uninitialized = None /\
  GeneralSphericalHarmonicsPotential factor cases g v (Norm v) (Norm2 v)
    (1 / Norm v ^ 3) u2 = None.
Proof. exact (no_case factor P body g cases v uninitialized u2 m). Qed.
Print Assumptions C62_cases_refuted.

(** * C63: the thresholds. *)

(** The damping of a degree starts where all the harmonics of this degree and of
    the higher ones are covered; that of the sectoral harmonics of degree 2,
    where they and the higher degrees are.  The degrees 0 and 1 are not
    damped. *)
Theorem C63_construction P body tolerance g :
  0 < reference_radius body ->
  make_geopotential P body tolerance = Some g ->
  0 <= tolerance /\ body_ g = body /\
  List.length (degree_damping g) = Nat.max 2 (S (geopotential_degree body)) /\
  (forall n, (n < 2)%nat -> damping_of_degree g n = HarmonicDamping Infinite) /\
  (forall n, (2 <= n <= geopotential_degree body)%nat ->
     damping_of_degree g n =
     HarmonicDamping (degree_inner_of P tolerance body n)) /\
  ((2 <= geopotential_degree body)%nat ->
   sectoral_damping g = HarmonicDamping (sectoral_inner_of P tolerance body)) /\
  ((geopotential_degree body < 2)%nat ->
   sectoral_damping g = HarmonicDamping Infinite).
Proof. exact (construction P body tolerance g). Qed.
Print Assumptions C63_construction.

(** It decreases with the degree; the number of degrees that are evaluated is
    that of the degrees whose damping is not complete. *)
Theorem C63_limiting_degree P body tolerance g r :
  0 < reference_radius body ->
  make_geopotential P body tolerance = Some g ->
  let k := LimitingDegree g r in
  (2 <= k <= Nat.max 2 (S (geopotential_degree body)))%nat /\
  forall n, (2 <= n <= geopotential_degree body)%nat ->
    ((n < k)%nat <->
     below r (outer_threshold
       (HarmonicDamping (degree_inner_of P tolerance body n))) = true).
Proof. exact (limiting_degree P body tolerance g r). Qed.
Print Assumptions C63_limiting_degree.

Theorem C63_antitone P tolerance body n n' :
  (n <= n')%nat ->
  ext_le (degree_inner_of P tolerance body n')
         (degree_inner_of P tolerance body n).
Proof. exact (degree_inner_antitone P tolerance body n n'). Qed.
Print Assumptions C63_antitone.

(** A harmonic whose damping has started is below the tolerance. *)
Theorem C63_negligible P body tolerance n m r :
  0 < reference_radius body -> 0 < tolerance -> 0 < r ->
  (forall k j, 0 < P k j) ->
  (2 <= n <= geopotential_degree body)%nat -> (m <= n)%nat ->
  at_most r (degree_inner_of P tolerance body n) = false ->
  P n m * INR (n + 1) *
  sqrt (cos_coefficients body n m ^ 2 + sin_coefficients body n m ^ 2) *
  (reference_radius body / r) ^ n < tolerance.
Proof. exact (negligible P body tolerance n m r). Qed.
Print Assumptions C63_negligible.

(** * Examples. *)

(** A body with J2 only. *)
Definition example_body : oblate_body :=
  Body 1 (fun n m => if Nat.eqb n 2 && Nat.eqb m 0 then 1 else 0) (fun _ _ => 0)
       2 (mk3 0 0 1) (mk3 1 0 0) (mk3 0 1 0) (mk3 0 1 0) (mk3 (-1) 0 0).

Example C63_example g :
  make_geopotential (fun _ _ => 1) example_body 3 = Some g ->
  degree_inner_of (fun _ _ => 1) 3 example_body 2 = Finite 1 /\
  LimitingDegree g 2 = 3%nat /\ LimitingDegree g 4 = 2%nat.
Proof.
  intros Hg.
  assert (E : degree_inner_of (fun _ _ => 1) 3 example_body 2 = Finite 1).
  { unfold degree_inner_of.
    change (harmonics_from 2 (geopotential_degree example_body))
      with [(2, 0); (2, 1); (2, 2)]%nat.
    unfold largest. cbn [map fold_right fst snd].
    unfold harmonic_threshold. cbv zeta.
    cbn [cos_coefficients sin_coefficients example_body Nat.eqb andb
         reference_radius].
    unfold nonzero. destruct (Req_EM_T 1 0); [lra|].
    destruct (Req_EM_T 0 0); [|lra]. destruct (Req_EM_T 3 0); [lra|].
    cbn [orb ext_max].
    replace (1 * INR (2 + 1) * sqrt (1 ^ 2 + 0 ^ 2) / 3) with 1.
    - replace (Rpower 1 (1 / INR 2)) with 1.
      + f_equal. rewrite !(Rmax_left 0 0), Rmax_left by lra. ring.
      + unfold Rpower. rewrite ln_1, Rmult_0_r, exp_0. reflexivity.
    - replace (1 ^ 2 + 0 ^ 2) with 1 by ring. rewrite sqrt_1.
      cbn [Nat.add INR]. field. }
  split; [exact E|].
  split.
  - destruct (limiting_degree (fun _ _ => 1) example_body 3 g 2 ltac:(cbn; lra) Hg)
      as (K1 & K2).
    specialize (K2 2%nat ltac:(cbn; lia)). rewrite E in K2. cbn in K1, K2.
    destruct (Rlt_dec 2 (1 * 3)); [|lra].
    assert (2 < LimitingDegree g 2)%nat by (apply K2; reflexivity). lia.
  - destruct (limiting_degree (fun _ _ => 1) example_body 3 g 4 ltac:(cbn; lra) Hg)
      as (K1 & K2).
    specialize (K2 2%nat ltac:(cbn; lia)). rewrite E in K2. cbn in K1, K2.
    destruct (Rlt_dec 4 (1 * 3)); [lra|].
    assert (~ (2 < LimitingDegree g 4)%nat) by (intros H; apply K2 in H; discriminate).
    lia.
Qed.

(** On the axis, at twice the radius. *)
Example C62_example g uninitialized :
  make_geopotential (fun _ _ => 1) example_body 0 = Some g ->
  exists b,
    GeneralSphericalHarmonicsPotential (fun _ _ => 1) 30 g (mk3 0 0 2) 2 4 (1 / 8)
      uninitialized = Some (b, - 1 / 8).
Proof.
  intros Hg.
  assert (N2 : Norm2 (mk3 0 0 2) = 4) by (unfold Norm2; cbn [cx cy cz]; ring).
  assert (N1 : Norm (mk3 0 0 2) = 2).
  { unfold Norm. rewrite N2. replace 4 with (2 * 2) by ring.
    apply sqrt_square. lra. }
  destruct (potential_value (fun _ _ => 1) (fun _ _ => 1) example_body 0 g 30
              ltac:(cbn; lra) Hg
              ltac:(split; unfold orthonormal, Dot, Cross; cbn; repeat split;
                    try ring; f_equal; ring)
              ltac:(cbn; lia) (mk3 0 0 2) uninitialized
              ltac:(intros E; injection E as E; lra)) as (b & E & _).
  exists b. rewrite N1, N2 in E.
  replace (1 / 2 ^ 3) with (1 / 8) in E by field. rewrite E. f_equal. f_equal.
  unfold spherical_harmonics, sum_over.
  cbn [geopotential_degree example_body Nat.sub seq Nat.add fold_right Nat.eqb
       Nat.ltb Nat.leb andb].
  unfold harmonic. rewrite N1.
  cbn [example_body cos_coefficients sin_coefficients reference_radius surface_x
       surface_y polar_axis Nat.eqb andb re_pow im_pow].
  replace (sigma (degree_inner_of (fun _ _ => 1) 0 example_body 2) 2) with 1.
  - unfold Dot. cbn [cx cy cz dP INR Nat.mul Nat.add Nat.sub pow]. field.
  - replace (degree_inner_of (fun _ _ => 1) 0 example_body 2) with Infinite;
      [reflexivity|].
    unfold degree_inner_of.
    change (harmonics_from 2 (geopotential_degree example_body))
      with [(2, 0); (2, 1); (2, 2)]%nat.
    unfold largest. cbn [map fold_right fst snd].
    unfold harmonic_threshold. cbv zeta.
    cbn [cos_coefficients sin_coefficients example_body Nat.eqb andb].
    unfold nonzero. destruct (Req_EM_T 1 0); [lra|].
    cbn [orb]. destruct (Req_EM_T 0 0); [|lra]. reflexivity.
Qed.
