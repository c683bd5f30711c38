(* The field computed by the geopotential: the potential is the damped sum of the
   spherical harmonics and the acceleration is the opposite of its gradient. *)
From Coq Require Import Reals List Arith Bool Lia Lra.
From Verif Require Import Geometry_Model Geopotential_Model Geopotential_Proofs
                          GeopotentialThresholds_Proofs.
Import ListNotations.
Open Scope R_scope.

Lemma derive_eq f x l l' :
  derivable_pt_lim f x l -> l = l' -> derivable_pt_lim f x l'.
Proof. intros H <-. exact H. Qed.

(* * Right-handed orthonormal bases. *)

Definition orthonormal (e1 e2 e3 : R3) : Prop :=
  Dot e1 e1 = 1 /\ Dot e2 e2 = 1 /\ Dot e1 e2 = 0 /\ e3 = Cross e1 e2.

Lemma parseval e1 e2 e3 u v :
  orthonormal e1 e2 e3 ->
  Dot u v = Dot u e1 * Dot v e1 + Dot u e2 * Dot v e2 + Dot u e3 * Dot v e3.
Proof.
  intros (H11 & H22 & H12 & ->).
  assert (H33 : Dot (Cross e1 e2) (Cross e1 e2) = 1).
  { transitivity (Dot e1 e1 * Dot e2 e2 - Dot e1 e2 * Dot e1 e2).
    - unfold Dot, Cross. cbn [cx cy cz]. ring.
    - rewrite H11, H22, H12. ring. }
  assert (A : Dot u v * Dot (Cross e1 e2) (Cross e1 e2)
              - Dot u (Cross e1 e2) * Dot v (Cross e1 e2) =
              Dot u e2 * Dot v e2 * Dot e1 e1 + Dot u e1 * Dot v e1 * Dot e2 e2
              - (Dot u e2 * Dot v e1 + Dot u e1 * Dot v e2) * Dot e1 e2).
  { unfold Dot, Cross. cbn [cx cy cz]. ring. }
  rewrite H33, H11, H22, H12 in A. lra.
Qed.

Lemma Dot_add u v w : Dot (add3 u v) w = Dot u w + Dot v w.
Proof. unfold Dot, add3. cbn [cx cy cz]. ring. Qed.
Lemma Dot_sub u v w : Dot (sub3 u v) w = Dot u w - Dot v w.
Proof. unfold Dot, sub3. cbn [cx cy cz]. ring. Qed.
Lemma Dot_scal a v w : Dot (scal3 a v) w = a * Dot v w.
Proof. unfold Dot, scal3. cbn [cx cy cz]. ring. Qed.
Lemma Dot_comm u v : Dot u v = Dot v u.
Proof. unfold Dot. ring. Qed.
Lemma Dot_zero v : Dot vector_zero v = 0.
Proof. unfold Dot, vector_zero. cbn [cx cy cz]. ring. Qed.
Lemma Norm2_Dot v : Norm2 v = Dot v v.
Proof. reflexivity. Qed.

Definition is_zero (v : R3) : Prop := v = vector_zero.

Lemma Norm2_pos v : v <> vector_zero -> 0 < Norm2 v.
Proof.
  intros H. unfold Norm2. destruct v as [x y z]. cbn [cx cy cz].
  destruct (Req_dec x 0) as [->|Hx].
  - destruct (Req_dec y 0) as [->|Hy].
    + destruct (Req_dec z 0) as [->|Hz]; [contradiction H; reflexivity|].
      pose proof (Rsqr_pos_lt z Hz). unfold Rsqr in *. lra.
    + pose proof (Rsqr_pos_lt y Hy). pose proof (Rle_0_sqr z).
      unfold Rsqr in *. lra.
  - pose proof (Rsqr_pos_lt x Hx). pose proof (Rle_0_sqr y).
    pose proof (Rle_0_sqr z). unfold Rsqr in *. lra.
Qed.

Lemma Norm_pos v : v <> vector_zero -> 0 < Norm v.
Proof. intros H. apply sqrt_lt_R0. apply Norm2_pos. exact H. Qed.

Lemma Norm_sqr v : Norm v * Norm v = Norm2 v.
Proof.
  apply sqrt_sqrt. unfold Norm2.
  pose proof (Rle_0_sqr (cx v)). pose proof (Rle_0_sqr (cy v)).
  pose proof (Rle_0_sqr (cz v)). unfold Rsqr in *. lra.
Qed.

(* * The spherical harmonics. *)

Section Harmonics.
  Context (factor : nat -> nat -> R) (body : oblate_body).

  (* The component of the potential of degree n and order m at v in a basis, for
     a damping that starts at inner.  The associated Legendre function of the
     sine of the latitude, times the cosine and the sine of m times the
     longitude, is a function of the direction cosines. *)
  Definition harmonic (e1 e2 e3 : R3) (inner : extended) (n m : nat) (v : R3)
      : R :=
    let r := Norm v in
    let X := Dot v e1 / r in
    let Y := Dot v e2 / r in
    let Z := Dot v e3 / r in
    - (sigma inner r * (reference_radius body ^ n / r ^ (n + 1))) * factor n m *
    (dP n m Z * (cos_coefficients body n m * re_pow m X Y +
                 sin_coefficients body n m * im_pow m X Y)).

  (* In spherical coordinates. *)
  Lemma harmonic_spherical e1 e2 e3 inner n m r beta lambda :
    orthonormal e1 e2 e3 -> 0 < r ->
    harmonic e1 e2 e3 inner n m
      (scal3 r (add3 (scal3 (cos beta)
                        (add3 (scal3 (cos lambda) e1) (scal3 (sin lambda) e2)))
                     (scal3 (sin beta) e3))) =
    - (sigma inner r * (reference_radius body ^ n / r ^ (n + 1))) * factor n m *
    (cos beta ^ m * dP n m (sin beta) *
     (cos_coefficients body n m * cos (INR m * lambda) +
      sin_coefficients body n m * sin (INR m * lambda))).
  Proof.
    intros B Hr. destruct B as (H11 & H22 & H12 & ->).
    set (e3 := Cross e1 e2).
    assert (H13 : Dot e3 e1 = 0)
      by (unfold e3, Dot, Cross; cbn [cx cy cz]; ring).
    assert (H23 : Dot e3 e2 = 0)
      by (unfold e3, Dot, Cross; cbn [cx cy cz]; ring).
    assert (H33 : Dot e3 e3 = 1).
    { transitivity (Dot e1 e1 * Dot e2 e2 - Dot e1 e2 * Dot e1 e2).
      - unfold e3, Dot, Cross. cbn [cx cy cz]. ring.
      - rewrite H11, H22, H12. ring. }
    set (v := scal3 r _).
    assert (E1 : Dot v e1 = r * (cos beta * cos lambda)).
    { unfold v. rewrite !Dot_scal, !Dot_add, !Dot_scal, !Dot_add, !Dot_scal.
      rewrite H11, (Dot_comm e2 e1), H12, H13. ring. }
    assert (E2 : Dot v e2 = r * (cos beta * sin lambda)).
    { unfold v. rewrite !Dot_scal, !Dot_add, !Dot_scal, !Dot_add, !Dot_scal.
      rewrite H22, H12, H23. ring. }
    assert (E3 : Dot v e3 = r * sin beta).
    { unfold v. rewrite !Dot_scal, !Dot_add, !Dot_scal, !Dot_add, !Dot_scal.
      rewrite (Dot_comm e1 e3), (Dot_comm e2 e3), H13, H23, H33. ring. }
    assert (N : Norm v = r).
    { unfold Norm. rewrite Norm2_Dot, (parseval e1 e2 e3 v v)
        by (repeat split; assumption).
      rewrite E1, E2, E3.
      replace (r * (cos beta * cos lambda) * (r * (cos beta * cos lambda)) +
               r * (cos beta * sin lambda) * (r * (cos beta * sin lambda)) +
               r * sin beta * (r * sin beta))
        with (r * r * (cos beta * cos beta *
                       (Rsqr (sin lambda) + Rsqr (cos lambda)) +
                       Rsqr (sin beta))) by (unfold Rsqr; ring).
      rewrite sin2_cos2.
      replace (cos beta * cos beta * 1 + Rsqr (sin beta))
        with (Rsqr (sin beta) + Rsqr (cos beta)) by (unfold Rsqr; ring).
      rewrite sin2_cos2, Rmult_1_r. apply sqrt_square. lra. }
    unfold harmonic. rewrite N, E1, E2, E3.
    replace (r * (cos beta * cos lambda) / r) with (cos beta * cos lambda)
      by (field; lra).
    replace (r * (cos beta * sin lambda) / r) with (cos beta * sin lambda)
      by (field; lra).
    replace (r * sin beta / r) with (sin beta) by (field; lra).
    destruct (pow_homogeneous (cos beta) m (cos lambda) (sin lambda)) as [-> ->].
    destruct (pow_cos_sin m lambda) as [-> ->]. ring.
  Qed.

  Lemma radial_derive a n r :
    0 < r ->
    derivable_pt_lim (fun y => a / y ^ (n + 1)) r
                     (- INR (n + 1) * (a / r ^ (n + 2))).
  Proof.
    intros Hr. pose proof (pow_lt r (n + 1) Hr) as Hp.
    replace (- INR (n + 1) * (a / r ^ (n + 2))) with
      ((0 * r ^ (n + 1) - (INR (n + 1) * r ^ (pred (n + 1))) * a)
       / Rsqr (r ^ (n + 1))).
    - apply (derivable_pt_lim_div (fun _ => a) (fun y => y ^ (n + 1))).
      + apply derivable_pt_lim_const.
      + apply derivable_pt_lim_pow.
      + lra.
    - replace (pred (n + 1)) with n by lia. unfold Rsqr.
      replace (n + 2)%nat with (S (S n)) by lia.
      replace (r ^ (n + 1)) with (r * r ^ n)
        by (replace (n + 1)%nat with (S n) by lia; reflexivity).
      cbn [pow]. pose proof (pow_lt r n Hr). field. lra.
  Qed.

  Lemma line_derive v d e :
    derivable_pt_lim (fun h => Dot (add3 v (scal3 h d)) e) 0 (Dot d e).
  Proof.
    apply (derive_ext (fun h => Dot v e + h * Dot d e)).
    { intros h. rewrite Dot_add, Dot_scal. reflexivity. }
    apply (derive_eq _ _ (0 + (1 * Dot d e + 0 * 0))); [|ring].
    apply (derivable_pt_lim_plus (fun _ => Dot v e) (fun h => h * Dot d e)).
    - apply derivable_pt_lim_const.
    - apply (derivable_pt_lim_mult (fun h => h) (fun _ => Dot d e)).
      + apply derivable_pt_lim_id.
      + apply derivable_pt_lim_const.
  Qed.

  Lemma line_zero v d : add3 v (scal3 0 d) = v.
  Proof. destruct v. unfold add3, scal3. cbn. f_equal; ring. Qed.

  Lemma norm_derive v d :
    v <> vector_zero ->
    derivable_pt_lim (fun h => Norm (add3 v (scal3 h d))) 0 (Dot v d / Norm v).
  Proof.
    intros Hv. unfold Norm.
    assert (H2 : derivable_pt_lim (fun h => Norm2 (add3 v (scal3 h d))) 0
                                  (2 * Dot v d)).
    { apply (derive_ext (fun h => (Norm2 v + h * (2 * Dot v d))
                                  + (h * h) * Norm2 d)).
      { intros h. unfold Norm2, Dot, add3, scal3. cbn [cx cy cz]. ring. }
      apply (derive_eq _ _ ((0 + (1 * (2 * Dot v d) + 0 * 0)) +
               ((1 * 0 + 0 * 1) * Norm2 d + (0 * 0) * 0))); [|ring].
      apply (derivable_pt_lim_plus (fun h => Norm2 v + h * (2 * Dot v d))
                                   (fun h => (h * h) * Norm2 d)).
      - apply (derivable_pt_lim_plus (fun _ => Norm2 v)
                                     (fun h => h * (2 * Dot v d))).
        + apply derivable_pt_lim_const.
        + apply (derivable_pt_lim_mult (fun h => h) (fun _ => 2 * Dot v d)).
          * apply derivable_pt_lim_id.
          * apply derivable_pt_lim_const.
      - apply (derivable_pt_lim_mult (fun h => h * h) (fun _ => Norm2 d)).
        + apply (derivable_pt_lim_mult (fun h => h) (fun h => h));
            apply derivable_pt_lim_id.
        + apply derivable_pt_lim_const. }
    pose proof (Norm2_pos v Hv) as HN. pose proof (Norm_pos v Hv) as HN'.
    replace (Dot v d / sqrt (Norm2 v)) with
      (/ (2 * sqrt (Norm2 v)) * (2 * Dot v d)).
    - apply (derivable_pt_lim_comp (fun h => Norm2 (add3 v (scal3 h d))) sqrt).
      + exact H2.
      + rewrite line_zero. apply derivable_pt_lim_sqrt. exact HN.
    - unfold Norm in HN'. field. lra.
  Qed.

  Lemma cosine_derive v d e :
    v <> vector_zero ->
    derivable_pt_lim
      (fun h => Dot (add3 v (scal3 h d)) e / Norm (add3 v (scal3 h d))) 0
      ((Dot d e - Dot v e / Norm v * (Dot v d / Norm v)) / Norm v).
  Proof.
    intros Hv. pose proof (Norm_pos v Hv) as HN.
    replace ((Dot d e - Dot v e / Norm v * (Dot v d / Norm v)) / Norm v) with
      ((Dot d e * Norm (add3 v (scal3 0 d))
        - Dot v d / Norm v * Dot (add3 v (scal3 0 d)) e)
       / Rsqr (Norm (add3 v (scal3 0 d)))).
    - apply (derivable_pt_lim_div (fun h => Dot (add3 v (scal3 h d)) e)
                                  (fun h => Norm (add3 v (scal3 h d)))).
      + apply line_derive.
      + apply norm_derive. exact Hv.
      + rewrite line_zero. lra.
    - rewrite line_zero. unfold Rsqr. field. lra.
  Qed.

  Lemma harmonic_derive e1 e2 e3 inner n m v d :
    nonnegative inner -> v <> vector_zero ->
    let r := Norm v in
    let X := Dot v e1 / r in
    let Y := Dot v e2 / r in
    let Z := Dot v e3 / r in
    let C := cos_coefficients body n m in
    let S := sin_coefficients body n m in
    let r' := Dot v d / r in
    let X' := (Dot d e1 - X * r') / r in
    let Y' := (Dot d e2 - Y * r') / r in
    let Z' := (Dot d e3 - Z * r') / r in
    let q := reference_radius body ^ n / r ^ (n + 2) in
    let L := C * re_pow m X Y + S * im_pow m X Y in
    derivable_pt_lim
      (fun h => harmonic e1 e2 e3 inner n m (add3 v (scal3 h d))) 0
      (- factor n m *
       ((sigma_prime inner r * (r * q) + - INR (n + 1) * q * sigma inner r) * r'
        * (dP n m Z * L) +
        sigma inner r * (r * q) *
        (dP n (m + 1) Z * Z' * L +
         dP n m Z * (INR m *
           (X' * (C * re_pow (m - 1) X Y + S * im_pow (m - 1) X Y) +
            Y' * (S * re_pow (m - 1) X Y - C * im_pow (m - 1) X Y)))))).
  Proof.
    intros Hi Hv. cbv zeta.
    set (r := Norm v). set (X := Dot v e1 / r). set (Y := Dot v e2 / r).
    set (Z := Dot v e3 / r). set (C := cos_coefficients body n m).
    set (S := sin_coefficients body n m). set (r' := Dot v d / r).
    set (X' := (Dot d e1 - X * r') / r). set (Y' := (Dot d e2 - Y * r') / r).
    set (Z' := (Dot d e3 - Z * r') / r).
    set (q := reference_radius body ^ n / r ^ (n + 2)).
    assert (Hr : 0 < r) by (apply Norm_pos; exact Hv).
    set (line := fun h => add3 v (scal3 h d)).
    set (fr := fun h => Norm (line h)).
    set (fX := fun h => Dot (line h) e1 / fr h).
    set (fY := fun h => Dot (line h) e2 / fr h).
    set (fZ := fun h => Dot (line h) e3 / fr h).
    assert (Dr : derivable_pt_lim fr 0 r') by (apply norm_derive; exact Hv).
    assert (DX : derivable_pt_lim fX 0 X') by (apply cosine_derive; exact Hv).
    assert (DY : derivable_pt_lim fY 0 Y') by (apply cosine_derive; exact Hv).
    assert (DZ : derivable_pt_lim fZ 0 Z') by (apply cosine_derive; exact Hv).
    assert (L0 : line 0 = v) by apply line_zero.
    assert (Er : fr 0 = r) by (unfold fr; rewrite L0; reflexivity).
    assert (EX : fX 0 = X) by (unfold fX; rewrite L0, Er; reflexivity).
    assert (EY : fY 0 = Y) by (unfold fY; rewrite L0, Er; reflexivity).
    assert (EZ : fZ 0 = Z) by (unfold fZ; rewrite L0, Er; reflexivity).
    assert (Erq : reference_radius body ^ n / r ^ (n + 1) = r * q).
    { unfold q. replace (n + 2)%nat with (Datatypes.S (n + 1)) by lia.
      cbn [pow]. pose proof (pow_lt r (n + 1) Hr). field. lra. }
    (* The radial part. *)
    set (G := fun y => sigma inner y * (reference_radius body ^ n / y ^ (n + 1))).
    assert (DG : derivable_pt_lim G r
      (sigma_prime inner r * (r * q) + - INR (n + 1) * q * sigma inner r)).
    { replace (sigma_prime inner r * (r * q) + - INR (n + 1) * q * sigma inner r)
        with (sigma_prime inner r * (reference_radius body ^ n / r ^ (n + 1)) +
              sigma inner r * (- INR (n + 1) * q)) by (rewrite Erq; ring).
      apply (derivable_pt_lim_mult (sigma inner)
               (fun y => reference_radius body ^ n / y ^ (n + 1))).
      - apply sigma_derive; assumption.
      - apply radial_derive. exact Hr. }
    assert (DGr : derivable_pt_lim (fun h => G (fr h)) 0
      ((sigma_prime inner r * (r * q) + - INR (n + 1) * q * sigma inner r) * r')).
    { apply (derivable_pt_lim_comp fr G); [exact Dr|]. rewrite Er. exact DG. }
    assert (DP : derivable_pt_lim (fun h => dP n m (fZ h)) 0
                                  (dP n (m + 1) Z * Z')).
    { apply (derivable_pt_lim_comp fZ (dP n m)); [exact DZ|].
      rewrite EZ, Nat.add_1_r. apply dP_derive. }
    destruct (pow_derive m fX fY X' Y' 0 DX DY) as [DR DI].
    rewrite EX, EY in DR, DI.
    set (re' := INR m * (X' * re_pow (m - 1) X Y - Y' * im_pow (m - 1) X Y))
      in *.
    set (im' := INR m * (X' * im_pow (m - 1) X Y + Y' * re_pow (m - 1) X Y))
      in *.
    assert (DL : derivable_pt_lim
      (fun h => C * re_pow m (fX h) (fY h) + S * im_pow m (fX h) (fY h)) 0
      (C * re' + S * im')).
    { apply (derivable_pt_lim_plus (fun h => C * re_pow m (fX h) (fY h))
                                   (fun h => S * im_pow m (fX h) (fY h))).
      - apply (derivable_pt_lim_scal (fun h => re_pow m (fX h) (fY h))).
        exact DR.
      - apply (derivable_pt_lim_scal (fun h => im_pow m (fX h) (fY h))).
        exact DI. }
    assert (DPL : derivable_pt_lim
      (fun h => dP n m (fZ h) *
                (C * re_pow m (fX h) (fY h) + S * im_pow m (fX h) (fY h))) 0
      (dP n (m + 1) Z * Z' * (C * re_pow m X Y + S * im_pow m X Y)
       + dP n m Z * (C * re' + S * im'))).
    { pose proof (derivable_pt_lim_mult
        (fun h => dP n m (fZ h))
        (fun h => C * re_pow m (fX h) (fY h) + S * im_pow m (fX h) (fY h))
        0 _ _ DP DL) as H.
      cbv beta in H. rewrite EX, EY, EZ in H. exact H. }
    assert (DA : derivable_pt_lim
      (fun h => G (fr h) * (dP n m (fZ h) *
         (C * re_pow m (fX h) (fY h) + S * im_pow m (fX h) (fY h)))) 0
      ((sigma_prime inner r * (r * q) + - INR (n + 1) * q * sigma inner r) * r'
       * (dP n m Z * (C * re_pow m X Y + S * im_pow m X Y))
       + G r * (dP n (m + 1) Z * Z' * (C * re_pow m X Y + S * im_pow m X Y)
                + dP n m Z * (C * re' + S * im')))).
    { pose proof (derivable_pt_lim_mult
        (fun h => G (fr h))
        (fun h => dP n m (fZ h) *
          (C * re_pow m (fX h) (fY h) + S * im_pow m (fX h) (fY h)))
        0 _ _ DGr DPL) as H.
      cbv beta in H. rewrite Er, EX, EY, EZ in H. exact H. }
    apply (derivable_pt_lim_scal _ (- factor n m)) in DA.
    revert DA. unfold mult_real_fct.
    match goal with |- derivable_pt_lim _ _ ?a -> derivable_pt_lim _ _ ?b =>
      replace a with b end.
    - apply derive_ext. intros h. unfold harmonic. fold (line h).
      fold (fr h). fold (fX h). fold (fY h). fold (fZ h). fold C S.
      unfold G. ring.
    - unfold G. rewrite Erq. unfold re', im'. ring.
  Qed.
End Harmonics.

(* * The terms of the code. *)

Section Terms.
  Context (factor : nat -> nat -> R) (g : geopotential).
  Context (degree_inner : nat -> extended) (sectoral_inner : extended).
  Context (e1 e2 e3 : R3).

  Definition beq (v : R3) : R :=
    sqrt (Dot v e1 * Dot v e1 + Dot v e2 * Dot v e2).
  Definition cosl (v : R3) : R :=
    if Rlt_dec 0 (beq v) then Dot v e1 * (1 / beq v) else 1.
  Definition sinl (v : R3) : R :=
    if Rlt_dec 0 (beq v) then Dot v e2 * (1 / beq v) else 0.
  Definition cosb (v : R3) : R := beq v * (1 / Norm v).
  Definition sinb (v : R3) : R := Dot v e3 * (1 / Norm v).
  Definition gradB (v : R3) : R3 :=
    add3 (sub3 (scal3 (- sinb v * cosl v) e1) (scal3 (sinb v * sinl v) e2))
         (scal3 (cosb v) e3).
  Definition gradL (v : R3) : R3 :=
    sub3 (scal3 (cosl v) e2) (scal3 (sinl v) e1).
  Definition unit_of (v : R3) : R3 := scal3 (1 / Norm v) v.

  Lemma statics v :
    orthonormal e1 e2 e3 -> v <> vector_zero ->
    cosb v * cosl v = Dot v e1 / Norm v /\
    cosb v * sinl v = Dot v e2 / Norm v /\
    sinb v = Dot v e3 / Norm v /\
    cosl v * cosl v + sinl v * sinl v = 1 /\
    cosb v * cosb v + sinb v * sinb v = 1.
  Proof.
    intros B Hv. pose proof (Norm_pos v Hv) as HN.
    pose proof (Norm_sqr v) as HS.
    rewrite Norm2_Dot, (parseval e1 e2 e3 v v B) in HS.
    set (x := Dot v e1) in *. set (y := Dot v e2) in *.
    set (z := Dot v e3) in *. set (r := Norm v) in *.
    assert (Hp : 0 <= x * x + y * y).
    { pose proof (Rle_0_sqr x). pose proof (Rle_0_sqr y). unfold Rsqr in *. lra. }
    assert (Hb : beq v * beq v = x * x + y * y) by (apply sqrt_sqrt; exact Hp).
    unfold cosb, sinb, cosl, sinl. fold x y z r.
    assert (H0 : 0 <= beq v) by apply sqrt_pos.
    assert (Hc : beq v * (1 / r) * (beq v * (1 / r)) + z * (1 / r) * (z * (1 / r))
                 = 1).
    { replace (beq v * (1 / r) * (beq v * (1 / r)) + z * (1 / r) * (z * (1 / r)))
        with ((beq v * beq v + z * z) / (r * r)) by (field; lra).
      rewrite Hb, <- HS. field. lra. }
    destruct (Rlt_dec 0 (beq v)) as [Hq|Hq].
    - split; [field; lra|]. split; [field; lra|]. split; [field; lra|].
      split; [|exact Hc].
      replace (x * (1 / beq v) * (x * (1 / beq v)) +
               y * (1 / beq v) * (y * (1 / beq v)))
        with ((x * x + y * y) / (beq v * beq v)) by (field; lra).
      assert (0 < x * x + y * y)
        by (rewrite <- Hb; apply Rmult_lt_0_compat; exact Hq).
      rewrite Hb. field. lra.
    - assert (Eq : beq v = 0) by lra. rewrite Eq in Hb.
      assert (Hx : x = 0).
      { apply Rsqr_0_uniq. unfold Rsqr. pose proof (Rle_0_sqr x).
        pose proof (Rle_0_sqr y). unfold Rsqr in *. lra. }
      assert (Hy : y = 0).
      { apply Rsqr_0_uniq. unfold Rsqr. pose proof (Rle_0_sqr x).
        pose proof (Rle_0_sqr y). unfold Rsqr in *. lra. }
      rewrite Eq, Hx, Hy in *.
      split; [field; lra|]. split; [field; lra|]. split; [field; lra|].
      split; [ring | exact Hc].
  Qed.

  (* The quantities at v. *)
  Definition term_at (n m : nat) (v : R3) : R3 :=
    term_acceleration factor g (sinb v) (cosb v) (cosl v) (sinl v)
      (gradB v) (gradL v) n m
      (damped_ratio g (Norm v) degree_inner sectoral_inner n m)
      (damped_gradient_of g (Norm v) (unit_of v) degree_inner sectoral_inner
                          n m).
  Definition value_at (n m : nat) (v : R3) : R :=
    term_potential factor g (Norm v) (sinb v) (cosb v) (cosl v) (sinl v) n m
      (damped_ratio g (Norm v) degree_inner sectoral_inner n m).

  (* What is expected of them: the harmonic, but none for degree 2 and
     order 1. *)
  Definition component (n m : nat) (v : R3) : R :=
    if Nat.eqb n 2 && Nat.eqb m 1 then 0
    else harmonic factor (body_ g) e1 e2 e3
                  (inner_of degree_inner sectoral_inner n m) n m v.

  Lemma value_component n m v :
    orthonormal e1 e2 e3 -> v <> vector_zero ->
    value_at n m v = component n m v.
  Proof.
    intros B Hv. unfold value_at, component, term_potential.
    destruct (Nat.eqb n 2 && Nat.eqb m 1); [reflexivity|].
    destruct (statics v B Hv) as (EX & EY & EZ & _ & _).
    unfold harmonic. cbv zeta. rewrite <- EX, <- EY, <- EZ.
    destruct (pow_homogeneous (cosb v) m (cosl v) (sinl v)) as [-> ->].
    unfold damped_ratio, ratio.
    replace (reference_radius (body_ g) ^ n / Norm v ^ (n + 1)) with
      (Norm v * (reference_radius (body_ g) ^ n / Norm v ^ (n + 2))).
    - ring.
    - pose proof (Norm_pos v Hv) as HN.
      replace (n + 2)%nat with (S (n + 1)) by lia. cbn [pow].
      pose proof (pow_lt (Norm v) (n + 1) HN). field. lra.
  Qed.

  Lemma term_gradient n m v d :
    orthonormal e1 e2 e3 -> v <> vector_zero ->
    nonnegative (inner_of degree_inner sectoral_inner n m) ->
    derivable_pt_lim (fun h => component n m (add3 v (scal3 h d))) 0
                     (- Dot (term_at n m v) d).
  Proof.
    intros B Hv Hi. unfold component, term_at, term_acceleration.
    destruct (Nat.eqb n 2 && Nat.eqb m 1).
    { rewrite Dot_zero, Ropp_0. apply derivable_pt_lim_const. }
    eapply derive_eq; [apply harmonic_derive; assumption|]. cbv zeta.
    destruct (statics v B Hv) as (EX & EY & EZ & Hl & Hb).
    pose proof (Norm_pos v Hv) as HN.
    rewrite !Dot_scal, !Dot_add, !Dot_scal.
    unfold damped_gradient_of. rewrite Dot_scal. unfold unit_of.
    rewrite Dot_scal.
    set (inner := inner_of degree_inner sectoral_inner n m) in *.
    unfold damped_ratio. fold inner.
    change (reference_radius (body_ g) ^ n / Norm v ^ (n + 2))
      with (ratio g (Norm v) n).
    set (q := ratio g (Norm v) n).
    rewrite <- EX, <- EY, <- EZ.
    assert (Ed : Dot v d / Norm v =
      cosb v * cosl v * Dot d e1 + cosb v * sinl v * Dot d e2
      + sinb v * Dot d e3).
    { rewrite EX, EY, EZ, (parseval e1 e2 e3 v d B). field. lra. }
    replace (1 / Norm v * Dot v d) with (Dot v d / Norm v) by (field; lra).
    set (r' := Dot v d / Norm v) in *.
    assert (EB : Dot (gradB v) d =
      - sinb v * (cosl v * Dot d e1 + sinl v * Dot d e2) + cosb v * Dot d e3).
    { unfold gradB. rewrite Dot_add, Dot_sub, !Dot_scal.
      rewrite (Dot_comm e1), (Dot_comm e2), (Dot_comm e3). ring. }
    assert (EL : Dot (gradL v) d = cosl v * Dot d e2 - sinl v * Dot d e1).
    { unfold gradL. rewrite Dot_sub, !Dot_scal.
      rewrite (Dot_comm e1), (Dot_comm e2). ring. }
    rewrite EB, EL.
    set (d1 := Dot d e1) in *. set (d2 := Dot d e2) in *.
    set (d3 := Dot d e3) in *.
    set (cb := cosb v) in *. set (sb := sinb v) in *.
    set (cl := cosl v) in *. set (sl := sinl v) in *.
    set (gB := - sb * (cl * d1 + sl * d2) + cb * d3).
    set (gL := cl * d2 - sl * d1).
    assert (FX : d1 - cb * cl * r' = - cl * sb * gB - sl * gL).
    { rewrite Ed. unfold gB, gL.
      replace (d1 - cb * cl * (cb * cl * d1 + cb * sl * d2 + sb * d3)) with
        (d1 * 1 - cb * cb * (cl * cl * d1 + cl * sl * d2) - cb * cl * sb * d3)
        by ring.
      rewrite <- Hl at 1. replace (cb * cb) with (1 - sb * sb) by lra. ring. }
    assert (FY : d2 - cb * sl * r' = - sl * sb * gB + cl * gL).
    { rewrite Ed. unfold gB, gL.
      replace (d2 - cb * sl * (cb * cl * d1 + cb * sl * d2 + sb * d3)) with
        (d2 * 1 - cb * cb * (sl * cl * d1 + sl * sl * d2) - cb * sl * sb * d3)
        by ring.
      rewrite <- Hl at 1. replace (cb * cb) with (1 - sb * sb) by lra. ring. }
    assert (FZ : d3 - sb * r' = cb * gB).
    { rewrite Ed. unfold gB.
      replace (d3 - sb * (cb * cl * d1 + cb * sl * d2 + sb * d3)) with
        (d3 * 1 - sb * cb * (cl * d1 + sl * d2) - sb * sb * d3) by ring.
      rewrite <- Hb at 1. ring. }
    rewrite FX, FY, FZ.
    destruct (pow_homogeneous cb m cl sl) as [-> ->].
    destruct (pow_homogeneous cb (m - 1) cl sl) as [-> ->].
    set (C := cos_coefficients (body_ g) n m).
    set (S := sin_coefficients (body_ g) n m).
    destruct m as [|m].
    - cbn [INR re_pow im_pow pow Nat.sub]. field. lra.
    - replace (Datatypes.S m - 1)%nat with m by lia.
      cbn [re_pow im_pow pow]. field. lra.
  Qed.

  Lemma sigma_beyond inner r :
    0 < r -> nonnegative inner ->
    below r (outer_threshold (HarmonicDamping inner)) = false ->
    sigma inner r = 0 /\ sigma_prime inner r = 0.
  Proof.
    intros Hr Hi H. destruct inner as [s|]; cbn in H; [|discriminate].
    destruct (Rlt_dec r (s * 3)); [discriminate|]. cbn in Hi.
    unfold sigma, sigma_prime. decide_le; split; reflexivity.
  Qed.

  (* Terms that are negligible. *)
  Lemma term_beyond n m v :
    v <> vector_zero ->
    nonnegative (inner_of degree_inner sectoral_inner n m) ->
    below (Norm v) (outer_threshold (HarmonicDamping
      (inner_of degree_inner sectoral_inner n m))) = false ->
    term_at n m v = vector_zero /\ value_at n m v = 0 /\ component n m v = 0.
  Proof.
    intros Hv Hi H.
    destruct (sigma_beyond _ _ (Norm_pos v Hv) Hi H) as [S0 S1].
    unfold term_at, value_at, component, term_acceleration, term_potential,
      harmonic. cbv zeta.
    destruct (Nat.eqb n 2 && Nat.eqb m 1); [auto|].
    unfold damped_gradient_of, damped_ratio. rewrite S0, S1.
    split; [|split; ring].
    unfold scal3, add3, vector_zero. cbn [cx cy cz]. f_equal; ring.
  Qed.

  Lemma term_null n m v :
    cos_coefficients (body_ g) n m = 0 -> sin_coefficients (body_ g) n m = 0 ->
    term_at n m v = vector_zero /\ value_at n m v = 0 /\ component n m v = 0.
  Proof.
    intros HC HS.
    unfold term_at, value_at, component, term_acceleration, term_potential,
      harmonic. cbv zeta.
    destruct (Nat.eqb n 2 && Nat.eqb m 1); [auto|].
    rewrite HC, HS. split; [|split; ring].
    unfold scal3, add3, vector_zero. cbn [cx cy cz]. f_equal; ring.
  Qed.
End Terms.

(* * Sums. *)

Lemma sum_over_ext l f f' :
  (forall i, In i l -> f i = f' i) -> sum_over l f = sum_over l f'.
Proof.
  induction l as [|a l IH]; intros H; cbn; [reflexivity|].
  rewrite (H a) by (left; reflexivity). f_equal. apply IH.
  intros i Hi. apply H. right. exact Hi.
Qed.

Lemma sum_over_app l l' f : sum_over (l ++ l') f = sum_over l f + sum_over l' f.
Proof.
  unfold sum_over. induction l as [|a l IH]; cbn [app fold_right].
  - symmetry. apply Rplus_0_l.
  - rewrite IH. symmetry. apply Rplus_assoc.
Qed.

Lemma sum_over_zero l f : (forall i, In i l -> f i = 0) -> sum_over l f = 0.
Proof.
  induction l as [|a l IH]; intros H; cbn; [reflexivity|].
  rewrite (H a) by (left; reflexivity).
  change (fold_right _ 0 l) with (sum_over l f).
  rewrite IH; [ring|]. intros i Hi. apply H. right. exact Hi.
Qed.

Lemma Dot_vector_sum l f d :
  Dot (vector_sum l f) d = sum_over l (fun i => Dot (f i) d).
Proof.
  induction l as [|a l IH]; cbn; [apply Dot_zero|].
  rewrite Dot_add. unfold vector_sum in IH. rewrite IH. reflexivity.
Qed.

Lemma sum_over_derive l f f' x :
  (forall i, In i l -> derivable_pt_lim (f i) x (f' i)) ->
  derivable_pt_lim (fun h => sum_over l (fun i => f i h)) x (sum_over l f').
Proof.
  induction l as [|a l IH]; intros H; cbn.
  - apply derivable_pt_lim_const.
  - apply (derivable_pt_lim_plus (f a) (fun h => sum_over l (fun i => f i h))).
    + apply H. left. reflexivity.
    + apply IH. intros i Hi. apply H. right. exact Hi.
Qed.

(* A sum over the degrees, of which those above M and those below 2 vanish. *)
Lemma degree_sum f M N :
  (1 <= M)%nat -> (M <= N \/ M = 1)%nat ->
  (forall n, (2 <= n)%nat -> (M < n <= N)%nat -> f n = 0) ->
  sum_over (seq 0 (M + 1)) (fun n => if Nat.ltb n 2 then 0 else f n) =
  sum_over (seq 2 (N - 1)) f.
Proof.
  intros HM HMN H0.
  replace (seq 0 (M + 1)) with ([0%nat; 1%nat] ++ seq 2 (M - 1)).
  - rewrite sum_over_app, (sum_over_zero [0%nat; 1%nat]), Rplus_0_l.
    2:{ intros i [<-|[<-|[]]]; reflexivity. }
    rewrite (sum_over_ext _ _ f).
    2:{ intros i Hi. apply in_seq in Hi.
        destruct (Nat.ltb_spec i 2); [lia | reflexivity]. }
    destruct HMN as [HMN| ->].
    + replace (N - 1)%nat with ((M - 1) + (N - M))%nat by lia.
      rewrite seq_app, sum_over_app.
      rewrite (sum_over_zero (seq (2 + (M - 1)) (N - M))); [ring|].
      intros i Hi. apply in_seq in Hi. apply H0; lia.
    + cbn [Nat.sub seq sum_over fold_right]. symmetry. apply sum_over_zero.
      intros i Hi. apply in_seq in Hi. apply H0; lia.
  - replace (M + 1)%nat with (2 + (M - 1))%nat by lia.
    rewrite seq_app. reflexivity.
Qed.

(* A sum over the orders, of which those above 0 vanish if [zonal]. *)
Lemma order_sum f zonal n :
  (zonal = true -> forall m, (1 <= m <= n)%nat -> f m = 0) ->
  sum_over (seq 0 (size_of zonal n)) f = sum_over (seq 0 (n + 1)) f.
Proof.
  intros H. unfold size_of. destruct zonal; [|reflexivity].
  rewrite Nat.add_1_r. cbn [seq sum_over fold_right].
  change (fold_right _ 0 (seq 1 n)) with (sum_over (seq 1 n) f).
  rewrite (sum_over_zero (seq 1 n)); [reflexivity|].
  intros i Hi. apply in_seq in Hi. apply H; [reflexivity | lia].
Qed.

(* * The limiting degree. *)

Lemma partition_point_spec {A} (pred : A -> bool) (d : A) l :
  let k := partition_point pred l in
  (k <= List.length l)%nat /\
  (forall i, (i < k)%nat -> pred (nth i l d) = true) /\
  ((k < List.length l)%nat -> pred (nth k l d) = false).
Proof.
  cbv zeta. induction l as [|a l (IH1 & IH2 & IH3)]; cbn [partition_point].
  - cbn. repeat split; lia.
  - destruct (pred a) eqn:E; cbn [List.length nth].
    + split; [lia|]. split.
      * intros [|i] Hi; [exact E | apply IH2; lia].
      * intros H. apply IH3. lia.
    + split; [lia|]. split; [lia|]. intros _. exact E.
Qed.

Lemma below_monotone r a b :
  ext_le a b -> below r (outer_threshold (HarmonicDamping a)) = true ->
  below r (outer_threshold (HarmonicDamping b)) = true.
Proof.
  destruct a, b; cbn; try tauto. intros H.
  destruct (Rlt_dec r (r0 * 3)); [|discriminate].
  destruct (Rlt_dec r (r1 * 3)); [reflexivity | lra].
Qed.

Lemma degree_inner_antitone P tolerance body n n' :
  (n <= n')%nat ->
  ext_le (degree_inner_of P tolerance body n')
         (degree_inner_of P tolerance body n).
Proof.
  intros H. apply largest_lub.
  - unfold degree_inner_of. generalize (harmonics_from n (geopotential_degree body)).
    intros l. induction l as [|a l IH]; cbn; [lra|].
    destruct (harmonic_threshold _ _ _ _ _); cbn; [|exact I].
    change (fold_right ext_max (Finite 0)) with largest.
    destruct (largest _); cbn in *; [|exact I].
    eapply Rle_trans; [exact IH | apply Rmax_r].
  - intros a Ha. apply in_map_iff in Ha. destruct Ha as ([k m] & <- & Ha).
    apply harmonics_from_spec in Ha. apply largest_upper.
    apply in_map_iff. exists (k, m). split; [reflexivity|].
    apply harmonics_from_spec. lia.
Qed.

Lemma degree_inner_nonnegative P tolerance body n :
  nonnegative (degree_inner_of P tolerance body n).
Proof.
  unfold degree_inner_of. generalize (harmonics_from n (geopotential_degree body)).
  intros l. induction l as [|a l IH]; cbn; [lra|].
  destruct (harmonic_threshold _ _ _ _ _); cbn; [|exact I].
  change (fold_right ext_max (Finite 0)) with largest.
  destruct (largest _); cbn in *; [|exact I].
  eapply Rle_trans; [exact IH | apply Rmax_r].
Qed.

Lemma sectoral_inner_nonnegative P tolerance body :
  nonnegative (sectoral_inner_of P tolerance body).
Proof.
  unfold sectoral_inner_of.
  pose proof (degree_inner_nonnegative P tolerance body 3) as H.
  destruct (degree_inner_of P tolerance body 3),
    (harmonic_threshold P tolerance body 2 2); cbn in *; try exact I.
  eapply Rle_trans; [exact H | apply Rmax_r].
Qed.

Theorem limiting_degree P body tolerance g r :
  0 < reference_radius body ->
  make_geopotential P body tolerance = Some g ->
  let k := LimitingDegree g r in
  (2 <= k <= Nat.max 2 (S (geopotential_degree body)))%nat /\
  forall n, (2 <= n <= geopotential_degree body)%nat ->
    ((n < k)%nat <->
     below r (outer_threshold
       (HarmonicDamping (degree_inner_of P tolerance body n))) = true).
Proof.
  intros HR Hg. cbv zeta.
  destruct (construction P body tolerance g HR Hg)
    as (Ht & EB & EL & E01 & EN & _).
  unfold LimitingDegree.
  destruct (partition_point_spec
              (fun damping => below r (outer_threshold damping))
              default_damping (degree_damping g)) as (K1 & K2 & K3).
  set (k := partition_point _ _) in *.
  change (fun n => nth n (degree_damping g) default_damping)
    with (damping_of_degree g) in *.
  assert (Hk : (2 <= k)%nat).
  { destruct (le_lt_dec 2 k) as [H|H]; [exact H|]. exfalso.
    assert (Hl : (k < List.length (degree_damping g))%nat) by lia.
    specialize (K3 Hl).
    change (nth k (degree_damping g) default_damping)
      with (damping_of_degree g k) in K3.
    rewrite (E01 k H) in K3. discriminate. }
  split; [lia|]. intros n Hn. split.
  - intros H. specialize (K2 n H).
    change (nth n (degree_damping g) default_damping)
      with (damping_of_degree g n) in K2.
    rewrite (EN n Hn) in K2. exact K2.
  - intros H. destruct (le_lt_dec k n) as [H'|H']; [|exact H']. exfalso.
    assert (Hl : (k < List.length (degree_damping g))%nat) by lia.
    specialize (K3 Hl).
    change (nth k (degree_damping g) default_damping)
      with (damping_of_degree g k) in K3.
    rewrite (EN k ltac:(lia)) in K3.
    apply (below_monotone r _ (degree_inner_of P tolerance body k)) in H.
    + rewrite H in K3. discriminate.
    + apply degree_inner_antitone. exact H'.
Qed.

(* * The field. *)

(* The potential, in spherical harmonics. *)
Definition spherical_harmonics (factor : nat -> nat -> R) (body : oblate_body)
    (degree_inner : nat -> extended) (sectoral_inner : extended) (v : R3) : R :=
  sum_over (seq 2 (geopotential_degree body - 1)) (fun n =>
    sum_over (seq 0 (n + 1)) (fun m =>
      if Nat.eqb n 2 && Nat.eqb m 1 then 0
      else harmonic factor body (surface_x body) (surface_y body)
             (polar_axis body)
             (if Nat.eqb n 2 && Nat.ltb 0 m then sectoral_inner
              else degree_inner n) n m v)).

(* The two bases of the body share the polar axis. *)
Definition well_oriented (body : oblate_body) : Prop :=
  orthonormal (surface_x body) (surface_y body) (polar_axis body) /\
  orthonormal (equatorial body) (biequatorial body) (polar_axis body).

Lemma zonal_coefficients body n m :
  is_zonal body = true -> (n <= geopotential_degree body)%nat ->
  (1 <= m <= n)%nat ->
  cos_coefficients body n m = 0 /\ sin_coefficients body n m = 0.
Proof.
  intros H Hn Hm. unfold is_zonal in H. apply negb_true_iff in H.
  destruct (nonzero (cos_coefficients body n m) ||
            nonzero (sin_coefficients body n m)) eqn:E.
  - exfalso. apply not_true_iff_false in H. apply H. apply existsb_exists.
    exists n. split; [apply in_seq; lia|]. apply existsb_exists.
    exists m. split; [apply in_seq; lia | exact E].
  - apply orb_false_iff in E. destruct E as [E1 E2]. unfold nonzero in *.
    destruct (Req_EM_T (cos_coefficients body n m) 0); [|discriminate].
    destruct (Req_EM_T (sin_coefficients body n m) 0); [|discriminate]. auto.
Qed.

Section Field.
  Context (factor P : nat -> nat -> R) (body : oblate_body) (tolerance : R)
          (g : geopotential) (cases : nat).
  Hypothesis radius_pos : 0 < reference_radius body.
  Hypothesis constructed : make_geopotential P body tolerance = Some g.
  Hypothesis oriented : well_oriented body.
  Hypothesis enough : (geopotential_degree body <= cases)%nat.

  Let dI := degree_inner_of P tolerance body.
  Let sI := sectoral_inner_of P tolerance body.
  Let N := geopotential_degree body.

  Let cI (n m : nat) := inner_of dI sI n m.

  Lemma inner_nonnegative n m : nonnegative (inner_of dI sI n m).
  Proof.
    unfold inner_of. destruct (_ && _).
    - apply sectoral_inner_nonnegative.
    - apply degree_inner_nonnegative.
  Qed.

  Lemma body_is : body_ g = body.
  Proof. apply (construction P body tolerance g radius_pos constructed). Qed.

  Lemma sectoral_is :
    (2 <= N)%nat -> sectoral_damping g = HarmonicDamping sI.
  Proof. apply (construction P body tolerance g radius_pos constructed). Qed.

  Lemma ext_le_sectoral n : (3 <= n <= N)%nat -> ext_le (dI n) sI.
  Proof.
    intros H. eapply ext_le_trans; [|apply ext_max_r].
    apply degree_inner_antitone. lia.
  Qed.

  Lemma sectoral_le_degree :
    (2 <= N)%nat -> ext_le sI (dI 2).
  Proof.
    intros H. apply ext_max_lub.
    - apply largest_upper. apply in_map_iff. exists (2, 2)%nat.
      split; [reflexivity|]. apply harmonics_from_spec. fold N. lia.
    - apply degree_inner_antitone. lia.
  Qed.

  (* The basis used at a distance. *)
  Definition e1_at (rho : R) : R3 :=
    if zonal_at g rho then equatorial body else surface_x body.
  Definition e2_at (rho : R) : R3 :=
    if zonal_at g rho then biequatorial body else surface_y body.

  Lemma basis_at rho : orthonormal (e1_at rho) (e2_at rho) (polar_axis body).
  Proof.
    unfold e1_at, e2_at. destruct oriented. destruct (zonal_at g rho); assumption.
  Qed.

  (* Nothing is checked amiss. *)
  Definition away (rho : R) : Prop :=
    zonal_at g rho = true \/
    below rho (outer_threshold (sectoral_damping g)) = true.

  Lemma initialization v uninitialized :
    v <> vector_zero ->
    let e1 := e1_at (Norm v) in
    let e2 := e2_at (Norm v) in
    let e3 := polar_axis body in
    invariant g (Norm v) (sinb e3 v) (cosb e1 e2 v) (cosl e1 e2 v)
      (sinl e1 e2 v) (unit_of v) (gradB e1 e2 e3 v) (gradL e1 e2 v)
      (zonal_at g (Norm v)) (away (Norm v)) 2
      (order_limit (zonal_at g (Norm v)) 2) 2 0
      (InitializePrecomputations g v (Norm v) (Norm2 v) (1 / Norm v ^ 3)
                                 uninitialized).
  Proof.
    intros Hv. cbv zeta. pose proof (Norm_pos v Hv) as HN.
    unfold InitializePrecomputations. cbv zeta. rewrite body_is.
    fold (e1_at (Norm v)). fold (e2_at (Norm v)).
    set (e1 := e1_at (Norm v)). set (e2 := e2_at (Norm v)).
    set (e3 := polar_axis body).
    replace (order_limit (zonal_at g (Norm v)) 2) with 2%nat
      by (unfold order_limit; destruct (zonal_at g (Norm v)); reflexivity).
    fold (beq e1 e2 v). fold (cosb e1 e2 v). fold (sinb e3 v).
    assert (EC : (if if Rlt_dec 0 (beq e1 e2 v) then true else false
                  then Dot v e1 * (1 / beq e1 e2 v) else 1) = cosl e1 e2 v).
    { unfold cosl. destruct (Rlt_dec 0 (beq e1 e2 v)); reflexivity. }
    assert (ES : (if if Rlt_dec 0 (beq e1 e2 v) then true else false
                  then Dot v e2 * (1 / beq e1 e2 v) else 0) = sinl e1 e2 v).
    { unfold sinl. destruct (Rlt_dec 0 (beq e1 e2 v)); reflexivity. }
    rewrite EC, ES.
    split; [|split; [|split; [|split; [|split; [|split]]]]];
      cbn [p_r_norm p_r2 p_r_normalized p_sin_beta p_cos_beta p_grad_B_vector
           p_grad_L_vector p_R_over_r p_cos_m_lambda p_sin_m_lambda
           p_cos_beta_to_the_m p_DmPn dchecks].
    - split; [reflexivity|]. split; [symmetry; apply Norm_sqr|].
      repeat split.
    - intros k Hk. assert (k = 1%nat) by lia. subst k. rewrite set_at_eq.
      rewrite body_is. change (1 + 2)%nat with 3%nat. cbn [pow]. field. lra.
    - intros k Hk. assert (k = 1%nat) by lia. subst k. rewrite !set_at_eq.
      cbn [re_pow im_pow]. split; ring.
    - intros k Hk. destruct k as [|[|k]]; try lia.
      + rewrite set_at_ne, set_at_eq by lia. reflexivity.
      + rewrite set_at_eq. cbn [pow]. ring.
    - intros k j Hk Hj _. destruct k as [|[|k]]; try lia.
      + assert (j = 0%nat) by lia. subst j. reflexivity.
      + destruct j as [|[|j]]; try lia; reflexivity.
    - intros j _ _ H. lia.
    - intros _. reflexivity.
  Qed.

  Lemma reachable_below rho n :
    0 < rho -> (2 <= n <= N)%nat ->
    below rho (outer_threshold (HarmonicDamping (dI n))) = true ->
    reachable g rho (zonal_at g rho) (away rho) dI sI n.
  Proof.
    intros Hr Hn Hb.
    assert (At : forall l, below rho l = true -> at_most rho l = true).
    { intros [s|]; cbn; [|reflexivity].
      destruct (Rlt_dec rho s); [|discriminate].
      destruct (Rle_dec rho s); [reflexivity | lra]. }
    split; [apply degree_inner_nonnegative|].
    split; [apply (construction P body tolerance g radius_pos constructed);
            exact Hn|].
    split; [apply At; exact Hb|]. split; [intros _; exact Hb|].
    intros -> Z. split; [apply sectoral_inner_nonnegative|].
    rewrite <- sectoral_is by lia. split.
    - unfold zonal_at in Z. apply orb_false_iff in Z. destruct Z as [_ Z].
      apply negb_false_iff in Z. exact Z.
    - intros [A|A]; [|exact A]. rewrite A in Z. discriminate.
  Qed.

  (* The terms that are not computed vanish. *)
  Lemma vanishing e1 e2 v n m :
    v <> vector_zero -> (2 <= n <= N)%nat -> (m <= n)%nat ->
    (below (Norm v) (outer_threshold (HarmonicDamping (dI n))) = false \/
     (zonal_at g (Norm v) = true /\ (1 <= m)%nat)) ->
    term_at factor g dI sI e1 e2 (polar_axis body) n m v = vector_zero /\
    value_at factor g dI sI e1 e2 (polar_axis body) n m v = 0 /\
    component factor g dI sI e1 e2 (polar_axis body) n m v = 0.
  Proof.
    intros Hv Hn Hm H.
    assert (Far : below (Norm v) (outer_threshold (HarmonicDamping
                    (inner_of dI sI n m))) = false ->
      term_at factor g dI sI e1 e2 (polar_axis body) n m v = vector_zero /\
      value_at factor g dI sI e1 e2 (polar_axis body) n m v = 0 /\
      component factor g dI sI e1 e2 (polar_axis body) n m v = 0).
    { apply term_beyond; [exact Hv | apply inner_nonnegative]. }
    assert (Mono : forall a b, ext_le a b ->
      below (Norm v) (outer_threshold (HarmonicDamping b)) = false ->
      below (Norm v) (outer_threshold (HarmonicDamping a)) = false).
    { intros a b Hab Hb. destruct (below _ (outer_threshold (HarmonicDamping a)))
        eqn:E; [|reflexivity].
      rewrite (below_monotone _ a b Hab E) in Hb. discriminate. }
    destruct H as [H|[H H1]].
    - apply Far. unfold inner_of.
      destruct (Nat.eqb_spec n 2) as [->|]; cbn [andb]; [|exact H].
      destruct (Nat.ltb 0 m); [|exact H].
      apply (Mono sI (dI 2)); [apply sectoral_le_degree; lia | exact H].
    - unfold zonal_at in H. apply orb_prop in H. destruct H as [H|H].
      + rewrite body_is in H.
        destruct (zonal_coefficients body n m H) as [HC HS]; [lia | lia |].
        apply term_null; rewrite body_is; assumption.
      + apply Far. rewrite sectoral_is in H by lia.
        assert (Hs : below (Norm v) (outer_threshold (HarmonicDamping sI))
                     = false).
        { apply negb_true_iff in H. destruct sI as [s|]; cbn in *; [|discriminate].
          destruct (Rle_dec (Norm v) (s * 3)); [discriminate|].
          destruct (Rlt_dec (Norm v) (s * 3)); [lra | reflexivity]. }
        unfold inner_of. destruct (Nat.eqb_spec n 2) as [->|H2]; cbn [andb].
        * destruct (Nat.ltb_spec 0 m); [exact Hs | lia].
        * apply (Mono _ sI); [apply ext_le_sectoral; lia | exact Hs].
  Qed.

  Lemma component_is n m v :
    component factor g dI sI (surface_x body) (surface_y body)
      (polar_axis body) n m v =
    if Nat.eqb n 2 && Nat.eqb m 1 then 0
    else harmonic factor body (surface_x body) (surface_y body)
           (polar_axis body)
           (if Nat.eqb n 2 && Nat.ltb 0 m then sI else dI n) n m v.
  Proof. unfold component. rewrite body_is. reflexivity. Qed.

  (* What is computed at v. *)
  Lemma computed v u1 u2 :
    v <> vector_zero ->
    exists b1 b2 a,
      GeneralSphericalHarmonicsAcceleration factor cases g v (Norm v) (Norm2 v)
        (1 / Norm v ^ 3) u1 = Some (b1, a) /\
      GeneralSphericalHarmonicsPotential factor cases g v (Norm v) (Norm2 v)
        (1 / Norm v ^ 3) u2 =
      Some (b2, spherical_harmonics factor body dI sI v) /\
      (away (Norm v) -> b1 = true /\ b2 = true) /\
      (forall d, Dot a d =
         sum_over (seq 2 (N - 1)) (fun n => sum_over (seq 0 (n + 1)) (fun m =>
           Dot (term_at factor g dI sI (surface_x body) (surface_y body)
                        (polar_axis body) n m v) d))).
  Proof.
    intros Hv. pose proof (Norm_pos v Hv) as HN.
    unfold GeneralSphericalHarmonicsAcceleration,
      GeneralSphericalHarmonicsPotential. cbv zeta.
    destruct (limiting_degree P body tolerance g (Norm v) radius_pos constructed)
      as (K1 & K2).
    set (k := LimitingDegree g (Norm v)) in *.
    set (e3 := polar_axis body).
    set (S1 := surface_x body). set (S2 := surface_y body).
    assert (Spec : spherical_harmonics factor body dI sI v =
      sum_over (seq 2 (N - 1)) (fun n => sum_over (seq 0 (n + 1)) (fun m =>
        component factor g dI sI S1 S2 e3 n m v))).
    { apply sum_over_ext. intros n _. apply sum_over_ext. intros m _.
      rewrite component_is. reflexivity. }
    assert (Van : forall e1 e2 n m, (2 <= n <= N)%nat -> (m <= n)%nat ->
      (k <= n)%nat \/ (zonal_at g (Norm v) = true /\ (1 <= m)%nat) ->
      term_at factor g dI sI e1 e2 e3 n m v = vector_zero /\
      value_at factor g dI sI e1 e2 e3 n m v = 0 /\
      component factor g dI sI e1 e2 e3 n m v = 0).
    { intros e1 e2 n m Hn Hm H. apply vanishing; try assumption.
      destruct H as [H|H]; [left|right; exact H].
      destruct (below _ _) eqn:E; [|reflexivity].
      apply K2 in E; [lia | exact Hn]. }
    destruct (Nat.leb_spec 2 (k - 1)) as [L|L]; cbn [andb].
    - destruct (Nat.leb_spec (k - 1) cases) as [L'|L']; [|fold N in K1; lia].
      set (e1 := e1_at (Norm v)). set (e2 := e2_at (Norm v)).
      pose proof (basis_at (Norm v)) as B. fold e1 e2 e3 in B.
      assert (SD : sectoral_damping g = HarmonicDamping sI)
        by (apply sectoral_is; fold N in K1; lia).
      assert (Re : forall n, (2 <= n <= k - 1)%nat ->
        reachable g (Norm v) (zonal_at g (Norm v)) (away (Norm v)) dI sI n).
      { intros n Hn. apply reachable_below; [exact HN | fold N in K1; lia |].
        apply K2; fold N in K1 |- *; lia. }
      unfold AllDegreesAcceleration, AllDegreesPotential. cbv zeta.
      destruct (all_degrees factor g (Norm v) (sinb e3 v) (cosb e1 e2 v)
        (cosl e1 e2 v) (sinl e1 e2 v) (unit_of v) (gradB e1 e2 e3 v)
        (gradL e1 e2 v) (zonal_at g (Norm v)) (away (Norm v)) HN dI sI SD
        (k - 1) _ Re ltac:(lia) (initialization v u1 Hv))
        as [(p1 & E1 & D1) _].
      destruct (all_degrees factor g (Norm v) (sinb e3 v) (cosb e1 e2 v)
        (cosl e1 e2 v) (sinl e1 e2 v) (unit_of v) (gradB e1 e2 e3 v)
        (gradL e1 e2 v) (zonal_at g (Norm v)) (away (Norm v)) HN dI sI SD
        (k - 1) _ Re ltac:(lia) (initialization v u2 Hv))
        as [_ (p2 & E2 & D2)].
      unfold size_of in E1, E2. rewrite E1, E2.
      fold (size_of (zonal_at g (Norm v))) in *.
      exists (dchecks p1), (dchecks p2). eexists.
      split; [reflexivity|]. split; [|split].
      + f_equal. f_equal. rewrite Spec.
        rewrite <- (degree_sum _ (k - 1) N); [| lia | fold N in K1; lia |].
        * apply sum_over_ext. intros n Hn. apply in_seq in Hn.
          destruct (Nat.ltb_spec n 2); [reflexivity|].
          change (sum_over (seq 0 (size_of (zonal_at g (Norm v)) n))
                    (fun m => value_at factor g dI sI e1 e2 e3 n m v) =
                  sum_over (seq 0 (n + 1))
                    (fun m => component factor g dI sI S1 S2 e3 n m v)).
          rewrite (order_sum (fun m => value_at factor g dI sI e1 e2 e3 n m v)).
          -- apply sum_over_ext. intros m Hm. apply in_seq in Hm.
             rewrite value_component by assumption.
             destruct (zonal_at g (Norm v)) eqn:Z.
             ++ destruct m as [|m].
                ** unfold component, harmonic. cbn [re_pow im_pow]. reflexivity.
                ** destruct (Van e1 e2 n (Datatypes.S m)) as (_ & _ & ->);
                     [fold N in K1; lia | lia | right; split; [reflexivity | lia] |].
                   destruct (Van S1 S2 n (Datatypes.S m)) as (_ & _ & ->);
                     [fold N in K1; lia | lia | right; split; [reflexivity | lia] |].
                   reflexivity.
             ++ unfold e1, e2, e1_at, e2_at. rewrite Z. reflexivity.
          -- intros Z m Hm. apply Van; [fold N in K1; lia | lia |].
             right. split; [exact Z | lia].
        * intros n Hn2 Hn. apply sum_over_zero. intros m Hm. apply in_seq in Hm.
          apply Van; [lia | lia | left; lia].
      + intros A. split; [apply D1; exact A | apply D2; exact A].
      + intros d.
        rewrite <- (degree_sum _ (k - 1) N); [| lia | fold N in K1; lia |].
        * rewrite Dot_vector_sum.
          apply sum_over_ext. intros n Hn. apply in_seq in Hn.
          destruct (Nat.ltb_spec n 2); [apply Dot_zero|].
          rewrite Dot_vector_sum.
          change (sum_over (seq 0 (size_of (zonal_at g (Norm v)) n))
                    (fun m => Dot (term_at factor g dI sI e1 e2 e3 n m v) d) =
                  sum_over (seq 0 (n + 1))
                    (fun m => Dot (term_at factor g dI sI S1 S2 e3 n m v) d)).
          rewrite (order_sum (fun m => Dot (term_at factor g dI sI e1 e2 e3
                                                    n m v) d)).
          -- apply sum_over_ext. intros m Hm. apply in_seq in Hm.
             destruct (zonal_at g (Norm v)) eqn:Z.
             ++ destruct m as [|m].
                ** (* Both are the derivative of the same function. *)
                   pose proof (term_gradient factor g dI sI e1 e2 e3 n 0 v d B Hv
                                 (inner_nonnegative n 0)) as G1.
                   pose proof (term_gradient factor g dI sI S1 S2 e3 n 0 v d
                                 (proj1 oriented) Hv
                                 (inner_nonnegative n 0)) as G2.
                   assert (G3 : derivable_pt_lim
                     (fun h => component factor g dI sI e1 e2 e3 n 0
                                 (add3 v (scal3 h d))) 0
                     (- Dot (term_at factor g dI sI S1 S2 e3 n 0 v) d)).
                   { revert G2. apply derive_ext. intros h.
                     unfold component, harmonic. cbn [re_pow im_pow].
                     reflexivity. }
                   pose proof (uniqueness_limite _ _ _ _ G1 G3). lra.
                ** destruct (Van e1 e2 n (Datatypes.S m)) as (-> & _ & _);
                     [fold N in K1; lia | lia | right; split; [reflexivity | lia] |].
                   destruct (Van S1 S2 n (Datatypes.S m)) as (-> & _ & _);
                     [fold N in K1; lia | lia | right; split; [reflexivity | lia] |].
                   reflexivity.
             ++ unfold e1, e2, e1_at, e2_at. rewrite Z. reflexivity.
          -- intros Z m Hm.
             destruct (Van e1 e2 n m) as (-> & _ & _);
               [fold N in K1; lia | lia | right; split; [exact Z | lia] |].
             apply Dot_zero.
        * intros n Hn2 Hn. apply sum_over_zero. intros m Hm. apply in_seq in Hm.
          destruct (Van S1 S2 n m) as (-> & _ & _); [lia | lia | left; lia |].
          apply Dot_zero.
    - assert (Ek : k = 2%nat) by lia. rewrite Ek in *.
      cbn [Nat.sub Nat.eqb].
      exists true, true, vector_zero.
      split; [reflexivity|]. split; [|split; [auto|]].
      + f_equal. f_equal. rewrite Spec. symmetry. apply sum_over_zero.
        intros n Hn. apply in_seq in Hn. apply sum_over_zero. intros m Hm.
        apply in_seq in Hm. apply Van; lia.
      + intros d. rewrite Dot_zero. symmetry. apply sum_over_zero.
        intros n Hn. apply in_seq in Hn. apply sum_over_zero. intros m Hm.
        apply in_seq in Hm.
        destruct (Van S1 S2 n m) as (-> & _ & _); [lia | lia | left; lia |].
        apply Dot_zero.
  Qed.

  (* The value of the potential. *)
  Theorem potential_value v uninitialized :
    v <> vector_zero ->
    exists b,
      GeneralSphericalHarmonicsPotential factor cases g v (Norm v) (Norm2 v)
        (1 / Norm v ^ 3) uninitialized =
      Some (b, spherical_harmonics factor body dI sI v) /\
      (away (Norm v) -> b = true).
  Proof.
    intros Hv. destruct (computed v uninitialized uninitialized Hv)
      as (b1 & b2 & a & _ & E & A & _).
    exists b2. split; [exact E|]. intros H. apply (A H).
  Qed.

  (* The acceleration is the opposite of its gradient. *)
  Theorem acceleration_value v uninitialized :
    v <> vector_zero ->
    exists b a,
      GeneralSphericalHarmonicsAcceleration factor cases g v (Norm v) (Norm2 v)
        (1 / Norm v ^ 3) uninitialized = Some (b, a) /\
      (away (Norm v) -> b = true) /\
      forall d,
        derivable_pt_lim
          (fun h => spherical_harmonics factor body dI sI
                                        (add3 v (scal3 h d))) 0 (- Dot a d).
  Proof.
    intros Hv. destruct (computed v uninitialized uninitialized Hv)
      as (b1 & b2 & a & E & _ & A & D).
    exists b1, a. split; [exact E|]. split; [intros H; apply (A H)|].
    intros d. rewrite D.
    set (F := fun n m => Dot (term_at factor g dI sI (surface_x body)
                (surface_y body) (polar_axis body) n m v) d).
    apply (derive_eq _ _ (sum_over (seq 2 (N - 1)) (fun n =>
             sum_over (seq 0 (n + 1)) (fun m => - F n m)))).
    - unfold spherical_harmonics. fold N.
      apply (sum_over_derive _ (fun n h => sum_over (seq 0 (n + 1)) (fun m =>
        if Nat.eqb n 2 && Nat.eqb m 1 then 0
        else harmonic factor body (surface_x body) (surface_y body)
               (polar_axis body)
               (if Nat.eqb n 2 && Nat.ltb 0 m then sI else dI n) n m
               (add3 v (scal3 h d))))).
      intros n _.
      apply (sum_over_derive _ (fun m h =>
        if Nat.eqb n 2 && Nat.eqb m 1 then 0
        else harmonic factor body (surface_x body) (surface_y body)
               (polar_axis body)
               (if Nat.eqb n 2 && Nat.ltb 0 m then sI else dI n) n m
               (add3 v (scal3 h d)))).
      intros m _.
      apply (derive_ext (fun h => component factor g dI sI (surface_x body)
        (surface_y body) (polar_axis body) n m (add3 v (scal3 h d)))).
      { intros h. apply component_is. }
      apply term_gradient; [apply oriented | exact Hv | apply inner_nonnegative].
    - assert (Opp : forall l f, sum_over l (fun i => - f i) = - sum_over l f).
      { clear. induction l as [|a l IH]; intros f; cbn; [ring|].
        unfold sum_over in IH. rewrite IH. ring. }
      rewrite <- Opp. apply sum_over_ext. intros n _. apply Opp.
  Qed.
End Field.
