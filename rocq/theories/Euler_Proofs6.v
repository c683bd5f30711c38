(* There are elliptic functions: the integrals are those of Riemann, the amplitude is the inverse of the first one. *)
From Coq Require Import Reals Lra.
From Verif Require Import VectorCalculus_Proofs.
From Verif Require Import Euler_Model Euler_Spec Euler_Proofs2.
Local Open Scope R_scope.

(* The primitive of a continuous function. *)
Section Primitive.
Variable f : R -> R.
Hypothesis C : continuity f.
Definition integrable (x : R) : Riemann_integrable f 0 x :=
  match Rle_dec 0 x with
  | left h => @continuity_implies_RiemannInt f 0 x h (fun y _ => C y)
  | right h => RiemannInt_P1 (@continuity_implies_RiemannInt f x 0 (Rlt_le _ _ (Rnot_le_lt _ _ h)) (fun y _ => C y))
  end.
Definition integral (x : R) : R := RiemannInt (integrable x).
Lemma integral_0 : integral 0 = 0.
Proof. apply RiemannInt_P9. Qed.
Lemma integral_derivative x : derivable_pt_lim integral x (f x).
Proof.
  set (M := Rabs x + 1). assert (MP : 0 < M) by (unfold M; pose proof (Rabs_pos x); lra).
  assert (MX : - M < x < M) by (unfold M, Rabs; destruct (Rcase_abs x); lra).
  assert (h : - M <= M) by lra.
  assert (C0 : forall y, - M <= y <= M -> continuity_pt f y) by (intros; apply C).
  pose proof (@RiemannInt_P28 f (- M) M x h C0 (conj (Rlt_le _ _ (proj1 MX)) (Rlt_le _ _ (proj2 MX)))) as D.
  set (pr := FTC_P1 h C0) in *.
  assert (K : forall y, - M < y < M -> integral y = primitive h pr y - primitive h pr 0).
  { intros y Y. unfold primitive. destruct (Rle_dec (- M) y) as [r|?]; [|lra]. destruct (Rle_dec y M) as [r0|?]; [|lra].
    destruct (Rle_dec (- M) 0) as [q|?]; [|lra]. destruct (Rle_dec 0 M) as [q0|?]; [|lra].
    pose proof (RiemannInt_P26 (pr 0 q q0) (integrable y) (pr y r r0)) as S. unfold integral. lra. }
  intros eps EP. destruct (D eps EP) as [d Hd].
  set (e := Rmin d (Rmin (M - x) (x + M))).
  assert (EPos : 0 < e) by (unfold e; repeat apply Rmin_glb_lt; try lra; apply (cond_pos d)).
  exists (mkposreal e EPos). intros k K0 KE. cbn [pos] in KE.
  assert (L1 : Rabs k < d) by (apply Rlt_le_trans with e; [exact KE|apply Rmin_l]).
  assert (L2 : Rabs k < M - x) by (apply Rlt_le_trans with e; [exact KE|]; eapply Rle_trans; [apply Rmin_r|apply Rmin_l]).
  assert (L3 : Rabs k < x + M) by (apply Rlt_le_trans with e; [exact KE|]; eapply Rle_trans; [apply Rmin_r|apply Rmin_r]).
  assert (Y : - M < x + k < M) by (unfold Rabs in L2, L3; destruct (Rcase_abs k); lra).
  rewrite (K _ Y), (K _ MX). replace (primitive h pr (x + k) - primitive h pr 0 - (primitive h pr x - primitive h pr 0))
    with (primitive h pr (x + k) - primitive h pr x) by ring. now apply Hd.
Qed.
End Primitive.

(* The inverse of a function whose derivative is at least 1. *)
Section Inverse.
Variable F F' : R -> R.
Hypothesis D : forall x, derivable_pt_lim F x (F' x).
Hypothesis ONE : forall x, 1 <= F' x.
Hypothesis ZERO : F 0 = 0.
Lemma F_continuous : continuity F.
Proof. apply derivable_continuous. intros x. exists (F' x). apply D. Qed.
Lemma F_slope x y : x <= y -> y - x <= F y - F x.
Proof.
  intros XY. assert (D' : forall t, derivable_pt_lim (fun t => F t - t) t (F' t - 1)) by (intros t; apply d_minus; [apply D|apply d_id]).
  assert (pr : derivable (fun t => F t - t)) by (intros t; eexists; apply D').
  pose proof (nonneg_derivative_1 (fun t => F t - t) pr) as N.
  assert (I : increasing (fun t => F t - t)).
  { apply N. intros t. rewrite (derive_pt_eq_0 _ _ _ (pr t) (D' t)). pose proof (ONE t). lra. }
  pose proof (I x y XY) as J. cbn beta in J. lra.
Qed.
Lemma F_injective x y : F x = F y -> x = y.
Proof.
  intros E. destruct (Rle_dec x y) as [H|H].
  - pose proof (F_slope x y H). lra.
  - pose proof (F_slope y x ltac:(lra)). lra.
Qed.
Lemma F_bounds u : (F (- Rabs u) - u) * (F (Rabs u) - u) <= 0.
Proof.
  pose proof (F_slope 0 (Rabs u) (Rabs_pos u)) as A. pose proof (F_slope (- Rabs u) 0 ltac:(pose proof (Rabs_pos u); lra)) as B.
  rewrite ZERO in *. pose proof (Rle_abs u) as P. pose proof (Rle_abs (- u)) as Q. rewrite Rabs_Ropp in Q.
  assert (X : 0 <= - (F (- Rabs u) - u)) by lra. assert (Y : 0 <= F (Rabs u) - u) by lra.
  pose proof (Rmult_le_pos _ _ X Y). lra.
Qed.
Lemma abs_order u : - Rabs u <= Rabs u.
Proof. pose proof (Rabs_pos u). lra. Qed.
Definition root (u : R) : {z : R | - Rabs u <= z <= Rabs u /\ F z - u = 0} :=
  IVT_cor (fun z => F z - u) (- Rabs u) (Rabs u)
    (continuity_minus F (fun _ => u) F_continuous (continuity_const (fun _ => u) (fun _ _ => eq_refl)))
    (abs_order u) (F_bounds u).
Definition inverse (u : R) : R := proj1_sig (root u).
Lemma F_inverse u : F (inverse u) = u.
Proof. unfold inverse. pose proof (proj2 (proj2_sig (root u))) as Z. cbn beta in Z. lra. Qed.
Lemma inverse_F x : inverse (F x) = x.
Proof. apply F_injective, F_inverse. Qed.
Lemma inverse_derivative u : derivable_pt_lim inverse u (/ F' (inverse u)).
Proof.
  intros eps EP. destruct (D (inverse u) eps EP) as [d Hd]. exists d. intros h H0 HD.
  set (a := inverse u) in *. set (k := inverse (u + h) - a).
  assert (E : F (a + k) - F a = h).
  { unfold k, a. replace (inverse u + (inverse (u + h) - inverse u)) with (inverse (u + h)) by ring. rewrite !F_inverse. ring. }
  assert (K0 : k <> 0) by (intros Z; rewrite Z, Rplus_0_r in E; lra).
  assert (SL : 1 <= (F (a + k) - F a) / k /\ Rabs k <= Rabs h).
  { rewrite <- E. destruct (Rdichotomy _ _ K0) as [N|N].
    - pose proof (F_slope (a + k) a ltac:(lra)) as S. split.
      + apply (Rmult_le_reg_r (- k)); [lra|]. replace ((F (a + k) - F a) / k * - k) with (F a - F (a + k)) by (field; exact K0). lra.
      + rewrite (Rabs_left k), (Rabs_left1 (F (a + k) - F a)) by lra. lra.
    - pose proof (F_slope a (a + k) ltac:(lra)) as S. split.
      + apply (Rmult_le_reg_r k); [lra|]. replace ((F (a + k) - F a) / k * k) with (F (a + k) - F a) by (field; exact K0). lra.
      + rewrite (Rabs_right k), (Rabs_right (F (a + k) - F a)) by lra. lra. }
  destruct SL as (G1 & KH). specialize (Hd k K0 ltac:(lra)). set (g := (F (a + k) - F a) / k) in *. pose proof (ONE a) as L1.
  assert (Q : (inverse (u + h) - a) / h = / g).
  { unfold g. fold k. rewrite E. field. split; [exact K0|exact H0]. }
  match goal with |- Rabs (?x - _) < _ => replace x with (/ g) end. replace (/ g - / F' a) with (- (g - F' a) * (/ g * / F' a)) by (field; lra).
  rewrite Rabs_mult, Rabs_Ropp.
  assert (B : Rabs (/ g * / F' a) <= 1).
  { rewrite Rabs_right; [|apply Rle_ge, Rmult_le_pos; left; apply Rinv_0_lt_compat; lra].
    replace 1 with (/ 1 * / 1) by field. apply Rmult_le_compat; try (left; apply Rinv_0_lt_compat; lra); apply Rinv_le_contravar; lra. }
  apply Rle_lt_trans with (Rabs (g - F' a) * 1); [|lra]. apply Rmult_le_compat_l; [apply Rabs_pos|exact B].
Qed.
Lemma inverse_odd : (forall x, F' (- x) = F' x) -> forall u, inverse (- u) = - inverse u.
Proof.
  intros EVEN u. apply F_injective. rewrite F_inverse.
  assert (ODD : forall x, F (- x) + F x = F (- 0) + F 0).
  { intros x. apply (constant_function (fun x => F (- x) + F x)). intros t.
    eapply d_eq; [apply d_plus; [apply (d_comp (fun t => - t) F); [apply d_opp, d_id|apply D]|apply D]|]. rewrite EVEN. ring. }
  rewrite Ropp_0 in ODD. specialize (ODD (inverse u)). rewrite F_inverse, ZERO in ODD. lra.
Qed.
End Inverse.

(* The integrands, for parameters in the domains of interest. *)
Definition parameter (mc : R) : R := if Rlt_dec 0 mc then if Rle_dec mc 1 then mc else 1 else 1.
Definition characteristic (n : R) : R := if Rle_dec n 0 then n else 0.
Lemma parameter_range mc : 0 < parameter mc <= 1.
Proof. unfold parameter. destruct (Rlt_dec 0 mc); [destruct (Rle_dec mc 1)|]; lra. Qed.
Lemma parameter_eq mc : 0 < mc <= 1 -> parameter mc = mc.
Proof. intros M. unfold parameter. destruct (Rlt_dec 0 mc); [destruct (Rle_dec mc 1)|]; lra. Qed.
Lemma characteristic_range n : characteristic n <= 0.
Proof. unfold characteristic. destruct (Rle_dec n 0); lra. Qed.
Lemma characteristic_eq n : n <= 0 -> characteristic n = n.
Proof. intros N. unfold characteristic. destruct (Rle_dec n 0); lra. Qed.
Definition delta (mc phi : R) : R := sqrt (1 - (1 - parameter mc) * (sin phi * sin phi)).
Definition first_integrand (mc phi : R) : R := / delta mc phi.
Definition third_integrand (n mc phi : R) : R := / ((1 - characteristic n * (sin phi * sin phi)) * delta mc phi).
Lemma delta_range mc phi : 0 < 1 - (1 - parameter mc) * (sin phi * sin phi) <= 1.
Proof.
  pose proof (parameter_range mc) as P. pose proof (sin2_cos2 phi) as Q. unfold Rsqr in Q. pose proof (Rle_0_sqr (sin phi)) as S. pose proof (Rle_0_sqr (cos phi)) as S'.
  unfold Rsqr in S, S'. assert (A : 0 <= (1 - parameter mc) * (sin phi * sin phi)) by (apply Rmult_le_pos; lra).
  assert (B : (1 - parameter mc) * (sin phi * sin phi) <= (1 - parameter mc) * 1) by (apply Rmult_le_compat_l; lra). lra.
Qed.
Lemma delta_pos mc phi : 0 < delta mc phi <= 1.
Proof.
  pose proof (delta_range mc phi) as R. unfold delta. split; [apply sqrt_lt_R0; lra|]. apply Rle_trans with (sqrt 1); [apply sqrt_le_1; lra|rewrite sqrt_1; lra].
Qed.
Lemma c_sin : continuity sin.
Proof. apply derivable_continuous, derivable_sin. Qed.
Lemma delta_continuous mc : continuity (delta mc).
Proof.
  intros phi. unfold delta. apply (continuity_pt_comp (fun phi => 1 - (1 - parameter mc) * (sin phi * sin phi)) sqrt).
  - apply continuity_pt_minus; [apply continuity_pt_const; now intros ? ?|].
    apply continuity_pt_mult; [apply continuity_pt_const; now intros ? ?|]. apply continuity_pt_mult; apply c_sin.
  - apply continuity_pt_sqrt. pose proof (delta_range mc phi). lra.
Qed.
Lemma first_continuous mc : continuity (first_integrand mc).
Proof. intros phi. apply continuity_pt_inv; [apply delta_continuous|]. pose proof (delta_pos mc phi). lra. Qed.
Lemma third_pos n phi : 1 <= 1 - characteristic n * (sin phi * sin phi).
Proof.
  pose proof (characteristic_range n) as N. pose proof (Rle_0_sqr (sin phi)) as S. unfold Rsqr in S.
  assert (0 <= - characteristic n * (sin phi * sin phi)) by (apply Rmult_le_pos; lra). lra.
Qed.
Lemma third_continuous n mc : continuity (third_integrand n mc).
Proof.
  intros phi. apply (continuity_pt_inv (fun phi => (1 - characteristic n * (sin phi * sin phi)) * delta mc phi)).
  - apply continuity_pt_mult; [|apply delta_continuous]. apply continuity_pt_minus; [apply continuity_pt_const; now intros ? ?|].
    apply continuity_pt_mult; [apply continuity_pt_const; now intros ? ?|]. apply continuity_pt_mult; apply c_sin.
  - pose proof (third_pos n phi) as A. pose proof (delta_pos mc phi) as B. apply Rgt_not_eq, Rmult_lt_0_compat; lra.
Qed.
Definition the_F (mc : R) : R -> R := integral (first_integrand mc) (first_continuous mc).
Lemma the_F_derivative mc x : derivable_pt_lim (the_F mc) x (first_integrand mc x).
Proof. apply integral_derivative. Qed.
Lemma first_one mc x : 1 <= first_integrand mc x.
Proof. unfold first_integrand. pose proof (delta_pos mc x). rewrite <- Rinv_1. apply Rinv_le_contravar; lra. Qed.
Lemma the_F_0 mc : the_F mc 0 = 0.
Proof. apply integral_0. Qed.
Definition the_am (mc : R) : R -> R := inverse (the_F mc) (first_integrand mc) (the_F_derivative mc) (first_one mc) (the_F_0 mc).
Definition the_elliptic : elliptic :=
  Elliptic (fun phi mc => the_F mc phi) (fun phi n mc => integral (third_integrand n mc) (third_continuous n mc) phi)
    (fun u mc => the_am mc u) (fun u mc => sin (the_am mc u)) (fun u mc => cos (the_am mc u)) (fun u mc => delta mc (the_am mc u)).
Lemma elliptic_exists : elliptic_functions the_elliptic.
Proof.
  intros mc M d. assert (DE : forall phi, delta mc phi = d phi) by (intros phi; unfold delta, d; now rewrite parameter_eq).
  unfold the_elliptic. cbn [JacobiAmplitude EllipticF JacobiSN JacobiCN JacobiDN EllipticPi]. split; [|split; [|split; [|split]]].
  - intros u. apply (d_eq _ _ (/ first_integrand mc (the_am mc u))); [apply inverse_derivative|].
    rewrite <- DE. unfold first_integrand. pose proof (delta_pos mc (the_am mc u)). apply Rinv_inv.
  - intros u. apply inverse_odd. intros x. unfold first_integrand, delta. rewrite sin_neg. do 2 f_equal. ring.
  - intros phi. apply inverse_F.
  - intros u. repeat split. apply DE.
  - intros n phi N. eapply d_eq; [apply integral_derivative|]. unfold third_integrand. now rewrite characteristic_eq, DE.
Qed.
