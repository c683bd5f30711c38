(** The motion along an orbit: the anomalies. *)
From Coq Require Import Reals Lra Lia List Bool.
From Verif Require Import Geometry_Model Geometry_Proofs Geometry_Proofs2 VectorCalculus_Proofs RotatingBody_Model RotatingBody_Proofs
  Kepler_Model Kepler_Proofs Kepler_Proofs4.
Import ListNotations.
Open Scope R_scope.

(** The state when the cosine and sine of the true anomaly are [C] and [S]. *)
Definition kepler_cs (mu e l i Omega w C S : R) : R3 * R3 :=
  (oriented Omega i w (mk3 (l * C / (1 + e * C)) (l * S / (1 + e * C)) 0),
   oriented Omega i w (mk3 (- sqrt (mu / l) * S) (sqrt (mu / l) * (e + C)) 0)).
Lemma kepler_state_cs mu e l i Omega w nu : kepler_state mu e l i Omega w nu = kepler_cs mu e l i Omega w (cos nu) (sin nu).
Proof. reflexivity. Qed.

(** ** Rotations *)
Lemma trig1 a : sin a * sin a = 1 - cos a * cos a.
Proof. pose proof (sin2_cos2 a) as Q. unfold Rsqr in Q. lra. Qed.
Lemma oriented_scal Omega i w a u : oriented Omega i w (scal3 a u) = scal3 a (oriented Omega i w u).
Proof. rewrite <- !oriented_rotate. apply rotate_scal. Qed.
Lemma oriented_norm Omega i w u : Norm (oriented Omega i w u) = Norm u.
Proof.
  unfold Norm, Norm2. f_equal. unfold oriented. destruct u as [x y z]. unfold rot_z, rot_x, Dot. cbn [cx cy cz].
  pose proof (trig1 Omega) as A. pose proof (trig1 i) as B. pose proof (trig1 w) as C. ring [A B C].
Qed.
Lemma oriented_derivative Omega i w f t f' : has_derivative f t f' ->
  has_derivative (fun s => oriented Omega i w (f s)) t (oriented Omega i w f').
Proof.
  intros (X & Y & Z). unfold oriented, rot_z, rot_x, has_derivative. cbn [cx cy cz].
  assert (L : forall a f f', derivable_pt_lim f t f' -> derivable_pt_lim (fun s => a * f s) t (a * f')).
  { intros a g g' G. eapply d_eq; [apply (d_mult (fun _ => a) g); [apply d_const|exact G]|]. ring. }
  split; [|split]; repeat first [exact X | exact Y | exact Z | apply L | apply (d_minus (fun s => _) (fun s => _))
                                | apply (d_plus (fun s => _) (fun s => _))].
Qed.

(** ** The law of areas suffices *)
Lemma areal_motion mu e l i Omega w C S om : 0 < mu -> 0 < l ->
  (forall t : R, C t * C t + S t * S t = 1 /\ 0 < 1 + e * C t /\
     derivable_pt_lim C t (- (S t * om t)) /\ derivable_pt_lim S t (C t * om t) /\
     om t * l = sqrt (mu / l) * (1 + e * C t) ^ 2) ->
  two_body_motion mu (fun t => fst (kepler_cs mu e l i Omega w (C t) (S t)))
                     (fun t => snd (kepler_cs mu e l i Omega w (C t) (S t))).
Proof.
  intros M L H t. destruct (H t) as (U & P & DC & DS & OM). cbn [fst snd kepler_cs].
  set (k := sqrt (mu / l)) in *. assert (K : k * k = mu / l) by (apply sqrt_sqrt, Rlt_le, Rdiv_lt_0_compat; lra). clearbody k.
  assert (MU : mu = k * k * l) by (rewrite K; field; lra).
  assert (OM' : om t = k * (1 + e * C t) ^ 2 / l) by (rewrite <- OM; field; lra).
  assert (N : Norm (mk3 (l * C t / (1 + e * C t)) (l * S t / (1 + e * C t)) 0) = l / (1 + e * C t)).
  { unfold Norm, Norm2, Dot. cbn [cx cy cz].
    replace (_ + _ + _) with ((l / (1 + e * C t)) * (l / (1 + e * C t))).
    - apply sqrt_square, Rlt_le, Rdiv_lt_0_compat; lra.
    - transitivity (l * l / ((1 + e * C t) * (1 + e * C t)) * (C t * C t + S t * S t)); [rewrite U|]; field; lra. }
  rewrite oriented_norm, N.
  assert (DI : derivable_pt_lim (fun t => / (1 + e * C t)) t (- (0 + (0 * C t + e * - (S t * om t))) / ((1 + e * C t) * (1 + e * C t)))).
  { apply (d_inv (fun t => 1 + e * C t)); [|lra]. apply (d_plus (fun _ => 1) (fun t => e * C t)); [apply d_const|].
    apply (d_mult (fun _ => e) C); [apply d_const|exact DC]. }
  assert (SS : S t * S t = 1 - C t * C t) by lra.
  split; [apply Rdiv_lt_0_compat; lra|]. split.
  - apply oriented_derivative. split; [|split]; cbn [cx cy cz].
    + eapply d_eq; [apply (d_mult (fun t => l * C t) (fun t => / (1 + e * C t)));
        [apply (d_mult (fun _ => l) C); [apply d_const|exact DC]|exact DI]|]. cbn beta.
      rewrite OM'. field. lra.
    + eapply d_eq; [apply (d_mult (fun t => l * S t) (fun t => / (1 + e * C t)));
        [apply (d_mult (fun _ => l) S); [apply d_const|exact DS]|exact DI]|]. cbn beta.
      rewrite OM'. field [SS]. lra.
    + apply d_const.
  - rewrite <- oriented_scal. apply oriented_derivative. unfold scal3. split; [|split]; cbn [cx cy cz].
    + eapply d_eq; [apply (d_mult (fun _ => - k) S); [apply d_const|exact DS]|]. cbn beta. rewrite OM', MU. field. lra.
    + eapply d_eq; [apply (d_mult (fun _ => k) (fun t => e + C t)); [apply d_const|
        apply (d_plus (fun _ => e) C); [apply d_const|exact DC]]|]. cbn beta. rewrite OM', MU. field. lra.
    + eapply d_eq; [apply d_const|]. ring.
Qed.

(** ** Ellipses *)
Definition kepler_map (e x : R) : R := x - e * sin x.
Lemma d_kepler e x : derivable_pt_lim (kepler_map e) x (1 - e * cos x).
Proof.
  unfold kepler_map. eapply d_eq.
  - apply (d_minus (fun x => x) (fun x => e * sin x)); [apply d_id|].
    apply (d_mult (fun _ => e) sin); [apply d_const|apply derivable_pt_lim_sin].
  - ring.
Qed.
Lemma kepler_slope e x : 0 <= e -> 1 - e <= 1 - e * cos x.
Proof. intros E. pose proof (COS_bound x). nra. Qed.
Lemma kepler_inj e x y : 0 <= e < 1 -> kepler_map e x = kepler_map e y -> x = y.
Proof.
  intros E H.
  assert (I : forall x y, x <= y -> (1 - e) * (y - x) <= kepler_map e y - kepler_map e x).
  { apply (increments (kepler_map e) (fun x => 1 - e * cos x)); [apply d_kepler|]. intros; now apply kepler_slope. }
  destruct (Rle_dec x y) as [L|L].
  - pose proof (I x y L). nra.
  - pose proof (I y x ltac:(lra)). nra.
Qed.
Definition eccentric_anomaly (Brent : (R -> R) -> R -> R -> R) (e m : R) : R :=
  if Req_EM_T e 0 then m else Brent (kepler_equation e m) (m - e) (m + e).
Lemma eccentric_anomaly_spec Brent e m : root_finder Brent -> 0 <= e < 1 -> kepler_map e (eccentric_anomaly Brent e m) = m.
Proof.
  intros RF E. unfold eccentric_anomaly. destruct (Req_EM_T e 0) as [->|NZ]; [unfold kepler_map; ring|].
  destruct (RF (kepler_equation e m) (m - e) (m + e)) as [_ Z].
  - apply derivable_continuous. intros x. exists (0 - (1 - e * cos x)).
    apply (d_minus (fun _ => m) (kepler_map e)); [apply d_const|apply d_kepler].
  - unfold kepler_equation. pose proof (SIN_bound (m - e)). pose proof (SIN_bound (m + e)).
    assert (A : 0 <= e * (1 + sin (m - e))) by (apply Rmult_le_pos; lra).
    assert (B : 0 <= e * (1 - sin (m + e))) by (apply Rmult_le_pos; lra).
    replace (m - (m - e - e * sin (m - e))) with (e * (1 + sin (m - e))) by ring.
    replace (m - (m + e - e * sin (m + e))) with (- (e * (1 - sin (m + e)))) by ring. nra.
  - change (m - kepler_map e (Brent (kepler_equation e m) (m - e) (m + e)) = 0) in Z. lra.
Qed.
(** The cosine and sine of the true anomaly at the eccentric anomaly [x]. *)
Definition ell_C (e x : R) : R := (cos x - e) / (1 - e * cos x).
Definition ell_S (e x : R) : R := sqrt (1 - e * e) * sin x / (1 - e * cos x).
Lemma ell_true e x : 0 <= e < 1 ->
  cos (2 * ArcTan2 (sqrt (1 + e) * sin (x / 2)) (sqrt (1 - e) * cos (x / 2))) = ell_C e x /\
  sin (2 * ArcTan2 (sqrt (1 + e) * sin (x / 2)) (sqrt (1 - e) * cos (x / 2))) = ell_S e x.
Proof.
  intros E. assert (A : 0 < sqrt (1 + e)) by (apply sqrt_lt_R0; lra). assert (B : 0 < sqrt (1 - e)) by (apply sqrt_lt_R0; lra).
  assert (A2 : sqrt (1 + e) * sqrt (1 + e) = 1 + e) by (apply sqrt_sqrt; lra).
  assert (B2 : sqrt (1 - e) * sqrt (1 - e) = 1 - e) by (apply sqrt_sqrt; lra).
  assert (AB : sqrt (1 - e * e) = sqrt (1 + e) * sqrt (1 - e)) by (rewrite <- sqrt_mult by lra; f_equal; ring).
  pose proof (trig1 (x / 2)) as T.
  assert (CX : cos x = 2 * (cos (x / 2) * cos (x / 2)) - 1).
  { replace x with (2 * (x / 2)) at 1 by field. rewrite cos_2a. lra. }
  assert (SX : sin x = 2 * sin (x / 2) * cos (x / 2)).
  { replace x with (2 * (x / 2)) at 1 by field. apply sin_2a. }
  assert (NZ : sqrt (1 - e) * cos (x / 2) <> 0 \/ sqrt (1 + e) * sin (x / 2) <> 0).
  { destruct (Req_dec (cos (x / 2)) 0) as [Z|Z].
    - right. assert (sin (x / 2) <> 0) by (intros Z'; rewrite Z, Z' in T; lra). apply Rmult_integral_contrapositive; split; lra.
    - left. apply Rmult_integral_contrapositive; split; lra. }
  destruct (double_arctan _ _ NZ) as [HC HS]. rewrite HC, HS. unfold ell_C, ell_S.
  pose proof (kepler_slope e x (proj1 E)) as P.
  replace (sqrt (1 - e) * cos (x / 2) * (sqrt (1 - e) * cos (x / 2)) + sqrt (1 + e) * sin (x / 2) * (sqrt (1 + e) * sin (x / 2)))
    with (1 - e * cos x)
    by (transitivity ((sqrt (1 - e) * sqrt (1 - e)) * (cos (x / 2) * cos (x / 2)) + (sqrt (1 + e) * sqrt (1 + e)) * (sin (x / 2) * sin (x / 2)));
        [rewrite A2, B2, T, CX; ring|ring]).
  split; f_equal.
  - transitivity ((sqrt (1 - e) * sqrt (1 - e)) * (cos (x / 2) * cos (x / 2)) - (sqrt (1 + e) * sqrt (1 + e)) * (sin (x / 2) * sin (x / 2))).
    + ring.
    + rewrite A2, B2, T, CX. ring.
  - rewrite SX, AB. ring.
Qed.
Lemma ell_cs e x : 0 <= e < 1 ->
  ell_C e x * ell_C e x + ell_S e x * ell_S e x = 1 /\ 1 + e * ell_C e x = (1 - e * e) / (1 - e * cos x).
Proof.
  intros E. pose proof (kepler_slope e x (proj1 E)) as P. unfold ell_C, ell_S.
  assert (S2 : sqrt (1 - e * e) * sqrt (1 - e * e) = 1 - e * e) by (apply sqrt_sqrt; nra).
  pose proof (trig1 x) as T. set (s := sqrt (1 - e * e)) in *. clearbody s. split; [|field; lra].
  field [T S2]. lra.
Qed.
Lemma d_ell e x : 0 <= e < 1 ->
  derivable_pt_lim (ell_C e) x (- (ell_S e x * (sqrt (1 - e * e) / (1 - e * cos x)))) /\
  derivable_pt_lim (ell_S e) x (ell_C e x * (sqrt (1 - e * e) / (1 - e * cos x))).
Proof.
  intros E. pose proof (kepler_slope e x (proj1 E)) as P.
  assert (S2 : sqrt (1 - e * e) * sqrt (1 - e * e) = 1 - e * e) by (apply sqrt_sqrt; nra).
  unfold ell_C, ell_S. set (s := sqrt (1 - e * e)) in *. clearbody s. pose proof (trig1 x) as T.
  assert (DI : derivable_pt_lim (fun x => / (1 - e * cos x)) x (- (0 - (0 * cos x + e * - sin x)) / ((1 - e * cos x) * (1 - e * cos x)))).
  { apply (d_inv (fun x => 1 - e * cos x)); [|lra]. apply (d_minus (fun _ => 1) (fun x => e * cos x)); [apply d_const|].
    apply (d_mult (fun _ => e) cos); [apply d_const|apply derivable_pt_lim_cos]. }
  split.
  - eapply d_eq; [apply (d_mult (fun x => cos x - e) (fun x => / (1 - e * cos x))); [|exact DI]|].
    + apply (d_minus cos (fun _ => e)); [apply derivable_pt_lim_cos|apply d_const].
    + cbn beta. field [S2]. lra.
  - eapply d_eq; [apply (d_mult (fun x => s * sin x) (fun x => / (1 - e * cos x))); [|exact DI]|].
    + apply (d_mult (fun _ => s) sin); [apply d_const|apply derivable_pt_lim_sin].
    + cbn beta. field [T]. lra.
Qed.

Lemma ell_motion Brent mu e l i Omega w n m t0 : root_finder Brent -> 0 < mu -> 0 <= e < 1 -> 0 < l ->
  measures mu e l mean_motion n ->
  let s t := kepler_cs mu e l i Omega w (ell_C e (eccentric_anomaly Brent e (m + n * (t - t0))))
                                        (ell_S e (eccentric_anomaly Brent e (m + n * (t - t0)))) in
  two_body_motion mu (fun t => fst (s t)) (fun t => snd (s t)).
Proof.
  intros RF M E L (_ & NP & N2) s. unfold s.
  apply (areal_motion mu e l i Omega w (fun t => ell_C e (eccentric_anomaly Brent e (m + n * (t - t0))))
           (fun t => ell_S e (eccentric_anomaly Brent e (m + n * (t - t0))))
           (fun t => (sqrt (1 - e * e) / (1 - e * cos (eccentric_anomaly Brent e (m + n * (t - t0))))) *
                     (/ (1 - e * cos (eccentric_anomaly Brent e (m + n * (t - t0)))) * n))); [exact M|exact L|].
  intros t. assert (DA : derivable_pt_lim (fun t => m + n * (t - t0)) t n).
  { eapply d_eq; [apply (d_plus (fun _ => m) (fun t => n * (t - t0))); [apply d_const|
      apply (d_mult (fun _ => n) (fun t => t - t0)); [apply d_const|apply (d_minus (fun t => t) (fun _ => t0)); [apply d_id|apply d_const]]]|]. ring. }
  assert (DE : derivable_pt_lim (fun t => eccentric_anomaly Brent e (m + n * (t - t0))) t
                 (/ (1 - e * cos (eccentric_anomaly Brent e (m + n * (t - t0)))) * n)).
  { apply (d_comp (fun t => m + n * (t - t0)) (eccentric_anomaly Brent e)); [exact DA|].
    apply (inverse_derivative (kepler_map e) (fun x => 1 - e * cos x) (1 - e)); [lra|apply d_kepler| |].
    - intros. apply kepler_slope. lra.
    - intros. now apply eccentric_anomaly_spec. }
  cbn beta. set (x := eccentric_anomaly Brent e (m + n * (t - t0))) in *.
  destruct (ell_cs e x E) as [U P]. destruct (d_ell e x E) as [D1 D2]. pose proof (kepler_slope e x (proj1 E)) as K.
  split; [exact U|]. split; [rewrite P; apply Rdiv_lt_0_compat; nra|]. split; [|split].
  - eapply d_eq; [apply (d_comp (fun t => eccentric_anomaly Brent e (m + n * (t - t0))) (ell_C e)); [exact DE|exact D1]|]. ring.
  - eapply d_eq; [apply (d_comp (fun t => eccentric_anomaly Brent e (m + n * (t - t0))) (ell_S e)); [exact DE|exact D2]|]. ring.
  - rewrite P.
    assert (NS : n * l = sqrt (mu / l) * sqrt (1 - e * e) * (1 - e * e)).
    { apply Rsqr_inj; [nra| |].
      - repeat apply Rmult_le_pos; try apply sqrt_pos. nra.
      - unfold Rsqr. transitivity ((sqrt (mu / l) * sqrt (mu / l)) * (sqrt (1 - e * e) * sqrt (1 - e * e)) * (1 - e * e) ^ 2); [|ring].
        rewrite !sqrt_sqrt by (try apply Rlt_le, Rdiv_lt_0_compat; nra).
        apply (Rmult_eq_reg_r l); [|lra]. transitivity (n ^ 2 * l ^ 3); [ring|]. rewrite N2. field. lra. }
    transitivity (n * l * sqrt (1 - e * e) / (1 - e * cos x) ^ 2); [field; lra|]. rewrite NS.
    transitivity (sqrt (mu / l) * (sqrt (1 - e * e) * sqrt (1 - e * e)) * (1 - e * e) / (1 - e * cos x) ^ 2); [field; lra|].
    rewrite sqrt_sqrt by nra. field. lra.
Qed.

(** From the true anomaly to the eccentric anomaly. *)
Lemma ell_from_true e nu : 0 <= e < 1 ->
  ell_C e (ArcTan2 (sqrt (1 - e * e) * sin nu) (e + cos nu)) = cos nu /\
  ell_S e (ArcTan2 (sqrt (1 - e * e) * sin nu) (e + cos nu)) = sin nu.
Proof.
  intros E. assert (S2 : sqrt (1 - e * e) * sqrt (1 - e * e) = 1 - e * e) by (apply sqrt_sqrt; nra).
  assert (SP : 0 < sqrt (1 - e * e)) by (apply sqrt_lt_R0; nra). pose proof (trig1 nu) as T. pose proof (COS_bound nu) as B.
  assert (P : 0 < 1 + e * cos nu) by nra.
  unfold ell_C, ell_S. set (s := sqrt (1 - e * e)) in *. clearbody s.
  assert (RR : (e + cos nu) * (e + cos nu) + s * sin nu * (s * sin nu) = (1 + e * cos nu) * (1 + e * cos nu)).
  { transitivity ((e + cos nu) * (e + cos nu) + s * s * (sin nu * sin nu)); [ring|]. rewrite S2, T. ring. }
  assert (NZ : e + cos nu <> 0 \/ s * sin nu <> 0).
  { destruct (Req_dec (e + cos nu) 0) as [Z|Z]; [right|left; exact Z]. intros Z'. rewrite Z, Z' in RR. nra. }
  destruct (arctan2_polar _ _ NZ) as (_ & X & Y). rewrite RR, sqrt_square in X, Y by lra.
  set (x := ArcTan2 (s * sin nu) (e + cos nu)) in *. clearbody x.
  assert (CX : cos x = (e + cos nu) / (1 + e * cos nu)) by (rewrite X at 1; field; lra).
  assert (SX : sin x = s * sin nu / (1 + e * cos nu)) by (rewrite Y; field; lra).
  assert (Q : 1 - e * cos x = (1 - e * e) / (1 + e * cos nu)) by (rewrite CX; field; lra).
  rewrite Q, CX, SX. assert (1 - e * e <> 0) by nra. split; [field; split; lra|].
  transitivity (s * s * sin nu / (1 - e * e)); [field; split; lra|]. rewrite S2. field. lra.
Qed.
Lemma ell_period e x : kepler_map e (x + 2 * PI) = kepler_map e x + 2 * PI /\
  ell_C e (x + 2 * PI) = ell_C e x /\ ell_S e (x + 2 * PI) = ell_S e x.
Proof.
  unfold kepler_map, ell_C, ell_S.
  assert (A : cos (x + 2 * PI) = cos x) by (replace (2 * PI) with (2 * INR 1 * PI) by (cbn; ring); apply cos_period).
  assert (B : sin (x + 2 * PI) = sin x) by (replace (2 * PI) with (2 * INR 1 * PI) by (cbn; ring); apply sin_period).
  rewrite A, B. repeat split; ring.
Qed.

(** ** Hyperbolas *)
Definition hyp_map (e x : R) : R := e * sinh x - x.
Lemma hyp1 x : sinh x * sinh x = cosh x * cosh x - 1.
Proof.
  unfold sinh, cosh. rewrite exp_Ropp. pose proof (exp_pos x). field. lra.
Qed.
Lemma cosh_ge x : 1 <= cosh x.
Proof.
  pose proof (hyp1 x). assert (0 < cosh x) by (unfold cosh; pose proof (exp_pos x); pose proof (exp_pos (- x)); lra). nra.
Qed.
Lemma d_hyp e x : derivable_pt_lim (hyp_map e) x (e * cosh x - 1).
Proof.
  unfold hyp_map. eapply d_eq.
  - apply (d_minus (fun x => e * sinh x) (fun x => x)); [|apply d_id].
    apply (d_mult (fun _ => e) sinh); [apply d_const|apply derivable_pt_lim_sinh].
  - ring.
Qed.
Lemma hyp_slope e x : 1 < e -> e - 1 <= e * cosh x - 1.
Proof. intros E. pose proof (cosh_ge x). nra. Qed.
Lemma hyp_increments e : 1 < e -> forall x y, x <= y -> (e - 1) * (y - x) <= hyp_map e y - hyp_map e x.
Proof. intros E. apply (increments (hyp_map e) (fun x => e * cosh x - 1)); [apply d_hyp|]. intros; now apply hyp_slope. Qed.
Lemma hyp_inj e x y : 1 < e -> hyp_map e x = hyp_map e y -> x = y.
Proof.
  intros E H. pose proof (hyp_increments e E) as I. destruct (Rle_dec x y) as [L|L].
  - pose proof (I x y L). nra.
  - pose proof (I y x ltac:(lra)). nra.
Qed.
Definition hyperbolic_anomaly (Brent : (R -> R) -> R -> R -> R) (e m : R) : R :=
  Brent (hyperbolic_kepler_equation e m) 0 (m / (e - 1)).
Lemma hyp_map_0 e : hyp_map e 0 = 0.
Proof. unfold hyp_map. rewrite sinh_0. ring. Qed.
Lemma hyperbolic_anomaly_spec Brent e m : root_finder Brent -> 1 < e -> hyp_map e (hyperbolic_anomaly Brent e m) = m.
Proof.
  intros RF E. unfold hyperbolic_anomaly.
  destruct (RF (hyperbolic_kepler_equation e m) 0 (m / (e - 1))) as [_ Z].
  - apply derivable_continuous. intros x. exists (0 - (e * cosh x - 1)).
    apply (d_minus (fun _ => m) (hyp_map e)); [apply d_const|apply d_hyp].
  - change (hyperbolic_kepler_equation e m 0) with (m - hyp_map e 0).
    change (hyperbolic_kepler_equation e m (m / (e - 1))) with (m - hyp_map e (m / (e - 1))).
    rewrite hyp_map_0. pose proof (hyp_increments e E) as I.
    assert (Q : (e - 1) * (m / (e - 1)) = m) by (field; lra).
    destruct (Rle_dec 0 m) as [P|P].
    + assert (U : 0 <= m / (e - 1)) by (apply Rmult_le_pos; [lra|apply Rlt_le, Rinv_0_lt_compat; lra]).
      pose proof (I 0 (m / (e - 1)) U) as J. rewrite hyp_map_0 in J. nra.
    + assert (U : m / (e - 1) <= 0).
      { apply (Rmult_le_reg_l (e - 1)); [lra|]. rewrite Q. lra. }
      pose proof (I (m / (e - 1)) 0 U) as J. rewrite hyp_map_0 in J. nra.
  - change (m - hyp_map e (Brent (hyperbolic_kepler_equation e m) 0 (m / (e - 1))) = 0) in Z. lra.
Qed.
Definition hyp_C (e x : R) : R := (e - cosh x) / (e * cosh x - 1).
Definition hyp_S (e x : R) : R := sqrt (e * e - 1) * sinh x / (e * cosh x - 1).
Lemma hyp_true e x : 1 < e ->
  cos (2 * ArcTan2 (sqrt (e + 1) * sinh (x / 2)) (sqrt (e - 1) * cosh (x / 2))) = hyp_C e x /\
  sin (2 * ArcTan2 (sqrt (e + 1) * sinh (x / 2)) (sqrt (e - 1) * cosh (x / 2))) = hyp_S e x.
Proof.
  intros E. assert (A : 0 < sqrt (e + 1)) by (apply sqrt_lt_R0; lra). assert (B : 0 < sqrt (e - 1)) by (apply sqrt_lt_R0; lra).
  assert (A2 : sqrt (e + 1) * sqrt (e + 1) = e + 1) by (apply sqrt_sqrt; lra).
  assert (B2 : sqrt (e - 1) * sqrt (e - 1) = e - 1) by (apply sqrt_sqrt; lra).
  assert (AB : sqrt (e * e - 1) = sqrt (e + 1) * sqrt (e - 1)) by (rewrite <- sqrt_mult by lra; f_equal; ring).
  pose proof (hyp1 (x / 2)) as T.
  assert (EX : exp x = exp (x / 2) * exp (x / 2)) by (rewrite <- exp_plus; f_equal; field).
  assert (EX' : exp (- x) = exp (- (x / 2)) * exp (- (x / 2))) by (rewrite <- exp_plus; f_equal; field).
  assert (EI : exp (- (x / 2)) * exp (x / 2) = 1) by (rewrite <- exp_plus, <- exp_0; f_equal; ring).
  assert (CX : cosh x = 2 * (cosh (x / 2) * cosh (x / 2)) - 1).
  { unfold cosh. rewrite EX, EX'. lra. }
  assert (SX : sinh x = 2 * sinh (x / 2) * cosh (x / 2)).
  { unfold sinh, cosh. rewrite EX, EX'. field. }
  pose proof (cosh_ge (x / 2)) as CG.
  assert (NZ : sqrt (e - 1) * cosh (x / 2) <> 0 \/ sqrt (e + 1) * sinh (x / 2) <> 0).
  { left. apply Rmult_integral_contrapositive; split; lra. }
  destruct (double_arctan _ _ NZ) as [HC HS]. rewrite HC, HS. unfold hyp_C, hyp_S.
  pose proof (hyp_slope e x E) as P.
  replace (sqrt (e - 1) * cosh (x / 2) * (sqrt (e - 1) * cosh (x / 2)) + sqrt (e + 1) * sinh (x / 2) * (sqrt (e + 1) * sinh (x / 2)))
    with (e * cosh x - 1)
    by (transitivity ((sqrt (e - 1) * sqrt (e - 1)) * (cosh (x / 2) * cosh (x / 2)) + (sqrt (e + 1) * sqrt (e + 1)) * (sinh (x / 2) * sinh (x / 2)));
        [rewrite A2, B2, T, CX; ring|ring]).
  split; f_equal.
  - transitivity ((sqrt (e - 1) * sqrt (e - 1)) * (cosh (x / 2) * cosh (x / 2)) - (sqrt (e + 1) * sqrt (e + 1)) * (sinh (x / 2) * sinh (x / 2))).
    + ring.
    + rewrite A2, B2, T, CX. ring.
  - rewrite SX, AB. ring.
Qed.
Lemma hyp_cs e x : 1 < e ->
  hyp_C e x * hyp_C e x + hyp_S e x * hyp_S e x = 1 /\ 1 + e * hyp_C e x = (e * e - 1) / (e * cosh x - 1).
Proof.
  intros E. pose proof (hyp_slope e x E) as P. unfold hyp_C, hyp_S.
  assert (S2 : sqrt (e * e - 1) * sqrt (e * e - 1) = e * e - 1) by (apply sqrt_sqrt; nra).
  pose proof (hyp1 x) as T. set (s := sqrt (e * e - 1)) in *. clearbody s. split; [|field; lra].
  field [T S2]. lra.
Qed.
Lemma d_hyp_cs e x : 1 < e ->
  derivable_pt_lim (hyp_C e) x (- (hyp_S e x * (sqrt (e * e - 1) / (e * cosh x - 1)))) /\
  derivable_pt_lim (hyp_S e) x (hyp_C e x * (sqrt (e * e - 1) / (e * cosh x - 1))).
Proof.
  intros E. pose proof (hyp_slope e x E) as P.
  assert (S2 : sqrt (e * e - 1) * sqrt (e * e - 1) = e * e - 1) by (apply sqrt_sqrt; nra).
  unfold hyp_C, hyp_S. set (s := sqrt (e * e - 1)) in *. clearbody s. pose proof (hyp1 x) as T.
  assert (DI : derivable_pt_lim (fun x => / (e * cosh x - 1)) x (- ((0 * cosh x + e * sinh x) - 0) / ((e * cosh x - 1) * (e * cosh x - 1)))).
  { apply (d_inv (fun x => e * cosh x - 1)); [|lra]. apply (d_minus (fun x => e * cosh x) (fun _ => 1)); [|apply d_const].
    apply (d_mult (fun _ => e) cosh); [apply d_const|apply derivable_pt_lim_cosh]. }
  split.
  - eapply d_eq; [apply (d_mult (fun x => e - cosh x) (fun x => / (e * cosh x - 1))); [|exact DI]|].
    + apply (d_minus (fun _ => e) cosh); [apply d_const|apply derivable_pt_lim_cosh].
    + cbn beta. field [S2]. lra.
  - eapply d_eq; [apply (d_mult (fun x => s * sinh x) (fun x => / (e * cosh x - 1))); [|exact DI]|].
    + apply (d_mult (fun _ => s) sinh); [apply d_const|apply derivable_pt_lim_sinh].
    + cbn beta. field [T]. lra.
Qed.

Lemma hyp_motion Brent mu e l i Omega w n m t0 : root_finder Brent -> 0 < mu -> 1 < e -> 0 < l ->
  measures mu e l hyperbolic_mean_motion n ->
  let s t := kepler_cs mu e l i Omega w (hyp_C e (hyperbolic_anomaly Brent e (m + n * (t - t0))))
                                        (hyp_S e (hyperbolic_anomaly Brent e (m + n * (t - t0)))) in
  two_body_motion mu (fun t => fst (s t)) (fun t => snd (s t)).
Proof.
  intros RF M E L (_ & NP & N2) s. unfold s.
  apply (areal_motion mu e l i Omega w (fun t => hyp_C e (hyperbolic_anomaly Brent e (m + n * (t - t0))))
           (fun t => hyp_S e (hyperbolic_anomaly Brent e (m + n * (t - t0))))
           (fun t => (sqrt (e * e - 1) / (e * cosh (hyperbolic_anomaly Brent e (m + n * (t - t0))) - 1)) *
                     (/ (e * cosh (hyperbolic_anomaly Brent e (m + n * (t - t0))) - 1) * n))); [exact M|exact L|].
  intros t. assert (DA : derivable_pt_lim (fun t => m + n * (t - t0)) t n).
  { eapply d_eq; [apply (d_plus (fun _ => m) (fun t => n * (t - t0))); [apply d_const|
      apply (d_mult (fun _ => n) (fun t => t - t0)); [apply d_const|apply (d_minus (fun t => t) (fun _ => t0)); [apply d_id|apply d_const]]]|]. ring. }
  assert (DE : derivable_pt_lim (fun t => hyperbolic_anomaly Brent e (m + n * (t - t0))) t
                 (/ (e * cosh (hyperbolic_anomaly Brent e (m + n * (t - t0))) - 1) * n)).
  { apply (d_comp (fun t => m + n * (t - t0)) (hyperbolic_anomaly Brent e)); [exact DA|].
    apply (inverse_derivative (hyp_map e) (fun x => e * cosh x - 1) (e - 1)); [lra|apply d_hyp| |].
    - intros. apply hyp_slope. lra.
    - intros. now apply hyperbolic_anomaly_spec. }
  cbn beta. set (x := hyperbolic_anomaly Brent e (m + n * (t - t0))) in *.
  destruct (hyp_cs e x E) as [U P]. destruct (d_hyp_cs e x E) as [D1 D2]. pose proof (hyp_slope e x E) as K.
  split; [exact U|]. split; [rewrite P; apply Rdiv_lt_0_compat; nra|]. split; [|split].
  - eapply d_eq; [apply (d_comp (fun t => hyperbolic_anomaly Brent e (m + n * (t - t0))) (hyp_C e)); [exact DE|exact D1]|]. ring.
  - eapply d_eq; [apply (d_comp (fun t => hyperbolic_anomaly Brent e (m + n * (t - t0))) (hyp_S e)); [exact DE|exact D2]|]. ring.
  - rewrite P.
    assert (NS : n * l = sqrt (mu / l) * sqrt (e * e - 1) * (e * e - 1)).
    { apply Rsqr_inj; [nra| |].
      - repeat apply Rmult_le_pos; try apply sqrt_pos. nra.
      - unfold Rsqr. transitivity ((sqrt (mu / l) * sqrt (mu / l)) * (sqrt (e * e - 1) * sqrt (e * e - 1)) * (e * e - 1) ^ 2); [|ring].
        rewrite !sqrt_sqrt by (try apply Rlt_le, Rdiv_lt_0_compat; nra).
        apply (Rmult_eq_reg_r l); [|lra]. transitivity (n ^ 2 * l ^ 3); [ring|]. rewrite N2. field. lra. }
    transitivity (n * l * sqrt (e * e - 1) / (e * cosh x - 1) ^ 2); [field; lra|]. rewrite NS.
    transitivity (sqrt (mu / l) * (sqrt (e * e - 1) * sqrt (e * e - 1)) * (e * e - 1) / (e * cosh x - 1) ^ 2); [field; lra|].
    rewrite sqrt_sqrt by nra. field. lra.
Qed.

Lemma arccosh_spec x : 1 <= x -> 0 <= arccosh x /\ cosh (arccosh x) = x.
Proof.
  intros X. unfold arccosh. assert (S2 : sqrt (x * x - 1) * sqrt (x * x - 1) = x * x - 1) by (apply sqrt_sqrt; nra).
  pose proof (sqrt_pos (x * x - 1)) as SP. set (s := sqrt (x * x - 1)) in *. clearbody s. split.
  - rewrite <- ln_1. destruct (Req_dec (x + s) 1) as [->|NE]; [lra|]. apply Rlt_le, ln_increasing; lra.
  - unfold cosh. rewrite exp_Ropp, exp_ln by lra. field [S2]. lra.
Qed.
(** From the true anomaly to the hyperbolic eccentric anomaly: the sign of the sine is lost. *)
Lemma hyp_from_true e nu : 1 < e -> 0 < 1 + e * cos nu ->
  1 <= (e + cos nu) / (1 + e * cos nu) /\
  hyp_C e (arccosh ((e + cos nu) / (1 + e * cos nu))) = cos nu /\
  hyp_S e (arccosh ((e + cos nu) / (1 + e * cos nu))) = Rabs (sin nu).
Proof.
  intros E P. set (x := (e + cos nu) / (1 + e * cos nu)). pose proof (COS_bound nu) as B. pose proof (trig1 nu) as T.
  assert (X1 : x * (1 + e * cos nu) = e + cos nu) by (unfold x; field; lra).
  assert (X : 1 <= x) by (apply (Rmult_le_reg_r (1 + e * cos nu)); [exact P|]; rewrite X1; nra).
  split; [exact X|]. destruct (arccosh_spec x X) as [AP AC]. set (y := arccosh x) in *. clearbody y.
  assert (SY : 0 <= sinh y).
  { unfold sinh. assert (exp (- y) <= exp y); [|lra].
    destruct (Req_dec y 0) as [->|NZ]; [rewrite Ropp_0; lra|]. apply Rlt_le, exp_increasing. lra. }
  pose proof (hyp1 y) as H1.
  assert (S2 : sqrt (e * e - 1) * sqrt (e * e - 1) = e * e - 1) by (apply sqrt_sqrt; nra).
  assert (SP : 0 < sqrt (e * e - 1)) by (apply sqrt_lt_R0; nra).
  unfold hyp_C, hyp_S. set (s := sqrt (e * e - 1)) in *. clearbody s. rewrite AC in *.
  assert (Q : e * x - 1 = (e * e - 1) / (1 + e * cos nu)) by (unfold x; field; lra).
  assert (E2 : e * e - 1 <> 0) by nra. rewrite Q. split; [unfold x; field; split; lra|].
  assert (QP : 0 < (e * e - 1) / (1 + e * cos nu)) by (apply Rdiv_lt_0_compat; nra).
  apply Rsqr_inj.
  - apply Rmult_le_pos; [apply Rmult_le_pos; lra|apply Rlt_le, Rinv_0_lt_compat, QP].
  - apply Rabs_pos.
  - rewrite <- Rsqr_abs. unfold Rsqr. rewrite T.
    transitivity (s * s * (sinh y * sinh y) * ((1 + e * cos nu) * (1 + e * cos nu)) / ((e * e - 1) * (e * e - 1))); [field; split; lra|].
    rewrite S2, H1. unfold x. field. split; lra.
Qed.
