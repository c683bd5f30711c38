(* The derivatives of angles given by their cosines and sines, and the assembly of the attitude. *)
From Coq Require Import Reals Lra Bool.
From Verif Require Import Geometry_Model Geometry_Proofs Geometry_Proofs2 VectorCalculus_Proofs Hermite_Model RotatingBody_Model RotatingBody_Proofs.
From Verif Require Import Euler_Model Euler_Spec Euler_Proofs.
Local Open Scope R_scope.

(* The angle may jump by multiples of 2 π. *)
Definition angle_derivative (psi : R -> R) (t p : R) : Prop :=
  derivable_pt_lim (fun t => cos (psi t)) t (- p * sin (psi t)) /\
  derivable_pt_lim (fun t => sin (psi t)) t (p * cos (psi t)).

Lemma ad_eq f t p p' : angle_derivative f t p -> p = p' -> angle_derivative f t p'.
Proof. now intros ? <-. Qed.
Lemma ad_ext f g t p : (forall t, f t = g t) -> angle_derivative f t p -> angle_derivative g t p.
Proof.
  intros E (C & S). split; rewrite <- (E t); (eapply derivable_pt_lim_ext; [|eassumption]); intros s; cbn beta; now rewrite E.
Qed.
Lemma ad_lin f t f' : derivable_pt_lim f t f' -> angle_derivative f t f'.
Proof.
  intros F. split; (eapply d_eq; [apply (d_comp f); [exact F|]|]).
  - apply derivable_pt_lim_cos.
  - ring.
  - apply derivable_pt_lim_sin.
  - ring.
Qed.
Lemma ad_plus f g t p q : angle_derivative f t p -> angle_derivative g t q -> angle_derivative (fun t => f t + g t) t (p + q).
Proof.
  intros (FC & FS) (GC & GS). split.
  - eapply derivable_pt_lim_ext; [intros s; symmetry; apply cos_plus|]. rewrite sin_plus.
    eapply d_eq; [apply d_minus; apply d_mult; eassumption|]. cbn beta. ring.
  - eapply derivable_pt_lim_ext; [intros s; symmetry; apply sin_plus|]. rewrite cos_plus.
    eapply d_eq; [apply d_plus; apply d_mult; eassumption|]. cbn beta. ring.
Qed.
Lemma ad_opp f t p : angle_derivative f t p -> angle_derivative (fun t => - f t) t (- p).
Proof.
  intros (FC & FS). split.
  - eapply derivable_pt_lim_ext; [intros s; symmetry; apply cos_neg|]. rewrite sin_neg. eapply d_eq; [exact FC|]. ring.
  - eapply derivable_pt_lim_ext; [intros s; symmetry; apply sin_neg|]. rewrite cos_neg.
    eapply d_eq; [apply d_opp; exact FS|]. ring.
Qed.
Lemma ad_arctan2 x y t x' y' : (forall t, 0 < x t * x t + y t * y t) ->
  derivable_pt_lim x t x' -> derivable_pt_lim y t y' ->
  angle_derivative (fun t => ArcTan2 (y t) (x t)) t ((x t * y' - y t * x') / (x t * x t + y t * y t)).
Proof.
  intros P X Y. set (rho := fun t => sqrt (x t * x t + y t * y t)).
  assert (RP : forall s, 0 < rho s) by (intros s; now apply sqrt_lt_R0).
  assert (RS : forall s, rho s * rho s = x s * x s + y s * y s) by (intros s; apply sqrt_sqrt; left; apply P).
  assert (K : forall s, x s = rho s * cos (ArcTan2 (y s) (x s)) /\ y s = rho s * sin (ArcTan2 (y s) (x s))).
  { intros s. apply arctan2_polar. destruct (Req_dec (x s) 0) as [E|E]; [|now left]. right. intros E'.
    specialize (P s). rewrite E, E' in P. lra. }
  assert (D : derivable_pt_lim rho t ((x t * x' + y t * y') / rho t)).
  { eapply d_eq; [apply (d_comp (fun t => x t * x t + y t * y t) sqrt)|].
    - apply d_plus; apply d_mult; eassumption.
    - apply derivable_pt_lim_sqrt, P.
    - cbn beta. fold (rho t). field. apply Rgt_not_eq, RP. }
  pose proof (d_inv rho t _ D (Rgt_not_eq _ _ (RP t))) as DI.
  destruct (K t) as (KX & KY). pose proof (RS t) as RSt. pose proof (Rgt_not_eq _ _ (RP t)) as RN. rewrite <- RSt. split.
  - apply (derivable_pt_lim_ext (fun s => x s * / rho s)).
    { intros s. cbn beta. destruct (K s) as (E & _). rewrite E at 1. pose proof (RP s). field. lra. }
    eapply d_eq; [apply d_mult; [exact X|exact DI]|]. cbn beta.
    replace (sin (ArcTan2 (y t) (x t))) with (y t / rho t) by (rewrite KY at 1; field; exact RN).
    apply (Rmult_eq_reg_r (rho t * rho t * rho t)); [|now repeat apply Rmult_integral_contrapositive_currified].
    transitivity (x' * (rho t * rho t) - x t * (x t * x' + y t * y')); [field; exact RN|].
    transitivity (- (x t * y' - y t * x') * y t); [rewrite RSt; ring|field; exact RN].
  - apply (derivable_pt_lim_ext (fun s => y s * / rho s)).
    { intros s. cbn beta. destruct (K s) as (_ & E). rewrite E at 1. pose proof (RP s). field. lra. }
    eapply d_eq; [apply d_mult; [exact Y|exact DI]|]. cbn beta.
    replace (cos (ArcTan2 (y t) (x t))) with (x t / rho t) by (rewrite KX at 1; field; exact RN).
    apply (Rmult_eq_reg_r (rho t * rho t * rho t)); [|now repeat apply Rmult_integral_contrapositive_currified].
    transitivity (y' * (rho t * rho t) - y t * (x t * x' + y t * y')); [field; exact RN|].
    transitivity ((x t * y' - y t * x') * x t); [rewrite RSt; ring|field; exact RN].
Qed.

(* 𝒴ₜ. *)
Lemma normalize_axis1 : Normalize axis1 = axis1.
Proof.
  unfold Normalize, axis1, Norm, Norm2. red_all. replace (1 * 1 + 0 * 0 + 0 * 0) with 1 by ring. rewrite sqrt_1.
  apply mk3_eq; field.
Qed.
Lemma normalize_axis3 : Normalize axis3 = axis3.
Proof.
  unfold Normalize, axis3, Norm, Norm2. red_all. replace (0 * 0 + 0 * 0 + 1 * 1) with 1 by ring. rewrite sqrt_1.
  apply mk3_eq; field.
Qed.
Definition Y1 (c s : R) (u : R3) : R3 := mk3 (cx u) (c * cy u - s * cz u) (s * cy u + c * cz u).
Definition Y3 (c s : R) (u : R3) : R3 := mk3 (c * cx u - s * cy u) (s * cx u + c * cy u) (cz u).
Lemma half_angles a : cos a = 1 - 2 * (sin (/ 2 * a) * sin (/ 2 * a)) /\ sin a = 2 * sin (/ 2 * a) * cos (/ 2 * a).
Proof.
  replace a with (2 * (/ 2 * a)) at 1 by field. replace (sin a) with (sin (2 * (/ 2 * a))) by (f_equal; field).
  rewrite cos_2a_sin, sin_2a. split; ring.
Qed.
Lemma rotate_Y1 psi u : unit_q (RotAxisDefinesFrom psi axis1) /\ rotate (RotAxisDefinesFrom psi axis1) u = Y1 (cos psi) (sin psi) u.
Proof.
  unfold RotAxisDefinesFrom, AngleAxis. rewrite normalize_axis1. destruct (half_angles psi) as (-> & ->).
  pose proof (sin2_cos2 (/ 2 * psi)) as Q. unfold Rsqr in Q. set (c := cos (/ 2 * psi)) in *. set (s := sin (/ 2 * psi)) in *.
  clearbody c s. destruct u as [u1 u2 u3]. unfold axis1, Y1. red_all. split; [lra|]. apply mk3_eq; ring.
Qed.
Lemma rotate_Y3 psi u : unit_q (RotAxisDefinesFrom psi axis3) /\ rotate (RotAxisDefinesFrom psi axis3) u = Y3 (cos psi) (sin psi) u.
Proof.
  unfold RotAxisDefinesFrom, AngleAxis. rewrite normalize_axis3. destruct (half_angles psi) as (-> & ->).
  pose proof (sin2_cos2 (/ 2 * psi)) as Q. unfold Rsqr in Q. set (c := cos (/ 2 * psi)) in *. set (s := sin (/ 2 * psi)) in *.
  clearbody c s. destruct u as [u1 u2 u3]. unfold axis3, Y3. red_all. split; [lra|]. apply mk3_eq; ring.
Qed.
Lemma d_Y1 psi f t p f' : angle_derivative psi t p -> has_derivative f t f' ->
  has_derivative (fun t => Y1 (cos (psi t)) (sin (psi t)) (f t)) t
    (Y1 (cos (psi t)) (sin (psi t)) (add3 (scal3 p (Cross axis1 (f t))) f')).
Proof.
  intros (C & S) (F1 & F2 & F3). unfold Y1, axis1. repeat split; cbn [cx cy cz].
  - eapply d_eq; [exact F1|]. cbn beta. destruct (f t), f'. red_all. ring.
  - eapply d_eq; [apply d_minus; apply d_mult; eassumption|]. cbn beta. destruct (f t), f'. red_all. ring.
  - eapply d_eq; [apply d_plus; apply d_mult; eassumption|]. cbn beta. destruct (f t), f'. red_all. ring.
Qed.
Lemma d_Y3 psi f t p f' : angle_derivative psi t p -> has_derivative f t f' ->
  has_derivative (fun t => Y3 (cos (psi t)) (sin (psi t)) (f t)) t
    (Y3 (cos (psi t)) (sin (psi t)) (add3 (scal3 p (Cross axis3 (f t))) f')).
Proof.
  intros (C & S) (F1 & F2 & F3). unfold Y3, axis3. repeat split; cbn [cx cy cz].
  - eapply d_eq; [apply d_minus; apply d_mult; eassumption|]. cbn beta. destruct (f t), f'. red_all. ring.
  - eapply d_eq; [apply d_plus; apply d_mult; eassumption|]. cbn beta. destruct (f t), f'. red_all. ring.
  - eapply d_eq; [exact F3|]. cbn beta. destruct (f t), f'. red_all. ring.
Qed.

(* The motion in the preferred axes, for the region e. *)
Definition is_axis (r : Region) (e : R3) : Prop := (r = e1 /\ e = axis1) \/ (r = e3 /\ e = axis3).
Lemma unit_scaled G m : 0 < G -> Norm2 m = G * G -> Norm2 (scal3 (/ G) m) = 1.
Proof. intros HG N. destruct m as [x y z]. red_all. transitivity ((x * x + y * y + z * z) / (G * G)); [field; lra|]. rewrite N. field. lra. Qed.
Lemma preferred r e G m psi t p om v (f : R -> R3) : is_axis r e -> 0 < G ->
  (forall t, Norm2 (m t) = G * G) -> (forall t, 0 < G + Dot (m t) e) ->
  has_derivative m t (Cross (m t) om) ->
  angle_derivative psi t p -> p * (G + Dot (m t) e) = Dot (m t) om + G * Dot om e ->
  has_derivative (fun t => rotate (RotAxisDefinesFrom (psi t) e) (rotate (ComputeP r G (m t)) v)) t
    (rotate (RotAxisDefinesFrom (psi t) e) (rotate (ComputeP r G (m t)) (Cross om v))) /\
  rotate (RotAxisDefinesFrom (psi t) e) (rotate (ComputeP r G (m t)) (m t)) = scal3 G e /\
  unit_q (RotAxisDefinesFrom (psi t) e) /\ unit_q (ComputeP r G (m t)).
Proof.
  intros A HG N P M AD RATE. pose proof (fun t => unit_scaled G (m t) HG (N t)) as N1.
  assert (MN : has_derivative (fun t => scal3 (/ G) (m t)) t (Cross (scal3 (/ G) (m t)) om)).
  { eapply v_eq; [apply v_scal; [apply d_const|exact M]|]. destruct (m t), om. red_all. apply mk3_eq; ring. }
  assert (HP : forall s, 1 + Dot (scal3 (/ G) (m s)) e = (G + Dot (m s) e) / G)
    by (intros s; destruct (m s), e; red_all; field; lra).
  assert (HP' : forall s, 0 < 1 + Dot (scal3 (/ G) (m s)) e) by (intros s; rewrite HP; now apply Rdiv_lt_0_compat).
  assert (PR : p = psi_rate e (scal3 (/ G) (m t)) om).
  { unfold psi_rate. rewrite HP. replace (Dot (scal3 (/ G) (m t)) om + Dot om e) with ((Dot (m t) om + G * Dot om e) / G)
      by (destruct (m t), om, e; red_all; field; lra).
    rewrite <- RATE. field. specialize (P t). split; lra. }
  pose proof (d_Pmat e _ t _ v MN (Rgt_not_eq _ _ (HP' t))) as DP.
  assert (SELF : m t = scal3 G (scal3 (/ G) (m t))) by (destruct (m t); red_all; apply mk3_eq; field; lra).
  destruct A as [(-> & ->)|(-> & ->)].
  - assert (P' : forall s, 0 < G + cx (m s)).
    { intros s. specialize (P s). unfold axis1 in P. destruct (m s). red_all. lra. }
    assert (HP1 : forall s, 0 < 1 + cx (scal3 (/ G) (m s))).
    { intros s. specialize (HP' s). unfold axis1 in HP'. destruct (m s). red_all. lra. }
    split; [|split; [|split; [apply (rotate_Y1 _ zero3)|exact (proj1 (P1 G (m t) zero3 HG (N t) (P' t)))]]].
    + apply (v_ext (fun t => Y1 (cos (psi t)) (sin (psi t)) (Pmat axis1 (scal3 (/ G) (m t)) v))).
      { intros s. now rewrite (proj2 (rotate_Y1 _ _)), (proj2 (P1 G (m s) v HG (N s) (P' s))). }
      rewrite (proj2 (rotate_Y1 _ _)), (proj2 (P1 G (m t) _ HG (N t) (P' t))).
      rewrite <- (kinematics1 _ _ _ (N1 t) (HP1 t)), <- PR. now apply d_Y1.
    + rewrite (proj2 (P1 G (m t) _ HG (N t) (P' t))), (proj2 (rotate_Y1 _ _)).
      rewrite SELF at 2. replace (Pmat axis1 (scal3 (/ G) (m t)) (scal3 G (scal3 (/ G) (m t)))) with (scal3 G axis1).
      { unfold Y1, axis1. red_all. apply mk3_eq; ring. }
      rewrite <- (Pmat1_self _ (N1 t) (HP1 t)) at 1. generalize (scal3 (/ G) (m t)). intros [a b c]. unfold Pmat, axis1. red_all. apply mk3_eq; ring.
  - assert (P' : forall s, 0 < G + cz (m s)).
    { intros s. specialize (P s). unfold axis3 in P. destruct (m s). red_all. lra. }
    assert (HP1 : forall s, 0 < 1 + cz (scal3 (/ G) (m s))).
    { intros s. specialize (HP' s). unfold axis3 in HP'. destruct (m s). red_all. lra. }
    split; [|split; [|split; [apply (rotate_Y3 _ zero3)|exact (proj1 (P3 G (m t) zero3 HG (N t) (P' t)))]]].
    + apply (v_ext (fun t => Y3 (cos (psi t)) (sin (psi t)) (Pmat axis3 (scal3 (/ G) (m t)) v))).
      { intros s. now rewrite (proj2 (rotate_Y3 _ _)), (proj2 (P3 G (m s) v HG (N s) (P' s))). }
      rewrite (proj2 (rotate_Y3 _ _)), (proj2 (P3 G (m t) _ HG (N t) (P' t))).
      rewrite <- (kinematics3 _ _ _ (N1 t) (HP1 t)), <- PR. now apply d_Y3.
    + rewrite (proj2 (P3 G (m t) _ HG (N t) (P' t))), (proj2 (rotate_Y3 _ _)).
      rewrite SELF at 2. replace (Pmat axis3 (scal3 (/ G) (m t)) (scal3 G (scal3 (/ G) (m t)))) with (scal3 G axis3).
      { unfold Y3, axis3. red_all. apply mk3_eq; ring. }
      rewrite <- (Pmat3_self _ (N1 t) (HP1 t)) at 1. generalize (scal3 (/ G) (m t)). intros [a b c]. unfold Pmat, axis3. red_all. apply mk3_eq; ring.
Qed.

(* The norm is conserved. *)
Lemma constant_function (f : R -> R) : (forall t, derivable_pt_lim f t 0) -> forall x y, f x = f y.
Proof.
  intros D. assert (pr : derivable f) by (intros t; exists 0; apply D).
  apply (null_derivative_1 f pr). intros x. apply derive_pt_eq_0, D.
Qed.
Lemma norm_conserved m om : (forall t, has_derivative m t (Cross (m t) (om t))) -> forall s t, Norm2 (m s) = Norm2 (m t).
Proof.
  intros M. apply (constant_function (fun t => Norm2 (m t))). intros t.
  eapply d_eq; [apply (v_dot m m); apply M|]. destruct (m t), (om t). red_all. ring.
Qed.
Lemma v_rotate q f t f' : has_derivative f t f' -> has_derivative (fun t => rotate q (f t)) t (rotate q f').
Proof.
  intros F. unfold rotate. eapply v_eq.
  - apply v_add; [exact F|]. apply v_scal; [apply d_const|]. apply v_cross; [apply v_const|].
    apply v_add; [apply v_cross; [apply v_const|exact F]|apply v_scal; [apply d_const|exact F]].
  - destruct (f t), f', q as [? []]. red_all. apply mk3_eq; ring.
Qed.

(* The signature. *)
Lemma sig_eq s v : sig_bivector false s v = sig_vector s v.
Proof. destruct s as [[] [] []]; reflexivity. Qed.
Lemma sig_inverse_eq s : SigInverse s = s.
Proof. now destruct s. Qed.
Lemma sig_self s v : sig_vector s (sig_vector s v) = v.
Proof. rewrite <- (sig_inverse_eq s) at 1. apply sig_inv. Qed.
Lemma sig_rotate s v : sig_valid false s -> unit_q (SigForget false s) /\ rotate (SigForget false s) v = sig_vector s v.
Proof. intros V. destruct (sig_forget false s v V) as (U & E). split; [exact U|]. now rewrite <- E, orth_vector_eq. Qed.
Lemma sig_velocity s I v : velocity I (sig_vector s v) = sig_vector s (velocity I v).
Proof. destruct s as [[] [] []], v, I; unfold velocity, sig_vector, smul; cbn; apply mk3_eq; unfold Rdiv; ring. Qed.
Lemma sig_cross' s u v : sig_valid false s -> sig_vector s (Cross u v) = Cross (sig_vector s u) (sig_vector s v).
Proof. intros V. rewrite <- (sig_cross false s u v V). symmetry. apply sig_eq. Qed.
Lemma v_sig s f t f' : has_derivative f t f' -> has_derivative (fun t => sig_vector s (f t)) t (sig_vector s f').
Proof.
  intros (F1 & F2 & F3). destruct s as [[] [] []]; repeat split; cbn [cx cy cz sig_vector smul sx sy sz]; try apply d_opp; assumption.
Qed.

(* The assembly of the attitude. *)
Section Assembly.
Variable I : R3.
Variable s : Signature.
Variable r : Region.
Variable e : R3.
Variables L : R3.
Variable A0 : Quaternion.
Variable t0 : R.
Variable m : R -> R3.
Variable psi rate : R -> R.
Hypothesis VALID : sig_valid false s.
Hypothesis AXIS : is_axis r e.
Hypothesis UNIT : unit_q A0.
Let G := Norm L.
Hypothesis POSITIVE : 0 < G.
Hypothesis INITIAL : m t0 = sig_vector s (rotate (Conjugate A0) L).
Hypothesis EULER : forall t, has_derivative m t (Cross (m t) (velocity I (m t))).
Hypothesis HALF : forall t, 0 < G + Dot (m t) e.
Hypothesis ANGLE : forall t, angle_derivative psi t (rate t).
Hypothesis RATE : forall t, rate t * (G + Dot (m t) e) = Dot (m t) (velocity I (m t)) + G * Dot (velocity I (m t)) e.
Hypothesis PSI0 : cos (psi t0) = 1 /\ sin (psi t0) = 0.

Let P0 := ComputeP r G (sig_bivector false s (rotate (Conjugate A0) L)).
Let calR := RotMul A0 (RotMul (RotMul (SigForget false (SigInverse s)) (RotInverse P0)) RotIdentity).
Definition assembled (t : R) : Quaternion :=
  RotMul (RotMul (RotMul calR (RotAxisDefinesFrom (psi t) e)) (ComputeP r G (sig_bivector false s (sig_bivector false (SigInverse s) (m t)))))
         (SigForget false s).

Lemma sig_norm v : Norm2 (sig_vector s v) = Norm2 v.
Proof. destruct s as [[] [] []], v; cbv [sig_vector smul sx sy sz]; red_all; ring. Qed.
Lemma norms t : Norm2 (m t) = G * G.
Proof.
  rewrite (norm_conserved m (fun t => velocity I (m t)) EULER t t0), INITIAL, sig_norm.
  transitivity (Norm2 L); [now apply (rotate_dot (Conjugate A0) L L), unit_conj|]. unfold G, Norm. symmetry. apply sqrt_sqrt.
  unfold Norm2. destruct L as [x y z]. red_all. pose proof (Rle_0_sqr x). pose proof (Rle_0_sqr y). pose proof (Rle_0_sqr z). unfold Rsqr in *. lra.
Qed.
Lemma all_preferred t v :
  has_derivative (fun t => rotate (RotAxisDefinesFrom (psi t) e) (rotate (ComputeP r G (m t)) v)) t
    (rotate (RotAxisDefinesFrom (psi t) e) (rotate (ComputeP r G (m t)) (Cross (velocity I (m t)) v))) /\
  rotate (RotAxisDefinesFrom (psi t) e) (rotate (ComputeP r G (m t)) (m t)) = scal3 G e /\
  unit_q (RotAxisDefinesFrom (psi t) e) /\ unit_q (ComputeP r G (m t)).
Proof. apply (preferred r e G m psi t (rate t)); auto using norms. Qed.
Lemma P0_eq : P0 = ComputeP r G (m t0).
Proof. unfold P0. now rewrite sig_eq, INITIAL. Qed.
Lemma calR_eq : unit_q calR /\ forall v, rotate calR v = rotate A0 (sig_vector s (rotate (Conjugate P0) v)).
Proof.
  assert (UP : unit_q P0) by (rewrite P0_eq; apply (all_preferred t0 zero3)).
  pose proof (unit_conj _ UP) as UC. pose proof (fun v => sig_rotate s v VALID) as SR. pose proof (proj1 (SR zero3)) as US.
  unfold calR, RotMul, RotInverse. rewrite sig_inverse_eq.
  pose proof (unit_mul _ _ US UC) as U1. pose proof (unit_mul _ _ U1 unit_one) as U2.
  split; [now apply unit_mul|]. intros v. rewrite !rotate_mul by (assumption || apply unit_one).
  now rewrite rotate_id, (proj2 (SR _)).
Qed.
Lemma assembled_rotate t v :
  rotate (assembled t) v = rotate calR (rotate (RotAxisDefinesFrom (psi t) e) (rotate (ComputeP r G (m t)) (sig_vector s v))).
Proof.
  destruct calR_eq as (UR & _). destruct (all_preferred t v) as (_ & _ & UY & UP). pose proof (sig_rotate s v VALID) as (US & SR).
  unfold assembled, RotMul. rewrite sig_inverse_eq, !sig_eq, sig_self.
  rewrite !rotate_mul by auto using unit_mul. now rewrite SR.
Qed.
Lemma Y0 v : rotate (RotAxisDefinesFrom (psi t0) e) v = v.
Proof.
  destruct PSI0 as (C & S). destruct v as [x y z].
  destruct AXIS as [(_ & ->)|(_ & ->)]; [rewrite (proj2 (rotate_Y1 _ _))|rewrite (proj2 (rotate_Y3 _ _))]; rewrite C, S;
  unfold Y1, Y3; cbn; apply mk3_eq; ring.
Qed.
Lemma assembly : torque_free I L A0 t0 (fun t => sig_bivector false (SigInverse s) (m t)) assembled.
Proof.
  destruct calR_eq as (UR & RE). rewrite sig_inverse_eq.
  assert (MM : forall t, sig_bivector false s (m t) = sig_vector s (m t)) by (intros; apply sig_eq).
  assert (MV : forall t, rotate (assembled t) (sig_bivector false s (m t)) = L).
  { intros t. rewrite assembled_rotate, MM, sig_self. destruct (all_preferred t zero3) as (_ & -> & _).
    destruct (all_preferred t0 zero3) as (_ & <- & _ & UP). rewrite Y0, RE, P0_eq, rotate_inv by exact UP.
    rewrite INITIAL, sig_self. now apply rotate_inv'. }
  split; [|split; [|split; [exact MV|split]]].
  - rewrite MM, INITIAL, sig_self. now apply rotate_inv'.
  - intros t. rewrite MM, sig_velocity, <- sig_cross' by exact VALID.
    apply (v_ext (fun t => sig_vector s (m t))); [intros; symmetry; apply sig_eq|]. apply v_sig, EULER.
  - intros v. rewrite assembled_rotate, Y0, RE, P0_eq.
    destruct (all_preferred t0 zero3) as (_ & _ & _ & UP). now rewrite rotate_inv, sig_self.
  - intros t v. rewrite MM, sig_velocity, assembled_rotate, sig_cross', sig_self by exact VALID.
    apply (v_ext (fun t => rotate calR (rotate (RotAxisDefinesFrom (psi t) e) (rotate (ComputeP r G (m t)) (sig_vector s v))))).
    { intros; symmetry; apply assembled_rotate. }
    apply v_rotate. apply (all_preferred t (sig_vector s v)).
Qed.
End Assembly.
