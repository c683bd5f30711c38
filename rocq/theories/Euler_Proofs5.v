(* The solver constructs and evaluates the solutions of the preceding files. *)
From Coq Require Import Reals Lra Psatz Bool.
From Verif Require Import Geometry_Model Geometry_Proofs Geometry_Proofs2 VectorCalculus_Proofs Hermite_Model RotatingBody_Model RotatingBody_Proofs.
From Verif Require Import Euler_Model Euler_Spec Euler_Proofs Euler_Proofs2 Euler_Proofs3 Euler_Proofs4.
Local Open Scope R_scope.

Lemma torque_free_ext I L A0 t0 m m' A A' : (forall t, m t = m' t) -> (forall t, A t = A' t) ->
  torque_free I L A0 t0 m A -> torque_free I L A0 t0 m' A'.
Proof.
  intros EM EA (H1 & H2 & H3 & H4 & H5). split; [now rewrite <- EM|]. split; [|split; [|split]].
  - intros t. rewrite <- EM. now apply (v_ext m).
  - intros t. now rewrite <- EM, <- EA.
  - intros v. now rewrite <- EA.
  - intros t v. rewrite <- EM, <- EA. apply (v_ext (fun t => rotate (A t) v)); [|apply H5]. intros r. now rewrite EA.
Qed.

Lemma finish E s I L A0 t0 sg r e m psi rate :
  sig_valid false sg -> is_axis r e -> unit_q A0 -> 0 < Norm L ->
  G s = Norm L -> calS s = sg -> region s = r ->
  calR s = RotMul A0 (RotMul (RotMul (SigForget false (SigInverse sg))
             (RotInverse (ComputeP r (Norm L) (sig_bivector false sg (rotate (Conjugate A0) L))))) RotIdentity) ->
  (forall t, PreferredMomentumAt E s t = m t) -> (forall t, PsiAt E s t = psi t) ->
  m t0 = sig_vector sg (rotate (Conjugate A0) L) ->
  (forall t, has_derivative m t (Cross (m t) (velocity I (m t)))) ->
  (forall t, 0 < Norm L + Dot (m t) e) ->
  (forall t, angle_derivative psi t (rate t)) ->
  (forall t, rate t * (Norm L + Dot (m t) e) = Dot (m t) (velocity I (m t)) + Norm L * Dot (velocity I (m t)) e) ->
  psi t0 = 0 ->
  torque_free I L A0 t0 (AngularMomentumAt E s) (AttitudeAt E s).
Proof.
  intros V AX U GP EG ES ER EC EM EPSI INIT EU HALF ANG RATE PSI0.
  apply (torque_free_ext _ _ _ _ (fun t => sig_bivector false (SigInverse sg) (m t)) _ (assembled sg r e L A0 m psi)).
  - intros t. unfold AngularMomentumAt. now rewrite ES, EM.
  - intros t. unfold AttitudeAt, AttitudeFor, AngularMomentumAt, assembled. rewrite ES, EM, ER, EG, EC, EPSI.
    destruct AX as [(-> & ->)|(-> & ->)]; reflexivity.
  - apply (assembly I sg r e L A0 t0 m psi rate); auto. rewrite PSI0. split; [apply cos_0|apply sin_0].
Qed.

(* From the coordinates to the vectors. *)
Lemma vector1 I1 I2 I3 mp m2 mq t : 0 < I1 -> 0 < I2 -> 0 < I3 ->
  derivable_pt_lim mp t (- (I3 - I2) / (I2 * I3) * (m2 t * mq t)) ->
  derivable_pt_lim m2 t ((I2 - I1 + (I3 - I2)) / (I1 * I3) * (mp t * mq t)) ->
  derivable_pt_lim mq t (- (I2 - I1) / (I1 * I2) * (mp t * m2 t)) ->
  let m t := mk3 (mp t) (m2 t) (mq t) in has_derivative m t (Cross (m t) (velocity (mk3 I1 I2 I3) (m t))).
Proof.
  intros P1 P2 P3 A B C m. unfold m, velocity. repeat split; cbn [cx cy cz Cross]; (eapply d_eq; [eassumption|]); field; lra.
Qed.
Lemma vector3 I1 I2 I3 mp m2 mq t : 0 < I1 -> 0 < I2 -> 0 < I3 ->
  derivable_pt_lim mp t (- (I2 - I1) / (I2 * I1) * (m2 t * mq t)) ->
  derivable_pt_lim m2 t ((I3 - I2 + (I2 - I1)) / (I3 * I1) * (mp t * mq t)) ->
  derivable_pt_lim mq t (- (I3 - I2) / (I3 * I2) * (mp t * m2 t)) ->
  let m t := mk3 (mq t) (m2 t) (mp t) in has_derivative m t (Cross (m t) (velocity (mk3 I1 I2 I3) (m t))).
Proof.
  intros P1 P2 P3 A B C m. unfold m, velocity. repeat split; cbn [cx cy cz Cross]; (eapply d_eq; [eassumption|]); field; lra.
Qed.

Lemma smul_sq s a : smul s a * smul s a = a * a.
Proof. destruct s; cbn; ring. Qed.
Lemma smul_abs a : smul (SignOf a) a = Rabs a.
Proof. unfold SignOf, Rabs. destruct (Rlt_dec a 0), (Rcase_abs a); cbn; lra. Qed.
Lemma norm_square v : Norm v * Norm v = Norm2 v.
Proof.
  unfold Norm. apply sqrt_sqrt. destruct v as [x y z]. unfold Norm2. cbn. pose proof (Rle_0_sqr x). pose proof (Rle_0_sqr y). pose proof (Rle_0_sqr z).
  unfold Rsqr in *. lra.
Qed.
Lemma rotate_norm q v : unit_q q -> Norm2 (rotate (Conjugate q) v) = Norm v * Norm v.
Proof. intros U. rewrite norm_square. now apply (rotate_dot (Conjugate q) v v), unit_conj. Qed.

Lemma qmult_one q : Qmult q (qreal 1) = q.
Proof. destruct q as [w [x y z]]. red_all. f_equal; [ring|]. apply mk3_eq; ring. Qed.
Lemma rotate_zero3 q : rotate q Geometry_Model.zero3 = Geometry_Model.zero3.
Proof. destruct q as [w [x y z]]. red_all. apply mk3_eq; ring. Qed.

Section Solver.
Variable E : elliptic.
Hypothesis EF : elliptic_functions E.
Variables I1 I2 I3 : R.
Hypothesis I1_pos : 0 < I1.
Hypothesis I12 : I1 <= I2.
Hypothesis I23 : I2 <= I3.
Variable L : R3.
Variable A0 : Quaternion.
Variable t0 : R.
Hypothesis UNIT : unit_q A0.
Variables a b c : R.
Hypothesis M0 : rotate (Conjugate A0) L = mk3 a b c.
Let D1 := b * b * (I2 - I1) / I2 + c * c * (I3 - I1) / I3.
Let D2 := c * c * (I3 - I2) / I3 + a * a * - (I2 - I1) / I1.
Let D3 := a * a * - (I3 - I1) / I1 + b * b * - (I3 - I2) / I2.
Let B13 := sqrt (I1 * D3 / - (I3 - I1)).
Let B31 := sqrt (I3 * D1 / (I3 - I1)).
Let G := Norm L.

Lemma G_square : G * G = a * a + b * b + c * c.
Proof. unfold G. rewrite <- (rotate_norm A0 L UNIT), M0. reflexivity. Qed.
Lemma G_nonneg : 0 <= G.
Proof. apply sqrt_pos. Qed.
Lemma positives : 0 < I2 /\ 0 < I3.
Proof. lra. Qed.
Lemma square_term x d i : 0 <= d -> 0 < i -> 0 <= x * x * d / i.
Proof. intros D P. apply quotient_nonneg; [|exact P]. apply Rmult_le_pos; [apply Rle_0_sqr|exact D]. Qed.
Lemma D1_nonneg : 0 <= D1.
Proof. destruct positives. unfold D1. apply Rplus_le_le_0_compat; apply square_term; lra. Qed.
Lemma D3_nonpos : D3 <= 0.
Proof.
  destruct positives. unfold D3. pose proof (square_term a (I3 - I1) I1 ltac:(lra) ltac:(lra)) as A.
  pose proof (square_term b (I3 - I2) I2 ltac:(lra) ltac:(lra)) as B. unfold Rdiv in *. lra.
Qed.

Section Make.
Variables (sg : Signature) (r : Region) (f : Formula).
Definition made : EulerSolver :=
  mkEulerSolver (mk3 I1 I2 I3) A0 t0 G (sig_bivector false sg (mk3 a b c))
    (RotMul A0 (RotMul (RotMul (SigForget false (SigInverse sg)) (RotInverse (ComputeP r G (sig_bivector false sg (mk3 a b c))))) RotIdentity))
    sg f r B13 B31.
End Make.







Lemma elliptic_1 : D2 < 0 -> let sg := SigXY false (SignOf a) false in let y := b in let z := cz (sig_bivector false sg (mk3 a b c)) in
  let B2 := sqrt (I2 * D1 / (I2 - I1)) in
  let mc := Rmin (D2 * (I3 - I1) / (D3 * (I2 - I1))) 1 in
  let nu := EllipticF E (ArcTan2 (y * B31) (z * B2)) mc in
  let lambda := - sqrt (D3 * - (I2 - I1) / (I1 * I2 * I3)) in
  let n := I1 * (I3 - I2) / (I3 * - (I2 - I1)) in
  let psi_cn := sqrt (I3 * (I2 - I1)) in
  let psi_sn := sqrt (I2 * (I3 - I1)) in
  let psi_pi := G * - (I3 - I1) / (lambda * I1 * I3) in
  let offset := psi_pi * EllipticPi E (JacobiAmplitude E (- nu) mc) n mc +
                - 1 * ArcTan2 (psi_sn * JacobiSN E (- nu) mc) (psi_cn * JacobiCN E (- nu) mc) in
  let s := made sg e1 (formula_i B2 (EllipticParameters lambda n mc nu offset (- 1) psi_cn psi_sn psi_pi (G / I1))) in
  0 <= I2 * D1 / (I2 - I1) /\
  torque_free (mk3 I1 I2 I3) L A0 t0 (AngularMomentumAt E s) (AttitudeAt E s).
Proof.
  intros H sg y z B2 mc nu lambda n psi_cn psi_sn psi_pi offset s. destruct positives as (P2 & P3).
  set (x := smul (SignOf a) a). assert (XE : x = Rabs a) by apply smul_abs.
  assert (XX : x * x = a * a) by apply smul_sq.
  assert (ZZ : z * z = c * c) by (unfold z, sg; cbn [sig_bivector cz SigXY sz]; apply smul_sq).
  pose proof (square_term c (I3 - I2) I3 ltac:(lra) ltac:(lra)) as TC.
  assert (TA : 0 < a * a * (I2 - I1) / I1).
  { unfold D2 in H. replace (a * a * - (I2 - I1) / I1) with (- (a * a * (I2 - I1) / I1)) in H by (field; lra). lra. }
  assert (I21 : 0 < (I2 - I1)).
  { destruct (Rle_lt_or_eq_dec 0 (I2 - I1)) as [?|Z]; [lra|assumption|]. rewrite <- Z in TA. unfold Rdiv in TA. lra. }
  assert (X0 : 0 < x).
  { rewrite XE. apply Rabs_pos_lt. intros Z. rewrite Z in TA. unfold Rdiv in TA. lra. }
  pose proof G_square as GS. pose proof G_nonneg as GN.
  assert (GG : G * G = x * x + y * y + z * z) by (unfold y; rewrite XX, ZZ, GS; ring).
  assert (GP : 0 < G).
  { destruct GN as [?|Z]; [assumption|]. rewrite <- Z in GG. pose proof (Rmult_lt_0_compat _ _ X0 X0).
    pose proof (Rle_0_sqr y). pose proof (Rle_0_sqr z). unfold Rsqr in *. lra. }
  assert (MP : I2 = I1 + 1 * (I2 - I1)) by ring. assert (MQ : I3 = I2 + 1 * (I3 - I2)) by ring.
  set (dpq := (I2 - I1) + (I3 - I2)). assert (EPQ : I3 - I1 = dpq) by (unfold dpq; ring).
  set (Dp' := y * y * (I2 - I1) / I2 + z * z * dpq / I3). set (Dq' := x * x * dpq / I1 + y * y * (I3 - I2) / I2).
  set (D2' := x * x * (I2 - I1) / I1 - z * z * (I3 - I2) / I3).
  assert (ED1 : D1 = Dp') by (unfold D1, Dp', y; rewrite ?XX, ?ZZ, EPQ; ring).
  assert (ED3 : D3 = - Dq') by (unfold D3, Dq', y; rewrite ?XX, ?ZZ, EPQ; field; split; lra).
  assert (ED2 : D2 = - D2') by (unfold D2, D2'; rewrite XX, ZZ; field; split; lra).
  assert (D2P : 0 < D2') by lra.
  pose proof (Dq_pos I1 I2 (I2 - I1) (I3 - I2) ltac:(lra) P2 I21 ltac:(lra) x y X0) as DQP. fold dpq Dq' in DQP.
  assert (DPQ : 0 < dpq) by (unfold dpq; lra).
  pose proof (mc_range I1 I2 I3 (I2 - I1) (I3 - I2) ltac:(lra) P2 ltac:(lra) I21 ltac:(lra) x y z X0 D2P) as MCR.
  fold dpq Dq' D2' in MCR.
  set (mc' := D2' * dpq / (Dq' * (I2 - I1))) in *.
  assert (EMC : mc = mc').
  { unfold mc. rewrite ED2, ?ED1, ?ED3, EPQ.
    match goal with |- Rmin ?q 1 = _ => replace q with mc' by (unfold mc'; field; split; lra) end. apply Rmin_left. lra. }
  assert (EB13 : B13 = sqrt (I1 * Dq' / dpq)) by (unfold B13; rewrite ED3, EPQ; f_equal; field; lra).
  assert (EB31 : B31 = sqrt (I3 * Dp' / dpq)) by (unfold B31; now rewrite ED1, EPQ).
  assert (EB2 : B2 = sqrt (I2 * Dp' / (I2 - I1))) by (unfold B2; rewrite ?ED1, ?ED3; f_equal; field; lra).
  assert (EL : lambda = - sqrt (Dq' * (I2 - I1) / (I1 * I2 * I3))) by (unfold lambda; rewrite ?ED1, ?ED3; do 2 f_equal; field; repeat split; lra).
  assert (LN : lambda < 0).
  { rewrite EL. assert (0 < sqrt (Dq' * (I2 - I1) / (I1 * I2 * I3))); [|lra]. apply sqrt_lt_R0, Rdiv_lt_0_compat; [now apply Rmult_lt_0_compat|].
    repeat apply Rmult_lt_0_compat; lra. }
  assert (EN : n = - (I1 * (I3 - I2)) / (I3 * (I2 - I1))) by (unfold n; field; split; lra).
  assert (ES : psi_sn = sqrt (I2 * dpq)) by (unfold psi_sn; now rewrite EPQ).
  assert (EPI : psi_pi = - 1 * (G * dpq) / (lambda * I1 * I3)) by (unfold psi_pi; rewrite EPQ; field; repeat split; lra).
  assert (EM : sig_vector sg (rotate (Conjugate A0) L) = mk3 x y z).
  { rewrite M0, <- sig_eq. unfold z, y, x, sg. unfold SigXY, sig_bivector. cbn [sx sy sz cx cy cz]. unfold SignOf. destruct (Rlt_dec a 0); reflexivity. }
  split.
  { rewrite ?ED1, ?ED3. match goal with |- 0 <= ?q => replace q with (I2 * Dp' / (I2 - I1)) by (field; lra) end.
    apply quotient_nonneg; [|exact I21]. apply Rmult_le_pos; [lra|]. apply (Dp_nonneg I2 I3 (I2 - I1) (I3 - I2)); lra. }
  pose proof (elliptic_initial E EF I1 I2 I3 (I2 - I1) (I3 - I2) ltac:(lra) P2 ltac:(lra) I21 ltac:(lra) x y z X0 D2P t0) as INIT.
  pose proof (elliptic_euler E EF I1 I2 I3 (I2 - I1) (I3 - I2) ltac:(lra) P2 ltac:(lra) I21 ltac:(lra) x y z X0 D2P t0) as EU.
  pose proof (mp_nonneg E EF I1 I2 I3 (I2 - I1) (I3 - I2) ltac:(lra) P2 ltac:(lra) I21 ltac:(lra) x y z X0 D2P t0) as NN.
  pose proof (elliptic_angle E EF I1 I2 I3 (I2 - I1) (I3 - I2) 1 ltac:(lra) P2 ltac:(lra) I21 ltac:(lra) (or_introl eq_refl) MP MQ x y z X0 G D2P t0) as AD.
  pose proof (elliptic_rate_eq E EF I1 I2 I3 (I2 - I1) (I3 - I2) 1 ltac:(lra) P2 ltac:(lra) I21 ltac:(lra) MP MQ x y z X0 G GG D2P t0) as RE.
  pose proof (elliptic_psi0 E I1 I2 I3 (I2 - I1) (I3 - I2) 1 x y z G t0) as PSI0.
  apply (finish E s (mk3 I1 I2 I3) L A0 t0 sg e1 axis1
    (fun t => let mp := emp E I1 I2 I3 (I2 - I1) (I3 - I2) x y z t0 t in let m2 := em2 E I1 I2 I3 (I2 - I1) (I3 - I2) x y z t0 t in
              let mq := emq E I1 I2 I3 (I2 - I1) (I3 - I2) x y z t0 t in mk3 mp m2 mq)
    (epsi E I1 I2 I3 (I2 - I1) (I3 - I2) 1 x y z G t0) (elliptic_rate E I1 I2 I3 (I2 - I1) (I3 - I2) 1 x y z G t0)).
  - apply sig_ctors.
  - left. split; reflexivity.
  - exact UNIT.
  - exact GP.
  - reflexivity.
  - reflexivity.
  - reflexivity.
  - rewrite M0. reflexivity.
  - intros t. unfold PreferredMomentumAt, s, made. cbn [formula initial_time Euler_Model.B13 Euler_Model.B31 Euler_Model.lambda Euler_Model.mc Euler_Model.nu].
    unfold nu. rewrite EMC, EB13, EB31, EB2, EL. reflexivity.
  - intros t. unfold PsiAt, s, made. cbn [formula initial_time Euler_Model.B13 Euler_Model.B31 Euler_Model.lambda Euler_Model.mc Euler_Model.nu Euler_Model.n
      psi_offset psi_arctan_multiplier psi_cn_multiplier psi_sn_multiplier psi_elliptic_pi_multiplier psi_t_multiplier].
    unfold offset, nu. rewrite EPI, EMC, EN, ES, ?EB13, ?EB31, EB2, EL.  reflexivity.
  - cbn zeta. destruct INIT as (-> & -> & ->). symmetry. exact EM.
  - intros t. destruct (EU t) as (U1 & U2 & U3). now apply (vector1 I1 I2 I3).
  - intros t. specialize (NN t). fold G. unfold Dot, axis1. cbn [cx cy cz]. lra.
  - exact AD.
  - intros t. fold G. replace (G + Dot _ axis1) with (G + emp E I1 I2 I3 (I2 - I1) (I3 - I2) x y z t0 t) by (unfold Dot, axis1; cbn [cx cy cz]; ring).
    rewrite RE. unfold velocity, Dot, axis1. cbn [cx cy cz]. field. repeat split; lra.
  - exact PSI0.
Qed.

Lemma elliptic_3 : 0 < D2 -> let sg := SigYZ false false (SignOf c) in let y := b in let z := cx (sig_bivector false sg (mk3 a b c)) in
  let B2 := sqrt (I2 * D3 / (- (I3 - I2))) in
  let mc := Rmin (D2 * (I3 - I1) / (D1 * (I3 - I2))) 1 in
  let nu := EllipticF E (ArcTan2 (y * B13) (z * B2)) mc in
  let lambda := - sqrt (D1 * (I3 - I2) / (I1 * I2 * I3)) in
  let n := I3 * (I2 - I1) / (I1 * - (I3 - I2)) in
  let psi_cn := sqrt (I1 * (I3 - I2)) in
  let psi_sn := sqrt (I2 * (I3 - I1)) in
  let psi_pi := G * (I3 - I1) / (lambda * I1 * I3) in
  let offset := psi_pi * EllipticPi E (JacobiAmplitude E (- nu) mc) n mc +
                1 * ArcTan2 (psi_sn * JacobiSN E (- nu) mc) (psi_cn * JacobiCN E (- nu) mc) in
  let s := made sg e3 (formula_ii B2 (EllipticParameters lambda n mc nu offset (1) psi_cn psi_sn psi_pi (G / I3))) in
  0 <= I2 * D3 / (- (I3 - I2)) /\
  torque_free (mk3 I1 I2 I3) L A0 t0 (AngularMomentumAt E s) (AttitudeAt E s).
Proof.
  intros H sg y z B2 mc nu lambda n psi_cn psi_sn psi_pi offset s. destruct positives as (P2 & P3).
  set (x := smul (SignOf c) c). assert (XE : x = Rabs c) by apply smul_abs.
  assert (XX : x * x = c * c) by apply smul_sq.
  assert (ZZ : z * z = a * a) by (unfold z, sg; cbn [sig_bivector cx SigYZ sx]; apply smul_sq).
  pose proof (square_term a (I2 - I1) I1 ltac:(lra) ltac:(lra)) as TC.
  assert (TA : 0 < c * c * (I3 - I2) / I3).
  { unfold D2 in H. replace (a * a * - (I2 - I1) / I1) with (- (a * a * (I2 - I1) / I1)) in H by (field; lra). lra. }
  assert (I21 : 0 < (I3 - I2)).
  { destruct (Rle_lt_or_eq_dec 0 (I3 - I2)) as [?|Z]; [lra|assumption|]. rewrite <- Z in TA. unfold Rdiv in TA. lra. }
  assert (X0 : 0 < x).
  { rewrite XE. apply Rabs_pos_lt. intros Z. rewrite Z in TA. unfold Rdiv in TA. lra. }
  pose proof G_square as GS. pose proof G_nonneg as GN.
  assert (GG : G * G = x * x + y * y + z * z) by (unfold y; rewrite XX, ZZ, GS; ring).
  assert (GP : 0 < G).
  { destruct GN as [?|Z]; [assumption|]. rewrite <- Z in GG. pose proof (Rmult_lt_0_compat _ _ X0 X0).
    pose proof (Rle_0_sqr y). pose proof (Rle_0_sqr z). unfold Rsqr in *. lra. }
  assert (MP : I2 = I3 + (- 1) * (I3 - I2)) by ring. assert (MQ : I1 = I2 + (- 1) * (I2 - I1)) by ring.
  set (dpq := (I3 - I2) + (I2 - I1)). assert (EPQ : I3 - I1 = dpq) by (unfold dpq; ring).
  set (Dp' := y * y * (I3 - I2) / I2 + z * z * dpq / I1). set (Dq' := x * x * dpq / I3 + y * y * (I2 - I1) / I2).
  set (D2' := x * x * (I3 - I2) / I3 - z * z * (I2 - I1) / I1).
  assert (ED1 : D1 = Dq') by (unfold D1, Dq', y; rewrite ?XX, ?ZZ, EPQ; ring).
  assert (ED3 : D3 = - Dp') by (unfold D3, Dp', y; rewrite ?XX, ?ZZ, EPQ; field; split; lra).
  assert (ED2 : D2 = D2') by (unfold D2, D2'; rewrite XX, ZZ; field; split; lra).
  assert (D2P : 0 < D2') by lra.
  pose proof (Dq_pos I3 I2 (I3 - I2) (I2 - I1) ltac:(lra) P2 I21 ltac:(lra) x y X0) as DQP. fold dpq Dq' in DQP.
  assert (DPQ : 0 < dpq) by (unfold dpq; lra).
  pose proof (mc_range I3 I2 I1 (I3 - I2) (I2 - I1) ltac:(lra) P2 ltac:(lra) I21 ltac:(lra) x y z X0 D2P) as MCR.
  fold dpq Dq' D2' in MCR.
  set (mc' := D2' * dpq / (Dq' * (I3 - I2))) in *.
  assert (EMC : mc = mc').
  { unfold mc. rewrite ED2, ?ED1, ?ED3, EPQ.
    match goal with |- Rmin ?q 1 = _ => replace q with mc' by (unfold mc'; field; split; lra) end. apply Rmin_left. lra. }
  assert (EB13 : B13 = sqrt (I1 * Dp' / dpq)) by (unfold B13; rewrite ED3, EPQ; f_equal; field; lra).
  assert (EB31 : B31 = sqrt (I3 * Dq' / dpq)) by (unfold B31; now rewrite ED1, EPQ).
  assert (EB2 : B2 = sqrt (I2 * Dp' / (I3 - I2))) by (unfold B2; rewrite ?ED1, ?ED3; f_equal; field; lra).
  assert (EL : lambda = - sqrt (Dq' * (I3 - I2) / (I3 * I2 * I1))) by (unfold lambda; rewrite ?ED1, ?ED3; do 2 f_equal; field; repeat split; lra).
  assert (LN : lambda < 0).
  { rewrite EL. assert (0 < sqrt (Dq' * (I3 - I2) / (I3 * I2 * I1))); [|lra]. apply sqrt_lt_R0, Rdiv_lt_0_compat; [now apply Rmult_lt_0_compat|].
    repeat apply Rmult_lt_0_compat; lra. }
  assert (EN : n = - (I3 * (I2 - I1)) / (I1 * (I3 - I2))) by (unfold n; field; split; lra).
  assert (ES : psi_sn = sqrt (I2 * dpq)) by (unfold psi_sn; now rewrite EPQ).
  assert (EPI : psi_pi = - (- 1) * (G * dpq) / (lambda * I3 * I1)) by (unfold psi_pi; rewrite EPQ; field; repeat split; lra).
  assert (EM : sig_vector sg (rotate (Conjugate A0) L) = mk3 z y x).
  { rewrite M0, <- sig_eq. unfold z, y, x, sg. unfold SigYZ, sig_bivector. cbn [sx sy sz cx cy cz]. unfold SignOf. destruct (Rlt_dec c 0); reflexivity. }
  split.
  { rewrite ?ED1, ?ED3. match goal with |- 0 <= ?q => replace q with (I2 * Dp' / (I3 - I2)) by (field; lra) end.
    apply quotient_nonneg; [|exact I21]. apply Rmult_le_pos; [lra|]. apply (Dp_nonneg I2 I1 (I3 - I2) (I2 - I1)); lra. }
  pose proof (elliptic_initial E EF I3 I2 I1 (I3 - I2) (I2 - I1) ltac:(lra) P2 ltac:(lra) I21 ltac:(lra) x y z X0 D2P t0) as INIT.
  pose proof (elliptic_euler E EF I3 I2 I1 (I3 - I2) (I2 - I1) ltac:(lra) P2 ltac:(lra) I21 ltac:(lra) x y z X0 D2P t0) as EU.
  pose proof (mp_nonneg E EF I3 I2 I1 (I3 - I2) (I2 - I1) ltac:(lra) P2 ltac:(lra) I21 ltac:(lra) x y z X0 D2P t0) as NN.
  pose proof (elliptic_angle E EF I3 I2 I1 (I3 - I2) (I2 - I1) (- 1) ltac:(lra) P2 ltac:(lra) I21 ltac:(lra) (or_intror eq_refl) MP MQ x y z X0 G D2P t0) as AD.
  pose proof (elliptic_rate_eq E EF I3 I2 I1 (I3 - I2) (I2 - I1) (- 1) ltac:(lra) P2 ltac:(lra) I21 ltac:(lra) MP MQ x y z X0 G GG D2P t0) as RE.
  pose proof (elliptic_psi0 E I3 I2 I1 (I3 - I2) (I2 - I1) (- 1) x y z G t0) as PSI0.
  apply (finish E s (mk3 I1 I2 I3) L A0 t0 sg e3 axis3
    (fun t => let mp := emp E I3 I2 I1 (I3 - I2) (I2 - I1) x y z t0 t in let m2 := em2 E I3 I2 I1 (I3 - I2) (I2 - I1) x y z t0 t in
              let mq := emq E I3 I2 I1 (I3 - I2) (I2 - I1) x y z t0 t in mk3 mq m2 mp)
    (epsi E I3 I2 I1 (I3 - I2) (I2 - I1) (- 1) x y z G t0) (elliptic_rate E I3 I2 I1 (I3 - I2) (I2 - I1) (- 1) x y z G t0)).
  - apply sig_ctors.
  - right. split; reflexivity.
  - exact UNIT.
  - exact GP.
  - reflexivity.
  - reflexivity.
  - reflexivity.
  - rewrite M0. reflexivity.
  - intros t. unfold PreferredMomentumAt, s, made. cbn [formula initial_time Euler_Model.B13 Euler_Model.B31 Euler_Model.lambda Euler_Model.mc Euler_Model.nu].
    unfold nu. rewrite EMC, EB13, EB31, EB2, EL. reflexivity.
  - intros t. unfold PsiAt, s, made. cbn [formula initial_time Euler_Model.B13 Euler_Model.B31 Euler_Model.lambda Euler_Model.mc Euler_Model.nu Euler_Model.n
      psi_offset psi_arctan_multiplier psi_cn_multiplier psi_sn_multiplier psi_elliptic_pi_multiplier psi_t_multiplier].
    unfold offset, nu. rewrite EPI, EMC, EN, ES, ?EB13, ?EB31, EB2, EL. unfold epsi. rewrite (Ropp_involutive 1) || replace (- (-1)) with 1 by ring. reflexivity.
  - cbn zeta. destruct INIT as (-> & -> & ->). symmetry. exact EM.
  - intros t. destruct (EU t) as (U1 & U2 & U3). now apply (vector3 I1 I2 I3).
  - intros t. specialize (NN t). fold G. unfold Dot, axis3. cbn [cx cy cz]. lra.
  - exact AD.
  - intros t. fold G. replace (G + Dot _ axis3) with (G + emp E I3 I2 I1 (I3 - I2) (I2 - I1) x y z t0 t) by (unfold Dot, axis3; cbn [cx cy cz]; ring).
    rewrite RE. unfold velocity, Dot, axis3. cbn [cx cy cz]. field. repeat split; lra.
  - exact PSI0.
Qed.

Lemma hyperbolic_1 : D2 = 0 -> 0 < G -> 0 < I3 - I1 -> B13 < B31 ->
  let sg := SigXZ false (SignOf a) (SignOf c) in let y := cy (sig_bivector false sg (mk3 a b c)) in
  let nu := eopp (ArcTanh (y / G)) in
  let lambda := sqrt (- D1 * D3 / (I1 * I3)) / G in
  let offset := ArcTan2 ((B13 - G) * Tanh (ehalf (eopp nu))) B31 in
  let s := made sg e1 (formula_iii lambda nu offset (- 2) B31 (B13 - G) (G / I2)) in
  torque_free (mk3 I1 I2 I3) L A0 t0 (AngularMomentumAt E s) (AttitudeAt E s).
Proof.
  intros H GP I31 REG sg y nu lambda offset s. destruct positives as (P2 & P3).
  set (x := Rabs a). set (z := Rabs c). assert (X0 : 0 <= x) by apply Rabs_pos. assert (Z0 : 0 <= z) by apply Rabs_pos.
  assert (XX : x * x = a * a) by (unfold x; rewrite <- smul_abs; apply smul_sq).
  assert (ZZ : z * z = c * c) by (unfold z; rewrite <- smul_abs; apply smul_sq).
  assert (YY : y * y = b * b) by (unfold y, sg; cbn [sig_bivector cy SigXZ sy]; apply smul_sq).
  pose proof G_square as GS.
  assert (GG : G * G = x * x + y * y + z * z) by (rewrite XX, YY, ZZ, GS; ring).
  assert (MP : I2 = I1 + 1 * (I2 - I1)) by ring. assert (MQ : I3 = I2 + 1 * (I3 - I2)) by ring.
  set (dpq := (I2 - I1) + (I3 - I2)). assert (EPQ : I3 - I1 = dpq) by (unfold dpq; ring).
  assert (DPQ : 0 < dpq) by lra.
  set (Dp' := y * y * (I2 - I1) / I2 + z * z * dpq / I3). set (Dq' := x * x * dpq / I1 + y * y * (I3 - I2) / I2).
  assert (ED1 : D1 = Dp') by (unfold D1, Dp'; rewrite ?XX, ?ZZ, YY, EPQ; ring).
  assert (ED3 : D3 = - Dq') by (unfold D3, Dq'; rewrite ?XX, ?ZZ, YY, EPQ; field; split; lra).
  assert (ED2 : x * x * (I2 - I1) / I1 = z * z * (I3 - I2) / I3).
  { rewrite XX, ZZ. unfold D2 in H. replace (a * a * - (I2 - I1) / I1) with (- (a * a * (I2 - I1) / I1)) in H by (field; lra). lra. }
  assert (EB13 : B13 = sqrt (I1 * Dq' / dpq)) by (unfold B13; rewrite ED3, EPQ; f_equal; field; lra).
  assert (EB31 : B31 = sqrt (I3 * Dp' / dpq)) by (unfold B31; now rewrite ED1, EPQ).
  assert (EL : lambda = sqrt (Dp' * Dq' / (I1 * I3)) / G) by (unfold lambda; rewrite ED1, ED3; do 2 f_equal; field; repeat split; lra).
  destruct (hyperbolic_Bs I1 I2 I3 (I2 - I1) (I3 - I2) 1 ltac:(lra) P2 ltac:(lra) ltac:(lra) ltac:(lra) MP MQ DPQ x y z G GP GG ED2) as (BP0 & _ & _ & SUM).
  fold dpq Dp' Dq' in BP0, SUM. rewrite <- EB13, <- EB31 in SUM. rewrite <- EB13 in BP0.
  assert (BQ0 : 0 < B31).
  { lra. }
  assert (BQ1 : 0 < sqrt (I3 * Dp' / dpq)) by now rewrite <- EB31.
  assert (EM : sig_vector sg (rotate (Conjugate A0) L) = mk3 x y z).
  { rewrite M0, <- sig_eq. unfold z, y, x, sg. rewrite <- !smul_abs. unfold SigXZ, sig_bivector. cbn [sx sy sz cx cy cz]. unfold SignOf.
    destruct (Rlt_dec a 0), (Rlt_dec c 0); reflexivity. }
  pose proof (Euler_Proofs4.hyperbolic_initial I1 I2 I3 (I2 - I1) (I3 - I2) 1 ltac:(lra) P2 ltac:(lra) ltac:(lra) ltac:(lra) MP MQ DPQ x y z X0 Z0 G GP GG ED2 BQ1 t0) as INIT.
  pose proof (hyperbolic_euler I1 I2 I3 (I2 - I1) (I3 - I2) 1 ltac:(lra) P2 ltac:(lra) ltac:(lra) ltac:(lra) MP MQ DPQ x y z G GP GG ED2 BQ1 t0) as EU.
  pose proof (hyperbolic_mp I1 I2 I3 (I2 - I1) (I3 - I2) 1 ltac:(lra) P2 ltac:(lra) ltac:(lra) ltac:(lra) MP MQ DPQ x y z G GP GG ED2 t0) as NN.
  pose proof (hyperbolic_angle I1 I2 I3 (I2 - I1) (I3 - I2) 1 ltac:(lra) P2 ltac:(lra) ltac:(lra) ltac:(lra) (or_introl eq_refl) MP MQ DPQ x y z G GP GG ED2 BQ1 t0) as AD.
  pose proof (hyperbolic_rate_eq I1 I2 I3 (I2 - I1) (I3 - I2) 1 ltac:(lra) P2 ltac:(lra) ltac:(lra) ltac:(lra) MP MQ DPQ x y z G GP GG ED2 BQ1 t0) as RE.
  pose proof (hyperbolic_psi0 I1 I2 I3 (I2 - I1) (I3 - I2) 1 x y z G t0) as PSI0.
  apply (finish E s (mk3 I1 I2 I3) L A0 t0 sg e1 axis1
    (fun t => let mp := hmp I1 I2 I3 (I2 - I1) (I3 - I2) x y z G t0 t in let m2 := hm2 I1 I2 I3 (I2 - I1) (I3 - I2) x y z G t0 t in
              let mq := hmq I1 I2 I3 (I2 - I1) (I3 - I2) x y z G t0 t in mk3 mp m2 mq)
    (hpsi I1 I2 I3 (I2 - I1) (I3 - I2) 1 x y z G t0) (hyperbolic_rate I1 I2 I3 (I2 - I1) (I3 - I2) 1 x y z G t0)).
  - apply sig_ctors.
  - left. split; reflexivity.
  - exact UNIT.
  - exact GP.
  - reflexivity.
  - reflexivity.
  - reflexivity.
  - rewrite M0. reflexivity.
  - intros t. unfold PreferredMomentumAt, s, made. cbn [formula initial_time Euler_Model.B13 Euler_Model.B31 Euler_Model.G].
    rewrite EB13, EB31, EL. reflexivity.
  - intros t. unfold PsiAt, s, made. cbn [formula initial_time].
    unfold offset. rewrite EB13, EB31, EL. unfold hpsi. replace (- (2 * 1)) with (- 2) by ring. reflexivity.
  - cbn zeta. destruct INIT as (-> & -> & ->). symmetry. exact EM.
  - intros t. destruct (EU t) as (U1 & U2 & U3). now apply (vector1 I1 I2 I3).
  - intros t. specialize (NN t). fold G. unfold Dot, axis1. cbn [cx cy cz]. lra.
  - exact AD.
  - intros t. fold G. replace (G + Dot _ axis1) with (G + hmp I1 I2 I3 (I2 - I1) (I3 - I2) x y z G t0 t) by (unfold Dot, axis1; cbn [cx cy cz]; ring).
    rewrite RE. unfold velocity, Dot, axis1. cbn [cx cy cz]. field. repeat split; lra.
  - exact PSI0.
Qed.

Lemma hyperbolic_3 : D2 = 0 -> 0 < G -> 0 < I3 - I1 -> ~ B13 < B31 ->
  let sg := SigXZ false (SignOf a) (SignOf c) in let y := cy (sig_bivector false sg (mk3 a b c)) in
  let nu := eopp (ArcTanh (y / G)) in
  let lambda := sqrt (- D1 * D3 / (I1 * I3)) / G in
  let offset := ArcTan2 ((B31 - G) * Tanh (ehalf (eopp nu))) B13 in
  let s := made sg e3 (formula_iii lambda nu offset (2) B13 (B31 - G) (G / I2)) in
  torque_free (mk3 I1 I2 I3) L A0 t0 (AngularMomentumAt E s) (AttitudeAt E s).
Proof.
  intros H GP I31 REG sg y nu lambda offset s. destruct positives as (P2 & P3).
  set (x := Rabs c). set (z := Rabs a). assert (X0 : 0 <= x) by apply Rabs_pos. assert (Z0 : 0 <= z) by apply Rabs_pos.
  assert (XX : x * x = c * c) by (unfold x; rewrite <- smul_abs; apply smul_sq).
  assert (ZZ : z * z = a * a) by (unfold z; rewrite <- smul_abs; apply smul_sq).
  assert (YY : y * y = b * b) by (unfold y, sg; cbn [sig_bivector cy SigXZ sy]; apply smul_sq).
  pose proof G_square as GS.
  assert (GG : G * G = x * x + y * y + z * z) by (rewrite XX, YY, ZZ, GS; ring).
  assert (MP : I2 = I3 + (- 1) * (I3 - I2)) by ring. assert (MQ : I1 = I2 + (- 1) * (I2 - I1)) by ring.
  set (dpq := (I3 - I2) + (I2 - I1)). assert (EPQ : I3 - I1 = dpq) by (unfold dpq; ring).
  assert (DPQ : 0 < dpq) by lra.
  set (Dp' := y * y * (I3 - I2) / I2 + z * z * dpq / I1). set (Dq' := x * x * dpq / I3 + y * y * (I2 - I1) / I2).
  assert (ED1 : D1 = Dq') by (unfold D1, Dq'; rewrite ?XX, ?ZZ, YY, EPQ; ring).
  assert (ED3 : D3 = - Dp') by (unfold D3, Dp'; rewrite ?XX, ?ZZ, YY, EPQ; field; split; lra).
  assert (ED2 : x * x * (I3 - I2) / I3 = z * z * (I2 - I1) / I1).
  { rewrite XX, ZZ. unfold D2 in H. replace (a * a * - (I2 - I1) / I1) with (- (a * a * (I2 - I1) / I1)) in H by (field; lra). lra. }
  assert (EB13 : B13 = sqrt (I1 * Dp' / dpq)) by (unfold B13; rewrite ED3, EPQ; f_equal; field; lra).
  assert (EB31 : B31 = sqrt (I3 * Dq' / dpq)) by (unfold B31; now rewrite ED1, EPQ).
  assert (EL : lambda = sqrt (Dp' * Dq' / (I3 * I1)) / G) by (unfold lambda; rewrite ED1, ED3; do 2 f_equal; field; repeat split; lra).
  destruct (hyperbolic_Bs I3 I2 I1 (I3 - I2) (I2 - I1) (- 1) ltac:(lra) P2 ltac:(lra) ltac:(lra) ltac:(lra) MP MQ DPQ x y z G GP GG ED2) as (BP0 & _ & _ & SUM).
  fold dpq Dp' Dq' in BP0, SUM. rewrite <- EB31, <- EB13 in SUM. rewrite <- EB31 in BP0.
  assert (BQ0 : 0 < B13).
  { assert (BB : 0 <= B13) by apply sqrt_pos. destruct BB as [BB|BB]; [exact BB|]. exfalso. assert (Z : B31 = 0) by lra. rewrite Z, <- BB in SUM. pose proof (Rmult_lt_0_compat _ _ GP GP). lra. }
  assert (BQ1 : 0 < sqrt (I1 * Dp' / dpq)) by now rewrite <- EB13.
  assert (EM : sig_vector sg (rotate (Conjugate A0) L) = mk3 z y x).
  { rewrite M0, <- sig_eq. unfold z, y, x, sg. rewrite <- !smul_abs. unfold SigXZ, sig_bivector. cbn [sx sy sz cx cy cz]. unfold SignOf.
    destruct (Rlt_dec a 0), (Rlt_dec c 0); reflexivity. }
  pose proof (Euler_Proofs4.hyperbolic_initial I3 I2 I1 (I3 - I2) (I2 - I1) (- 1) ltac:(lra) P2 ltac:(lra) ltac:(lra) ltac:(lra) MP MQ DPQ x y z X0 Z0 G GP GG ED2 BQ1 t0) as INIT.
  pose proof (hyperbolic_euler I3 I2 I1 (I3 - I2) (I2 - I1) (- 1) ltac:(lra) P2 ltac:(lra) ltac:(lra) ltac:(lra) MP MQ DPQ x y z G GP GG ED2 BQ1 t0) as EU.
  pose proof (hyperbolic_mp I3 I2 I1 (I3 - I2) (I2 - I1) (- 1) ltac:(lra) P2 ltac:(lra) ltac:(lra) ltac:(lra) MP MQ DPQ x y z G GP GG ED2 t0) as NN.
  pose proof (hyperbolic_angle I3 I2 I1 (I3 - I2) (I2 - I1) (- 1) ltac:(lra) P2 ltac:(lra) ltac:(lra) ltac:(lra) (or_intror eq_refl) MP MQ DPQ x y z G GP GG ED2 BQ1 t0) as AD.
  pose proof (hyperbolic_rate_eq I3 I2 I1 (I3 - I2) (I2 - I1) (- 1) ltac:(lra) P2 ltac:(lra) ltac:(lra) ltac:(lra) MP MQ DPQ x y z G GP GG ED2 BQ1 t0) as RE.
  pose proof (hyperbolic_psi0 I3 I2 I1 (I3 - I2) (I2 - I1) (- 1) x y z G t0) as PSI0.
  apply (finish E s (mk3 I1 I2 I3) L A0 t0 sg e3 axis3
    (fun t => let mp := hmp I3 I2 I1 (I3 - I2) (I2 - I1) x y z G t0 t in let m2 := hm2 I3 I2 I1 (I3 - I2) (I2 - I1) x y z G t0 t in
              let mq := hmq I3 I2 I1 (I3 - I2) (I2 - I1) x y z G t0 t in mk3 mq m2 mp)
    (hpsi I3 I2 I1 (I3 - I2) (I2 - I1) (- 1) x y z G t0) (hyperbolic_rate I3 I2 I1 (I3 - I2) (I2 - I1) (- 1) x y z G t0)).
  - apply sig_ctors.
  - right. split; reflexivity.
  - exact UNIT.
  - exact GP.
  - reflexivity.
  - reflexivity.
  - reflexivity.
  - rewrite M0. reflexivity.
  - intros t. unfold PreferredMomentumAt, s, made. cbn [formula initial_time Euler_Model.B13 Euler_Model.B31 Euler_Model.G].
    rewrite EB13, EB31, EL. reflexivity.
  - intros t. unfold PsiAt, s, made. cbn [formula initial_time].
    unfold offset. rewrite EB13, EB31, EL. unfold hpsi. replace (- (2 * (- 1))) with (2) by ring. reflexivity.
  - cbn zeta. destruct INIT as (-> & -> & ->). symmetry. exact EM.
  - intros t. destruct (EU t) as (U1 & U2 & U3). now apply (vector3 I1 I2 I3).
  - intros t. specialize (NN t). fold G. unfold Dot, axis3. cbn [cx cy cz]. lra.
  - exact AD.
  - intros t. fold G. replace (G + Dot _ axis3) with (G + hmp I3 I2 I1 (I3 - I2) (I2 - I1) x y z G t0 t) by (unfold Dot, axis3; cbn [cx cy cz]; ring).
    rewrite RE. unfold velocity, Dot, axis3. cbn [cx cy cz]. field. repeat split; lra.
  - exact PSI0.
Qed.
Lemma sphere : 0 < G -> I1 = I2 -> I2 = I3 ->
  let r := if Rlt_dec (Rabs a) (Rabs c) then e1 else e3 in
  let sg := match r with e1 => SigXY false (SignOf a) false | e3 => SigYZ false false (SignOf c) | Motionless => SigIdentity end in
  let s := made sg r (formula_Sphere (G / I2)) in
  torque_free (mk3 I1 I2 I3) L A0 t0 (AngularMomentumAt E s) (AttitudeAt E s).
Proof.
  intros GP E12 E23 r sg s. destruct positives as (P2 & P3). pose proof G_square as GS.
  set (m := sig_bivector false sg (mk3 a b c)).
  assert (NM : Norm2 m = G * G).
  { rewrite GS. unfold m, Norm2, sig_bivector. cbn [cx cy cz]. now rewrite !smul_sq. }
  assert (V : sig_valid false sg) by (unfold sg, r; destruct (Rlt_dec (Rabs a) (Rabs c)); apply sig_ctors).
  assert (AX : exists e, is_axis r e /\ 0 <= Dot m e /\ (e = axis1 \/ e = axis3)).
  { unfold m, sg, r. destruct (Rlt_dec (Rabs a) (Rabs c)).
    - exists axis1. split; [left; split; reflexivity|]. split; [|now left]. unfold Dot, axis1, sig_bivector, SigXY. cbn [cx cy cz sx].
      replace (sign_mul false (SignOf a)) with (SignOf a) by now destruct (SignOf a). rewrite smul_abs. pose proof (Rabs_pos a). lra.
    - exists axis3. split; [right; split; reflexivity|]. split; [|now right]. unfold Dot, axis3, sig_bivector, SigYZ. cbn [cx cy cz sz].
      replace (sign_mul false (SignOf c)) with (SignOf c) by now destruct (SignOf c). rewrite smul_abs. pose proof (Rabs_pos c). lra. }
  destruct AX as (e & AX & HALF & CASES).
  assert (VE : velocity (mk3 I1 I2 I3) m = scal3 (/ I2) m).
  { unfold velocity, scal3. cbn [cx cy cz]. rewrite <- E23, E12. apply mk3_eq; unfold Rdiv; ring. }
  apply (finish E s (mk3 I1 I2 I3) L A0 t0 sg r e (fun _ => m) (fun t => G / I2 * (t - t0) - 0) (fun _ => G / I2)); auto.
  - rewrite M0. reflexivity.
  - intros t. unfold PsiAt, s, made. cbn [formula initial_time]. ring.
  - rewrite M0. apply sig_eq.
  - intros t. eapply v_eq; [apply v_const|]. rewrite VE. destruct m. red_all. apply mk3_eq; ring.
  - intros t. fold G. lra.
  - intros t. apply ad_lin, d_lin.
  - intros t. fold G. rewrite VE. replace (Dot m (scal3 (/ I2) m)) with (/ I2 * Norm2 m) by (destruct m; red_all; ring). rewrite NM.
    replace (Dot (scal3 (/ I2) m) e) with (/ I2 * Dot m e) by (destruct m, e; red_all; ring). field. lra.
  - ring.
Qed.
Lemma motionless : G = 0 -> let s := made SigIdentity Motionless (formula_Sphere (G / I2)) in
  torque_free (mk3 I1 I2 I3) L A0 t0 (AngularMomentumAt E s) (AttitudeAt E s).
Proof.
  intros Z s. pose proof G_square as GS. rewrite Z in GS.
  pose proof (Rle_0_sqr a) as QA. pose proof (Rle_0_sqr b) as QB. pose proof (Rle_0_sqr c) as QC.
  assert (A : a = 0) by (apply Rsqr_eq_0; unfold Rsqr in *; lra). assert (B : b = 0) by (apply Rsqr_eq_0; unfold Rsqr in *; lra).
  assert (C : c = 0) by (apply Rsqr_eq_0; unfold Rsqr in *; lra).
  assert (LZ : L = Geometry_Model.zero3).
  { rewrite <- (rotate_inv' A0 L UNIT), M0, A, B, C. apply rotate_zero3. }
  assert (MZ : forall t, AngularMomentumAt E s t = Geometry_Model.zero3).
  { intros t. unfold AngularMomentumAt, PreferredMomentumAt, s, made. cbn. rewrite A, B, C. reflexivity. }
  assert (AE : forall t v, rotate (AttitudeAt E s t) v = rotate A0 v).
  { intros t v. unfold AttitudeAt, AttitudeFor. rewrite MZ. unfold s, made, ComputeP. cbn [region Euler_Model.G calS calR].
    unfold PsiAt. cbn [formula initial_time]. rewrite Z. replace (0 / I2 * (t - t0)) with 0 by (unfold Rdiv; ring).
    unfold RotAxisDefinesFrom, AngleAxis. replace (/ 2 * 0) with 0 by ring. rewrite cos_0, sin_0. f_equal.
    change (SigForget false SigIdentity) with (qreal 1). change (SigForget false (SigInverse SigIdentity)) with (qreal 1).
    replace (mkQ 1 (scal3 0 (Normalize (mk3 0 1 0)))) with (qreal 1) by (unfold scal3, qreal, Geometry_Model.zero3; f_equal; apply mk3_eq; ring).
    unfold RotMul, RotInverse, RotIdentity. replace (Conjugate (qreal 1)) with (qreal 1) by (unfold Conjugate, qreal, opp3, Geometry_Model.zero3; cbn; f_equal; apply mk3_eq; ring).
    now rewrite !qmult_one. }
  pose proof rotate_zero3 as RZ.
  split; [rewrite MZ, LZ; apply RZ|]. split; [|split; [|split]].
  - intros t. rewrite MZ. apply (v_ext (fun _ => Geometry_Model.zero3)); [intros; now rewrite MZ|]. eapply v_eq; [apply v_const|].
    unfold velocity. red_all. apply mk3_eq; ring.
  - intros t. now rewrite MZ, LZ, RZ.
  - intros v. apply AE.
  - intros t v. apply (v_ext (fun _ => rotate A0 v)); [intros; now rewrite AE|]. rewrite MZ. eapply v_eq; [apply v_const|].
    replace (Cross (velocity (mk3 I1 I2 I3) Geometry_Model.zero3) v) with Geometry_Model.zero3; [now rewrite RZ|]. unfold velocity. destruct v. red_all. apply mk3_eq; unfold Rdiv; ring.
Qed.
End Solver.

Lemma euler_solver E moments L A0 t0 : elliptic_functions E ->
  0 < cx moments -> cx moments <= cy moments -> cy moments <= cz moments -> unit_q A0 ->
  exists s, MakeEulerSolver E moments L A0 t0 = Some s /\
    torque_free moments L A0 t0 (AngularMomentumAt E s) (AttitudeAt E s) /\
    moments_of_inertia s = moments /\ initial_time s = t0 /\ initial_attitude s = A0.
Proof.
  intros EF P1 P12 P23 U. destruct moments as [I1 I2 I3]. cbn [cx cy cz] in *.
  destruct (rotate (RotInverse A0) L) as [a b c] eqn:M0. pose proof M0 as M1. unfold RotInverse in M1.
  pose proof (D1_nonneg I1 I2 I3 P1 P12 P23 b c) as D1P. pose proof (D3_nonpos I1 I2 I3 P1 P12 P23 a b) as D3N.
  unfold MakeEulerSolver. rewrite M0. cbn [cx cy cz].
  destruct (Rle_dec I1 I2) as [_|?]; [|contradiction]. destruct (Rle_dec I2 I3) as [_|?]; [|contradiction].
  set (D1 := b * b * (I2 - I1) / I2 + c * c * (I3 - I1) / I3) in *.
  set (D2 := c * c * (I3 - I2) / I3 + a * a * - (I2 - I1) / I1).
  set (D3 := a * a * - (I3 - I1) / I1 + b * b * - (I3 - I2) / I2) in *.
  destruct (Rle_dec 0 D1) as [_|?]; [|contradiction]. destruct (Rle_dec D3 0) as [_|?]; [|contradiction].
  destruct (Rlt_dec D2 0) as [H|H].
  { pose proof (elliptic_1 E EF I1 I2 I3 P1 P12 P23 L A0 t0 U a b c M1 H) as K. cbv zeta in K. destruct K as (K0 & K).
    fold D1 in K0. destruct (Rle_dec 0 (I2 * D1 / (I2 - I1))) as [_|N]; [|contradiction].
    eexists. split; [reflexivity|]. split; [exact K|]. repeat split. }
  destruct (Rlt_dec 0 D2) as [H'|H'].
  { pose proof (elliptic_3 E EF I1 I2 I3 P1 P12 P23 L A0 t0 U a b c M1 H') as K. cbv zeta in K. destruct K as (K0 & K).
    fold D3 in K0. destruct (Rle_dec 0 (I2 * D3 / - (I3 - I2))) as [_|N]; [|contradiction].
    eexists. split; [reflexivity|]. split; [exact K|]. repeat split. }
  assert (Z : D2 = 0) by lra.
  pose proof (G_nonneg L) as GN.
  destruct (Req_EM_T (Norm L) 0) as [G0|G0].
  { pose proof (motionless E I1 I2 I3 L A0 t0 U a b c M1 G0) as K. cbv zeta in K.
    eexists. split; [reflexivity|]. split; [exact K|]. repeat split. }
  assert (GP : 0 < Norm L) by (destruct GN as [?|Q]; [assumption|symmetry in Q; contradiction]).
  destruct (Req_EM_T (I3 - I1) 0) as [I0|I0].
  { destruct (Req_EM_T (I2 - I1) 0) as [J0|J0]; [|exfalso; apply J0; lra].
    destruct (Req_EM_T (I3 - I2) 0) as [K0|K0]; [|exfalso; apply K0; lra].
    pose proof (sphere E I1 I2 I3 P1 P12 P23 L A0 t0 U a b c M1 GP ltac:(lra) ltac:(lra)) as K. cbv zeta in K.
    destruct (Rlt_dec (Rabs a) (Rabs c)); (eexists; split; [reflexivity|]; split; [exact K|]; repeat split). }
  assert (IP : 0 < I3 - I1) by lra.
  destruct (Rlt_dec (sqrt (I1 * D3 / - (I3 - I1))) (sqrt (I3 * D1 / (I3 - I1)))) as [Q|Q].
  - pose proof (hyperbolic_1 E I1 I2 I3 P1 P12 P23 L A0 t0 U a b c M1 Z GP IP Q) as K. cbv zeta in K.
    eexists. split; [reflexivity|]. split; [exact K|]. repeat split.
  - pose proof (hyperbolic_3 E I1 I2 I3 P1 P12 P23 L A0 t0 U a b c M1 Z GP IP Q) as K. cbv zeta in K.
    eexists. split; [reflexivity|]. split; [exact K|]. repeat split.
Qed.
