(* Formula iii, the solution that uses hyperbolic functions; the axis p is that of the region. *)
From Coq Require Import Reals Lra Psatz.
From Verif Require Import Geometry_Model Geometry_Proofs Geometry_Proofs2 VectorCalculus_Proofs Hermite_Model RotatingBody_Model RotatingBody_Proofs.
From Verif Require Import Euler_Model Euler_Spec Euler_Proofs Euler_Proofs2 Euler_Proofs3.
Local Open Scope R_scope.

Lemma cosh_pos x : 0 < cosh x.
Proof. unfold cosh. pose proof (exp_pos x). pose proof (exp_pos (- x)). lra. Qed.
Lemma cosh_sinh x : cosh x * cosh x - sinh x * sinh x = 1.
Proof.
  unfold cosh, sinh. transitivity (exp x * exp (- x)); [field|]. rewrite <- exp_plus. replace (x + - x) with 0 by ring. apply exp_0.
Qed.
Lemma cosh_double x : cosh x = cosh (/ 2 * x) * cosh (/ 2 * x) + sinh (/ 2 * x) * sinh (/ 2 * x).
Proof.
  unfold cosh, sinh. transitivity ((exp (/ 2 * x) * exp (/ 2 * x) + exp (- (/ 2 * x)) * exp (- (/ 2 * x))) / 2); [|field].
  rewrite <- !exp_plus. do 2 f_equal; [|f_equal]; f_equal; field.
Qed.
Lemma d_tanh x : derivable_pt_lim tanh x (1 / cosh x * (1 / cosh x)).
Proof.
  pose proof (cosh_pos x) as P. unfold tanh.
  apply (derivable_pt_lim_ext (fun x => sinh x * / cosh x)); [reflexivity|].
  eapply d_eq; [apply d_mult; [apply derivable_pt_lim_sinh|apply d_inv; [apply derivable_pt_lim_cosh|lra]]|].
  pose proof (cosh_sinh x) as Q. cbn beta. transitivity ((cosh x * cosh x - sinh x * sinh x) / (cosh x * cosh x)); [field; lra|].
  rewrite Q. field. lra.
Qed.
Lemma d_sech x : derivable_pt_lim (fun x => 1 / cosh x) x (- (1 / cosh x) * tanh x).
Proof.
  pose proof (cosh_pos x) as P. apply (derivable_pt_lim_ext (fun x => / cosh x)); [intros; unfold Rdiv; ring|].
  eapply d_eq; [apply d_inv; [apply derivable_pt_lim_cosh|lra]|]. unfold tanh. field. lra.
Qed.
Lemma sech_tanh x : 1 / cosh x * (1 / cosh x) + tanh x * tanh x = 1.
Proof.
  pose proof (cosh_pos x) as P. pose proof (cosh_sinh x) as Q. unfold tanh.
  transitivity ((1 + sinh x * sinh x) / (cosh x * cosh x)); [field; lra|]. replace (1 + sinh x * sinh x) with (cosh x * cosh x) by lra. field. lra.
Qed.
Lemma tanh_arctanh v : Rabs v < 1 -> tanh (/ 2 * ln ((1 + v) / (1 - v))) = v.
Proof.
  intros V. apply Rabs_def2 in V as (V1 & V2). set (w := / 2 * ln ((1 + v) / (1 - v))).
  assert (P : 0 < (1 + v) / (1 - v)) by (apply Rdiv_lt_0_compat; lra).
  assert (Q : exp w * exp w = (1 + v) / (1 - v)).
  { rewrite <- exp_plus. replace (w + w) with (ln ((1 + v) / (1 - v))) by (unfold w; field; lra). now apply exp_ln. }
  unfold tanh, sinh, cosh. rewrite exp_Ropp. pose proof (exp_pos w) as EP.
  transitivity ((exp w * exp w - 1) / (exp w * exp w + 1)).
  { field. assert (0 < exp w * exp w) by now apply Rmult_lt_0_compat. repeat split; lra. }
  rewrite Q. field. repeat split; lra.
Qed.

(* The values that the solver obtains for ν. *)
Lemma nu_cases v : Rabs v <= 1 ->
  (exists f, eopp (ArcTanh v) = Fin f /\ tanh (- f) = v /\ Rabs v < 1) \/
  (eopp (ArcTanh v) = NegInf /\ v = 1) \/ (eopp (ArcTanh v) = PosInf /\ v = - 1).
Proof.
  intros V. unfold ArcTanh. destruct (Req_EM_T v 1) as [->|N1]; [right; left; split; reflexivity|].
  destruct (Req_EM_T v (- 1)) as [->|N2]; [right; right; split; reflexivity|]. left.
  assert (L : Rabs v < 1).
  { destruct V as [V|V]; [exact V|]. unfold Rabs in V. destruct (Rcase_abs v); [exfalso; apply N2; lra|exfalso; apply N1; lra]. }
  destruct (Rlt_dec (Rabs v) 1) as [_|F]; [|contradiction]. eexists. split; [reflexivity|]. rewrite Ropp_involutive.
  split; [now apply tanh_arctanh|exact L].
Qed.

Section Hyperbolic.
Variables Ip I2 Iq d2p d2q sigma : R.
Hypothesis Ip_pos : 0 < Ip.
Hypothesis I2_pos : 0 < I2.
Hypothesis Iq_pos : 0 < Iq.
Hypothesis d2p_pos : 0 <= d2p.
Hypothesis d2q_pos : 0 <= d2q.
Hypothesis SIGMA : sigma = 1 \/ sigma = - 1.
Hypothesis MP : I2 = Ip + sigma * d2p.
Hypothesis MQ : Iq = I2 + sigma * d2q.
Let dpq := d2p + d2q.
Hypothesis dpq_pos : 0 < dpq.
Variables x y z : R.
Hypothesis x_pos : 0 <= x.
Hypothesis z_pos : 0 <= z.
Variable G : R.
Hypothesis G_pos : 0 < G.
Hypothesis G_eq : G * G = x * x + y * y + z * z.
Let Dp := y * y * d2p / I2 + z * z * dpq / Iq.
Let Dq := x * x * dpq / Ip + y * y * d2q / I2.
Hypothesis D2_zero : x * x * d2p / Ip = z * z * d2q / Iq.
Let Bp := sqrt (Ip * Dq / dpq).
Let Bq := sqrt (Iq * Dp / dpq).
Hypothesis Bq_pos : 0 < Bq.
Let lambda := sqrt (Dp * Dq / (Ip * Iq)) / G.

Lemma identity : Ip * d2q + Iq * d2p = I2 * dpq.
Proof. rewrite MQ, MP. unfold dpq. ring. Qed.
Lemma D2_zero' : x * x * d2p * Iq = z * z * d2q * Ip.
Proof.
  transitivity (x * x * d2p / Ip * (Ip * Iq)); [field; lra|]. rewrite D2_zero. field. lra.
Qed.
Lemma Dp_eq : Dp = G * G * d2p / I2.
Proof.
  unfold Dp. rewrite G_eq. apply (Rmult_eq_reg_r (I2 * Iq)); [|apply Rgt_not_eq, Rmult_lt_0_compat; auto].
  transitivity (y * y * d2p * Iq + z * z * (I2 * dpq)); [field; split; lra|]. rewrite <- identity.
  transitivity (y * y * d2p * Iq + z * z * d2p * Iq + z * z * d2q * Ip); [ring|]. rewrite <- D2_zero'. field. lra.
Qed.
Lemma Dq_eq : Dq = G * G * d2q / I2.
Proof.
  unfold Dq. rewrite G_eq. apply (Rmult_eq_reg_r (I2 * Ip)); [|apply Rgt_not_eq, Rmult_lt_0_compat; auto].
  transitivity (y * y * d2q * Ip + x * x * (I2 * dpq)); [field; split; lra|]. rewrite <- identity.
  transitivity (y * y * d2q * Ip + x * x * d2q * Ip + x * x * d2p * Iq); [ring|]. rewrite D2_zero'. field. lra.
Qed.
Lemma GG : 0 < G * G.
Proof. now apply Rmult_lt_0_compat. Qed.
Lemma hyperbolic_Bs : 0 <= Bp /\ Bp * Bp = G * G * (Ip * d2q) / (I2 * dpq) /\ Bq * Bq = G * G * (Iq * d2p) / (I2 * dpq) /\
  Bp * Bp + Bq * Bq = G * G.
Proof.
  pose proof GG as P. assert (A : Bp * Bp = G * G * (Ip * d2q) / (I2 * dpq)).
  { unfold Bp. rewrite sqrt_sqrt; [rewrite Dq_eq; field; lra|].
    rewrite Dq_eq. apply quotient_nonneg; [|exact dpq_pos]. apply Rmult_le_pos; [lra|]. apply quotient_nonneg; [|exact I2_pos]. apply Rmult_le_pos; lra. }
  assert (B : Bq * Bq = G * G * (Iq * d2p) / (I2 * dpq)).
  { unfold Bq. rewrite sqrt_sqrt; [rewrite Dp_eq; field; lra|].
    rewrite Dp_eq. apply quotient_nonneg; [|exact dpq_pos]. apply Rmult_le_pos; [lra|]. apply quotient_nonneg; [|exact I2_pos]. apply Rmult_le_pos; lra. }
  split; [apply sqrt_pos|]. split; [exact A|]. split; [exact B|]. rewrite A, B.
  transitivity (G * G * (Ip * d2q + Iq * d2p) / (I2 * dpq)); [field; lra|]. rewrite identity. field. lra.
Qed.
Lemma hyperbolic_lambda : 0 <= lambda /\ lambda * lambda = G * G * (d2p * d2q) / (I2 * I2 * (Ip * Iq)).
Proof.
  pose proof GG as P. assert (Q : 0 < Ip * Iq) by now apply Rmult_lt_0_compat. unfold lambda. split.
  - apply quotient_nonneg; [apply sqrt_pos|exact G_pos].
  - transitivity (sqrt (Dp * Dq / (Ip * Iq)) * sqrt (Dp * Dq / (Ip * Iq)) / (G * G)); [field; lra|].
    rewrite sqrt_sqrt; [rewrite Dp_eq, Dq_eq; field; repeat split; lra|]. apply quotient_nonneg; [|exact Q].
    rewrite Dp_eq, Dq_eq. apply Rmult_le_pos; apply quotient_nonneg; auto; apply Rmult_le_pos; lra.
Qed.
Lemma hyperbolic_coefficients :
  Bp * lambda * (I2 * Iq) = d2q * (G * Bq) /\ Bq * lambda * (Ip * I2) = d2p * (G * Bp) /\ G * lambda * (Ip * Iq) = dpq * (Bp * Bq).
Proof.
  destruct hyperbolic_Bs as (BP & EP & EQ & _). destruct hyperbolic_lambda as (LP & LE).
  assert (N : dpq <> 0) by lra. assert (N1 : Ip <> 0) by lra. assert (N2 : I2 <> 0) by lra. assert (N3 : Iq <> 0) by lra.
  clearbody Bp Bq lambda dpq. split; [|split]; (apply sq_eq; [repeat apply Rmult_le_pos; lra..|]).
  - transitivity (Bp * Bp * (lambda * lambda) * (I2 * Iq * (I2 * Iq))); [ring|]. rewrite EP, LE.
    transitivity (d2q * d2q * (G * G) * (Bq * Bq)); [|ring]. rewrite EQ. field. repeat split; assumption.
  - transitivity (Bq * Bq * (lambda * lambda) * (Ip * I2 * (Ip * I2))); [ring|]. rewrite EQ, LE.
    transitivity (d2p * d2p * (G * G) * (Bp * Bp)); [|ring]. rewrite EP. field. repeat split; assumption.
  - transitivity (G * G * (lambda * lambda) * (Ip * Iq * (Ip * Iq))); [ring|]. rewrite LE.
    transitivity (dpq * dpq * (Bp * Bp) * (Bq * Bq)); [|ring]. rewrite EP, EQ. field. repeat split; assumption.
Qed.
Lemma initial_Bs : Bp * Bp * (x * x + z * z) = G * G * (x * x) /\ Bq * Bq * (x * x + z * z) = G * G * (z * z).
Proof.
  destruct hyperbolic_Bs as (_ & EP & EQ & _). rewrite EP, EQ. pose proof identity as ID. pose proof D2_zero' as Z.
  assert (P : I2 * dpq <> 0) by (apply Rgt_not_eq, Rmult_lt_0_compat; auto).
  split; (apply (Rmult_eq_reg_r (I2 * dpq)); [|exact P]).
  - transitivity (G * G * (x * x * (Ip * d2q) + z * z * d2q * Ip)); [field; lra|]. rewrite <- Z.
    transitivity (G * G * (x * x) * (Ip * d2q + Iq * d2p)); [ring|]. now rewrite ID.
  - transitivity (G * G * (x * x * d2p * Iq + z * z * (Iq * d2p))); [field; lra|]. rewrite Z.
    transitivity (G * G * (z * z) * (Ip * d2q + Iq * d2p)); [ring|]. now rewrite ID.
Qed.

Variable t0 : R.
Let nu := eopp (ArcTanh (y / G)).
Let u t := esub (lambda * (t - t0)) nu.
Definition hmp t := Bp * Sech (u t).
Definition hm2 t := G * Tanh (u t).
Definition hmq t := Bq * Sech (u t).
Lemma y_G : Rabs (y / G) <= 1.
Proof.
  rewrite <- (Rabs_R1). apply Rsqr_le_abs_0. unfold Rsqr. pose proof GG as P.
  apply (Rmult_le_reg_r (G * G)); [exact P|]. replace (y / G * (y / G) * (G * G)) with (y * y) by (field; lra).
  pose proof (Rle_0_sqr x). pose proof (Rle_0_sqr z). unfold Rsqr in *. lra.
Qed.

(* Either the momentum is not along the axis 2, or it is and it stays there. *)
Lemma u_cases :
  (exists f, nu = Fin f /\ (forall t, u t = Fin (lambda * (t - t0) - f)) /\ G * tanh (- f) = y /\ 0 < x * x + z * z) \/
  ((forall t, u t = PosInf) /\ eopp nu = PosInf /\ y = G /\ x = 0 /\ z = 0) \/
  ((forall t, u t = NegInf) /\ eopp nu = NegInf /\ y = - G /\ x = 0 /\ z = 0).
Proof.
  assert (XZ : y * y = G * G -> x = 0 /\ z = 0).
  { intros H. rewrite H in G_eq. pose proof (Rle_0_sqr x). pose proof (Rle_0_sqr z). unfold Rsqr in *.
    split; apply Rsqr_eq_0; unfold Rsqr; lra. }
  unfold u. destruct (nu_cases (y / G) y_G) as [(f & N & T & V)|[(N & V)|(N & V)]]; fold nu in N; rewrite N.
  - left. exists f. split; [reflexivity|]. split; [reflexivity|]. split; [rewrite T; field; lra|].
    assert (y * y < G * G); [|lra]. rewrite <- (Rabs_R1) in V. apply Rsqr_lt_abs_1 in V. unfold Rsqr in V.
    pose proof GG as P. apply (Rmult_lt_compat_r (G * G)) in V; [|exact P]. replace (y / G * (y / G) * (G * G)) with (y * y) in V by (field; lra). lra.
  - right; left. assert (Y : y = G) by (transitivity (y / G * G); [field; lra|rewrite V; ring]).
    destruct XZ as (X & Z); [now rewrite Y|]. repeat split; auto.
  - right; right. assert (Y : y = - G) by (transitivity (y / G * G); [field; lra|rewrite V; ring]).
    destruct XZ as (X & Z); [rewrite Y; ring|]. repeat split; auto.
Qed.
Lemma d_lin a b t : derivable_pt_lim (fun t => a * (t - t0) - b) t a.
Proof.
  eapply d_eq; [apply d_minus; [apply d_mult; [apply d_const|apply d_minus; [apply d_id|apply d_const]]|apply d_const]|]. cbn beta. ring.
Qed.
Lemma hyperbolic_initial : hmp t0 = x /\ hm2 t0 = y /\ hmq t0 = z.
Proof.
  destruct hyperbolic_Bs as (BP & _). destruct initial_Bs as (IP & IQ). unfold hmp, hm2, hmq.
  destruct u_cases as [(f & _ & U & Y & P)|[(U & _ & Y & X & Z)|(U & _ & Y & X & Z)]]; rewrite U; cbn [Sech Tanh].
  - replace (lambda * (t0 - t0) - f) with (- f) by ring. pose proof (sech_tanh (- f)) as ST. pose proof (cosh_pos (- f)) as CP.
    assert (SP : 0 < 1 / cosh (- f)) by (apply Rdiv_lt_0_compat; lra). set (sech := 1 / cosh (- f)) in *.
    assert (SS : G * G * (sech * sech) = x * x + z * z).
    { replace (sech * sech) with (1 - tanh (- f) * tanh (- f)) by lra.
      transitivity (G * G - (G * tanh (- f)) * (G * tanh (- f))); [ring|]. rewrite Y. lra. }
    split; [|split; [exact Y|]].
    + apply sq_eq; [apply Rmult_le_pos; lra|exact x_pos|]. pose proof GG as GP. apply (Rmult_eq_reg_l (G * G)); [|lra]. rewrite <- IP, <- SS. ring.
    + apply sq_eq; [apply Rmult_le_pos; lra|exact z_pos|]. pose proof GG as GP. apply (Rmult_eq_reg_l (G * G)); [|lra]. rewrite <- IQ, <- SS. ring.
  - rewrite X, Y, Z. repeat split; ring.
  - rewrite X, Y, Z. repeat split; ring.
Qed.
Lemma hyperbolic_euler t :
  derivable_pt_lim hmp t (- d2q / (I2 * Iq) * (hm2 t * hmq t)) /\
  derivable_pt_lim hm2 t (dpq / (Ip * Iq) * (hmp t * hmq t)) /\
  derivable_pt_lim hmq t (- d2p / (Ip * I2) * (hmp t * hm2 t)).
Proof.
  destruct hyperbolic_coefficients as (CP & CQ & C2). unfold hmp, hm2, hmq.
  destruct u_cases as [(f & _ & U & _)|[(U & _)|(U & _)]].
  - pose proof (d_comp _ _ t _ _ (d_lin lambda f t) (d_tanh (lambda * (t - t0) - f))) as T.
    pose proof (d_comp _ _ t _ _ (d_lin lambda f t) (d_sech (lambda * (t - t0) - f))) as S. cbn beta in S, T.
    rewrite !U. cbn [Sech Tanh]. set (th := tanh (lambda * (t - t0) - f)) in *. set (se := 1 / cosh (lambda * (t - t0) - f)) in *.
    split; [|split].
    + eapply derivable_pt_lim_ext; [intros r; rewrite U; reflexivity|]. cbn [Sech].
      eapply d_eq; [apply d_mult; [apply d_const|exact S]|]. cbn beta.
      apply (Rmult_eq_reg_r (I2 * Iq)); [|apply Rgt_not_eq, Rmult_lt_0_compat; auto].
      transitivity (- (Bp * lambda * (I2 * Iq)) * (se * th)); [ring|]. rewrite CP. field. split; lra.
    + eapply derivable_pt_lim_ext; [intros r; rewrite U; reflexivity|]. cbn [Tanh].
      eapply d_eq; [apply d_mult; [apply d_const|exact T]|]. cbn beta.
      apply (Rmult_eq_reg_r (Ip * Iq)); [|apply Rgt_not_eq, Rmult_lt_0_compat; auto].
      transitivity (G * lambda * (Ip * Iq) * (se * se)); [ring|]. rewrite C2. field. split; lra.
    + eapply derivable_pt_lim_ext; [intros r; rewrite U; reflexivity|]. cbn [Sech].
      eapply d_eq; [apply d_mult; [apply d_const|exact S]|]. cbn beta.
      apply (Rmult_eq_reg_r (Ip * I2)); [|apply Rgt_not_eq, Rmult_lt_0_compat; auto].
      transitivity (- (Bq * lambda * (Ip * I2)) * (se * th)); [ring|]. rewrite CQ. field. split; lra.
  - rewrite !U. cbn [Sech Tanh].
    repeat split; (eapply derivable_pt_lim_ext; [intros r; rewrite U; reflexivity|]); (eapply d_eq; [apply d_const|]); ring.
  - rewrite !U. cbn [Sech Tanh].
    repeat split; (eapply derivable_pt_lim_ext; [intros r; rewrite U; reflexivity|]); (eapply d_eq; [apply d_const|]); ring.
Qed.
Lemma hyperbolic_mp t : 0 <= hmp t.
Proof.
  unfold hmp. destruct hyperbolic_Bs as (BP & _). apply Rmult_le_pos; [exact BP|].
  destruct (u t) as [r| | |]; cbn; try lra. pose proof (cosh_pos r). left. apply Rdiv_lt_0_compat; lra.
Qed.
Lemma hyperbolic_energy t : hmp t * hmp t / Ip + hm2 t * hm2 t / I2 + hmq t * hmq t / Iq = G * G / I2.
Proof.
  destruct hyperbolic_Bs as (_ & EP & EQ & _). unfold hmp, hm2, hmq.
  destruct u_cases as [(f & _ & U & _)|[(U & _)|(U & _)]]; rewrite U; cbn [Sech Tanh]; try (field; repeat split; lra).
  pose proof (sech_tanh (lambda * (t - t0) - f)) as ST. set (se := 1 / cosh (lambda * (t - t0) - f)) in *. set (th := tanh (lambda * (t - t0) - f)) in *.
  transitivity (Bp * Bp * (se * se) / Ip + G * G * (th * th) / I2 + Bq * Bq * (se * se) / Iq); [field; repeat split; lra|]. rewrite EP, EQ.
  transitivity (G * G / I2 * ((d2p + d2q) / dpq * (se * se) + th * th)); [field; repeat split; lra|]. fold dpq.
  transitivity (G * G / I2 * (se * se + th * th)); [field; repeat split; lra|]. rewrite ST. field. lra.
Qed.

(* The angle. *)
Definition hpsi t := G / I2 * (t - t0) + - (2 * sigma) *
  (ArcTan2 ((Bp - G) * Tanh (ehalf (u t))) Bq - ArcTan2 ((Bp - G) * Tanh (ehalf (eopp nu))) Bq).
Definition hyperbolic_rate t := G / I2 + sigma * (lambda * (Bq * Sech (u t)) / (G + hmp t)).
Lemma Bp_G : 0 < G - Bp.
Proof.
  destruct hyperbolic_Bs as (BP & _ & _ & S). pose proof (Rmult_lt_0_compat _ _ Bq_pos Bq_pos) as Q.
  assert (Bp < G); [|lra]. apply Rsqr_incrst_0; unfold Rsqr; lra.
Qed.
Lemma hyperbolic_angle t : angle_derivative hpsi t (hyperbolic_rate t).
Proof.
  unfold hyperbolic_rate, hmp. destruct hyperbolic_Bs as (BP & _ & _ & SUM). pose proof Bp_G as BG.
  destruct u_cases as [(f & N & U & _)|[(U & N & _)|(U & N & _)]].
  - rewrite U. cbn [Sech]. set (w := lambda * (t - t0) - f) in *.
    assert (W2 : derivable_pt_lim (fun t => / 2 * (lambda * (t - t0) - f)) t (/ 2 * lambda)).
    { eapply d_eq; [apply d_mult; [apply d_const|apply d_lin]|]. cbn beta. ring. }
    pose proof (d_comp _ _ t _ _ W2 (d_tanh (/ 2 * (lambda * (t - t0) - f)))) as T. cbn beta in T. fold w in T.
    assert (AT : angle_derivative (fun t => ArcTan2 ((Bp - G) * Tanh (ehalf (u t))) Bq) t (- / 2 * (lambda * (Bq * (1 / cosh w)) / (G + Bp * (1 / cosh w))))).
    { apply (ad_ext (fun t => ArcTan2 ((Bp - G) * tanh (/ 2 * (lambda * (t - t0) - f))) Bq)); [intros r; now rewrite U|].
      eapply ad_eq; [apply (ad_arctan2 (fun _ => Bq) (fun t => (Bp - G) * tanh (/ 2 * (lambda * (t - t0) - f))))|].
      - intros r. pose proof (Rmult_lt_0_compat _ _ Bq_pos Bq_pos). pose proof (Rle_0_sqr ((Bp - G) * tanh (/ 2 * (lambda * (r - t0) - f)))). unfold Rsqr in *. lra.
      - apply d_const.
      - apply d_mult; [apply d_const|exact T].
      - cbn beta. fold w. pose proof (cosh_pos w) as CW. pose proof (cosh_pos (/ 2 * w)) as CH. pose proof (cosh_sinh (/ 2 * w)) as CS.
        pose proof (cosh_double w) as CD. unfold tanh. set (ch := cosh (/ 2 * w)) in *. set (sh := sinh (/ 2 * w)) in *.
        assert (K : Bq * Bq * (ch * ch) + (Bp - G) * (Bp - G) * (sh * sh) = (G - Bp) * (G * cosh w + Bp)).
        { replace (Bq * Bq) with ((G - Bp) * (G + Bp)) by lra. rewrite CD. 
          transitivity ((G - Bp) * (G * (ch * ch + sh * sh) + Bp * (ch * ch - sh * sh))); [ring|]. rewrite CS. ring. }
        assert (GC : 0 < G * cosh w) by now apply Rmult_lt_0_compat.
        assert (KP : 0 < (G - Bp) * (G * cosh w + Bp)) by (apply Rmult_lt_0_compat; lra).
        transitivity (Bq * (Bp - G) * (/ 2 * lambda) / (Bq * Bq * (ch * ch) + (Bp - G) * (Bp - G) * (sh * sh))).
        { field. split; [rewrite <- K in KP; lra|lra]. }
        rewrite K. field. repeat split; lra. }
    apply (ad_ext (fun t => (G / I2 * (t - t0) - - (2 * sigma) * ArcTan2 ((Bp - G) * Tanh (ehalf (eopp nu))) Bq) +
       (- sigma * ArcTan2 ((Bp - G) * Tanh (ehalf (u t))) Bq + - sigma * ArcTan2 ((Bp - G) * Tanh (ehalf (u t))) Bq))).
    { intros r. unfold hpsi. ring. }
    assert (AS : angle_derivative (fun t => - sigma * ArcTan2 ((Bp - G) * Tanh (ehalf (u t))) Bq) t (sigma * (/ 2 * (lambda * (Bq * (1 / cosh w)) / (G + Bp * (1 / cosh w)))))).
    { destruct SIGMA as [-> | ->].
      - eapply ad_ext; [|eapply ad_eq; [apply ad_opp, AT|]]; [intros; cbn beta|]; ring.
      - eapply ad_ext; [|eapply ad_eq; [apply AT|]]; [intros; cbn beta|]; ring. }
    eapply ad_eq; [apply ad_plus; [apply ad_lin, d_lin|apply ad_plus; exact AS]|]. field.
    pose proof (cosh_pos w) as CW. pose proof (Rmult_lt_0_compat _ _ G_pos CW). repeat split; lra.
  - rewrite U. cbn [Sech]. apply (ad_ext (fun t => G / I2 * (t - t0) - 0)).
    { intros r. unfold hpsi. rewrite U, N. ring. }
    eapply ad_eq; [apply ad_lin, d_lin|]. field. lra.
  - rewrite U. cbn [Sech]. apply (ad_ext (fun t => G / I2 * (t - t0) - 0)).
    { intros r. unfold hpsi. rewrite U, N. ring. }
    eapply ad_eq; [apply ad_lin, d_lin|]. field. lra.
Qed.
Lemma hyperbolic_rate_eq t :
  hyperbolic_rate t * (G + hmp t) = hmp t * hmp t / Ip + hm2 t * hm2 t / I2 + hmq t * hmq t / Iq + G * (hmp t / Ip).
Proof.
  rewrite hyperbolic_energy. destruct hyperbolic_coefficients as (_ & CQ & _). pose proof (hyperbolic_mp t) as MN.
  unfold hyperbolic_rate.
  transitivity (G * G / I2 + G * hmp t / I2 + sigma * (Bq * lambda * (Ip * I2)) * Sech (u t) / (Ip * I2)); [field; repeat split; lra|].
  rewrite CQ. transitivity (G * G / I2 + G * hmp t * (Ip + sigma * d2p) / (Ip * I2)); [unfold hmp; field; split; lra|]. rewrite <- MP. field. split; lra.
Qed.
Lemma hyperbolic_psi0 : hpsi t0 = 0.
Proof.
  unfold hpsi. replace (u t0) with (eopp nu); [ring|]. unfold u. destruct nu; cbn; try reflexivity. f_equal. ring.
Qed.
End Hyperbolic.
