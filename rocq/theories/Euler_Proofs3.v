(* The solutions that use elliptic functions: formulæ i and ii are the same, the axes 1 and 3 being exchanged.  The axis p is
   the one about which m turns, q is the other one. *)
From Coq Require Import Reals Lra Psatz.
From Verif Require Import Geometry_Model Geometry_Proofs Geometry_Proofs2 VectorCalculus_Proofs Hermite_Model RotatingBody_Model RotatingBody_Proofs.
From Verif Require Import Euler_Model Euler_Spec Euler_Proofs Euler_Proofs2.
Local Open Scope R_scope.

Section Jacobi.
Variable E : elliptic.
Hypothesis EF : elliptic_functions E.
Variable mc : R.
Hypothesis MC : 0 < mc <= 1.
Let am u := JacobiAmplitude E u mc.
Let sn u := JacobiSN E u mc.
Let cn u := JacobiCN E u mc.
Let dn u := JacobiDN E u mc.

Lemma sn_cn u : sn u * sn u + cn u * cn u = 1.
Proof.
  destruct (EF mc MC) as (_ & _ & _ & J & _). destruct (J u) as (S & C & _). unfold sn, cn. rewrite S, C.
  pose proof (sin2_cos2 (JacobiAmplitude E u mc)) as Q. unfold Rsqr in Q. exact Q.
Qed.
Lemma delta_pos phi : 0 < 1 - (1 - mc) * (sin phi * sin phi).
Proof.
  pose proof (sin2_cos2 phi) as Q. unfold Rsqr in Q. pose proof (Rle_0_sqr (sin phi)) as P. pose proof (Rle_0_sqr (cos phi)) as P'.
  unfold Rsqr in P, P'. nra.
Qed.
Lemma dn_eq u : 0 < dn u /\ dn u * dn u = 1 - (1 - mc) * (sn u * sn u).
Proof.
  destruct (EF mc MC) as (_ & _ & _ & J & _). destruct (J u) as (S & _ & D). unfold dn, sn. rewrite D, S.
  pose proof (delta_pos (JacobiAmplitude E u mc)). split; [now apply sqrt_lt_R0|]. apply sqrt_sqrt. lra.
Qed.
Lemma d_am u : derivable_pt_lim am u (dn u).
Proof.
  destruct (EF mc MC) as (A & _ & _ & J & _). destruct (J u) as (_ & _ & D). unfold dn. rewrite D. apply A.
Qed.
Lemma d_sn u : derivable_pt_lim sn u (cn u * dn u).
Proof.
  destruct (EF mc MC) as (_ & _ & _ & J & _). destruct (J u) as (_ & C & _). unfold cn. rewrite C.
  eapply derivable_pt_lim_ext; [intros t; symmetry; exact (proj1 (J t))|].
  apply (d_comp am sin); [apply d_am|]. apply derivable_pt_lim_sin.
Qed.
Lemma d_cn u : derivable_pt_lim cn u (- sn u * dn u).
Proof.
  destruct (EF mc MC) as (_ & _ & _ & J & _). destruct (J u) as (S & _ & _). unfold sn. rewrite S.
  eapply derivable_pt_lim_ext; [intros t; symmetry; exact (proj1 (proj2 (J t)))|].
  apply (d_comp am cos); [apply d_am|]. apply derivable_pt_lim_cos.
Qed.
Lemma d_dn u : derivable_pt_lim dn u (- (1 - mc) * sn u * cn u).
Proof.
  destruct (dn_eq u) as (DP & DD). pose proof (d_sn u) as S.
  apply (derivable_pt_lim_ext (fun u => sqrt (1 - (1 - mc) * (sn u * sn u)))).
  { intros t. cbn beta. destruct (dn_eq t) as (P & <-). apply sqrt_square. lra. }
  eapply d_eq.
  - apply (d_comp (fun u => 1 - (1 - mc) * (sn u * sn u)) sqrt).
    + apply d_minus; [apply d_const|]. apply d_mult; [apply d_const|]. apply d_mult; exact S.
    + apply derivable_pt_lim_sqrt. rewrite <- DD. now apply Rmult_lt_0_compat.
  - cbn beta. rewrite <- DD, sqrt_square by lra. field. lra.
Qed.
End Jacobi.

Lemma sq_eq a b : 0 <= a -> 0 <= b -> a * a = b * b -> a = b.
Proof. intros A B H. apply Rsqr_inj; assumption. Qed.
Lemma sqrt_sq x y : 0 < y -> 0 <= x -> sqrt (x / y) * sqrt (x / y) * y = x.
Proof.
  intros Y X. rewrite sqrt_sqrt; [field; lra|]. unfold Rdiv. apply Rmult_le_pos; [exact X|]. left. now apply Rinv_0_lt_compat.
Qed.

Section Elliptic.
Variable E : elliptic.
Hypothesis EF : elliptic_functions E.
(* The moments of inertia; the sign sigma is 1 for formula i and - 1 for formula ii. *)
Variables Ip I2 Iq d2p d2q sigma : R.
Hypothesis Ip_pos : 0 < Ip.
Hypothesis I2_pos : 0 < I2.
Hypothesis Iq_pos : 0 < Iq.
Hypothesis d2p_pos : 0 < d2p.
Hypothesis d2q_pos : 0 <= d2q.
Hypothesis SIGMA : sigma = 1 \/ sigma = - 1.
Hypothesis MP : I2 = Ip + sigma * d2p.
Hypothesis MQ : Iq = I2 + sigma * d2q.
Let dpq := d2p + d2q.
Variables x y z : R.    (* The coordinates along p, 2, q. *)
Hypothesis x_pos : 0 < x.
Variable G : R.
Hypothesis G_pos : 0 < G.
Hypothesis G_eq : G * G = x * x + y * y + z * z.
Let Dp := y * y * d2p / I2 + z * z * dpq / Iq.
Let Dq := x * x * dpq / Ip + y * y * d2q / I2.
Let D2 := x * x * d2p / Ip - z * z * d2q / Iq.
Hypothesis D2_pos : 0 < D2.
Let Bp := sqrt (Ip * Dq / dpq).
Let Bq := sqrt (Iq * Dp / dpq).
Let B2 := sqrt (I2 * Dp / d2p).
Let mc := D2 * dpq / (Dq * d2p).
Let lambda := - sqrt (Dq * d2p / (Ip * I2 * Iq)).
Let nu := EllipticF E (ArcTan2 (y * Bq) (z * B2)) mc.
Let n := - (Ip * d2q) / (Iq * d2p).
Let c := sqrt (Iq * d2p).
Let s := sqrt (I2 * dpq).

Lemma dpq_pos : 0 < dpq.
Proof. unfold dpq. lra. Qed.
Lemma quotient_nonneg a b : 0 <= a -> 0 < b -> 0 <= a / b.
Proof. intros A B. apply Rmult_le_pos; [exact A|]. left. now apply Rinv_0_lt_compat. Qed.
Lemma Dp_nonneg : 0 <= Dp.
Proof.
  pose proof dpq_pos. unfold Dp. apply Rplus_le_le_0_compat; apply quotient_nonneg; auto; apply Rmult_le_pos; try lra; apply Rle_0_sqr.
Qed.
Lemma Dq_pos : 0 < Dq.
Proof.
  pose proof dpq_pos. unfold Dq. apply Rplus_lt_le_0_compat.
  - apply Rdiv_lt_0_compat; auto. repeat apply Rmult_lt_0_compat; auto.
  - apply quotient_nonneg; auto; apply Rmult_le_pos; try lra; apply Rle_0_sqr.
Qed.
Lemma k2_eq : (1 - mc) * (Dq * d2p) = d2q * Dp.
Proof.
  pose proof Dq_pos. transitivity (Dq * d2p - D2 * dpq); [unfold mc; field; split; lra|].
  unfold Dq, D2, Dp, dpq. field. repeat split; lra.
Qed.
Lemma mc_range : 0 < mc <= 1.
Proof.
  pose proof Dq_pos. pose proof dpq_pos. pose proof Dp_nonneg. assert (P : 0 < Dq * d2p) by now apply Rmult_lt_0_compat. split.
  - unfold mc. apply Rdiv_lt_0_compat; auto. now apply Rmult_lt_0_compat.
  - pose proof k2_eq as K. assert (Q : 0 <= d2q * Dp) by now apply Rmult_le_pos. rewrite <- K in Q.
    destruct (Rle_dec mc 1) as [?|N]; [assumption|]. exfalso. apply Rnot_le_lt in N.
    assert ((1 - mc) * (Dq * d2p) < 0); [|lra]. replace ((1 - mc) * (Dq * d2p)) with (- ((mc - 1) * (Dq * d2p))) by ring.
    pose proof (Rmult_lt_0_compat (mc - 1) (Dq * d2p)). lra.
Qed.
Lemma Bs : 0 <= Bp /\ 0 <= Bq /\ 0 <= B2 /\ Bp * Bp * dpq = Ip * Dq /\ Bq * Bq * dpq = Iq * Dp /\ B2 * B2 * d2p = I2 * Dp.
Proof.
  pose proof Dq_pos. pose proof dpq_pos. pose proof Dp_nonneg. repeat split; try apply sqrt_pos; apply sqrt_sq; auto;
  apply Rmult_le_pos; lra.
Qed.
Lemma lambda_eq : lambda < 0 /\ lambda * lambda * (Ip * I2 * Iq) = Dq * d2p.
Proof.
  pose proof Dq_pos. assert (P : 0 < Ip * I2 * Iq) by (repeat apply Rmult_lt_0_compat; auto).
  assert (Q : 0 < Dq * d2p) by now apply Rmult_lt_0_compat. unfold lambda. split.
  - assert (0 < sqrt (Dq * d2p / (Ip * I2 * Iq))) by (apply sqrt_lt_R0; now apply Rdiv_lt_0_compat). lra.
  - replace (- sqrt (Dq * d2p / (Ip * I2 * Iq)) * - sqrt (Dq * d2p / (Ip * I2 * Iq)))
      with (sqrt (Dq * d2p / (Ip * I2 * Iq)) * sqrt (Dq * d2p / (Ip * I2 * Iq))) by ring. apply sqrt_sq; lra.
Qed.

(* The coefficients of the equations of Euler. *)
Lemma coefficients :
  - B2 * lambda * (Ip * Iq) = dpq * (Bp * Bq) /\
  - Bq * lambda * (Ip * I2) = d2p * (Bp * B2) /\
  - Bp * (1 - mc) * lambda * (I2 * Iq) = d2q * (B2 * Bq).
Proof.
  destruct Bs as (P1 & P2 & P3 & EP & EQ & E2). destruct lambda_eq as (LN & LE). pose proof mc_range as M. pose proof k2_eq as K.
  pose proof Dq_pos as QP. pose proof dpq_pos as DP. clearbody mc Bp Bq B2 lambda Dp Dq dpq.
  set (l := - lambda). assert (LL : l * l * (Ip * I2 * Iq) = Dq * d2p) by (unfold l; rewrite <- LE; ring).
  assert (LP : 0 <= l) by (unfold l; lra). assert (LEQ : - lambda = l) by reflexivity. clearbody l.
  assert (KM : 0 <= 1 - mc) by lra.
  assert (N1 : Ip <> 0) by lra. assert (N2 : I2 <> 0) by lra. assert (N3 : Iq <> 0) by lra. assert (N4 : d2p <> 0) by lra.
  assert (N5 : dpq <> 0) by lra. assert (N6 : Dq <> 0) by lra.
  assert (EP' : Bp * Bp = Ip * Dq / dpq) by (rewrite <- EP; field; repeat split; assumption).
  assert (EQ' : Bq * Bq = Iq * Dp / dpq) by (rewrite <- EQ; field; repeat split; assumption).
  assert (E2' : B2 * B2 = I2 * Dp / d2p) by (rewrite <- E2; field; repeat split; assumption).
  assert (LL' : l * l = Dq * d2p / (Ip * I2 * Iq)) by (rewrite <- LL; field; repeat split; assumption).
  assert (K' : 1 - mc = d2q * Dp / (Dq * d2p)) by (rewrite <- K; field; repeat split; assumption).
  split; [|split].
  - transitivity (B2 * - lambda * (Ip * Iq)); [ring|]. rewrite LEQ. apply sq_eq; [repeat apply Rmult_le_pos; lra..|].
    transitivity ((B2 * B2) * (l * l) * (Ip * Iq * (Ip * Iq))); [ring|].
    transitivity (dpq * dpq * (Bp * Bp) * (Bq * Bq)); [|ring]. rewrite EP', EQ', E2', LL'. field; repeat split; assumption.
  - transitivity (Bq * - lambda * (Ip * I2)); [ring|]. rewrite LEQ. apply sq_eq; [repeat apply Rmult_le_pos; lra..|].
    transitivity ((Bq * Bq) * (l * l) * (Ip * I2 * (Ip * I2))); [ring|].
    transitivity (d2p * d2p * (Bp * Bp) * (B2 * B2)); [|ring]. rewrite EP', EQ', E2', LL'. field; repeat split; assumption.
  - transitivity (Bp * (1 - mc) * - lambda * (I2 * Iq)); [ring|]. rewrite LEQ. apply sq_eq; [repeat apply Rmult_le_pos; lra..|].
    transitivity ((Bp * Bp) * ((1 - mc) * (1 - mc)) * (l * l) * (I2 * Iq * (I2 * Iq))); [ring|].
    transitivity (d2q * d2q * (B2 * B2) * (Bq * Bq)); [|ring]. rewrite K', EP', EQ', E2', LL'. field; repeat split; assumption.
Qed.

(* The initial values. *)
Lemma initial_polar : let phi := ArcTan2 (y * Bq) (z * B2) in B2 * sin phi = y /\ Bq * cos phi = z.
Proof.
  intros phi. destruct Bs as (_ & P2 & P3 & _ & EQ & E2). pose proof Dp_nonneg as N. pose proof dpq_pos as DP.
  destruct N as [N|N].
  - assert (Q2 : 0 < B2).
    { destruct P3 as [?|Z]; [assumption|]. rewrite <- Z in E2. pose proof (Rmult_lt_0_compat I2 Dp). lra. }
    assert (QQ : 0 < Bq).
    { destruct P2 as [?|Z]; [assumption|]. rewrite <- Z in EQ. pose proof (Rmult_lt_0_compat Iq Dp). lra. }
    assert (RHO : z * B2 * (z * B2) + y * Bq * (y * Bq) = B2 * Bq * (B2 * Bq)).
    { assert (EQ' : Bq * Bq = Iq * Dp / dpq) by (rewrite <- EQ; field; lra).
      assert (E2' : B2 * B2 = I2 * Dp / d2p) by (rewrite <- E2; field; lra).
      transitivity (z * z * (B2 * B2) + y * y * (Bq * Bq)); [ring|].
      transitivity (B2 * B2 * (Bq * Bq)); [|ring]. rewrite EQ', E2'.
      transitivity (I2 * Iq * Dp * (y * y * d2p / I2 + z * z * dpq / Iq) / (dpq * d2p)); [field; repeat split; lra|].
      fold Dp. field. repeat split; lra. }
    assert (NZ : z * B2 <> 0 \/ y * Bq <> 0).
    { destruct (Req_dec (z * B2) 0) as [A|A]; [|now left]. right. intros A'. rewrite A, A' in RHO.
      pose proof (Rmult_lt_0_compat _ _ (Rmult_lt_0_compat _ _ Q2 QQ) (Rmult_lt_0_compat _ _ Q2 QQ)). lra. }
    destruct (arctan2_polar (y * Bq) (z * B2) NZ) as (_ & X & Y). fold phi in X, Y. rewrite RHO in X, Y.
    rewrite sqrt_square in X, Y by (apply Rmult_le_pos; lra). split.
    + apply (Rmult_eq_reg_r Bq); [|lra]. rewrite Y. ring.
    + apply (Rmult_eq_reg_r B2); [|lra]. rewrite X. ring.
  - rewrite <- N in EQ, E2.
    assert (Z2 : B2 = 0) by (apply Rsqr_eq_0; unfold Rsqr; apply (Rmult_eq_reg_r d2p); lra).
    assert (ZQ : Bq = 0) by (apply Rsqr_eq_0; unfold Rsqr; apply (Rmult_eq_reg_r dpq); lra).
    assert (A : 0 <= y * y * d2p / I2) by (apply quotient_nonneg; auto; apply Rmult_le_pos; try lra; apply Rle_0_sqr).
    assert (B : 0 <= z * z * dpq / Iq) by (apply quotient_nonneg; auto; apply Rmult_le_pos; try lra; apply Rle_0_sqr).
    assert (ZY : y = 0).
    { apply Rsqr_eq_0. unfold Rsqr. apply (Rmult_eq_reg_r (d2p / I2)); [|apply Rgt_not_eq, Rdiv_lt_0_compat; auto].
      unfold Dp in N. transitivity (y * y * d2p / I2); [unfold Rdiv; ring|]. lra. }
    assert (ZZ : z = 0).
    { apply Rsqr_eq_0. unfold Rsqr. apply (Rmult_eq_reg_r (dpq / Iq)); [|apply Rgt_not_eq, Rdiv_lt_0_compat; auto].
      unfold Dp in N. transitivity (z * z * dpq / Iq); [unfold Rdiv; ring|]. lra. }
    rewrite Z2, ZQ, ZY, ZZ. split; ring.
Qed.
Lemma initial_values :
  Bp * JacobiDN E (- nu) mc = x /\ - B2 * JacobiSN E (- nu) mc = y /\ Bq * JacobiCN E (- nu) mc = z.
Proof.
  pose proof mc_range as M. destruct (EF mc M) as (_ & O & F & J & _). destruct (J (- nu)) as (S & C & _).
  destruct initial_polar as (Y & Z).
  assert (A : JacobiAmplitude E (- nu) mc = - ArcTan2 (y * Bq) (z * B2)) by (rewrite O; unfold nu; now rewrite F).
  rewrite A in S, C. rewrite sin_neg in S. rewrite cos_neg in C.
  destruct (dn_eq E EF mc M (- nu)) as (DP & DD). destruct Bs as (P1 & P2 & P3 & EP & EQ & E2). rewrite S in DD |- *. rewrite C.
  pose proof k2_eq as K. pose proof Dq_pos as QP. pose proof dpq_pos as DPQ.
  split; [|split; [rewrite <- Y at 2; ring|rewrite <- Z at 2; reflexivity]].
  apply sq_eq; [apply Rmult_le_pos; lra|lra|].
  transitivity (Bp * Bp * (JacobiDN E (- nu) mc * JacobiDN E (- nu) mc)); [ring|]. rewrite DD.
  set (sp := sin (ArcTan2 (y * Bq) (z * B2))) in *.
  assert (EP' : Bp * Bp = Ip * Dq / dpq) by (rewrite <- EP; field; lra).
  assert (K' : (1 - mc) * Dq = d2q * Dp / d2p) by (apply (Rmult_eq_reg_r d2p); [|lra]; rewrite Rmult_assoc, K; field; lra).
  assert (D' : Dp / d2p * (sp * sp) = y * y / I2).
  { rewrite <- Y. replace (B2 * sp * (B2 * sp)) with (B2 * B2 * (sp * sp)) by ring.
    replace (B2 * B2) with (I2 * Dp / d2p) by (rewrite <- E2; field; lra). field. lra. }
  rewrite EP'. transitivity (Ip / dpq * (Dq - (1 - mc) * Dq * (sp * sp))); [field; lra|]. rewrite K'.
  transitivity (Ip / dpq * (Dq - d2q * (Dp / d2p * (sp * sp)))); [field; lra|]. rewrite D'. unfold Dq. field. repeat split; lra.
Qed.

(* The motion. *)
Variable t0 : R.
Let u t := lambda * (t - t0) - nu.
Definition emp t := Bp * JacobiDN E (u t) mc.
Definition em2 t := - B2 * JacobiSN E (u t) mc.
Definition emq t := Bq * JacobiCN E (u t) mc.

Lemma d_u t : derivable_pt_lim u t lambda.
Proof.
  unfold u. eapply d_eq; [apply d_minus; [apply d_mult; [apply d_const|apply d_minus; [apply d_id|apply d_const]]|apply d_const]|].
  cbn beta. ring.
Qed.
Lemma elliptic_euler t :
  derivable_pt_lim emp t (- d2q / (I2 * Iq) * (em2 t * emq t)) /\
  derivable_pt_lim em2 t (dpq / (Ip * Iq) * (emp t * emq t)) /\
  derivable_pt_lim emq t (- d2p / (Ip * I2) * (emp t * em2 t)).
Proof.
  pose proof mc_range as M. pose proof (d_u t) as U. destruct coefficients as (C2 & CQ & CP).
  pose proof (d_comp u _ t _ _ U (d_sn E EF mc M (u t))) as S.
  pose proof (d_comp u _ t _ _ U (d_cn E EF mc M (u t))) as C.
  pose proof (d_comp u _ t _ _ U (d_dn E EF mc M (u t))) as D.
  unfold emp, em2, emq. split; [|split].
  - eapply d_eq; [apply d_mult; [apply d_const|exact D]|]. cbn beta.
    apply (Rmult_eq_reg_r (I2 * Iq)); [|apply Rgt_not_eq, Rmult_lt_0_compat; auto].
    transitivity (- Bp * (1 - mc) * lambda * (I2 * Iq) * (JacobiSN E (u t) mc * JacobiCN E (u t) mc)); [ring|]. rewrite CP.
    field. split; lra.
  - eapply d_eq; [apply d_mult; [apply d_const|exact S]|]. cbn beta.
    apply (Rmult_eq_reg_r (Ip * Iq)); [|apply Rgt_not_eq, Rmult_lt_0_compat; auto].
    transitivity (- B2 * lambda * (Ip * Iq) * (JacobiCN E (u t) mc * JacobiDN E (u t) mc)); [ring|]. rewrite C2.
    field. split; lra.
  - eapply d_eq; [apply d_mult; [apply d_const|exact C]|]. cbn beta.
    apply (Rmult_eq_reg_r (Ip * I2)); [|apply Rgt_not_eq, Rmult_lt_0_compat; auto].
    transitivity (- Bq * lambda * (Ip * I2) * (JacobiSN E (u t) mc * JacobiDN E (u t) mc)); [ring|]. rewrite CQ.
    field. split; lra.
Qed.
Lemma elliptic_initial : emp t0 = x /\ em2 t0 = y /\ emq t0 = z.
Proof.
  assert (U : u t0 = - nu) by (unfold u; ring). unfold emp, em2, emq. rewrite U. apply initial_values.
Qed.
Lemma mp_nonneg t : 0 <= emp t.
Proof.
  unfold emp. destruct Bs as (P & _). destruct (dn_eq E EF mc mc_range (u t)) as (D & _). apply Rmult_le_pos; lra.
Qed.
Lemma elliptic_norm t : emp t * emp t + em2 t * em2 t + emq t * emq t = G * G.
Proof.
  transitivity (emp t0 * emp t0 + em2 t0 * em2 t0 + emq t0 * emq t0);
    [|destruct elliptic_initial as (A & B & C); now rewrite A, B, C, G_eq].
  apply (constant_function (fun t => emp t * emp t + em2 t * em2 t + emq t * emq t)). clear t. intros t.
  destruct (elliptic_euler t) as (P & Q & S).
  eapply d_eq; [apply d_plus; [apply d_plus|]; apply d_mult; eassumption|]. cbn beta.
  transitivity (2 * (emp t * em2 t * emq t) * (- d2q / (I2 * Iq) + dpq / (Ip * Iq) - d2p / (Ip * I2))); [field; repeat split; lra|].
  transitivity (2 * (emp t * em2 t * emq t) * ((- d2q * Ip + dpq * I2 - d2p * Iq) / (Ip * I2 * Iq))); [field; repeat split; lra|].
  replace (- d2q * Ip + dpq * I2 - d2p * Iq) with 0; [unfold Rdiv; ring|]. rewrite MQ, MP. unfold dpq. ring.
Qed.

(* The angle. *)
Let psi_pi := - sigma * (G * dpq) / (lambda * Ip * Iq).
Let W t := 1 - n * (JacobiSN E (u t) mc * JacobiSN E (u t) mc).
Lemma n_neg : n <= 0.
Proof.
  unfold n. replace (- (Ip * d2q) / (Iq * d2p)) with (- (Ip * d2q / (Iq * d2p))) by (field; split; lra).
  assert (0 <= Ip * d2q / (Iq * d2p)); [|lra]. apply quotient_nonneg; [apply Rmult_le_pos|apply Rmult_lt_0_compat]; lra.
Qed.
Lemma W_pos t : 0 < W t.
Proof.
  unfold W. pose proof n_neg as N. pose proof (Rle_0_sqr (JacobiSN E (u t) mc)) as S. unfold Rsqr in S.
  assert (0 <= - n * (JacobiSN E (u t) mc * JacobiSN E (u t) mc)) by (apply Rmult_le_pos; lra). lra.
Qed.
Lemma cs_eq : 0 < c /\ 0 < s /\ c * c = Iq * d2p /\ s * s = I2 * dpq /\ s * c * lambda * Ip = - (Bp * dpq * d2p).
Proof.
  pose proof dpq_pos as DP. assert (A : 0 < Iq * d2p) by now apply Rmult_lt_0_compat. assert (B : 0 < I2 * dpq) by now apply Rmult_lt_0_compat.
  assert (C : c * c = Iq * d2p) by (apply sqrt_sqrt; lra). assert (S : s * s = I2 * dpq) by (apply sqrt_sqrt; lra).
  assert (CP : 0 < c) by now apply sqrt_lt_R0. assert (SP : 0 < s) by now apply sqrt_lt_R0.
  repeat split; try assumption. destruct lambda_eq as (LN & LE). destruct Bs as (BP & _ & _ & EP & _).
  assert (K : s * c * - lambda * Ip = Bp * dpq * d2p).
  { apply sq_eq; [repeat apply Rmult_le_pos; lra..|].
    transitivity (s * s * (c * c) * (lambda * lambda * (Ip * I2 * Iq)) * Ip / (I2 * Iq)); [field; split; lra|]. rewrite LE, C, S.
    transitivity (Bp * Bp * dpq * (dpq * d2p * d2p)); [|ring]. rewrite EP. field. split; lra. }
  rewrite <- K. ring.
Qed.
Lemma denominator_eq t :
  c * JacobiCN E (u t) mc * (c * JacobiCN E (u t) mc) + s * JacobiSN E (u t) mc * (s * JacobiSN E (u t) mc) = Iq * d2p * W t.
Proof.
  destruct cs_eq as (_ & _ & C & S & _). pose proof (sn_cn E EF mc mc_range (u t)) as Q. unfold W.
  set (sn := JacobiSN E (u t) mc) in *. set (cn := JacobiCN E (u t) mc) in *.
  transitivity (c * c * (cn * cn) + s * s * (sn * sn)); [ring|]. rewrite C, S. replace (cn * cn) with (1 - sn * sn) by lra.
  transitivity (Iq * d2p + (I2 * dpq - Iq * d2p) * (sn * sn)); [ring|].
  replace (I2 * dpq - Iq * d2p) with (Ip * d2q) by (rewrite MQ, MP; unfold dpq; ring). unfold n. field. split; lra.
Qed.
Lemma W_eq t : Dp * Iq * W t = dpq * (em2 t * em2 t + emq t * emq t).
Proof.
  destruct Bs as (_ & _ & _ & _ & EQ & E2). pose proof (sn_cn E EF mc mc_range (u t)) as Q. pose proof dpq_pos as DP. unfold W, em2, emq.
  set (sn := JacobiSN E (u t) mc) in *. set (cn := JacobiCN E (u t) mc) in *.
  transitivity (B2 * B2 * d2p * (sn * sn) * dpq / d2p + Bq * Bq * dpq * (cn * cn)); [|field; lra]. rewrite EQ, E2.
  replace (cn * cn) with (1 - sn * sn) by lra.
  transitivity (Dp * Iq + Dp * (I2 * dpq - Iq * d2p) / d2p * (sn * sn)); [|field; lra].
  replace (I2 * dpq - Iq * d2p) with (Ip * d2q) by (rewrite MQ, MP; unfold dpq; ring). unfold n. field. split; lra.
Qed.
Lemma energy_eq t : G * G - sigma * Dp = Ip * (emp t * emp t / Ip + em2 t * em2 t / I2 + emq t * emq t / Iq).
Proof.
  rewrite <- (elliptic_norm t). destruct Bs as (_ & _ & _ & _ & EQ & E2). pose proof (sn_cn E EF mc mc_range (u t)) as Q. pose proof dpq_pos as DP.
  assert (K : Dp = em2 t * em2 t * d2p / I2 + emq t * emq t * dpq / Iq).
  { unfold em2, emq. set (sn := JacobiSN E (u t) mc) in *. set (cn := JacobiCN E (u t) mc) in *.
    transitivity (B2 * B2 * d2p * (sn * sn) / I2 + Bq * Bq * dpq * (cn * cn) / Iq); [|field; split; lra]. rewrite EQ, E2.
    replace (cn * cn) with (1 - sn * sn) by lra. field. split; lra. }
  rewrite K.
  transitivity (emp t * emp t + em2 t * em2 t * (I2 - sigma * d2p) / I2 + emq t * emq t * (Iq - sigma * dpq) / Iq); [field; split; lra|].
  replace (I2 - sigma * d2p) with Ip by (rewrite MP; ring).
  replace (Iq - sigma * dpq) with Ip by (rewrite MQ, MP; unfold dpq; ring). field. repeat split; lra.
Qed.
Definition epsi t := G / Ip * (t - t0) +
  (psi_pi * EllipticPi E (JacobiAmplitude E (u t) mc) n mc +
   - sigma * ArcTan2 (s * JacobiSN E (u t) mc) (c * JacobiCN E (u t) mc) -
   (psi_pi * EllipticPi E (JacobiAmplitude E (- nu) mc) n mc +
    - sigma * ArcTan2 (s * JacobiSN E (- nu) mc) (c * JacobiCN E (- nu) mc))).
Definition elliptic_rate t := G / Ip - sigma * dpq * (G - emp t) / (Ip * Iq * W t).
Lemma elliptic_angle t : angle_derivative epsi t (elliptic_rate t).
Proof.
  pose proof mc_range as M. pose proof (d_u t) as U. pose proof (W_pos t) as WP. destruct cs_eq as (CP & SP & _ & _ & SCL).
  pose proof (d_comp u _ t _ _ U (d_sn E EF mc M (u t))) as S.
  pose proof (d_comp u _ t _ _ U (d_cn E EF mc M (u t))) as C.
  pose proof (d_comp u _ t _ _ U (d_am E EF mc M (u t))) as A. cbn beta in S, C, A.
  destruct (lambda_eq) as (LN & _). destruct (dn_eq E EF mc M (u t)) as (DP & _). pose proof (sn_cn E EF mc M (u t)) as Q.
  destruct (EF mc M) as (_ & _ & _ & J & PI'). destruct (J (u t)) as (JS & _ & JD).
  assert (PI : derivable_pt_lim (fun t => EllipticPi E (JacobiAmplitude E (u t) mc) n mc) t (lambda / W t)).
  { eapply d_eq; [apply (d_comp (fun t => JacobiAmplitude E (u t) mc) (fun phi => EllipticPi E phi n mc)); [exact A|apply PI', n_neg]|].
    cbn beta. rewrite <- JD, <- JS. fold (W t). field. split; lra. }
  assert (PT : angle_derivative (fun t => ArcTan2 (s * JacobiSN E (u t) mc) (c * JacobiCN E (u t) mc)) t
                 (s * c * lambda * JacobiDN E (u t) mc / (Iq * d2p * W t))).
  { eapply ad_eq; [apply (ad_arctan2 (fun t => c * JacobiCN E (u t) mc) (fun t => s * JacobiSN E (u t) mc))|].
    - intros r. rewrite denominator_eq. pose proof (W_pos r). repeat apply Rmult_lt_0_compat; auto.
    - apply d_mult; [apply d_const|exact C].
    - apply d_mult; [apply d_const|exact S].
    - cbn beta. rewrite denominator_eq. f_equal.
      transitivity (s * c * lambda * JacobiDN E (u t) mc * (JacobiSN E (u t) mc * JacobiSN E (u t) mc + JacobiCN E (u t) mc * JacobiCN E (u t) mc)); [ring|].
      rewrite Q. ring. }
  assert (PS : angle_derivative (fun t => - sigma * ArcTan2 (s * JacobiSN E (u t) mc) (c * JacobiCN E (u t) mc)) t
                 (- sigma * (s * c * lambda * JacobiDN E (u t) mc / (Iq * d2p * W t)))).
  { destruct SIGMA as [-> | ->].
    - eapply ad_ext; [|eapply ad_eq; [apply ad_opp, PT|]]; [intros; cbn beta|]; ring.
    - eapply ad_ext; [|eapply ad_eq; [apply PT|]]; [intros; cbn beta|]; ring. }
  set (off := psi_pi * EllipticPi E (JacobiAmplitude E (- nu) mc) n mc +
    - sigma * ArcTan2 (s * JacobiSN E (- nu) mc) (c * JacobiCN E (- nu) mc)) in *.
  apply (ad_ext (fun t => (G / Ip * (t - t0) + psi_pi * EllipticPi E (JacobiAmplitude E (u t) mc) n mc - off) +
                          - sigma * ArcTan2 (s * JacobiSN E (u t) mc) (c * JacobiCN E (u t) mc))).
  { intros r. unfold epsi. fold off. ring. }
  eapply ad_eq; [apply ad_plus; [apply ad_lin|exact PS]|].
  - apply d_minus; [|apply d_const]. apply d_plus; apply d_mult; try apply d_const; [|exact PI].
    apply d_minus; [apply d_id|apply d_const].
  - cbn beta. unfold elliptic_rate, psi_pi, emp.
    replace (s * c * lambda * JacobiDN E (u t) mc / (Iq * d2p * W t)) with (- (Bp * dpq * d2p) / Ip * JacobiDN E (u t) mc / (Iq * d2p * W t))
      by (rewrite <- SCL; field; repeat split; lra).
    field. repeat split; lra.
Qed.
Lemma elliptic_rate_eq t :
  elliptic_rate t * (G + emp t) = emp t * emp t / Ip + em2 t * em2 t / I2 + emq t * emq t / Iq + G * (emp t / Ip).
Proof.
  pose proof (W_pos t) as WP. pose proof (W_eq t) as WE. pose proof (elliptic_norm t) as N. pose proof (energy_eq t) as EN.
  set (T := emp t * emp t / Ip + em2 t * em2 t / I2 + emq t * emq t / Iq) in *.
  assert (K : dpq * ((G - emp t) * (G + emp t)) = Dp * Iq * W t) by (rewrite WE; f_equal; lra).
  unfold elliptic_rate.
  transitivity (G / Ip * (G + emp t) - sigma * (dpq * ((G - emp t) * (G + emp t))) / (Ip * Iq * W t)); [field; repeat split; lra|].
  rewrite K. transitivity ((G * G - sigma * Dp) / Ip + G * (emp t / Ip)); [field; repeat split; lra|]. rewrite EN. field. lra.
Qed.
Lemma elliptic_psi0 : epsi t0 = 0.
Proof. unfold epsi. replace (u t0) with (- nu) by (unfold u; ring). ring. Qed.
End Elliptic.
