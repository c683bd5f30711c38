(** The orbit constructed from state vectors goes through them. *)
From Coq Require Import Reals ZArith Lra Lia List Bool.
From Verif Require Import Geometry_Model Geometry_Proofs Geometry_Proofs2 VectorCalculus_Proofs RotatingBody_Model RotatingBody_Proofs
  Kepler_Model Kepler_Proofs Kepler_Proofs3 Kepler_Proofs4 Kepler_Proofs5 Kepler_Proofs6 Kepler_Proofs7.
Import ListNotations.
Open Scope R_scope.

Lemma unit_plane Omega i w : unit_q (from_orbit_plane Omega i w).
Proof. unfold from_orbit_plane. destruct (angles_from 2 0 2 Omega i w) as [U _]; try lia. exact U. Qed.
Lemma oriented_dot Omega i w a b : Dot (oriented Omega i w a) (oriented Omega i w b) = Dot a b.
Proof. rewrite <- !oriented_rotate. apply rotate_dot, unit_plane. Qed.
Lemma oriented_cross Omega i w a b : Cross (oriented Omega i w a) (oriented Omega i w b) = oriented Omega i w (Cross a b).
Proof. rewrite <- !oriented_rotate. apply rotate_cross, unit_plane. Qed.
Lemma oriented_onto Omega i w u : exists a, u = oriented Omega i w a.
Proof.
  exists (rotate (Conjugate (from_orbit_plane Omega i w)) u). rewrite <- oriented_rotate. symmetry. apply rotate_inv', unit_plane.
Qed.
Lemma oriented_turn Omega i w a : oriented Omega i w (mk3 a 0 0) = oriented Omega i 0 (mk3 (a * cos w) (a * sin w) 0).
Proof. unfold oriented, rot_z, rot_x. cbn [cx cy cz]. rewrite cos_0, sin_0. apply mk3_eq; ring. Qed.
Lemma oriented_z Omega i w a : oriented Omega i w (mk3 0 0 a) = mk3 (a * (sin i * sin Omega)) (- (a * (sin i * cos Omega))) (a * cos i).
Proof. unfold oriented, rot_z, rot_x. cbn [cx cy cz]. apply mk3_eq; ring. Qed.
Lemma oriented_x Omega i a : oriented Omega i 0 (mk3 a 0 0) = mk3 (a * cos Omega) (a * sin Omega) 0.
Proof. unfold oriented, rot_z, rot_x. cbn [cx cy cz]. rewrite cos_0, sin_0. apply mk3_eq; ring. Qed.

(** A vector in the orbital plane, whose angle with the x axis of the plane is known. *)
Lemma in_plane Omega i w a hh u p c s : 0 < a -> 0 < hh ->
  Dot u (oriented Omega i w (mk3 0 0 hh)) = 0 ->
  a * p * c = Dot (oriented Omega i w (mk3 a 0 0)) u ->
  hh * (a * p * s) = Dot (Cross (oriented Omega i w (mk3 a 0 0)) u) (oriented Omega i w (mk3 0 0 hh)) ->
  u = oriented Omega i w (mk3 (p * c) (p * s) 0).
Proof.
  intros A H Z X Y. destruct (oriented_onto Omega i w u) as [b ->]. rewrite oriented_cross in Y. rewrite oriented_dot in X, Y, Z. f_equal.
  destruct b as [b1 b2 b3]. unfold Dot, Cross in X, Y, Z. cbn [cx cy cz] in X, Y, Z.
  assert (Z' : b3 * hh = 0) by lra. apply Rmult_integral in Z'.
  assert (X' : a * (p * c) = a * b1) by lra. apply Rmult_eq_reg_l in X'; [|lra].
  assert (Y' : (hh * a) * (p * s) = (hh * a) * b2) by lra. apply Rmult_eq_reg_l in Y'; [|nra].
  apply mk3_eq; [lra|lra|destruct Z'; lra].
Qed.

(** * Specification *)
(** The states for which the elements are well defined: the motion is not rectilinear, the orbit is neither in the xy
    plane, nor circular, nor parabolic. *)
Definition ordinary (mu : R) (r v : R3) : Prop :=
  (cx (Cross r v) <> 0 \/ cy (Cross r v) <> 0) /\
  ~ (Dot r v = 0 /\ Norm2 v * Norm r = mu) /\
  Norm2 v * Norm r <> 2 * mu.
(** The speed is less than the escape velocity. *)
Definition bound_orbit (mu : R) (r v : R3) : Prop := Norm2 v * Norm r < 2 * mu.

Section State.
Variable mu : R.
Variables r v : R3.
Let h := Cross r v.
Let P := eccentricity_vector mu r v.
Let N := ascending_node r v.
Let el := elements_of_state mu r v.
Let i := inclination el.
Let Omega := longitude_of_ascending_node el.
Let w := ReduceAngle (OrientedAngleBetween N P h).
Let nu := ReduceAngle (OrientedAngleBetween P r h).
Let l := rectum mu r v.
Hypothesis M : 0 < mu.
Hypothesis O : ordinary mu r v.

Lemma hz : h <> zero3.
Proof. intros Z. destruct O as ([Q|Q] & _); fold h in Q; rewrite Z in Q; now apply Q. Qed.
Lemma n_eq : cx N = - cy h /\ cy N = cx h /\ cz N = 0.
Proof. unfold N, ascending_node, angular_momentum, h, Cross. cbn [cx cy cz]. repeat split; ring. Qed.
Lemma nn : cx N <> 0 \/ cy N <> 0.
Proof. destruct n_eq as (-> & -> & _). destruct O as (Q & _). fold h in Q. destruct Q; [right|left]; lra. Qed.
Lemma nz : N <> zero3.
Proof. intros Z. pose proof nn as Q. rewrite Z in Q. cbn in Q. destruct Q; lra. Qed.
Lemma energy_zero : energy mu r v * (2 * Norm r) = Norm2 v * Norm r - 2 * mu.
Proof. pose proof (norm_gt0 r (r_nonzero r v hz)). unfold energy. field. lra. Qed.
Lemma e_not_1 : Norm P <> 1.
Proof.
  intros Z. destruct O as (_ & _ & H). apply H. pose proof energy_zero as EZ.
  pose proof (energy_measures mu r v M hz) as Q. fold P in Q. rewrite Z in Q.
  pose proof (rectum_pos mu r v M hz) as L.
  assert (Q' : energy mu r v * rectum mu r v = 0) by lra. apply Rmult_integral in Q'. destruct Q' as [Q'|Q']; [|lra].
  rewrite Q' in EZ. lra.
Qed.
Lemma e_below_1 : bound_orbit mu r v -> Norm P < 1.
Proof.
  intros B. unfold bound_orbit in B. pose proof energy_zero as EZ. pose proof (norm_gt0 r (r_nonzero r v hz)) as R.
  pose proof (energy_measures mu r v M hz) as Q. fold P in Q. pose proof (rectum_pos mu r v M hz) as L. pose proof (norm_ge0 P).
  assert (EN : energy mu r v < 0) by (apply (Rmult_lt_reg_r (2 * Norm r)); lra). assert (EL : 2 * energy mu r v * rectum mu r v < 0) by nra.
  rewrite Q in EL. destruct (Rlt_or_le (Norm P) 1) as [S|S]; [exact S|exfalso]. assert (1 <= Norm P * Norm P) by nra. nra.
Qed.
Lemma pz : P <> zero3.
Proof.
  intros Z. destruct O as (_ & H & _). apply H.
  pose proof (rP mu r v M hz) as RP. fold P in RP. pose proof (PP mu r v M hz) as QQ. fold P in QQ. rewrite Z in RP, QQ.
  assert (Z0 : Norm zero3 = 0) by (unfold Norm, Norm2, zero3; cbn [cx cy cz]; replace (0 * 0 + 0 * 0 + 0 * 0) with 0 by ring; apply sqrt_0).
  rewrite Z0 in QQ. replace (Dot zero3 r) with 0 in RP by (unfold Dot, zero3; cbn [cx cy cz]; ring).
  pose proof (norm_gt0 r (r_nonzero r v hz)) as R. rewrite <- RP in QQ.
  assert (V2 : Norm2 v * Norm r = mu).
  { pose proof energy_zero as EZ. apply (f_equal (fun x => x * mu)) in QQ. field_simplify in QQ; [|lra]. lra. }
  split; [|exact V2].
  assert (HH : Dot h h = mu * Norm r) by (rewrite Rplus_0_r in RP; rewrite RP; unfold rectum; fold h; field; lra).
  unfold h in HH. rewrite lagrange, <- norm_sq in HH. change (Dot v v) with (Norm2 v) in HH.
  assert (Dot r v * Dot r v = 0) by nra. nra.
Qed.

Lemma h_oriented w' : h = oriented Omega i w' (mk3 0 0 (Norm h)).
Proof.
  rewrite oriented_z.
  assert (ZN : mk3 0 0 1 <> zero3) by (unfold zero3; intros Q; injection Q; lra).
  assert (Z1 : Norm (mk3 0 0 1) = 1) by (unfold Norm, Norm2; cbn [cx cy cz]; replace (0 * 0 + 0 * 0 + 1 * 1) with 1 by ring; apply sqrt_1).
  destruct (angle_between (mk3 0 0 1) h ZN hz) as [IC IS]. change (AngleBetween (mk3 0 0 1) h) with i in IC, IS.
  change (Cross (mk3 0 0 1) h) with N in IS. rewrite Z1, Rmult_1_l in IC, IS.
  unfold Dot in IC. cbn [cx cy cz] in IC.
  pose proof nn as NN. destruct n_eq as (NX & NY & NZ).
  destruct (arctan2_polar (cy N) (cx N) NN) as (_ & X & Y).
  destruct (reduce_angle (ArcTan2 (cy N) (cx N))) as (RC & RS & _).
  change (ReduceAngle (ArcTan2 (cy N) (cx N))) with Omega in RC, RS. rewrite <- RC in X. rewrite <- RS in Y.
  replace (sqrt (cx N * cx N + cy N * cy N)) with (Norm N) in X, Y.
  2: { unfold Norm, Norm2. f_equal. rewrite NZ. ring. }
  rewrite <- IS in X, Y.
  rewrite NX in X. rewrite NY in Y.
  assert (E : forall u a b c, cx u = a -> cy u = b -> cz u = c -> u = mk3 a b c) by (intros [? ? ?]; cbn; intros; now subst).
  apply E; lra.
Qed.
Lemma n_oriented : N = oriented Omega i 0 (mk3 (Norm N) 0 0).
Proof.
  rewrite oriented_x.
  pose proof nn as NN. destruct n_eq as (_ & _ & NZ).
  destruct (arctan2_polar (cy N) (cx N) NN) as (_ & X & Y).
  destruct (reduce_angle (ArcTan2 (cy N) (cx N))) as (RC & RS & _).
  change (ReduceAngle (ArcTan2 (cy N) (cx N))) with Omega in RC, RS. rewrite <- RC in X. rewrite <- RS in Y.
  replace (sqrt (cx N * cx N + cy N * cy N)) with (Norm N) in X, Y.
  2: { unfold Norm, Norm2. f_equal. rewrite NZ. ring. }
  assert (E : forall u a b c, cx u = a -> cy u = b -> cz u = c -> u = mk3 a b c) by (intros [? ? ?]; cbn; intros; now subst).
  apply E; lra.
Qed.
Lemma p_oriented : P = oriented Omega i w (mk3 (Norm P) 0 0).
Proof.
  rewrite oriented_turn. destruct (oriented_angle N P h nz pz hz (Nh r v) (Ph mu r v)) as [C S].
  destruct (reduce_angle (OrientedAngleBetween N P h)) as (RC & RS & _). fold w in RC, RS. rewrite <- RC in C. rewrite <- RS in S.
  apply (in_plane Omega i 0 (Norm N) (Norm h)).
  - apply norm_gt0, nz.
  - apply norm_gt0, hz.
  - rewrite <- h_oriented. exact (Ph mu r v).
  - rewrite <- n_oriented. exact C.
  - rewrite <- n_oriented, <- h_oriented. exact S.
Qed.
Lemma r_oriented : r = oriented Omega i w (mk3 (Norm r * cos nu) (Norm r * sin nu) 0).
Proof.
  destruct (oriented_angle P r h pz (r_nonzero r v hz) hz (Ph mu r v) (rh r v)) as [C S].
  destruct (reduce_angle (OrientedAngleBetween P r h)) as (RC & RS & _). fold nu in RC, RS. rewrite <- RC in C. rewrite <- RS in S.
  apply (in_plane Omega i w (Norm P) (Norm h)).
  - apply norm_gt0, pz.
  - apply norm_gt0, hz.
  - rewrite <- h_oriented. exact (rh r v).
  - rewrite <- p_oriented. exact C.
  - rewrite <- p_oriented, <- h_oriented. exact S.
Qed.
Lemma polar_equation : Norm r * (1 + Norm P * cos nu) = l.
Proof.
  unfold l. rewrite <- (rP mu r v M hz). fold P.
  destruct (oriented_angle P r h pz (r_nonzero r v hz) hz (Ph mu r v) (rh r v)) as [C _].
  destruct (reduce_angle (OrientedAngleBetween P r h)) as (RC & _). fold nu in RC. rewrite <- RC in C. rewrite <- C. ring.
Qed.
Lemma anomaly_ok : 0 < 1 + Norm P * cos nu.
Proof.
  pose proof polar_equation as Q. pose proof (rectum_pos mu r v M hz) as L. fold l in L.
  pose proof (norm_gt0 r (r_nonzero r v hz)) as R. rewrite <- Q in L.
  apply (Rmult_lt_reg_l (Norm r)); lra.
Qed.
Lemma same_state : kepler_state mu (Norm P) l i Omega w nu = (r, v).
Proof.
  pose proof polar_equation as Q. pose proof anomaly_ok as A. pose proof (norm_gt0 r (r_nonzero r v hz)) as R.
  pose proof (norm_gt0 h hz) as HP.
  unfold kepler_state, perifocal. cbn [fst snd]. f_equal.
  - transitivity (oriented Omega i w (mk3 (Norm r * cos nu) (Norm r * sin nu) 0)); [|symmetry; exact r_oriented].
    f_equal. rewrite <- Q. apply mk3_eq; field; lra.
  - assert (SQ : sqrt (mu / l) = mu / Norm h).
    { apply Rsqr_inj; [apply sqrt_pos|apply Rlt_le, Rdiv_lt_0_compat; lra|]. unfold Rsqr.
      pose proof (rectum_pos mu r v M hz) as L. fold l in L.
      rewrite sqrt_sqrt by (apply Rlt_le, Rdiv_lt_0_compat; lra). unfold l, rectum. fold h. rewrite <- norm_sq. field. split; lra. }
    rewrite SQ. assert (RR : scal3 (/ Norm r) r = oriented Omega i w (mk3 (cos nu) (sin nu) 0)).
    { rewrite r_oriented at 2. rewrite <- oriented_scal. f_equal. unfold scal3. cbn [cx cy cz]. apply mk3_eq; field; lra. }
    assert (SUM : add3 (oriented Omega i w (mk3 (Norm P) 0 0)) (oriented Omega i w (mk3 (cos nu) (sin nu) 0)) =
                  oriented Omega i w (mk3 (Norm P + cos nu) (sin nu) 0)).
    { rewrite <- !oriented_rotate, <- rotate_add. f_equal. unfold add3. cbn [cx cy cz]. apply mk3_eq; ring. }
    assert (V : v = scal3 (mu / Norm h) (oriented Omega i w (mk3 (- sin nu) (Norm P + cos nu) 0))).
    { assert (HG' : scal3 (Norm h * Norm h) v = scal3 mu (Cross (oriented Omega i w (mk3 0 0 (Norm h))) (oriented Omega i w (mk3 (Norm P + cos nu) (sin nu) 0)))).
      { rewrite <- SUM. rewrite <- p_oriented. rewrite <- RR, <- h_oriented, norm_sq. exact (hodograph mu r v M hz). }
      rewrite oriented_cross in HG'.
      replace (Cross (mk3 0 0 (Norm h)) (mk3 (Norm P + cos nu) (sin nu) 0)) with (scal3 (Norm h) (mk3 (- sin nu) (Norm P + cos nu) 0)) in HG'
        by (unfold Cross, scal3; cbn [cx cy cz]; apply mk3_eq; ring).
      rewrite oriented_scal in HG'. set (o := oriented Omega i w (mk3 (- sin nu) (Norm P + cos nu) 0)) in *. clearbody o.
      set (hh := Norm h) in *. clearbody hh. clear - HG' HP. destruct v as [v1 v2 v3], o as [o1 o2 o3].
      unfold scal3 in *. cbn [cx cy cz] in *. injection HG' as A1 A2 A3.
      apply mk3_eq; apply (Rmult_eq_reg_l (hh * hh)); try nra; rewrite ?A1, ?A2, ?A3; field; lra. }
    transitivity (scal3 (mu / Norm h) (oriented Omega i w (mk3 (- sin nu) (Norm P + cos nu) 0))); [|symmetry; exact V].
    rewrite <- oriented_scal. f_equal. unfold scal3. cbn [cx cy cz]. apply mk3_eq; ring.
Qed.
(** The sign of the radial velocity. *)
Lemma radial : Dot r v = Norm r * (mu / Norm h) * (Norm P * sin nu).
Proof.
  pose proof same_state as S. unfold kepler_state, perifocal in S. cbn [fst snd] in S. injection S as S1 S2.
  pose proof polar_equation as Q. pose proof anomaly_ok as A. pose proof (norm_gt0 h hz) as HP.
  assert (SQ : sqrt (mu / l) = mu / Norm h).
  { apply Rsqr_inj; [apply sqrt_pos|apply Rlt_le, Rdiv_lt_0_compat; lra|]. unfold Rsqr.
    pose proof (rectum_pos mu r v M hz) as L. fold l in L.
    rewrite sqrt_sqrt by (apply Rlt_le, Rdiv_lt_0_compat; lra). unfold l, rectum. fold h. rewrite <- norm_sq. field. split; lra. }
  rewrite <- S1 at 1. rewrite <- S2 at 1. rewrite oriented_dot. unfold Dot. cbn [cx cy cz]. rewrite SQ, <- Q. field. split; lra.
Qed.
End State.

Lemma motion_from_state Brent primary secondary r v t0 :
  let mu := primary + match secondary with Some m => m | None => 0 end in
  root_finder Brent -> 0 < mu -> ordinary mu r v -> bound_orbit mu r v \/ 0 <= Dot r v ->
  exists o x u, OrbitFromState Brent primary secondary r v t0 = Some o /\
    (forall t, StateVectors Brent o t = Some (x t, u t)) /\
    two_body_motion mu x u /\ x t0 = r /\ u t0 = v /\
    exists e l, 0 <= e /\ e <> 1 /\ 0 < l /\ (bound_orbit mu r v <-> e < 1) /\
      forall g, conic_field g -> exists n, fields (elements_at_epoch o) g = Some n /\ correct mu e l g n.
Proof.
  intros mu RF M O B. pose proof (hz mu r v O) as HZ.
  destruct (state_ready mu r v M HZ Brent primary secondary t0 eq_refl (e_not_1 mu r v M O)) as (o & EO & RO).
  { exact (anomaly_ok mu r v M O). }
  pose proof (norm_ge0 (eccentricity_vector mu r v)) as E. pose proof (e_not_1 mu r v M O) as NE. pose proof (rectum_pos mu r v M HZ) as L.
  destruct (ready_motion Brent mu _ _ _ true_anomaly _ o _ t0 RF M E NE L (anomaly_ok mu r v M O) RO) as (x & u & S & MO & A & _).
  exists o, x, u. split; [exact EO|]. split; [exact S|]. split; [exact MO|].
  assert (AE : (x t0, u t0) = (r, v)).
  { pose proof (same_state mu r v M O) as SS. cbn [anomaly_at_epoch] in A.
    destruct (Rlt_dec 1 (Norm (eccentricity_vector mu r v))) as [G|G]; [|rewrite A; exact SS].
    destruct (Rlt_dec _ 0) as [SN|SN]; [exfalso|rewrite A; exact SS].
    destruct B as [B|B]; [pose proof (e_below_1 mu r v M O B); lra|].
    pose proof (radial mu r v M O) as RD. pose proof (norm_gt0 r (r_nonzero r v HZ)) as RP. pose proof (norm_gt0 (Cross r v) HZ) as HP.
    assert (K : 0 < Norm r * (mu / Norm (Cross r v))) by (apply Rmult_lt_0_compat; [exact RP|apply Rdiv_lt_0_compat; assumption]).
    set (ss := sin _) in SN, RD. set (ee := Norm (eccentricity_vector mu r v)) in G, RD. set (kk := Norm r * _) in K, RD.
    clearbody ss ee kk. rewrite RD in B. assert (ee * ss < 0) by nra. nra. }
  injection AE as -> ->. split; [reflexivity|]. split; [reflexivity|].
  exists (Norm (eccentricity_vector mu r v)), (rectum mu r v). split; [exact E|]. split; [exact NE|]. split; [exact L|]. split.
  - split; [exact (e_below_1 mu r v M O)|]. intros LE. unfold bound_orbit.
    pose proof (energy_zero mu r v O) as EZ. pose proof (energy_measures mu r v M HZ) as Q.
    pose proof (norm_gt0 r (r_nonzero r v HZ)) as RP.
    assert (2 * energy mu r v * rectum mu r v < 0).
    { rewrite Q. assert (Norm (eccentricity_vector mu r v) * Norm (eccentricity_vector mu r v) < 1) by nra. nra. }
    assert (energy mu r v < 0) by nra. nra.
  - destruct RO as (_ & _ & _ & _ & _ & _ & C). exact C.
Qed.

Lemma incoming_from_state Brent primary secondary r v t0 :
  let mu := primary + match secondary with Some m => m | None => 0 end in
  root_finder Brent -> 0 < mu -> ordinary mu r v -> ~ bound_orbit mu r v -> Dot r v < 0 ->
  exists o x u, OrbitFromState Brent primary secondary r v t0 = Some o /\
    StateVectors Brent o t0 = Some (x, u) /\ x <> r.
Proof.
  intros mu RF M O B RV. pose proof (hz mu r v O) as HZ.
  destruct (state_ready mu r v M HZ Brent primary secondary t0 eq_refl (e_not_1 mu r v M O)) as (o & EO & RO).
  { exact (anomaly_ok mu r v M O). }
  pose proof (norm_ge0 (eccentricity_vector mu r v)) as E. pose proof (e_not_1 mu r v M O) as NE. pose proof (rectum_pos mu r v M HZ) as L.
  destruct (ready_motion Brent mu _ _ _ true_anomaly _ o _ t0 RF M E NE L (anomaly_ok mu r v M O) RO) as (x & u & S & MO & A & _).
  exists o, (x t0), (u t0). split; [exact EO|]. split; [apply S|].
  pose proof (same_state mu r v M O) as SS. cbn [anomaly_at_epoch] in A.
  pose proof (radial mu r v M O) as RD. pose proof (norm_gt0 r (r_nonzero r v HZ)) as RP. pose proof (norm_gt0 (Cross r v) HZ) as HP.
  assert (K : 0 < Norm r * (mu / Norm (Cross r v))) by (apply Rmult_lt_0_compat; [exact RP|apply Rdiv_lt_0_compat; assumption]).
  assert (SN : sin (ReduceAngle (OrientedAngleBetween (eccentricity_vector mu r v) r (Cross r v))) < 0).
  { rewrite RD in RV. set (ss := sin _) in *. set (ee := Norm (eccentricity_vector mu r v)) in *. set (kk := Norm r * _) in *.
    clearbody ss ee kk. destruct (Rlt_or_le ss 0) as [Y|Y]; [exact Y|exfalso]. assert (0 <= ee * ss) by nra. nra. }
  assert (GE : 1 < Norm (eccentricity_vector mu r v)).
  { destruct (Rlt_or_le 1 (Norm (eccentricity_vector mu r v))) as [Y|Y]; [exact Y|exfalso]. apply B. unfold bound_orbit.
    pose proof (energy_zero mu r v O) as EZ. pose proof (energy_measures mu r v M HZ) as Q.
    assert (2 * energy mu r v * rectum mu r v < 0).
    { rewrite Q. assert (Norm (eccentricity_vector mu r v) < 1) by lra.
      assert (Norm (eccentricity_vector mu r v) * Norm (eccentricity_vector mu r v) < 1) by nra. nra. }
    assert (energy mu r v < 0) by nra. nra. }
  destruct (Rlt_dec 1 (Norm (eccentricity_vector mu r v))) as [_|]; [|lra]. destruct (Rlt_dec _ 0) as [_|]; [|lra].
  intros X. apply (f_equal fst) in A. cbn [fst] in A. rewrite X in A.
  assert (A' : fst (kepler_state mu (Norm (eccentricity_vector mu r v)) (rectum mu r v) (inclination (elements_of_state mu r v))
                  (longitude_of_ascending_node (elements_of_state mu r v))
                  (ReduceAngle (OrientedAngleBetween (ascending_node r v) (eccentricity_vector mu r v) (Cross r v)))
                  (ReduceAngle (OrientedAngleBetween (eccentricity_vector mu r v) r (Cross r v)))) = r) by (rewrite SS; reflexivity).
  apply (fun q => eq_trans q A) in A'. clear A SS.
  unfold kepler_state in A'. cbn [fst perifocal] in A'. 
  pose proof (anomaly_ok mu r v M O) as AO.
  set (nu := ReduceAngle (OrientedAngleBetween (eccentricity_vector mu r v) r (Cross r v))) in *.
  apply oriented_inj in A'. injection A' as _ Y. rewrite cos_neg, sin_neg in Y.
  set (ee := Norm (eccentricity_vector mu r v)) in *. set (l := rectum mu r v) in *. clearbody ee l nu.
  assert (Q : l * sin nu / (1 + ee * cos nu) = 0).
  { replace (l * - sin nu / (1 + ee * cos nu)) with (- (l * sin nu / (1 + ee * cos nu))) in Y by (field; lra). lra. }
  apply (f_equal (fun z => z * (1 + ee * cos nu))) in Q. field_simplify in Q; [|lra]. nra.
Qed.

(** ** Witnesses *)
Lemma norm_is u n : 0 <= n -> Norm2 u = n * n -> Norm u = n.
Proof. intros P E. unfold Norm. rewrite E. apply sqrt_square, P. Qed.
Lemma angle_zero_l u : AngleBetween zero3 u = 0.
Proof.
  assert (Z : Norm zero3 = 0) by (apply norm_is; [lra|unfold Norm2, zero3; cbn [cx cy cz]; ring]). unfold AngleBetween. rewrite Z.
  assert (A : Norm (sub3 (scal3 (Norm u) zero3) (scal3 0 u)) = 0) by (apply norm_is; [lra|unfold sub3, scal3, zero3, Norm2; cbn [cx cy cz]; ring]).
  assert (B : Norm (add3 (scal3 (Norm u) zero3) (scal3 0 u)) = 0) by (apply norm_is; [lra|unfold add3, scal3, zero3, Norm2; cbn [cx cy cz]; ring]).
  rewrite A, B. unfold ArcTan2. destruct (Rlt_dec 0 0) as [Z0|_]; [lra|]. ring.
Qed.
Lemma angle_zero_r u : AngleBetween u zero3 = 0.
Proof.
  assert (Z : Norm zero3 = 0) by (apply norm_is; [lra|unfold Norm2, zero3; cbn [cx cy cz]; ring]). unfold AngleBetween. rewrite Z.
  assert (A : Norm (sub3 (scal3 0 u) (scal3 (Norm u) zero3)) = 0) by (apply norm_is; [lra|unfold sub3, scal3, zero3, Norm2; cbn [cx cy cz]; ring]).
  assert (B : Norm (add3 (scal3 0 u) (scal3 (Norm u) zero3)) = 0) by (apply norm_is; [lra|unfold add3, scal3, zero3, Norm2; cbn [cx cy cz]; ring]).
  rewrite A, B. unfold ArcTan2. destruct (Rlt_dec 0 0) as [Z0|_]; [lra|]. ring.
Qed.
Lemma oriented_zero_l u h : OrientedAngleBetween zero3 u h = 0.
Proof. unfold OrientedAngleBetween. rewrite angle_zero_l. destruct (Rlt_dec _ 0); ring. Qed.
Lemma oriented_zero_r u h : OrientedAngleBetween u zero3 h = 0.
Proof. unfold OrientedAngleBetween. rewrite angle_zero_r. destruct (Rlt_dec _ 0); ring. Qed.
Lemma reduce_zero : cos (ReduceAngle 0) = 1 /\ sin (ReduceAngle 0) = 0.
Proof. destruct (reduce_angle 0) as (A & B & _). rewrite A, B, cos_0, sin_0. split; reflexivity. Qed.

(** A circular orbit over the poles: at the epoch, it is at the ascending node. *)
Lemma circular_state Brent t0 : root_finder Brent ->
  exists o u, OrbitFromState Brent 1 None (mk3 0 0 1) (mk3 (-1) 0 0) t0 = Some o /\
    StateVectors Brent o t0 = Some (mk3 1 0 0, u).
Proof.
  intros RF. set (r := mk3 0 0 1). set (v := mk3 (-1) 0 0).
  assert (H : Cross r v = mk3 0 (-1) 0) by (unfold Cross, zero3; cbn [cx cy cz r v]; apply mk3_eq; ring).
  assert (HZ : Cross r v <> zero3) by (rewrite H; intros Q; injection Q; lra).
  assert (NR : Norm r = 1) by (apply norm_is; [lra|unfold Norm2, r; cbn [cx cy cz]; ring]).
  assert (P : eccentricity_vector 1 r v = zero3).
  { unfold eccentricity_vector, angular_momentum. rewrite H. unfold Normalize. rewrite NR. unfold sub3, div3, Cross, r, v, zero3. cbn [cx cy cz].
    apply mk3_eq; field. }
  assert (NP : Norm (eccentricity_vector 1 r v) = 0) by (rewrite P; apply norm_is; [lra|unfold Norm2, zero3; cbn [cx cy cz]; ring]).
  assert (N : ascending_node r v = mk3 1 0 0) by (unfold ascending_node, angular_momentum; rewrite H; unfold Cross, zero3; cbn [cx cy cz r v]; apply mk3_eq; ring).
  assert (L : rectum 1 r v = 1) by (unfold rectum; rewrite H; unfold Dot; cbn [cx cy cz]; field).
  destruct (state_ready 1 r v ltac:(lra) HZ Brent 1 None t0) as (o & EO & RO).
  { cbv iota. ring. } { rewrite NP. lra. } { cbn [is_anomaly]. rewrite NP. lra. }
  rewrite NP, L, P, oriented_zero_l, oriented_zero_r in RO.
  destruct (ready_motion Brent 1 0 1 _ true_anomaly _ o _ t0 RF ltac:(lra) ltac:(lra) ltac:(lra) ltac:(lra) ltac:(cbn [is_anomaly]; lra) RO) as (x & u & S & _ & A & _).
  exists o, (u t0). split; [exact EO|]. rewrite S. f_equal. f_equal.
  cbn [anomaly_at_epoch] in A. destruct (Rlt_dec 1 0) as [|_]; [lra|].
  apply (f_equal fst) in A. cbn [fst] in A. rewrite A. rewrite kepler_state_cs. destruct reduce_zero as [-> ->].
  unfold kepler_cs, oriented, elements_of_state. cbn [fst inclination longitude_of_ascending_node]. rewrite N. cbn [cx cy].
  destruct reduce_zero as [RC RS].
  assert (O : ArcTan2 0 1 = 0) by (unfold ArcTan2; destruct (Rlt_dec 0 1); [|lra]; replace (0 / 1) with 0 by field; apply atan_0).
  rewrite O. unfold rot_z, rot_x. cbn [cx cy cz]. rewrite RC, RS. apply mk3_eq; field.
Qed.

(** An eccentric orbit in the xy plane, at the periapsis: at the epoch, it is on the x axis. *)
Lemma equatorial_state Brent t0 : root_finder Brent ->
  exists o u, OrbitFromState Brent 1 None (mk3 0 1 0) (mk3 (- (5 / 4)) 0 0) t0 = Some o /\
    StateVectors Brent o t0 = Some (mk3 1 0 0, u).
Proof.
  intros RF. set (r := mk3 0 1 0). set (v := mk3 (- (5 / 4)) 0 0).
  assert (H : Cross r v = mk3 0 0 (5 / 4)) by (unfold Cross, zero3; cbn [cx cy cz r v]; apply mk3_eq; ring).
  assert (HZ : Cross r v <> zero3) by (rewrite H; intros Q; injection Q; lra).
  assert (NR : Norm r = 1) by (apply norm_is; [lra|unfold Norm2, r; cbn [cx cy cz]; ring]).
  assert (P : eccentricity_vector 1 r v = mk3 0 (9 / 16) 0).
  { unfold eccentricity_vector, angular_momentum. rewrite H. unfold Normalize. rewrite NR. unfold sub3, div3, Cross, r, v. cbn [cx cy cz].
    apply mk3_eq; field. }
  assert (NP : Norm (eccentricity_vector 1 r v) = 9 / 16) by (rewrite P; apply norm_is; [lra|unfold Norm2, zero3; cbn [cx cy cz]; ring]).
  assert (N : ascending_node r v = zero3) by (unfold ascending_node, angular_momentum; rewrite H; unfold Cross, zero3; cbn [cx cy cz r v]; apply mk3_eq; ring).
  assert (L : rectum 1 r v = 25 / 16) by (unfold rectum; rewrite H; unfold Dot; cbn [cx cy cz]; field).
  assert (NU : cos (ReduceAngle (OrientedAngleBetween (eccentricity_vector 1 r v) r (Cross r v))) = 1 /\
               sin (ReduceAngle (OrientedAngleBetween (eccentricity_vector 1 r v) r (Cross r v))) = 0).
  { destruct (reduce_angle (OrientedAngleBetween (eccentricity_vector 1 r v) r (Cross r v))) as (-> & -> & _).
    destruct (oriented_angle (eccentricity_vector 1 r v) r (Cross r v)) as [C S].
    - rewrite P. intros Q. injection Q. lra.
    - intros Q. injection Q. lra.
    - exact HZ.
    - rewrite P, H. unfold Dot, r. cbn [cx cy cz]. ring.
    - rewrite H. unfold Dot, r. cbn [cx cy cz]. ring.
    - assert (NH : Norm (Cross r v) = 5 / 4) by (rewrite H; apply norm_is; [lra|unfold Norm2, zero3; cbn [cx cy cz]; ring]).
      rewrite NP, NR in C, S. rewrite NH in S.
      assert (C1 : Dot (eccentricity_vector 1 r v) r = 9 / 16) by (rewrite P; unfold Dot, r; cbn [cx cy cz]; ring).
      assert (S1 : Dot (Cross (eccentricity_vector 1 r v) r) (Cross r v) = 0) by (rewrite P, H; unfold Dot, Cross, r; cbn [cx cy cz]; ring).
      rewrite C1 in C. rewrite S1 in S. set (al := OrientedAngleBetween _ _ _) in *. clearbody al. split; lra. }
  destruct NU as [NC NS].
  destruct (state_ready 1 r v ltac:(lra) HZ Brent 1 None t0) as (o & EO & RO).
  { cbv iota. ring. } { rewrite NP. lra. } { cbn [is_anomaly]. rewrite NP, NC. lra. }
  rewrite NP, L, N, oriented_zero_l in RO.
  set (nu := ReduceAngle (OrientedAngleBetween (eccentricity_vector 1 r v) r (Cross r v))) in *.
  destruct (ready_motion Brent 1 (9 / 16) (25 / 16) _ true_anomaly nu o _ t0 RF ltac:(lra) ltac:(lra) ltac:(lra) ltac:(lra)
              ltac:(cbn [is_anomaly]; rewrite NC; lra) RO) as (x & u & S & _ & A & _).
  exists o, (u t0). split; [exact EO|]. rewrite S. f_equal. f_equal.
  cbn [anomaly_at_epoch] in A. destruct (Rlt_dec 1 (9 / 16)) as [|_]; [lra|].
  apply (f_equal fst) in A. cbn [fst] in A. rewrite A. rewrite kepler_state_cs, NC, NS.
  unfold kepler_cs, oriented, elements_of_state. cbn [fst inclination longitude_of_ascending_node]. rewrite N. cbn [cx cy zero3].
  destruct reduce_zero as [RC RS].
  assert (O : ArcTan2 0 0 = 0) by (unfold ArcTan2; destruct (Rlt_dec 0 0) as [Z0|_]; [lra|]; reflexivity).
  rewrite O. unfold rot_z, rot_x. cbn [cx cy cz]. rewrite RC, RS. apply mk3_eq; field.
Qed.
