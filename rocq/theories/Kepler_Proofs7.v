(** The orbit constructed from state vectors. *)
From Coq Require Import Reals ZArith Lra Lia List Bool.
From Verif Require Import Geometry_Model Geometry_Proofs Geometry_Proofs2 VectorCalculus_Proofs RotatingBody_Model RotatingBody_Proofs
  Kepler_Model Kepler_Proofs Kepler_Proofs3 Kepler_Proofs4 Kepler_Proofs5 Kepler_Proofs6.
Import ListNotations.
Open Scope R_scope.

(** ** Angles *)
Lemma period_Z (f : R -> R) (Hf : forall x, f (x + 2 * PI) = f x) k x : f (x + 2 * PI * IZR k) = f x.
Proof.
  assert (N : forall n x, f (x + 2 * PI * INR n) = f x).
  { induction n as [|n IH]; intros y; [f_equal; cbn; ring|]. rewrite S_INR.
    replace (y + 2 * PI * (INR n + 1)) with (y + 2 * PI * INR n + 2 * PI) by ring. now rewrite Hf. }
  destruct (Z_le_gt_dec 0 k) as [P|P].
  - rewrite <- (Z2Nat.id k P), <- INR_IZR_INZ. apply N.
  - rewrite <- (N (Z.to_nat (- k)) (x + 2 * PI * IZR k)). rewrite INR_IZR_INZ, Z2Nat.id by lia. rewrite opp_IZR. f_equal. ring.
Qed.
Lemma reduce_angle t : cos (ReduceAngle t) = cos t /\ sin (ReduceAngle t) = sin t /\ 0 <= ReduceAngle t < 2 * PI.
Proof.
  assert (Q : exists k, ReduceAngle t = t + 2 * PI * IZR k).
  { unfold ReduceAngle. set (k := Int_part (t / (PI / 2) + / 2)).
    pose proof (Z.div_mod k 4 ltac:(lia)) as D. pose proof (Z.mod_pos_bound k 4 ltac:(lia)) as B.
    set (q := (k / 4)%Z) in *. set (r := (k mod 4)%Z) in *.
    assert (K : IZR k = 4 * IZR q + IZR r) by (rewrite D, plus_IZR, mult_IZR; reflexivity). rewrite K.
    assert (r = 0 \/ r = 1 \/ r = 2 \/ r = 3)%Z as [R|[R|[R|R]]] by lia; rewrite R; cbn [Z.eqb Pos.eqb].
    - destruct (Rlt_dec _ 0).
      + exists (1 - q)%Z. rewrite minus_IZR. field.
      + exists (- q)%Z. rewrite opp_IZR. field.
    - exists (- q)%Z. rewrite opp_IZR. field.
    - exists (- q)%Z. rewrite opp_IZR. field.
    - exists (- q)%Z. rewrite opp_IZR. field. }
  split; [|split].
  - destruct Q as [k ->]. apply period_Z. intros x. replace (2 * PI) with (2 * INR 1 * PI) by (cbn; ring). apply cos_period.
  - destruct Q as [k ->]. apply period_Z. intros x. replace (2 * PI) with (2 * INR 1 * PI) by (cbn; ring). apply sin_period.
  - pose proof PI_RGT_0 as PP. unfold ReduceAngle. set (k := Int_part (t / (PI / 2) + / 2)).
    destruct (base_Int_part (t / (PI / 2) + / 2)) as [U L]. fold k in U, L.
    assert (A : - (PI / 4) <= t - IZR k * (PI / 2) < PI / 4).
    { assert (T : t = t / (PI / 2) * (PI / 2)) by (field; lra). rewrite T at 1 2.
      set (y := t / (PI / 2)) in *. split; nra. }
    pose proof (Z.mod_pos_bound k 4 ltac:(lia)) as B. set (r := (k mod 4)%Z) in *.
    assert (r = 0 \/ r = 1 \/ r = 2 \/ r = 3)%Z as [R|[R|[R|R]]] by lia; rewrite R; cbn [Z.eqb Pos.eqb]; try lra.
    destruct (Rlt_dec _ 0); lra.
Qed.

(** ** Vectors *)
Lemma norm_sq u : Norm u * Norm u = Dot u u.
Proof. unfold Norm. change (Dot u u) with (Norm2 u). apply sqrt_sqrt. unfold Norm2. nra. Qed.
Lemma norm_ge0 u : 0 <= Norm u.
Proof. apply sqrt_pos. Qed.
Lemma norm_gt0 u : u <> zero3 -> 0 < Norm u.
Proof.
  intros NZ. destruct (norm_ge0 u) as [P|Z]; [exact P|exfalso]. apply NZ.
  pose proof (norm_sq u) as H. rewrite <- Z in H. unfold Dot in H. destruct u as [x y z]. cbn [cx cy cz] in H.
  apply mk3_eq; nra.
Qed.
Lemma lagrange u v : Dot (Cross u v) (Cross u v) = Dot u u * Dot v v - Dot u v * Dot u v.
Proof. unfold Dot, Cross. cbn [cx cy cz]. ring. Qed.

Lemma angle_between u v : u <> zero3 -> v <> zero3 ->
  Norm u * Norm v * cos (AngleBetween u v) = Dot u v /\ Norm u * Norm v * sin (AngleBetween u v) = Norm (Cross u v).
Proof.
  intros U V. pose proof (norm_gt0 u U) as PU. pose proof (norm_gt0 v V) as PV.
  pose proof (norm_sq u) as SU. pose proof (norm_sq v) as SV. unfold AngleBetween.
  set (a := Norm u) in *. set (b := Norm v) in *. clearbody a b.
  set (p := add3 (scal3 b u) (scal3 a v)). set (m := sub3 (scal3 b u) (scal3 a v)).
  assert (SP : Norm p * Norm p = 2 * (a * b) * (a * b) + 2 * (a * b) * Dot u v).
  { rewrite norm_sq. transitivity (b * b * Dot u u + 2 * (a * b) * Dot u v + a * a * Dot v v).
    - unfold p, Dot, add3, scal3. cbn [cx cy cz]. ring.
    - rewrite <- SU, <- SV. ring. }
  assert (SM : Norm m * Norm m = 2 * (a * b) * (a * b) - 2 * (a * b) * Dot u v).
  { rewrite norm_sq. transitivity (b * b * Dot u u - 2 * (a * b) * Dot u v + a * a * Dot v v).
    - unfold m, Dot, sub3, scal3. cbn [cx cy cz]. ring.
    - rewrite <- SU, <- SV. ring. }
  assert (AB : 0 < a * b) by (apply Rmult_lt_0_compat; assumption).
  assert (NZ : Norm p <> 0 \/ Norm m <> 0).
  { destruct (Req_dec (Norm p) 0) as [Z|Z]; [right|left; exact Z]. intros Z'. rewrite Z in SP. rewrite Z' in SM. nra. }
  destruct (double_arctan (Norm m) (Norm p) NZ) as [-> ->]. rewrite SP, SM.
  replace (2 * (a * b) * (a * b) + 2 * (a * b) * Dot u v + (2 * (a * b) * (a * b) - 2 * (a * b) * Dot u v))
    with (4 * (a * b) * (a * b)) by ring.
  split; [field; split; lra|].
  replace (a * b * (2 * Norm p * Norm m / (4 * (a * b) * (a * b)))) with (Norm p * Norm m / (2 * (a * b))) by (field; split; lra).
  apply Rsqr_inj.
  - apply Rmult_le_pos; [apply Rmult_le_pos; apply norm_ge0|apply Rlt_le, Rinv_0_lt_compat; lra].
  - apply norm_ge0.
  - unfold Rsqr. rewrite norm_sq, lagrange, <- SU, <- SV.
    transitivity ((Norm p * Norm p) * (Norm m * Norm m) / (4 * (a * b) * (a * b))); [field; split; lra|].
    rewrite SP, SM. field. split; lra.
Qed.
(** The oriented angle of two vectors orthogonal to [h]. *)
Lemma oriented_angle u v h : u <> zero3 -> v <> zero3 -> h <> zero3 -> Dot u h = 0 -> Dot v h = 0 ->
  Norm u * Norm v * cos (OrientedAngleBetween u v h) = Dot u v /\
  Norm h * (Norm u * Norm v * sin (OrientedAngleBetween u v h)) = Dot (Cross u v) h.
Proof.
  intros U V H UH VH. destruct (angle_between u v U V) as [C S]. pose proof (norm_gt0 h H) as PH.
  assert (Q : Dot (Cross u v) h * Dot (Cross u v) h = (Norm h * Norm (Cross u v)) * (Norm h * Norm (Cross u v))).
  { transitivity (Dot h h * Dot (Cross u v) (Cross u v)).
    - assert (Z : Dot (Cross (Cross u v) h) (Cross (Cross u v) h) = 0).
      { replace (Cross (Cross u v) h) with (sub3 (scal3 (Dot u h) v) (scal3 (Dot v h) u)).
        - rewrite UH, VH. unfold Dot, sub3, scal3. cbn [cx cy cz]. ring.
        - unfold Cross, Dot, sub3, scal3. cbn [cx cy cz]. apply mk3_eq; ring. }
      rewrite lagrange in Z. lra.
    - rewrite <- !norm_sq. ring. }
  assert (P : 0 <= Norm h * Norm (Cross u v)) by (apply Rmult_le_pos; apply norm_ge0).
  unfold OrientedAngleBetween. destruct (Rlt_dec (Dot (Cross u v) h) 0) as [N|N].
  - rewrite cos_neg, sin_neg. split; [exact C|].
    replace (Norm u * Norm v * - sin (AngleBetween u v)) with (- (Norm u * Norm v * sin (AngleBetween u v))) by ring. rewrite S. nra.
  - split; [exact C|]. rewrite S. nra.
Qed.

(** ** The conic parameters *)
Lemma canonical mu e l : 0 < mu -> 0 <= e -> e <> 1 -> 0 < l ->
  exists k, (forall f, conic_field f -> correct mu e l f (k f)) /\
    forall c, before k true c eccentricity_category -> before k true c semimajor_axis_category ->
      before k true c semiminor_axis_category -> before k true c semilatus_rectum_category ->
      exists c', CompleteConicParametersByCategory mu c = Some c' /\
        after k true c' eccentricity_category /\ after k true c' semimajor_axis_category /\
        after k true c' semiminor_axis_category /\ after k true c' semilatus_rectum_category /\
        (forall g, (5 <= category g)%nat -> c' g = c g).
Proof.
  intros M E1 E2 L. destruct (Rlt_dec e 1) as [Z|Z].
  - destruct (ell_correct mu e l M ltac:(lra) L) as (k & KE & KK & KM & KC). exists (ell k). split; [exact KC|].
    intros c. apply (by_category (ell k) mu).
    + intros. eapply ell_eccentricity; eassumption.
    + destruct k as [n a e' s]. intros. destruct KE as (N & A & _). eapply ell_semimajor; eassumption.
    + intros. eapply ell_semiminor; eassumption.
    + intros. eapply ell_semilatus; eassumption.
  - destruct (hyp_correct mu e l M ltac:(lra) L) as (k & KE & KK & KM & KC). exists (hyp k). split; [exact KC|].
    intros c. apply (by_category (hyp k) mu).
    + intros. eapply hyp_eccentricity; eassumption.
    + destruct k as [n a e' s]. intros. destruct KE as (N & A & _). eapply hyp_semimajor; eassumption.
    + intros. eapply hyp_semiminor; eassumption.
    + intros. eapply hyp_semilatus; eassumption.
Qed.

(** The values computed from the state. *)
Lemma state_values mu e l eps h2 : 0 < mu -> 0 <= e -> e <> 1 -> 0 < l ->
  2 * eps * l = - mu * (1 - e * e) -> h2 = mu * l ->
  correct mu e l semiminor_axis (nsqrt (ndiv (nopp (Fin h2)) (nmul (Fin 2) (Fin eps)))) /\
  correct mu e l impact_parameter (nsqrt (ndiv (Fin h2) (nmul (Fin 2) (Fin eps)))) /\
  correct mu e l periapsis_distance (ndiv (Fin h2) (nmul (nadd (Fin 1) (Fin e)) (Fin mu))) /\
  correct mu e l apoapsis_distance (ndiv (nmul (nopp (Fin mu)) (nadd (Fin 1) (Fin e))) (nmul (Fin 2) (Fin eps))).
Proof.
  intros M E NE L EPS H.
  assert (D : 1 - e * e <> 0) by nra.
  assert (E1 : 1 - e <> 0) by lra.
  assert (EE : 2 * eps = - mu * (1 - e * e) / l) by (rewrite <- EPS; field; lra).
  assert (NZ : 2 * eps <> 0).
  { intros Z. rewrite Z, Rmult_0_l in EPS. symmetry in EPS. apply Rmult_integral in EPS. destruct EPS; lra. }
  cbn [nopp nmul nadd lift1 lift2]. rewrite !ndiv_fin by (try exact NZ; apply Rmult_integral_contrapositive; split; lra).
  split; [|split; [|split]].
  - replace (- h2 / (2 * eps)) with (l * l / (1 - e * e)) by (rewrite EE, H; field; repeat split; lra).
    unfold nsqrt, lift1. destruct (Rlt_dec e 1) as [S|S].
    + assert (P : 0 < l * l / (1 - e * e)) by (apply Rdiv_lt_0_compat; nra).
      destruct (Rlt_dec (l * l / (1 - e * e)) 0); [lra|]. cbn [correct measures]. split; [exact S|].
      split; [apply sqrt_lt_R0, P|]. replace (sqrt (l * l / (1 - e * e)) ^ 2) with (l * l / (1 - e * e)).
      * field. exact D.
      * cbn. rewrite Rmult_1_r. symmetry. apply sqrt_sqrt. lra.
    + assert (P : l * l / (1 - e * e) < 0).
      { replace (l * l / (1 - e * e)) with (- (l * l / (e * e - 1))) by (field; split; lra).
        apply Ropp_lt_gt_0_contravar, Rdiv_lt_0_compat; nra. }
      destruct (Rlt_dec (l * l / (1 - e * e)) 0); [|lra]. cbn [correct measures]. intros x (X & _). lra.
  - replace (h2 / (2 * eps)) with (l * l / (e * e - 1)) by (rewrite EE, H; field; repeat split; lra).
    unfold nsqrt, lift1. destruct (Rlt_dec e 1) as [S|S].
    + assert (P : l * l / (e * e - 1) < 0).
      { replace (l * l / (e * e - 1)) with (- (l * l / (1 - e * e))) by (field; split; lra).
        apply Ropp_lt_gt_0_contravar, Rdiv_lt_0_compat; nra. }
      destruct (Rlt_dec (l * l / (e * e - 1)) 0); [|lra]. cbn [correct measures]. intros x (X & _). lra.
    + assert (P : 0 < l * l / (e * e - 1)) by (apply Rdiv_lt_0_compat; nra).
      destruct (Rlt_dec (l * l / (e * e - 1)) 0); [lra|]. cbn [correct measures]. split; [lra|].
      split; [apply sqrt_lt_R0, P|]. replace (sqrt (l * l / (e * e - 1)) ^ 2) with (l * l / (e * e - 1)).
      * field. lra.
      * cbn. rewrite Rmult_1_r. symmetry. apply sqrt_sqrt. lra.
  - cbn [correct measures]. rewrite H. field. lra.
  - cbn [correct measures]. rewrite EE. field. repeat split; lra.
Qed.

Lemma correct_unique mu e l f m n : 0 < mu -> 0 <= e -> e <> 1 -> 0 < l -> correct mu e l f m -> correct mu e l f n -> m = n.
Proof.
  intros M E NE L A B. destruct m as [x|], n as [y|]; cbn [correct] in A, B.
  - f_equal. exact (measures_unique mu e l f x y M E NE L A B).
  - exfalso. exact (B x A).
  - exfalso. exact (A y B).
  - reflexivity.
Qed.

Section State.
Variable mu : R.
Variables r v : R3.
Let h := Cross r v.
Let P := eccentricity_vector mu r v.
Let N := ascending_node r v.
Hypothesis M : 0 < mu.
Hypothesis HZ : h <> zero3.

Lemma r_nonzero : r <> zero3.
Proof. intros Z. apply HZ. unfold h. rewrite Z. unfold Cross, zero3. cbn [cx cy cz]. apply mk3_eq; ring. Qed.
Lemma h_pos : 0 < Norm h.
Proof. apply norm_gt0, HZ. Qed.
Lemma h2_pos : 0 < Dot h h.
Proof. rewrite <- norm_sq. pose proof h_pos. nra. Qed.
Lemma P_eq : P = sub3 (scal3 (/ mu) (Cross v h)) (scal3 (/ Norm r) r).
Proof.
  unfold P, eccentricity_vector, angular_momentum. fold h. unfold Normalize, div3, sub3, scal3. cbn [cx cy cz].
  unfold Rdiv. apply mk3_eq; ring.
Qed.
Lemma rh : Dot r h = 0.
Proof. unfold h, Dot, Cross. cbn [cx cy cz]. ring. Qed.
Lemma vh : Dot v h = 0.
Proof. unfold h, Dot, Cross. cbn [cx cy cz]. ring. Qed.
Lemma Ph : Dot P h = 0.
Proof.
  rewrite P_eq. transitivity (/ mu * Dot (Cross v h) h - / Norm r * Dot r h).
  - generalize (Cross v h), (Norm r). intros. unfold Dot, sub3, scal3. cbn [cx cy cz]. ring.
  - rewrite rh. replace (Dot (Cross v h) h) with 0 by (unfold Dot, Cross; cbn [cx cy cz]; ring). ring.
Qed.
Lemma Nh : Dot N h = 0.
Proof. unfold N, ascending_node, angular_momentum. fold h. unfold Dot, Cross. cbn [cx cy cz]. ring. Qed.
(** The semilatus rectum. *)
Definition rectum := Dot h h / mu.
Lemma rectum_pos : 0 < rectum.
Proof. apply Rdiv_lt_0_compat; [apply h2_pos|exact M]. Qed.
Lemma rP : Norm r + Dot P r = rectum.
Proof.
  pose proof (norm_gt0 r r_nonzero) as R. rewrite P_eq.
  assert (Q : Dot (Cross v h) r = Dot h h) by (unfold h, Dot, Cross; cbn [cx cy cz]; ring).
  transitivity (Norm r + (/ mu * Dot (Cross v h) r - / Norm r * Dot r r)).
  - generalize (Cross v h), (Norm r). intros. unfold Dot, sub3, scal3. cbn [cx cy cz]. ring.
  - rewrite Q, <- (norm_sq r). unfold rectum. field. split; lra.
Qed.
Definition energy := Norm2 v / 2 - mu / Norm r.
Lemma PP : Norm P * Norm P = 1 + 2 * energy * rectum / mu.
Proof.
  pose proof (norm_gt0 r r_nonzero) as R. rewrite norm_sq, P_eq.
  assert (Q : Dot (Cross v h) r = Dot h h) by (unfold h, Dot, Cross; cbn [cx cy cz]; ring).
  assert (Q2 : Dot (Cross v h) (Cross v h) = Norm2 v * Dot h h) by (rewrite lagrange, vh; change (Norm2 v) with (Dot v v); ring).
  transitivity (/ mu * / mu * Dot (Cross v h) (Cross v h) - 2 * / mu * / Norm r * Dot (Cross v h) r + / Norm r * / Norm r * Dot r r).
  - generalize (Cross v h), (Norm r). intros. unfold Dot, sub3, scal3. cbn [cx cy cz]. ring.
  - rewrite Q, Q2, <- (norm_sq r). unfold rectum, energy. field. split; lra.
Qed.
Lemma energy_measures : 2 * energy * rectum = - mu * (1 - Norm P * Norm P).
Proof. rewrite PP. field. lra. Qed.
(** The velocity from the eccentricity vector. *)
Lemma hodograph : scal3 (Dot h h) v = scal3 mu (Cross h (add3 P (scal3 (/ Norm r) r))).
Proof.
  pose proof (norm_gt0 r r_nonzero) as R. rewrite P_eq.
  replace (add3 (sub3 (scal3 (/ mu) (Cross v h)) (scal3 (/ Norm r) r)) (scal3 (/ Norm r) r)) with (scal3 (/ mu) (Cross v h)).
  2: { generalize (Cross v h), (Norm r). intros. unfold add3, sub3, scal3. cbn [cx cy cz]. apply mk3_eq; ring. }
  pose proof vh as VH. generalize dependent h. intros g _ VH.
  transitivity (sub3 (scal3 (Dot g g) v) (scal3 (Dot v g) g)).
  - rewrite VH. unfold sub3, scal3. cbn [cx cy cz]. apply mk3_eq; ring.
  - unfold sub3, scal3, Cross, Dot. cbn [cx cy cz]. apply mk3_eq; field; lra.
Qed.

(** ** The orbit is ready *)
Lemma state_ready Brent primary secondary t0 : mu = primary + match secondary with Some m => m | None => 0 end ->
  Norm P <> 1 -> 
  let el := elements_of_state mu r v in
  let nu := ReduceAngle (OrientedAngleBetween P r h) in
  is_anomaly (Norm P) true_anomaly nu ->
  exists o, OrbitFromState Brent primary secondary r v t0 = Some o /\
    ready mu (Norm P) rectum (ReduceAngle (OrientedAngleBetween N P h)) true_anomaly nu o el t0.
Proof.
  intros EM NE el nu A. pose proof (norm_ge0 P) as E. pose proof rectum_pos as L.
  destruct (canonical mu (Norm P) rectum M E NE L) as (k & KC & KF).
  assert (H2 : Norm2 h = mu * rectum) by (unfold rectum; change (Norm2 h) with (Dot h h); field; lra).
  destruct (state_values mu (Norm P) rectum energy (Norm2 h) M E NE L energy_measures H2) as (VB & VI & VP & VA).
  assert (K : forall g n, conic_field g -> correct mu (Norm P) rectum g n -> k g = n).
  { intros g n Hg Hn. exact (correct_unique mu (Norm P) rectum g (k g) n M E NE L (KC g Hg) Hn). }
  assert (KE : k eccentricity = Fin (Norm P)) by (apply K; [exact I|reflexivity]).
  assert (KS : k specific_energy = Fin energy) by (apply K; [exact I|exact energy_measures]).
  assert (KH : k specific_angular_momentum = Fin (Norm h)).
  { apply K; [exact I|]. cbn [correct measures]. split; [exact h_pos|]. cbn. rewrite Rmult_1_r, norm_sq. exact H2. }
  pose proof (K semiminor_axis _ I VB) as KB. pose proof (K impact_parameter _ I VI) as KI.
  pose proof (K periapsis_distance _ I VP) as KP. pose proof (K apoapsis_distance _ I VA) as KA.
  set (c := fields el).
  destruct (KF c) as (c1 & EC & A1 & A2 & A3 & A4 & R).
  - right. exists eccentricity. split; [left; reflexivity|]. split; [rewrite KE; discriminate|].
    intros g [<-|[<-|[<-|[]]]]; cbn [field_eqb]; [|reflexivity|reflexivity]. rewrite KE. reflexivity.
  - right. exists specific_energy. split; [right; left; reflexivity|]. split; [rewrite KS; discriminate|].
    intros g [<-|[<-|[<-|[<-|[<-|[<-|[<-|[]]]]]]]]; cbn [field_eqb]; try reflexivity. rewrite KS. reflexivity.
  - left. intros g [<-|[<-|[]]]; [rewrite KB|rewrite KI]; reflexivity.
  - right. exists specific_angular_momentum. split; [right; left; reflexivity|]. split; [rewrite KH; discriminate|].
    intros g [<-|[<-|[]]]; cbn [field_eqb]; [reflexivity|]. rewrite KH. reflexivity.
  - unfold OrbitFromState. rewrite <- EM. fold el. fold c. rewrite EC.
    assert (F : forall g, conic_field g -> c1 g = Some (k g)).
    { intros g Hg. destruct (le_lt_dec 5 (category g)) as [Z|Z].
      - rewrite (R g Z). destruct g; cbn in Hg, Z; try contradiction; try lia; [rewrite KP|rewrite KA]; reflexivity.
      - cbn [after] in *. destruct (listed g Hg Z) as [[_ J]|[[_ J]|[[_ J]|[_ J]]]]; auto. }
    destruct (complete_orientation (mkElements c1 (inclination el) (longitude_of_ascending_node el)) argument_of_periapsis
                (ReduceAngle (OrientedAngleBetween N P h)) (ReduceAngle (OrientedAngleBetween N P h)) eq_refl) as (c2 & -> & C2W & C2U).
    { intros g G. cbn [fields]. rewrite R by (destruct G; subst; cbn; lia). destruct G; subst; reflexivity. }
    cbn [fields inclination longitude_of_ascending_node] in *.
    destruct (complete_anomalies Brent (Norm P) true_anomaly nu c2 E NE A) as (c3 & -> & C3A & C3U).
    { rewrite C2U, (F eccentricity I), KE by discriminate. reflexivity. }
    { intros g Kg G1 G2. rewrite C2U by assumption. rewrite R by lia. destruct g; cbn in Kg; try lia; try contradiction; reflexivity. }
    eexists. split; [reflexivity|]. unfold ready. cbn [gravitational_parameter epoch elements_at_epoch inclination longitude_of_ascending_node fields].
    repeat (split; [reflexivity|]). split; [|split; [exact C3A|]].
    + rewrite C3U by (right; reflexivity). exact C2W.
    + intros g Hg. pose proof (proj1 (conic_category g) Hg) as Kg. exists (k g). split; [|now apply KC].
      rewrite C3U by (left; exact Kg). rewrite C2U by (intros ->; now apply Kg). now apply F.
Qed.
End State.
