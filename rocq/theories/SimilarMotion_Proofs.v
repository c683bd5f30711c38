(** Proofs for SimilarMotion. *)
From Coq Require Import Reals List Lra.
From Verif Require Import Geometry_Model Geometry_Proofs Geometry_Proofs2 VectorCalculus_Proofs RotatingBody_Model ReferenceFrame_Model.
Import ListNotations.
Open Scope R_scope.

Ltac vec := unfold add3, sub3, opp3, scal3, div3, Cross, zero3; cbn [cx cy cz]; apply mk3_eq; ring.

Definition sm_valid (m : SimilarMotion) : Prop :=
  unit_q (quat (slinear (similarity m))) /\ scale (slinear (similarity m)) <> 0.

Lemma conf_av_eq d c w : conf_angular_velocity d c w = orth_bivector d (quat c) w.
Proof. reflexivity. Qed.
Lemma conf_scal d c a v : conf_vector d c (scal3 a v) = scal3 a (conf_vector d c v).
Proof. rewrite !conf_eq, orth_scal. vec. Qed.
Lemma conf_cross d c w u : unit_q (quat c) ->
  conf_vector d c (Cross w u) = Cross (conf_angular_velocity d c w) (conf_vector d c u).
Proof. intros U. rewrite !conf_eq, orth_cross', conf_av_eq by auto. vec. Qed.
Lemma conf_av_opp d c w : conf_angular_velocity d c (opp3 w) = opp3 (conf_angular_velocity d c w).
Proof. rewrite !conf_av_eq. apply orth_opp_bi. Qed.
Lemma conf_av_inv d d' c w : unit_q (quat c) -> conf_angular_velocity d (ConfInverse c) (conf_angular_velocity d' c w) = w.
Proof. intros U. rewrite !conf_av_eq. unfold ConfInverse. cbn [quat]. rewrite qinverse_unit by auto. now apply orth_bi_inv. Qed.
Lemma conf_av_inv' d d' c w : unit_q (quat c) -> conf_angular_velocity d c (conf_angular_velocity d' (ConfInverse c) w) = w.
Proof. intros U. rewrite !conf_av_eq. unfold ConfInverse. cbn [quat]. rewrite qinverse_unit by auto. now apply orth_bi_inv'. Qed.
Lemma conf_av_add d c u v : conf_angular_velocity d c (add3 u v) = add3 (conf_angular_velocity d c u) (conf_angular_velocity d c v).
Proof. rewrite !conf_av_eq. apply orth_bi_add. Qed.
Lemma conf_inv_unit c : unit_q (quat c) -> unit_q (quat (ConfInverse c)).
Proof. intros U. unfold ConfInverse. cbn [quat]. rewrite qinverse_unit by auto. now apply unit_conj. Qed.
Lemma sm_inverse_valid d m : sm_valid m -> sm_valid (SMInverse d m).
Proof.
  intros [U S]. split; [now apply conf_inv_unit|]. cbn. unfold Rdiv. rewrite Rmult_1_l. now apply Rinv_neq_0_compat.
Qed.
Lemma sm_mul_valid dl dr l r : sm_valid l -> sm_valid r -> sm_valid (SMMul dl dr l r).
Proof. intros [U S] [U' S']. split; cbn; [now apply unit_mul|]. now apply Rmult_integral_contrapositive. Qed.

(** The velocity is an affine function. *)
Lemma sm_difference d m p v p' v' :
  sub3 (snd (sm_apply d m (p, v))) (snd (sm_apply d m (p', v'))) =
  let C := conf_vector d (slinear (similarity m)) in let W := conf_angular_velocity d (slinear (similarity m)) (sm_omega m) in
  add3 (sub3 (scal3 (dilatation m) (C (sub3 p p'))) (Cross W (C (sub3 p p')))) (C (sub3 v v')).
Proof.
  cbn [sm_apply snd]. unfold sm_omega_of_from. cbv zeta. rewrite <- (sim_linear d (similarity m) p p'), !conf_sub. vec.
Qed.

Lemma sm_inv d m dof : sm_valid m -> sm_apply d (SMInverse d m) (sm_apply d m dof) = dof /\
  sm_apply d m (sm_apply d (SMInverse d m) dof) = dof.
Proof.
  intros [U S]. destruct dof as [p v]. split.
  - destruct (sim_inv d (similarity m) p U S) as [E _].
    pose proof (sm_difference d m p v zero3 zero3) as D. cbv zeta in D.
    cbn [sm_apply SMInverse similarity dilatation sm_omega sm_vel slinear SimInverse] in *.
    f_equal; [exact E|]. change (mkSim _ _ _) with (SimInverse (similarity m)).
    unfold sm_vel_of_from. cbn [sm_apply snd] in *. rewrite D. unfold sm_omega_of_from. cbn [SMInverse similarity sm_omega slinear SimInverse].
    change (mkSim (sto (similarity m)) (sfrom (similarity m)) (ConfInverse (slinear (similarity m)))) with (SimInverse (similarity m)).
    rewrite E. rewrite conf_add, conf_sub, conf_scal, conf_cross by (now apply conf_inv_unit).
    unfold sm_omega_of_from. rewrite conf_av_opp, !conf_av_inv by auto.
    destruct (conf_inv d (slinear (similarity m)) (sub3 p zero3) U S) as [-> _].
    destruct (conf_inv d (slinear (similarity m)) (sub3 v zero3) U S) as [-> _].
    clear. d3. vec.
  - destruct (sim_inv d (similarity m) p U S) as [_ E].
    cbn [sm_apply SMInverse similarity dilatation sm_omega sm_vel slinear SimInverse].
    change (mkSim (sto (similarity m)) (sfrom (similarity m)) (ConfInverse (slinear (similarity m)))) with (SimInverse (similarity m)).
    f_equal; [exact E|]. rewrite E. unfold sm_omega_of_from at 2. cbn [SMInverse similarity sm_omega slinear SimInverse].
    rewrite conf_sub, !conf_add, conf_scal, conf_cross by auto. unfold sm_omega_of_from.
    rewrite !conf_av_opp, !conf_av_inv by auto. destruct (conf_inv d (slinear (similarity m)) (sub3 v (sm_vel_of_from d m)) U S) as [_ ->].
    unfold sm_vel_of_from, sm_omega_of_from. cbn [sm_apply snd].
    set (p1 := sim d (SimInverse (similarity m)) p) in *.
    pose proof (sim_linear d (similarity m) p1 zero3) as L. rewrite E in L. replace (sub3 p1 zero3) with p1 in L by (destruct p1; vec).
    rewrite <- L, conf_sub. replace (conf_vector d (slinear (similarity m)) zero3) with zero3
      by (rewrite conf_eq, orth_zero; vec).
    unfold sm_omega_of_from. generalize (sim d (similarity m) zero3), (conf_vector d (slinear (similarity m)) (sm_vel m)),
      (conf_angular_velocity d (slinear (similarity m)) (sm_omega m)), (dilatation m). clear. intros. d3. vec.
Qed.

Lemma sm_mul dl dr l r dof : sm_valid l -> sm_valid r ->
  sm_apply (xorb dl dr) (SMMul dl dr l r) dof = sm_apply dl l (sm_apply dr r dof).
Proof.
  intros VL VR. destruct dof as [p v]. pose proof VL as [UL SL]. pose proof VR as [UR SR].
  assert (P : forall p, sim (xorb dl dr) (similarity (SMMul dl dr l r)) p = sim dl (similarity l) (sim dr (similarity r) p)).
  { intros x. cbn [SMMul similarity]. now apply sim_mul. }
  (* The origin at rest. *)
  pose (d0 := sm_apply dr (SMInverse dr r) (sm_apply dl (SMInverse dl l) (zero3, zero3))).
  assert (Z : sm_apply dl l (sm_apply dr r d0) = (zero3, zero3)).
  { unfold d0. destruct (sm_inv dr r (sm_apply dl (SMInverse dl l) (zero3, zero3)) VR) as [_ ->].
    now destruct (sm_inv dl l (zero3, zero3) VL) as [_ ->]. }
  assert (Z' : snd (sm_apply (xorb dl dr) (SMMul dl dr l r) d0) = zero3).
  { assert (E : sm_vel (SMMul dl dr l r) = snd d0) by reflexivity.
    destruct d0 as [p0 v0]. cbn [snd] in E. cbn [sm_apply snd]. rewrite P, E.
    assert (X : sim dl (similarity l) (sim dr (similarity r) p0) = zero3) by (apply (f_equal fst) in Z; exact Z).
    rewrite X. replace (sub3 v0 v0) with zero3 by vec. rewrite conf_eq, orth_zero. vec. }
  destruct d0 as [p0 v0].
  assert (V : sub3 (snd (sm_apply (xorb dl dr) (SMMul dl dr l r) (p, v))) (snd (sm_apply (xorb dl dr) (SMMul dl dr l r) (p0, v0))) =
              sub3 (snd (sm_apply dl l (sm_apply dr r (p, v)))) (snd (sm_apply dl l (sm_apply dr r (p0, v0))))).
  { rewrite sm_difference. rewrite (surjective_pairing (sm_apply dr r (p, v))), (surjective_pairing (sm_apply dr r (p0, v0))).
    rewrite sm_difference. cbv zeta. rewrite sm_difference. cbv zeta.
    cbn [sm_apply fst]. rewrite sim_linear. cbn [SMMul similarity slinear SimMul dilatation sm_omega].
    rewrite !conf_mul by auto. rewrite !conf_add, !conf_sub, !conf_scal, !conf_cross by auto.
    change (conf_angular_velocity (xorb dl dr) (ConfMul (slinear (similarity l)) (slinear (similarity r)))
      (add3 (sm_omega r) (conf_angular_velocity dr (ConfInverse (slinear (similarity r))) (sm_omega l))))
      with (orth_bivector (xorb dl dr) (OrthMul (quat (slinear (similarity l))) (quat (slinear (similarity r))))
      (add3 (sm_omega r) (conf_angular_velocity dr (ConfInverse (slinear (similarity r))) (sm_omega l)))).
    rewrite orth_bi_mul by auto. rewrite <- !conf_av_eq. rewrite !conf_av_add, conf_av_inv', ?conf_sub by auto. vec. }
  rewrite Z in V. rewrite Z' in V. cbn [snd] in V.
  apply injective_projections; [cbn [sm_apply fst]; apply P|].
  assert (K : forall u w, sub3 u zero3 = sub3 w zero3 -> u = w).
  { intros u w H. unfold sub3, zero3 in H. cbn [cx cy cz] in H. rewrite !Rminus_0_r in H. destruct u, w. exact H. }
  now apply K.
Qed.

Lemma sm_identity d : sm_valid SMIdentity /\ sm_apply false SMIdentity d = d.
Proof.
  destruct d as [p v]. split; [split; [apply unit_one|cbn; lra]|]. cbn [sm_apply]. unfold sim, sm_omega_of_from.
  cbn [SMIdentity similarity sm_omega dilatation sm_vel sfrom sto slinear].
  assert (E : forall u, conf_vector false (mkC 1 (qreal 1)) u = u).
  { intros u. rewrite conf_eq, orth_vector_eq. cbn [scale quat smul3]. change (qreal 1) with RotIdentity. rewrite rotate_id. destruct u. vec. }
  rewrite !E. replace (conf_angular_velocity false (mkC 1 (qreal 1)) zero3) with zero3.
  - f_equal; destruct p, v; vec.
  - rewrite conf_av_eq. rewrite orth_bivector_eq. change (quat _) with RotIdentity. now rewrite rotate_id.
Qed.

(** A rigid motion that forgets that it is one. *)
Lemma sm_forget d m dof : rm_valid m -> sm_valid (RMForget m) /\ sm_apply d (RMForget m) dof = rm_apply d m dof.
Proof.
  intros U. split; [split; [exact U|cbn; lra]|]. destruct dof as [p v]. rewrite rm_apply_eq by auto.
  cbn [sm_apply RMForget similarity]. unfold sim, sm_omega_of_from, aff.
  cbn [slinear similarity sfrom sto dilatation sm_omega sm_vel].
  rewrite !conf_av_eq, !conf_eq. cbn [scale quat]. rewrite !scal3_one, !orth_sub. f_equal. cbn [RMForget dilatation sm_omega sm_vel similarity slinear quat]. vec.
Qed.

Lemma sm_dilatation d s r p v : s <> 0 -> sm_valid (DilatationAboutOrigin s r) /\
  sm_apply false (DilatationAboutOrigin s r) (p, v) = (scal3 s p, scal3 s (add3 v (scal3 r p))) /\
  sm_apply false (SMInverse false (DilatationAboutOrigin s r)) (p, v) = (scal3 (/ s) p, scal3 (/ s) (sub3 v (scal3 r p))) /\
  SMInverse d (DilatationAboutOrigin s r) = DilatationAboutOrigin (1 / s) (- r).
Proof.
  intros S. split; [split; [apply unit_one|exact S]|].
  assert (Q : forall k w, conf_vector false (mkC k (qreal 1)) w = scal3 k w).
  { intros k w. rewrite conf_eq, orth_vector_eq. cbn [scale quat smul3]. change (qreal 1) with RotIdentity. now rewrite rotate_id. }
  assert (Z : forall b k, conf_angular_velocity b (mkC k (qreal 1)) zero3 = zero3).
  { intros. rewrite conf_av_eq, orth_bivector_eq. change (quat _) with RotIdentity. now rewrite rotate_id. }
  assert (A : forall k x u w, sm_apply false (DilatationAboutOrigin k x) (u, w) = (scal3 k u, scal3 k (add3 w (scal3 x u)))).
  { intros. cbn [sm_apply]. unfold sim, sm_omega_of_from. cbn [DilatationAboutOrigin similarity sm_omega dilatation sm_vel sfrom sto slinear].
    rewrite !Q, Z. f_equal; vec. }
  assert (I : forall b, SMInverse b (DilatationAboutOrigin s r) = DilatationAboutOrigin (1 / s) (- r)).
  { intros b. unfold SMInverse, sm_vel_of_from, sm_omega_of_from. cbn [sm_apply snd]. unfold sim, sm_omega_of_from.
    cbn [DilatationAboutOrigin similarity sm_omega dilatation sm_vel sfrom sto slinear].
    rewrite Z. replace (conf_vector b (mkC s (qreal 1)) (sub3 zero3 zero3)) with zero3.
    - unfold DilatationAboutOrigin, SimInverse, ConfInverse. cbn [sfrom sto slinear scale quat]. rewrite qinverse_unit by apply unit_one.
      replace (Conjugate (qreal 1)) with (qreal 1) by (red_all; rewrite Ropp_0; reflexivity). f_equal; vec.
    - replace (sub3 zero3 zero3) with zero3 by vec. rewrite conf_eq, orth_zero. vec. }
  split; [apply A|]. split; [|apply I]. rewrite I, A. unfold Rdiv. rewrite Rmult_1_l. f_equal. vec.
Qed.

(** * Kinematics *)
(** At [t0] the axes of the frame (unit vectors) turn with the angular velocity [w], its origin has the velocity [v] and its
    unit of length shrinks at the rate [k] (its coordinates grow at that rate). *)
Definition moving_similar_frame (det : bool) (T : R -> SimilarityMap) (t0 : R) (w v : R3) (k : R) : Prop :=
  (forall e, In e [e_x; e_y; e_z] ->
     has_derivative (fun t => orth_vector det (OrthInverse (quat (slinear (T t)))) e) t0
                    (Cross w (orth_vector det (OrthInverse (quat (slinear (T t0)))) e))) /\
  has_derivative (fun t => sim det (SimInverse (T t)) zero3) t0 v /\
  derivable_pt_lim (fun t => scale (slinear (T t))) t0 (k * scale (slinear (T t0))).

Lemma sim_split det T p : unit_q (quat (slinear T)) -> scale (slinear T) <> 0 ->
  let A := mkA (sim det (SimInverse T) zero3) zero3 (quat (slinear T)) in
  sim det T p = scal3 (scale (slinear T)) (aff det A p) /\ aff det (AffInverse A) zero3 = sim det (SimInverse T) zero3.
Proof.
  intros U S A. split.
  - pose proof (sim_linear det T p (sim det (SimInverse T) zero3)) as L. destruct (sim_inv det T zero3 U S) as [_ E]. rewrite E in L.
    transitivity (sub3 (sim det T p) zero3); [destruct (sim det T p); vec|]. rewrite L. unfold aff, A. cbn [linear from_origin to_origin].
    rewrite conf_eq. f_equal. generalize (orth_vector det (quat (slinear T)) (sub3 p (sim det (SimInverse T) zero3))). intros. d3. vec.
  - unfold A, aff, AffInverse. cbn [linear from_origin to_origin]. replace (sub3 zero3 zero3) with zero3 by vec. rewrite orth_zero.
    generalize (sim det (SimInverse T) zero3). intros. d3. vec.
Qed.

Lemma sm_kinematics det T p t0 w v k p' : (forall t, unit_q (quat (slinear (T t))) /\ scale (slinear (T t)) <> 0) ->
  moving_similar_frame det T t0 w v k -> has_derivative p t0 p' ->
  has_derivative (fun t => sim det (T t) (p t)) t0 (snd (sm_apply det (mkSM (T t0) w v k) (p t0, p'))).
Proof.
  intros V (A & O & K) P.
  pose (B := fun t => mkA (sim det (SimInverse (T t)) zero3) zero3 (quat (slinear (T t)))).
  assert (M : moving_frame det B t0 w v).
  { split; [exact A|]. eapply v_ext; [|exact O]. intros s. cbn beta. symmetry. apply (sim_split det (T s) zero3); apply V. }
  pose proof (rm_kinematics det B p t0 w v p' (fun t => proj1 (V t)) M P) as D.
  apply (v_ext (fun t => scal3 (scale (slinear (T t))) (aff det (B t) (p t)))).
  { intros s. symmetry. apply (sim_split det (T s) (p s)); apply V. }
  eapply v_eq; [apply (v_scal _ _ _ _ _ K D)|]. cbn beta.
  rewrite rm_apply_eq by (apply (proj1 (V t0))). cbn [sm_apply snd rt omega vel similarity sm_omega sm_vel dilatation].
  destruct (sim_split det (T t0) (p t0) (proj1 (V t0)) (proj2 (V t0))) as [-> _]. fold (B t0).
  unfold sm_omega_of_from. cbn [similarity sm_omega]. rewrite conf_av_eq, conf_eq, orth_sub. unfold B at 2 3 4. cbn [linear]. vec.
Qed.
