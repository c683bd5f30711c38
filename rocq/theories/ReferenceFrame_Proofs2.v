(** Proofs for the rigid reference frames: the frames of the library, the potential, the cache and the Frenet frame. *)
From Coq Require Import Reals List Lra Lia Arith.
From Verif Require Import Geometry_Model Geometry_Proofs Geometry_Proofs2 VectorCalculus_Proofs RotatingBody_Model
  RotatingBody_Proofs ReferenceFrame_Model SimilarMotion_Proofs ReferenceFrame_Proofs.
Import ListNotations.
Open Scope R_scope.

(** A body whose velocity, acceleration and jerk are the successive derivatives of its position. *)
Definition smooth (b : Body) : Prop := forall t,
  has_derivative (position b) t (velocity b t) /\ has_derivative (velocity b) t (acceleration b t) /\
  has_derivative (acceleration b) t (jerk b t).

(** The equations of motion in a frame: the velocity is the derivative of the position, and its own derivative is the
    geometric acceleration, for all trajectories with acceleration [g] in the inertial frame. *)
Definition equations_of_motion (det : bool) (M : R -> AcceleratedRigidMotion) : Prop :=
  forall (q v : R -> R3) (g : R -> R3 -> R3) t, has_derivative q t (v t) -> has_derivative v t (g t (q t)) ->
  let P s := fst (rm_apply det (rigid_motion (M s)) (q s, v s)) in
  let V s := snd (rm_apply det (rigid_motion (M s)) (q s, v s)) in
  has_derivative P t (V t) /\ has_derivative V t (GeometricAcceleration det (M t) (g t) (P t, V t)).

Lemma frame_equations det M : (forall t, unit_q (linear (rt (rigid_motion (M t))))) -> (forall t, accelerated_frame det M t) ->
  equations_of_motion det M.
Proof.
  intros U A q v g t Dq Dv P V. split.
  - unfold P, V. cbn [rm_apply fst]. eapply v_eq; [apply (rm_kinematics det (fun s => rt (rigid_motion (M s)))); [apply U|apply A|exact Dq]|].
    cbn beta. destruct (rigid_motion (M t)). reflexivity.
  - unfold V. eapply v_eq; [apply (frame_acceleration det M t q v (g t) U (A t) Dq Dv)|].
    unfold P. now rewrite <- surjective_pairing.
Qed.

Lemma rotation_origin det o q : aff det (AffInverse (mkA o zero3 q)) zero3 = o.
Proof.
  unfold aff, AffInverse. cbn [linear from_origin to_origin]. replace (sub3 zero3 zero3) with zero3 by vec. rewrite orth_zero. destruct o. vec.
Qed.

Lemma non_rotating_frame p b : smooth b ->
  (forall t, unit_q (linear (rt (rigid_motion (non_rotating_motion p b t))))) /\
  forall t, accelerated_frame false (non_rotating_motion p b) t.
Proof.
  intros S. split; [intros t; cbn; destruct p; [apply celestial_frame|apply unit_one]|].
  intros t. destruct (S t) as (P & V & A). split; [split|split].
  - intros e _. cbn [rigid_motion non_rotating_motion rt linear omega]. eapply v_eq; [apply v_const|]. vec.
  - cbn [rigid_motion non_rotating_motion rt vel]. eapply v_ext; [|exact P]. intros s. symmetry. apply rotation_origin.
  - cbn. apply v_const.
  - exact V.
Qed.

Lemma body_surface_frame p b : smooth b ->
  (forall t, unit_q (linear (rt (rigid_motion (body_surface_motion p b t))))) /\
  forall t, accelerated_frame false (body_surface_motion p b) t.
Proof.
  intros S. split; [intros t; cbn; apply unit_conj; apply surface_frame|].
  intros t. destruct (S t) as (P & V & A).
  assert (E : forall s e, orth_vector false (OrthInverse (ToSurfaceFrame p s)) e = rotate (FromSurfaceFrame p s) e).
  { intros s e. rewrite orth_vector_eq. cbn [smul3]. unfold OrthInverse, ToSurfaceFrame, RotInverse. now rewrite conj_conj. }
  split; [split|split].
  - intros e _. cbn [rigid_motion body_surface_motion rt linear omega]. rewrite E. eapply v_ext; [|apply surface_derivative].
    intros s. cbn beta. symmetry. apply E.
  - cbn [rigid_motion body_surface_motion rt vel]. eapply v_ext; [|exact P]. intros s. symmetry. apply rotation_origin.
  - cbn. apply v_const.
  - exact V.
Qed.

(** * Frames that follow two points *)
(** A point with four derivatives. *)
Definition smooth4 (q v a j : R -> R3) : Prop := forall t, has_derivative q t (v t) /\ has_derivative v t (a t) /\ has_derivative a t (j t).
Definition direction_motion (q1 v1 a1 j1 q2 v2 a2 j2 o ov oa : R -> R3) (t : R) : AcceleratedRigidMotion :=
  let '(rotation, angular_velocity) := ComputeAngularDegreesOfFreedom (q1 t) (v1 t) (a1 t) (q2 t) (v2 t) (a2 t) in
  mkARM (mkRM (mkA (o t) zero3 rotation) angular_velocity (ov t))
        (AngularAccelerationOf (sub3 (q2 t) (q1 t)) (sub3 (v2 t) (v1 t)) (sub3 (a2 t) (a1 t)) (sub3 (j2 t) (j1 t))) (oa t).

Lemma to_axes_inverse x y z : right_handed x y z ->
  orth_vector false (OrthInverse (RotToAxes x y z)) e_x = x /\ orth_vector false (OrthInverse (RotToAxes x y z)) e_y = y /\
  orth_vector false (OrthInverse (RotToAxes x y z)) e_z = z.
Proof.
  intros H. destruct (to_axes x y z H) as (U & X & Y & Z). rewrite !orth_vector_eq. cbn [smul3]. unfold OrthInverse.
  assert (I : forall u e, rotate (RotToAxes x y z) u = e -> rotate (Conjugate (RotToAxes x y z)) e = u) by (intros u e <-; now apply rotate_inv).
  auto.
Qed.

Lemma direction_frame q1 v1 a1 j1 q2 v2 a2 j2 o ov oa :
  smooth4 q1 v1 a1 j1 -> smooth4 q2 v2 a2 j2 ->
  (forall t, has_derivative o t (ov t) /\ has_derivative ov t (oa t)) ->
  (forall t, Cross (sub3 (q2 t) (q1 t)) (sub3 (v2 t) (v1 t)) <> zero3) ->
  let M := direction_motion q1 v1 a1 j1 q2 v2 a2 j2 o ov oa in
  (forall t, unit_q (linear (rt (rigid_motion (M t))))) /\ forall t, accelerated_frame false M t.
Proof.
  intros S1 S2 SO ND M.
  pose (r := fun t => sub3 (q2 t) (q1 t)). pose (r1 := fun t => sub3 (v2 t) (v1 t)). pose (r2 := fun t => sub3 (a2 t) (a1 t)).
  pose (r3 := fun t => sub3 (j2 t) (j1 t)).
  assert (D0 : forall t, has_derivative r t (r1 t)) by (intros t; apply v_sub; [apply S2|apply S1]).
  assert (D1 : forall t, has_derivative r1 t (r2 t)) by (intros t; apply v_sub; [apply S2|apply S1]).
  assert (D2 : forall t, has_derivative r2 t (r3 t)) by (intros t; apply v_sub; [apply S2|apply S1]).
  pose proof (orthonormal_rh r r1 ND) as RH.
  assert (E : forall t, linear (rt (rigid_motion (M t))) =
    RotToAxes (fore (orthonormal r r1 t)) (normal (orthonormal r r1 t)) (binormal (orthonormal r r1 t))) by reflexivity.
  assert (EW : forall t, omega (rigid_motion (M t)) = w r r1 r2 t) by reflexivity.
  split; [intros t; rewrite E; apply (to_axes _ _ _ (RH t))|].
  intros t. split; [split|split].
  - pose proof (to_axes_inverse _ _ _ (RH t)) as (X & Y & Z).
    destruct (orthonormal_derivative r r1 r2 D0 D1 ND t) as (F & N & B).
    destruct (w_axes r r1 r2 D0 D1 ND t) as (WF & WN & WB).
    rewrite EW.
    intros e [<-|[<-|[<-|[]]]]; rewrite E.
    + rewrite X, <- WF. eapply v_ext; [|exact F]. intros s. cbn beta. rewrite E. symmetry. apply (to_axes_inverse _ _ _ (RH s)).
    + rewrite Y, <- WN. eapply v_ext; [|exact N]. intros s. cbn beta. rewrite E. symmetry. apply (to_axes_inverse _ _ _ (RH s)).
    + rewrite Z, <- WB. eapply v_ext; [|exact B]. intros s. cbn beta. rewrite E. symmetry. apply (to_axes_inverse _ _ _ (RH s)).
  - change (vel (rigid_motion (M t))) with (ov t). eapply v_ext; [|apply SO]. intros s. cbn beta. symmetry. apply rotation_origin.
  - exact (w_derivative r r1 r2 r3 D0 D1 D2 ND t).
  - exact (proj2 (SO t)).
Qed.

(** The two points are on the x axis, the second one on the side of positive abscissae, and their relative velocity is in
    the plane of x and y, with a positive ordinate before the rotation is taken into account, and on the axis after. *)
Lemma direction_axes q1 v1 a1 j1 q2 v2 a2 j2 o ov oa t :
  smooth4 q1 v1 a1 j1 -> smooth4 q2 v2 a2 j2 ->
  (forall t, Cross (sub3 (q2 t) (q1 t)) (sub3 (v2 t) (v1 t)) <> zero3) ->
  let M := rigid_motion (direction_motion q1 v1 a1 j1 q2 v2 a2 j2 o ov oa t) in
  let r := sub3 (q2 t) (q1 t) in let r' := sub3 (v2 t) (v1 t) in
  sub3 (aff false (rt M) (q2 t)) (aff false (rt M) (q1 t)) = mk3 (Norm r) 0 0 /\
  (cz (orth_vector false (linear (rt M)) r') = 0 /\ 0 < cy (orth_vector false (linear (rt M)) r')) /\
  sub3 (snd (rm_apply false M (q2 t, v2 t))) (snd (rm_apply false M (q1 t, v1 t))) = mk3 (Dot r r' / Norm r) 0 0.
Proof.
  intros S1 S2 ND M r0 r0'.
  pose (r := fun t => sub3 (q2 t) (q1 t)). pose (r1 := fun t => sub3 (v2 t) (v1 t)). pose (r2 := fun t => sub3 (a2 t) (a1 t)).
  assert (D0 : forall t, has_derivative r t (r1 t)) by (intros x; apply v_sub; [apply S2|apply S1]).
  assert (D1 : forall t, has_derivative r1 t (r2 t)) by (intros x; apply v_sub; [apply S2|apply S1]).
  pose proof (orthonormal_rh r r1 ND t) as RH. destruct (to_axes _ _ _ RH) as (U & X & Y & Z).
  set (Q := RotToAxes (fore (orthonormal r r1 t)) (normal (orthonormal r r1 t)) (binormal (orthonormal r r1 t))) in *.
  assert (E : linear (rt M) = Q) by reflexivity.
  pose proof (r_nz _ _ (ND t)) as RNZ. fold (r t) in RNZ. pose proof (norm_pos _ RNZ) as NP. pose proof (norm_pos _ (ND t)) as NB.
  assert (RX : rotate Q (r t) = mk3 (Norm (r t)) 0 0).
  { rewrite <- (normalize_scal (r t) RNZ) at 1. rewrite rotate_scal. change (Normalize (r t)) with (fore (orthonormal r r1 t)). rewrite X.
    unfold scal3, e_x. cbn [cx cy cz]. apply mk3_eq; ring. }
  assert (C : forall u, orth_vector false Q u = rotate Q u) by (intros; now rewrite orth_vector_eq).
  assert (RZ : forall u, rotate Q u = mk3 (Dot u (fore (orthonormal r r1 t))) (Dot u (normal (orthonormal r r1 t))) (Dot u (binormal (orthonormal r r1 t)))).
  { intros u. rewrite <- (rotate_dot Q u (fore (orthonormal r r1 t)) U), <- (rotate_dot Q u (normal (orthonormal r r1 t)) U),
      <- (rotate_dot Q u (binormal (orthonormal r r1 t)) U), X, Y, Z. destruct (rotate Q u). unfold e_x, e_y, e_z, Dot. cbn. apply mk3_eq; ring. }
  assert (DX : Dot (r1 t) (fore (orthonormal r r1 t)) = Dot (r t) (r1 t) / Norm (r t)).
  { cbn [orthonormal ComputeTrihedra snd fore]. unfold Normalize. rewrite dot_comm. unfold div3, Dot. cbn [cx cy cz]. field. lra. }
  split; [rewrite aff_linear, E, C; exact RX|]. split; [split|].
  - rewrite E, C, RZ. cbn [cz]. cbn [orthonormal ComputeTrihedra snd binormal]. unfold Normalize. unfold div3, Dot, r0', r, r1, Cross. cbn [cx cy cz].
    unfold Rdiv. ring.
  - rewrite E, C, RZ. cbn [cy]. cbn [orthonormal ComputeTrihedra snd normal].
    change r0' with (r1 t). unfold Normalize. rewrite (norm_normal (r t) (r1 t)).
    replace (Dot (r1 t) (div3 (Cross (Cross (r t) (r1 t)) (r t)) (Norm (Cross (r t) (r1 t)) * Norm (r t))))
      with (Norm2 (Cross (r t) (r1 t)) / (Norm (Cross (r t) (r1 t)) * Norm (r t))).
    + pose proof (norm2_pos _ (ND t)). change (sub3 (q2 t) (q1 t)) with (r t) in *. change (sub3 (v2 t) (v1 t)) with (r1 t) in *.
      apply Rdiv_lt_0_compat; [assumption|]. now apply Rmult_lt_0_compat.
    + change (sub3 (q2 t) (q1 t)) with (r t) in *. change (sub3 (v2 t) (v1 t)) with (r1 t) in *.
      generalize dependent (Norm (Cross (r t) (r1 t))). generalize dependent (Norm (r t)). intros. dots. field. split; lra.
  - assert (VM : rm_valid M) by exact U.
    rewrite !rm_apply_eq by exact VM. cbn [snd]. rewrite E.
    transitivity (sub3 (rotate Q (r1 t)) (Cross (rotate Q (omega M)) (rotate Q (r t)))).
    { assert (L := aff_linear false (rt M) (q2 t) (q1 t)). rewrite E, C in L. change (rotate Q (r t)) with (rotate Q (sub3 (q2 t) (q1 t))). rewrite <- L.
      change (rotate Q (r1 t)) with (rotate Q (sub3 (v2 t) (v1 t))). rewrite (rotate_sub Q (v2 t)).
      rewrite (C (v2 t)), (C (v1 t)), orth_bivector_eq. generalize (rotate Q (omega M)), (aff false (rt M) (q2 t)), (aff false (rt M) (q1 t)). intros. vec. }
    change (omega M) with (w r r1 r2 t).
    rewrite rotate_cross by exact U. rewrite <- rotate_sub.
    (* The relative velocity in the rotating frame is along [fore]. *)
    destruct (w_axes r r1 r2 D0 D1 ND t) as (WF & _ & _).
    assert (K : sub3 (r1 t) (Cross (w r r1 r2 t) (r t)) = scal3 (Dot (r t) (r1 t) / Norm (r t)) (fore (orthonormal r r1 t))).
    { assert (RR : r t = scal3 (Norm (r t)) (fore (orthonormal r r1 t))) by (symmetry; apply (normalize_scal (r t) RNZ)).
      assert (CC : Cross (w r r1 r2 t) (r t) = scal3 (Norm (r t)) (fore (d_orthonormal r r1 r2 t))).
      { rewrite WF. transitivity (Cross (w r r1 r2 t) (scal3 (Norm (r t)) (fore (orthonormal r r1 t)))); [now f_equal|].
        generalize (fore (orthonormal r r1 t)), (w r r1 r2 t), (Norm (r t)). intros. vec. }
      rewrite CC. cbn [d_orthonormal orthogonal orthonormal ComputeTrihedra ComputeTrihedraDerivatives fst snd fore].
      unfold d_normalized, Normalize. rewrite <- (norm_sq (r t)). clear - NP. generalize dependent (Norm (r t)). intros n NP.
      unfold sub3, scal3, div3. cbn [cx cy cz]. apply mk3_eq; field; lra. }
    rewrite K, rotate_scal, X. change (Dot r0 r0' / Norm r0) with (Dot (r t) (r1 t) / Norm (r t)).
    unfold scal3, e_x. cbn [cx cy cz]. apply mk3_eq; ring.
Qed.

(** * Barycentres *)
Definition barycentre (k : nat) (l : list Body) (t : R) : R3 := weighted_mean (map (fun b => (derivative_of k b t, mu b)) l).
Definition total_mu (l : list Body) : R := Rsum (map mu l).
Lemma sum_mu_eq l : sum_mu l = total_mu l.
Proof.
  unfold sum_mu, total_mu. assert (H : forall a, fold_left (fun s b => s + mu b) l a = a + Rsum (map mu l)).
  { induction l as [|b l IH]; intros a; cbn; [ring|]. rewrite IH. ring. }
  rewrite H. ring.
Qed.
Lemma barycentre_weight k l t : total_weight (map (fun b => (derivative_of k b t, mu b)) l) = total_mu l.
Proof. unfold total_weight, total_mu. rewrite map_map. reflexivity. Qed.
Lemma total_mu_pos l : l <> [] -> (forall b, In b l -> 0 < mu b) -> 0 < total_mu l.
Proof.
  intros N H. unfold total_mu. destruct l as [|b l]; [easy|]. clear N. cbn [map Rsum].
  assert (0 <= Rsum (map mu l)); [|specialize (H b (or_introl eq_refl)); lra].
  assert (G : forall b, In b l -> 0 < mu b) by (intros; apply H; now right). clear H. induction l as [|c l IH]; cbn; [lra|].
  pose proof (G c (or_introl eq_refl)). assert (0 <= Rsum (map mu l)) by (apply IH; intros; apply G; now right). lra.
Qed.
Lemma barycentre_eq k l t : l <> [] -> (forall b, In b l -> 0 < mu b) -> BarycentreDerivative k l t = Some (barycentre k l t).
Proof.
  intros N H. unfold BarycentreDerivative, barycentre. apply bc_get; [now destruct l|].
  rewrite barycentre_weight. pose proof (total_mu_pos l N H). lra.
Qed.
Lemma sum_derivative (f g : Body -> R -> R) (l : list Body) t :
  (forall b, In b l -> derivable_pt_lim (f b) t (g b t)) ->
  derivable_pt_lim (fun s => Rsum (map (fun b => mu b * f b s) l)) t (Rsum (map (fun b => mu b * g b t) l)).
Proof.
  induction l as [|b l IH]; intros H; cbn [map Rsum]; [apply d_const|].
  apply d_plus; [|apply IH; intros; apply H; now right].
  eapply d_eq; [apply d_mult; [apply d_const|apply (H b (or_introl eq_refl))]|cbn beta; ring].
Qed.
Lemma barycentre_derivative k l t : (forall b, In b l -> has_derivative (derivative_of k b) t (derivative_of (S k) b t)) ->
  has_derivative (barycentre k l) t (barycentre (S k) l t).
Proof.
  intros H.
  assert (E : forall k s, barycentre k l s = mk3 (Rsum (map (fun b => mu b * cx (derivative_of k b s)) l) * / total_mu l)
    (Rsum (map (fun b => mu b * cy (derivative_of k b s)) l) * / total_mu l)
    (Rsum (map (fun b => mu b * cz (derivative_of k b s)) l) * / total_mu l)).
  { intros j s. unfold barycentre, weighted_mean. rewrite barycentre_weight, !map_map. reflexivity. }
  eapply v_ext; [intros s; symmetry; apply E|]. rewrite E.
  unfold has_derivative. cbn [cx cy cz].
  repeat split; (eapply d_eq; [apply d_mult; [|apply d_const]|cbn beta; rewrite Rmult_0_r, Rplus_0_r; reflexivity]).
  - apply (sum_derivative (fun b s => cx (derivative_of k b s)) (fun b s => cx (derivative_of (S k) b s))). intros b Hb. apply (H b Hb).
  - apply (sum_derivative (fun b s => cy (derivative_of k b s)) (fun b s => cy (derivative_of (S k) b s))). intros b Hb. apply (H b Hb).
  - apply (sum_derivative (fun b s => cz (derivative_of k b s)) (fun b s => cz (derivative_of (S k) b s))). intros b Hb. apply (H b Hb).
Qed.
Lemma barycentre_smooth l : (forall b, In b l -> smooth b) ->
  smooth4 (barycentre 0 l) (barycentre 1 l) (barycentre 2 l) (barycentre 3 l).
Proof. intros H t. repeat split; apply barycentre_derivative; intros b Hb; apply (H b Hb). Qed.

Definition barycentre_of_two (p1 p2 : R3) (m1 m2 : R) : R3 := scal3 (/ (m1 + m2)) (add3 (scal3 m1 p1) (scal3 m2 p2)).
Lemma barycentre2_eq p1 p2 m1 m2 : m1 + m2 <> 0 -> Barycentre2 p1 p2 m1 m2 = Some (barycentre_of_two p1 p2 m1 m2).
Proof.
  intros H. unfold Barycentre2. rewrite bc_get; [|discriminate|unfold total_weight; cbn; lra].
  f_equal. unfold weighted_mean, total_weight, barycentre_of_two, scal3, add3. cbn [map fst snd Rsum cx cy cz]. apply mk3_eq; field; lra.
Qed.
Lemma barycentre_of_two_derivative p1 p2 m1 m2 t p1' p2' : has_derivative p1 t p1' -> has_derivative p2 t p2' ->
  has_derivative (fun s => barycentre_of_two (p1 s) (p2 s) m1 m2) t (barycentre_of_two p1' p2' m1 m2).
Proof.
  intros A B. unfold barycentre_of_two.
  eapply v_eq; [apply v_scal; [apply d_const|apply v_add; apply v_scal; [apply d_const|exact A|apply d_const|exact B]]|]. cbn beta. vec.
Qed.

Section BARYCENTRIC.
Variables primaries secondaries : list Body.
Hypothesis N1 : primaries <> [].
Hypothesis N2 : secondaries <> [].
Hypothesis S : forall b, In b (primaries ++ secondaries) -> smooth b /\ 0 < mu b.
Let m1 := total_mu primaries. Let m2 := total_mu secondaries.
Definition common (k : nat) (t : R) : R3 := barycentre_of_two (barycentre k primaries t) (barycentre k secondaries t) m1 m2.
Lemma positive_masses : 0 < m1 /\ 0 < m2.
Proof. split; apply total_mu_pos; auto; intros b H; apply S; apply in_or_app; auto. Qed.
Definition barycentric_frame_motion : R -> AcceleratedRigidMotion :=
  direction_motion (barycentre 0 primaries) (barycentre 1 primaries) (barycentre 2 primaries) (barycentre 3 primaries)
    (barycentre 0 secondaries) (barycentre 1 secondaries) (barycentre 2 secondaries) (barycentre 3 secondaries)
    (common 0) (common 1) (common 2).
Lemma barycentric_motion_eq t : barycentric_motion primaries secondaries t = Some (barycentric_frame_motion t).
Proof.
  unfold barycentric_motion.
  assert (A : forall b, In b primaries -> 0 < mu b) by (intros; apply S; apply in_or_app; auto).
  assert (B : forall b, In b secondaries -> 0 < mu b) by (intros; apply S; apply in_or_app; auto).
  rewrite !(barycentre_eq _ primaries t N1 A), !(barycentre_eq _ secondaries t N2 B), !sum_mu_eq. fold m1 m2.
  destruct positive_masses as [P1 P2]. unfold barycentric_frame_motion, direction_motion.
  destruct (ComputeAngularDegreesOfFreedom _ _ _ _ _ _) as [rot om].
  rewrite !barycentre2_eq by lra. reflexivity.
Qed.
Lemma primaries_smooth : smooth4 (barycentre 0 primaries) (barycentre 1 primaries) (barycentre 2 primaries) (barycentre 3 primaries).
Proof. apply barycentre_smooth. intros; apply S; apply in_or_app; auto. Qed.
Lemma secondaries_smooth : smooth4 (barycentre 0 secondaries) (barycentre 1 secondaries) (barycentre 2 secondaries) (barycentre 3 secondaries).
Proof. apply barycentre_smooth. intros; apply S; apply in_or_app; auto. Qed.
Lemma common_smooth t : has_derivative (common 0) t (common 1 t) /\ has_derivative (common 1) t (common 2 t).
Proof.
  destruct (primaries_smooth t) as (A & B & _). destruct (secondaries_smooth t) as (A' & B' & _).
  split; apply barycentre_of_two_derivative; assumption.
Qed.
Lemma common_mean k t : common k t = barycentre k (primaries ++ secondaries) t.
Proof.
  destruct positive_masses as [P1 P2]. unfold common, barycentre_of_two, barycentre, weighted_mean.
  rewrite !barycentre_weight. fold m1 m2. rewrite !map_app, !map_map, !Rsum_app. cbn [fst snd].
  replace (total_mu (primaries ++ secondaries)) with (m1 + m2) by (unfold total_mu, m1, m2, total_mu; rewrite map_app, Rsum_app; reflexivity).
  unfold scal3, add3. cbn [cx cy cz]. apply mk3_eq; field; repeat split; lra.
Qed.
End BARYCENTRIC.

(** * The cache *)
(** What is in the cache is the value at the time that is in the cache. *)
Definition cache_valid (l : list Body) (c : CachedDerivatives) : Prop :=
  forall k t v, c k = Some (t, v) -> v = BarycentreDerivative k l t.
Lemma cached_derivative k l t c : cache_valid l c ->
  fst (CachedBarycentreDerivative k l t c) = BarycentreDerivative k l t /\ cache_valid l (snd (CachedBarycentreDerivative k l t c)).
Proof.
  intros H. unfold CachedBarycentreDerivative.
  assert (C : cache_valid l (fun d => if Nat.eqb d k then Some (t, BarycentreDerivative k l t) else c d)).
  { intros d s v E. destruct (Nat.eqb d k) eqn:K; [|now apply H]. apply Nat.eqb_eq in K. congruence. }
  destruct (c k) as [[key v]|] eqn:E; [|now split]. destruct (Req_EM_T key t) as [<-|]; [|now split].
  split; [now apply H|exact H].
Qed.
(** Any sequence of requests. *)
Fixpoint requests (l : list Body) (c : CachedDerivatives) (q : list (nat * R)) : list (option R3) :=
  match q with
  | [] => []
  | (k, t) :: q => let '(v, c') := CachedBarycentreDerivative k l t c in v :: requests l c' q
  end.
Lemma cache_transparent l q : requests l no_cache q = map (fun '(k, t) => BarycentreDerivative k l t) q.
Proof.
  assert (H : forall c, cache_valid l c -> requests l c q = map (fun '(k, t) => BarycentreDerivative k l t) q).
  { induction q as [|[k t] q IH]; intros c V; [reflexivity|]. cbn. destruct (cached_derivative k l t c V) as [E V'].
    destruct (CachedBarycentreDerivative k l t c) as [v c']. cbn in E, V'. rewrite E. f_equal. now apply IH. }
  apply H. intros k t v E. discriminate.
Qed.

(** * The potential *)
(** [a] is the opposite of the gradient of [U] at [p]. *)
Definition opposite_gradient (U : R3 -> R) (p a : R3) : Prop :=
  forall d, derivable_pt_lim (fun h => U (add3 p (scal3 h d))) 0 (- Dot a d).

Lemma aff_line det f p h d : aff det f (add3 p (scal3 h d)) = add3 (aff det f p) (scal3 h (orth_vector det (linear f) d)).
Proof. unfold aff. rewrite !orth_sub, orth_add, orth_scal. vec. Qed.

Lemma potential_gradient det M U g p : unit_q (linear (rt (rigid_motion M))) ->
  (forall q, opposite_gradient U q (g q)) ->
  opposite_gradient (GeometricPotential det M U) p (RotationFreeGeometricAccelerationAtRest det M g p).
Proof.
  intros UQ G d. unfold GeometricPotential. cbv zeta.
  set (q := linear (rt (rigid_motion M))) in *. set (W := orth_bivector det q (omega (rigid_motion M))).
  set (A := orth_vector det q (origin_acceleration M)).
  assert (D1 : derivable_pt_lim (fun h => U (aff det (rt (RMInverse det (rigid_motion M))) (add3 p (scal3 h d)))) 0
                 (- Dot (g (aff det (rt (RMInverse det (rigid_motion M))) p)) (orth_vector det (OrthInverse q) d))).
  { eapply derivable_pt_lim_ext; [intros h; rewrite aff_line; reflexivity|]. apply G. }
  assert (L : forall u, derivable_pt_lim (fun h => Dot (sub3 (add3 p (scal3 h d)) zero3) u) 0 (Dot d u)).
  { intros u. apply (derivable_pt_lim_ext (fun h => Dot p u + h * Dot d u)); [intros; dots; ring|].
    eapply d_eq; [apply d_plus; [apply d_const|apply d_mult; [apply d_id|apply d_const]]|cbn beta; ring]. }
  assert (D3 : derivable_pt_lim (fun h => Norm2 (Cross W (sub3 (add3 p (scal3 h d)) zero3))) 0 (2 * Dot (Cross W p) (Cross W d))).
  { apply (derivable_pt_lim_ext (fun h => Norm2 (Cross W p) + h * (2 * Dot (Cross W p) (Cross W d)) + h * h * Norm2 (Cross W d)));
      [intros; dots; ring|].
    eapply d_eq; [apply d_plus; [apply d_plus; [apply d_const|apply d_mult; [apply d_id|apply d_const]]|
      apply d_mult; [apply d_mult; apply d_id|apply d_const]]|cbn beta; ring]. }
  eapply d_eq; [apply d_plus; [exact D1|apply d_plus; [apply L|apply d_mult; [apply d_const|exact D3]]]|].
  cbn beta. unfold RotationFreeGeometricAccelerationAtRest, ComputeGeometricAccelerations. cbv zeta.
  cbn [gravitational linear_acc centrifugal fst snd]. fold q. fold W. fold A.
  rewrite <- (orth_dot det q (g _) (orth_vector det (OrthInverse q) d)) by exact UQ. rewrite orth_inv' by exact UQ.
  generalize (orth_vector det q (g (aff det (rt (RMInverse det (rigid_motion M))) p))). intros. dots. field.
Qed.

(** * The Frenet frame *)
Lemma frenet v a : Cross v a <> zero3 ->
  let F := rotate (FrenetFrame v a) in
  unit_q (FrenetFrame v a) /\
  (exists k, 0 < k /\ v = scal3 k (F e_x)) /\
  (exists k m, 0 < k /\ a = add3 (scal3 k (F e_y)) (scal3 m (F e_x))) /\
  (exists k, 0 < k /\ Cross v a = scal3 k (F e_z)).
Proof.
  intros ND F.
  assert (V : v <> zero3) by (intros ->; apply ND; vec).
  destruct (orthogonalization a v V) as (O & k & K).
  set (n := OrthogonalizationAgainst a v) in *.
  assert (NZ : n <> zero3).
  { intros E. apply ND. rewrite K, E. vec. }
  pose proof (norm_pos v V) as PV. pose proof (norm_pos n NZ) as PN.
  pose proof (normalize_scal v V) as SV. pose proof (normalize_scal n NZ) as SN.
  set (t := Normalize v) in *. set (m := Normalize n) in *.
  assert (TM : Dot t m = 0).
  { unfold t, m, Normalize. transitivity (Dot n v / (Norm v * Norm n)); [unfold div3, Dot; cbn [cx cy cz]; field; split; lra|]. rewrite O. unfold Rdiv. ring. }
  assert (RH : right_handed t m (Cross t m)).
  { pose proof (normalize_unit v V) as TT. pose proof (normalize_unit n NZ) as MM. fold t in TT. fold m in MM.
    change (Dot t t = 1) in TT. change (Dot m m = 1) in MM.
    assert (CC : Dot (Cross t m) (Cross t m) = Dot t t * Dot m m - Dot t m ^ 2) by (dots; ring).
    repeat split; auto; try (dots; ring).
    - rewrite CC, TT, MM, TM. ring.
    - transitivity (Dot (Cross t m) (Cross t m)); [clear; d3; red_all; ring|]. rewrite CC, TT, MM, TM. ring. }
  destruct (from_axes _ _ _ RH) as (U & X & Y & Z). change (RotFromAxes t m (Cross t m)) with (FrenetFrame v a) in *.
  split; [exact U|]. unfold F. rewrite X, Y, Z. repeat split.
  - exists (Norm v). auto.
  - exists (Norm n), (k * Norm v). split; [auto|]. rewrite SN. rewrite K at 1. f_equal. rewrite <- SV at 1. vec.
  - exists (Norm v * Norm n). split; [now apply Rmult_lt_0_compat|]. rewrite K. rewrite <- SN at 1. rewrite <- SV at 1.
    replace (scal3 k v) with (scal3 (k * Norm v) t) by (rewrite <- SV at 2; vec). vec.
Qed.
