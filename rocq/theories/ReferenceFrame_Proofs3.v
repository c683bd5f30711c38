(** Proofs for the rotating-pulsating reference frame. *)
From Coq Require Import Reals List Lra Lia Arith.
From Verif Require Import Geometry_Model Geometry_Proofs Geometry_Proofs2 VectorCalculus_Proofs RotatingBody_Model
  RotatingBody_Proofs ReferenceFrame_Model SimilarMotion_Proofs ReferenceFrame_Proofs ReferenceFrame_Proofs2.
Import ListNotations.
Open Scope R_scope.

(** * The points in the barycentric frame *)
Section BARYCENTRIC.
Variables primaries secondaries : list Body.
Hypothesis N1 : primaries <> [].
Hypothesis N2 : secondaries <> [].
Hypothesis S : forall b, In b (primaries ++ secondaries) -> smooth b /\ 0 < mu b.
Hypothesis ND : forall t, Cross (sub3 (barycentre 0 secondaries t) (barycentre 0 primaries t))
                                (sub3 (barycentre 1 secondaries t) (barycentre 1 primaries t)) <> zero3.
Let m1 := total_mu primaries. Let m2 := total_mu secondaries.
Let M := barycentric_frame_motion primaries secondaries.

Lemma M_unit t : unit_q (linear (rt (rigid_motion (M t)))).
Proof.
  apply (direction_frame _ _ _ _ _ _ _ _ _ _ _ (primaries_smooth _ _ S) (secondaries_smooth _ _ S) (common_smooth _ _ S) ND).
Qed.
Lemma M_frame t : accelerated_frame false M t.
Proof.
  apply (direction_frame _ _ _ _ _ _ _ _ _ _ _ (primaries_smooth _ _ S) (secondaries_smooth _ _ S) (common_smooth _ _ S) ND).
Qed.
Lemma M_origin t : rm_apply false (rigid_motion (M t)) (common primaries secondaries 0 t, common primaries secondaries 1 t) = (zero3, zero3).
Proof.
  assert (A : aff false (rt (rigid_motion (M t))) (common primaries secondaries 0 t) = zero3).
  { unfold aff. change (from_origin (rt (rigid_motion (M t)))) with (common primaries secondaries 0 t).
    change (to_origin (rt (rigid_motion (M t)))) with zero3.
    replace (sub3 (common primaries secondaries 0 t) (common primaries secondaries 0 t)) with zero3 by vec. rewrite orth_zero. vec. }
  rewrite rm_apply_eq by apply M_unit. rewrite A. f_equal.
  change (vel (rigid_motion (M t))) with (common primaries secondaries 1 t).
  generalize (orth_vector false (linear (rt (rigid_motion (M t)))) (common primaries secondaries 1 t)),
    (orth_bivector false (linear (rt (rigid_motion (M t)))) (omega (rigid_motion (M t)))). intros. vec.
Qed.
Let r t := sub3 (barycentre 0 secondaries t) (barycentre 0 primaries t).
Let r' t := sub3 (barycentre 1 secondaries t) (barycentre 1 primaries t).
Definition at_primaries (x : R) : R3 := mk3 (- m2 / (m1 + m2) * x) 0 0.
Definition at_secondaries (x : R) : R3 := mk3 (m1 / (m1 + m2) * x) 0 0.
Lemma two_points p1 p2 x : scal3 m1 p1 = opp3 (scal3 m2 p2) -> sub3 p2 p1 = mk3 x 0 0 -> p1 = at_primaries x /\ p2 = at_secondaries x.
Proof.
  intros A B. destruct (positive_masses primaries secondaries N1 N2 S) as [P1 P2]. fold m1 in P1. fold m2 in P2.
  destruct p1 as [a b c], p2 as [d e f]. unfold scal3, opp3 in A. unfold sub3 in B. cbn [Geometry_Model.cx Geometry_Model.cy Geometry_Model.cz] in *.
  injection A as A1 A2 A3. injection B as B1 B2 B3.
  assert (b = e) by lra. assert (c = f) by lra. subst e f.
  assert (b * (m1 + m2) = 0) by lra. assert (c * (m1 + m2) = 0) by lra.
  assert (b = 0) by nra. assert (c = 0) by nra. subst b c. assert (E : d = a + x) by lra. subst d.
  unfold at_primaries, at_secondaries. split; apply mk3_eq; try reflexivity.
  - apply (Rmult_eq_reg_r (m1 + m2)); [|lra]. replace (- m2 / (m1 + m2) * x * (m1 + m2)) with (- m2 * x) by (field; lra). lra.
  - apply (Rmult_eq_reg_r (m1 + m2)); [|lra]. replace (m1 / (m1 + m2) * x * (m1 + m2)) with (m1 * x) by (field; lra). lra.
Qed.
(** The barycentres are at rest on the x axis, up to the variations of their distance. *)
Lemma M_points t :
  rm_apply false (rigid_motion (M t)) (barycentre 0 primaries t, barycentre 1 primaries t) =
    (at_primaries (Norm (r t)), at_primaries (Dot (r t) (r' t) / Norm (r t))) /\
  rm_apply false (rigid_motion (M t)) (barycentre 0 secondaries t, barycentre 1 secondaries t) =
    (at_secondaries (Norm (r t)), at_secondaries (Dot (r t) (r' t) / Norm (r t))).
Proof.
  destruct (positive_masses primaries secondaries N1 N2 S) as [P1 P2]. fold m1 in P1. fold m2 in P2.
  destruct (direction_axes _ _ _ _ _ _ _ _ (common primaries secondaries 0) (common primaries secondaries 1) (common primaries secondaries 2) t
     (primaries_smooth _ _ S) (secondaries_smooth _ _ S) ND) as (X & _ & V).
  fold (barycentric_frame_motion primaries secondaries) in X, V. fold M in X, V. cbv zeta in X, V. fold (r t) in X, V. fold (r' t) in V.
  pose proof (M_origin t) as O.
  (* The map is affine and its value at the barycentre is null. *)
  assert (W : forall k, scal3 m1 (barycentre k primaries t) =
     sub3 (scal3 (m1 + m2) (common primaries secondaries k t)) (scal3 m2 (barycentre k secondaries t))).
  { intros k. unfold common, barycentre_of_two. fold m1 m2. unfold scal3, sub3, add3. cbn [cx cy cz]. apply mk3_eq; field; lra. }
  set (A := fun p => aff false (rt (rigid_motion (M t))) p).
  set (L := orth_vector false (linear (rt (rigid_motion (M t))))).
  assert (OA : A (common primaries secondaries 0 t) = zero3) by (apply (f_equal fst) in O; exact O).
  assert (LA : forall p, A p = L (sub3 p (common primaries secondaries 0 t))).
  { intros p. unfold L. rewrite <- aff_linear. fold (A p). fold (A (common primaries secondaries 0 t)). rewrite OA. destruct (A p). vec. }
  assert (LS : forall a u, L (scal3 a u) = scal3 a (L u)) by (intros; apply orth_scal).
  assert (LO : forall u, L (opp3 u) = opp3 (L u)).
  { intros u. replace (opp3 u) with (scal3 (-1) u) by vec. rewrite LS. vec. }
  assert (EP : scal3 m1 (A (barycentre 0 primaries t)) = opp3 (scal3 m2 (A (barycentre 0 secondaries t)))).
  { rewrite !LA, <- !LS, <- LO. f_equal. pose proof (W 0%nat) as H.
    transitivity (sub3 (scal3 m1 (barycentre 0 primaries t)) (scal3 m1 (common primaries secondaries 0 t))); [vec|]. rewrite H. vec. }
  destruct (two_points _ _ _ EP X) as [E1 E2].
  rewrite !rm_apply_eq in * by apply M_unit. cbn [snd] in V. fold (A (barycentre 0 primaries t)) in *. fold (A (barycentre 0 secondaries t)) in *.
  fold L in V |- *. rewrite E1, E2 in *.
  set (B := orth_bivector false (linear (rt (rigid_motion (M t)))) (omega (rigid_motion (M t)))) in *.
  assert (EV : scal3 m1 (sub3 (sub3 (L (barycentre 1 primaries t)) (L (vel (rigid_motion (M t))))) (Cross B (at_primaries (Norm (r t))))) =
    opp3 (scal3 m2 (sub3 (sub3 (L (barycentre 1 secondaries t)) (L (vel (rigid_motion (M t))))) (Cross B (at_secondaries (Norm (r t))))))).
  { change (vel (rigid_motion (M t))) with (common primaries secondaries 1 t).
    assert (LSB : forall u v, L (sub3 u v) = sub3 (L u) (L v)) by (intros; apply orth_sub).
    pose proof (f_equal L (W 1%nat)) as H. rewrite LSB, !LS in H.
    assert (C : scal3 m1 (at_primaries (Norm (r t))) = opp3 (scal3 m2 (at_secondaries (Norm (r t))))).
    { unfold at_primaries, at_secondaries, scal3, opp3. cbn [cx cy cz]. apply mk3_eq; field; lra. }
    clear E1 E2 V EP X. generalize dependent (at_primaries (Norm (r t))). generalize dependent (at_secondaries (Norm (r t))).
    intros s2 s1 C.
    transitivity (sub3 (sub3 (scal3 m1 (L (barycentre 1 primaries t))) (scal3 m1 (L (common primaries secondaries 1 t)))) (Cross B (scal3 m1 s1))); [vec|].
    rewrite H, C. vec. }
  destruct (two_points _ _ _ EV V) as [F1 F2]. rewrite F1, F2. auto.
Qed.

(** * The distance and its derivatives *)
Definition distance_data (t : R) : R * R * R :=
  r_derivatives (barycentre 0 primaries t) (barycentre 1 primaries t) (barycentre 2 primaries t)
                (barycentre 0 secondaries t) (barycentre 1 secondaries t) (barycentre 2 secondaries t).
Lemma data_eq t : pulsating_data primaries secondaries t = Some (distance_data t, M t).
Proof.
  unfold pulsating_data.
  assert (A : forall b, In b primaries -> 0 < mu b) by (intros; apply S; apply in_or_app; auto).
  assert (B : forall b, In b secondaries -> 0 < mu b) by (intros; apply S; apply in_or_app; auto).
  rewrite !(barycentre_eq _ primaries t N1 A), !(barycentre_eq _ secondaries t N2 B), (barycentric_motion_eq _ _ N1 N2 S). reflexivity.
Qed.
Let d0 t := fst (fst (distance_data t)). Let d1 t := snd (fst (distance_data t)). Let d2 t := snd (distance_data t).
Lemma d0_eq t : d0 t = Norm (r t).
Proof. unfold d0, distance_data, r_derivatives, r. cbn [fst snd]. unfold Norm. f_equal. dots. ring. Qed.
Lemma d0_pos t : 0 < d0 t.
Proof. rewrite d0_eq. apply norm_pos. exact (r_nz _ _ (ND t)). Qed.
Lemma d1_eq t : d1 t = Dot (r t) (r' t) / Norm (r t).
Proof. rewrite <- d0_eq. unfold d1, d0, distance_data, r_derivatives, r, r'. cbn [fst snd]. f_equal. dots. ring. Qed.
Lemma d_distance t : derivable_pt_lim d0 t (d1 t) /\ derivable_pt_lim d1 t (d2 t).
Proof.
  pose (u := fun s => sub3 (barycentre 0 primaries s) (barycentre 0 secondaries s)).
  pose (v := fun s => sub3 (barycentre 1 primaries s) (barycentre 1 secondaries s)).
  pose (g := fun s => sub3 (barycentre 2 primaries s) (barycentre 2 secondaries s)).
  destruct (primaries_smooth _ _ S t) as (A & B & _). destruct (secondaries_smooth _ _ S t) as (A' & B' & _).
  assert (DU : has_derivative u t (v t)) by (apply v_sub; assumption).
  assert (DV : has_derivative v t (g t)) by (apply v_sub; assumption).
  assert (NZ : u t <> zero3).
  { intros E. apply (r_nz _ _ (ND t)). unfold u in E. transitivity (opp3 (sub3 (barycentre 0 primaries t) (barycentre 0 secondaries t))); [vec|].
    rewrite E. vec. }
  assert (D0 : derivable_pt_lim (fun s => Norm (u s)) t (Dot (u t) (v t) / Norm (u t))) by (eapply v_norm; eassumption).
  pose proof (norm_pos _ NZ) as P. split; [exact D0|].
  change (derivable_pt_lim (fun s => Dot (u s) (v s) / Norm (u s)) t (d2 t)). unfold Rdiv.
  eapply d_eq; [apply d_mult; [apply v_dot; eassumption|apply d_inv; [exact D0|lra]]|].
  cbn beta. change (d2 t) with (Norm2 (v t) / Norm (u t) + Dot (u t) (g t) / Norm (u t) - (Dot (u t) (v t) / Norm (u t)) ^ 2 / Norm (u t)).
  change (Dot (v t) (v t)) with (Norm2 (v t)). field. lra.
Qed.
End BARYCENTRIC.

(** * The equations of motion *)
Lemma pulsating_map r r1 m d : r <> 0 -> rm_valid m ->
  sm_apply false (pulsating_ToThisFrame r r1 m) d =
  (scal3 (/ r) (fst (rm_apply false m d)), scal3 (/ r) (sub3 (snd (rm_apply false m d)) (scal3 (r1 / r) (fst (rm_apply false m d))))).
Proof.
  intros N V. unfold pulsating_ToThisFrame. destruct (sm_forget false m d V) as [VF E].
  destruct (sm_dilatation false r (r1 / r) zero3 zero3 N) as (VD & _).
  change false with (xorb false false) at 1. rewrite sm_mul by (auto; now apply sm_inverse_valid).
  rewrite E, (surjective_pairing (rm_apply false m d)). unfold ToRotatingFrame.
  destruct (sm_dilatation false r (r1 / r) (fst (rm_apply false m d)) (snd (rm_apply false m d)) N) as (_ & _ & -> & _). reflexivity.
Qed.
Lemma pulsating_acceleration_eq r r1 r2 M g p v : r <> 0 ->
  pulsating_GeometricAcceleration r r1 r2 M g (p, v) =
  add3 (sub3 (scal3 (- r2 / r) p) (scal3 (2 * r1 / r) v)) (scal3 (/ r) (GeometricAcceleration false M g (scal3 r p, scal3 r (add3 v (scal3 (r1 / r) p))))).
Proof.
  intros N. unfold pulsating_GeometricAcceleration, ToRotatingFrame. cbv zeta. cbn [fst snd].
  destruct (sm_dilatation false r (r1 / r) p v N) as (_ & -> & _ & ->).
  cbn [DilatationAboutOrigin similarity slinear]. rewrite conf_eq, orth_vector_eq. cbn [scale quat smul3]. change (qreal 1) with RotIdentity.
  rewrite rotate_id. replace (1 / r) with (/ r) by (unfold Rdiv; ring). replace (sub3 p zero3) with p by (destruct p; vec). reflexivity.
Qed.

Definition pulsating_equations (D : R -> R * R * R) (M : R -> AcceleratedRigidMotion) : Prop :=
  forall (q v : R -> R3) (g : R -> R3 -> R3) t, has_derivative q t (v t) -> has_derivative v t (g t (q t)) ->
  let r s := fst (fst (D s)) in let r1 s := snd (fst (D s)) in let r2 s := snd (D s) in
  let P s := fst (sm_apply false (pulsating_ToThisFrame (r s) (r1 s) (rigid_motion (M s))) (q s, v s)) in
  let V s := snd (sm_apply false (pulsating_ToThisFrame (r s) (r1 s) (rigid_motion (M s))) (q s, v s)) in
  has_derivative P t (V t) /\ has_derivative V t (pulsating_GeometricAcceleration (r t) (r1 t) (r2 t) (M t) (g t) (P t, V t)).

Lemma pulsating_frame D M :
  (forall t, fst (fst (D t)) <> 0 /\ derivable_pt_lim (fun s => fst (fst (D s))) t (snd (fst (D t))) /\
             derivable_pt_lim (fun s => snd (fst (D s))) t (snd (D t))) ->
  (forall t, unit_q (linear (rt (rigid_motion (M t))))) -> equations_of_motion false M -> pulsating_equations D M.
Proof.
  intros HD U EQ q v g t Dq Dv r r1 r2 P V. destruct (EQ q v g t Dq Dv) as [EP EV].
  set (p := fun s => fst (rm_apply false (rigid_motion (M s)) (q s, v s))) in *.
  set (w := fun s => snd (rm_apply false (rigid_motion (M s)) (q s, v s))) in *.
  change (has_derivative p t (w t)) in EP. change (has_derivative w t (GeometricAcceleration false (M t) (g t) (p t, w t))) in EV.
  destruct (HD t) as (N & D0 & D1). fold r in N. change (fst (fst (D t))) with (r t) in N. change (derivable_pt_lim r t (r1 t)) in D0.
  change (derivable_pt_lim r1 t (r2 t)) in D1.
  assert (PE : forall s, P s = scal3 (/ r s) (p s)) by (intros s; unfold P; rewrite pulsating_map; [reflexivity|apply HD|apply U]).
  assert (VE : forall s, V s = scal3 (/ r s) (sub3 (w s) (scal3 (r1 s / r s) (p s)))) by (intros s; unfold V; rewrite pulsating_map; [reflexivity|apply HD|apply U]).
  assert (DI : derivable_pt_lim (fun s => / r s) t (- r1 t / (r t * r t))).
  { eapply d_eq; [apply d_inv; [exact D0|exact N]|]. unfold Rsqr. field. auto. }
  split.
  - apply (v_ext (fun s => scal3 (/ r s) (p s))); [intros s; symmetry; apply PE|]. rewrite VE.
    eapply v_eq; [apply v_scal; [exact DI|exact EP]|]. cbn beta. unfold add3, sub3, scal3. cbn [cx cy cz]. apply mk3_eq; field; auto.
  - apply (v_ext (fun s => scal3 (/ r s) (sub3 (w s) (scal3 (r1 s / r s) (p s))))); [intros s; symmetry; apply VE|].
    rewrite pulsating_acceleration_eq by exact N.
    replace (scal3 (r t) (P t)) with (p t) by (rewrite PE; unfold scal3; cbn [cx cy cz]; destruct (p t); cbn; apply mk3_eq; field; auto).
    replace (scal3 (r t) (add3 (V t) (scal3 (r1 t / r t) (P t)))) with (w t)
      by (rewrite PE, VE; unfold scal3, add3, sub3; cbn [cx cy cz]; destruct (p t), (w t); cbn; apply mk3_eq; field; auto).
    eapply v_eq; [apply v_scal; [exact DI|apply v_sub; [exact EV|apply v_scal; [apply d_mult; [exact D1|exact DI]|exact EP]]]|].
    cbn beta. rewrite PE, VE. generalize (GeometricAcceleration false (M t) (g t) (p t, w t)). intros a.
    unfold add3, sub3, scal3. cbn [cx cy cz]. apply mk3_eq; field; auto.
Qed.

(** * The potential *)
Lemma pulsating_potential_gradient r r1 r2 M U g p : 0 < r -> unit_q (linear (rt (rigid_motion M))) ->
  (forall q, opposite_gradient U q (g q)) ->
  opposite_gradient (pulsating_GeometricPotential r r1 r2 M U) p (pulsating_RotationFreeGeometricAccelerationAtRest r r1 r2 M g p).
Proof.
  intros N UQ G d. pose proof (potential_gradient false M U g (scal3 r p) UQ G (scal3 r d)) as H.
  assert (SD : forall x, sim false (similarity (ToRotatingFrame r r1)) x = scal3 r x).
  { intros x. destruct (sm_dilatation false r (r1 / r) x zero3 (Rgt_not_eq _ _ N)) as (_ & E & _). apply (f_equal fst) in E. exact E. }
  unfold pulsating_RotationFreeGeometricAccelerationAtRest. cbv zeta. rewrite SD.
  destruct (sm_dilatation false r (r1 / r) zero3 zero3 (Rgt_not_eq _ _ N)) as (_ & _ & _ & E). fold (ToRotatingFrame r r1) in E. rewrite E.
  cbn [DilatationAboutOrigin similarity slinear]. rewrite conf_eq, orth_vector_eq. cbn [scale quat smul3]. change (qreal 1) with RotIdentity.
  rewrite rotate_id. set (A := RotationFreeGeometricAccelerationAtRest false M g (scal3 r p)) in *.
  unfold pulsating_GeometricPotential. cbv zeta.
  apply (derivable_pt_lim_ext (fun h => r2 * (Norm2 p + h * (2 * Dot p d) + h * h * Norm2 d) * / (2 * r) +
     GeometricPotential false M U (add3 (scal3 r p) (scal3 h (scal3 r d))) * / r ^ 2)).
  { intros h. rewrite SD. replace (scal3 r (add3 p (scal3 h d))) with (add3 (scal3 r p) (scal3 h (scal3 r d))) by vec.
    unfold Rdiv. f_equal. f_equal. f_equal. dots. ring. }
  eapply d_eq; [apply d_plus; [apply d_mult; [apply d_mult; [apply d_const|apply d_plus; [apply d_plus; [apply d_const|
     apply d_mult; [apply d_id|apply d_const]]|apply d_mult; [apply d_mult; apply d_id|apply d_const]]]|apply d_const]|
     apply d_mult; [exact H|apply d_const]]|].
  cbn beta. dots. field. lra.
Qed.
