(** Proofs for the rigid reference frames. *)
From Coq Require Import Reals List Lra Lia.
From Verif Require Import Geometry_Model Geometry_Proofs Geometry_Proofs2 VectorCalculus_Proofs RotatingBody_Model
  RotatingBody_Proofs ReferenceFrame_Model SimilarMotion_Proofs.
Import ListNotations.
Open Scope R_scope.

Ltac dots := unfold Norm2, Dot, add3, sub3, opp3, scal3, div3, Cross, zero3; cbn [cx cy cz].

(** * The acceleration in a moving frame *)
(** The motion [M] of a frame has the angular velocity, velocity of the origin, and their derivatives, that it declares. *)
Definition accelerated_frame (det : bool) (M : R -> AcceleratedRigidMotion) (t0 : R) : Prop :=
  moving_frame det (fun t => rt (rigid_motion (M t))) t0 (omega (rigid_motion (M t0))) (vel (rigid_motion (M t0))) /\
  has_derivative (fun t => omega (rigid_motion (M t))) t0 (angular_acceleration (M t0)) /\
  has_derivative (fun t => vel (rigid_motion (M t))) t0 (origin_acceleration (M t0)).

Lemma orth_derivative det q u t0 w u' : (forall t, unit_q (q t)) ->
  (forall e, In e [e_x; e_y; e_z] ->
     has_derivative (fun t => orth_vector det (OrthInverse (q t)) e) t0 (Cross w (orth_vector det (OrthInverse (q t0)) e))) ->
  has_derivative u t0 u' ->
  has_derivative (fun t => orth_vector det (q t) (u t)) t0 (orth_vector det (q t0) (sub3 u' (Cross w (u t0)))).
Proof.
  intros U A D. pose (B := fun t => mkA zero3 zero3 (q t)).
  assert (Z : forall x y, aff det (mkA zero3 zero3 x) y = orth_vector det x y).
  { intros x y. unfold aff. cbn [linear from_origin to_origin]. replace (sub3 y zero3) with y by (destruct y; vec).
    destruct (orth_vector det x y); vec. }
  assert (M : moving_frame det B t0 w zero3).
  { split; [exact A|]. eapply v_ext; [|apply (v_const zero3)]. intros s. cbn beta. unfold AffInverse, B. cbn [linear from_origin to_origin].
    now rewrite Z, orth_zero. }
  eapply v_ext; [|eapply v_eq; [apply (rm_kinematics det B u t0 w zero3 u' U M D)|]].
  - intros s. cbn beta. apply Z.
  - rewrite rm_apply_eq by apply U. cbn [snd rt linear omega vel B]. unfold B. rewrite Z, orth_zero, orth_sub, orth_cross' by auto. cbn [linear].
    vec.
Qed.

Lemma frame_acceleration det M t0 q v g :
  (forall t, unit_q (linear (rt (rigid_motion (M t))))) -> accelerated_frame det M t0 ->
  has_derivative q t0 (v t0) -> has_derivative v t0 (g (q t0)) ->
  has_derivative (fun t => snd (rm_apply det (rigid_motion (M t)) (q t, v t))) t0
    (GeometricAcceleration det (M t0) g (rm_apply det (rigid_motion (M t0)) (q t0, v t0))).
Proof.
  intros U ((A & O) & W & V) Dq Dv.
  pose proof (orth_derivative det (fun t => linear (rt (rigid_motion (M t))))
    (fun t => sub3 (sub3 (v t) (vel (rigid_motion (M t))))
       (Cross (omega (rigid_motion (M t))) (sub3 (q t) (aff det (AffInverse (rt (rigid_motion (M t)))) zero3)))) t0 _ _ U A
    (v_sub _ _ _ _ _ (v_sub _ _ _ _ _ Dv V) (v_cross _ _ _ _ _ W (v_sub _ _ _ _ _ Dq O)))) as D.
  cbn beta in D. eapply v_eq; [exact D|]. clear D A O W V Dq Dv.
  unfold GeometricAcceleration, ComputeGeometricAccelerations. cbv zeta. cbn [gravitational linear_acc coriolis centrifugal euler].
  cbn [rm_apply fst snd RMInverse rt]. generalize (M t0) (U t0). clear M U. intros M U.
  destruct (aff_inv det (rt (rigid_motion M)) (q t0) U) as [-> _].
  assert (P : sub3 (aff det (rt (rigid_motion M)) (q t0)) zero3 =
              orth_vector det (linear (rt (rigid_motion M))) (sub3 (q t0) (aff det (AffInverse (rt (rigid_motion M))) zero3))).
  { rewrite <- aff_linear. destruct (aff_inv det (rt (rigid_motion M)) zero3 U) as [_ ->]. reflexivity. }
  rewrite P. generalize (aff det (AffInverse (rt (rigid_motion M))) zero3). intros o.
  rewrite ?orth_sub, ?orth_add. rewrite !orth_cross' by auto. rewrite ?orth_sub. rewrite !orth_cross' by auto. rewrite ?orth_sub. vec.
Qed.

(** * Trihedra *)
Lemma basis_eq x y z u v : right_handed x y z -> Dot u x = Dot v x -> Dot u y = Dot v y -> Dot u z = Dot v z -> u = v.
Proof.
  intros H. pose proof (transpose_right_handed x y z H) as T. cbv zeta in T.
  assert (E : forall w, w = add3 (add3 (scal3 (Dot w x) x) (scal3 (Dot w y) y)) (scal3 (Dot w z) z)).
  { clear - T. intros w. destruct T as (XX & YY & ZZ & XY & YZ & ZX & _).
    destruct x as [a b c], y as [d e f], z as [g h i], w as [p q r]. red_all.
    apply mk3_eq; [transitivity (p * (a * a + d * d + g * g) + q * (a * b + d * e + g * h) + r * (c * a + f * d + i * g)) |
      transitivity (p * (a * b + d * e + g * h) + q * (b * b + e * e + h * h) + r * (b * c + e * f + h * i)) |
      transitivity (p * (c * a + f * d + i * g) + q * (b * c + e * f + h * i) + r * (c * c + f * f + i * i))];
      try ring; rewrite ?XX, ?YY, ?ZZ, ?XY, ?YZ, ?ZX; ring. }
  intros X Y Z. rewrite (E u), (E v), X, Y, Z. reflexivity.
Qed.

Lemma constant_dot f g t f' g' k : (forall s, Dot (f s) (g s) = k) -> has_derivative f t f' -> has_derivative g t g' ->
  Dot f' (g t) + Dot (f t) g' = 0.
Proof.
  intros E F G. apply (uniqueness_limite (fun s => Dot (f s) (g s)) t); [now apply v_dot|].
  eapply derivable_pt_lim_ext; [|apply (d_const k)]. intros s. symmetry. apply E.
Qed.

Lemma trihedron_velocity f n b t f' n' b' : (forall s, right_handed (f s) (n s) (b s)) ->
  has_derivative f t f' -> has_derivative n t n' -> has_derivative b t b' ->
  let w := ComputeAngularVelocity (mkT (f t) (n t) (b t)) (mkT f' n' b') in
  f' = Cross w (f t) /\ n' = Cross w (n t) /\ b' = Cross w (b t).
Proof.
  intros RH F N B w.
  assert (FF := constant_dot f f t f' f' 1 (fun s => proj1 (RH s)) F F).
  assert (NN := constant_dot n n t n' n' 1 (fun s => proj1 (proj2 (RH s))) N N).
  assert (BB := constant_dot b b t b' b' 1 (fun s => proj1 (proj2 (proj2 (RH s)))) B B).
  assert (FN := constant_dot f n t f' n' 0 (fun s => proj1 (proj2 (proj2 (proj2 (RH s))))) F N).
  assert (NB := constant_dot n b t n' b' 0 (fun s => proj1 (proj2 (proj2 (proj2 (proj2 (RH s)))))) N B).
  assert (BF := constant_dot b f t b' f' 0 (fun s => proj1 (proj2 (proj2 (proj2 (proj2 (proj2 (RH s))))))) B F).
  specialize (RH t). unfold w, ComputeAngularVelocity. cbn [fore normal binormal]. clear w F N B.
  generalize dependent (f t). intros x. clear f. generalize dependent (n t). intros y. clear n. generalize dependent (b t). intros z. clear b.
  intros. pose proof (right_handed_cross _ _ _ RH) as (CZ & CX & CY).
  set (p := Dot n' z) in *. set (q := Dot b' x) in *. set (r := Dot f' y) in *.
  assert (T : forall k, Cross (add3 (add3 (scal3 p x) (scal3 q y)) (scal3 r z)) k =
    add3 (add3 (scal3 p (Cross x k)) (scal3 q (Cross y k))) (scal3 r (Cross z k))) by (intros; vec).
  assert (XX0 : forall k, Cross k k = zero3) by (intros; vec).
  assert (AN : forall k l, Cross k l = opp3 (Cross l k)) by (intros; vec).
  rewrite !T, !XX0, (AN y x), (AN x z), (AN z y), <- CZ, <- CX, <- CY. clear T.
  assert (L : forall a b' c d e f' u, Dot (add3 (add3 (scal3 a b') (scal3 c d)) (scal3 e f')) u = a * Dot b' u + c * Dot d u + e * Dot f' u)
    by (intros; dots; ring).
  assert (LZ : forall u, Dot zero3 u = 0) by (intros; dots; ring).
  assert (LO : forall v u, Dot (opp3 v) u = - Dot v u) by (intros; dots; ring).
  assert (F2 : Dot f' x = 0) by (rewrite (dot_comm x f') in FF; lra).
  assert (N2 : Dot n' y = 0) by (rewrite (dot_comm y n') in NN; lra).
  assert (B2 : Dot b' z = 0) by (rewrite (dot_comm z b') in BB; lra).
  rewrite (dot_comm x n') in FN. rewrite (dot_comm y b') in NB. rewrite (dot_comm z f') in BF.
  fold p q r in FN, NB, BF. destruct RH as (XX & YY & ZZ & XY & YZ & ZX & VV).
  assert (RH : right_handed x y z) by (repeat split; assumption).
  assert (YX : Dot y x = 0) by (rewrite dot_comm; exact XY). assert (ZY : Dot z y = 0) by (rewrite dot_comm; exact YZ).
  assert (XZ : Dot x z = 0) by (rewrite dot_comm; exact ZX).
  clear CX CY CZ AN XX0 FF NN BB.
  assert (PP : Dot n' z = p) by reflexivity. assert (QQ : Dot b' x = q) by reflexivity. assert (RR : Dot f' y = r) by reflexivity.
  clearbody p q r.
  split; [|split]; apply (basis_eq x y z _ _ RH); rewrite L, ?LZ, ?LO, ?XX, ?YY, ?ZZ, ?XY, ?YZ, ?ZX, ?YX, ?ZY, ?XZ; lra.
Qed.

Lemma norm2_zero v : Norm2 v = 0 -> v = zero3.
Proof. intros H. destruct v as [a b c]. unfold Norm2, Dot in H. cbn [cx cy cz] in H. apply mk3_eq; nra. Qed.

Lemma right_handed_of f b : Dot f f = 1 -> Dot b b = 1 -> Dot f b = 0 -> right_handed f (Cross b f) b.
Proof.
  intros FF BB FB.
  assert (E : Dot (Cross b f) (Cross b f) = Dot b b * Dot f f - Dot f b ^ 2) by (dots; ring).
  repeat split; auto.
  - rewrite E, FF, BB, FB. ring.
  - dots. ring.
  - dots. ring.
  - now rewrite dot_comm.
  - transitivity (Dot (Cross b f) (Cross b f)); [clear; d3; red_all; ring|]. rewrite E, FF, BB, FB. ring.
Qed.

(** The trihedra are orthogonal, and orthonormal, when [r] and its derivative are not collinear. *)
Section TRIHEDRA.
Variables r r1 : R3.
Hypothesis ND : Cross r r1 <> zero3.
Lemma r_nz : r <> zero3.
Proof. intros ->. apply ND. vec. Qed.
Lemma norm_normal : Norm (Cross (Cross r r1) r) = Norm (Cross r r1) * Norm r.
Proof.
  unfold Norm. rewrite <- sqrt_mult by apply norm2_nonneg. f_equal. dots. ring.
Qed.
Lemma normal_nz : Cross (Cross r r1) r <> zero3.
Proof.
  intros E. pose proof norm_normal as H. rewrite E in H. pose proof (norm_pos _ r_nz). pose proof (norm_pos _ ND).
  replace (Norm zero3) with 0 in H; [nra|]. unfold Norm. replace (Norm2 zero3) with 0 by (dots; ring). now rewrite sqrt_0.
Qed.
Lemma normalize_normal : Normalize (Cross (Cross r r1) r) = Cross (Normalize (Cross r r1)) (Normalize r).
Proof.
  unfold Normalize. rewrite norm_normal. pose proof (norm_pos _ r_nz). pose proof (norm_pos _ ND).
  generalize dependent (Norm (Cross r r1)). generalize dependent (Norm r). generalize (Cross r r1). intros.
  unfold div3, Cross. cbn [cx cy cz]. apply mk3_eq; field; split; lra.
Qed.
Lemma trihedra_right_handed : let '(_, o) := ComputeTrihedra r r1 in right_handed (fore o) (normal o) (binormal o).
Proof.
  cbn. rewrite normalize_normal. apply right_handed_of.
  - apply (normalize_unit _ r_nz).
  - apply (normalize_unit _ ND).
  - unfold Normalize. unfold div3, Dot. cbn [cx cy cz Cross]. pose proof (norm_pos _ r_nz). pose proof (norm_pos _ ND). field. split; lra.
Qed.
End TRIHEDRA.

(** The second derivative of [v / |v|]. *)
Definition second_derivative_of_normalized (v v1 v2 : R3) : R3 :=
  sub3 (d2_normalized v v1 v2) (scal3 (2 * Dot v v2 / Norm v ^ 3) v).
Lemma v_normalize' f t f' : has_derivative f t f' -> f t <> zero3 ->
  has_derivative (fun s => Normalize (f s)) t (d_normalized (f t) f').
Proof. apply v_normalize. Qed.
Lemma v_d_normalized v v1 t v2 : has_derivative v t (v1 t) -> has_derivative v1 t v2 -> v t <> zero3 ->
  has_derivative (fun s => d_normalized (v s) (v1 s)) t (second_derivative_of_normalized (v t) (v1 t) v2).
Proof.
  intros V V1 N. pose proof (norm_pos _ N) as P. pose proof (norm_sq (v t)) as S.
  apply (v_ext (fun s => scal3 (/ (Norm (v s) * Norm (v s) * Norm (v s)))
                           (sub3 (scal3 (Norm2 (v s)) (v1 s)) (scal3 (Dot (v s) (v1 s)) (v s))))).
  { intros s. unfold d_normalized, scal3, div3. cbn [cx cy cz]. cbn [pow]. rewrite Rmult_1_r.
    rewrite (Rmult_assoc (Norm (v s))). apply mk3_eq; unfold Rdiv; ring. }
  pose proof (v_norm _ _ _ V N) as DN.
  eapply v_eq.
  - apply v_scal.
    + apply d_inv; [apply d_mult; [apply d_mult|]; exact DN|]. apply Rgt_not_eq. repeat apply Rmult_lt_0_compat; exact P.
    + apply v_sub; [apply v_scal; [apply (v_dot v v); exact V|exact V1]|apply v_scal; [apply (v_dot v v1); [exact V|exact V1]|exact V]].
  - cbn beta. unfold second_derivative_of_normalized, d2_normalized. rewrite <- S.
    rewrite (dot_comm (v1 t) (v t)). change (Dot (v1 t) (v1 t)) with (Norm2 (v1 t)).
    clear DN V V1 N S. generalize dependent (Norm (v t)). intros n P. generalize (v t), (v1 t), (Dot (v t) (v1 t)), (Dot (v t) v2), (Norm2 (v1 t)).
    intros. unfold add3, sub3, scal3, div3. cbn [cx cy cz]. apply mk3_eq; field; lra.
Qed.

(** * The rotating trihedron of a relative motion *)
Section RELATIVE.
Variables r r1 r2 r3 : R -> R3.
Hypothesis D0 : forall t, has_derivative r t (r1 t).
Hypothesis D1 : forall t, has_derivative r1 t (r2 t).
Hypothesis D2 : forall t, has_derivative r2 t (r3 t).
Hypothesis ND : forall t, Cross (r t) (r1 t) <> zero3.

Definition orthogonal s := fst (ComputeTrihedra (r s) (r1 s)).
Definition orthonormal s := snd (ComputeTrihedra (r s) (r1 s)).
Definition d_orthogonal s := fst (ComputeTrihedraDerivatives (r s) (r1 s) (r2 s) (orthogonal s)).
Definition d_orthonormal s := snd (ComputeTrihedraDerivatives (r s) (r1 s) (r2 s) (orthogonal s)).
Definition d2_orthogonal s := fst (ComputeTrihedraDerivatives2 (r s) (r1 s) (r2 s) (r3 s) (orthogonal s) (d_orthogonal s)).
Definition d2_orthonormal s := snd (ComputeTrihedraDerivatives2 (r s) (r1 s) (r2 s) (r3 s) (orthogonal s) (d_orthogonal s)).

Lemma d_binormal s : has_derivative (fun t => binormal (orthogonal t)) s (binormal (d_orthogonal s)).
Proof.
  cbn. eapply v_eq; [apply v_cross; [apply D0|apply D1]|]. vec.
Qed.
Lemma d_normal s : has_derivative (fun t => normal (orthogonal t)) s (normal (d_orthogonal s)).
Proof. cbn. apply v_cross; [apply d_binormal|apply D0]. Qed.
Lemma d2_binormal s : has_derivative (fun t => binormal (d_orthogonal t)) s (binormal (d2_orthogonal s)).
Proof. cbn. apply v_cross; [apply D0|apply D2]. Qed.
Lemma d2_normal s : has_derivative (fun t => normal (d_orthogonal t)) s (normal (d2_orthogonal s)).
Proof.
  eapply v_eq; [cbn; apply v_add; apply v_cross; [apply d2_binormal|apply D0|apply d_binormal|apply D1]|].
  cbn [d_orthogonal d2_orthogonal orthogonal ComputeTrihedraDerivatives2 ComputeTrihedraDerivatives ComputeTrihedra fst fore normal binormal]. vec.
Qed.

Lemma orthonormal_rh s : right_handed (fore (orthonormal s)) (normal (orthonormal s)) (binormal (orthonormal s)).
Proof. exact (trihedra_right_handed (r s) (r1 s) (ND s)). Qed.

Lemma orthonormal_derivative s :
  has_derivative (fun t => fore (orthonormal t)) s (fore (d_orthonormal s)) /\
  has_derivative (fun t => normal (orthonormal t)) s (normal (d_orthonormal s)) /\
  has_derivative (fun t => binormal (orthonormal t)) s (binormal (d_orthonormal s)).
Proof.
  split; [|split].
  - apply (v_normalize' r); [apply D0|]. exact (r_nz _ _ (ND s)).
  - apply (v_normalize' (fun t => normal (orthogonal t))); [apply d_normal|]. exact (normal_nz _ _ (ND s)).
  - apply (v_normalize' (fun t => binormal (orthogonal t))); [apply d_binormal|]. exact (ND s).
Qed.

(** The first two derivatives of the fore, normal and binormal vectors; the second ones are not what the code
    computes, but their difference is collinear to the vector. *)
Lemma orthonormal_derivative2 s : let o := orthogonal s in let o1 := d_orthogonal s in let o2 := d2_orthogonal s in
  has_derivative (fun t => fore (d_orthonormal t)) s (second_derivative_of_normalized (fore o) (fore o1) (fore o2)) /\
  has_derivative (fun t => normal (d_orthonormal t)) s (second_derivative_of_normalized (normal o) (normal o1) (normal o2)) /\
  has_derivative (fun t => binormal (d_orthonormal t)) s (second_derivative_of_normalized (binormal o) (binormal o1) (binormal o2)).
Proof.
  intros o o1 o2. split; [|split].
  - apply (v_d_normalized r r1); [apply D0|apply D1|]. exact (r_nz _ _ (ND s)).
  - apply (v_d_normalized (fun t => normal (orthogonal t)) (fun t => normal (d_orthogonal t))); [apply d_normal|apply d2_normal|].
    exact (normal_nz _ _ (ND s)).
  - apply (v_d_normalized (fun t => binormal (orthogonal t)) (fun t => binormal (d_orthogonal t))); [apply d_binormal|apply d2_binormal|].
    exact (ND s).
Qed.

Definition w s := ComputeAngularVelocity (orthonormal s) (d_orthonormal s).
Lemma w_axes s : fore (d_orthonormal s) = Cross (w s) (fore (orthonormal s)) /\
  normal (d_orthonormal s) = Cross (w s) (normal (orthonormal s)) /\
  binormal (d_orthonormal s) = Cross (w s) (binormal (orthonormal s)).
Proof.
  destruct (orthonormal_derivative s) as (F & N & B).
  exact (trihedron_velocity _ _ _ s _ _ _ orthonormal_rh F N B).
Qed.

Lemma w_derivative s : has_derivative w s (AngularAccelerationOf (r s) (r1 s) (r2 s) (r3 s)).
Proof.
  destruct (orthonormal_derivative s) as (F & N & B). destruct (orthonormal_derivative2 s) as (F2 & N2 & B2).
  assert (H : has_derivative w s
    (let f2 := second_derivative_of_normalized (fore (orthogonal s)) (fore (d_orthogonal s)) (fore (d2_orthogonal s)) in
     let n2 := second_derivative_of_normalized (normal (orthogonal s)) (normal (d_orthogonal s)) (normal (d2_orthogonal s)) in
     let b2 := second_derivative_of_normalized (binormal (orthogonal s)) (binormal (d_orthogonal s)) (binormal (d2_orthogonal s)) in
     ComputeAngularAcceleration (orthonormal s) (d_orthonormal s) (mkT f2 n2 b2))).
  { unfold w, ComputeAngularVelocity.
    eapply v_eq; [apply v_add; [apply v_add|]; apply v_scal; try eassumption; apply v_dot; eassumption|].
    cbv zeta. unfold ComputeAngularAcceleration. cbv zeta. cbn [fore normal binormal]. vec. }
  eapply v_eq; [exact H|]. cbv zeta. unfold AngularAccelerationOf.
  change (ComputeTrihedra (r s) (r1 s)) with (orthogonal s, orthonormal s). cbv beta iota.
  change (ComputeTrihedraDerivatives (r s) (r1 s) (r2 s) (orthogonal s)) with (d_orthogonal s, d_orthonormal s). cbv beta iota.
  change (ComputeTrihedraDerivatives2 (r s) (r1 s) (r2 s) (r3 s) (orthogonal s) (d_orthogonal s)) with (d2_orthogonal s, d2_orthonormal s).
  cbv beta iota.
  unfold ComputeAngularAcceleration. cbv zeta. cbn [fore normal binormal].
  destruct (orthonormal_rh s) as (_ & _ & _ & FN & NB & BF & _).
  assert (C : forall v v1 v2 u, Dot (Normalize v) u = 0 -> v <> zero3 ->
    Dot (second_derivative_of_normalized v v1 v2) u = Dot (d2_normalized v v1 v2) u).
  { intros v v1 v2 u O NZ. unfold second_derivative_of_normalized.
    assert (E : Dot v u = 0).
    { rewrite <- (normalize_scal v NZ). transitivity (Norm v * Dot (Normalize v) u); [dots; ring|]. rewrite O. ring. }
    transitivity (Dot (d2_normalized v v1 v2) u - 2 * Dot v v2 / Norm v ^ 3 * Dot v u); [dots; ring|]. rewrite E. ring. }
  rewrite (C (normal (orthogonal s))) by (auto; exact (normal_nz _ _ (ND s))).
  rewrite (C (binormal (orthogonal s))) by (auto; exact (ND s)).
  rewrite (C (fore (orthogonal s))) by (auto; exact (r_nz _ _ (ND s))).
  reflexivity.
Qed.
End RELATIVE.
