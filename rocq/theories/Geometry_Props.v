(** C12 (permutations), C14 (rotations), C15 (barycentres), C16 (affine maps), C53 (determinants), C54 (rigid motions). *)
From Coq Require Import Reals List ZArith Bool Lra Permutation.
From Verif Require Import Geometry_Model Geometry_Proofs Geometry_Proofs2.
Import ListNotations.
Open Scope R_scope.

(** * C12 *)
(** [act p] is the computed action, which is the documented one and never accesses out of bounds. *)
Theorem C12_action : forall p v, In p permutations ->
  perm_r3 p v = Some (act p v) /\ perm_r3 p v = named_action p v.
Proof. intros p v H. split; [now apply act_spec | now apply perm_action]. Qed.
Print Assumptions C12_action.
Theorem C12_composition : forall p q, In p permutations -> In q permutations ->
  exists r, PermMul p q = Some r /\ In r permutations /\ (r <? 0)%Z = xorb (p <? 0)%Z (q <? 0)%Z /\
            forall v, act r v = act p (act q v).
Proof. exact perm_mul. Qed.
Print Assumptions C12_composition.
Theorem C12_associative : forall p q r, In p permutations -> In q permutations -> In r permutations ->
  exists pq qr s, PermMul p q = Some pq /\ PermMul q r = Some qr /\ PermMul pq r = Some s /\ PermMul p qr = Some s.
Proof. exact perm_mul_assoc. Qed.
Print Assumptions C12_associative.
Theorem C12_identity : forall p, In p permutations -> PermMul XYZ p = Some p /\ PermMul p XYZ = Some p.
Proof. exact perm_identity. Qed.
Print Assumptions C12_identity.
Theorem C12_inverse : forall p, In p permutations ->
  exists i, PermInverse p (p <? 0)%Z = Some i /\ In i permutations /\ (i <? 0)%Z = (p <? 0)%Z /\
            PermMul i p = Some XYZ /\ PermMul p i = Some XYZ /\ forall v, act i (act p v) = v /\ act p (act i v) = v.
Proof. exact perm_inverse. Qed.
Print Assumptions C12_inverse.
Theorem C12_determinant : forall p, In p permutations ->
  exists s, PermDeterminant p = Some s /\ has_determinant (act p) (sgn s) /\ (s = true <-> In p odd_permutations).
Proof. exact perm_determinant. Qed.
Print Assumptions C12_determinant.
Theorem C12_faithful : forall p q, In p permutations -> In q permutations -> (forall v, act p v = act q v) -> p = q.
Proof. exact perm_faithful. Qed.
Print Assumptions C12_faithful.
Theorem C12_bivectors : forall p u v, In p permutations ->
  perm_bivector p (Cross u v) = Some (Cross (act p u) (act p v)).
Proof. exact perm_cross. Qed.
Print Assumptions C12_bivectors.
Theorem C12_forget : forall p v, In p permutations ->
  exists q, PermForget p = Some q /\ unit_q q /\ orth_vector (p <? 0)%Z q v = act p v.
Proof. exact perm_forget. Qed.
Print Assumptions C12_forget.
(** The code stored in the message is an [int32]. *)
Theorem C12_serialized_code : forall p, In p permutations -> (-2147483648 <= p < 2147483648)%Z.
Proof. exact perm_code_int32. Qed.
Print Assumptions C12_serialized_code.

Example C12_example : PermMul YZX XZY = Some ZYX /\ PermInverse YZX false = Some ZXY /\ act ZXY (mk3 1 2 3) = mk3 3 1 2.
Proof. repeat split. Qed.

(** * C14 *)
Theorem C14_matrix : forall q v, rotate q v = quaternion_matrix q v.
Proof. exact rotate_matrix. Qed.
Print Assumptions C14_matrix.
Theorem C14_preserves : forall q u v, unit_q q ->
  Dot (rotate q u) (rotate q v) = Dot u v /\ Cross (rotate q u) (rotate q v) = rotate q (Cross u v).
Proof. intros. split; [now apply rotate_dot | now apply rotate_cross]. Qed.
Print Assumptions C14_preserves.
Theorem C14_composition : forall p q v, unit_q p -> unit_q q ->
  unit_q (RotMul p q) /\ rotate (RotMul p q) v = rotate p (rotate q v).
Proof. intros. split; [now apply unit_mul | now apply rotate_mul]. Qed.
Print Assumptions C14_composition.
Theorem C14_inverse : forall q v, unit_q q ->
  unit_q (RotInverse q) /\ rotate (RotInverse q) (rotate q v) = v /\ rotate q (rotate (RotInverse q) v) = v.
Proof. intros. split; [now apply unit_conj | split; [now apply rotate_inv | now apply rotate_inv']]. Qed.
Print Assumptions C14_inverse.
Theorem C14_identity : unit_q RotIdentity /\ forall v, rotate RotIdentity v = v.
Proof. split; [exact unit_one | exact rotate_id]. Qed.
Print Assumptions C14_identity.

Theorem C14_angle_axis : forall a n v, n <> zero3 ->
  unit_q (RotAxis a n) /\ rotate (RotAxis a n) v = rodrigues a (Normalize n) v.
Proof. intros a n v H. split; [now apply angle_axis_unit, normalize_unit | now apply rot_axis_rodrigues]. Qed.
Print Assumptions C14_angle_axis.
(** A frame defined by rotating by [a] around [n]: a vector of the other frame that is an image under the active
    rotation is read in the new frame as its preimage; and vice versa. *)
Theorem C14_defines_frame : forall a n v, n <> zero3 ->
  rotate (RotAxisDefinesTo a n) (rodrigues a (Normalize n) v) = v /\
  rotate (RotAxisDefinesFrom a n) v = rodrigues a (Normalize n) v.
Proof. intros a n v H. split; [now apply defines_to | now apply rot_axis_rodrigues]. Qed.
Print Assumptions C14_defines_frame.
Theorem C14_to_axes : forall x y z, right_handed x y z ->
  unit_q (RotToAxes x y z) /\
  rotate (RotToAxes x y z) x = e_x /\ rotate (RotToAxes x y z) y = e_y /\ rotate (RotToAxes x y z) z = e_z.
Proof. exact to_axes. Qed.
Print Assumptions C14_to_axes.
Theorem C14_from_axes : forall x y z, right_handed x y z ->
  unit_q (RotFromAxes x y z) /\
  rotate (RotFromAxes x y z) e_x = x /\ rotate (RotFromAxes x y z) e_y = y /\ rotate (RotFromAxes x y z) e_z = z.
Proof. exact from_axes. Qed.
Print Assumptions C14_from_axes.
(** Euler and Cardano angles, for every convention. *)
Theorem C14_angles_define_from : forall i j k a b c,
  (0 <= i <= 2)%Z -> (0 <= j <= 2)%Z -> (0 <= k <= 2)%Z ->
  unit_q (RotAnglesDefinesFrom a b c (AxisConvention i j k)) /\
  forall v, rotate (RotAnglesDefinesFrom a b c (AxisConvention i j k)) v = rot_axis i a (rot_axis j b (rot_axis k c v)).
Proof. exact angles_from. Qed.
Print Assumptions C14_angles_define_from.
Theorem C14_angles_define_to : forall i j k a b c,
  (0 <= i <= 2)%Z -> (0 <= j <= 2)%Z -> (0 <= k <= 2)%Z ->
  unit_q (RotAnglesDefinesTo a b c (AxisConvention i j k)) /\
  forall v, rotate (RotAnglesDefinesTo a b c (AxisConvention i j k)) (rot_axis i a (rot_axis j b (rot_axis k c v))) = v.
Proof. exact angles_to. Qed.
Print Assumptions C14_angles_define_to.
(** The identity has no axis. *)
Theorem C14_axis_angle_roundtrip : forall q v, unit_q q -> im q <> zero3 ->
  rotate (RotAxis (RotationAngle q) (RotationAxis q)) v = rotate q v /\ - PI < RotationAngle q <= PI.
Proof. exact axis_angle_roundtrip. Qed.
Print Assumptions C14_axis_angle_roundtrip.
Theorem C14_exp : forall w v,
  (w <> zero3 -> rotate (Exp w) v = rodrigues (Norm w) (Normalize w) v) /\ rotate (Exp zero3) v = v.
Proof. intros w v. split; [now apply exp_correct | apply exp_zero]. Qed.
Print Assumptions C14_exp.
Theorem C14_forms : forall q f u v, unit_q q -> symmetric f ->
  form (RotForm q f) (rotate q u) (rotate q v) = form f u v /\ symmetric (RotForm q f).
Proof. exact rot_form. Qed.
Print Assumptions C14_forms.
(** Signatures and orthogonal maps. *)
Theorem C14_signatures : forall det s v, sig_valid det s ->
  unit_q (SigForget det s) /\ orth_vector det (SigForget det s) v = sig_vector s v.
Proof. exact sig_forget. Qed.
Print Assumptions C14_signatures.
Theorem C14_signature_group : forall dl dr l r v, sig_valid dl l -> sig_valid dr r ->
  sig_valid (xorb dl dr) (SigMul l r) /\ sig_vector (SigMul l r) v = sig_vector l (sig_vector r v) /\
  sig_vector (SigInverse l) (sig_vector l v) = v.
Proof. intros. destruct (sig_mul dl dr l r v H H0). repeat split; auto using sig_inv. Qed.
Print Assumptions C14_signature_group.
Theorem C14_signature_bivectors : forall det s u v, sig_valid det s ->
  sig_bivector det s (Cross u v) = Cross (sig_vector s u) (sig_vector s v).
Proof. exact sig_cross. Qed.
Print Assumptions C14_signature_bivectors.
Theorem C14_orthogonalization : forall v w, w <> zero3 ->
  Dot (OrthogonalizationAgainst v w) w = 0 /\ exists k, v = add3 (OrthogonalizationAgainst v w) (scal3 k w).
Proof. exact orthogonalization. Qed.
Print Assumptions C14_orthogonalization.
Theorem C14_orthogonal : forall d q u v, unit_q q ->
  Dot (orth_vector d q u) (orth_vector d q v) = Dot u v /\
  orth_bivector d q (Cross u v) = Cross (orth_vector d q u) (orth_vector d q v) /\
  orth_vector d (OrthInverse q) (orth_vector d q v) = v /\ orth_vector d q (orth_vector d (OrthInverse q) v) = v.
Proof. intros. repeat split; auto using orth_dot, orth_cross, orth_inv, orth_inv'. Qed.
Print Assumptions C14_orthogonal.
Theorem C14_orthogonal_composition : forall dl dr l r v, unit_q l -> unit_q r ->
  orth_vector (xorb dl dr) (OrthMul l r) v = orth_vector dl l (orth_vector dr r v).
Proof. exact orth_mul. Qed.
Print Assumptions C14_orthogonal_composition.
Theorem C14_orthogonal_forms : forall d q f u v, unit_q q -> symmetric f ->
  form (orth_form d q f) (orth_vector d q u) (orth_vector d q v) = form f u v /\ symmetric (orth_form d q f).
Proof. exact orth_form_invariant. Qed.
Print Assumptions C14_orthogonal_forms.

(** The rotation by a third of a turn around (1, 1, 1) permutes the axes; it is a unit quaternion. *)
Example C14_example : let q := mkQ (/2) (mk3 (/2) (/2) (/2)) in unit_q q /\ rotate q e_x = e_y /\ rotate q e_y = e_z.
Proof. intros q. subst q. repeat split; red_all; try apply mk3_eq; field. Qed.
(** A right-handed basis other than the standard one: the hypothesis of C14_to_axes is satisfiable. *)
Example C14_right_handed : right_handed (mk3 0 1 0) (mk3 0 0 1) (mk3 1 0 0).
Proof. unfold right_handed. red_all. repeat split; ring. Qed.

(** * C15 *)
Theorem C15_weighted_mean : forall ref l, l <> [] -> total_weight l <> 0 ->
  BCGet ref (BCAddAll ref l None) = Some (weighted_mean l).
Proof. exact bc_get. Qed.
Print Assumptions C15_weighted_mean.
(** [Get] on an empty calculator fails its CHECK. *)
Theorem C15_empty : forall ref, BCGet ref (BCAddAll ref [] None) = None.
Proof. exact bc_get_empty. Qed.
Print Assumptions C15_empty.
Theorem C15_order : forall ref l l', Permutation l l' -> total_weight l <> 0 ->
  BCGet ref (BCAddAll ref l None) = BCGet ref (BCAddAll ref l' None).
Proof. exact bc_order. Qed.
Print Assumptions C15_order.
Theorem C15_subset : forall ref a b g, total_weight a <> 0 -> total_weight (a ++ b) <> 0 ->
  BCGet ref (BCAddAll ref a None) = Some g ->
  BCGet ref (BCAddAll ref ((g, total_weight a) :: b) None) = BCGet ref (BCAddAll ref (a ++ b) None).
Proof. exact bc_subset. Qed.
Print Assumptions C15_subset.
Theorem C15_unweighted : forall origin l, l <> [] ->
  BarycentreUnweighted origin l = weighted_mean (map (fun p => (p, 1)) l).
Proof. exact unweighted_mean. Qed.
Print Assumptions C15_unweighted.
Example C15_example : BCGet (mk3 7 7 7) (BCAddAll (mk3 7 7 7) [(mk3 1 2 3, 1); (mk3 5 2 (-1), 3)] None) = Some (mk3 4 2 0).
Proof. cbn. unfold add3, scal3, sub3, div3. cbn. f_equal. apply mk3_eq; field. Qed.

(** * C16 *)
Theorem C16_composition : forall dl dr l r p, unit_q (linear l) -> unit_q (linear r) ->
  aff (xorb dl dr) (AffMul dl l r) p = aff dl l (aff dr r p).
Proof. exact aff_mul. Qed.
Print Assumptions C16_composition.
Theorem C16_inverse : forall d f p, unit_q (linear f) ->
  aff d (AffInverse f) (aff d f p) = p /\ aff d f (aff d (AffInverse f) p) = p.
Proof. exact aff_inv. Qed.
Print Assumptions C16_inverse.
Theorem C16_linear_part : forall d f p q, sub3 (aff d f p) (aff d f q) = orth_vector d (linear f) (sub3 p q).
Proof. exact aff_linear. Qed.
Print Assumptions C16_linear_part.
Theorem C16_origins : forall d f, unit_q (linear f) -> aff d f (from_origin f) = to_origin f.
Proof. exact aff_origin. Qed.
Print Assumptions C16_origins.
Theorem C16_similarities : forall dl dr l r p, unit_q (quat (slinear l)) -> unit_q (quat (slinear r)) ->
  sim (xorb dl dr) (SimMul dl l r) p = sim dl l (sim dr r p).
Proof. exact sim_mul. Qed.
Print Assumptions C16_similarities.
Theorem C16_similarity_inverse : forall d f p, unit_q (quat (slinear f)) -> scale (slinear f) <> 0 ->
  sim d (SimInverse f) (sim d f p) = p /\ sim d f (sim d (SimInverse f) p) = p.
Proof. exact sim_inv. Qed.
Print Assumptions C16_similarity_inverse.
Theorem C16_similarity_linear_part : forall d f p q, sub3 (sim d f p) (sim d f q) = conf_vector d (slinear f) (sub3 p q).
Proof. exact sim_linear. Qed.
Print Assumptions C16_similarity_linear_part.
Example C16_example : aff true (mkA (mk3 1 0 0) (mk3 0 5 0) (qreal 1)) (mk3 3 2 1) = mk3 (-2) 3 (-1).
Proof. unfold aff. rewrite orth_vector_eq. cbn. red_all. cbn. apply mk3_eq; ring. Qed.

(** * C53 *)
Theorem C53_permutation : forall p, In p permutations ->
  exists s, PermDeterminant p = Some s /\ has_determinant (act p) (sgn s).
Proof. intros p H. destruct (perm_determinant p H) as (s & A & B & _). now exists s. Qed.
Print Assumptions C53_permutation.
Theorem C53_signature : forall det s, sig_valid det s -> has_determinant (sig_vector s) (sgn det).
Proof. exact sig_det. Qed.
Print Assumptions C53_signature.
Theorem C53_signature_constructors : forall det a b,
  sig_valid det (SigXY det a b) /\ sig_valid det (SigXZ det a b) /\ sig_valid det (SigYZ det a b).
Proof. exact sig_ctors. Qed.
Print Assumptions C53_signature_constructors.
Theorem C53_rotation : forall q, unit_q q -> has_determinant (rotate q) 1.
Proof. exact rotate_det. Qed.
Print Assumptions C53_rotation.
Theorem C53_orthogonal : forall d q, unit_q q -> has_determinant (orth_vector d q) (sgn d).
Proof. exact orth_det. Qed.
Print Assumptions C53_orthogonal.
Theorem C53_conformal_preserving : forall c, unit_q (quat c) -> has_determinant (conf_vector false c) (ConfDeterminant c).
Proof.
  intros c U. unfold ConfDeterminant. pose proof (conf_det false c U) as H. cbn in H |- *.
  intros u v w. rewrite H. ring.
Qed.
Print Assumptions C53_conformal_preserving.
(** Reversing conformal maps have the opposite of the determinant that the code returns. *)
Theorem C53_conformal_reversing_refuted : forall c, unit_q (quat c) -> scale c <> 0 ->
  has_determinant (conf_vector true c) (- ConfDeterminant c) /\ ~ has_determinant (conf_vector true c) (ConfDeterminant c).
Proof.
  intros c U S.
  assert (H : has_determinant (conf_vector true c) (- ConfDeterminant c)).
  { intros u v w. rewrite (conf_det true c U u v w). unfold ConfDeterminant. cbn. ring. }
  split; [exact H|]. intros K. specialize (H e_x e_y e_z). specialize (K e_x e_y e_z). rewrite H in K.
  assert (V : volume e_x e_y e_z = 1) by (red_all; ring). rewrite V in K. unfold ConfDeterminant in K.
  assert (scale c ^ 3 = 0) by lra. now apply (pow_nonzero (scale c) 3) in S.
Qed.
Print Assumptions C53_conformal_reversing_refuted.
Theorem C53_conformal_maps : forall d c v, unit_q (quat c) -> scale c <> 0 ->
  conf_vector d (ConfInverse c) (conf_vector d c v) = v /\ conf_vector d c (conf_vector d (ConfInverse c) v) = v.
Proof. exact conf_inv. Qed.
Print Assumptions C53_conformal_maps.
Example C53_example : sig_valid true (SigXY true false false) /\ has_determinant (sig_vector (SigXY true false false)) (-1).
Proof. split; [reflexivity|]. change (-1) with (sgn true). apply sig_det. reflexivity. Qed.

(** * C54 *)
Theorem C54_composition : forall dl dr l r dof, rm_valid l -> rm_valid r ->
  rm_apply (xorb dl dr) (RMMul dl dr l r) dof = rm_apply dl l (rm_apply dr r dof).
Proof. exact rm_mul. Qed.
Print Assumptions C54_composition.
Theorem C54_inverse : forall d m dof, rm_valid m ->
  rm_apply d (RMInverse d m) (rm_apply d m dof) = dof /\ rm_apply d m (rm_apply d (RMInverse d m) dof) = dof.
Proof. exact rm_inv. Qed.
Print Assumptions C54_inverse.
(** The velocity it computes is the derivative of the position in the moving frame. *)
Theorem C54_kinematics : forall det T p t0 w v p', (forall t, unit_q (linear (T t))) ->
  moving_frame det T t0 w v -> has_derivative p t0 p' ->
  has_derivative (fun t => aff det (T t) (p t)) t0 (snd (rm_apply det (mkRM (T t0) w v) (p t0, p'))).
Proof. exact rm_kinematics. Qed.
Print Assumptions C54_kinematics.

Lemma C54_example_frame :
  let T := fun t => mkA (mk3 0 0 0) (mk3 0 0 0) (AngleAxis (- t) e_z) in
  (forall t, unit_q (linear (T t))) /\ moving_frame false T 0 (mk3 0 0 1) (mk3 0 0 0).
Proof.
  assert (NZ : Norm2 e_z = 1) by (red_all; ring).
  cbn zeta. split; [intros t; now apply angle_axis_unit|].
  assert (E : forall t e, orth_vector false (OrthInverse (linear (mkA (mk3 0 0 0) (mk3 0 0 0) (AngleAxis (- t) e_z)))) e = rot_z t e).
  { intros t e. rewrite orth_vector_eq. cbn [linear smul3]. unfold OrthInverse.
    rewrite <- angle_axis_opp, Ropp_involutive, angle_axis_rodrigues by auto. destruct e. red_all. apply mk3_eq; ring. }
  split.
  - intros e He.
    assert (D1 : derivable_pt_lim cos 0 (- sin 0)) by apply derivable_pt_lim_cos.
    assert (D2 : derivable_pt_lim sin 0 (cos 0)) by apply derivable_pt_lim_sin.
    rewrite sin_0 in D1. rewrite cos_0 in D2. rewrite Ropp_0 in D1.
    repeat split; cbn beta.
    all: eapply derivable_pt_lim_ext; [intros t; rewrite E; reflexivity|]; rewrite E.
    all: destruct e as [a b c]; cbn -[cos sin derivable_pt_lim]; rewrite ?cos_0, ?sin_0.
    + replace (0 * c - 1 * (0 * a + 1 * b)) with (0 * a + cos 0 * 0 - (1 * b + sin 0 * 0)) by (rewrite cos_0, sin_0; ring).
      apply (derivable_pt_lim_minus (fun t => cos t * a) (fun t => sin t * b)).
      * apply (derivable_pt_lim_mult cos (fun _ => a)); [exact D1 | apply derivable_pt_lim_const].
      * apply (derivable_pt_lim_mult sin (fun _ => b)); [exact D2 | apply derivable_pt_lim_const].
    + replace (1 * (1 * a - 0 * b) - 0 * c) with (1 * a + sin 0 * 0 + (0 * b + cos 0 * 0)) by (rewrite cos_0, sin_0; ring).
      apply (derivable_pt_lim_plus (fun t => sin t * a) (fun t => cos t * b)).
      * apply (derivable_pt_lim_mult sin (fun _ => a)); [exact D2 | apply derivable_pt_lim_const].
      * apply (derivable_pt_lim_mult cos (fun _ => b)); [exact D1 | apply derivable_pt_lim_const].
    + replace (0 * (0 * a + 1 * b) - 0 * (1 * a - 0 * b)) with 0 by ring. apply derivable_pt_lim_const.
  - assert (Z : forall t, aff false (AffInverse (mkA (mk3 0 0 0) (mk3 0 0 0) (AngleAxis (- t) e_z))) zero3 = mk3 0 0 0).
    { intros t. unfold aff, AffInverse. cbn [from_origin to_origin linear]. rewrite orth_sub.
      change (mk3 0 0 0) with zero3. rewrite orth_zero. red_all. apply mk3_eq; ring. }
    repeat split; (eapply derivable_pt_lim_ext; [intros t; rewrite Z; reflexivity|]); cbn; apply derivable_pt_lim_const.
Qed.
(** A point at rest at (1, 0, 0), seen at time 0 from a frame turning around z at unit angular velocity, moves with
    velocity (0, -1, 0). *)
Example C54_example : snd (rm_apply false (mkRM (mkA (mk3 0 0 0) (mk3 0 0 0) (qreal 1)) (mk3 0 0 1) (mk3 0 0 0)) (mk3 1 0 0, mk3 0 0 0)) = mk3 0 (-1) 0.
Proof. rewrite rm_apply_eq by (unfold rm_valid; red_all; cbn; ring). unfold aff. cbn [snd rt linear omega vel from_origin to_origin].
  rewrite !orth_vector_eq, orth_bivector_eq. cbn. red_all. cbn. apply mk3_eq; ring. Qed.
