(* C81: the q-method of Davenport. *)
From Coq Require Import Reals List Bool Arith Lra Lia.
From Verif Require Import Geometry_Model Eigen_Model Eigen_Spec Eigen_Proofs Eigen_Proofs3.
From Verif Require Import Davenport_Model Davenport_Spec Davenport_Proofs.
Import ListNotations.
Local Open Scope R_scope.

(* The matrix K represents the gain: for a unit quaternion with coordinates (x, y, z, w),
   its quadratic form is the gain of the inverse rotation. *)
Theorem C81_form : forall x y z w a b weights,
  x * x + y * y + z * z + w * w = 1 -> same_size a b weights ->
  let K := K_matrix (attitude_profile M_zero a b weights) in
  let v := fun i => nth i [x; y; z; w] 0 in
  rsum 4 (fun i => rsum 4 (fun j => v i * K i j * v j))
  = gain (mkQ w (mk3 (- x) (- y) (- z))) a b weights.
Proof.
  intros x y z w a b weights H S K v.
  assert (U : unit (mkQ w (mk3 x y z))).
  { unfold unit, QNorm2, Norm2. cbn. lra. }
  pose proof (quad_gain (mkQ w (mk3 x y z)) a b weights U S) as G.
  unfold Conjugate, opp3 in G. cbn [re im cx cy cz] in G. rewrite <- G. fold K.
  unfold quad, rapply. apply rsum_ext. intros i Hi. rewrite <- rsum_scale.
  apply rsum_ext. intros j Hj.
  assert (E : forall k, (k < 4)%nat -> v k = vector_of (mkQ w (mk3 x y z)) k).
  { intros k Hk. assert (X : (k = 0 \/ k = 1 \/ k = 2 \/ k = 3)%nat) by lia.
    destruct X as [->|[->|[->| ->]]]; reflexivity. }
  rewrite !E by assumption. ring.
Qed.

Example C81_form_example :
  let K := K_matrix (attitude_profile M_zero [mk3 1 0 0; mk3 0 1 0] [mk3 0 1 0; mk3 (-1) 0 0] [1; 2]) in
  K 0%nat 1%nat = -1 /\ K 2%nat 3%nat = -3 /\ K 3%nat 3%nat = 0 /\
  gain (mkQ (sqrt (/ 2)) (mk3 0 0 (sqrt (/ 2)))) [mk3 1 0 0; mk3 0 1 0] [mk3 0 1 0; mk3 (-1) 0 0] [1; 2] = 3.
Proof.
  cbv zeta. split; [|split; [|split]];
    [unfold K_matrix, element, coordinate, Trace; cbn; ring..|].
  assert (H : sqrt (/ 2) * sqrt (/ 2) = / 2) by (apply sqrt_sqrt; lra).
  unfold gain, Geometry_Model.rotate, Dot, Cross, add3, scal3. cbn. generalize dependent (sqrt (/ 2)).
  intros s H. nra.
Qed.

(* The function returns a unit quaternion whose gain is maximal, except for what the
   method of Jacobi leaves. *)
Theorem C81_optimal : forall iterations eps a b weights, same_size a b weights ->
  exists r, DavenportQMethod iterations eps a b weights = Some r /\ unit r /\
    forall p, unit p ->
      gain p a b weights
      <= gain r a b weights
         + sqrt (remainder iterations eps (K_matrix (attitude_profile M_zero a b weights))).
Proof. exact near_optimal. Qed.

(* In other words it minimizes the loss of Wahba. *)
Theorem C81_loss : forall iterations eps a b weights r p, unit p ->
  DavenportQMethod iterations eps a b weights = Some r ->
  loss r a b weights
  <= loss p a b weights
     + 2 * sqrt (remainder iterations eps (K_matrix (attitude_profile M_zero a b weights))).
Proof.
  intros k eps a b w r p U E.
  assert (S : same_size a b w).
  { unfold DavenportQMethod in E. destruct (Nat.eqb_spec (length a) (length b)); [|discriminate].
    destruct (Nat.eqb_spec (length a) (length w)); [|discriminate]. split; assumption. }
  destruct (near_optimal k eps a b w S) as (r' & E' & U' & H).
  rewrite E in E'. injection E' as <-. rewrite !loss_gain by assumption.
  specialize (H p U). lra.
Qed.

(* When the second vectors are the images of the first ones by a rotation, the result
   maps each of the first vectors near its image. *)
Theorem C81_recovers : forall iterations eps a weights p r i,
  unit p -> Forall (fun w => 0 <= w) weights -> (i < length a)%nat ->
  DavenportQMethod iterations eps a (map (Geometry_Model.rotate p) a) weights = Some r ->
  nth i weights 0
  * Norm2 (sub3 (Geometry_Model.rotate p (nth i a zero3)) (Geometry_Model.rotate r (nth i a zero3)))
  <= 2 * sqrt (remainder iterations eps
                 (K_matrix (attitude_profile M_zero a (map (Geometry_Model.rotate p) a) weights))).
Proof.
  intros k eps a w p r i U W Hi E.
  assert (S : same_size a (map (Geometry_Model.rotate p) a) w).
  { unfold DavenportQMethod in E. rewrite map_length, Nat.eqb_refl in E.
    destruct (Nat.eqb_spec (length a) (length w)); [|discriminate].
    split; [rewrite map_length; reflexivity|assumption]. }
  pose proof (C81_loss k eps a _ w r p U E) as L. rewrite loss_exact in L.
  pose proof (loss_term r a _ w i W S Hi) as T.
  rewrite (nth_indep _ zero3 (Geometry_Model.rotate p zero3)) in T by (rewrite map_length; exact Hi).
  rewrite map_nth in T. lra.
Qed.

(* The function fails if and only if the sizes differ. *)
Theorem C81_total : forall iterations eps a b weights,
  DavenportQMethod iterations eps a b weights <> None <-> same_size a b weights.
Proof.
  intros k eps a b w. split.
  - intros E. unfold DavenportQMethod in E.
    destruct (Nat.eqb_spec (length a) (length b)); [|cbn in E; congruence].
    destruct (Nat.eqb_spec (length a) (length w)); [|cbn in E; congruence]. split; assumption.
  - intros S. destruct (near_optimal k eps a b w S) as (r & -> & _). discriminate.
Qed.

(* With enough iterations and a small threshold the maximum is approached arbitrarily. *)
Theorem C81_converges : forall a b weights eta, same_size a b weights -> 0 < eta ->
  exists N eps0, 0 < eps0 /\ forall iterations eps, (N <= iterations)%nat -> 0 <= eps <= eps0 ->
  exists r, DavenportQMethod iterations eps a b weights = Some r /\
    forall p, unit p -> gain p a b weights <= gain r a b weights + eta.
Proof.
  intros a b w eta S He. set (K := K_matrix (attitude_profile M_zero a b w)).
  pose proof (off_nonneg 4 K) as O.
  assert (F0 : 0 <= FrobeniusNorm 4 K) by apply sqrt_pos.
  destruct (pow_lt_1_zero (rate 4)) with (y := eta * eta / (off 4 K + 1)) as [N HN].
  { rewrite rate_4, Rabs_pos_eq; lra. }
  { apply Rdiv_lt_0_compat; nra. }
  exists N, (eta / (4 * (FrobeniusNorm 4 K + 1))). split; [apply Rdiv_lt_0_compat; lra|].
  intros k eps Hk [E0 E1]. destruct (near_optimal k eps a b w S) as (r & E & _ & H).
  exists r. split; [exact E|]. intros p U. specialize (H p U). fold K in H.
  assert (Q : sqrt (remainder k eps K) <= eta); [|lra].
  rewrite <- (sqrt_square eta) by lra. apply sqrt_le_1_alt. unfold remainder. apply Rmax_lub.
  - assert (X : eps * FrobeniusNorm 4 K <= eta / 4).
    { apply Rle_trans with (eta / (4 * (FrobeniusNorm 4 K + 1)) * FrobeniusNorm 4 K).
      - apply Rmult_le_compat_r; assumption.
      - apply (Rmult_le_reg_r (4 * (FrobeniusNorm 4 K + 1))); [lra|].
        replace (eta / (4 * (FrobeniusNorm 4 K + 1)) * FrobeniusNorm 4 K * (4 * (FrobeniusNorm 4 K + 1)))
          with (eta * FrobeniusNorm 4 K) by (field; lra).
        nra. }
    assert (Y : 0 <= eps * FrobeniusNorm 4 K) by nra. nra.
  - specialize (HN k Hk). rewrite rate_4 in *.
    assert (P : 0 <= (5 / 6) ^ k) by (apply pow_le; lra). rewrite Rabs_pos_eq in HN by exact P.
    apply (Rmult_lt_compat_r (off 4 K + 1)) in HN; [|lra].
    unfold Rdiv in HN at 2. rewrite Rmult_assoc, Rinv_l in HN by lra. nra.
Qed.

(* Examples: when K is diagonal there is nothing to iterate. *)
Lemma diagonal_loop : forall n k t A V, 0 <= t ->
  (forall i j, (i < j < n)%nat -> A i j = 0) -> jacobi_loop n k t (A, V) = Some (A, V).
Proof.
  intros n [|k] t A V T H; [reflexivity|]. cbn [jacobi_loop].
  destruct (largest_spec n A) as [_ L2]. destruct (largest_off_diagonal n A) as [m [[p q]|]].
  - cbn [fst snd] in L2. destruct L2 as [Hpq Em]. apply in_pairs in Hpq.
    rewrite (H p q) in Em by lia. rewrite Rabs_R0 in Em.
    destruct (Rle_dec m t); [reflexivity|lra].
  - cbn [fst snd] in L2. destruct (Rle_dec m t); [reflexivity|lra].
Qed.

Lemma diagonal_davenport : forall k eps a b w, 0 <= eps -> same_size a b w ->
  let K := K_matrix (attitude_profile M_zero a b w) in
  (forall i j, (i < j < 4)%nat -> K i j = 0) ->
  DavenportQMethod k eps a b w = Some (Conjugate (snd (most_positive 4 identity (fun i => K i i)))).
Proof.
  intros k eps a b w E [S1 S2] K H. unfold DavenportQMethod.
  rewrite <- S1, <- S2, !Nat.eqb_refl. cbn [andb]. fold K. unfold ClassicalJacobi.
  rewrite diagonal_loop; [reflexivity| |exact H].
  apply Rmult_le_pos; [exact E|apply sqrt_pos].
Qed.

Lemma four : forall P : nat -> nat -> Prop, P 0%nat 1%nat -> P 0%nat 2%nat -> P 0%nat 3%nat ->
  P 1%nat 2%nat -> P 1%nat 3%nat -> P 2%nat 3%nat -> forall i j, (i < j < 4)%nat -> P i j.
Proof.
  intros P H1 H2 H3 H4 H5 H6 i j H.
  assert (X : (i = 0 \/ i = 1 \/ i = 2)%nat) by lia.
  assert (Y : (j = 1 \/ j = 2 \/ j = 3)%nat) by lia.
  destruct X as [->|[->| ->]], Y as [->|[->| ->]]; assumption || lia.
Qed.

Ltac compute_K := unfold K_matrix, element, coordinate, Trace; cbn; ring.

Example C81_identity_example :
  DavenportQMethod 20 (/ 2 ^ 59) [mk3 1 0 0; mk3 0 1 0] [mk3 1 0 0; mk3 0 1 0] [1; 1]
  = Some (mkQ 1 (mk3 (-0) (-0) (-0))).
Proof.
  rewrite diagonal_davenport.
  - set (l := fun i => K_matrix _ i i).
    assert (L0 : l 0%nat = 0) by (unfold l; compute_K). assert (L1 : l 1%nat = 0) by (unfold l; compute_K).
    assert (L2 : l 2%nat = -2) by (unfold l; compute_K). assert (L3 : l 3%nat = 2) by (unfold l; compute_K).
    clearbody l. unfold most_positive. cbn [seq fold_left].
    destruct (Rlt_dec (l 0%nat) (l 1%nat)) as [X|_]; [lra|]. cbv iota beta.
    destruct (Rlt_dec (l 0%nat) (l 2%nat)) as [X|_]; [lra|]. cbv iota beta.
    destruct (Rlt_dec (l 0%nat) (l 3%nat)) as [_|X]; [reflexivity|lra].
  - apply Rlt_le, Rinv_0_lt_compat, pow_lt. lra.
  - split; reflexivity.
  - refine (four (fun i j => K_matrix _ i j = 0) _ _ _ _ _ _); compute_K.
Qed.

(* Without vectors the result is not the identity, but a half-turn around the first axis. *)
Example C81_empty_example :
  DavenportQMethod 20 (/ 2 ^ 59) [] [] [] = Some (mkQ 0 (mk3 (-1) (-0) (-0))) /\
  Geometry_Model.rotate (mkQ 0 (mk3 (-1) (-0) (-0))) (mk3 1 2 3) = mk3 1 (-2) (-3).
Proof.
  split.
  - rewrite diagonal_davenport.
    + set (l := fun i => K_matrix _ i i).
      assert (L : forall i, (i < 4)%nat -> l i = 0).
      { intros i Hi. assert (X : (i = 0 \/ i = 1 \/ i = 2 \/ i = 3)%nat) by lia.
        destruct X as [->|[->|[->| ->]]]; unfold l; compute_K. }
      clearbody l. unfold most_positive. cbn [seq fold_left].
      pose proof (L 0%nat ltac:(lia)). pose proof (L 1%nat ltac:(lia)).
      pose proof (L 2%nat ltac:(lia)). pose proof (L 3%nat ltac:(lia)).
      destruct (Rlt_dec (l 0%nat) (l 1%nat)) as [X|_]; [lra|]. cbv iota beta.
      destruct (Rlt_dec (l 0%nat) (l 2%nat)) as [X|_]; [lra|]. cbv iota beta.
      destruct (Rlt_dec (l 0%nat) (l 3%nat)) as [X|_]; [lra|]. reflexivity.
    + apply Rlt_le, Rinv_0_lt_compat, pow_lt. lra.
    + split; reflexivity.
    + refine (four (fun i j => K_matrix _ i j = 0) _ _ _ _ _ _); compute_K.
  - unfold Geometry_Model.rotate, Cross, add3, scal3. cbn. f_equal; ring.
Qed.

(* The guarantee for the number of iterations of the code. *)
Example C81_iterations_example : rate 4 ^ 20 < 27 / 1000 /\ 26 / 1000 < rate 4 ^ 20.
Proof. rewrite rate_4. split; lra. Qed.

Print Assumptions C81_form.
Print Assumptions C81_optimal.
Print Assumptions C81_loss.
Print Assumptions C81_recovers.
Print Assumptions C81_total.
Print Assumptions C81_converges.
