From Coq Require Import Reals List Bool Arith Lra Lia.
From Verif Require Import Geometry_Model Eigen_Model Eigen_Spec Eigen_Proofs Eigen_Proofs3.
From Verif Require Import Davenport_Model Davenport_Spec.
Import ListNotations.
Local Open Scope R_scope.

(* ------------------------------------------------------- quadratic forms *)

Definition quad (n : nat) (A : rmatrix) (x : rvector) : R :=
  rsum n (fun i => x i * rapply n A x i).

Lemma cauchy : forall n (x y : rvector),
  rsum n (fun i => x i * y i) * rsum n (fun i => x i * y i)
  <= rsum n (fun i => x i * x i) * rsum n (fun i => y i * y i).
Proof.
  induction n as [|n IH]; intros x y; cbn [rsum]; [lra|].
  specialize (IH x y). set (p := rsum n (fun i => x i * y i)) in *.
  pose proof (norm_nonneg n x) as PX. pose proof (norm_nonneg n y) as PY.
  set (X := rsum n (fun i => x i * x i)) in *. set (Y := rsum n (fun i => y i * y i)) in *.
  (* 2 p a b <= X b^2 + Y a^2 *)
  assert (C : 2 * (p * (x n * y n)) <= X * (y n * y n) + Y * (x n * x n)).
  { assert (Q : forall u v, 0 <= u -> 0 <= v -> p * p <= u * v ->
                2 * (p * (x n * y n)) <= u * (y n * y n) + v * (x n * x n)).
    { intros u v Hu Hv H.
      destruct (Req_dec u 0) as [->|Nu].
      - assert (p = 0) by nra. subst p. rewrite H0. nra.
      - assert (0 < u) by lra.
        apply (Rmult_le_reg_l u); [assumption|].
        assert (0 <= (u * y n - p * x n) * (u * y n - p * x n)) by apply Rle_0_sqr.
        assert (p * p * (x n * x n) <= u * v * (x n * x n)) by (apply Rmult_le_compat_r; nra).
        nra. }
    apply Q; assumption. }
  nra.
Qed.

(* The diagonal and the rest. *)
Lemma quad_bound : forall n D x l,
  (forall i, (i < n)%nat -> D i i <= l) -> rsum n (fun i => x i * x i) = 1 ->
  quad n D x <= l + sqrt (off n D).
Proof.
  intros n D x l HD H1.
  set (e := fun i j => if (i =? j)%nat then 0 else D i j).
  assert (S : quad n D x = rsum n (fun i => D i i * (x i * x i))
                           + rsum n (fun i => x i * rapply n e x i)).
  { unfold quad. rewrite <- rsum_plus. apply rsum_ext. intros i Hi.
    assert (R : rapply n D x i = D i i * x i + rapply n e x i).
    { unfold rapply.
      assert (Y : D i i * x i = rsum n (fun j => if (i =? j)%nat then D i j * x j else 0)).
      { rewrite (rsum_single n i) by
          (try assumption; intros j _ Nj; apply not_eq_sym in Nj; apply Nat.eqb_neq in Nj;
           rewrite Nj; reflexivity).
        rewrite Nat.eqb_refl. reflexivity. }
      rewrite Y, <- rsum_plus. apply rsum_ext. intros j _. unfold e.
      destruct (i =? j)%nat; ring. }
    rewrite R. ring. }
  assert (A1 : rsum n (fun i => D i i * (x i * x i)) <= l).
  { apply Rle_trans with (rsum n (fun i => l * (x i * x i))).
    - apply rsum_le. intros i Hi. apply Rmult_le_compat_r; [nra|]. apply HD. exact Hi.
    - rewrite rsum_scale, H1. lra. }
  set (z := rapply n e x) in *.
  assert (A2 : rsum n (fun i => z i * z i) <= off n D).
  { unfold off. apply rsum_le. intros i Hi. unfold z, rapply.
    eapply Rle_trans; [apply cauchy|]. rewrite H1, Rmult_1_r. right.
    apply rsum_ext. intros j _. unfold e. destruct (i =? j)%nat; ring. }
  assert (A3 : rsum n (fun i => x i * z i) <= sqrt (off n D)).
  { pose proof (cauchy n x z) as C. rewrite H1, Rmult_1_l in C.
    eapply Rle_trans; [apply Rle_abs|]. rewrite <- sqrt_Rsqr_abs. apply sqrt_le_1_alt.
    unfold Rsqr. lra. }
  rewrite S. lra.
Qed.

Lemma rapply_rmul : forall n A B x i, rapply n (rmul n A B) x i = rapply n A (rapply n B x) i.
Proof.
  intros n A B x i. unfold rapply, rmul.
  transitivity (rsum n (fun j => rsum n (fun k => A i k * B k j * x j))).
  - apply rsum_ext. intros j _. rewrite <- rsum_scale_r. reflexivity.
  - rewrite rsum_exchange. apply rsum_ext. intros k _. rewrite <- rsum_scale.
    apply rsum_ext. intros j _. ring.
Qed.

Lemma rapply_meq : forall n A B x y i, meq n A B -> (forall j, (j < n)%nat -> x j = y j) ->
  (i < n)%nat -> rapply n A x i = rapply n B y i.
Proof.
  intros n A B x y i H Hx Hi. unfold rapply. apply rsum_ext. intros j Hj.
  rewrite (H i j Hi Hj), (Hx j Hj). reflexivity.
Qed.

Lemma rapply_transpose : forall n A x y,
  rsum n (fun i => x i * rapply n A y i) = rsum n (fun j => rapply n (transpose A) x j * y j).
Proof.
  intros n A x y. unfold rapply.
  transitivity (rsum n (fun i => rsum n (fun j => x i * A i j * y j))).
  - apply rsum_ext. intros i _. rewrite <- rsum_scale. apply rsum_ext. intros; ring.
  - rewrite rsum_exchange. apply rsum_ext. intros j _. rewrite <- rsum_scale_r.
    apply rsum_ext. intros i _. unfold transpose. ring.
Qed.

(* The form in the basis of the columns of V. *)
Lemma quad_similar : forall n A D V x, orthogonal n V ->
  meq n D (rmul n (transpose V) (rmul n A V)) ->
  quad n D (rapply n (transpose V) x) = quad n A x /\
  rsum n (fun i => rapply n (transpose V) x i * rapply n (transpose V) x i)
  = rsum n (fun i => x i * x i).
Proof.
  intros n A D V x O E. set (y := rapply n (transpose V) x).
  assert (VY : forall i, (i < n)%nat -> rapply n V y i = x i).
  { intros i Hi. unfold y. rewrite <- rapply_rmul.
    rewrite (rapply_meq n _ delta x x i (orthogonal_right n V O)) by (auto).
    unfold rapply. apply (rsum_delta_l n i x). exact Hi. }
  split.
  - unfold quad.
    transitivity (rsum n (fun i => y i * rapply n (transpose V) (rapply n A (rapply n V y)) i)).
    { apply rsum_ext. intros i Hi. rewrite (rapply_meq n _ _ y y i E) by auto.
      rewrite rapply_rmul. f_equal. unfold rapply at 1. unfold rapply at 2.
      apply rsum_ext. intros j _. rewrite rapply_rmul. reflexivity. }
    rewrite rapply_transpose.
    apply rsum_ext. intros i Hi.
    change (rapply n (transpose (transpose V)) y i) with (rapply n V y i).
    rewrite (VY i Hi). f_equal. apply rapply_meq; [intros a b _ _; reflexivity|exact VY|exact Hi].
  - change (rsum n (fun i => y i * rapply n (transpose V) x i) = rsum n (fun i => x i * x i)).
    rewrite rapply_transpose. apply rsum_ext. intros i Hi.
    change (rapply n (transpose (transpose V)) y i) with (rapply n V y i).
    rewrite (VY i Hi). reflexivity.
Qed.

Lemma quad_column : forall n A D V i, (i < n)%nat ->
  meq n D (rmul n (transpose V) (rmul n A V)) -> quad n A (fun k => V k i) = D i i.
Proof.
  intros n A D V i Hi E. rewrite (E i i Hi Hi). reflexivity.
Qed.

(* --------------------------------------------------------- quaternions *)

Definition vector_of (q : Quaternion) : rvector :=
  fun i => match i with
           | 0%nat => cx (im q) | 1%nat => cy (im q) | 2%nat => cz (im q) | _ => re q
           end.

Lemma vector_norm : forall q, rsum 4 (fun i => vector_of q i * vector_of q i) = QNorm2 q.
Proof. intros [r [x y z]]. cbn. unfold QNorm2, Norm2. cbn. ring. Qed.

Lemma quad_term : forall q B w a b,
  quad 4 (K_matrix (Madd B (Mscal w (KroneckerProduct b a)))) (vector_of q)
  = quad 4 (K_matrix B) (vector_of q)
    + w * (Dot b (Geometry_Model.rotate (Conjugate q) a) + (QNorm2 q - 1) * Dot a b).
Proof.
  intros [r [x y z]] [[b00 b01 b02] [b10 b11 b12] [b20 b21 b22]] w [a0 a1 a2] [c0 c1 c2].
  unfold quad, rapply, K_matrix, element, coordinate, Madd, Mscal, KroneckerProduct, Transpose,
    Trace, Geometry_Model.rotate, Conjugate, QNorm2, Norm2, Dot, Cross, add3, scal3, opp3.
  cbn. ring.
Qed.

Lemma quad_profile : forall q a b w B, unit q -> same_size a b w ->
  quad 4 (K_matrix (attitude_profile B a b w)) (vector_of q)
  = quad 4 (K_matrix B) (vector_of q) + gain (Conjugate q) a b w.
Proof.
  intros q a. induction a as [|a0 a IH]; intros b w B U [S1 S2]; destruct b as [|b0 b], w as [|w0 w];
    try discriminate; cbn [attitude_profile gain]; [ring|].
  rewrite IH, quad_term; [|exact U|split; cbn in *; lia]. unfold unit in U. rewrite U. ring.
Qed.

Lemma quad_gain : forall q a b w, unit q -> same_size a b w ->
  quad 4 (K_matrix (attitude_profile M_zero a b w)) (vector_of q) = gain (Conjugate q) a b w.
Proof.
  intros q a b w U S. rewrite quad_profile by assumption.
  assert (Z : quad 4 (K_matrix M_zero) (vector_of q) = 0).
  { unfold quad, rapply, K_matrix, element, coordinate, M_zero, Madd, Transpose, Trace, add3, zero3.
    cbn. ring. }
  rewrite Z. ring.
Qed.

Lemma K_symmetric : forall B, symmetric 4 (K_matrix B).
Proof.
  intros [[b00 b01 b02] [b10 b11 b12] [b20 b21 b22]] i j Hi Hj.
  assert (I : (i = 0 \/ i = 1 \/ i = 2 \/ i = 3)%nat) by lia.
  assert (J : (j = 0 \/ j = 1 \/ j = 2 \/ j = 3)%nat) by lia.
  destruct I as [->|[->|[->| ->]]], J as [->|[->|[->| ->]]];
    unfold K_matrix, element, coordinate, Madd, Transpose, add3; cbn; ring.
Qed.

Definition column_quaternion (V : rmatrix) (i : nat) : Quaternion :=
  mkQ (V 3%nat i) (mk3 (V 0%nat i) (V 1%nat i) (V 2%nat i)).

Lemma most_positive_spec : forall n V l, (0 < n)%nat ->
  exists i, (i < n)%nat /\ most_positive n V l = (Some (l i), column_quaternion V i) /\
    forall j, (j < n)%nat -> l j <= l i.
Proof.
  intros n V l. unfold most_positive. induction n as [|n IH]; intros H; [lia|].
  rewrite seq_S, fold_left_app. cbn [fold_left Nat.add].
  destruct (Nat.eq_dec n 0) as [->|N].
  - exists 0%nat. split; [lia|]. split; [reflexivity|]. intros j Hj. replace j with 0%nat by lia. lra.
  - destruct IH as (i & Hi & E & M); [lia|]. rewrite E. destruct (Rlt_dec (l i) (l n)).
    + exists n. split; [lia|]. split; [reflexivity|]. intros j Hj.
      destruct (Nat.eq_dec j n) as [->|Nj]; [lra|]. specialize (M j ltac:(lia)). lra.
    + exists i. split; [lia|]. split; [reflexivity|]. intros j Hj.
      destruct (Nat.eq_dec j n) as [->|Nj]; [lra|]. apply M. lia.
Qed.

Lemma conjugate_unit : forall q, unit q -> unit (Conjugate q).
Proof. intros [r [x y z]]. unfold unit, QNorm2, Conjugate, Norm2. cbn. intros H. nra. Qed.
Lemma conjugate_conjugate : forall q, Conjugate (Conjugate q) = q.
Proof. intros [r [x y z]]. unfold Conjugate, opp3. cbn. rewrite !Ropp_involutive. reflexivity. Qed.

Lemma rate_4 : rate 4 = 5 / 6.
Proof. unfold rate. cbn. field. Qed.

Lemma remainder_spec : forall k eps A D V, symmetric 4 A ->
  jacobi_loop 4 k (eps * FrobeniusNorm 4 A) (A, identity) = Some (D, V) ->
  jacobi_inv 4 A (D, V) /\ off 4 D <= remainder k eps A.
Proof.
  intros k eps A D V S E.
  destruct (jacobi_loop_spec k 4 A _ A identity (D, V) (jacobi_initial 4 A S) E) as [I H].
  split; [exact I|]. unfold remainder. destruct H as [Sm|Of].
  - eapply Rle_trans; [|apply Rmax_l].
    eapply Rle_trans; [apply (off_bound 4 D (eps * FrobeniusNorm 4 A)); [exact (ji_symmetric _ _ _ I)| |lia]|].
    + intros p q H. apply Sm; lia.
    + cbn. lra.
  - eapply Rle_trans; [exact Of|apply Rmax_r].
Qed.

Lemma davenport_spec : forall k eps a b w, same_size a b w ->
  exists r D V, DavenportQMethod k eps a b w = Some r /\
    jacobi_loop 4 k (eps * FrobeniusNorm 4 (K_matrix (attitude_profile M_zero a b w)))
      (K_matrix (attitude_profile M_zero a b w), identity) = Some (D, V) /\
    unit r /\ forall p, unit p -> gain p a b w <= gain r a b w + sqrt (off 4 D).
Proof.
  intros k eps a b w SS. pose proof SS as [S1 S2]. unfold DavenportQMethod.
  rewrite <- S1, <- S2, !Nat.eqb_refl. cbn [andb].
  set (K := K_matrix (attitude_profile M_zero a b w)).
  unfold ClassicalJacobi.
  destruct (jacobi_loop_total k 4 (eps * FrobeniusNorm 4 K) (K, identity)) as [[D V] E]; [left; lia|].
  rewrite E.
  destruct (most_positive_spec 4 V (fun i => D i i)) as (i & Hi & EM & M); [lia|].
  rewrite EM. cbn [snd]. exists (Conjugate (column_quaternion V i)), D, V.
  destruct (remainder_spec k eps K D V (K_symmetric _) E) as [I _].
  pose proof (ji_orthogonal _ _ _ I) as O. pose proof (ji_similar _ _ _ I) as SI.
  cbn [fst snd] in O, SI.
  split; [reflexivity|]. split; [reflexivity|].
  assert (U : unit (column_quaternion V i)).
  { unfold unit. rewrite <- vector_norm. destruct (O i i Hi Hi) as [X _].
    unfold delta in X. rewrite Nat.eqb_refl in X. rewrite <- X. reflexivity. }
  split; [apply conjugate_unit; exact U|]. intros p UP.
  rewrite <- (quad_gain (column_quaternion V i)) by assumption.
  rewrite <- (conjugate_conjugate p) at 1.
  rewrite <- (quad_gain (Conjugate p)) by (try apply conjugate_unit; assumption).
  fold K.
  assert (G : quad 4 K (vector_of (column_quaternion V i)) = D i i).
  { rewrite <- (quad_column 4 K D V i Hi SI). reflexivity. }
  rewrite G.
  destruct (quad_similar 4 K D V (vector_of (Conjugate p)) O SI) as [Q1 Q2].
  rewrite <- Q1. apply quad_bound; [exact M|]. rewrite Q2, vector_norm.
  apply conjugate_unit. exact UP.
Qed.

Lemma near_optimal : forall k eps a b w, same_size a b w ->
  exists r, DavenportQMethod k eps a b w = Some r /\ unit r /\
    forall p, unit p ->
      gain p a b w
      <= gain r a b w + sqrt (remainder k eps (K_matrix (attitude_profile M_zero a b w))).
Proof.
  intros k eps a b w SS. destruct (davenport_spec k eps a b w SS) as (r & D & V & E & EL & U & H).
  exists r. split; [exact E|]. split; [exact U|]. intros p UP.
  destruct (remainder_spec k eps _ D V (K_symmetric _) EL) as [_ Of].
  apply sqrt_le_1_alt in Of. specialize (H p UP). lra.
Qed.

(* ----------------------------------------------------------------- loss *)

Lemma rotate_norm : forall q v, unit q -> Norm2 (Geometry_Model.rotate q v) = Norm2 v.
Proof.
  intros [r [x y z]] [a0 a1 a2]. unfold unit, QNorm2, Norm2, Geometry_Model.rotate, Cross, add3, scal3.
  cbn. intros H.
  assert (R : r * r = 1 - (x * x + y * y + z * z)) by lra. clear H.
  match goal with |- ?l = ?m => replace l with
    (m + 4 * (r * r - (1 - (x * x + y * y + z * z)))
         * ((y * a2 - z * a1) * (y * a2 - z * a1) + (z * a0 - x * a2) * (z * a0 - x * a2)
            + (x * a1 - y * a0) * (x * a1 - y * a0))) by ring end.
  rewrite R. ring.
Qed.

Fixpoint size (a b : list R3) (w : list R) : R :=
  match a, b, w with
  | a0 :: a', b0 :: b', w0 :: w' => w0 * (Norm2 a0 + Norm2 b0) + size a' b' w'
  | _, _, _ => 0
  end.
Lemma loss_gain : forall q a b w, unit q -> loss q a b w = size a b w - 2 * gain q a b w.
Proof.
  intros q a. induction a as [|a0 a IH]; intros b w U; destruct b as [|b0 b], w as [|w0 w];
    cbn [loss gain size]; try ring.
  rewrite IH by exact U.
  assert (N : Norm2 (sub3 b0 (Geometry_Model.rotate q a0))
              = Norm2 a0 + Norm2 b0 - 2 * Dot b0 (Geometry_Model.rotate q a0)).
  { rewrite <- (rotate_norm q a0 U). unfold Norm2, Dot, sub3. cbn. ring. }
  rewrite N. ring.
Qed.

Lemma Norm2_nonneg : forall v, 0 <= Norm2 v.
Proof. intros [x y z]. unfold Norm2. cbn. nra. Qed.

Lemma loss_nonneg : forall q a b w, Forall (fun x => 0 <= x) w -> 0 <= loss q a b w.
Proof.
  intros q a. induction a as [|a0 a IH]; intros b w H; destruct b as [|b0 b], w as [|w0 w];
    cbn [loss]; try lra.
  inversion H; subst. specialize (IH b w H3).
  pose proof (Norm2_nonneg (sub3 b0 (Geometry_Model.rotate q a0))). nra.
Qed.

Lemma loss_term : forall q a b w i, Forall (fun x => 0 <= x) w -> same_size a b w ->
  (i < length a)%nat ->
  nth i w 0 * Norm2 (sub3 (nth i b zero3) (Geometry_Model.rotate q (nth i a zero3))) <= loss q a b w.
Proof.
  intros q a. induction a as [|a0 a IH]; intros b w i H [S1 S2] L; [cbn in L; lia|].
  destruct b as [|b0 b], w as [|w0 w]; try discriminate. inversion H; subst. cbn [loss].
  destruct i as [|i]; cbn [nth].
  - pose proof (loss_nonneg q a b w H3). lra.
  - cbn in S1, S2, L. specialize (IH b w i H3 ltac:(split; lia) ltac:(lia)).
    pose proof (Norm2_nonneg (sub3 b0 (Geometry_Model.rotate q a0))). nra.
Qed.

Lemma loss_exact : forall q a w, loss q a (map (Geometry_Model.rotate q) a) w = 0.
Proof.
  intros q a. induction a as [|a0 a IH]; intros w; destruct w as [|w0 w]; cbn [loss map]; try reflexivity.
  rewrite IH. unfold Norm2, sub3. cbn. ring.
Qed.
