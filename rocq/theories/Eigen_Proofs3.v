(* Proofs about the method of Jacobi. *)
From Coq Require Import Reals List Bool Arith Lia Lra Psatz.
From Verif Require Import Eigen_Model Eigen_Spec Eigen_Proofs.
Import ListNotations.
Local Open Scope R_scope.

(* The sum, with the terms at p and q in front. *)
Lemma rsum_pair : forall n p q f,
  (p < n)%nat -> (q < n)%nat -> p <> q ->
  rsum n f = f p + f q
             + rsum n (fun k => if ((k =? p) || (k =? q))%nat then 0 else f k).
Proof.
  intros n p q f Hp Hq N.
  rewrite (rsum_ext n f (fun k =>
    (if (k =? p)%nat then f k else 0) + (if (k =? q)%nat then f k else 0)
    + (if ((k =? p) || (k =? q))%nat then 0 else f k))).
  - rewrite !rsum_plus.
    rewrite (rsum_single n p (fun k => if (k =? p)%nat then f k else 0)),
            (rsum_single n q (fun k => if (k =? q)%nat then f k else 0)).
    + rewrite !Nat.eqb_refl. ring.
    + assumption.
    + intros i _ Ni. apply Nat.eqb_neq in Ni. rewrite Ni. reflexivity.
    + assumption.
    + intros i _ Ni. apply Nat.eqb_neq in Ni. rewrite Ni. reflexivity.
  - intros i _. destruct (Nat.eqb_spec i p); destruct (Nat.eqb_spec i q);
      cbn [orb]; try congruence; ring.
Qed.

Lemma rsum_pair_eq : forall n p q f g,
  (p < n)%nat -> (q < n)%nat -> p <> q ->
  f p + f q = g p + g q ->
  (forall k, (k < n)%nat -> k <> p -> k <> q -> f k = g k) ->
  rsum n f = rsum n g.
Proof.
  intros n p q f g Hp Hq N E H.
  rewrite (rsum_pair n p q f), (rsum_pair n p q g), E by assumption. f_equal.
  apply rsum_ext. intros i Hi.
  destruct (Nat.eqb_spec i p); [reflexivity|]. destruct (Nat.eqb_spec i q); [reflexivity|].
  apply H; assumption.
Qed.

(* The matrix of the rotation. *)
Definition rotation_matrix (J : rotation) : rmatrix := fun i j =>
  if (j =? p_ J)%nat then
    if (i =? p_ J)%nat then cos_ J else if (i =? q_ J)%nat then - sin_ J else 0
  else if (j =? q_ J)%nat then
    if (i =? p_ J)%nat then sin_ J else if (i =? q_ J)%nat then cos_ J else 0
  else delta i j.

Definition valid (n : nat) (J : rotation) :=
  (p_ J < n)%nat /\ (q_ J < n)%nat /\ p_ J <> q_ J /\
  cos_ J * cos_ J + sin_ J * sin_ J = 1.

Ltac eqbs := repeat match goal with
  | |- context [Nat.eqb ?a ?b] => destruct (Nat.eqb_spec a b); try subst; cbn [orb andb]
  end.

Lemma PostMultiplyRotation_mul : forall n A J i j,
  valid n J -> (j < n)%nat ->
  PostMultiplyRotation A J i j = rmul n A (rotation_matrix J) i j.
Proof.
  intros n A [c s p q] i j (Hp & Hq & N & _) Hj. cbn [p_ q_ cos_ sin_] in *.
  unfold rmul, PostMultiplyRotation, rotation_matrix. cbn [p_ q_ cos_ sin_].
  destruct (Nat.eqb_spec j p) as [->|Njp]; [|destruct (Nat.eqb_spec j q) as [->|Njq]].
  - rewrite (rsum_pair n p q) by assumption. rewrite rsum_0.
    + rewrite !Nat.eqb_refl. destruct (Nat.eqb_spec q p); [congruence|]. ring.
    + intros k _. destruct (Nat.eqb_spec k p); [reflexivity|].
      destruct (Nat.eqb_spec k q); [reflexivity|]. cbn [orb]. ring.
  - rewrite (rsum_pair n p q) by assumption. rewrite rsum_0.
    + rewrite !Nat.eqb_refl. destruct (Nat.eqb_spec q p); [congruence|]. ring.
    + intros k _. destruct (Nat.eqb_spec k p); [reflexivity|].
      destruct (Nat.eqb_spec k q); [reflexivity|]. cbn [orb]. ring.
  - symmetry. apply (rsum_delta_r n j (A i)). assumption.
Qed.

Lemma PremultiplyByTranspose_mul : forall n A J i j,
  valid n J -> (i < n)%nat ->
  PremultiplyByTranspose J A i j = rmul n (transpose (rotation_matrix J)) A i j.
Proof.
  intros n A J i j V Hi.
  transitivity (PostMultiplyRotation (transpose A) J j i).
  - unfold PremultiplyByTranspose, PostMultiplyRotation, transpose. reflexivity.
  - rewrite (PostMultiplyRotation_mul n) by assumption.
    unfold rmul, transpose. apply rsum_ext. intros; ring.
Qed.

Lemma rotation_left : forall n J, valid n J ->
  meq n (rmul n (transpose (rotation_matrix J)) (rotation_matrix J)) delta.
Proof.
  intros n J V i j Hi Hj. rewrite <- PremultiplyByTranspose_mul by assumption.
  destruct V as (Hp & Hq & N & E). destruct J as [c s p q]. cbn [p_ q_ cos_ sin_] in *.
  unfold PremultiplyByTranspose, rotation_matrix, delta. cbn [p_ q_ cos_ sin_].
  destruct (Nat.eqb_spec i p) as [->|]; [|destruct (Nat.eqb_spec i q) as [->|]];
    rewrite ?Nat.eqb_refl;
    (destruct (Nat.eqb_spec j p) as [->|]; [|destruct (Nat.eqb_spec j q) as [->|]]);
    rewrite ?Nat.eqb_refl;
    repeat match goal with
      | |- context [Nat.eqb ?a ?b] => destruct (Nat.eqb_spec a b); try congruence
      end; try lra; try nra.
Qed.

Lemma rotation_orthogonal : forall n J, valid n J -> orthogonal n (rotation_matrix J).
Proof.
  intros n J V. apply orthogonal_intro; [apply rotation_left; assumption|].
  set (J' := mkRotation (cos_ J) (- sin_ J) (p_ J) (q_ J)).
  assert (V' : valid n J').
  { destruct V as (Hp & Hq & N & E). unfold valid, J'; cbn [p_ q_ cos_ sin_].
    repeat split; try assumption. lra. }
  assert (T : forall i j, rotation_matrix J' i j = transpose (rotation_matrix J) i j).
  { intros i j. destruct V as (_ & _ & N & _).
    unfold transpose, rotation_matrix, J', delta. cbn [p_ q_ cos_ sin_].
    repeat match goal with
      | |- context [Nat.eqb ?a ?b] => destruct (Nat.eqb_spec a b); try congruence; try ring
      end. }
  eapply meq_trans; [|apply (rotation_left n J' V')].
  apply rmul_meq; intros i j _ _.
  - unfold transpose. rewrite T. reflexivity.
  - rewrite T. reflexivity.
Qed.

(* The rotation computed by SymmetricSchurDecomposition2By2. *)
Lemma schur_tangent : forall tau t,
  t = (if Rle_dec 0 tau then 1 / (tau + sqrt (1 + tau * tau))
       else 1 / (tau - sqrt (1 + tau * tau))) ->
  t * t + 2 * tau * t - 1 = 0 /\ Rabs t <= 1.
Proof.
  intros tau t E.
  assert (P : 0 < 1 + tau * tau) by nra.
  pose proof (sqrt_lt_R0 _ P) as S0. pose proof (sqrt_sqrt _ (Rlt_le _ _ P)) as S1.
  set (r := sqrt (1 + tau * tau)) in *.
  assert (S2 : 1 <= r) by nra.
  destruct (Rle_dec 0 tau) as [H|H].
  - assert (D : 0 < tau + r) by lra.
    assert (M : t * (tau + r) = 1) by (rewrite E; field; lra).
    assert (X : t = r - tau) by (apply (Rmult_eq_reg_r (tau + r)); nra).
    split; [rewrite X; nra|]. apply Rabs_le. split; [|]; nra.
  - assert (D : tau - r < 0) by lra.
    assert (M : t * (tau - r) = 1) by (rewrite E; field; lra).
    assert (X : t = - r - tau) by (apply (Rmult_eq_reg_r (tau - r)); nra).
    split; [rewrite X; nra|]. apply Rabs_le. split; [|]; nra.
Qed.

Lemma schur2_spec : forall A p q J,
  J = SymmetricSchurDecomposition2By2 A p q ->
  p_ J = p /\ q_ J = q /\ cos_ J * cos_ J + sin_ J * sin_ J = 1 /\
  0 < cos_ J /\ Rabs (sin_ J) <= cos_ J /\
  cos_ J * sin_ J * (A p p - A q q)
  + (cos_ J * cos_ J - sin_ J * sin_ J) * A p q = 0.
Proof.
  intros A p q J ->. unfold SymmetricSchurDecomposition2By2.
  destruct (Req_EM_T (A p q) 0) as [Z|NZ]; cbn [p_ q_ cos_ sin_].
  - rewrite Z. rewrite Rabs_R0. repeat split; lra.
  - set (tau := (A q q - A p p) / (2 * A p q)).
    set (t := if Rle_dec 0 tau then _ else _).
    destruct (schur_tangent tau t eq_refl) as [T1 T2].
    assert (P : 0 < 1 + t * t) by nra.
    pose proof (sqrt_lt_R0 _ P) as S0. pose proof (sqrt_sqrt _ (Rlt_le _ _ P)) as S1.
    set (r := sqrt (1 + t * t)) in *.
    assert (C0 : 0 < 1 / r) by (apply Rdiv_lt_0_compat; lra).
    set (c := 1 / r) in *.
    assert (C1 : c * c * (1 + t * t) = 1) by (rewrite <- S1; unfold c; field; lra).
    repeat split.
    + nra.
    + exact C0.
    + rewrite Rabs_mult, (Rabs_pos_eq c) by lra. pose proof (Rabs_pos t). nra.
    + assert (E : A q q - A p p = 2 * A p q * tau) by (unfold tau; field; assumption).
      replace (A p p - A q q) with (- (2 * A p q * tau)) by lra.
      replace (c * (t * c) * - (2 * A p q * tau) + (c * c - t * c * (t * c)) * A p q)
        with (- (c * c) * A p q * (t * t + 2 * tau * t - 1)) by ring.
      rewrite T1. ring.
Qed.

Lemma schur2_valid : forall n A p q,
  (p < n)%nat -> (q < n)%nat -> p <> q ->
  valid n (SymmetricSchurDecomposition2By2 A p q).
Proof.
  intros n A p q Hp Hq N.
  destruct (schur2_spec A p q _ eq_refl) as (E1 & E2 & E & _).
  unfold valid. rewrite E1, E2. repeat split; assumption.
Qed.

Lemma rotate_mul : forall n D p q i j,
  (p < n)%nat -> (q < n)%nat -> p <> q -> (i < n)%nat -> (j < n)%nat ->
  let J := rotation_matrix (SymmetricSchurDecomposition2By2 D p q) in
  rotate D p q i j = rmul n (transpose J) (rmul n D J) i j.
Proof.
  intros n D p q i j Hp Hq N Hi Hj J. unfold rotate.
  pose proof (schur2_valid n D p q Hp Hq N) as V.
  rewrite (PremultiplyByTranspose_mul n) by assumption.
  apply rsum_ext. intros k Hk. rewrite (PostMultiplyRotation_mul n) by assumption.
  reflexivity.
Qed.

Lemma rotate_symmetric : forall n D p q,
  (p < n)%nat -> (q < n)%nat -> p <> q -> symmetric n D -> symmetric n (rotate D p q).
Proof.
  intros n D p q Hp Hq N S i j Hi Hj. rewrite !(rotate_mul n) by assumption.
  set (J := rotation_matrix _). unfold rmul, transpose.
  rewrite (rsum_ext n _ (fun k => rsum n (fun l => J k i * D k l * J l j)))
    by (intros; rewrite <- rsum_scale; apply rsum_ext; intros; ring).
  rewrite (rsum_ext n (fun k => J k j * _)
             (fun k => rsum n (fun l => J k j * D k l * J l i)))
    by (intros; rewrite <- rsum_scale; apply rsum_ext; intros; ring).
  rewrite (rsum_exchange n n). apply rsum_ext. intros k Hk. apply rsum_ext. intros l Hl.
  rewrite (S l k) by assumption. ring.
Qed.

Lemma rotate_zero : forall n D p q,
  (p < n)%nat -> (q < n)%nat -> p <> q -> symmetric n D ->
  rotate D p q p q = 0 /\
  rotate D p q p p * rotate D p q p p + rotate D p q q q * rotate D p q q q
  = D p p * D p p + D q q * D q q + 2 * (D p q * D p q).
Proof.
  intros n D p q Hp Hq N S.
  destruct (schur2_spec D p q _ eq_refl) as (E1 & E2 & E3 & _ & _ & E4).
  unfold rotate.
  set (J := SymmetricSchurDecomposition2By2 D p q) in *.
  unfold PremultiplyByTranspose, PostMultiplyRotation. rewrite E1, E2, !Nat.eqb_refl.
  destruct (Nat.eqb_spec q p); [congruence|].
  rewrite (S q p) by assumption.
  set (c := cos_ J) in *. set (s := sin_ J) in *.
  set (a := D p p) in *. set (b := D q q) in *. set (d := D p q) in *.
  assert (Z : c * (s * a + c * d) - s * (s * d + c * b) = 0).
  { rewrite <- E4. ring. }
  split; [exact Z|].
  assert (F : (c * (c * a - s * d) - s * (c * d - s * b)) * (c * (c * a - s * d) - s * (c * d - s * b))
    + (s * (s * a + c * d) + c * (s * d + c * b)) * (s * (s * a + c * d) + c * (s * d + c * b))
    + 2 * ((c * (s * a + c * d) - s * (s * d + c * b)) * (c * (s * a + c * d) - s * (s * d + c * b)))
    = (c * c + s * s) * (c * c + s * s) * (a * a + b * b + 2 * (d * d))) by ring.
  rewrite Z, E3 in F. lra.
Qed.

Definition frob (n : nat) (A : rmatrix) : R :=
  rsum n (fun i => rsum n (fun j => A i j * A i j)).

Lemma post_frob : forall n A J, valid n J -> frob n (PostMultiplyRotation A J) = frob n A.
Proof.
  intros n A [c s p q] (Hp & Hq & N & E). cbn [p_ q_ cos_ sin_] in *.
  unfold frob. apply rsum_ext. intros i _.
  apply (rsum_pair_eq n p q); try assumption; unfold PostMultiplyRotation; cbn [p_ q_ cos_ sin_].
  - rewrite !Nat.eqb_refl. destruct (Nat.eqb_spec q p); [congruence|].
    replace ((c * A i p - s * A i q) * (c * A i p - s * A i q)
             + (s * A i p + c * A i q) * (s * A i p + c * A i q))
      with ((c * c + s * s) * (A i p * A i p + A i q * A i q)) by ring.
    rewrite E. ring.
  - intros k _ N1 N2. destruct (Nat.eqb_spec k p); [congruence|].
    destruct (Nat.eqb_spec k q); [congruence|]. reflexivity.
Qed.

Lemma pre_frob : forall n A J, valid n J -> frob n (PremultiplyByTranspose J A) = frob n A.
Proof.
  intros n A J V.
  transitivity (frob n (PostMultiplyRotation (transpose A) J)).
  - unfold frob. rewrite rsum_exchange. reflexivity.
  - rewrite post_frob by assumption. unfold frob, transpose. apply rsum_exchange.
Qed.

Lemma rotate_frob : forall n D p q,
  (p < n)%nat -> (q < n)%nat -> p <> q -> frob n (rotate D p q) = frob n D.
Proof.
  intros n D p q Hp Hq N. unfold rotate.
  pose proof (schur2_valid n D p q Hp Hq N) as V.
  rewrite pre_frob, post_frob by assumption. reflexivity.
Qed.

Lemma off_frob : forall n A, off n A = frob n A - rsum n (fun i => A i i * A i i).
Proof.
  intros n A. unfold off, frob. rewrite <- rsum_minus. apply rsum_ext. intros i Hi.
  replace (A i i * A i i) with (rsum n (fun j => if (j =? i)%nat then A i j * A i j else 0)).
  - rewrite <- rsum_minus. apply rsum_ext. intros j _. rewrite (Nat.eqb_sym j i).
    destruct (i =? j)%nat; ring.
  - rewrite (rsum_single n i) by
      (try assumption; intros j _ Nj; apply Nat.eqb_neq in Nj; rewrite Nj; reflexivity).
    rewrite Nat.eqb_refl. reflexivity.
Qed.

Lemma rotate_other : forall D p q i, i <> p -> i <> q -> rotate D p q i i = D i i.
Proof.
  intros D p q i N1 N2. unfold rotate.
  destruct (schur2_spec D p q _ eq_refl) as (E1 & E2 & _).
  unfold PremultiplyByTranspose, PostMultiplyRotation. rewrite E1, E2.
  destruct (Nat.eqb_spec i p); [congruence|]. destruct (Nat.eqb_spec i q); [congruence|].
  reflexivity.
Qed.

(* Each iteration decreases the sum of the squares of the elements that are not on
   the diagonal. *)
Lemma rotate_off : forall n D p q,
  (p < n)%nat -> (q < n)%nat -> p <> q -> symmetric n D ->
  off n (rotate D p q) = off n D - 2 * (D p q * D p q).
Proof.
  intros n D p q Hp Hq N S. rewrite !off_frob, rotate_frob by assumption.
  destruct (rotate_zero n D p q Hp Hq N S) as [_ E].
  rewrite (rsum_pair n p q (fun i => rotate D p q i i * rotate D p q i i)),
          (rsum_pair n p q (fun i => D i i * D i i)) by assumption.
  rewrite E.
  rewrite (rsum_ext n (fun k => if ((k =? p) || (k =? q))%nat then 0
                                else rotate D p q k k * rotate D p q k k)
             (fun k => if ((k =? p) || (k =? q))%nat then 0 else D k k * D k k)).
  - lra.
  - intros k _. destruct (Nat.eqb_spec k p); [reflexivity|].
    destruct (Nat.eqb_spec k q); [reflexivity|]. cbn [orb].
    rewrite rotate_other by assumption. reflexivity.
Qed.

(* --------------------------------------------------- the largest element *)

Lemma in_pairs : forall n p q, In (p, q) (pairs n) <-> (p < q < n)%nat.
Proof.
  intros n p q. unfold pairs. rewrite in_flat_map. split.
  - intros (x & Hx & Hq). apply in_seq in Hx. apply in_map_iff in Hq.
    destruct Hq as (y & E & Hy). injection E as -> ->. apply in_seq in Hy. lia.
  - intros H. exists p. split; [apply in_seq; lia|]. apply in_map. apply in_seq. lia.
Qed.

Definition lod_inv (D : rmatrix) (done : list (nat * nat)) (s : R * option (nat * nat)) :=
  (forall p q, In (p, q) done -> Rabs (D p q) <= fst s) /\
  match snd s with
  | None => done = [] /\ fst s = 0
  | Some (p, q) => In (p, q) done /\ fst s = Rabs (D p q)
  end.

Lemma largest_inv : forall D l done s,
  lod_inv D done s ->
  lod_inv D (done ++ l) (fold_left (fun '(max, pq) '(p, q) =>
    if Rle_dec max (Rabs (D p q)) then (Rabs (D p q), Some (p, q)) else (max, pq)) l s).
Proof.
  intros D l; induction l as [|[p q] l IH]; intros done s I; cbn [fold_left].
  - rewrite app_nil_r. exact I.
  - replace (done ++ (p, q) :: l) with ((done ++ [(p, q)]) ++ l)
      by (rewrite <- app_assoc; reflexivity).
    apply IH. destruct s as [m pq]. destruct I as [I1 I2]. cbn [fst snd] in *.
    destruct (Rle_dec m (Rabs (D p q))) as [L|L]; split; cbn [fst snd].
    + intros a b Hin. apply in_app_iff in Hin. destruct Hin as [Hin|[E|[]]].
      * eapply Rle_trans; [apply I1; exact Hin|exact L].
      * injection E as <- <-. lra.
    + split; [apply in_app_iff; right; left; reflexivity|reflexivity].
    + intros a b Hin. apply in_app_iff in Hin. destruct Hin as [Hin|[E|[]]].
      * apply I1; exact Hin.
      * injection E as <- <-. lra.
    + destruct pq as [[a b]|].
      * destruct I2 as [I2 I3]. split; [apply in_app_iff; left; exact I2|exact I3].
      * destruct I2 as [_ I3]. exfalso. pose proof (Rabs_pos (D p q)). lra.
Qed.

Lemma largest_spec : forall n D, lod_inv D (pairs n) (largest_off_diagonal n D).
Proof.
  intros n D. apply (largest_inv D (pairs n) [] (0, None)).
  split; cbn [fst snd]; [intros p q []|split; reflexivity].
Qed.

(* ------------------------------------------------------------------ loop *)

Lemma off_bound : forall n D m,
  symmetric n D -> (forall p q, (p < q < n)%nat -> Rabs (D p q) <= m) ->
  (0 < n)%nat ->
  off n D <= INR n * (INR n - 1) * (m * m) /\
  forall i, (i < n)%nat ->
    rsum n (fun j => if (j =? i)%nat then 0 else D j i * D j i) <= (INR n - 1) * (m * m).
Proof.
  intros n D m S H Hn.
  assert (B : forall i j, (i < n)%nat -> (j < n)%nat -> i <> j -> D i j * D i j <= m * m).
  { intros i j Hi Hj Nij.
    assert (G : Rabs (D i j) <= m).
    { destruct (le_lt_dec i j) as [L|L].
      - apply H. lia.
      - rewrite S by assumption. apply H. lia. }
    pose proof (Rabs_pos (D i j)).
    replace (D i j * D i j) with (Rabs (D i j) * Rabs (D i j)).
    - nra.
    - rewrite <- Rabs_mult. apply Rabs_pos_eq. nra. }
  assert (K : forall c k i, (i < k)%nat ->
    rsum k (fun j => if (j =? i)%nat then 0 else c) = (INR k - 1) * c).
  { intros c k i Hi.
    rewrite (rsum_ext k _ (fun j => c - (if (j =? i)%nat then c else 0)))
      by (intros j _; destruct (j =? i)%nat; ring).
    rewrite rsum_minus.
    rewrite (rsum_single k i (fun j => if (j =? i)%nat then c else 0)) by
      (try assumption; intros j _ Nj; apply Nat.eqb_neq in Nj; rewrite Nj; reflexivity).
    rewrite Nat.eqb_refl.
    replace (rsum k (fun _ => c)) with (INR k * c); [ring|].
    clear. induction k as [|k IH]; cbn [rsum]; [cbn; ring|]. rewrite <- IH, S_INR. ring. }
  assert (C : forall i, (i < n)%nat ->
    rsum n (fun j => if (j =? i)%nat then 0 else D j i * D j i) <= (INR n - 1) * (m * m)).
  { intros i Hi. rewrite <- (K (m * m) n i Hi). apply rsum_le. intros j Hj.
    destruct (Nat.eqb_spec j i); [lra|]. apply B; assumption. }
  split; [|exact C].
  unfold off. rewrite rsum_exchange.
  assert (T : forall c k, rsum k (fun _ => c) = INR k * c).
  { intros c k. induction k as [|k IH]; cbn [rsum]; [cbn; ring|]. rewrite IH, S_INR. ring. }
  rewrite Rmult_assoc, <- (T ((INR n - 1) * (m * m)) n).
  apply rsum_le. intros i Hi. apply C. assumption.
Qed.

Record jacobi_inv (n : nat) (A : rmatrix) (s : rmatrix * rmatrix) : Prop := {
  ji_orthogonal : orthogonal n (snd s);
  ji_similar : meq n (fst s) (rmul n (transpose (snd s)) (rmul n A (snd s)));
  ji_symmetric : symmetric n (fst s)
}.

Lemma jacobi_initial : forall n A, symmetric n A -> jacobi_inv n A (A, identity).
Proof.
  intros n A S. constructor; cbn [fst snd].
  - exact (orthogonal_delta n).
  - apply meq_sym. eapply meq_trans.
    { apply rmul_meq; [|apply (rmul_delta_r n A)].
      instantiate (1 := delta). intros i j _ _. apply delta_sym. }
    apply rmul_delta_l.
  - exact S.
Qed.

Lemma jacobi_step : forall n A D V p q,
  (p < n)%nat -> (q < n)%nat -> p <> q -> jacobi_inv n A (D, V) ->
  jacobi_inv n A (rotate D p q,
                  PostMultiplyRotation V (SymmetricSchurDecomposition2By2 D p q)).
Proof.
  intros n A D V p q Hp Hq N [I1 I2 I3]. cbn [fst snd] in *.
  pose proof (schur2_valid n D p q Hp Hq N) as VJ.
  pose proof (rotation_orthogonal n _ VJ) as OJ.
  set (J := SymmetricSchurDecomposition2By2 D p q) in *.
  assert (EV : meq n (PostMultiplyRotation V J) (rmul n V (rotation_matrix J))).
  { intros i j Hi Hj. apply PostMultiplyRotation_mul; assumption. }
  constructor; cbn [fst snd].
  - eapply orthogonal_meq; [apply meq_sym; exact EV|]. apply orthogonal_mul; assumption.
  - eapply meq_trans.
    { intros i j Hi Hj. apply (rotate_mul n D p q i j); assumption. }
    fold J. set (M := rotation_matrix J) in *.
    eapply meq_trans.
    { apply rmul_meq; [apply meq_refl|].
      eapply meq_trans; [apply rmul_meq; [exact I2|apply meq_refl]|].
      eapply meq_trans; [apply meq_rmul_assoc|].
      apply rmul_meq; [apply meq_refl|]. apply meq_rmul_assoc. }
    eapply meq_trans; [apply meq_sym; apply meq_rmul_assoc|].
    apply rmul_meq.
    + intros i j Hi Hj. rewrite <- transpose_rmul. unfold transpose.
      symmetry. apply EV; assumption.
    + apply rmul_meq; [apply meq_refl|]. apply meq_sym. exact EV.
  - apply rotate_symmetric; assumption.
Qed.

Definition small (n : nat) (D : rmatrix) (threshold : R) :=
  forall p q, (p < n)%nat -> (q < n)%nat -> p <> q -> Rabs (D p q) <= threshold.

Lemma small_of_upper : forall n D t,
  symmetric n D -> (forall p q, (p < q < n)%nat -> Rabs (D p q) <= t) -> small n D t.
Proof.
  intros n D t S H p q Hp Hq N. destruct (le_lt_dec p q).
  - apply H. lia.
  - rewrite S by assumption. apply H. lia.
Qed.

Lemma jacobi_loop_spec : forall k n A t D V s,
  jacobi_inv n A (D, V) -> jacobi_loop n k t (D, V) = Some s ->
  jacobi_inv n A s /\
  (small n (fst s) t \/ off n (fst s) <= rate n ^ k * off n D).
Proof.
  induction k as [|k IH]; intros n A t D V s I E; cbn [jacobi_loop] in E.
  - injection E as <-. split; [exact I|]. right. cbn [fst pow]. lra.
  - destruct (largest_spec n D) as [L1 L2].
    destruct (largest_off_diagonal n D) as [m pq]. cbn [fst snd] in *.
    destruct (Rle_dec m t) as [Le|Gt].
    + injection E as <-. split; [exact I|]. left. cbn [fst].
      apply small_of_upper; [exact (ji_symmetric _ _ _ I)|].
      intros p q H. eapply Rle_trans; [|exact Le]. apply L1. apply in_pairs. exact H.
    + destruct pq as [[p q]|]; [|discriminate].
      destruct L2 as [Hpq Em]. apply in_pairs in Hpq.
      fold (rotate D p q) in E.
      destruct (IH n A t _ _ _ (jacobi_step n A D V p q ltac:(lia) ltac:(lia) ltac:(lia) I) E)
        as [I' [Sm|Of]].
      * split; [exact I'|]. left. exact Sm.
      * split; [exact I'|]. right. eapply Rle_trans; [exact Of|].
        pose proof (ji_symmetric _ _ _ I) as S. cbn [fst] in S.
        rewrite (rotate_off n D p q) by (try assumption; lia).
        assert (N2 : 2 <= INR n) by (apply (le_INR 2); lia).
        assert (B : off n D <= INR n * (INR n - 1) * (m * m)).
        { apply off_bound; [assumption| |lia].
          intros a b H. apply L1. apply in_pairs. exact H. }
        assert (Pn : 0 < INR n * (INR n - 1)) by nra.
        assert (D2 : D p q * D p q = m * m).
        { rewrite Em, <- Rabs_mult. symmetry. apply Rabs_pos_eq. nra. }
        rewrite D2. cbn [pow].
        assert (R0 : 0 <= rate n).
        { unfold rate.
          assert (2 / (INR n * (INR n - 1)) <= 1).
          { apply (Rmult_le_reg_r (INR n * (INR n - 1))); [assumption|].
            unfold Rdiv. rewrite Rmult_assoc, Rinv_l by lra. nra. }
          lra. }
        pose proof (pow_le (rate n) k R0) as Pk.
        replace (rate n * rate n ^ k * off n D) with (rate n ^ k * (rate n * off n D)) by ring.
        apply Rmult_le_compat_l; [assumption|].
        assert (Y : off n D / (INR n * (INR n - 1)) <= m * m).
        { apply (Rmult_le_reg_r (INR n * (INR n - 1))); [assumption|].
          unfold Rdiv. rewrite Rmult_assoc, Rinv_l by lra. lra. }
        unfold rate. unfold Rdiv in *. lra.
Qed.

(* The loop never uses the index -1, unless the matrix is trivial and the
   threshold negative. *)
Lemma jacobi_loop_total : forall k n t s,
  (2 <= n)%nat \/ 0 <= t -> exists s', jacobi_loop n k t s = Some s'.
Proof.
  induction k as [|k IH]; intros n t [D V] H; cbn [jacobi_loop]; [eexists; reflexivity|].
  destruct (largest_spec n D) as [L1 L2].
  destruct (largest_off_diagonal n D) as [m pq]. cbn [fst snd] in *.
  destruct (Rle_dec m t) as [Le|Gt]; [eexists; reflexivity|].
  destruct pq as [[p q]|]; [apply IH; exact H|].
  destruct L2 as [L2 ->]. exfalso. destruct H as [H|H]; [|lra].
  assert (X : In (0, 1)%nat (pairs n)) by (apply in_pairs; lia).
  rewrite L2 in X. destruct X.
Qed.

(* An orthogonal matrix preserves the sum of the squares. *)
Lemma orthogonal_norm : forall n Q x,
  orthogonal n Q ->
  rsum n (fun k => rapply n Q x k * rapply n Q x k) = rsum n (fun k => x k * x k).
Proof.
  intros n Q x O. unfold rapply.
  rewrite (rsum_ext n _ (fun k => rsum n (fun i => rsum n (fun j =>
    Q k i * Q k j * (x i * x j))))).
  - rewrite rsum_exchange. apply rsum_ext. intros i Hi.
    rewrite (rsum_exchange n n).
    rewrite (rsum_ext n _ (fun j => delta i j * (x i * x j))).
    + apply (rsum_delta_l n i (fun j => x i * x j)). assumption.
    + intros j Hj. rewrite rsum_scale_r. destruct (O i j Hi Hj) as [-> _]. reflexivity.
  - intros k _. rewrite <- rsum_scale_r. apply rsum_ext. intros i _.
    rewrite <- rsum_scale. apply rsum_ext. intros j _. ring.
Qed.

Lemma residual_spec : forall n A D V i,
  jacobi_inv n A (D, V) -> (i < n)%nat ->
  residual n A V (fun i => D i i) i
  = rsum n (fun j => if (j =? i)%nat then 0 else D j i * D j i).
Proof.
  intros n A D V i [O E S] Hi. cbn [fst snd] in *.
  (* A V = V D *)
  assert (AV : meq n (rmul n A V) (rmul n V D)).
  { apply meq_sym. eapply meq_trans; [apply rmul_meq; [apply meq_refl|exact E]|].
    eapply meq_trans; [apply meq_sym; apply meq_rmul_assoc|].
    eapply meq_trans; [apply rmul_meq; [apply (orthogonal_right n V O)|apply meq_refl]|].
    apply rmul_delta_l. }
  set (x := fun j => if (j =? i)%nat then 0 else D j i).
  transitivity (rsum n (fun k => rapply n V x k * rapply n V x k)).
  - unfold residual. apply rsum_ext. intros k Hk.
    assert (G : rapply n A (fun l => V l i) k - D i i * V k i = rapply n V x k).
    { pose proof (AV k i Hk Hi) as X. unfold rapply. unfold rmul in X. rewrite X.
      assert (Y : D i i * V k i = rsum n (fun l => if (l =? i)%nat then V k l * D l i else 0)).
      { rewrite (rsum_single n i) by
          (try assumption; intros j _ Nj; apply Nat.eqb_neq in Nj; rewrite Nj; reflexivity).
        rewrite Nat.eqb_refl. ring. }
      rewrite Y, <- rsum_minus. apply rsum_ext. intros l _. unfold x.
      destruct (l =? i)%nat; ring. }
    rewrite G. reflexivity.
  - rewrite orthogonal_norm by assumption. apply rsum_ext. intros j _. unfold x.
    destruct (j =? i)%nat; ring.
Qed.

Lemma column_le_off : forall n D i, (i < n)%nat ->
  rsum n (fun j => if (j =? i)%nat then 0 else D j i * D j i) <= off n D.
Proof.
  intros n D i Hi. unfold off. rewrite rsum_exchange.
  assert (G : forall f, (forall j, (j < n)%nat -> 0 <= f j) -> f i <= rsum n f).
  { intros f P. apply Rle_trans with (rsum n (fun j => if (j =? i)%nat then f j else 0)).
    - rewrite (rsum_single n i) by
        (try assumption; intros j _ Nj; apply Nat.eqb_neq in Nj; rewrite Nj; reflexivity).
      rewrite Nat.eqb_refl. lra.
    - apply rsum_le. intros j Hj. destruct (j =? i)%nat; [lra|apply P; assumption]. }
  apply (G (fun j => rsum n (fun k => if (k =? j)%nat then 0 else D k j * D k j))).
  intros j _. apply rsum_nonneg. intros k _. destruct (k =? j)%nat; nra.
Qed.

Lemma off_nonneg : forall n D, 0 <= off n D.
Proof.
  intros. apply rsum_nonneg. intros i _. apply rsum_nonneg. intros j _.
  destruct (i =? j)%nat; nra.
Qed.

Lemma jacobi_correct : forall n A k eps V lambda,
  (0 < n)%nat -> symmetric n A -> ClassicalJacobi n A k eps = Some (V, lambda) ->
  orthogonal n V /\
  ((forall i, (i < n)%nat ->
      residual n A V lambda i
      <= (INR n - 1) * ((eps * FrobeniusNorm n A) * (eps * FrobeniusNorm n A))) \/
   (forall i, (i < n)%nat -> residual n A V lambda i <= rate n ^ k * off n A)).
Proof.
  intros n A k eps V lambda Hn S E. unfold ClassicalJacobi in E.
  destruct (jacobi_loop n k _ _) as [[D V']|] eqn:EL; [|discriminate].
  injection E as -> <-.
  destruct (jacobi_loop_spec k n A _ A identity (D, V) (jacobi_initial n A S) EL)
    as [I [Sm|Of]]; split; try exact (ji_orthogonal _ _ _ I).
  - left. intros i Hi. rewrite (residual_spec n A D V i I Hi).
    apply off_bound; [exact (ji_symmetric _ _ _ I)| |assumption|assumption].
    intros p q H. apply Sm; lia.
  - right. intros i Hi. rewrite (residual_spec n A D V i I Hi).
    eapply Rle_trans; [apply column_le_off; assumption|exact Of].
Qed.

(* The loop ends by the test of the threshold after enough iterations. *)
Lemma rate_bounds : forall n, (2 <= n)%nat -> 0 <= rate n < 1.
Proof.
  intros n H. assert (N2 : 2 <= INR n) by (apply (le_INR 2); lia).
  assert (Pn : 0 < INR n * (INR n - 1)) by nra.
  unfold rate. split.
  - assert (2 / (INR n * (INR n - 1)) <= 1).
    { apply (Rmult_le_reg_r (INR n * (INR n - 1))); [assumption|].
      unfold Rdiv. rewrite Rmult_assoc, Rinv_l by lra. nra. }
    lra.
  - assert (0 < 2 / (INR n * (INR n - 1))) by (apply Rdiv_lt_0_compat; lra). lra.
Qed.

Lemma small_of_off : forall n D t,
  0 <= t -> off n D <= t * t -> small n D t.
Proof.
  intros n D t Ht H p q Hp Hq N.
  assert (B : D p q * D p q <= t * t).
  { eapply Rle_trans; [|exact H]. eapply Rle_trans; [|apply (column_le_off n D q Hq)].
    apply Rle_trans with (rsum n (fun j => if (j =? p)%nat then D j q * D j q else 0)).
    - rewrite (rsum_single n p) by
        (try assumption; intros j _ Nj; apply Nat.eqb_neq in Nj; rewrite Nj; reflexivity).
      rewrite Nat.eqb_refl. lra.
    - apply rsum_le. intros j _.
      destruct (Nat.eqb_spec j p); destruct (Nat.eqb_spec j q);
        try congruence; try lra; nra. }
  apply Rabs_le. split; nra.
Qed.

Lemma frobenius_zero : forall n A,
  FrobeniusNorm n A = 0 -> forall i j, (i < n)%nat -> (j < n)%nat -> A i j = 0.
Proof.
  intros n A E i j Hi Hj. unfold FrobeniusNorm in E.
  assert (P : forall i, 0 <= rsum n (fun j => A i j * A i j))
    by (intros; apply rsum_nonneg; intros; nra).
  apply sqrt_eq_0 in E; [|apply rsum_nonneg; intros; apply P].
  pose proof (rsum_zero_nonneg n _ (fun i _ => P i) E i Hi) as E1. cbv beta in E1.
  assert (Q : forall j, (j < n)%nat -> 0 <= A i j * A i j) by (intros; nra).
  pose proof (rsum_zero_nonneg n _ Q E1 j Hj) as E2. cbv beta in E2. nra.
Qed.

Lemma jacobi_converges : forall n A eps,
  (0 < n)%nat -> symmetric n A -> 0 < eps ->
  exists K, forall k, (K <= k)%nat ->
  exists V lambda, ClassicalJacobi n A k eps = Some (V, lambda) /\
    orthogonal n V /\
    forall i, (i < n)%nat ->
      residual n A V lambda i
      <= (INR n - 1) * ((eps * FrobeniusNorm n A) * (eps * FrobeniusNorm n A)).
Proof.
  intros n A eps Hn S He.
  assert (F0 : 0 <= FrobeniusNorm n A) by apply sqrt_pos.
  set (t := eps * FrobeniusNorm n A).
  assert (T0 : 0 <= t) by (unfold t; nra).
  assert (G : exists K, forall k D, (K <= k)%nat -> symmetric n D ->
            off n D <= rate n ^ k * off n A -> small n D t).
  { destruct (le_lt_dec n 1) as [L1|L2].
    - exists 0%nat. intros k D _ _ _ p q Hp Hq N. lia.
    - destruct (rate_bounds n L2) as [R0 R1].
      destruct (Req_EM_T (FrobeniusNorm n A) 0) as [Z|NZ].
      + exists 0%nat. intros k D _ SD H. apply small_of_off; [assumption|].
        assert (O : off n A = 0).
        { unfold off. apply rsum_0. intros i Hi. apply rsum_0. intros j Hj.
          rewrite (frobenius_zero n A Z i j Hi Hj). destruct (i =? j)%nat; ring. }
        rewrite O in H. nra.
      + assert (TP : 0 < t) by (unfold t; nra).
        pose proof (off_nonneg n A) as OA.
        destruct (pow_lt_1_zero (rate n)) with (y := t * t / (off n A + 1)) as [K HK].
        * rewrite Rabs_pos_eq; lra.
        * apply Rdiv_lt_0_compat; nra.
        * exists K. intros k D Hk SD H. apply small_of_off; [assumption|].
          eapply Rle_trans; [exact H|].
          pose proof (HK k Hk) as X. pose proof (pow_le (rate n) k R0) as Pk.
          rewrite Rabs_pos_eq in X by assumption.
          assert (X' : rate n ^ k * (off n A + 1) < t * t).
          { apply (Rmult_lt_compat_r (off n A + 1)) in X; [|lra].
            unfold Rdiv in X. rewrite Rmult_assoc, Rinv_l in X by lra. lra. }
          nra. }
  destruct G as [K G]. exists K. intros k Hk.
  destruct (jacobi_loop_total k n t (A, identity) (or_intror T0)) as [[D V] EL].
  exists V, (fun i => D i i).
  assert (EJ : ClassicalJacobi n A k eps = Some (V, fun i => D i i)).
  { unfold ClassicalJacobi. fold t. rewrite EL. reflexivity. }
  split; [exact EJ|].
  destruct (jacobi_loop_spec k n A _ A identity (D, V) (jacobi_initial n A S) EL)
    as [I Sm]. split; [exact (ji_orthogonal _ _ _ I)|].
  assert (Sm' : small n D t).
  { destruct Sm as [Sm|Of]; [exact Sm|].
    apply (G k D Hk); [exact (ji_symmetric _ _ _ I)|exact Of]. }
  intros i Hi. fold t. rewrite (residual_spec n A D V i I Hi).
  apply off_bound; [exact (ji_symmetric _ _ _ I)| |assumption|assumption].
  intros p q H. apply Sm'; lia.
Qed.
