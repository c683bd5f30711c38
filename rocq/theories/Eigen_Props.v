(* C78: orthogonal transformations and eigenvalues. *)
From Coq Require Import Reals List Bool Arith Lia Lra Psatz.
From Verif Require Import Eigen_Model Eigen_Spec Eigen_Proofs Eigen_Proofs2 Eigen_Proofs3.
Import ListNotations.
Local Open Scope R_scope.

(* Matrices of integers, for the examples. *)
Definition of_rows (l : list (list Z)) : rmatrix :=
  fun i j => IZR (nth j (nth i l []) 0%Z).

Lemma rapply_reflection : forall m P x i, (i < m)%nat ->
  rapply m (reflection_matrix P) x i = reflect_vector m P x i.
Proof.
  intros m P x i Hi. unfold rapply, reflection_matrix, reflect_vector.
  rewrite (rsum_ext m _ (fun j => delta i j * x j
             - refl_beta P * refl_v P i * (x j * refl_v P j))) by (intros; ring).
  rewrite rsum_minus, rsum_scale, (rsum_delta_l m i x) by assumption. reflexivity.
Qed.

(* The reflection is orthogonal and transforms the vector into a multiple of the
   first vector of the basis, except for the negative multiples of that vector. *)
Theorem C78_householder : forall m x P,
  (0 < m)%nat -> ComputeHouseholderReflection m x = Some P -> ~ negative_axis m x ->
  orthogonal m (reflection_matrix P) /\
  forall i, (i < m)%nat ->
    rapply m (reflection_matrix P) x i = if (i =? 0)%nat then norm m x else 0.
Proof.
  intros m x P Hm E N. destruct (householder_correct m x P Hm E N) as [H1 H2].
  split; [apply reflection_orthogonal; assumption|].
  intros i Hi. rewrite rapply_reflection by assumption. apply H2. assumption.
Qed.

Theorem C78_householder_total : forall m x, (0 < m)%nat ->
  ((exists P, ComputeHouseholderReflection m x = Some P) <->
   exists i, (i < m)%nat /\ x i <> 0).
Proof.
  intros m x Hm. split.
  - intros (P & E). unfold ComputeHouseholderReflection in E.
    destruct (Req_EM_T _ 0) as [Z|NZ]; [discriminate|].
    assert (D : (forall i, (i < m)%nat -> x i = 0) \/ exists i, (i < m)%nat /\ x i <> 0).
    { clear. induction m as [|m IH]; [left; intros; lia|].
      destruct IH as [IH|(i & Hi & Hx)]; [|right; exists i; split; [lia|assumption]].
      destruct (Req_EM_T (x m) 0) as [Z|NZ]; [|right; exists m; split; [lia|assumption]].
      left. intros i Hi. destruct (Nat.eq_dec i m) as [->|]; [assumption|apply IH; lia]. }
    destruct D as [D|D]; [|exact D].
    exfalso. apply NZ. rewrite rsum_0; [apply sqrt_0|].
    intros i Hi. rewrite D by assumption. ring.
  - intros H. apply householder_some; assumption.
Qed.

Example C78_householder_example :
  exists P,
  ComputeHouseholderReflection 2 (fun i => if (i =? 0)%nat then 3 else 4) = Some P /\
  refl_beta P = 2 / 5 /\ refl_v P 0%nat = 1 /\ refl_v P 1%nat = -2.
Proof.
  unfold ComputeHouseholderReflection. cbn [rsum Nat.eqb].
  replace (0 + 3 * 3 + 4 * 4) with (5 * 5) by ring. rewrite sqrt_square by lra.
  destruct (Req_EM_T 5 0); [lra|].
  destruct (Req_EM_T (0 + 0 + 4 / 5 * (4 / 5)) 0); [lra|].
  destruct (Rle_dec (3 / 5) 0); [lra|].
  eexists. split; [reflexivity|]. cbn [refl_beta refl_v Nat.eqb].
  repeat split; field; lra.
Qed.

(* For these vectors the factor is -2, where it should be 2: the matrix is not
   orthogonal and the vector is multiplied by 3. *)
Theorem C78_householder_refuted :
  ~ (forall m x P, (0 < m)%nat -> ComputeHouseholderReflection m x = Some P ->
       orthogonal m (reflection_matrix P)) /\
  (forall m x, (0 < m)%nat -> negative_axis m x ->
     exists P, ComputeHouseholderReflection m x = Some P /\ refl_beta P = -2 /\
       forall i, (i < m)%nat ->
         rapply m (reflection_matrix P) x i = if (i =? 0)%nat then 3 * x 0%nat else 0).
Proof.
  split.
  - intros C.
    destruct (householder_some 2 (fun i => if (i =? 0)%nat then -1 else 0)) as [P E].
    { lia. } { exists 0%nat. split; [lia|]. cbn. lra. }
    assert (N : negative_axis 2 (fun i => if (i =? 0)%nat then -1 else 0)).
    { split; [cbn; lra|]. intros i Hi. destruct (Nat.eqb_spec i 0); [lia|reflexivity]. }
    destruct (householder_degenerate 2 _ P ltac:(lia) E N) as (B & V0 & V1 & _).
    destruct (C 2%nat _ P ltac:(lia) E 0%nat 0%nat) as [O _]; try lia.
    unfold reflection_matrix in O. cbn [rsum] in O.
    rewrite B, V0, (V1 1%nat) in O by lia. unfold delta in O. cbn [Nat.eqb] in O. lra.
  - intros m x Hm N. destruct (householder_some m x Hm) as [P E].
    { exists 0%nat. split; [assumption|]. destruct N. lra. }
    destruct (householder_degenerate m x P Hm E N) as (B & _ & _ & H).
    exists P. split; [exact E|]. split; [exact B|].
    intros i Hi. rewrite rapply_reflection by assumption. apply H. assumption.
Qed.

(* [checked] only differs from the code for these vectors. *)
Theorem C78_checked : forall m x, (0 < m)%nat ->
  (negative_axis m x -> checked m x = None) /\
  (~ negative_axis m x -> checked m x = ComputeHouseholderReflection m x).
Proof.
  intros m x Hm. unfold checked.
  destruct (ComputeHouseholderReflection m x) as [P|] eqn:E; [|split; reflexivity].
  destruct (Req_EM_T (refl_beta P) (-2)) as [B|B]; split; intros N; try reflexivity.
  - exfalso. destruct (householder_correct m x P Hm E N) as [HP _].
    unfold proper in HP. rewrite B in HP. pose proof (norm_nonneg m (refl_v P)). lra.
  - exfalso. apply B. apply (householder_degenerate m x P Hm E N).
Qed.

(* The result of HessenbergDecomposition always has the right shape, and if the
   exceptional vectors are not met it is similar to the given matrix. *)
Theorem C78_hessenberg_shape : forall n A H,
  HessenbergDecomposition n A = Some H -> upper_hessenberg n H.
Proof. intros n A H E. eapply hessenberg_shape; [exact householder_kills|exact E]. Qed.

Theorem C78_hessenberg_partial : forall n A H,
  hessenberg_with checked n A = Some H ->
  HessenbergDecomposition n A = Some H /\ upper_hessenberg n H /\
  orthogonally_similar n A H /\ (forall l, eigenvalue n A l <-> eigenvalue n H l).
Proof.
  intros n A H E. split; [apply hessenberg_checked; assumption|].
  split; [eapply hessenberg_shape; [exact checked_kills|exact E]|].
  assert (S : orthogonally_similar n A H).
  { eapply hessenberg_similar; [exact checked_kills|exact checked_proper|exact E]. }
  split; [exact S|]. intros l. apply similar_eigenvalue. exact S.
Qed.

Example C78_hessenberg_example :
  exists H, hessenberg_with checked 3 (of_rows [[1; 2; 3]; [3; 0; 1]; [4; 5; 6]]%Z) = Some H /\
    H 1%nat 0%nat = 5 /\ H 2%nat 0%nat = 0.
Proof.
  set (A := of_rows _).
  assert (N : ~ negative_axis 2 (fun i => A (0 + 1 + i)%nat 0%nat)).
  { intros [N _]. unfold A, of_rows in N. cbn in N. lra. }
  destruct (householder_some 2 (fun i => A (0 + 1 + i)%nat 0%nat)) as [P E].
  { lia. } { exists 0%nat. split; [lia|]. unfold A, of_rows. cbn. lra. }
  destruct (householder_correct 2 _ P ltac:(lia) E N) as [HP HV].
  assert (C : checked 2%nat (fun i => A (0 + 1 + i)%nat 0%nat) = Some P).
  { unfold checked. rewrite E. destruct (Req_EM_T (refl_beta P) (-2)) as [B|]; [|reflexivity].
    exfalso. unfold proper in HP. rewrite B in HP.
    pose proof (norm_nonneg 2 (refl_v P)). lra. }
  eexists. split.
  - unfold hessenberg_with. cbn [option_loop Nat.sub]. unfold hessenberg_step at 1.
    change (3 - 1 - 0)%nat with 2%nat. rewrite C. reflexivity.
  - rewrite !PostMultiply_row by lia. split.
    + change 1%nat with (0 + 1 + 0)%nat at 3. rewrite Premultiply_column by lia.
      rewrite HV by lia. unfold norm, A, of_rows. cbn.
      replace (0 + 3 * 3 + 4 * 4) with (5 * 5) by ring. apply sqrt_square. lra.
    + change 2%nat with (0 + 1 + 1)%nat at 3. rewrite Premultiply_column by lia.
      rewrite HV by lia. reflexivity.
Qed.

(* A symmetric matrix whose eigenvalues are 1, -1 and 0, and which is already in
   Hessenberg form: the result has the eigenvalues 3, -3 and 0.  The matrix T of
   RealSchurDecomposition is the same. *)
Definition swap : rmatrix := of_rows [[0; -1; 0]; [-1; 0; 0]; [0; 0; 0]]%Z.

Lemma swap_hessenberg :
  exists H, HessenbergDecomposition 3 swap = Some H /\
    meq 3 H (of_rows [[0; -3; 0]; [-3; 0; 0]; [0; 0; 0]]%Z).
Proof.
  assert (N : negative_axis 2 (fun i => swap (0 + 1 + i)%nat 0%nat)).
  { split; [unfold swap, of_rows; cbn; lra|]. intros i Hi.
    replace i with 1%nat by lia. reflexivity. }
  destruct (householder_some 2 (fun i => swap (0 + 1 + i)%nat 0%nat)) as [P E].
  { lia. } { exists 0%nat. split; [lia|]. destruct N. lra. }
  destruct (householder_degenerate 2 _ P ltac:(lia) E N) as (B & V0 & V1 & _).
  eexists. split.
  - unfold HessenbergDecomposition, hessenberg_with. cbn [option_loop Nat.sub].
    unfold hessenberg_step at 1. change (3 - 1 - 0)%nat with 2%nat. rewrite E. reflexivity.
  - intros i j Hi Hj. unfold PostMultiply, Premultiply. cbn [rsum].
    assert (Ei : i = 0%nat \/ i = 1%nat \/ i = 2%nat) by lia.
    assert (Ej : j = 0%nat \/ j = 1%nat \/ j = 2%nat) by lia.
    destruct Ei as [->|[->| ->]]; destruct Ej as [->|[->| ->]]; cbn;
      rewrite ?B, ?V0, ?(V1 1%nat) by lia; unfold swap, of_rows; cbn; lra.
Qed.

Lemma swap_eigenvalue : eigenvalue 3 swap 1.
Proof.
  exists (fun i => match i with 0%nat => 1 | 1%nat => -1 | _ => 0 end). split.
  - exists 0%nat. split; [lia|lra].
  - intros i Hi. unfold rapply. cbn [rsum].
    assert (Ei : i = 0%nat \/ i = 1%nat \/ i = 2%nat) by lia.
    destruct Ei as [->|[->| ->]]; unfold swap, of_rows; cbn; lra.
Qed.

Lemma tripled_not_eigenvalue : forall H,
  meq 3 H (of_rows [[0; -3; 0]; [-3; 0; 0]; [0; 0; 0]]%Z) -> ~ eigenvalue 3 H 1.
Proof.
  intros H EH (x & (k & Hk & Nk) & E). apply Nk.
  pose proof (E 0%nat ltac:(lia)) as E0. pose proof (E 1%nat ltac:(lia)) as E1.
  pose proof (E 2%nat ltac:(lia)) as E2. unfold rapply in *. cbn [rsum] in *.
  rewrite !EH in E0, E1, E2 by lia. unfold of_rows in *. cbn in *.
  assert (Ek : k = 0%nat \/ k = 1%nat \/ k = 2%nat) by lia.
  destruct Ek as [->|[->| ->]]; lra.
Qed.

Theorem C78_hessenberg_refuted :
  exists A H, symmetric 3 A /\ upper_hessenberg 3 A /\
    HessenbergDecomposition 3 A = Some H /\
    eigenvalue 3 A 1 /\ ~ eigenvalue 3 H 1 /\ ~ orthogonally_similar 3 A H.
Proof.
  destruct swap_hessenberg as (H & E & EH). exists swap, H.
  split.
  { intros i j Hi Hj.
    assert (Ei : i = 0%nat \/ i = 1%nat \/ i = 2%nat) by lia.
    assert (Ej : j = 0%nat \/ j = 1%nat \/ j = 2%nat) by lia.
    destruct Ei as [->|[->| ->]]; destruct Ej as [->|[->| ->]]; reflexivity. }
  split.
  { intros i j Hi Hj. replace i with 2%nat by lia. replace j with 0%nat by lia. reflexivity. }
  split; [exact E|]. split; [exact swap_eigenvalue|].
  pose proof (tripled_not_eigenvalue H EH) as NE. split; [exact NE|].
  intros S. apply NE. apply (similar_eigenvalue 3 swap H 1 S). exact swap_eigenvalue.
Qed.

Theorem C78_schur_refuted :
  exists A T, symmetric 3 A /\
    (forall fuel eps, 0 <= eps ->
       RealSchurDecomposition (S fuel) 3 A eps = Some (Some (T eps))) /\
    eigenvalue 3 A 1 /\ forall eps, 0 <= eps -> ~ eigenvalue 3 (T eps) 1.
Proof.
  destruct swap_hessenberg as (H & E & EH). exists swap, (fun eps => deflate 1 2 eps H).
  split.
  { intros i j Hi Hj.
    assert (Ei : i = 0%nat \/ i = 1%nat \/ i = 2%nat) by lia.
    assert (Ej : j = 0%nat \/ j = 1%nat \/ j = 2%nat) by lia.
    destruct Ei as [->|[->| ->]]; destruct Ej as [->|[->| ->]]; reflexivity. }
  assert (D : forall eps, 0 <= eps ->
     meq 3 (deflate 1 2 eps H) (of_rows [[0; -3; 0]; [-3; 0; 0]; [0; 0; 0]]%Z)).
  { intros eps He. cbn [deflate Nat.sub].
    rewrite (EH 1%nat 0%nat), (EH 1%nat 1%nat), (EH 0%nat 0%nat) by lia.
    match goal with |- context [if Rle_dec ?a ?b then fun k l : nat =>
        if ((k =? 1)%nat && (l =? 0)%nat)%bool then 0 else H k l else H] =>
      destruct (Rle_dec a b) as [L|L] end.
    - exfalso. unfold of_rows in L. cbn in L. rewrite Rabs_R0 in L.
      rewrite (Rabs_left (-3)) in L by lra. lra.
    - clear L. destruct (Rle_dec _ _) as [L|L]; [|exact EH].
      intros i j Hi Hj.
      destruct (Nat.eqb_spec i 2) as [->|]; destruct (Nat.eqb_spec j 1) as [->|];
        cbn [andb]; try (apply EH; assumption). reflexivity. }
  split.
  - intros fuel eps H0. unfold RealSchurDecomposition. rewrite E. cbn [schur_loop].
    change (3 - 1)%nat with 2%nat.
    assert (Q : find_q 3 (deflate 1 2 eps H) 1 3 false 0 = 3%nat).
    { pose proof (D eps H0) as D'. set (G := deflate 1 2 eps H) in *. clearbody G.
      cbn [find_q Nat.eqb Nat.sub].
      rewrite (D' 2%nat 1%nat), (D' 1%nat 0%nat) by lia. unfold of_rows. cbn [nth].
      destruct (Req_EM_T 0 0); [|contradiction].
      destruct (Req_EM_T (-3) 0); [lra|]. reflexivity. }
    rewrite Q. reflexivity.
  - split; [exact swap_eigenvalue|]. intros eps He.
    apply tripled_not_eigenvalue. apply D. assumption.
Qed.

(* A column that vanishes below the diagonal: the division by its norm produces
   NaNs.  This happens for the identity. *)
Theorem C78_zero_column_refuted :
  HessenbergDecomposition 3 identity = None /\
  (forall n A fuel eps, (2 < n)%nat ->
     (forall i, (0 < i < n)%nat -> A i 0%nat = 0) ->
     HessenbergDecomposition n A = None /\
     RealSchurDecomposition fuel n A eps = Some None).
Proof.
  assert (G : forall n A, (2 < n)%nat ->
     (forall i, (0 < i < n)%nat -> A i 0%nat = 0) -> HessenbergDecomposition n A = None).
  { intros n A Hn Z. unfold HessenbergDecomposition, hessenberg_with.
    destruct (n - 2)%nat as [|k] eqn:Ek; [lia|]. cbn [option_loop].
    unfold hessenberg_step at 1. unfold ComputeHouseholderReflection.
    rewrite rsum_0, sqrt_0.
    - destruct (Req_EM_T 0 0); [reflexivity|contradiction].
    - intros i Hi. rewrite Z by lia. ring. }
  split.
  - apply G; [lia|]. intros i Hi. unfold identity.
    destruct (Nat.eqb_spec i 0); [lia|reflexivity].
  - intros n A fuel eps Hn Z. split; [apply G; assumption|].
    unfold RealSchurDecomposition. rewrite G by assumption. reflexivity.
Qed.

(* FrancisQRStep, on the block of size n that starts at p. *)
Theorem C78_francis_shape : forall p n H H',
  (3 <= n)%nat -> upper_hessenberg n (sub p H) -> FrancisQRStep p n H = Some H' ->
  upper_hessenberg n (sub p H') /\
  (forall i j, (i < p \/ p + n <= i \/ j < p \/ p + n <= j)%nat -> H' i j = H i j).
Proof.
  intros p n H H' Hn Hh E.
  destruct (francis_correct False ComputeHouseholderReflection p n H H') as (F1 & _ & F3);
    try assumption; [exact householder_kills|tauto|]. split; assumption.
Qed.

Theorem C78_francis_partial : forall p n H H',
  (3 <= n)%nat -> upper_hessenberg n (sub p H) -> francis_with checked p n H = Some H' ->
  FrancisQRStep p n H = Some H' /\
  orthogonally_similar n (sub p H) (sub p H') /\
  (forall l, eigenvalue n (sub p H) l <-> eigenvalue n (sub p H') l).
Proof.
  intros p n H H' Hn Hh E. split; [apply francis_checked; assumption|].
  destruct (francis_correct True checked p n H H') as (_ & F2 & _);
    try assumption; [exact checked_kills|intros; exact checked_proper|].
  split; [apply F2; exact I|]. intros l. apply similar_eigenvalue. apply F2. exact I.
Qed.

(* RealSchurDecomposition: when it returns, no two consecutive subdiagonal elements
   differ from 0; and FrancisQRStep is only called on unreduced blocks of size at
   least 3. *)
Theorem C78_schur_shape : forall fuel n A eps T,
  RealSchurDecomposition fuel n A eps = Some (Some T) ->
  upper_hessenberg n T /\
  forall j, (0 < j)%nat -> (S j < n)%nat ->
    T j (j - 1)%nat = 0 \/ T (S j) j = 0.
Proof.
  intros fuel n A eps T E. unfold RealSchurDecomposition in E.
  destruct (HessenbergDecomposition n A) as [H|] eqn:EH; [|discriminate].
  destruct (schur_loop_shape fuel n eps H T) as [S1 S2].
  - eapply C78_hessenberg_shape. exact EH.
  - exact E.
  - split; [exact S1|]. intros j H1 H2. pose proof (S2 j H1 H2) as S3.
    unfold sd in S3. replace (S j - 1)%nat with j in S3 by lia. exact S3.
Qed.

Theorem C78_schur_block : forall n H,
  let q := find_q n H 1 n false 0 in
  let p := find_p H (n - q - 1) in
  q <> n ->
  (p + 3 <= n - q)%nat /\
  (p = 0%nat \/ H p (p - 1)%nat = 0) /\
  (forall j, (p < j < n - q)%nat -> H j (j - 1)%nat <> 0) /\
  (q = 0%nat \/ H (n - q)%nat (n - q - 1)%nat = 0).
Proof. intros n H q p N. exact (schur_block n H q p eq_refl N eq_refl). Qed.

(* The rotation of the method of Jacobi: it annihilates the elements (p, q) and
   (q, p), its angle is at most π/4, and it decreases the sum of the squares of the
   elements that are not on the diagonal. *)
Theorem C78_jacobi_rotation : forall n D p q,
  (p < n)%nat -> (q < n)%nat -> p <> q -> symmetric n D ->
  let J := SymmetricSchurDecomposition2By2 D p q in
  cos_ J * cos_ J + sin_ J * sin_ J = 1 /\ 0 < cos_ J /\ Rabs (sin_ J) <= cos_ J /\
  symmetric n (rotate D p q) /\ orthogonally_similar n D (rotate D p q) /\
  rotate D p q p q = 0 /\
  off n (rotate D p q) = off n D - 2 * (D p q * D p q).
Proof.
  intros n D p q Hp Hq N S J.
  destruct (schur2_spec D p q J eq_refl) as (_ & _ & E1 & E2 & E3 & _).
  repeat split; try assumption.
  - apply rotate_symmetric; assumption.
  - exists (rotation_matrix J). split.
    + apply rotation_orthogonal. apply schur2_valid; assumption.
    + intros i j Hi Hj. apply (rotate_mul n D p q i j); assumption.
  - apply (rotate_zero n D p q Hp Hq N S).
  - apply rotate_off; assumption.
Qed.

(* The result of ClassicalJacobi: V is orthogonal, and either the residuals of the
   eigenvalues and eigenvectors are below the requested accuracy, or they have been
   reduced at the given rate by each of the iterations. *)
Theorem C78_jacobi : forall n A k eps V lambda,
  (0 < n)%nat -> symmetric n A -> ClassicalJacobi n A k eps = Some (V, lambda) ->
  orthogonal n V /\
  ((forall i, (i < n)%nat ->
      residual n A V lambda i
      <= (INR n - 1) * ((eps * FrobeniusNorm n A) * (eps * FrobeniusNorm n A))) \/
   (forall i, (i < n)%nat -> residual n A V lambda i <= rate n ^ k * off n A)).
Proof. exact jacobi_correct. Qed.

Theorem C78_jacobi_converges : forall n A eps,
  (0 < n)%nat -> symmetric n A -> 0 < eps ->
  exists K, forall k, (K <= k)%nat ->
  exists V lambda, ClassicalJacobi n A k eps = Some (V, lambda) /\
    orthogonal n V /\
    forall i, (i < n)%nat ->
      residual n A V lambda i
      <= (INR n - 1) * ((eps * FrobeniusNorm n A) * (eps * FrobeniusNorm n A)).
Proof. exact jacobi_converges. Qed.

(* No iteration uses the invalid index -1, except for a matrix of size 1 and a
   negative accuracy. *)
Theorem C78_jacobi_total : forall n A k eps,
  (2 <= n)%nat \/ 0 <= eps -> exists V lambda, ClassicalJacobi n A k eps = Some (V, lambda).
Proof.
  intros n A k eps H. unfold ClassicalJacobi.
  destruct (jacobi_loop_total k n (eps * FrobeniusNorm n A) (A, identity)) as [[D V] E].
  - destruct H as [H|H]; [left; exact H|right].
    apply Rmult_le_pos; [assumption|apply sqrt_pos].
  - rewrite E. eexists; eexists; reflexivity.
Qed.

Example C78_jacobi_example :
  exists V lambda, ClassicalJacobi 2 (of_rows [[2; 1]; [1; 2]]%Z) 1 0 = Some (V, lambda) /\
    lambda 0%nat = 1 /\ lambda 1%nat = 3.
Proof.
  set (A := of_rows _).
  assert (S : symmetric 2 A).
  { intros i j Hi Hj. assert (Ei : i = 0%nat \/ i = 1%nat) by lia.
    assert (Ej : j = 0%nat \/ j = 1%nat) by lia.
    destruct Ei as [->| ->]; destruct Ej as [->| ->]; reflexivity. }
  assert (L : largest_off_diagonal 2 A = (1, Some (0, 1)%nat)).
  { unfold largest_off_diagonal. cbn. unfold A, of_rows. cbn [nth].
    rewrite Rabs_R1. destruct (Rle_dec 0 1); [reflexivity|lra]. }
  assert (E : SymmetricSchurDecomposition2By2 A 0 1
              = mkRotation (1 / sqrt (1 + 1 * 1)) (1 * (1 / sqrt (1 + 1 * 1))) 0 1).
  { unfold SymmetricSchurDecomposition2By2, A, of_rows. cbn [nth].
    destruct (Req_EM_T 1 0); [lra|].
    replace ((2 - 2) / (2 * 1)) with 0 by field.
    destruct (Rle_dec 0 0); [|lra].
    replace (1 / (0 + sqrt (1 + 0 * 0))) with 1; [reflexivity|].
    replace (1 + 0 * 0) with 1 by ring. rewrite sqrt_1. field. }
  unfold ClassicalJacobi. cbn [jacobi_loop]. rewrite L.
  destruct (Rle_dec 1 (0 * _)) as [X|_]; [exfalso; lra|].
  rewrite E.
  assert (P : 0 < 1 + 1 * 1) by lra.
  pose proof (sqrt_lt_R0 _ P) as S0. pose proof (sqrt_sqrt _ (Rlt_le _ _ P)) as S1.
  set (r := sqrt (1 + 1 * 1)) in *.
  assert (C : 1 / r * (1 / r) = 1 / 2).
  { replace 2 with (r * r) by lra. field. lra. }
  set (c := 1 / r) in *.
  eexists; eexists. split; [reflexivity|].
  unfold PremultiplyByTranspose, PostMultiplyRotation, A, of_rows.
  cbn [p_ q_ cos_ sin_ Nat.eqb nth]. split; nra.
Qed.

Print Assumptions C78_householder.
Print Assumptions C78_householder_total.
Print Assumptions C78_householder_refuted.
Print Assumptions C78_checked.
Print Assumptions C78_hessenberg_shape.
Print Assumptions C78_hessenberg_partial.
Print Assumptions C78_hessenberg_refuted.
Print Assumptions C78_schur_refuted.
Print Assumptions C78_zero_column_refuted.
Print Assumptions C78_francis_shape.
Print Assumptions C78_francis_partial.
Print Assumptions C78_schur_shape.
Print Assumptions C78_schur_block.
Print Assumptions C78_jacobi_rotation.
Print Assumptions C78_jacobi.
Print Assumptions C78_jacobi_converges.
Print Assumptions C78_jacobi_total.
