(* C77: the resolution of linear systems. *)
From Coq Require Import ZArith QArith Qcanon Qcabs List Bool Arith Lia Lqa.
From Verif Require Import Matrix_Model Matrix_Spec Matrix_Proofs Matrix_Proofs2.
Import ListNotations.
Local Open Scope nat_scope.

(* Matrices and vectors of integers, for the examples. *)
Definition of_rows (l : list (list Z)) : matrix :=
  fun i j => Q2Qc (inject_Z (nth j (nth i l []) 0%Z)).
Definition of_list (l : list Z) : vector := fun i => Q2Qc (inject_Z (nth i l 0%Z)).
Definition values (n : nat) (o : outcome vector) : option (list Q) :=
  match o with Ok x => Some (map (fun i => this (x i)) (seq 0 n)) | _ => None end.

(* Back substitution succeeds exactly when there is no zero on the diagonal, and
   then its result is the only solution. *)
Theorem C77_back_substitution : forall n U b junk, 0 < n ->
  (forall x, BackSubstitution n U b junk = Ok x ->
     solves n (upper U) b x /\
     (forall z, solves n (upper U) b z -> forall i, i < n -> z i = x i)) /\
  ((exists x, BackSubstitution n U b junk = Ok x) <->
   (forall i, i < n -> U i i <> 0%Qc)).
Proof.
  intros n U b junk Hn. split.
  - intros x E. apply back_correct in E. destruct E as [_ E]. split.
    + intros i Hi. apply E. lia.
    + intros z Hz. apply (upper_unique n U b).
      * intros i Hi. apply E. lia.
      * exact Hz.
      * intros i Hi. apply E. lia.
  - split.
    + intros (x & E) i Hi. apply back_correct in E. apply E. lia.
    + intros H. apply back_total; assumption.
Qed.

Theorem C77_forward_substitution : forall n L b junk, 0 < n ->
  (forall x, ForwardSubstitution n L b junk = Ok x ->
     solves n (lower L) b x /\
     (forall z, solves n (lower L) b z -> forall i, i < n -> z i = x i)) /\
  ((exists x, ForwardSubstitution n L b junk = Ok x) <->
   (forall i, i < n -> L i i <> 0%Qc)).
Proof.
  intros n L b junk Hn. split.
  - intros x E. apply forward_correct in E. destruct E as [_ E]. split.
    + intros i Hi. apply E; lia.
    + intros z Hz. apply (lower_unique n L b).
      * intros i Hi. apply E; lia.
      * exact Hz.
      * intros i Hi. apply E; lia.
  - split.
    + intros (x & E) i Hi. apply forward_correct in E. apply E; lia.
    + intros H. apply forward_total; assumption.
Qed.

(* 2 x + y - z = 8, - 3 y + 2 z = -11, 4 z = 2 *)
Example C77_back_substitution_example : forall junk,
  values 3 (BackSubstitution 3 (of_rows [[2; 1; -1]; [77; -3; 2]; [88; 99; 4]]%Z)
              (of_list [8; -11; 2]%Z) junk) = Some [9 # 4; 4; 1 # 2]%Q.
Proof. intros; vm_compute. reflexivity. Qed.

(* Whatever it contains, the uninitialized storage has no effect on a result: the
   result of Solve is the solution, which is then unique, and the columns of the
   matrix are linearly independent. *)
Theorem C77_solve : forall n A b junkL junkU junky junkx x,
  Solve n A b junkL junkU junky junkx = Ok x ->
  solves n A b x /\
  (forall z, solves n A b z -> forall i, i < n -> z i = x i) /\
  nonsingular n A.
Proof.
  intros n A b JL JU Jy Jx x E. pose proof (Solve_nonsingular _ _ _ _ _ _ _ _ E).
  apply Solve_sound in E. tauto.
Qed.

Theorem C77_r3x3_solve : forall A b junkL junkU junky junkx x,
  R3x3_Solve A b junkL junkU junky junkx = Ok x ->
  solves 3 A b x /\
  (forall z, solves 3 A b z -> forall i, i < 3 -> z i = x i) /\
  nonsingular 3 A.
Proof.
  intros A b JL JU Jy Jx x E. pose proof (R3x3_Solve_nonsingular _ _ _ _ _ _ _ E).
  apply R3x3_Solve_sound in E. tauto.
Qed.

(* The example of the tests of R3x3Matrix, r3x3_matrix_test.cpp:77-83. *)
Example C77_solve_example : forall junkL junkU junky junkx,
  values 3 (Solve 3 (of_rows [[2; -3; -4]; [0; 0; -1]; [1; -2; 1]]%Z)
              (of_list [2; 5; 3]%Z) junkL junkU junky junkx)
    = Some [-60; -34; -5]%Q /\
  values 3 (R3x3_Solve (of_rows [[2; -3; -4]; [0; 0; -1]; [1; -2; 1]]%Z)
              (of_list [2; 5; 3]%Z) junkL junkU junky junkx)
    = Some [-60; -34; -5]%Q.
Proof. intros; split; vm_compute; reflexivity. Qed.

(* After the loop, there is a permutation of the rows such that P A = L U and P b
   is the new right-hand side. *)
Theorem C77_factorization : forall n A b junkL junkU s,
  loopM 0 n (solve_step n) (mkLU A junkL junkU b) = Ok s ->
  exists p q, permutation n p q /\
    (forall i j, i < n -> j < n ->
       A (p i) j = sum n (fun l => lower (lu_L s) i l * upper (lu_U s) l j)%Qc) /\
    (forall i, i < n -> lu_L s i i = 1%Qc) /\
    (forall i, i < n -> lu_b s i = b (p i)).
Proof.
  intros n A b JL JU s E. apply solve_loop_inv in E.
  destruct (inv_system _ _ _ _ _ E) as (p & q & P & PA & Pb).
  exists p, q. split; [assumption|]. split; [|split].
  - intros i j Hi Hj. rewrite <- PA by assumption. eapply lu_product; eauto.
  - apply (inv_diagonal _ _ _ _ _ E).
  - assumption.
Qed.

(* In dimensions one and two, Solve succeeds exactly on the nonsingular
   matrices. *)
Theorem C77_small : forall n A b junkL junkU junky junkx, 0 < n <= 2 ->
  ((exists x, Solve n A b junkL junkU junky junkx = Ok x) <-> nonsingular n A).
Proof.
  intros n A b JL JU Jy Jx Hn. split.
  - intros (x & E). apply Solve_nonsingular in E. assumption.
  - intros N. apply Solve_total_small; assumption.
Qed.

(* In all dimensions it succeeds on the matrices whose columns are dominated by
   the diagonal. *)
Theorem C77_dominant : forall n A b junkL junkU junky junkx, 0 < n ->
  column_dominant n A -> exists x, Solve n A b junkL junkU junky junkx = Ok x.
Proof. exact Solve_dominant. Qed.

Theorem C77_r3x3_dominant : forall A b junkL junkU junky junkx,
  column_dominant 3 A -> exists x, R3x3_Solve A b junkL junkU junky junkx = Ok x.
Proof. exact R3x3_Solve_dominant. Qed.

Example C77_dominant_example :
  column_dominant 3 (of_rows [[4; -1; 2]; [1; 5; 2]; [-2; 3; -7]]%Z).
Proof.
  intros [|[|[|k]]] Hk; [| | |lia]; vm_compute; reflexivity.
Qed.

(* The rows are not exchanged according to the pivots of the elimination, but
   according to the elements of the original matrix.  There are matrices of
   inner products, even, for which a pivot vanishes: the division by zero is not
   detected, and the result is made of infinities and NaNs. *)
Definition stale_pivot : matrix := of_rows [[2; 4; 2]; [4; 10; 5]; [2; 5; 4]]%Z.

Lemma Qc_sum3 : forall f, sum 3 f = (f 0%nat + f 1%nat + f 2%nat)%Qc.
Proof. intros; cbn. ring. Qed.

Lemma Qc_square_pos : forall x, (0 <= x * x)%Qc.
Proof.
  intros x. unfold Qcle, Qcmult. cbn [this Q2Qc]. rewrite !Qred_correct. nra.
Qed.

Lemma Qc_square_zero : forall x, (x * x <= 0)%Qc -> x = 0%Qc.
Proof.
  intros x H. apply Qc_is_canon. unfold Qcle, Qcmult in H.
  cbn [this Q2Qc] in H. rewrite !Qred_correct in H. cbn. nra.
Qed.

Theorem C77_pivoting_refuted :
  exists A, positive_definite 3 A /\
    forall b junkL junkU junky junkx,
      Solve 3 A b junkL junkU junky junkx = DivisionByZero /\
      R3x3_Solve A b junkL junkU junky junkx = DivisionByZero.
Proof.
  exists stale_pivot. split.
  - split.
    + intros [|[|[|i]]] [|[|[|j]]] Hi Hj; try lia; vm_compute; reflexivity.
    + intros x (i & Hi & Hx). unfold apply. rewrite !Qc_sum3.
      set (a := x 0) in *. set (b := x 1) in *. set (c := x 2) in *.
      change (stale_pivot 0 0) with (Q2Qc 2). change (stale_pivot 0 1) with (Q2Qc 4).
      change (stale_pivot 0 2) with (Q2Qc 2). change (stale_pivot 1 0) with (Q2Qc 4).
      change (stale_pivot 1 1) with (Q2Qc 10). change (stale_pivot 1 2) with (Q2Qc 5).
      change (stale_pivot 2 0) with (Q2Qc 2). change (stale_pivot 2 1) with (Q2Qc 5).
      change (stale_pivot 2 2) with (Q2Qc 4).
      assert (N : ~ (a = 0%Qc /\ b = 0%Qc /\ c = 0%Qc)).
      { intros (Ha & Hb & Hc). destruct i as [|[|[|i]]]; try lia; contradiction. }
      apply Qcnot_le_lt. intros H.
      assert (E : (a * (Q2Qc 2 * a + Q2Qc 4 * b + Q2Qc 2 * c)
                   + b * (Q2Qc 4 * a + Q2Qc 10 * b + Q2Qc 5 * c)
                   + c * (Q2Qc 2 * a + Q2Qc 5 * b + Q2Qc 4 * c) <= 0)%Qc) by exact H.
      unfold Qcle, Qcmult, Qcplus in E. cbn [this Q2Qc] in E.
      rewrite !Qred_correct in E.
      remember (this a) as p eqn:Ep. remember (this b) as q eqn:Eq.
      remember (this c) as r eqn:Err. clear H.
      assert (S0 : forall t : Q, (0 <= t * t)%Q) by (intros; nra).
      assert (SZ : forall t : Q, (t * t <= 0)%Q -> (t == 0)%Q) by (intros; nra).
      pose proof (S0 (p + 2 * q + r)%Q) as S1. pose proof (S0 (q + r)%Q) as S2.
      pose proof (S0 q) as S3. pose proof (S0 r) as S4.
      assert (Zb : (q == 0)%Q) by (apply SZ; lra).
      assert (Zc : (r == 0)%Q) by (apply SZ; lra).
      assert (Za' : (p + 2 * q + r == 0)%Q) by (apply SZ; lra).
      assert (Za : (p == 0)%Q) by lra. subst p q r.
      apply N. repeat split; apply Qc_is_canon; cbn; assumption.
  - intros; split; vm_compute; reflexivity.
Qed.

(* The check of R3x3Matrix fails, and tells that the matrix is singular, for a
   matrix that is not. *)
Theorem C77_singular_refuted :
  exists A, nonsingular 3 A /\
    forall b junkL junkU junky junkx,
      R3x3_Solve A b junkL junkU junky junkx = CheckFailure.
Proof.
  exists (of_rows [[2; 1; 0]; [1; 0; 0]; [0; 0; 1]]%Z). split.
  - intros x H.
    pose proof (H 0 ltac:(lia)) as H0. pose proof (H 1 ltac:(lia)) as H1.
    pose proof (H 2 ltac:(lia)) as H2. unfold apply in *.
    rewrite Qc_sum3 in H0, H1, H2. unfold of_rows in *. cbn [nth] in *.
    set (a := x 0) in *. set (b := x 1) in *. set (c := x 2) in *.
    change (Q2Qc (inject_Z 0)) with 0%Qc in *. change (Q2Qc (inject_Z 1)) with 1%Qc in *.
    assert (Ea : a = 0%Qc) by (rewrite <- H1; ring).
    assert (Ec : c = 0%Qc) by (rewrite <- H2; ring).
    rewrite Ea in H0. assert (Eb : b = 0%Qc) by (rewrite <- H0; ring).
    intros [|[|[|i]]] Hi; try lia; assumption.
  - intros; vm_compute; reflexivity.
Qed.

(* The multipliers are not bounded by 1, as they are with partial pivoting. *)
Theorem C77_multipliers_refuted :
  exists A, nonsingular 3 A /\
    forall b junkL junkU, exists s,
      loopM 0 3 (solve_step 3) (mkLU A junkL junkU b) = Ok s /\
      lu_L s 2 1 = (- Q2Qc (inject_Z (2 ^ 40)))%Qc.
Proof.
  pose (A := fun i j => (of_rows [[2; 2; 0]; [1; 1; 1]; [1; 0; 0]]%Z i j
               + if (i =? 1) && (j =? 1) then Q2Qc (1 # (2 ^ 40)) else 0)%Qc).
  assert (G : forall b junkL junkU, exists s,
      loopM 0 3 (solve_step 3) (mkLU A junkL junkU b) = Ok s /\
      lu_L s 2 1 = (- Q2Qc (inject_Z (2 ^ 40)))%Qc).
  { intros. eexists. split; [vm_compute; reflexivity|].
    apply Qc_is_canon. vm_compute. reflexivity. }
  exists A. split; [|exact G].
  assert (E : exists x, values 3 (Solve 3 A (fun _ => 0%Qc) A A
                          (fun _ => 0%Qc) (fun _ => 0%Qc)) = Some x)
    by (eexists; vm_compute; reflexivity).
  destruct E as (x & E).
  destruct (Solve 3 A (fun _ => 0%Qc) A A (fun _ => 0%Qc) (fun _ => 0%Qc)) eqn:ES;
    try discriminate.
  eapply Solve_nonsingular. exact ES.
Qed.

Print Assumptions C77_back_substitution.
Print Assumptions C77_forward_substitution.
Print Assumptions C77_solve.
Print Assumptions C77_r3x3_solve.
Print Assumptions C77_factorization.
Print Assumptions C77_small.
Print Assumptions C77_dominant.
Print Assumptions C77_r3x3_dominant.
Print Assumptions C77_pivoting_refuted.
Print Assumptions C77_singular_refuted.
Print Assumptions C77_multipliers_refuted.
