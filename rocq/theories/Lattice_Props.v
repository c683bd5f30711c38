(* C79: the reduction of lattices. *)
From Coq Require Import ZArith QArith Qcanon Qcabs List Bool Arith Lia.
From Verif Require Import Matrix_Model Matrix_Spec Matrix_Proofs.
From Verif Require Import Lattice_Model Lattice_Spec Lattice_Proofs Lattice_Proofs2.
From Verif Require Import Lattice_Proofs3.
Import ListNotations.
Local Open Scope nat_scope.

(* For the examples: the matrix with the given rows, the rows of a matrix, and the
   contents of storage that happens to be zero. *)
Definition of_rows (l : list (list Z)) : zmatrix := fun i j => nth j (nth i l []) 0%Z.
Definition rows (m n : nat) (v : zmatrix) : list (list Z) :=
  map (fun i => map (v i) (seq 0 n)) (seq 0 m).
Definition zeros : matrix * matrix := (fun _ _ => 0%Qc, fun _ _ => 0%Qc).

(* The orthogonalization: A = QR, the columns of Q are orthogonal, and the diagonal
   of R is 1, even if the columns of A are dependent. *)
Theorem C79_gram_schmidt : forall m n A junk Q R,
  UnitriangularGramSchmidt m n A junk = (Q, R) ->
  (forall i j, j < n -> A i j = (Q i j + sum j (fun l => R l j * Q i l))%Qc) /\
  (forall j k, j < n -> k < n -> j <> k ->
     inner m (fun i => Q i j) (fun i => Q i k) = 0%Qc) /\
  (forall j, j < n -> R j j = 1%Qc).
Proof.
  intros m n A junk Q R E.
  destruct (gram_schmidt_spec m n A junk Q R E) as (H1 & H2 & H3).
  split; [|split; [|exact H3]].
  - intros i j Hj. rewrite H1 by assumption. rewrite (column_star m A j i) at 1. f_equal.
    apply sum_ext. intros l Hl. rewrite H1, H2 by lia. reflexivity.
  - intros j k Hj Hk N.
    rewrite (inner_ext m _ (star m A j) _ (star m A k)) by (intros; apply H1; assumption).
    apply star_orthogonal. assumption.
Qed.

(* The result doesn't depend on the uninitialized storage. *)
Theorem C79_gram_schmidt_initialized : forall m n A junk junk' Q R Q' R',
  UnitriangularGramSchmidt m n A junk = (Q, R) ->
  UnitriangularGramSchmidt m n A junk' = (Q', R') ->
  (forall i j, j < n -> Q i j = Q' i j) /\
  (forall l j, l <= j -> j < n -> R l j = R' l j).
Proof.
  intros m n A junk junk' Q R Q' R' E E'.
  destruct (gram_schmidt_spec m n A junk Q R E) as (H1 & H2 & H3).
  destruct (gram_schmidt_spec m n A junk' Q' R' E') as (H1' & H2' & H3').
  split.
  - intros i j Hj. rewrite H1, H1' by assumption. reflexivity.
  - intros l j Hl Hj. destruct (Nat.eq_dec l j) as [->|].
    + rewrite H3, H3' by assumption. reflexivity.
    + rewrite H2, H2' by lia. reflexivity.
Qed.

Example C79_gram_schmidt_example :
  let '(Q, R) := UnitriangularGramSchmidt 2 3 (to_Qc (of_rows [[1; 2; 3]; [1; 0; 1]]%Z)) zeros in
  map (fun j => map (fun i => this (Q i j)) [0; 1]) [0; 1; 2]
  = [[1; 1]; [1; -(1)]; [0; 0]]%Q /\
  map (fun j => this (R 0 j)) [0; 1; 2] = [1; 1; 2]%Q /\ this (R 1 2) = 1%Q.
Proof. vm_compute. repeat split. Qed.

(* The reduction terminates for all matrices, even if the columns are dependent, and
   however inaccurate the rounding may be. *)
Theorem C79_terminates : forall round junk m n L, round 0%Qc = 0%Z ->
  exists fuel v, LenstraLenstraLovasz round junk fuel m n L = Some v.
Proof. intros. apply lll_terminates; [assumption|lia]. Qed.

Theorem C79_deterministic : forall round junk m n fuel fuel' L v v',
  LenstraLenstraLovasz round junk fuel m n L = Some v ->
  LenstraLenstraLovasz round junk fuel' m n L = Some v' -> v = v'.
Proof.
  intros round junk m n fuel fuel' L v v' E E'. unfold LenstraLenstraLovasz in *.
  destruct (le_lt_dec fuel fuel') as [H|H].
  - rewrite (lll_loop_fuel _ _ _ _ _ fuel' _ _ _ H E) in E'. congruence.
  - rewrite (lll_loop_fuel _ _ _ _ _ fuel _ _ _ (Nat.lt_le_incl _ _ H) E') in E. congruence.
Qed.

(* The columns of the result generate the same lattice, again for any rounding. *)
Theorem C79_same_lattice : forall round junk m n fuel L v, round 0%Qc = 0%Z ->
  LenstraLenstraLovasz round junk fuel m n L = Some v -> same_lattice m n L v.
Proof. intros. eapply lll_correct; eassumption. Qed.

(* With a function that rounds to the nearest the result is reduced. *)
Theorem C79_reduced : forall round junk m n fuel L v,
  round 0%Qc = 0%Z -> rounds round ->
  LenstraLenstraLovasz round junk fuel m n L = Some v -> lll_reduced m n v.
Proof. intros. eapply lll_correct; eassumption. Qed.

Theorem C79_rounds_exists : nearest 0%Qc = 0%Z /\ rounds nearest.
Proof. exact (conj nearest_0 nearest_rounds). Qed.

(* The length of the first vector of a reduced basis, compared with that of any
   integer combination of the columns. *)
Theorem C79_short : forall m n v z, lll_reduced m n v ->
  (exists j, j < n /\ z j <> 0%Z) ->
  (norm2 m (fun i => v i 0%nat) <= 2 ^ (Z.of_nat n - 1) * norm2 m (combination n v z))%Z.
Proof. exact first_short. Qed.

(* If the columns are dependent the first vector of a reduced basis is zero. *)
Theorem C79_dependent : forall m n v z, lll_reduced m n v ->
  (exists j, j < n /\ z j <> 0%Z) ->
  (forall i, i < m -> combination n v z i = 0%Z) ->
  forall i, i < m -> v i 0 = 0%Z.
Proof. exact dependent_zero. Qed.

(* The function Round rounds to the nearest if the numerator is not too large. *)
Theorem C79_round : forall x, (Z.abs (Qnum (this x)) < 2 ^ 167)%Z ->
  (Qcabs (x - of_Z (Round x)) <= half)%Qc.
Proof. exact Round_near. Qed.

Example C79_example :
  option_map (rows 3 3)
    (LenstraLenstraLovasz Round zeros 20 3 3 (of_rows [[1; -1; 3]; [1; 0; 5]; [1; 2; 6]]%Z))
  = Some [[0; 1; -2]; [1; 0; 0]; [0; 1; 1]]%Z.
Proof. vm_compute. reflexivity. Qed.

(* Dependent columns: the first one vanishes. *)
Example C79_dependent_example :
  option_map (rows 2 3)
    (LenstraLenstraLovasz Round zeros 20 2 3 (of_rows [[4; 6; 1]; [2; 5; 3]]%Z))
  = Some [[0; -1; 0]; [0; 0; 1]]%Z.
Proof. vm_compute. reflexivity. Qed.

(* The function Round goes through 168 binary digits. *)
Theorem C79_round_refuted : ~ rounds Round.
Proof.
  intros H. specialize (H (of_Z (2 ^ 200 + 1))). apply Qcabs_Qcle_condition in H.
  destruct H as [_ H]. vm_compute in H. apply H. reflexivity.
Qed.

Lemma not_reduced : forall v, rows 2 2 v = [[1; 1]; [0; 1]]%Z -> ~ lll_reduced 2 2 v.
Proof.
  intros v E [R _]. specialize (R 0 1 ltac:(lia)). unfold rows in E. cbn in E.
  injection E as E1 E2 E3 E4.
  set (w := of_rows [[1; 1]; [0; 1]]%Z) in *.
  assert (M : mu 2 (to_Qc v) 0 1 = mu 2 (to_Qc w) 0 1).
  { unfold mu. apply coef_ext; intros i Hi; rewrite ?star_eq; cbn [sum]; unfold to_Qc;
      destruct i as [|[|i]]; try lia; rewrite ?E1, ?E2, ?E3, ?E4; reflexivity. }
  rewrite M in R. vm_compute in R. apply R. reflexivity.
Qed.

(* For this reason the result is not reduced for some matrices. *)
Theorem C79_reduced_refuted : exists junk fuel L v,
  LenstraLenstraLovasz Round junk fuel 2 2 L = Some v /\ ~ lll_reduced 2 2 v.
Proof.
  assert (E : option_map (rows 2 2)
    (LenstraLenstraLovasz Round zeros 5 2 2 (of_rows [[1; 2 ^ 200 + 1]; [0; 1]]%Z))
    = Some [[1; 1]; [0; 1]]%Z) by (vm_compute; reflexivity).
  destruct (LenstraLenstraLovasz _ _ _ _ _ _) as [v|] eqn:EL; [|discriminate E].
  exists zeros, 5, (of_rows [[1; 2 ^ 200 + 1]; [0; 1]]%Z), v. split; [exact EL|].
  apply not_reduced. cbn [option_map] in E. congruence.
Qed.

Print Assumptions C79_gram_schmidt.
Print Assumptions C79_gram_schmidt_initialized.
Print Assumptions C79_terminates.
Print Assumptions C79_deterministic.
Print Assumptions C79_same_lattice.
Print Assumptions C79_reduced.
Print Assumptions C79_rounds_exists.
Print Assumptions C79_short.
Print Assumptions C79_dependent.
Print Assumptions C79_round.
Print Assumptions C79_round_refuted.
Print Assumptions C79_reduced_refuted.
