(* C80: the reduction of Nguyễn and Stehlé. *)
From Coq Require Import ZArith QArith Qcanon Qcabs List Bool Arith Lia.
From Verif Require Import Matrix_Model Matrix_Spec Lattice_Model Lattice_Spec.
From Verif Require Import NguyenStehle_Model NguyenStehle_Spec NguyenStehle_Proofs.
From Verif Require Import NguyenStehle_Proofs2 NguyenStehle_Proofs3 NguyenStehle_Proofs4.
From Verif Require Import NguyenStehle_Proofs5 NguyenStehle_Proofs6.
Import ListNotations.
Local Open Scope nat_scope.

Definition sample : grid Z := [[1; -1; 3]; [1; 0; 5]; [1; 2; 6]]%Z.

(* The function Gram computes the products of the columns. *)
Theorem C80_gram : forall n d L junk, is_gram n d L (Gram n d L junk).
Proof. exact Gram_spec. Qed.

Example C80_gram_example :
  Gram 3 3 sample [] = [[3; 1; 14]; [1; 5; 9]; [14; 9; 70]]%Z.
Proof. vm_compute. reflexivity. Qed.

(* The storage of G is sufficient if and only if there are no more columns than it
   has room for. *)
Theorem C80_gram_storage : forall size n d L junk,
  Gram_checked size n d L junk <> None <-> d <= size.
Proof.
  intros size n d L junk. rewrite Gram_checked_spec.
  destruct (Nat.leb_spec d size); split; intros; try lia; try discriminate. congruence.
Qed.

(* For an unbounded matrix, whose G has as many columns as the matrix has rows, it is
   not when there are more columns than rows. *)
Theorem C80_gram_storage_refuted : exists n d L,
  Gram_unbounded n d L [] = None.
Proof.
  exists 2, 3, [[1; 2; 1000]; [0; 0; 1]]%Z. vm_compute. reflexivity.
Qed.

(* Insert moves a column, and updates the Gram matrix. *)
Theorem C80_insert : forall from to n d b G b' G',
  to < from -> from < d -> Insert from to n d b G = (b', G') ->
  (forall i c, i < n -> zof b' i c = zof b i (inserted from to c)) /\
  (is_gram n d b G -> is_gram n d b' G') /\
  same_lattice n d (zof b) (zof b').
Proof. exact Insert_spec. Qed.

Example C80_insert_example :
  fst (Insert 2 0 3 3 sample (Gram 3 3 sample [])) = [[3; 1; -1]; [5; 1; 0]; [6; 1; 2]]%Z.
Proof. vm_compute. reflexivity. Qed.

(* Whatever the arithmetic, the reduction of a column preserves the lattice, and the Gram
   matrix remains exact. *)
Theorem C80_size_reduce : forall ops fuel n d k b G f b' G' f', k < d ->
  SizeReduce ops fuel n d k b G f = Done (b', G', f') -> is_gram n d b G ->
  is_gram n d b' G' /\ same_lattice n d (zof b) (zof b').
Proof. exact SizeReduce_inv. Qed.

(* Whatever the arithmetic, the result generates the lattice that was given. *)
Theorem C80_same_lattice : forall ops fuel n d L junkG junk b,
  NguyenStehle ops fuel n d L junkG junk = Done b ->
  same_lattice n d (zof L) (zof b).
Proof.
  intros ops fuel n d L junkG junk b E. eapply ns_loop_inv; [exact E|]. apply Gram_spec.
Qed.

Example C80_binary64_example :
  NguyenStehle B_ 30 3 3 sample [] (junk_ B_) = Done [[0; 1; -1]; [1; 0; 0]; [0; 1; 2]]%Z.
Proof. vm_compute. reflexivity. Qed.

(* In exact arithmetic the result is a reduced basis. *)
Theorem C80_exact_reduced : forall fuel n d L junkG junk b,
  independent n d (zof L) ->
  NguyenStehle exact_ops fuel n d L junkG junk = Done b ->
  reduced exact_eta exact_delta n d (zof b).
Proof. exact ns_exact. Qed.

Example C80_exact_example :
  NguyenStehle exact_ops 30 3 3 sample [] (junk_ exact_ops)
  = Done [[0; 1; -1]; [1; 0; 0]; [0; 1; 2]]%Z.
Proof. vm_compute. reflexivity. Qed.

Example C80_independent_example : independent 3 3 (zof sample).
Proof.
  intros z H.
  pose proof (H 0 ltac:(lia)) as H0. pose proof (H 1 ltac:(lia)) as H1.
  pose proof (H 2 ltac:(lia)) as H2. unfold combination in *. cbn [zsum] in *.
  unfold zof, sample in *. cbn [nth] in *.
  intros [|[|[|j]]] Hj; lia.
Qed.

(* And it is found, in spite of the saturation of the coefficients. *)
Theorem C80_exact_terminates : forall n d L junkG junk, d <= 56 ->
  independent n d (zof L) ->
  exists fuel b, NguyenStehle exact_ops fuel n d L junkG junk = Done b.
Proof. exact ns_terminates. Qed.

(* The check on progress does not fail. *)
Theorem C80_exact_progress : forall fuel n d L junkG junk, d <= 56 ->
  independent n d (zof L) ->
  NguyenStehle exact_ops fuel n d L junkG junk <> CheckFailed.
Proof. exact ns_no_check. Qed.

(* More iterations do not change the result, whatever the arithmetic. *)
Theorem C80_deterministic : forall ops fuel fuel' n d L junkG junk b b',
  NguyenStehle ops fuel n d L junkG junk = Done b ->
  NguyenStehle ops fuel' n d L junkG junk = Done b' -> b = b'.
Proof.
  intros ops fuel fuel' n d L junkG junk b b' E E'. unfold NguyenStehle in E, E'.
  apply (ns_loop_more ops fuel (fuel + fuel')) in E; [|discriminate|lia].
  apply (ns_loop_more ops fuel' (fuel + fuel')) in E'; [|discriminate|lia].
  congruence.
Qed.

(* With dependent columns and the arithmetic of double, the function does not return. *)
Theorem C80_dependent_refuted : exists n d L, forall fuel,
  NguyenStehle B_ fuel n d L [] (junk_ B_) = Unfinished.
Proof. exists 2, 3, dependent_columns. exact dependent_forever. Qed.

(* Nor does it with two independent columns that are too large. *)
Theorem C80_large_refuted : exists L, independent 2 2 (zof L) /\ forall fuel,
  NguyenStehle B_ fuel 2 2 L [] (junk_ B_) = Unfinished.
Proof.
  exists large_columns. split; [|exact large_forever].
  intros z H.
  pose proof (H 0 ltac:(lia)) as H0. pose proof (H 1 ltac:(lia)) as H1.
  unfold combination in *. cbn [zsum] in *.
  unfold zof, large_columns in *. cbn [nth] in *.
  assert (P : (2 ^ 600 > 0)%Z) by reflexivity.
  set (p := (2 ^ 600)%Z) in *. clearbody p.
  intros [|[|j]] Hj; nia.
Qed.

(* If the first column is zero, the result may not be reduced. *)
Theorem C80_zero_refuted : exists L,
  NguyenStehle B_ 9 2 3 L [] (junk_ B_) = Done L /\
  ~ reduced exact_eta exact_delta 2 3 (zof L).
Proof.
  exists [[0; 1; 1000]; [0; 0; 1]]%Z. split; [vm_compute; reflexivity|].
  intros [H _]. specialize (H 1 2 ltac:(lia)). vm_compute in H. apply H. reflexivity.
Qed.

(* The columns must be independent even for exact arithmetic: after the insertion of a
   zero column, the elements of r that are used are not those of the new columns. *)
Theorem C80_exact_dependent_refuted : exists L b,
  NguyenStehle exact_ops 9 2 3 L [] (junk_ exact_ops) = Done b /\
  ~ reduced exact_eta exact_delta 2 3 (zof b).
Proof.
  exists dependent_columns, [[0; 1; 1000]; [0; 0; 1]]%Z. split; [vm_compute; reflexivity|].
  intros [H _]. specialize (H 1 2 ltac:(lia)). vm_compute in H. apply H. reflexivity.
Qed.

Print Assumptions C80_gram.
Print Assumptions C80_gram_storage.
Print Assumptions C80_gram_storage_refuted.
Print Assumptions C80_insert.
Print Assumptions C80_size_reduce.
Print Assumptions C80_same_lattice.
Print Assumptions C80_exact_reduced.
Print Assumptions C80_exact_terminates.
Print Assumptions C80_exact_progress.
Print Assumptions C80_deterministic.
Print Assumptions C80_dependent_refuted.
Print Assumptions C80_large_refuted.
Print Assumptions C80_zero_refuted.
Print Assumptions C80_exact_dependent_refuted.
