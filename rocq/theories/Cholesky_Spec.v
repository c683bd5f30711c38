(* Vocabulary for the statements about factorizations. *)
From Coq Require Import Reals Bool Arith.
From Verif Require Import Eigen_Model Eigen_Spec.
Local Open Scope R_scope.

(* The symmetric matrix of which A is the upper half. *)
Definition whole (A : rmatrix) : rmatrix := fun i j => A (Nat.min i j) (Nat.max i j).

(* The upper triangular matrix whose upper half is given. *)
Definition upper (A : rmatrix) : rmatrix := fun i j => if (i <=? j)%nat then A i j else 0.

Definition nonzero (n : nat) (x : rvector) := exists i, (i < n)%nat /\ x i <> 0.

Definition form (n : nat) (A : rmatrix) (x : rvector) : R :=
  rsum n (fun i => rsum n (fun j => x i * A i j * x j)).

Definition positive_definite (n : nat) (A : rmatrix) :=
  forall x, nonzero n x -> 0 < form n A x.

Definition diagonal (d : rvector) : rmatrix := fun i j => if (i =? j)%nat then d i else 0.

Definition independent_columns (n : nat) (A : rmatrix) :=
  forall x, (forall i, (i < n)%nat -> rapply n A x i = 0) -> forall j, (j < n)%nat -> x j = 0.

Definition orthonormal_columns (n : nat) (Q : rmatrix) :=
  meq n (rmul n (transpose Q) Q) delta.

(* A vector of length 1. *)
Definition unit (n : nat) (x : rvector) := rsum n (fun i => x i * x i) = 1.

(* The square of the residual of a vector for a would-be eigenvalue. *)
Definition residual2 (n : nat) (A : rmatrix) (x : rvector) (mu : R) : R :=
  rsum n (fun i => (rapply n A x i - mu * x i) * (rapply n A x i - mu * x i)).

(* A solver whose results are solutions. *)
Definition sound (n : nat) (solve : rmatrix -> rvector -> option rvector) :=
  forall B b z, solve B b = Some z -> forall i, (i < n)%nat -> rapply n B z i = b i.

(* The matrix diag(0, 1, -1). *)
Definition D3 : rmatrix := diagonal (fun i => match i with 0%nat => 0 | 1%nat => 1 | _ => -1 end).

(* The vector is near the first axis, up to sign. *)
Definition near (x : rvector) :=
  16 * (x 1%nat * x 1%nat + x 2%nat * x 2%nat) <= x 0%nat * x 0%nat.

(* The vector (8, 12, 11). *)
Definition x3 : rvector := fun i => match i with 0%nat => 8 | 1%nat => 12 | _ => 11 end.
