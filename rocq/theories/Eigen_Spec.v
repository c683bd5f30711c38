(* Vocabulary for the statements about orthogonal transformations. *)
From Coq Require Import Reals Bool Arith.
From Verif Require Import Eigen_Model.
Local Open Scope R_scope.

Definition delta (i j : nat) : R := if (i =? j)%nat then 1 else 0.

(* Both the columns and the rows are orthonormal. *)
Definition orthogonal (n : nat) (Q : rmatrix) :=
  forall i j, (i < n)%nat -> (j < n)%nat ->
    rsum n (fun k => Q k i * Q k j) = delta i j /\
    rsum n (fun k => Q i k * Q j k) = delta i j.

Definition rmul (n : nat) (A B : rmatrix) : rmatrix :=
  fun i j => rsum n (fun k => A i k * B k j).

Definition transpose (A : rmatrix) : rmatrix := fun i j => A j i.

Definition meq (n : nat) (A B : rmatrix) :=
  forall i j, (i < n)%nat -> (j < n)%nat -> A i j = B i j.

(* B = ᵗQ A Q, where Q is orthogonal. *)
Definition orthogonally_similar (n : nat) (A B : rmatrix) :=
  exists Q, orthogonal n Q /\ meq n B (rmul n (transpose Q) (rmul n A Q)).

Definition rapply (n : nat) (A : rmatrix) (x : rvector) (i : nat) : R :=
  rsum n (fun j => A i j * x j).

Definition eigenvalue (n : nat) (A : rmatrix) (lambda : R) :=
  exists x, (exists i, (i < n)%nat /\ x i <> 0) /\
    forall i, (i < n)%nat -> rapply n A x i = lambda * x i.

Definition upper_hessenberg (n : nat) (H : rmatrix) :=
  forall i j, (i < n)%nat -> (S j < i)%nat -> H i j = 0.

(* The matrix of the reflection: I - beta v ᵗv. *)
Definition reflection_matrix (P : reflection) : rmatrix :=
  fun i j => delta i j - refl_beta P * refl_v P i * refl_v P j.

Definition norm (n : nat) (x : rvector) : R := sqrt (rsum n (fun i => x i * x i)).

(* The vector is a negative multiple of the first vector of the basis. *)
Definition negative_axis (m : nat) (x : rvector) :=
  x 0%nat < 0 /\ forall i, (0 < i < m)%nat -> x i = 0.

Definition symmetric (n : nat) (A : rmatrix) :=
  forall i j, (i < n)%nat -> (j < n)%nat -> A i j = A j i.

(* The sum of the squares of the elements that are not on the diagonal. *)
Definition off (n : nat) (A : rmatrix) : R :=
  rsum n (fun i => rsum n (fun j => if (i =? j)%nat then 0 else A i j * A i j)).

(* The block of a matrix that starts at row and column p. *)
Definition sub (p : nat) (H : rmatrix) : rmatrix :=
  fun i j => H (p + i)%nat (p + j)%nat.

(* The computation of the code, restricted to the vectors that are not negative
   multiples of the first vector of the basis: it fails on the other ones. *)
Definition checked : reflector := fun m x =>
  match ComputeHouseholderReflection m x with
  | None => None
  | Some P => if Req_EM_T (refl_beta P) (-2) then None else Some P
  end.

(* The elements below the diagonal. *)
Definition sd (H : rmatrix) (i : nat) : R := H i (i - 1)%nat.

(* One iteration of the method of Jacobi: rotations on both sides. *)
Definition rotate (D : rmatrix) (p q : nat) : rmatrix :=
  let J := SymmetricSchurDecomposition2By2 D p q in
  PremultiplyByTranspose J (PostMultiplyRotation D J).

(* The rate of convergence of the method of Jacobi. *)
Definition rate (n : nat) : R := 1 - 2 / (INR n * (INR n - 1)).

(* The square of the norm of the residual of the eigenvalue i. *)
Definition residual (n : nat) (A V : rmatrix) (lambda : rvector) (i : nat) : R :=
  rsum n (fun k => (rapply n A (fun l => V l i) k - lambda i * V k i)
                   * (rapply n A (fun l => V l i) k - lambda i * V k i)).
