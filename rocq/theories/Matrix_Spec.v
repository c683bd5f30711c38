(* Vocabulary for the statements about linear algebra over the rationals.  It
   only depends on the types of Matrix_Model.v. *)
From Coq Require Import ZArith QArith Qcanon Qcabs Bool Arith.
From Verif Require Import Matrix_Model.
Local Open Scope nat_scope.

Fixpoint sum (n : nat) (f : nat -> Qc) : Qc :=
  match n with
  | O => 0%Qc
  | S m => (sum m f + f m)%Qc
  end.

(* The product of a matrix and a vector. *)
Definition apply (n : nat) (A : matrix) (x : vector) (i : nat) : Qc :=
  sum n (fun j => (A i j * x j)%Qc).

(* The part of a matrix that is stored in a triangular matrix. *)
Definition upper (U : matrix) : matrix :=
  fun i j => if i <=? j then U i j else 0%Qc.
Definition lower (L : matrix) : matrix :=
  fun i j => if j <=? i then L i j else 0%Qc.

Definition solves (n : nat) (A : matrix) (b x : vector) :=
  forall i, i < n -> apply n A x i = b i.

(* The rows of one system are those of the other, permuted. *)
Definition permutation (n : nat) (p q : nat -> nat) :=
  forall i, i < n -> p i < n /\ q i < n /\ p (q i) = i /\ q (p i) = i.

Definition permuted (n : nat) (A : matrix) (b : vector) (A' : matrix) (b' : vector) :=
  exists p q, permutation n p q /\
    (forall i j, i < n -> j < n -> A' i j = A (p i) j) /\
    (forall i, i < n -> b' i = b (p i)).

(* The columns are linearly independent. *)
Definition nonsingular (n : nat) (A : matrix) :=
  forall x, solves n A (fun _ => 0%Qc) x -> forall i, i < n -> x i = 0%Qc.

Definition column_dominant (n : nat) (A : matrix) :=
  forall k, k < n ->
    (sum n (fun i => if i =? k then 0%Qc else Qcabs (A i k)) < Qcabs (A k k))%Qc.

(* A symmetric matrix that defines an inner product. *)
Definition positive_definite (n : nat) (A : matrix) :=
  (forall i j, i < n -> j < n -> A i j = A j i) /\
  (forall x : vector, (exists i, i < n /\ x i <> 0%Qc) ->
     (0 < sum n (fun i => x i * apply n A x i))%Qc).
