(* Vocabulary for the statements about the q-method: the problem of Wahba. *)
From Coq Require Import Reals List.
From Verif Require Import Geometry_Model Eigen_Model Eigen_Spec Davenport_Model.
Import ListNotations.
Local Open Scope R_scope.

(* The sum of w (b · R a). *)
Fixpoint gain (q : Quaternion) (a b : list R3) (weights : list R) : R :=
  match a, b, weights with
  | a0 :: a', b0 :: b', w :: weights' =>
    w * Dot b0 (Geometry_Model.rotate q a0) + gain q a' b' weights'
  | _, _, _ => 0
  end.

(* The sum of w |b - R a|². *)
Fixpoint loss (q : Quaternion) (a b : list R3) (weights : list R) : R :=
  match a, b, weights with
  | a0 :: a', b0 :: b', w :: weights' =>
    w * Norm2 (sub3 b0 (Geometry_Model.rotate q a0)) + loss q a' b' weights'
  | _, _, _ => 0
  end.

Definition unit (q : Quaternion) : Prop := QNorm2 q = 1.

(* The lists have the same length. *)
Definition same_size {A B C} (a : list A) (b : list B) (c : list C) : Prop :=
  length a = length b /\ length a = length c.

(* What the method of Jacobi guarantees about the elements that are not on the diagonal:
   their size is that of the threshold, or decreased geometrically. *)
Definition remainder (iterations : nat) (eps : R) (K : rmatrix) : R :=
  Rmax (12 * (eps * FrobeniusNorm 4 K) ^ 2) (rate 4 ^ iterations * off 4 K).
