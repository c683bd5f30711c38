(* The q-method of Davenport: numerics/davenport_q_method_body.hpp. *)
From Coq Require Import Reals List Bool Arith.
From Verif Require Import Geometry_Model Eigen_Model.
Import ListNotations.
Local Open Scope R_scope.

(* geometry/r3x3_matrix_body.hpp:391-398, KroneckerProduct. *)
Definition KroneckerProduct (l r : R3) : M3 :=
  mkM (scal3 (cx l) r) (scal3 (cy l) r) (scal3 (cz l) r).

(* geometry/r3x3_matrix.hpp:33 and r3_element_body.hpp:28-33: a matrix is initialized
   to zero. *)
Definition zero3 : R3 := mk3 0 0 0.
Definition M_zero : M3 := mkM zero3 zero3 zero3.

(* davenport_q_method_body.hpp:36-42, the attitude profile matrix. *)
Fixpoint attitude_profile (B : M3) (a b : list R3) (weights : list R) : M3 :=
  match a, b, weights with
  | a0 :: a', b0 :: b', w :: weights' =>
    attitude_profile (Madd B (Mscal w (KroneckerProduct b0 a0))) a' b' weights'
  | _, _, _ => B
  end.

Definition coordinate (v : R3) (i : nat) : R :=
  match i with 0%nat => cx v | 1%nat => cy v | _ => cz v end.
(* geometry/r3x3_matrix_body.hpp:29-42. *)
Definition element (m : M3) (i j : nat) : R :=
  coordinate (match i with 0%nat => rx m | 1%nat => ry m | _ => rz m end) j.

(* davenport_q_method_body.hpp:44-66, the matrix K. *)
Definition K_matrix (B : M3) : rmatrix :=
  let z := mk3 (element B 1 2 - element B 2 1)
               (element B 2 0 - element B 0 2)
               (element B 0 1 - element B 1 0) in
  let S := Madd B (Transpose B) in
  let mu := Trace B in
  fun i j =>
    if (i <? 3)%nat && (j <? 3)%nat then
      if (i =? j)%nat then element S i j - mu else element S i j
    else if (j <? 3)%nat then coordinate z j
    else if (i <? 3)%nat then coordinate z i
    else mu.

(* davenport_q_method_body.hpp:73-83: the most positive eigenvalue (None is the initial
   negative infinity) and the eigenvector (initially the zero quaternion). *)
Definition most_positive (n : nat) (V : rmatrix) (eigenvalues : rvector)
  : option R * Quaternion :=
  fold_left (fun '(most, eigenvector) i =>
    let larger := match most with
                  | None => true
                  | Some m => if Rlt_dec m (eigenvalues i) then true else false
                  end in
    if larger then (Some (eigenvalues i), mkQ (V 3%nat i) (mk3 (V 0%nat i) (V 1%nat i) (V 2%nat i)))
    else (most, eigenvector))
    (seq 0 n) (None, mkQ 0 zero3).

(* davenport_q_method_body.hpp:26-88, DavenportQMethod; None if the lists don't have the
   same length.  The number of iterations is 20 in the code, and [eps] is 2⁻⁵⁹. *)
Definition DavenportQMethod (iterations : nat) (eps : R) (a b : list R3) (weights : list R)
  : option Quaternion :=
  if (length a =? length b)%nat && (length a =? length weights)%nat then
    let B := attitude_profile M_zero a b weights in
    match ClassicalJacobi 4 (K_matrix B) iterations eps with
    | None => None
    | Some (V, eigenvalues) => Some (Conjugate (snd (most_positive 4 V eigenvalues)))
    end
  else None.
