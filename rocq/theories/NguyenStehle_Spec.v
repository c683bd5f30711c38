(* Vocabulary for the statements about the reduction of Nguyễn and Stehlé. *)
From Coq Require Import ZArith QArith Qcanon Qcabs List Bool Arith.
From Verif Require Import Matrix_Model Matrix_Spec Lattice_Model Lattice_Spec.
From Verif Require Import NguyenStehle_Model.
Local Open Scope nat_scope.

(* The matrix in some storage. *)
Definition zof (b : grid Z) : zmatrix := fun i j => nth j (nth i b nil) 0%Z.

(* The product of the columns i and j. *)
Definition gram (n : nat) (v : zmatrix) (i j : nat) : Z :=
  zsum n (fun r => (v r i * v r j)%Z).

(* G contains the Gram matrix of the d columns of b. *)
Definition is_gram (n d : nat) (b G : grid Z) :=
  forall i j, i < d -> j < d -> zof G i j = gram n (zof b) i j.

(* The column that moves to the index c when the column [from] is inserted at the
   index [to]. *)
Definition inserted (from to c : nat) : nat :=
  if c <? to then c else if c =? to then from else if c <=? from then c - 1 else c.

(* The columns are independent. *)
Definition independent (n d : nat) (v : zmatrix) :=
  forall z, (forall i, i < n -> combination d v z i = 0%Z) ->
  forall j, j < d -> z j = 0%Z.

(* A reduced basis, for the parameters eta and delta. *)
Definition reduced (eta delta : Qc) (m n : nat) (v : zmatrix) :=
  (forall i j, i < j < n -> (Qcabs (mu m (to_Qc v) i j) <= eta)%Qc) /\
  (forall j, 0 < j < n ->
     ((delta - mu m (to_Qc v) (j - 1) j * mu m (to_Qc v) (j - 1) j)
      * inner m (star m (to_Qc v) (j - 1)) (star m (to_Qc v) (j - 1))
      <= inner m (star m (to_Qc v) j) (star m (to_Qc v) j))%Qc).
