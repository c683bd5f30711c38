(* Vocabulary for the statements about lattices. *)
From Coq Require Import ZArith QArith Qcanon Qcabs Bool Arith.
From Verif Require Import Matrix_Model Matrix_Spec Lattice_Model.
Local Open Scope nat_scope.

Definition inner (m : nat) (x y : vector) : Qc := sum m (fun i => (x i * y i)%Qc).

(* The coefficient of the projection of a on q; 0 if q vanishes. *)
Definition coef (m : nat) (q a : vector) : Qc :=
  if Qc_eq_dec (inner m q q) 0%Qc then 0%Qc else (inner m q a / inner m q q)%Qc.

(* The first j vectors of the orthogonalization of the columns of A. *)
Fixpoint stars (m : nat) (A : matrix) (j : nat) : nat -> vector :=
  match j with
  | O => fun _ _ => 0%Qc
  | S j' =>
    let previous := stars m A j' in
    fun k =>
      if k =? j' then
        fun i =>
          (A i j' - sum j' (fun l => coef m (previous l) (fun i => A i j')
                                     * previous l i))%Qc
      else previous k
  end.
Definition star (m : nat) (A : matrix) (j : nat) : vector := stars m A (S j) j.
Definition mu (m : nat) (A : matrix) (l j : nat) : Qc :=
  coef m (star m A l) (fun i => A i j).

Fixpoint zsum (n : nat) (f : nat -> Z) : Z :=
  match n with
  | O => 0%Z
  | S n' => (zsum n' f + f n')%Z
  end.

(* The integer combination of the columns of v. *)
Definition combination (n : nat) (v : zmatrix) (z : nat -> Z) (i : nat) : Z :=
  zsum n (fun j => (z j * v i j)%Z).
Definition in_lattice (m n : nat) (v : zmatrix) (w : nat -> Z) :=
  exists z, forall i, i < m -> w i = combination n v z i.
Definition same_lattice (m n : nat) (v v' : zmatrix) :=
  forall w, in_lattice m n v w <-> in_lattice m n v' w.

Definition half : Qc := Q2Qc (1 # 2).

(* A basis that is reduced in the sense of Lenstra, Lenstra and Lovász. *)
Definition lll_reduced (m n : nat) (v : zmatrix) :=
  (forall i j, i < j < n -> (Qcabs (mu m (to_Qc v) i j) <= half)%Qc) /\
  (forall j, 0 < j < n ->
     ((three_quarters - mu m (to_Qc v) (j - 1) j * mu m (to_Qc v) (j - 1) j)
      * inner m (star m (to_Qc v) (j - 1)) (star m (to_Qc v) (j - 1))
      <= inner m (star m (to_Qc v) j) (star m (to_Qc v) j))%Qc).

(* A function that rounds to the nearest integer. *)
Definition rounds (round : Qc -> Z) :=
  forall x, (Qcabs (x - of_Z (round x)) <= half)%Qc.

(* The square of the length of an integer vector. *)
Definition norm2 (m : nat) (w : nat -> Z) : Z := zsum m (fun i => (w i * w i)%Z).
