(* The reduction of lattices: numerics/lattices_body.hpp (LenstraLenstraLovász),
   and the orthogonalization that it uses.  The matrices have integer elements
   (cpp_int) and the results of the orthogonalization are rational (cpp_rational):
   the operations are exact, except [Round] below.  A matrix is a function of the
   row and of the column, and the dimensions are passed separately. *)
From Coq Require Import ZArith QArith Qcanon List Bool Arith.
From Verif Require Import Matrix_Model.
Local Open Scope nat_scope.

Definition zmatrix := nat -> nat -> Z.

Definition of_Z (z : Z) : Qc := Q2Qc (inject_Z z).
Definition to_Qc (A : zmatrix) : matrix := fun i j => of_Z (A i j).

(* numerics/matrix_views_body.hpp:229-238, the product of a transposed column and
   of a column; Norm² is the same loop (numerics/matrix_views_body.hpp:203-212). *)
Definition dot (m : nat) (x y : vector) : Qc :=
  loop 0 m (fun i s => (s + x i * y i)%Qc) 0%Qc.
Definition column (A : matrix) (j : nat) : vector := fun i => A i j.
Definition set_column (A : matrix) (j : nat) (x : vector) : matrix :=
  fun i k => if k =? j then x i else A i k.

(* numerics/matrix_computations_body.hpp:805-820: the elements of R above the
   diagonal, in the column j. *)
Definition gram_schmidt_R (m j : nat) (A Q R : matrix) : matrix :=
  loop 0 j (fun i R =>
    let q_norm2 := dot m (column Q i) (column Q i) in
    mset R i j
      (if Qc_eq_dec q_norm2 0%Qc then 0%Qc
       else (dot m (column Q i) (column A j) / q_norm2)%Qc)) R.

(* numerics/matrix_computations_body.hpp:821-837: the column j of Q. *)
Definition gram_schmidt_Q (j : nat) (A Q R : matrix) : matrix :=
  loop 0 j (fun k Q => set_column Q j (fun i => (Q i j - R k j * Q i k)%Qc))
    (set_column Q j (column A j)).

(* numerics/matrix_computations_body.hpp:783-841, UnitriangularGramSchmidt; the
   result is (Q, R).  [junk] are the contents of the uninitialized storage. *)
Definition UnitriangularGramSchmidt (m n : nat) (A : matrix) (junk : matrix * matrix)
  : matrix * matrix :=
  loop 0 n (fun j '(Q, R) =>
    let R := gram_schmidt_R m j A Q R in
    let Q := gram_schmidt_Q j A Q R in
    (Q, mset R j j 1%Qc)) junk.

(* The conversion of the nonnegative rational num / den to a number with
   [precision] binary digits, rounded to the nearest, ties to even: the result is
   the significand and the exponent. *)
Definition to_bin_float (precision : Z) (num den : Z) : Z * Z :=
  (let a := Z.log2 num - Z.log2 den in
   let below :=
     if 0 <=? a then num <? den * 2 ^ a else num * 2 ^ (- a) <? den in
   let e := (if below then a - 1 else a) - (precision - 1) in
   let n := num * 2 ^ Z.max 0 (- e) in
   let d := den * 2 ^ Z.max 0 e in
   let q := n / d in
   let r := n mod d in
   (if (2 * r <? d) || ((2 * r =? d) && Z.even q) then q else q + 1, e))%Z%bool.

(* round(significand * 2 ^ exponent), ties away from zero. *)
Definition round_bin_float (significand exponent : Z) : Z :=
  if (0 <=? exponent)%Z then (significand * 2 ^ exponent)%Z
  else ((2 * significand + 2 ^ (- exponent)) / (2 * 2 ^ (- exponent)))%Z.

(* numerics/elementary_functions_body.hpp:243-246, Round.  The significand of
   cpp_bin_float_50 has 168 binary digits. *)
Definition Round (x : Qc) : Z :=
  let num := Qnum (this x) in
  let den := Zpos (Qden (this x)) in
  if (num =? 0)%Z then 0%Z
  else
    let '(significand, exponent) := to_bin_float 168 (Z.abs num) den in
    (Z.sgn num * round_bin_float significand exponent)%Z.

(* vₖ -= r * vⱼ, lattices_body.hpp:487. *)
Definition subtract_column (v : zmatrix) (k j : nat) (r : Z) : zmatrix :=
  fun i l => if l =? k then (v i k - r * v i j)%Z else v i l.

(* numerics/matrix_views_body.hpp:219-226, SwapColumns. *)
Definition swap_columns (v : zmatrix) (a b : nat) : zmatrix :=
  fun i l => if l =? a then v i b else if l =? b then v i a else v i l.

(* numerics/lattices_body.hpp:479-490, the loop on j, from j = count - 1 down to 0.
   [round] is the function Round, and [junk] the contents of the uninitialized
   storage of the orthogonalization. *)
Fixpoint reduce_loop (round : Qc -> Z) (junk : matrix * matrix) (m n k count : nat)
    (v : zmatrix) (qr : matrix * matrix) : zmatrix * (matrix * matrix) :=
  match count with
  | O => (v, qr)
  | S j =>
    let mu := snd qr j k in
    let r := round mu in
    if (r =? 0)%Z then reduce_loop round junk m n k j v qr
    else
      let v := subtract_column v k j r in
      reduce_loop round junk m n k j v
        (UnitriangularGramSchmidt m n (to_Qc v) junk)
  end.

Definition three_quarters : Qc := Q2Qc (3 # 4).

(* numerics/lattices_body.hpp:474-509, the body of the loop on k: the new value of
   k and the new matrix. *)
Definition lll_step (round : Qc -> Z) (junk : matrix * matrix) (m n k : nat)
    (v : zmatrix) : nat * zmatrix :=
  let qr := UnitriangularGramSchmidt m n (to_Qc v) junk in
  let '(v, qr) := reduce_loop round junk m n k k v qr in
  let mu := snd qr (k - 1) k in
  let vk := column (fst qr) k in
  let vk1 := column (fst qr) (k - 1) in
  if Qclt_le_dec (dot m vk vk) ((three_quarters - mu * mu) * dot m vk1 vk1)%Qc
  then (Nat.max (k - 1) 1, swap_columns v (k - 1) k)
  else (S k, v).

(* numerics/lattices_body.hpp:473, the loop; None if there are more than [fuel]
   iterations. *)
Fixpoint lll_loop (round : Qc -> Z) (junk : matrix * matrix) (fuel m n k : nat)
    (v : zmatrix) : option zmatrix :=
  if k <? n then
    match fuel with
    | O => None
    | S fuel' =>
      let '(k, v) := lll_step round junk m n k v in
      lll_loop round junk fuel' m n k v
    end
  else Some v.

(* numerics/lattices_body.hpp:463-512, LenstraLenstraLovász. *)
Definition LenstraLenstraLovasz (round : Qc -> Z) (junk : matrix * matrix)
    (fuel m n : nat) (L : zmatrix) : option zmatrix :=
  lll_loop round junk fuel m n 1 L.
