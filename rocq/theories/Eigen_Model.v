(* Orthogonal transformations and eigenvalues:
   numerics/matrix_computations_body.hpp, over the real numbers.  The rounding of
   the operations is not modelled.  A matrix is a function of two indices, the
   dimensions are passed separately.  The views on blocks of a matrix are
   modelled by the bounds of the blocks. *)
From Coq Require Import Reals List Bool Arith.
Import ListNotations.
Local Open Scope R_scope.

Definition rvector := nat -> R.
Definition rmatrix := nat -> nat -> R.

(* The sum for i from 0 to n - 1: the loops that accumulate a dot product or a
   norm. *)
Fixpoint rsum (n : nat) (f : nat -> R) : R :=
  match n with
  | O => 0
  | S m => rsum m f + f m
  end.

(* matrix_computations_body.hpp:39-44, HouseholderReflection. *)
Record reflection := mkReflection { refl_v : rvector; refl_beta : R }.

(* matrix_computations_body.hpp:46-77, ComputeHouseholderReflection, for a vector
   of size m > 0.  The normalization of a vector that vanishes produces NaNs; this
   is None. *)
Definition ComputeHouseholderReflection (m : nat) (x : rvector)
  : option reflection :=
  let norm := sqrt (rsum m (fun i => x i * x i)) in
  if Req_EM_T norm 0 then None
  else
    let normalized_x := fun i => x i / norm in
    let x1 := normalized_x 0%nat in
    let sigma :=
      rsum m (fun i => if (i =? 0)%nat then 0
                       else normalized_x i * normalized_x i) in
    let v := fun i => if (i =? 0)%nat then 1 else normalized_x i in
    if Req_EM_T sigma 0 then
      if Rlt_dec x1 0 then Some (mkReflection v (-2))
      else Some (mkReflection v 0)
    else
      let v1 := if Rle_dec x1 0 then x1 - 1 else - sigma / (x1 + 1) in
      let v := fun i => if (i =? 0)%nat then v1 else normalized_x i in
      Some (mkReflection (fun i => v i / v1) (2 * (v1 * v1) / (sigma + v1 * v1))).

(* A function that computes a reflection from a size and a vector. *)
Definition reflector := nat -> rvector -> option reflection.

(* matrix_computations_body.hpp:79-89, Premultiply(P, block), where the block has
   m rows from r0 and w columns from c0. *)
Definition Premultiply (r0 m c0 w : nat) (P : reflection) (A : rmatrix) : rmatrix :=
  fun i j =>
    if ((r0 <=? i) && (i <? r0 + m) && (c0 <=? j) && (j <? c0 + w))%nat then
      A i j - (refl_beta P * refl_v P (i - r0)%nat)
              * rsum m (fun k => A (r0 + k)%nat j * refl_v P k)
    else A i j.

(* matrix_computations_body.hpp:91-98, PostMultiply(block, P), where the block has
   w rows from r0 and m columns from c0. *)
Definition PostMultiply (r0 w c0 m : nat) (A : rmatrix) (P : reflection) : rmatrix :=
  fun i j =>
    if ((r0 <=? i) && (i <? r0 + w) && (c0 <=? j) && (j <? c0 + m))%nat then
      A i j - rsum m (fun k => A i (c0 + k)%nat * refl_v P k)
              * (refl_beta P * refl_v P (j - c0)%nat)
    else A i j.

(* matrix_computations_body.hpp:852-874, the body of the loop of
   HessenbergDecomposition. *)
Definition hessenberg_step (reflect : reflector) (n k : nat) (H : rmatrix)
  : option rmatrix :=
  match reflect (n - 1 - k)%nat (fun i => H (k + 1 + i)%nat k) with
  | None => None
  | Some P =>
    let H := Premultiply (k + 1) (n - 1 - k) k (n - k) P H in
    Some (PostMultiply 0 n (k + 1) (n - 1 - k) H P)
  end.

Fixpoint option_loop {S} (a count : nat) (body : nat -> S -> option S) (s : S)
  : option S :=
  match count with
  | O => Some s
  | S count' =>
    match body a s with
    | None => None
    | Some s' => option_loop (Datatypes.S a) count' body s'
    end
  end.

(* matrix_computations_body.hpp:843-876, HessenbergDecomposition, with a given
   function to compute the reflections. *)
Definition hessenberg_with (reflect : reflector) (n : nat) (A : rmatrix)
  : option rmatrix :=
  option_loop 0 (n - 2) (hessenberg_step reflect n) A.
Definition HessenbergDecomposition := hessenberg_with ComputeHouseholderReflection.

(* matrix_computations_body.hpp:180-238, FrancisQRStep, on the block of the matrix
   that starts at row and column p, and has size n > 2. *)
Definition francis_first (p n : nat) (H : rmatrix) : R * R * R :=
  let h := fun i j => H (p + i)%nat (p + j)%nat in
  let m := (n - 1)%nat in
  let s := h (m - 1)%nat (m - 1)%nat + h (n - 1)%nat (n - 1)%nat in
  let t := h (m - 1)%nat (m - 1)%nat * h (n - 1)%nat (n - 1)%nat
           - h (m - 1)%nat (n - 1)%nat * h (n - 1)%nat (m - 1)%nat in
  (h 0%nat 0%nat * h 0%nat 0%nat + h 0%nat 1%nat * h 1%nat 0%nat
     - s * h 0%nat 0%nat + t,
   h 1%nat 0%nat * (h 0%nat 0%nat + h 1%nat 1%nat - s),
   h 1%nat 0%nat * h 2%nat 1%nat).

Definition xyz_vector (xyz : R * R * R) : rvector :=
  let '(x, y, z) := xyz in
  fun i => match i with O => x | 1%nat => y | _ => z end.

(* matrix_computations_body.hpp:196-222, the body of the loop. *)
Definition francis_body (reflect : reflector) (p n k : nat)
    (s : rmatrix * (R * R * R)) : option (rmatrix * (R * R * R)) :=
  let '(H, (x, y, z)) := s in
  match reflect 3%nat (xyz_vector (x, y, z)) with
  | None => None
  | Some P =>
    let q := Nat.max 1 k in
    let H := Premultiply (p + k) 3 (p + q - 1) (n - q + 1) P H in
    let r := Nat.min (k + 4) n in
    let H := PostMultiply p r (p + k) 3 H P in
    let z := if (k <? n - 3)%nat then H (p + k + 3)%nat (p + k)%nat else z in
    Some (H, (H (p + k + 1)%nat (p + k)%nat, H (p + k + 2)%nat (p + k)%nat, z))
  end.

Definition francis_with (reflect : reflector) (p n : nat) (H : rmatrix)
  : option rmatrix :=
  match option_loop 0 (n - 2) (francis_body reflect p n)
          (H, francis_first p n H) with
  | None => None
  | Some (H, (x, y, _)) =>
    match reflect 2%nat (fun i => if (i =? 0)%nat then x else y) with
    | None => None
    | Some P =>
      let H := Premultiply (p + n - 2) 2 (p + n - 3) 3 P H in
      Some (PostMultiply p n (p + n - 2) 2 H P)
    end
  end.
Definition FrancisQRStep := francis_with ComputeHouseholderReflection.

(* matrix_computations_body.hpp:890-894: the small subdiagonal elements are
   replaced by zero. *)
Fixpoint deflate (i count : nat) (eps : R) (H : rmatrix) : rmatrix :=
  match count with
  | O => H
  | S count' =>
    let H :=
      if Rle_dec (Rabs (H i (i - 1)%nat))
                 (eps * (Rabs (H i i) + Rabs (H (i - 1)%nat (i - 1)%nat)))
      then fun k l => if ((k =? i) && (l =? i - 1))%nat then 0 else H k l
      else H in
    deflate (S i) count' eps H
  end.

(* matrix_computations_body.hpp:896-911: the computation of q; [count] is the
   number of remaining values of i. *)
Fixpoint find_q (n : nat) (H : rmatrix) (i count : nat)
    (has_subdiagonal_element : bool) (q : nat) : nat :=
  match count with
  | O => q
  | S count' =>
    if (i =? n)%nat then find_q n H (S i) count' false i
    else if Req_EM_T (H (n - i)%nat (n - i - 1)%nat) 0
    then find_q n H (S i) count' false i
    else if has_subdiagonal_element then q
    else find_q n H (S i) count' true q
  end.

(* matrix_computations_body.hpp:917-922: the computation of p. *)
Fixpoint find_p (H : rmatrix) (p : nat) : nat :=
  match p with
  | O => O
  | S p' => if Req_EM_T (H p p') 0 then p else find_p H p'
  end.

(* matrix_computations_body.hpp:889-930, the loop of RealSchurDecomposition.  The
   first None is a loop that did not end within the given number of iterations,
   the second one a NaN. *)
Fixpoint schur_loop (fuel n : nat) (eps : R) (H : rmatrix) : option (option rmatrix) :=
  match fuel with
  | O => None
  | S fuel' =>
    let H := deflate 1 (n - 1) eps H in
    let q := find_q n H 1 n false 0 in
    if (q =? n)%nat then Some (Some H)
    else
      let p := find_p H (n - q - 1) in
      match FrancisQRStep p (n - q - p) H with
      | None => Some None
      | Some H => schur_loop fuel' n eps H
      end
  end.

(* matrix_computations_body.hpp:878-965, the matrix T computed by
   RealSchurDecomposition.  The computation of the eigenvalues of its diagonal
   blocks is not modelled. *)
Definition RealSchurDecomposition (fuel n : nat) (A : rmatrix) (eps : R)
  : option (option rmatrix) :=
  match HessenbergDecomposition n A with
  | None => Some None
  | Some H => schur_loop fuel n eps H
  end.

(* ------------------------------------------------------------------ Jacobi *)

(* matrix_computations_body.hpp:100-108, JacobiRotation. *)
Record rotation := mkRotation { cos_ : R; sin_ : R; p_ : nat; q_ : nat }.

(* matrix_computations_body.hpp:110-137, SymmetricSchurDecomposition2By2. *)
Definition SymmetricSchurDecomposition2By2 (A : rmatrix) (p q : nat) : rotation :=
  if Req_EM_T (A p q) 0 then mkRotation 1 0 p q
  else
    let tau := (A q q - A p p) / (2 * A p q) in
    let t := if Rle_dec 0 tau then 1 / (tau + sqrt (1 + tau * tau))
             else 1 / (tau - sqrt (1 + tau * tau)) in
    let c := 1 / sqrt (1 + t * t) in
    mkRotation c (t * c) p q.

(* matrix_computations_body.hpp:141-151, PremultiplyByTranspose.  Each iteration
   of the loop only accesses one column. *)
Definition PremultiplyByTranspose (J : rotation) (A : rmatrix) : rmatrix :=
  fun i j =>
    if (i =? p_ J)%nat then cos_ J * A (p_ J) j - sin_ J * A (q_ J) j
    else if (i =? q_ J)%nat then sin_ J * A (p_ J) j + cos_ J * A (q_ J) j
    else A i j.

(* matrix_computations_body.hpp:153-163, PostMultiply. *)
Definition PostMultiplyRotation (A : rmatrix) (J : rotation) : rmatrix :=
  fun i j =>
    if (j =? p_ J)%nat then cos_ J * A i (p_ J) - sin_ J * A i (q_ J)
    else if (j =? q_ J)%nat then sin_ J * A i (p_ J) + cos_ J * A i (q_ J)
    else A i j.

(* The pairs (p, q) in the order of the two loops,
   matrix_computations_body.hpp:986-987. *)
Definition pairs (n : nat) : list (nat * nat) :=
  flat_map (fun p => map (fun q => (p, q)) (seq (S p) (n - S p))) (seq 0 n).

(* matrix_computations_body.hpp:981-995: the largest element above the diagonal
   and its position (None is the initial -1). *)
Definition largest_off_diagonal (n : nat) (A : rmatrix) : R * option (nat * nat) :=
  fold_left (fun '(max, pq) '(p, q) =>
    if Rle_dec max (Rabs (A p q)) then (Rabs (A p q), Some (p, q)) else (max, pq))
    (pairs n) (0, None).

Definition FrobeniusNorm (n : nat) (A : rmatrix) : R :=
  sqrt (rsum n (fun i => rsum n (fun j => A i j * A i j))).

(* matrix_computations_body.hpp:980-1013, the loop; the state is the pair of the
   diagonalized matrix and of V.  An access with the index -1 is None. *)
Fixpoint jacobi_loop (n iterations : nat) (threshold : R) (s : rmatrix * rmatrix)
  : option (rmatrix * rmatrix) :=
  match iterations with
  | O => Some s
  | S iterations' =>
    let '(D, V) := s in
    let '(max, pq) := largest_off_diagonal n D in
    if Rle_dec max threshold then Some s
    else
      match pq with
      | None => None
      | Some (p, q) =>
        let J := SymmetricSchurDecomposition2By2 D p q in
        let D := PremultiplyByTranspose J (PostMultiplyRotation D J) in
        jacobi_loop n iterations' threshold (D, PostMultiplyRotation V J)
      end
  end.

Definition identity : rmatrix := fun i j => if (i =? j)%nat then 1 else 0.

(* matrix_computations_body.hpp:967-1019, ClassicalJacobi: the rotation and the
   eigenvalues.  The logging is not modelled. *)
Definition ClassicalJacobi (n : nat) (A : rmatrix) (max_iterations : nat) (eps : R)
  : option (rmatrix * rvector) :=
  match jacobi_loop n max_iterations (eps * FrobeniusNorm n A) (A, identity) with
  | None => None
  | Some (D, V) => Some (V, fun i => D i i)
  end.
