(* Factorizations of matrices: numerics/matrix_computations_body.hpp, in exact
   arithmetic.  A matrix is a function of the row and of the column, and the dimension is
   passed separately; only the upper half of a triangular matrix is accessed. *)
From Coq Require Import Reals Bool Arith.
From Verif Require Import Eigen_Model.
Local Open Scope R_scope.

Definition set2 (A : rmatrix) (i j : nat) (v : R) : rmatrix :=
  fun a b => if (a =? i)%nat && (b =? j)%nat then v else A a b.
Definition set1 (D : rvector) (i : nat) (v : R) : rvector :=
  fun a => if (a =? i)%nat then v else D a.

(* for (i = start; i < start + count; ++i).  None if the result of an iteration is not a
   number or is infinite. *)
Fixpoint iterate {S : Type} (start count : nat) (f : nat -> S -> option S) (s : S) : option S :=
  match count with
  | O => Some s
  | Datatypes.S count' =>
    match f start s with
    | Some s => iterate (Datatypes.S start) count' f s
    | None => None
    end
  end.

Definition divide (x y : R) : option R := if Req_EM_T y 0 then None else Some (x / y).
Definition square_root (x : R) : option R := if Rlt_dec x 0 then None else Some (sqrt x).

(* matrix_computations_body.hpp:665-671, the element (i, j) of R. *)
Definition cholesky_element (A : rmatrix) (j i : nat) (r : rmatrix) : option rmatrix :=
  match divide (A i j - rsum i (fun k => r k i * r k j)) (r i i) with
  | Some v => Some (set2 r i j v)
  | None => None
  end.

(* matrix_computations_body.hpp:664-679, the column j of R. *)
Definition cholesky_column (A : rmatrix) (j : nat) (r : rmatrix) : option rmatrix :=
  match iterate 0 j (cholesky_element A j) r with
  | None => None
  | Some r =>
    match square_root (A j j - rsum j (fun k => r k j * r k j)) with
    | Some v => Some (set2 r j j v)
    | None => None
    end
  end.

(* matrix_computations_body.hpp:657-681, CholeskyDecomposition.  [junk] is the contents of
   the uninitialized storage. *)
Definition CholeskyDecomposition (n : nat) (A junk : rmatrix) : option rmatrix :=
  iterate 0 n (cholesky_column A) junk.

(* matrix_computations_body.hpp:697-703, the element (i, j) of R. *)
Definition rdr_element (A : rmatrix) (d : rvector) (i j : nat) (r : rmatrix) : option rmatrix :=
  match divide (A i j - rsum i (fun k => r k i * r k j * d k)) (d i) with
  | Some v => Some (set2 r i j v)
  | None => None
  end.

(* matrix_computations_body.hpp:691-705, the row i of R and the element i of D. *)
Definition rdr_row (n : nat) (A : rmatrix) (i : nat) (s : rmatrix * rvector)
  : option (rmatrix * rvector) :=
  let '(r, d) := s in
  let d := set1 d i (A i i - rsum i (fun k => r k i * r k i * d k)) in
  match iterate (i + 1) (n - (i + 1)) (rdr_element A d i) r with
  | None => None
  | Some r => Some (set2 r i i 1, d)
  end.

(* matrix_computations_body.hpp:683-707, ᵗRDRDecomposition. *)
Definition RDRDecomposition (n : nat) (A : rmatrix) (junk : rmatrix * rvector)
  : option (rmatrix * rvector) :=
  iterate 0 n (rdr_row n A) junk.

(* matrix_computations_body.hpp:758-780, the column j of Q and of R. *)
Definition gs_column (n : nat) (A : rmatrix) (j : nat) (s : rmatrix * rmatrix)
  : option (rmatrix * rmatrix) :=
  let '(q, r) := s in
  match iterate 0 j (fun i r => Some (set2 r i j (rsum n (fun k => q k i * A k j)))) r with
  | None => None
  | Some r =>
    match iterate 0 j (fun k (v : rvector) => Some (fun i => v i - r k j * q i k))
            (fun i => A i j) with
    | None => None
    | Some q' =>
      let r := set2 r j j (sqrt (rsum n (fun i => q' i * q' i))) in
      if Req_EM_T (r j j) 0 then None
      else Some (fun a b => if (b =? j)%nat then q' a / r j j else q a b, r)
    end
  end.

(* matrix_computations_body.hpp:748-783, ClassicalGramSchmidt, for a square matrix; the
   result is (Q, R). *)
Definition ClassicalGramSchmidt (n : nat) (A : rmatrix) (junk : rmatrix * rmatrix)
  : option (rmatrix * rmatrix) :=
  iterate 0 n (gs_column n A) junk.

(* matrix_computations_body.hpp:1021-1026, RayleighQuotient. *)
Definition RayleighQuotient (n : nat) (A : rmatrix) (x : rvector) : option R :=
  divide (rsum n (fun i => x i * rsum n (fun j => A i j * x j))) (rsum n (fun i => x i * x i)).

Definition normalize (n : nat) (x : rvector) : option rvector :=
  let norm := sqrt (rsum n (fun i => x i * x i)) in
  if Req_EM_T norm 0 then None else Some (fun i => x i / norm).

(* matrix_computations_body.hpp:1040-1043. *)
Definition shift (A : rmatrix) (mu : R) : rmatrix :=
  fun i j => if (i =? j)%nat then A i j - mu else A i j.

(* matrix_computations_body.hpp:1038-1055, the loop; [mu] is the uninitialized or previous
   eigenvalue.  The function Solve and the threshold are parameters. *)
Fixpoint rayleigh_loop (solve : rmatrix -> rvector -> option rvector) (threshold : R)
    (iterations n : nat) (A : rmatrix) (x : rvector) (mu : R) : option (rvector * R) :=
  match iterations with
  | O => Some (x, mu)
  | Datatypes.S iterations' =>
    match RayleighQuotient n A x with
    | None => None
    | Some mu =>
      let residual := sqrt (rsum n (fun i => rsum n (fun j => shift A mu i j * x j)
                                            * rsum n (fun j => shift A mu i j * x j))) in
      if Rlt_dec residual threshold then Some (x, mu)
      else
        match solve (shift A mu) x with
        | None => None
        | Some z =>
          match normalize n z with
          | None => None
          | Some x => rayleigh_loop solve threshold iterations' n A x mu
          end
        end
    end
  end.

(* matrix_computations_body.hpp:1028-1056, RayleighQuotientIteration; the number of
   iterations is 10 in the code, and the threshold is 2⁻⁵¹. *)
Definition RayleighQuotientIteration (solve : rmatrix -> rvector -> option rvector)
    (threshold : R) (iterations n : nat) (A : rmatrix) (x : rvector) (junk : R)
  : option (rvector * R) :=
  match normalize n x with
  | None => None
  | Some x => rayleigh_loop solve threshold iterations n A x junk
  end.
